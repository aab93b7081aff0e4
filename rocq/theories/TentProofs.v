From Verif Require Import Base ExecModel ExecSpec ExecProofs GraphModel GraphSpec GraphProofs TentModel TentSpec.
From Coq Require Import ZArith Sorted.

Lemma to_int_small z : (- 2 ^ 31 <= z < 2 ^ 31)%Z -> to_int z = z.
Proof. intros H. unfold to_int. rewrite Z.mod_small; lia. Qed.
Lemma tent_cmp_small a b : (Z.of_nat a < 2 ^ 31)%Z -> (Z.of_nat b < 2 ^ 31)%Z ->
  tent_cmp a b = (Z.of_nat a - Z.of_nat b)%Z.
Proof. intros H1 H2. unfold tent_cmp. apply to_int_small. lia. Qed.

Lemma tree_add_spec t : forall n, sorted t -> small (n :: t) ->
  match tree_add t n with
  | Some t' => ~ In n t /\ sorted t' /\ forall x, In x t' <-> x = n \/ In x t
  | None => In n t
  end.
Proof.
  induction t as [|x t IH]; intros n So Sm.
  - cbn. split; [tauto|]. split; [repeat constructor|]. intros x. cbn. intuition.
  - cbn [tree_add]. rewrite tent_cmp_small by (apply Sm; cbn; auto).
    inversion So as [|? ? So' Fx]; subst. rewrite Forall_forall in Fx.
    destruct (Z.ltb_spec (Z.of_nat n - Z.of_nat x) 0) as [L|L].
    + split; [|split].
      * intros [->|H]; [lia|]. specialize (Fx n H). lia.
      * constructor; [exact So|]. rewrite Forall_forall. intros y [<-|H]; [lia|]. specialize (Fx y H). lia.
      * intros y. cbn [In]. intuition.
    + destruct (Z.eqb_spec (Z.of_nat n - Z.of_nat x) 0) as [E|E]; [left; lia|].
      specialize (IH n So'). assert (small (n :: t)) as Sm' by (intros y Hy; apply Sm; cbn in *; tauto).
      specialize (IH Sm'). destruct (tree_add t n) as [t'|]; cbn [obind]; [|right; exact IH].
      destruct IH as [N [S1 I]]. split; [intros [->|H]; [lia|tauto]|]. split.
      * constructor; [exact S1|]. rewrite Forall_forall. intros y Hy. apply I in Hy.
        destruct Hy as [->|Hy]; [lia|exact (Fx y Hy)].
      * intros y. cbn [In]. rewrite I. tauto.
Qed.

Lemma tree_search_spec t : forall n, sorted t -> small (n :: t) -> tree_search t n = true <-> In n t.
Proof.
  induction t as [|x t IH]; intros n So Sm; [cbn; intuition discriminate|].
  cbn [tree_search]. rewrite tent_cmp_small by (apply Sm; cbn; auto).
  inversion So as [|? ? So' Fx]; subst. rewrite Forall_forall in Fx.
  destruct (Z.ltb_spec (Z.of_nat n - Z.of_nat x) 0) as [L|L].
  - split; [discriminate|]. intros [->|H]; [lia|]. specialize (Fx n H). lia.
  - destruct (Z.eqb_spec (Z.of_nat n - Z.of_nat x) 0) as [E|E].
    + split; [|reflexivity]. intros _. left. lia.
    + rewrite IH; [|exact So'|intros y Hy; apply Sm; cbn in *; tauto]. cbn [In]. split; [auto|].
      intros [->|H]; [lia|exact H].
Qed.

(** The differences that the walk meets. *)
Fixpoint diffs (a : list id) : list id -> list difference :=
  match a with
  | [] => map OnlySecond
  | x :: a' => fix go (b : list id) : list difference :=
      match b with
      | [] => OnlyFirst x :: diffs a' []
      | y :: b' =>
        if x =? y then diffs a' b'
        else if x <? y then OnlyFirst x :: diffs a' b
        else OnlySecond y :: go b'
      end
  end.
Definition which (d : difference) : id := match d with OnlyFirst x | OnlySecond x => x end.

Lemma compare_tell {S} (f g : option (id -> S -> option S)) a : forall b s,
  compare_tent_trees f g a b s = tell f g (diffs a b) s.
Proof.
  assert (forall cb x s (k : S -> option S), obind (@call S cb x s) k =
    match cb with None => k s | Some h => match h x s with None => None | Some s' => k s' end end) as O.
  { intros [h|] x s k; reflexivity. }
  assert (forall o (k1 k2 : S -> option S), (forall s, k1 s = k2 s) ->
     match o with None => None | Some s' => k1 s' end = match o with None => None | Some s' => k2 s' end) as P.
  { intros [s'|] k1 k2 H; [apply H|reflexivity]. }
  induction a as [|x a IH].
  - induction b as [|y b IHb]; intros s; [reflexivity|]. cbn [compare_tent_trees diffs map tell]. rewrite O.
    destruct g as [h|]; [apply P|]; apply IHb.
  - induction b as [|y b IHb]; intros s.
    + cbn [compare_tent_trees diffs tell]. rewrite O. destruct f as [h|]; [apply P; intros s'|]; apply IH.
    + cbn [compare_tent_trees diffs]. destruct (x =? y); [apply IH|]. destruct (x <? y); cbn [tell]; rewrite O.
      * destruct f as [h|]; [apply P; intros s'|]; apply IH.
      * destruct g as [h|]; [apply P; intros s'|]; apply IHb.
Qed.

Lemma diffs_spec a : forall b, sorted a -> sorted b ->
  (forall x, In (OnlyFirst x) (diffs a b) <-> In x a /\ ~ In x b) /\
  (forall x, In (OnlySecond x) (diffs a b) <-> In x b /\ ~ In x a) /\
  sorted (map which (diffs a b)) /\ (forall d, In d (diffs a b) -> In (which d) a \/ In (which d) b).
Proof.
  induction a as [|x a IH]; intros b Sa.
  - intros Sb. cbn [diffs]. split; [|split; [|split]].
    + intros x. rewrite in_map_iff. split; [intros [y [E _]]; discriminate|intros [[] _]].
    + intros x. rewrite in_map_iff. split; [intros [y [E H]]; injection E as ->; split; [exact H|intros []]|].
      intros [H _]. exists x. auto.
    + rewrite map_map. cbn [which]. rewrite map_id. exact Sb.
    + intros d H. apply in_map_iff in H. destruct H as [y [<- H]]. right. exact H.
  - inversion Sa as [|? ? Sa' Fx]; subst. rewrite Forall_forall in Fx.
    assert (~ In x a) as Nx by (intros H; specialize (Fx x H); lia).
    induction b as [|y b IHb]; intros Sb.
    + cbn [diffs]. destruct (IH [] Sa' Sb) as [I1 [I2 [I3 I4]]]. split; [|split; [|split]].
      * intros z. cbn [In]. rewrite I1. cbn [In]. split; [intros [E|H]; [injection E as ->|]; tauto|].
        intros [[->|H] _]; [auto|]. right. tauto.
      * intros z. cbn [In]. rewrite I2. cbn [In]. split; [intros [E|H]; [discriminate|]; tauto|tauto].
      * cbn [map which]. constructor; [exact I3|]. rewrite Forall_forall. intros z H. apply in_map_iff in H.
        destruct H as [d [<- H]]. destruct (I4 d H) as [C|C]; [apply Fx; exact C|destruct C].
      * intros d [<-|H]; [left; left; reflexivity|]. destruct (I4 d H) as [C|C]; [left; right; exact C|destruct C].
    + inversion Sb as [|? ? Sb' Fy]; subst. rewrite Forall_forall in Fy.
      assert (~ In y b) as Ny by (intros H; specialize (Fy y H); lia).
      cbn [diffs]. destruct (Nat.eqb_spec x y) as [->|D].
      { destruct (IH b Sa' Sb') as [I1 [I2 [I3 I4]]]. split; [|split; [|split]].
        - intros z. rewrite I1. cbn [In]. destruct (Nat.eq_dec y z) as [->|]; tauto.
        - intros z. rewrite I2. cbn [In]. destruct (Nat.eq_dec y z) as [->|]; tauto.
        - exact I3.
        - intros d H. cbn [In]. destruct (I4 d H); auto. }
      destruct (Nat.ltb_spec x y) as [L|L].
      { assert (~ In x (y :: b)) as N2 by (intros [H|H]; [lia|specialize (Fy x H); lia]).
        destruct (IH (y :: b) Sa' Sb) as [I1 [I2 [I3 I4]]]. split; [|split; [|split]].
        - intros z. cbn [In] in *. rewrite I1. cbn [In]. split.
          + intros [E|H]; [injection E as ->|]; tauto.
          + intros [[->|H] Nz]; [auto|]. right. tauto.
        - intros z. split.
          + intros [E|H]; [discriminate|]. apply I2 in H. split; [tauto|]. intros [->|C]; tauto.
          + intros [H1 H2]. right. apply I2. cbn [In] in H2. tauto.
        - cbn [map which]. constructor; [exact I3|]. rewrite Forall_forall. intros z H. apply in_map_iff in H.
          destruct H as [d [<- H]]. destruct (I4 d H) as [C|[C|C]]; [apply Fx; exact C|lia|specialize (Fy _ C); lia].
        - intros d [<-|H]; [left; left; reflexivity|]. destruct (I4 d H); cbn [In] in *; tauto. }
      { specialize (IHb Sb'). change ((fix go (b0 : list id) : list difference := match b0 with
           | [] => OnlyFirst x :: diffs a [] | y0 :: b' => if x =? y0 then diffs a b' else if x <? y0 then
             OnlyFirst x :: diffs a b0 else OnlySecond y0 :: go b' end) b) with (diffs (x :: a) b).
        destruct IHb as [I1 [I2 [I3 I4]]].
        assert (~ In y (x :: a)) as N2 by (intros [H|H]; [lia|specialize (Fx y H); lia]).
        split; [|split; [|split]].
        - intros z. split.
          + intros [E|H]; [discriminate|]. apply I1 in H. split; [tauto|]. intros [->|C]; tauto.
          + intros [H1 H2]. right. apply I1. cbn [In] in H2. tauto.
        - intros z. split.
          + intros [E|H]; [injection E as ->; split; [left; reflexivity|exact N2]|]. apply I2 in H. cbn [In] in *. tauto.
          + intros [[->|H] Nz]; [left; reflexivity|]. right. apply I2. tauto.
        - cbn [map which]. constructor; [exact I3|]. rewrite Forall_forall. intros z H. apply in_map_iff in H.
          destruct H as [d [<- H]]. destruct (I4 d H) as [[C|C]|C]; [lia|specialize (Fx _ C); lia|apply Fy; exact C].
        - intros d [<-|H]; [right; left; reflexivity|]. destruct (I4 d H); cbn [In] in *; tauto. }
Qed.

Lemma sorted_NoDup l : sorted l -> NoDup l.
Proof.
  induction 1 as [|x l S IH F]; [constructor|]. constructor; [|exact IH].
  rewrite Forall_forall in F. intros H. specialize (F x H). lia.
Qed.
Lemma map_NoDup {A B} (f : A -> B) l : NoDup (map f l) -> NoDup l.
Proof.
  induction l as [|x l IH]; intros H; [constructor|]. inversion H as [|? ? H1 H2]; subst. constructor; [|exact (IH H2)].
  intros C. apply H1. apply in_map. exact C.
Qed.

Theorem compare_spec a b : sorted a -> sorted b -> exists l : list difference,
  (forall x, In (OnlyFirst x) l <-> In x a /\ ~ In x b) /\
  (forall x, In (OnlySecond x) l <-> In x b /\ ~ In x a) /\ NoDup l /\
  forall (S : Type) (f g : option (id -> S -> option S)) s, compare_tent_trees f g a b s = tell f g l s.
Proof.
  intros Sa Sb. exists (diffs a b). destruct (diffs_spec a b Sa Sb) as [I1 [I2 [I3 _]]].
  split; [exact I1|]. split; [exact I2|]. split; [exact (map_NoDup which _ (sorted_NoDup _ I3))|].
  intros S f g s. apply compare_tell.
Qed.

(** ** Outputs *)
Section Out.
Variable kind_of : id -> kind.

Definition extra_report (u : bool) (x : id) : report :=
  if u then match kind_of x with KGhost => Delete x | KGenerated => Reschedule x | _ => Overwritten x end else Unspecified x.
Definition report_of (u c : bool) (d : difference) : list report :=
  match d with OnlyFirst x => [extra_report u x] | OnlySecond x => if c then [NotWritten x] else [] end.
Definition is_first (d : difference) := match d with OnlyFirst _ => true | _ => false end.
Definition drop_maps (l : list difference) (ms : list mapping) : list mapping :=
  fold_left (fun ms d => match d with OnlyFirst x => del_map_of x ms | _ => ms end) l ms.

Lemma tell_outputs (u c : bool) l : forall d, exists d',
  tell (Some (extra_output kind_of u)) (if c then Some missing_output else None) l d = Some d' /\
  reports d' = reports d ++ flat_map (report_of u c) l /\
  err_extra d' = err_extra d || existsb is_first l /\
  err_missing d' = err_missing d || (c && existsb (fun d => negb (is_first d)) l) /\
  maps d' = drop_maps l (maps d).
Proof.
  induction l as [|[x|x] l IH]; intros d.
  - exists d. cbn. rewrite app_nil_r, andb_false_r, !orb_false_r. auto.
  - cbn [tell]. unfold extra_output at 1. edestruct IH as [d2 [E [H1 [H2 [H3 H4]]]]]. exists d2. split; [exact E|].
    rewrite H1, H2, H3, H4. cbn. rewrite <- app_assoc, orb_true_r. auto.
  - cbn [tell]. destruct c.
    + unfold missing_output at 1. edestruct IH as [d2 [E [H1 [H2 [H3 H4]]]]]. exists d2. split; [exact E|].
      rewrite H1, H2, H3, H4. cbn. rewrite <- app_assoc, orb_true_r. auto.
    + destruct (IH d) as [d' [E [H1 [H2 [H3 H4]]]]]. exists d'. split; [exact E|]. rewrite H1, H2, H3, H4. cbn. auto.
Qed.

Lemma del_map_of_spec x ms : NoDup (flat_map (fun m => match mtent m with Some t => [t] | None => [] end) ms) ->
  (forall m, In m (del_map_of x ms) <-> In m ms /\ mtent m <> Some x) /\
  NoDup (flat_map (fun m => match mtent m with Some t => [t] | None => [] end) (del_map_of x ms)).
Proof.
  induction ms as [|m ms IH]; intros ND; [cbn; split; [tauto|constructor]|].
  cbn [del_map_of flat_map] in *. destruct (mtent m) as [y|] eqn:E.
  - cbn [app] in ND. inversion ND as [|? ? N1 N2]; subst. destruct (IH N2) as [I1 I2].
    destruct (Nat.eqb_spec x y) as [->|D].
    + split; [|exact N2]. intros m'. cbn [In]. split.
      * intros H. split; [auto|]. intros C. apply N1. apply in_flat_map. exists m'. rewrite C. split; [exact H|left; reflexivity].
      * intros [[->|H] C]; [congruence|exact H].
    + split.
      * intros m'. cbn [In]. rewrite I1. split; [intros [->|H]; [split; [auto|congruence]|tauto]|tauto].
      * cbn [flat_map]. rewrite E. cbn [app]. constructor; [|exact I2]. intros C. apply N1.
        apply in_flat_map in C. destruct C as [m' [H1 H2]]. apply I1 in H1. apply in_flat_map. exists m'. tauto.
  - cbn [app] in ND. destruct (IH ND) as [I1 I2]. split.
    + intros m'. cbn [In]. rewrite I1. split; [intros [->|H]; [split; [auto|congruence]|tauto]|tauto].
    + cbn [flat_map]. rewrite E. exact I2.
Qed.

Lemma drop_maps_spec l : forall ms, NoDup (flat_map (fun m => match mtent m with Some t => [t] | None => [] end) ms) ->
  forall m, In m (drop_maps l ms) <-> In m ms /\ forall x, mtent m = Some x -> ~ In (OnlyFirst x) l.
Proof.
  induction l as [|[x|x] l IH]; intros ms ND m; cbn [drop_maps fold_left].
  - cbn. intuition.
  - change (fold_left _ l ?z) with (drop_maps l z). destruct (del_map_of_spec x ms ND) as [I1 I2].
    rewrite (IH _ I2), I1. split.
    + intros [[H1 H2] H3]. split; [exact H1|]. intros y Ey [C|C]; [injection C as ->; contradiction|exact (H3 y Ey C)].
    + intros [H1 H2]. split; [split; [exact H1|]|]; [intros C; apply (H2 x C); left; reflexivity|].
      intros y Ey C. apply (H2 y Ey). right. exact C.
  - change (fold_left _ l ?z) with (drop_maps l z). rewrite (IH _ ND). split; intros [H1 H2]; (split; [exact H1|]); intros y Ey C.
    + destruct C as [C|C]; [discriminate|exact (H2 y Ey C)].
    + apply (H2 y Ey). right. exact C.
Qed.

Theorem check_outputs_spec w o ms bork u c : sorted w -> sorted o ->
  exists (b : bool) (d : aod), check_actual_outputs kind_of w o ms bork u c = Some (b, d) /\
  (b = true <-> bork = true \/ (exists x, In x w /\ ~ In x o) \/ (c = true /\ exists x, In x o /\ ~ In x w)) /\
  (forall x, (exists r, In r (reports d) /\ blames_write r x) <-> In x w /\ ~ In x o) /\
  (forall x, In (NotWritten x) (reports d) <-> c = true /\ In x o /\ ~ In x w) /\
  NoDup (reports d) /\
  (forall x, In (Delete x) (reports d) -> u = true /\ kind_of x = KGhost) /\
  (NoDup (flat_map (fun m => match mtent m with Some t => [t] | None => [] end) ms) ->
   forall m, In m (maps d) <-> In m ms /\ forall x, mtent m = Some x -> In x w -> In x o).
Proof.
  intros Sw So. unfold check_actual_outputs. rewrite compare_tell. destruct (diffs_spec w o Sw So) as [I1 [I2 [I3 _]]].
  destruct (tell_outputs u c (diffs w o) {| err_extra := false; err_missing := false; reports := []; maps := ms |})
    as [d [E [R [E1 [E2 M]]]]].
  rewrite E. cbn [obind]. exists (bork || err_extra d || err_missing d), d. split; [reflexivity|].
  cbn in R, E1, E2, M.
  assert (forall x, extra_report u x = Unspecified x \/ extra_report u x = Delete x \/ extra_report u x = Reschedule x \/
            extra_report u x = Overwritten x) as ER.
  { intros x. unfold extra_report. destruct u, (kind_of x); tauto. }
  split; [|split; [|split; [|split; [|split]]]].
  - rewrite E1, E2, !orb_true_iff, andb_true_iff, !existsb_exists. split.
    + intros [[H|[[x|x] [H1 H2]]]|[H1 [[x|x] [H2 H3]]]]; try discriminate; auto.
      * right. left. exists x. apply I1. exact H1.
      * right. right. split; [exact H1|]. exists x. apply I2. exact H2.
    + intros [H|[[x H]|[H1 [x H2]]]]; [auto| |].
      * left. right. exists (OnlyFirst x). split; [apply I1; exact H|reflexivity].
      * right. split; [exact H1|]. exists (OnlySecond x). split; [apply I2; exact H2|reflexivity].
  - intros x. rewrite R, <- I1. split.
    + intros [r [H1 H2]]. apply in_flat_map in H1. destruct H1 as [[y|y] [H3 H4]]; cbn [report_of] in H4.
      * destruct H4 as [<-|[]]. destruct (ER y) as [C|[C|[C|C]]]; rewrite C in H2;
          destruct H2 as [H2|[H2|[H2|H2]]]; try discriminate; injection H2 as ->; exact H3.
      * destruct c; [|destruct H4]. destruct H4 as [<-|[]]. destruct H2 as [H2|[H2|[H2|H2]]]; discriminate.
    + intros H. exists (extra_report u x). split; [|exact (ER x)]. apply in_flat_map. exists (OnlyFirst x).
      split; [exact H|left; reflexivity].
  - intros x. rewrite R, <- I2, in_flat_map. split.
    + intros [[y|y] [H3 H4]]; cbn [report_of] in H4.
      * destruct H4 as [C|[]]. destruct (ER y) as [D|[D|[D|D]]]; rewrite D in C; discriminate.
      * destruct c; [|destruct H4]. destruct H4 as [C|[]]. injection C as ->. auto.
    + intros [-> H]. exists (OnlySecond x). split; [exact H|left; reflexivity].
  - rewrite R. clear R E E1 E2 M d I1 I2. induction (diffs w o) as [|d l IH]; [constructor|].
    cbn [map] in I3. inversion I3 as [|? ? S1 F1]; subst. rewrite Forall_forall in F1. specialize (IH S1).
    assert (forall r e, In r (report_of u c e) -> forall e', In r (report_of u c e') -> which e = which e') as Q.
    { intros r [y|y] H [z|z] H'; cbn [report_of which] in *.
      - destruct H as [<-|[]]. destruct H' as [H'|[]]. destruct (ER y) as [C|[C|[C|C]]], (ER z) as [D|[D|[D|D]]];
          rewrite C, D in H'; congruence.
      - destruct H as [<-|[]]. destruct c; [|destruct H']. destruct H' as [H'|[]].
        destruct (ER y) as [C|[C|[C|C]]]; rewrite C in H'; discriminate.
      - destruct H' as [<-|[]]. destruct c; [|destruct H]. destruct H as [H|[]].
        destruct (ER z) as [C|[C|[C|C]]]; rewrite C in H; discriminate.
      - destruct c; [|destruct H]. destruct H as [<-|[]], H' as [H'|[]]. congruence. }
    cbn [flat_map]. apply NoDup_app_intro; [|exact IH|].
    + destruct d as [y|y]; cbn; [|destruct c]; repeat constructor; intros [].
    + intros r H1 H2. apply in_flat_map in H2. destruct H2 as [e [H2 H3]].
      specialize (Q r d H1 e H3). specialize (F1 (which e) (in_map which _ _ H2)). lia.
  - intros x. rewrite R. intros H. apply in_flat_map in H. destruct H as [[y|y] [H3 H4]]; cbn [report_of] in H4.
    + destruct H4 as [C|[]]. unfold extra_report in C. destruct u; [|discriminate].
      destruct (kind_of y) eqn:K; try discriminate. injection C as ->. auto.
    + destruct c; [|destruct H4]. destruct H4 as [C|[]]. discriminate.
  - intros ND m. rewrite M, (drop_maps_spec _ _ ND). split; intros [H1 H2]; (split; [exact H1|]); intros x Ex H.
    + destruct (in_dec Nat.eq_dec x o) as [I|I]; [exact I|]. exfalso. apply (H2 x Ex). apply I1. auto.
    + apply I1 in H. destruct H as [H3 H4]. apply H4. exact (H2 x Ex H3).
Qed.
End Out.
