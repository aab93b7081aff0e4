From Verif Require Import Base ExecModel ExecProofs GraphModel TentModel TentSpec TentProofs LinkModel LinkSpec.
From Coq Require Import ZArith Sorted.

Lemma inb_in x l : inb x l = true <-> In x l.
Proof. unfold inb. rewrite existsb_exists. split; [intros [y [H E]]; apply Nat.eqb_eq in E; subst; exact H|intros H; exists x; split; [exact H|apply Nat.eqb_refl]]. Qed.
Lemma inb_out x l : inb x l = false <-> ~ In x l.
Proof. rewrite <- inb_in. destruct (inb x l); intuition congruence. Qed.
Lemma put_in x y l : In y (put x l) <-> y = x \/ In y l.
Proof.
  unfold put. destruct (inb x l) eqn:E; [apply inb_in in E|cbn [In]]; intuition. subst; assumption.
Qed.
Lemma del_in x y l : In y (del x l) <-> In y l /\ y <> x.
Proof. unfold del. rewrite filter_In, negb_true_iff, Nat.eqb_neq. reflexivity. Qed.
Lemma inp_in p l : inp p l = true <-> In p l.
Proof.
  unfold inp. rewrite existsb_exists. split.
  - intros [[a b] [H E]]. apply andb_true_iff in E. destruct E as [E1 E2]. apply Nat.eqb_eq in E1, E2. cbn [fst snd] in *. subst. destruct p; exact H.
  - intros H. exists p. rewrite !Nat.eqb_refl. auto.
Qed.
Lemma pair_remove_in p q l : In q (pair_remove p l) <-> In q l /\ q <> p.
Proof.
  unfold pair_remove. rewrite filter_In, negb_true_iff. destruct p as [a b], q as [x y]. cbn [fst snd].
  split; intros [H E]; (split; [exact H|]).
  - intros Q. injection Q as -> ->. rewrite !Nat.eqb_refl in E. discriminate.
  - destruct (Nat.eqb_spec x a); [|reflexivity]. destruct (Nat.eqb_spec y b); [|reflexivity]. subst. contradiction.
Qed.
Lemma ins_ok c x l : x <> c -> x <> 0 -> ~ In x l -> ins c x l = Some (x :: l).
Proof.
  intros H1 H2 H3. unfold ins. apply inb_out in H3. rewrite H3. apply Nat.eqb_neq in H1, H2. rewrite H1, H2. reflexivity.
Qed.
Lemma pair_insert_ok a b l : a <> b -> a <> 0 -> b <> 0 -> ~ In (a, b) l -> pair_insert (a, b) l = Some ((a, b) :: l).
Proof.
  intros H1 H2 H3 H4. unfold pair_insert. cbn [fst snd]. destruct (inp (a, b) l) eqn:E; [apply inp_in in E; contradiction|].
  apply Nat.eqb_neq in H1, H2, H3. rewrite H1, H2, H3. reflexivity.
Qed.

Lemma shape_mod (M W N A B Y G L X1 X2 : Prop) : (M \/ (W /\ N) \/ (A \/ B) /\ (Y \/ G)) \/ Y /\ (L \/ X1 \/ X2) <-> M \/ (Y /\ (A \/ B \/ L \/ X1 \/ X2)) \/ (W /\ N) \/ (G /\ (A \/ B)).
Proof. tauto. Qed.
Lemma shape_trans (M A T Y : Prop) : M \/ A /\ T /\ Y <-> M \/ Y /\ T /\ A.
Proof. tauto. Qed.
Section links.
Variable kind_of : id -> kind.
Variable excl : id -> bool.
Variable is_env : id -> bool.
Variable c : id.
Notation group_id := (group_id kind_of).
Lemma is_group_id x : is_group (kind_of x) = true <-> group_id x.
Proof. unfold LinkSpec.group_id. destruct (kind_of x); cbn; split; congruence. Qed.
Lemma not_group_id x : is_group (kind_of x) = false <-> ~ group_id x.
Proof. rewrite <- is_group_id. destruct (is_group (kind_of x)); split; congruence. Qed.

(** ** Outputs *)
Definition only_outs (r r' : rows) : Prop :=
  nin r' = nin r /\ stk r' = stk r /\ glinks r' = glinks r /\ modlist r' = modlist r /\ translist r' = translist r /\ poked r' = poked r.
Lemma only_outs_refl r : only_outs r r.
Proof. repeat split. Qed.
Lemma only_outs_trans a b d : only_outs a b -> only_outs b d -> only_outs a d.
Proof. intros [A1 [A2 [A3 [A4 [A5 A6]]]]] [B1 [B2 [B3 [B4 [B5 B6]]]]]. repeat split; congruence. Qed.
Lemma ghost_outs x r : only_outs r (ghost_check kind_of x r) /\ outs (ghost_check kind_of x r) = outs r /\ member (ghost_check kind_of x r) = member r.
Proof. unfold ghost_check. destruct (kind_of x); repeat split. Qed.

Definition some {A} (l : list A) : bool := match l with [] => false | _ => true end.
Lemma rm_output_ok group x r b : exists r', rm_output kind_of false group x (r, b) = Some (r', true) /\ only_outs r r' /\
  (forall y, In y (outs r') <-> In y (outs r) /\ y <> x) /\ (forall y g, In (y, g) (member r') <-> In (y, g) (member r) /\ ~ (y = x /\ group = Some g)).
Proof.
  unfold rm_output. cbn [fst]. eexists. split; [reflexivity|].
  set (r1 := match group with Some g => _ | None => _ end).
  assert (only_outs r r1 /\ (forall y, In y (outs r1) <-> In y (outs r) /\ y <> x) /\ (forall y g, In (y, g) (member r1) <-> In (y, g) (member r) /\ ~ (y = x /\ group = Some g))) as [H1 [H2 H3]].
  { subst r1. destruct group as [g|]; (split; [repeat split|]); (split; [intros y; apply del_in|]); intros y h; cbn [member set_member set_outs].
    - rewrite pair_remove_in. split; intros [I N]; (split; [exact I|]); [intros [-> E]; injection E as ->; apply N; reflexivity|intros E; injection E as -> ->; apply N; auto].
    - split; [intros I; split; [exact I|intros [_ E]; discriminate]|tauto]. }
  destruct (ghost_outs x r1) as [G1 [G2 G3]].
  destruct (kind_of x); try (split; [exact H1|split; [exact H2|exact H3]]).
  split; [exact (only_outs_trans _ _ _ H1 G1)|]. rewrite G2, G3. auto.
Qed.
Lemma add_output_ok group x r b : x <> c -> x <> 0 -> ~ In x (outs r) -> (forall g, group = Some g -> x <> g /\ g <> 0 /\ ~ In (x, g) (member r)) ->
  exists r', add_output c false group x (r, b) = Some (r', true) /\ only_outs r r' /\
  (forall y, In y (outs r') <-> In y (outs r) \/ y = x) /\ (forall y g, In (y, g) (member r') <-> In (y, g) (member r) \/ (y = x /\ group = Some g)).
Proof.
  intros H1 H2 H3 H4. unfold add_output, insert_out, insert_member. cbn [fst]. rewrite ins_ok by assumption. cbn [obind].
  destruct group as [g|].
  - destruct (H4 g eq_refl) as [N1 [N2 N3]]. cbn [member set_outs]. rewrite pair_insert_ok by assumption. cbn [obind]. eexists. split; [reflexivity|]. split; [repeat split|].
    split; [intros y; cbn [outs set_outs set_member In]; intuition|]. intros y h. cbn [member set_member In]. split.
    + intros [E|E]; [injection E as -> ->; auto|auto].
    + intros [E|[-> E]]; [auto|]. injection E as ->. auto.
  - cbn [obind]. eexists. split; [reflexivity|]. split; [repeat split|].
    split; [intros y; cbn [outs set_outs In]; intuition|]. intros y h. cbn [member set_outs]. split; [auto|]. intros [E|[_ E]]; [auto|discriminate].
Qed.

Lemma tell_outs group l : forall r b, NoDup (map which l) ->
  (forall x, In (OnlySecond x) l -> x <> c /\ x <> 0 /\ ~ In x (outs r) /\ forall g, group = Some g -> x <> g /\ g <> 0 /\ ~ In (x, g) (member r)) ->
  exists r', tell (Some (rm_output kind_of false group)) (Some (add_output c false group)) l (r, b) = Some (r', b || some l) /\ only_outs r r' /\
  (forall x, In x (outs r') <-> In x (outs r) /\ ~ In (OnlyFirst x) l \/ In (OnlySecond x) l) /\
  (forall x g, In (x, g) (member r') <-> In (x, g) (member r) /\ ~ (In (OnlyFirst x) l /\ group = Some g) \/ In (OnlySecond x) l /\ group = Some g).
Proof.
  induction l as [|d l IH]; intros r b ND A.
  - exists r. cbn [tell some]. rewrite orb_false_r. split; [reflexivity|]. split; [apply only_outs_refl|]. split; intros; cbn [In]; tauto.
  - cbn [map] in ND. inversion ND as [|? ? Nd ND']; subst.
    assert (forall e, In e l -> which e <> which d) as Dif by (intros e H E; apply Nd; rewrite <- E; apply in_map; exact H).
    destruct d as [x|x].
    + destruct (rm_output_ok group x r b) as [r1 [E1 [O1 [P1 Q1]]]]. cbn [tell]. rewrite E1.
      destruct (IH r1 true ND') as [r' [E2 [O2 [P2 Q2]]]].
      { intros y H. destruct (A y (or_intror H)) as [A1 [A2 [A3 A4]]]. split; [exact A1|]. split; [exact A2|]. split; [rewrite P1; tauto|].
        intros g G. destruct (A4 g G) as [A5 [A6 A7]]. split; [exact A5|]. split; [exact A6|]. rewrite Q1. tauto. }
      exists r'. rewrite E2. cbn [some]. rewrite orb_true_r. split; [reflexivity|]. split; [exact (only_outs_trans _ _ _ O1 O2)|]. split.
      * intros y. rewrite P2, P1. cbn [In]. split.
        -- intros [[[H1 H2] H3]|H]; [left; split; [exact H1|intros [E|E]; [injection E as ->; congruence|contradiction]]|right; right; exact H].
        -- intros [[H1 H2]|[H|H]]; [left; split; [split; [exact H1|intros ->; apply H2; left; reflexivity]|intros E; apply H2; right; exact E]|discriminate|right; exact H].
      * intros y g. rewrite Q2, Q1. cbn [In]. split.
        -- intros [[[H1 H2] H3]|[H G]]; [left; split; [exact H1|intros [[E|E] G]; [injection E as ->; apply H2; auto|apply H3; auto]]|right; auto].
        -- intros [[H1 H2]|[[H|H] G]]; [left; split; [split; [exact H1|intros [-> G]; apply H2; auto]|intros [E G]; apply H2; auto]|discriminate|right; auto].
    + destruct (A x (or_introl eq_refl)) as [A1 [A2 [A3 A4]]]. destruct (add_output_ok group x r b A1 A2 A3 A4) as [r1 [E1 [O1 [P1 Q1]]]]. cbn [tell]. rewrite E1.
      destruct (IH r1 true ND') as [r' [E2 [O2 [P2 Q2]]]].
      { intros y H. destruct (A y (or_intror H)) as [B1 [B2 [B3 B4]]]. pose proof (Dif _ H) as D. cbn [which] in D. split; [exact B1|]. split; [exact B2|]. split; [rewrite P1; tauto|].
        intros g G. destruct (B4 g G) as [B5 [B6 B7]]. split; [exact B5|]. split; [exact B6|]. rewrite Q1. tauto. }
      exists r'. rewrite E2. cbn [some]. rewrite orb_true_r. split; [reflexivity|]. split; [exact (only_outs_trans _ _ _ O1 O2)|].
      assert (~ In (OnlyFirst x) l) as NF by (intros H; apply (Dif _ H); reflexivity). split.
      * intros y. rewrite P2, P1. cbn [In]. split.
        -- intros [[[H1|H1] H3]|H]; [left; split; [exact H1|intros [E|E]; [discriminate|contradiction]]|subst; right; left; reflexivity|right; right; exact H].
        -- intros [[H1 H2]|[H|H]]; [left; split; [left; exact H1|intros E; apply H2; right; exact E]|injection H as ->; left; split; [right; reflexivity|exact NF]|right; exact H].
      * intros y g. rewrite Q2, Q1. cbn [In]. split.
        -- intros [[[H1|[-> G]] H3]|[H G]]; [left; split; [exact H1|intros [[E|E] G]; [discriminate|apply H3; auto]]|right; auto|right; auto].
        -- intros [[H1 H2]|[[H|H] G]]; [left; split; [left; exact H1|intros [E G]; apply H2; auto]|injection H as ->; left; split; [right; auto|intros [E _]; exact (NF E)]|right; auto].
Qed.

(** In the refactoring mode nothing is written. *)
Lemma tell_refac group l : forall s, tell (Some (rm_output kind_of true group)) (Some (add_output c true group)) l s = Some (fst s, snd s || some l).
Proof.
  induction l as [|[x|x] l IH]; intros [r b]; cbn [tell fst snd some]; [rewrite orb_false_r; reflexivity| |]; unfold rm_output, add_output; cbn [fst snd]; rewrite IH; cbn [fst snd]; rewrite orb_true_r; reflexivity.
Qed.

(** The outputs as the database has them. *)
Lemma get_outputs_ok l : forall o e g, NoDup l -> small l -> small o -> small e -> sorted o -> sorted e ->
  (forall x, In x l -> ~ In x o /\ ~ In x e) -> (forall x y, In x l -> group_id x -> (In y l /\ group_id y \/ g = Some y) -> x = y) -> (forall x y, In x l -> group_id x -> g <> Some y) ->
  exists o' e' g', get_outputs kind_of excl l o e g = Some (o', e', g') /\ sorted o' /\ sorted e' /\ small o' /\ small e' /\
    (forall x, In x o' <-> In x o \/ (In x l /\ ~ group_id x /\ excl x = false)) /\ (forall x, In x e' <-> In x e \/ (In x l /\ ~ group_id x /\ excl x = true)) /\
    (forall x, g' = Some x <-> g = Some x \/ (In x l /\ group_id x)).
Proof.
  induction l as [|x l IH]; intros o e g ND Sl So Se Oo Oe Dj G1 G2.
  - exists o, e, g. cbn [get_outputs In]. repeat split; auto; tauto.
  - inversion ND as [|? ? Nx ND']; subst. assert (small l) as Sl' by (intros y H; apply Sl; right; exact H). assert (small [x]) as Sx by (intros y [<-|[]]; apply Sl; left; reflexivity).
    cbn [get_outputs]. destruct (is_group (kind_of x)) eqn:Gx.
    + apply is_group_id in Gx. destruct g as [h|]; [exfalso; exact (G2 x h (or_introl eq_refl) Gx eq_refl)|].
      assert (forall y, In y l -> ~ group_id y) as NG.
      { intros y H Hy. apply Nx. rewrite (G1 x y (or_introl eq_refl) Gx (or_introl (conj (or_intror H) Hy))). exact H. }
      destruct (IH o e (Some x) ND' Sl' So Se Oo Oe) as [o' [e' [g' [E [S1 [S2 [S3 [S4 [I1 [I2 I3]]]]]]]]]].
      * intros y H. apply Dj. right. exact H.
      * intros y z H Hy. exfalso. exact (NG y H Hy).
      * intros y z H Hy. exfalso. exact (NG y H Hy).
      * exists o', e', g'. split; [exact E|]. repeat (split; [assumption|]). split; [|split].
        -- intros y. rewrite I1. cbn [In]. split; [tauto|]. intros [H|[[->|H] H2]]; tauto.
        -- intros y. rewrite I2. cbn [In]. split; [tauto|]. intros [H|[[->|H] H2]]; tauto.
        -- intros y. rewrite I3. cbn [In]. split.
           ++ intros [H|[H Hy]]; [injection H as ->; right; auto|exfalso; exact (NG y H Hy)].
           ++ intros [H|[[->|H] Hy]]; [discriminate|left; reflexivity|right; auto].
    + apply not_group_id in Gx. destruct (Dj x (or_introl eq_refl)) as [D1 D2].
      destruct (excl x) eqn:Ex.
      * pose proof (tree_add_spec e x Oe) as T. destruct (tree_add e x) as [e1|]; cycle 1.
        { exfalso. apply D2, T. intros y [<-|H]; [apply Sx; left; reflexivity|apply Se; exact H]. }
        destruct T as [_ [T1 T2]]; [intros y [<-|H]; [apply Sx; left; reflexivity|apply Se; exact H]|]. cbn [obind].
        destruct (IH o e1 g ND' Sl' So) as [o' [e' [g' [E [S1 [S2 [S3 [S4 [I1 [I2 I3]]]]]]]]]].
        -- intros y H. apply T2 in H. destruct H as [->|H]; [apply Sx; left; reflexivity|apply Se; exact H].
        -- exact Oo.
        -- exact T1.
        -- intros y H. destruct (Dj y (or_intror H)) as [H1 H2]. split; [exact H1|]. rewrite T2. intros [->|H3]; [exact (Nx H)|exact (H2 H3)].
        -- intros y z H Hy [[H1 H2]|H1]; [apply (G1 y z (or_intror H) Hy); left; split; [right; exact H1|exact H2]|apply (G1 y z (or_intror H) Hy); right; exact H1].
        -- intros y z H Hy. apply (G2 y z (or_intror H) Hy).
        -- exists o', e', g'. split; [exact E|]. repeat (split; [assumption|]). split; [|split].
           ++ intros y. rewrite I1. cbn [In]. split; [tauto|]. intros [H|[[->|H] [H2 H3]]]; [tauto|congruence|tauto].
           ++ intros y. rewrite I2, T2. cbn [In]. split; [intros [[->|H]|H]; tauto|]. intros [H|[[->|H] H2]]; tauto.
           ++ intros y. rewrite I3. cbn [In]. split; [tauto|]. intros [H|[[->|H] H2]]; tauto.
      * pose proof (tree_add_spec o x Oo) as T. destruct (tree_add o x) as [o1|]; cycle 1.
        { exfalso. apply D1, T. intros y [<-|H]; [apply Sx; left; reflexivity|apply So; exact H]. }
        destruct T as [_ [T1 T2]]; [intros y [<-|H]; [apply Sx; left; reflexivity|apply So; exact H]|]. cbn [obind].
        destruct (IH o1 e g ND' Sl') as [o' [e' [g' [E [S1 [S2 [S3 [S4 [I1 [I2 I3]]]]]]]]]].
        -- intros y H. apply T2 in H. destruct H as [->|H]; [apply Sx; left; reflexivity|apply So; exact H].
        -- exact Se.
        -- exact T1.
        -- exact Oe.
        -- intros y H. destruct (Dj y (or_intror H)) as [H1 H2]. split; [|exact H2]. rewrite T2. intros [->|H3]; [exact (Nx H)|exact (H1 H3)].
        -- intros y z H Hy [[H1 H2]|H1]; [apply (G1 y z (or_intror H) Hy); left; split; [right; exact H1|exact H2]|apply (G1 y z (or_intror H) Hy); right; exact H1].
        -- intros y z H Hy. apply (G2 y z (or_intror H) Hy).
        -- exists o', e', g'. split; [exact E|]. repeat (split; [assumption|]). split; [|split].
           ++ intros y. rewrite I1, T2. cbn [In]. split; [intros [[->|H]|H]; tauto|]. intros [H|[[->|H] H2]]; tauto.
           ++ intros y. rewrite I2. cbn [In]. split; [tauto|]. intros [H|[[->|H] [H2 H3]]]; [tauto|congruence|tauto].
           ++ intros y. rewrite I3. cbn [In]. split; [tauto|]. intros [H|[[->|H] H2]]; tauto.
Qed.

Lemma tell_inv {S} (P : S -> Prop) (f g : id -> S -> option S) l :
  (forall x s s', f x s = Some s' -> P s -> P s') -> (forall x s s', g x s = Some s' -> P s -> P s') ->
  forall s s', tell (Some f) (Some g) l s = Some s' -> P s -> P s'.
Proof.
  intros F G. induction l as [|[x|x] l IH]; intros s s'; cbn [tell]; [intros E H; injection E as <-; exact H| |].
  - destruct (f x s) as [s1|] eqn:E; [|discriminate]. intros T H. exact (IH _ _ T (F _ _ _ E H)).
  - destruct (g x s) as [s1|] eqn:E; [|discriminate]. intros T H. exact (IH _ _ T (G _ _ _ E H)).
Qed.
Lemma ins_nodup x l l' : ins c x l = Some l' -> NoDup l -> NoDup l'.
Proof.
  unfold ins. destruct ((x =? c) || (x =? 0) || inb x l) eqn:E; [discriminate|]. intros Q H. injection Q as <-. constructor; [|exact H].
  apply orb_false_iff in E. apply inb_out. tauto.
Qed.
Lemma del_nodup x l : NoDup l -> NoDup (del x l).
Proof. apply NoDup_filter. Qed.
Lemma tell_outs_nodup group l s s' : tell (Some (rm_output kind_of false group)) (Some (add_output c false group)) l s = Some s' -> NoDup (outs (fst s)) -> NoDup (outs (fst s')).
Proof.
  apply (tell_inv (fun s => NoDup (outs (fst s)))); clear s s' l.
  - intros x [r b] s' E H. unfold rm_output in E. cbn [fst] in E. injection E as <-. cbn [fst] in *.
    set (r1 := match group with Some _ => _ | None => _ end). assert (outs r1 = del x (outs r)) as O by (subst r1; destruct group; reflexivity).
    destruct (ghost_outs x r1) as [_ [G _]]. destruct (kind_of x); rewrite ?G, O; apply del_nodup; exact H.
  - intros x [r b] s' E H. unfold add_output, insert_out in E. cbn [fst] in *. destruct (ins c x (outs r)) as [l|] eqn:I; [|discriminate]. cbn [obind] in E.
    apply ins_nodup in I; [|exact H]. destruct group as [g|]; [|injection E as <-; exact I]. unfold insert_member in E. cbn [member set_outs] in E.
    destruct (pair_insert (x, g) (member r)); [|discriminate]. injection E as <-. exact I.
Qed.

Lemma each_member g l : forall r, NoDup l -> g <> 0 -> (forall x, In x l -> x <> g /\ x <> 0 /\ ~ In (x, g) (member r)) ->
  exists m, each_entry (fun x => insert_member x g) l r = Some (set_member r m) /\ (forall x h, In (x, h) m <-> In (x, h) (member r) \/ (In x l /\ h = g)).
Proof.
  induction l as [|x l IH]; intros r ND G A.
  - exists (member r). split; [destruct r; reflexivity|]. intros; cbn [In]; tauto.
  - inversion ND; subst. destruct (A x (or_introl eq_refl)) as [A1 [A2 A3]]. cbn [each_entry]. unfold insert_member at 1. rewrite pair_insert_ok by assumption. cbn [obind].
    destruct (IH (set_member r ((x, g) :: member r))) as [m [E M]]; [assumption|exact G| |].
    + intros y H. destruct (A y (or_intror H)) as [B1 [B2 B3]]. split; [exact B1|]. split; [exact B2|]. cbn [member set_member In]. intros [Q|Q]; [injection Q as ->; contradiction|exact (B3 Q)].
    + exists m. split; [rewrite E; reflexivity|]. intros y h. rewrite M. cbn [member set_member In]. split.
      * intros [[Q|Q]|[Q1 Q2]]; [injection Q as -> ->; auto|auto|auto].
      * intros [Q|[[->|Q1] Q2]]; [auto|subst; auto|auto].
Qed.

Lemma leave_ok og l : forall r, nin (leave og l r) = nin r /\ stk (leave og l r) = stk r /\ glinks (leave og l r) = glinks r /\ modlist (leave og l r) = modlist r /\ translist (leave og l r) = translist r /\
  outs (leave og l r) = outs r /\ (forall x g, In (x, g) (member (leave og l r)) <-> In (x, g) (member r) /\ ~ (In x l /\ g = og)) /\ (forall x, In x (poked (leave og l r)) <-> In x (poked r) \/ In x l).
Proof.
  induction l as [|x l IH]; intros r; unfold leave; cbn [fold_left].
  - repeat (split; [reflexivity|]). split; intros; cbn [In]; tauto.
  - fold (leave og l (poke x (set_member r (pair_remove (x, og) (member r))))). destruct (IH (poke x (set_member r (pair_remove (x, og) (member r))))) as [A1 [A2 [A3 [A4 [A5 [A6 [A7 A8]]]]]]].
    repeat (split; [assumption|]). split.
    + intros y g. rewrite A7. cbn [member poke set_member In]. rewrite pair_remove_in. split.
      * intros [[H1 H2] H3]. split; [exact H1|]. intros [[->|H4] ->]; [apply H2; reflexivity|apply H3; auto].
      * intros [H1 H2]. split; [split; [exact H1|intros Q; injection Q as -> ->; apply H2; auto]|intros [H3 H4]; apply H2; auto].
    + intros y. rewrite A8. cbn [poked poke set_member In]. rewrite put_in. cbn [poked set_member]. intuition.
Qed.

(** ** What tup_db_write_outputs does *)
Notation consistent := (consistent kind_of excl is_env c).
Notation proper := (proper kind_of excl is_env c).
Notation makes := (makes kind_of excl).
Notation excludes := (excludes kind_of excl).
Notation writes_group := (writes_group kind_of).
Notation same_outputs := (same_outputs kind_of excl).

Definition has_group (r : rows) (g : option id) : Prop := forall x, g = Some x <-> writes_group r x.
Lemma no_diffs a b : sorted a -> sorted b -> some (diffs a b) = false <-> (forall x, In x a <-> In x b).
Proof.
  intros Sa Sb. destruct (diffs_spec a b Sa Sb) as [I1 [I2 _]]. destruct (diffs a b) as [|d l]; cbn [some].
  - split; [|reflexivity]. intros _ x. specialize (I1 x). specialize (I2 x). cbn [In] in *. destruct (in_dec Nat.eq_dec x a), (in_dec Nat.eq_dec x b); tauto.
  - split; [discriminate|]. intros H. exfalso. destruct d as [x|x].
    + destruct (proj1 (I1 x) (or_introl eq_refl)) as [J1 J2]. apply J2, H, J1.
    + destruct (proj1 (I2 x) (or_introl eq_refl)) as [J1 J2]. apply J2, H, J1.
Qed.
Lemma diffs_nodup a b : sorted a -> sorted b -> NoDup (map which (diffs a b)).
Proof. intros Sa Sb. apply sorted_NoDup, diffs_spec; assumption. Qed.

Lemma old_outputs r : consistent r -> exists o e g, get_outputs kind_of excl (outs r) [] [] None = Some (o, e, g) /\ sorted o /\ sorted e /\
  (forall x, In x o <-> makes r x) /\ (forall x, In x e <-> excludes r x) /\ has_group r g.
Proof.
  intros K. destruct (get_outputs_ok (outs r) [] [] None (k_unique _ _ _ _ _ K)) as [o [e [g [E [S1 [S2 [_ [_ [I1 [I2 I3]]]]]]]]]].
  - apply (k_small _ _ _ _ _ K).
  - intros x [].
  - intros x [].
  - constructor.
  - constructor.
  - intros x H. split; intros [].
  - intros x y H Hx [[H1 H2]|H1]; [|discriminate]. apply (k_group _ _ _ _ _ K); split; assumption.
  - intros x y H Hx. discriminate.
  - exists o, e, g. split; [exact E|]. split; [exact S1|]. split; [exact S2|]. split; [|split].
    + intros x. rewrite I1. unfold LinkSpec.makes. cbn [In]. tauto.
    + intros x. rewrite I2. unfold LinkSpec.excludes. cbn [In]. tauto.
    + intros x. rewrite I3. unfold LinkSpec.writes_group. split; [intros [H|H]; [discriminate|exact H]|auto].
Qed.
Lemma opt_eqb_eq a b : opt_eqb a b = true <-> a = b.
Proof. destruct a, b; cbn; rewrite ?Nat.eqb_eq; split; congruence. Qed.

Lemma sorted_ext a : forall b, sorted a -> sorted b -> (forall x, In x a <-> In x b) -> a = b.
Proof.
  induction a as [|x a IH]; intros [|y b] Sa Sb H.
  - reflexivity.
  - exfalso. apply (H y). left; reflexivity.
  - exfalso. apply (H x). left; reflexivity.
  - inversion Sa as [|? ? Sa' Fa]; subst. inversion Sb as [|? ? Sb' Fb]; subst. rewrite Forall_forall in Fa, Fb.
    assert (x = y) as ->.
    { destruct (proj1 (H x) (or_introl eq_refl)) as [E|I]; [auto|]. destruct (proj2 (H y) (or_introl eq_refl)) as [E|J]; [auto|]. specialize (Fa _ J). specialize (Fb _ I). lia. }
    f_equal. apply IH; [assumption|assumption|]. intros z. split; intros I.
    + destruct (proj1 (H z) (or_intror I)) as [E|J]; [subst; specialize (Fa _ I); lia|exact J].
    + destruct (proj2 (H z) (or_intror I)) as [E|J]; [subst; specialize (Fb _ I); lia|exact J].
Qed.
Lemma group_eq_dec (a b : option id) : {a = b} + {a <> b}.
Proof. decide equality. apply Nat.eq_dec. Qed.

Definition old_group_left (d : declared) (r : rows) (y : id) : Prop := writes_group r y /\ d_group d <> Some y.
Definition wrote (d : declared) (differ : bool) (transient : bool) (r r' : rows) : Prop :=
  nin r' = nin r /\ stk r' = stk r /\ glinks r' = glinks r /\ NoDup (outs r') /\
  (forall x, In x (outs r') <-> In x (d_outs d) \/ In x (d_excl d) \/ d_group d = Some x) /\
  (forall x g, In (x, g) (member r') <-> In (x, g) (member r) /\ ~ (makes r x /\ writes_group r g) \/ In x (d_outs d) /\ d_group d = Some g) /\
  (forall y, In y (modlist r') <-> In y (modlist r) \/ old_group_left d r y \/ differ = true /\ (y = c \/ d_group d = Some y)) /\
  (forall y, In y (translist r') <-> In y (translist r) \/ differ = true /\ transient = true /\ y = c) /\
  (forall y, In y (poked r') <-> In y (poked r) \/ makes r y /\ exists g, old_group_left d r g).

Lemma ghost_fields x r : nin (ghost_check kind_of x r) = nin r /\ stk (ghost_check kind_of x r) = stk r /\ glinks (ghost_check kind_of x r) = glinks r /\
  modlist (ghost_check kind_of x r) = modlist r /\ translist (ghost_check kind_of x r) = translist r /\ poked (ghost_check kind_of x r) = poked r /\
  outs (ghost_check kind_of x r) = outs r /\ member (ghost_check kind_of x r) = member r.
Proof. unfold ghost_check. destruct (kind_of x); repeat split. Qed.

Lemma group_step_ok d modified r o og : consistent r -> proper d -> taken_over d r -> (forall x, In x o <-> makes r x) -> has_group r og ->
  exists r1, change_group kind_of c (d_outs d) (d_group d) og o modified r = Some (r1, modified || negb (opt_eqb og (d_group d)), if opt_eqb og (d_group d) then d_group d else None) /\
    nin r1 = nin r /\ stk r1 = stk r /\ glinks r1 = glinks r /\ NoDup (outs r1) /\ translist r1 = translist r /\
    (forall x, In x (outs r1) <-> In x (outs r) /\ ~ old_group_left d r x \/ d_group d = Some x) /\
    (forall x g, In (x, g) (member r1) <-> In (x, g) (member r) /\ ~ (makes r x /\ old_group_left d r g) \/ og <> d_group d /\ In x (d_outs d) /\ d_group d = Some g) /\
    (forall y, In y (modlist r1) <-> In y (modlist r) \/ old_group_left d r y) /\
    (forall y, In y (poked r1) <-> In y (poked r) \/ makes r y /\ exists g, old_group_left d r g).
Proof.
  intros K P T Ho Hg. unfold change_group. destruct (opt_eqb og (d_group d)) eqn:Eq; cbn [negb].
  - apply opt_eqb_eq in Eq. subst og. exists r. rewrite orb_false_r. split; [reflexivity|]. repeat (split; [reflexivity|]). split; [exact (k_unique _ _ _ _ _ K)|]. split; [reflexivity|].
    assert (forall y, ~ old_group_left d r y) as N by (intros y [H1 H2]; apply Hg in H1; contradiction).
    split; [|split; [|split]].
    + intros x. split; [intros H; left; split; [exact H|apply N]|]. intros [[H _]|H]; [exact H|apply Hg in H; apply H].
    + intros x g. split; [intros H; left; split; [exact H|intros [_ H2]; exact (N _ H2)]|]. intros [[H _]|[H _]]; [exact H|contradiction].
    + intros y. split; [auto|]. intros [H|H]; [exact H|exfalso; exact (N _ H)].
    + intros y. split; [auto|]. intros [H|[_ [g H]]]; [exact H|exfalso; exact (N _ H)].
  - assert (og <> d_group d) as Ne by (intros E; apply opt_eqb_eq in E; congruence).
    assert (exists r0, match d_group d with Some g => obind (each_entry (fun x => insert_member x g) (d_outs d) r) (insert_out c g) | None => Some r end = Some r0 /\
      nin r0 = nin r /\ stk r0 = stk r /\ glinks r0 = glinks r /\ NoDup (outs r0) /\ translist r0 = translist r /\ modlist r0 = modlist r /\ poked r0 = poked r /\
      (forall x, In x (outs r0) <-> In x (outs r) \/ d_group d = Some x) /\
      (forall x g, In (x, g) (member r0) <-> In (x, g) (member r) \/ In x (d_outs d) /\ d_group d = Some g)) as [r0 [E0 [F1 [F2 [F3 [F4 [F5 [F6 [F7 [F8 F9]]]]]]]]]].
    { destruct (d_group d) as [g|] eqn:G.
      - destruct (p_real _ _ _ _ _ P g) as [Gc G0]; [auto|]. pose proof (p_group _ _ _ _ _ P g G) as Gg.
        assert (~ In g (outs r)) as Gn by (intros H; apply Ne, Hg; split; assumption).
        destruct (each_member g (d_outs d) r) as [m [E M]].
        + apply sorted_NoDup, (p_sorted _ _ _ _ _ P).
        + exact G0.
        + intros x H. destruct (p_outs _ _ _ _ _ P x H) as [X1 X2]. split; [intros ->; contradiction|]. split; [apply (p_real _ _ _ _ _ P); auto|].
          destruct (in_dec Nat.eq_dec x (outs r)) as [I|I]; [|apply T; assumption]. intros Q. apply (k_member _ _ _ _ _ K) in Q; [apply Ne, Hg; exact Q|split; [exact I|split; assumption]].
        + exists (set_outs (set_member r m) (g :: outs r)). rewrite E. cbn [obind]. unfold insert_out. cbn [outs set_member]. rewrite ins_ok by assumption. cbn [obind].
          split; [reflexivity|]. repeat (split; [reflexivity|]). split; [constructor; [exact Gn|exact (k_unique _ _ _ _ _ K)]|]. repeat (split; [reflexivity|]). split.
          * intros x. cbn [outs set_outs In]. split; [intros [->|H]; auto|intros [H|H]; [auto|injection H as ->; auto]].
          * intros x h. cbn [member set_outs set_member]. rewrite M. split; [intros [H|[H ->]]; auto|intros [H|[H Q]]; [auto|injection Q as ->; auto]].
      - exists r. split; [reflexivity|]. repeat (split; [reflexivity|]). split; [exact (k_unique _ _ _ _ _ K)|]. repeat (split; [reflexivity|]). split; intros; (split; [auto|]); [intros [H|H]; [exact H|discriminate]|intros [H|[_ H]]; [exact H|discriminate]]. }
    rewrite E0. cbn [obind]. eexists. rewrite orb_true_r. split; [reflexivity|].
    destruct og as [og|].
    + assert (forall y, old_group_left d r y <-> y = og) as L.
      { intros y. unfold old_group_left. rewrite <- (Hg y). split; [intros [H _]; injection H as ->; reflexivity|intros ->; split; [reflexivity|intros Q; apply Ne; symmetry; exact Q]]. }
      destruct (leave_ok og o r0) as [A1 [A2 [A3 [A4 [A5 [A6 [A7 A8]]]]]]].
      match goal with |- context [ghost_check kind_of og ?R] => destruct (ghost_fields og R) as [B1 [B2 [B3 [B4 [B5 [B6 [B7 B8]]]]]]] end.
      rewrite B1, B2, B3, B4, B5, B6, B7, B8. cbn [nin stk glinks outs member modlist translist poked mark set_outs]. rewrite A1, A2, A3, A5, A6, F1, F2, F3, F5.
      repeat (split; [reflexivity|]). split; [apply del_nodup; exact F4|]. split; [reflexivity|]. split; [|split; [|split]].
      * intros x. rewrite del_in, F8, L. split; [intros [[H|H] N]; auto|]. intros [[H N]|H]; [auto|]. split; [auto|]. intros ->. apply Ne. symmetry; exact H.
      * intros x g. rewrite A7, F9, Ho, L. split.
        -- intros [[H|[H1 H2]] N]; [left; auto|right; split; [exact Ne|auto]].
        -- intros [[H N]|[_ [H1 H2]]]; [auto|]. split; [auto|]. intros [_ ->]. apply Ne. symmetry; exact H2.
      * intros y. rewrite put_in, A4, F6, L. tauto.
      * intros y. rewrite A8, F7, Ho. split; [intros [H|H]; [auto|right; split; [exact H|exists og; apply L; reflexivity]]|]. intros [H|[H _]]; auto.
    + assert (forall y, ~ old_group_left d r y) as N by (intros y [H1 H2]; apply Hg in H1; discriminate).
      repeat (split; [assumption|]). split; [|split; [|split]].
      * intros x. rewrite F8. split; [intros [H|H]; [left; split; [exact H|apply N]|auto]|]. intros [[H _]|H]; auto.
      * intros x g. rewrite F9. split; [intros [H|H]; [left; split; [exact H|intros [_ Q]; exact (N _ Q)]|auto]|]. intros [[H _]|[_ H]]; auto.
      * intros y. rewrite F6. split; [auto|]. intros [H|H]; [exact H|exfalso; exact (N _ H)].
      * intros y. rewrite F7. split; [auto|]. intros [H|[_ [g H]]]; [exact H|exfalso; exact (N _ H)].
Qed.

Lemma same_outputs_dec d r o e og : sorted o -> sorted e -> proper d -> (forall x, In x o <-> makes r x) -> (forall x, In x e <-> excludes r x) -> has_group r og ->
  opt_eqb og (d_group d) && negb (some (diffs o (d_outs d))) && negb (some (diffs e (d_excl d))) = true <-> same_outputs d r.
Proof.
  intros So Se P Ho He Hg. destruct (p_sorted _ _ _ _ _ P) as [S1 [S2 _]]. rewrite !andb_true_iff, !negb_true_iff, opt_eqb_eq, !no_diffs by assumption. unfold LinkSpec.same_outputs. split.
  - intros [[-> H1] H2]. split; [intros x; rewrite <- Ho; apply H1|]. split; [intros x; rewrite <- He; apply H2|]. intros g. symmetry. apply Hg.
  - intros [H1 [H2 H3]]. split; [split|].
    + destruct og as [x|]; destruct (d_group d) as [y|]; try reflexivity.
      * symmetry. apply H3. apply Hg. reflexivity.
      * symmetry. apply H3. apply Hg. reflexivity.
      * apply Hg, H3. reflexivity.
    + intros x. rewrite Ho. apply H1.
    + intros x. rewrite He. apply H2.
Qed.

Lemma write_outputs_ok d modified transient r : consistent r -> proper d -> taken_over d r ->
  exists og r' differ, write_outputs kind_of excl c (d_outs d) (d_excl d) (d_group d) false modified transient r = Some (og, r') /\ has_group r og /\
    wrote d differ transient r r' /\ (differ = true <-> modified = true \/ ~ same_outputs d r).
Proof.
  intros K P T. unfold write_outputs. destruct (old_outputs r K) as [o [e [og [E [So [Se [Ho [He Hg]]]]]]]]. rewrite E. cbn [obind].
  pose proof (same_outputs_dec d r o e og So Se P Ho He Hg) as SD.
  destruct (group_step_ok d modified r o og K P T Ho Hg) as [r1 [E1 [A1 [A2 [A3 [A4 [A5 [A6 [A7 [A8 A9]]]]]]]]]]. rewrite E1. cbn [obind].
  destruct (p_sorted _ _ _ _ _ P) as [S1 [S2 _]].
  destruct (diffs_spec o (d_outs d) So S1) as [D1 [D2 _]]. destruct (diffs_spec e (d_excl d) Se S2) as [D3 [D4 _]].
  set (pg := if opt_eqb og (d_group d) then d_group d else None) in *.
  assert (forall g, pg = Some g -> d_group d = Some g /\ og = d_group d) as PG.
  { intros g. subst pg. destruct (opt_eqb og (d_group d)) eqn:Q; [apply opt_eqb_eq in Q; intros H; split; [exact H|exact Q]|discriminate]. }
  assert (forall x, ~ group_id x -> ~ old_group_left d r x) as NG by (intros x N [[_ H] _]; contradiction).
  rewrite compare_tell.
  destruct (tell_outs pg (diffs o (d_outs d)) r1 (modified || negb (opt_eqb og (d_group d))) (diffs_nodup _ _ So S1)) as [r2 [E2 [O2 [P2 Q2]]]].
  { intros x H. apply D2 in H. destruct H as [H N]. destruct (p_outs _ _ _ _ _ P x H) as [X1 X2]. destruct (p_real _ _ _ _ _ P x (or_introl H)) as [X3 X4]. rewrite Ho in N.
    assert (~ In x (outs r)) as N' by (intros I; apply N; split; [exact I|split; assumption]).
    split; [exact X3|]. split; [exact X4|]. split.
    - rewrite A6. intros [[I _]|G]; [exact (N' I)|exact (X1 (p_group _ _ _ _ _ P x G))].
    - intros g G. destruct (PG g G) as [G1 G2]. split; [intros ->; exact (X1 (p_group _ _ _ _ _ P g G1))|]. split; [apply (p_real _ _ _ _ _ P); auto|].
      rewrite A7. intros [[I _]|[I _]]; [exact (T x g H N' I)|exact (I G2)]. }
  pose proof (tell_outs_nodup _ _ _ _ E2 A4) as N2. cbn [fst] in N2. rewrite E2. cbn [obind]. rewrite compare_tell.
  destruct (tell_outs None (diffs e (d_excl d)) r2 ((modified || negb (opt_eqb og (d_group d))) || some (diffs o (d_outs d))) (diffs_nodup _ _ Se S2)) as [r3 [E3 [O3 [P3 Q3]]]].
  { intros x H. apply D4 in H. destruct H as [H N]. destruct (p_excl _ _ _ _ _ P x H) as [X1 X2]. destruct (p_real _ _ _ _ _ P x (or_intror (or_introl H))) as [X3 X4]. rewrite He in N.
    split; [exact X3|]. split; [exact X4|]. split; [|discriminate]. rewrite P2, D2, A6. intros [[[[I _]|G] _]|[I _]].
    - apply N. split; [exact I|split; assumption].
    - exact (X1 (p_group _ _ _ _ _ P x G)).
    - apply (p_outs _ _ _ _ _ P) in I. destruct I. congruence. }
  pose proof (tell_outs_nodup _ _ _ _ E3 N2) as N3. cbn [fst] in N3. rewrite E3. cbn [obind]. clear E E1 E2 E3.
  set (differ := modified || _ || _ || _).
  assert (differ = true <-> modified = true \/ ~ same_outputs d r) as DF.
  { rewrite <- SD. subst differ. destruct modified, (opt_eqb og (d_group d)), (some (diffs o (d_outs d))), (some (diffs e (d_excl d))); cbn; intuition congruence. }
  set (r4 := if differ then _ else _).
  assert (exists r', r4 = Some (og, r') /\ nin r' = nin r3 /\ stk r' = stk r3 /\ glinks r' = glinks r3 /\ outs r' = outs r3 /\ member r' = member r3 /\ poked r' = poked r3 /\
     (forall y, In y (modlist r') <-> In y (modlist r3) \/ differ = true /\ (y = c \/ d_group d = Some y)) /\
     (forall y, In y (translist r') <-> In y (translist r3) \/ differ = true /\ transient = true /\ y = c)) as [r' [E4 [B1 [B2 [B3 [B4 [B5 [B6 [B7 B8]]]]]]]]].
  { subst r4. clearbody differ. clear. destruct differ.
    - eexists. split; [reflexivity|]. destruct transient, (d_group d) as [g|]; repeat (split; [reflexivity|]); split; intros y; cbn [modlist translist mark mark_transient]; rewrite ?put_in; cbn [modlist translist mark mark_transient]; rewrite ?put_in; cbn [modlist translist mark mark_transient];
      (split; [intros H|intros [H|[_ H]]]); intuition congruence.
    - exists r3. split; [reflexivity|]. repeat (split; [reflexivity|]). split; intros y; (split; [auto|intros [H|[H _]]; [exact H|discriminate]]). }
  exists og, r', differ. split; [exact E4|]. split; [exact Hg|]. split; [|exact DF].
  destruct O2 as [U1 [U2 [U3 [U4 [U5 U6]]]]]. destruct O3 as [V1 [V2 [V3 [V4 [V5 V6]]]]].
  assert (forall x g, In (x, g) (member r3) <-> In (x, g) (member r2)) as Q3'.
  { intros x g. rewrite Q3. split; [intros [[H _]|[_ H]]; [exact H|discriminate]|]. intros H. left. split; [exact H|]. intros [_ Q]; discriminate. }
  split; [congruence|]. split; [congruence|]. split; [congruence|]. split; [rewrite B4; exact N3|]. split; [|split; [|split; [|split]]].
  - intros x. rewrite B4, P3, P2, D1, D2, D3, D4, A6, Ho, He. split.
    + intros [[[[[[H1 H2]|H1] H3]|[H1 H3]] H4]|[H1 H2]]; auto.
      destruct (is_group (kind_of x)) eqn:G; [apply is_group_id in G|apply not_group_id in G].
      * right; right. destruct (group_eq_dec (d_group d) (Some x)) as [Q|Q]; [exact Q|]. exfalso. apply H2. split; [split; assumption|exact Q].
      * destruct (excl x) eqn:X.
        -- right; left. destruct (in_dec Nat.eq_dec x (d_excl d)) as [I|I]; [exact I|]. exfalso. apply H4. split; [split; [exact H1|split; assumption]|exact I].
        -- left. destruct (in_dec Nat.eq_dec x (d_outs d)) as [I|I]; [exact I|]. exfalso. apply H3. split; [split; [exact H1|split; assumption]|exact I].
    + intros [H|[H|H]].
      * destruct (p_outs _ _ _ _ _ P x H) as [X1 X2]. left. split; [|intros [[_ [_ X]] _]; congruence].
        destruct (in_dec Nat.eq_dec x (outs r)) as [I|I].
        -- left. split; [left; split; [exact I|apply NG; exact X1]|]. intros [_ N]. exact (N H).
        -- right. split; [exact H|]. intros [J _]. exact (I J).
      * destruct (p_excl _ _ _ _ _ P x H) as [X1 X2]. destruct (in_dec Nat.eq_dec x (outs r)) as [I|I].
        -- left. split; [left; split; [left; split; [exact I|apply NG; exact X1]|intros [[_ [_ X]] _]; congruence]|]. intros [_ N]. exact (N H).
        -- right. split; [exact H|]. intros [J _]. exact (I J).
      * pose proof (p_group _ _ _ _ _ P x H) as X. left. split; [left; split; [right; exact H|intros [[_ [N _]] _]; exact (N X)]|intros [[_ [N _]] _]; exact (N X)].
  - intros x g. rewrite B5, Q3', Q2, D1, D2, A7, Ho. split.
    + intros [[[[H1 H2]|[H1 H2]] H3]|[[H1 H2] H3]]; [|right; exact H2|destruct (PG g H3); right; auto].
      destruct (in_dec Nat.eq_dec x (d_outs d)) as [I|I].
      * destruct (group_eq_dec (d_group d) (Some g)) as [Q|Q]; [right; auto|]. left. split; [exact H1|]. intros [M W]. apply H2. split; [exact M|split; assumption].
      * left. split; [exact H1|]. intros [M W]. destruct (group_eq_dec (d_group d) (Some g)) as [Q|Q].
        -- apply H3. split; [split; assumption|]. subst pg. apply Hg in W. rewrite W, Q. cbn. rewrite Nat.eqb_refl. reflexivity.
        -- apply H2. split; [exact M|split; assumption].
    + intros [[H1 H2]|[H1 H2]].
      * left. split; [left; split; [exact H1|intros [M [W _]]; apply H2; auto]|]. intros [[M _] Q]. destruct (PG g Q) as [Q1 Q2']. apply H2. split; [exact M|]. apply Hg. congruence.
      * destruct (group_eq_dec og (d_group d)) as [Q|Q].
        -- destruct (in_dec Nat.eq_dec x (outs r)) as [I|I].
           ++ destruct (p_outs _ _ _ _ _ P x H1) as [X1 X2]. assert (makes r x) as M by (split; [exact I|split; assumption]). left. split; [left; split|].
              ** apply (k_member _ _ _ _ _ K); [exact M|]. apply Hg. congruence.
              ** intros [_ [_ N]]. exact (N H2).
              ** intros [[_ N] _]. exact (N H1).
           ++ right. split; [split; [exact H1|intros [J _]; exact (I J)]|]. subst pg. apply opt_eqb_eq in Q. rewrite Q. exact H2.
        -- left. split; [right; auto|]. intros [[_ N] _]. exact (N H1).
  - intros y. rewrite B7, V4, U4, A8. tauto.
  - intros y. rewrite B8, V5, U5, A5. reflexivity.
  - intros y. rewrite B6, V6, U6, A9. reflexivity.
Qed.

(** ** Inputs *)
Definition only_ins (r r' : rows) : Prop :=
  outs r' = outs r /\ member r' = member r /\ translist r' = translist r /\ poked r' = poked r.
Lemma only_ins_refl r : only_ins r r.
Proof. repeat split. Qed.
Lemma only_ins_trans a b d : only_ins a b -> only_ins b d -> only_ins a d.
Proof. intros [A1 [A2 [A3 A4]]] [B1 [B2 [B3 B4]]]. repeat split; congruence. Qed.
Lemma put_iff y x l : In y (put x l) <-> In y l \/ y = x.
Proof. rewrite put_in. tauto. Qed.

Definition one_added (env : list id) (gid : option id) (x : id) (w w' : wid) : Prop :=
  only_ins (w_rows w) (w_rows w') /\ refactoring_failed w' = refactoring_failed w /\ normal_links_invalid w' = normal_links_invalid w /\
  (new_groups w' = true <-> new_groups w = true \/ group_id x /\ gid <> None) /\
  (forall y, In y (stk (w_rows w')) <-> In y (stk (w_rows w)) \/ y = x) /\
  (forall y, In y (nin (w_rows w')) <-> In y (nin (w_rows w)) \/ (y = x /\ In x env)) /\
  (forall a b, In (a, b) (glinks (w_rows w')) <-> In (a, b) (glinks (w_rows w)) \/ (a = x /\ group_id x /\ gid = Some b)) /\
  (forall y, In y (modlist (w_rows w')) <-> In y (modlist (w_rows w)) \/ (y = c /\ In x env)).
Lemma add_sticky_ok env gid x w : sorted env -> small (x :: env) -> x <> c -> x <> 0 -> ~ In x (stk (w_rows w)) -> (In x env -> ~ In x (nin (w_rows w))) ->
  (forall g, gid = Some g -> group_id x -> x <> g /\ g <> 0 /\ ~ In (x, g) (glinks (w_rows w))) ->
  exists w', add_sticky kind_of c false env gid x w = Some w' /\ one_added env gid x w w'.
Proof.
  intros Se Sm Hc H0 Hs Hn Hg. unfold add_sticky.
  assert (exists r1 ng, match gid with
           | Some g => if is_group (kind_of x) then obind (insert_glink x g (w_rows w)) (fun r => Some (r, true)) else Some (w_rows w, new_groups w)
           | None => Some (w_rows w, new_groups w)
           end = Some (r1, ng) /\ only_ins (w_rows w) r1 /\ stk r1 = stk (w_rows w) /\ nin r1 = nin (w_rows w) /\ modlist r1 = modlist (w_rows w) /\
           (ng = true <-> new_groups w = true \/ group_id x /\ gid <> None) /\
           (forall a b, In (a, b) (glinks r1) <-> In (a, b) (glinks (w_rows w)) \/ (a = x /\ group_id x /\ gid = Some b))) as [r1 [ng [E1 [A1 [A2 [A3 [A4 [A5 A6]]]]]]]].
  { destruct gid as [g|].
    - destruct (is_group (kind_of x)) eqn:G; [apply is_group_id in G|apply not_group_id in G].
      + destruct (Hg g eq_refl G) as [B1 [B2 B3]]. unfold insert_glink. rewrite pair_insert_ok by assumption. cbn [obind]. eexists. exists true. split; [reflexivity|]. split; [repeat split|]. split; [reflexivity|]. split; [reflexivity|]. split; [reflexivity|]. split; [split; [intros _; right; split; [exact G|discriminate]|reflexivity]|]. intros a b. cbn [glinks set_glinks In]. split.
        * intros [Q|Q]; [injection Q as -> ->; auto|auto].
        * intros [Q|[-> [_ Q]]]; [auto|injection Q as ->; auto].
      + exists (w_rows w), (new_groups w). split; [reflexivity|]. split; [apply only_ins_refl|]. repeat (split; [reflexivity|]). split; [|intros a b]; (split; [auto|]); [intros [Q|[Q _]]; [exact Q|contradiction]|intros [Q|[_ [Q _]]]; [exact Q|contradiction]].
    - exists (w_rows w), (new_groups w). split; [reflexivity|]. split; [apply only_ins_refl|]. repeat (split; [reflexivity|]). split; [|intros a b]; (split; [auto|]); [intros [Q|[_ Q]]; [exact Q|contradiction]|intros [Q|[_ [_ Q]]]; [exact Q|discriminate]]. }
  rewrite E1. cbn [obind fst snd].
  destruct (tree_search env x) eqn:T.
  - apply tree_search_spec in T; [|assumption|assumption]. unfold insert_normal. rewrite A3, ins_ok by auto. cbn [obind]. unfold insert_sticky. cbn [stk mark set_nin]. rewrite A2, ins_ok by auto. cbn [obind].
    eexists. split; [reflexivity|]. split; [exact A1|]. split; [reflexivity|]. split; [reflexivity|]. split; [exact A5|]. cbn [w_rows stk nin glinks modlist mark set_nin set_stk In].
    split; [intros y; intuition|]. split; [intros y; intuition|]. split; [exact A6|]. intros y. rewrite put_iff, A4. tauto.
  - assert (~ In x env) as T' by (intros I; apply tree_search_spec in I; [congruence|assumption|assumption]).
    cbn [obind]. unfold insert_sticky. rewrite A2, ins_ok by auto. cbn [obind].
    eexists. split; [reflexivity|]. split; [exact A1|]. split; [reflexivity|]. split; [reflexivity|]. split; [exact A5|]. cbn [w_rows stk nin glinks modlist set_stk In]. rewrite A3, A4.
    split; [intros y; intuition|]. split; [intros y; tauto|]. split; [exact A6|]. intros y. tauto.
Qed.

Definition one_removed (gid : option id) (x : id) (w w' : wid) : Prop :=
  only_ins (w_rows w) (w_rows w') /\ refactoring_failed w' = refactoring_failed w /\ new_groups w' = new_groups w /\
  (normal_links_invalid w' = true <-> normal_links_invalid w = true \/ group_id x) /\
  (forall y, In y (stk (w_rows w')) <-> In y (stk (w_rows w)) /\ y <> x) /\
  (forall y, In y (nin (w_rows w')) <-> In y (nin (w_rows w)) /\ y <> x) /\
  (forall a b, In (a, b) (glinks (w_rows w')) <-> In (a, b) (glinks (w_rows w)) /\ ~ (a = x /\ group_id x /\ gid = Some b)) /\
  (forall y, In y (modlist (w_rows w')) <-> In y (modlist (w_rows w)) \/ (y = c /\ In x (nin (w_rows w)))).
Lemma rm_sticky_ok gid x w : exists w', rm_sticky kind_of c false gid x w = Some w' /\ one_removed gid x w w'.
Proof.
  unfold rm_sticky. cbn [nin set_stk].
  set (r1 := if inb x (nin (w_rows w)) then _ else _).
  assert (only_ins (w_rows w) r1 /\ glinks r1 = glinks (w_rows w) /\ (forall y, In y (stk r1) <-> In y (stk (w_rows w)) /\ y <> x) /\ (forall y, In y (nin r1) <-> In y (nin (w_rows w)) /\ y <> x) /\
    (forall y, In y (modlist r1) <-> In y (modlist (w_rows w)) \/ (y = c /\ In x (nin (w_rows w))))) as [A1 [A2 [A3 [A4 A5]]]].
  { subst r1. destruct (inb x (nin (w_rows w))) eqn:I; [apply inb_in in I|apply inb_out in I]; (split; [repeat split|]); (split; [reflexivity|]); (split; [intros y; apply del_in|]); split; intros y; cbn [nin modlist mark set_nin set_stk].
    - apply del_in.
    - rewrite put_iff. cbn [modlist set_nin set_stk]. tauto.
    - split; [intros H; split; [exact H|intros ->; contradiction]|tauto].
    - tauto. }
  clearbody r1. destruct (is_group (kind_of x)) eqn:G; [apply is_group_id in G|apply not_group_id in G]; (eexists; split; [reflexivity|]).
  - destruct (ghost_fields x r1) as [B1 [B2 [B3 [B4 [B5 [B6 [B7 B8]]]]]]]. destruct A1 as [C1 [C2 [C3 C4]]]. cbn [w_rows normal_links_invalid refactoring_failed new_groups]. split.
    { cbn [w_rows]. destruct gid as [g|]; repeat split; cbn [outs member translist poked set_glinks]; congruence. }
    split; [reflexivity|]. split; [reflexivity|]. split; [tauto|]. cbn [w_rows].
    destruct gid as [g|]; cbn [stk nin glinks modlist set_glinks]; rewrite B1, B2, B3, B4; (split; [exact A3|]); (split; [exact A4|]); (split; [|exact A5]); intros a b; rewrite ?pair_remove_in, A2.
    + split; intros [Q1 Q2]; (split; [exact Q1|]); [intros [-> [_ Q]]; injection Q as ->; apply Q2; reflexivity|intros Q; injection Q as -> ->; apply Q2; auto].
    + split; [intros Q; split; [exact Q|intros [_ [_ X]]; discriminate]|tauto].
  - split; [exact A1|]. split; [reflexivity|]. split; [reflexivity|]. split; [cbn [normal_links_invalid]; tauto|]. cbn [w_rows]. split; [exact A3|]. split; [exact A4|]. split; [|exact A5]. intros a b. rewrite A2. tauto.
Qed.

Definition told (env : list id) (gid : option id) (l : list difference) (w w' : wid) : Prop :=
  only_ins (w_rows w) (w_rows w') /\ refactoring_failed w' = refactoring_failed w /\
  (new_groups w' = true <-> new_groups w = true \/ exists x, In (OnlyFirst x) l /\ group_id x /\ gid <> None) /\
  (normal_links_invalid w' = true <-> normal_links_invalid w = true \/ exists x, In (OnlySecond x) l /\ group_id x) /\
  (forall x, In x (stk (w_rows w')) <-> In x (stk (w_rows w)) /\ ~ In (OnlySecond x) l \/ In (OnlyFirst x) l) /\
  (forall x, In x (nin (w_rows w')) <-> In x (nin (w_rows w)) /\ ~ In (OnlySecond x) l \/ In (OnlyFirst x) l /\ In x env) /\
  (forall a b, In (a, b) (glinks (w_rows w')) <-> In (a, b) (glinks (w_rows w)) /\ ~ (In (OnlySecond a) l /\ group_id a /\ gid = Some b) \/ In (OnlyFirst a) l /\ group_id a /\ gid = Some b) /\
  (forall y, In y (modlist (w_rows w')) <-> In y (modlist (w_rows w)) \/ y = c /\ ((exists x, In (OnlySecond x) l /\ In x (nin (w_rows w))) \/ (exists x, In (OnlyFirst x) l /\ In x env))).

Lemma tell_ins env gid l : sorted env -> forall w, NoDup (map which l) ->
  (forall x, In (OnlyFirst x) l -> small (x :: env) /\ x <> c /\ x <> 0 /\ ~ In x (stk (w_rows w)) /\ (In x env -> ~ In x (nin (w_rows w))) /\
     forall g, gid = Some g -> group_id x -> x <> g /\ g <> 0 /\ ~ In (x, g) (glinks (w_rows w))) ->
  exists w', tell (Some (add_sticky kind_of c false env gid)) (Some (rm_sticky kind_of c false gid)) l w = Some w' /\ told env gid l w w'.
Proof.
  intros Se. induction l as [|d l IH]; intros w ND A.
  - exists w. split; [reflexivity|]. split; [apply only_ins_refl|]. split; [reflexivity|]. cbn [In].
    split; [split; [auto|intros [H|[x [[] _]]]; exact H]|]. split; [split; [auto|intros [H|[x [[] _]]]; exact H]|]. split; [intros; tauto|]. split; [intros; tauto|]. split; [intros; tauto|].
    intros y. split; [auto|]. intros [H|[_ [[x [[] _]]|[x [[] _]]]]]; exact H.
  - cbn [map] in ND. inversion ND as [|? ? Nd ND']; subst.
    assert (forall e, In e l -> which e <> which d) as Dif by (intros e H E; apply Nd; rewrite <- E; apply in_map; exact H).
    destruct d as [x|x]; cbn [tell which] in *.
    + destruct (A x (or_introl eq_refl)) as [A1 [A2 [A3 [A4 [A5 A6]]]]]. destruct (add_sticky_ok env gid x w Se A1 A2 A3 A4 A5 A6) as [w1 [E1 [B1 [B2 [B3 [B4 [B5 [B6 [B7 B8]]]]]]]]]. rewrite E1.
      destruct (IH w1 ND') as [w' [E2 [C1 [C2 [C3 [C4 [C5 [C6 [C7 C8]]]]]]]]].
      { intros y H. pose proof (Dif _ H) as D. cbn [which] in D. destruct (A y (or_intror H)) as [D1 [D2 [D3 [D4 [D5 D6]]]]]. split; [exact D1|]. split; [exact D2|]. split; [exact D3|]. split; [rewrite B5; tauto|].
        split; [intros I; rewrite B6; specialize (D5 I); tauto|]. intros g G Gy. destruct (D6 g G Gy) as [F1 [F2 F3]]. split; [exact F1|]. split; [exact F2|]. rewrite B7. tauto. }
      assert (~ In (OnlySecond x) l) as NF by (intros H; apply (Dif _ H); reflexivity).
      exists w'. split; [exact E2|]. split; [exact (only_ins_trans _ _ _ B1 C1)|]. split; [congruence|]. split; [|split; [|split; [|split; [|split]]]].
      * rewrite C3, B4. cbn [In]. split.
        -- intros [[H|H]|[y [H1 H2]]]; [auto|right; exists x; tauto|right; exists y; tauto].
        -- intros [H|[y [[H1|H1] H2]]]; [auto|injection H1 as ->; tauto|right; exists y; tauto].
      * rewrite C4, B3. cbn [In]. split.
        -- intros [H|[y [H1 H2]]]; [auto|right; exists y; tauto].
        -- intros [H|[y [[H1|H1] H2]]]; [auto|discriminate|right; exists y; tauto].
      * intros y. rewrite C5, B5. cbn [In]. split.
        -- intros [[[H1|H1] H3]|H]; [left; split; [exact H1|intros [E|E]; [discriminate|contradiction]]|subst; auto|auto].
        -- intros [[H1 H2]|[H|H]]; [left; split; [auto|tauto]|injection H as ->; left; auto|auto].
      * intros y. rewrite C6, B6. cbn [In]. split.
        -- intros [[[H1|[-> H1]] H3]|[H I]]; [left; split; [exact H1|intros [E|E]; [discriminate|contradiction]]|right; auto|right; auto].
        -- intros [[H1 H2]|[[H|H] I]]; [left; split; [auto|tauto]|injection H as ->; left; auto|right; auto].
      * intros a b. rewrite C7, B7. cbn [In]. split.
        -- intros [[[H1|[-> H1]] H3]|[H I]]; [left; split; [exact H1|intros [[E|E] Q]; [discriminate|tauto]]|right; tauto|right; tauto].
        -- intros [[H1 H2]|[[H|H] I]]; [left; split; [auto|tauto]|injection H as ->; left; split; [tauto|intros [Q _]; contradiction]|right; tauto].
      * intros y. rewrite C8, B8. cbn [In]. split.
        -- intros [[H|[-> H]]|[-> [[z [H1 H2]]|[z [H1 H2]]]]]; [auto|right; split; [reflexivity|right; exists x; auto]|right; split; [reflexivity|]|right; split; [reflexivity|right; exists z; auto]].
           apply B6 in H2. destruct H2 as [H2|[-> H2]]; [left; exists z; auto|exfalso; exact (NF H1)].
        -- intros [H|[-> [[z [[H1|H1] H2]]|[z [[H1|H1] H2]]]]]; [auto|discriminate|right; split; [reflexivity|left; exists z; split; [exact H1|apply B6; auto]]|injection H1 as ->; auto|right; split; [reflexivity|right; exists z; auto]].
    + destruct (rm_sticky_ok gid x w) as [w1 [E1 [B1 [B2 [B3 [B4 [B5 [B6 [B7 B8]]]]]]]]]. rewrite E1.
      destruct (IH w1 ND') as [w' [E2 [C1 [C2 [C3 [C4 [C5 [C6 [C7 C8]]]]]]]]].
      { intros y H. pose proof (Dif _ H) as D. cbn [which] in D. destruct (A y (or_intror H)) as [D1 [D2 [D3 [D4 [D5 D6]]]]]. split; [exact D1|]. split; [exact D2|]. split; [exact D3|]. split; [rewrite B5; tauto|].
        split; [intros I; rewrite B6; specialize (D5 I); tauto|]. intros g G Gy. destruct (D6 g G Gy) as [F1 [F2 F3]]. split; [exact F1|]. split; [exact F2|]. rewrite B7. tauto. }
      assert (~ In (OnlyFirst x) l) as NF by (intros H; apply (Dif _ H); reflexivity).
      assert (~ In (OnlySecond x) l) as NS by (intros H; apply (Dif _ H); reflexivity).
      exists w'. split; [exact E2|]. split; [exact (only_ins_trans _ _ _ B1 C1)|]. split; [congruence|]. split; [|split; [|split; [|split; [|split]]]].
      * rewrite C3, B3. cbn [In]. split.
        -- intros [H|[y [H1 H2]]]; [auto|right; exists y; tauto].
        -- intros [H|[y [[H1|H1] H2]]]; [auto|discriminate|right; exists y; tauto].
      * rewrite C4, B4. cbn [In]. split.
        -- intros [[H|H]|[y [H1 H2]]]; [auto|right; exists x; tauto|right; exists y; tauto].
        -- intros [H|[y [[H1|H1] H2]]]; [auto|injection H1 as ->; tauto|right; exists y; tauto].
      * intros y. rewrite C5, B5. cbn [In]. split.
        -- intros [[[H1 H2] H3]|H]; [left; split; [exact H1|intros [E|E]; [injection E as ->; congruence|contradiction]]|auto].
        -- intros [[H1 H2]|[H|H]]; [left; split; [split; [exact H1|intros ->; apply H2; auto]|tauto]|discriminate|auto].
      * intros y. rewrite C6, B6. cbn [In]. split.
        -- intros [[[H1 H2] H3]|[H I]]; [left; split; [exact H1|intros [E|E]; [injection E as ->; congruence|contradiction]]|auto].
        -- intros [[H1 H2]|[[H|H] I]]; [left; split; [split; [exact H1|intros ->; apply H2; auto]|tauto]|discriminate|auto].
      * intros a b. rewrite C7, B7. cbn [In]. split.
        -- intros [[[H1 H2] H3]|[H I]]; [left; split; [exact H1|intros [[E|E] Q]; [injection E as ->; tauto|tauto]]|tauto].
        -- intros [[H1 H2]|[[H|H] I]]; [left; split; [split; [exact H1|intros [-> Q]; apply H2; auto]|tauto]|discriminate|tauto].
      * intros y. rewrite C8, B8. cbn [In]. split.
        -- intros [[H|[-> H]]|[-> [[z [H1 H2]]|[z [H1 H2]]]]]; [auto|right; split; [reflexivity|left; exists x; auto]|right; split; [reflexivity|left; exists z; split; [auto|apply B6 in H2; tauto]]|right; split; [reflexivity|right; exists z; auto]].
        -- intros [H|[-> [[z [[H1|H1] H2]]|[z [[H1|H1] H2]]]]]; [auto|injection H1 as ->; auto| |discriminate|right; split; [reflexivity|right; exists z; auto]].
           right; split; [reflexivity|left; exists z; split; [exact H1|apply B6; split; [exact H2|intros ->; exact (NS H1)]]].
Qed.

Lemma tell_ins_refac env gid l : forall w, tell (Some (add_sticky kind_of c true env gid)) (Some (rm_sticky kind_of c true gid)) l w =
  Some {| w_rows := w_rows w; new_groups := new_groups w; normal_links_invalid := normal_links_invalid w; refactoring_failed := refactoring_failed w || some l |}.
Proof.
  induction l as [|[x|x] l IH]; intros [r a b f]; cbn [tell some w_rows new_groups normal_links_invalid refactoring_failed]; [rewrite orb_false_r; reflexivity| |];
  unfold add_sticky, rm_sticky; rewrite IH; cbn [w_rows new_groups normal_links_invalid refactoring_failed]; rewrite orb_true_r; reflexivity.
Qed.

Lemma sticky_set l : forall t, small l -> small t -> sorted t -> sorted (fold_left tree_add_dup l t) /\ small (fold_left tree_add_dup l t) /\ (forall x, In x (fold_left tree_add_dup l t) <-> In x t \/ In x l).
Proof.
  induction l as [|x l IH]; intros t Sl St Ot; cbn [fold_left].
  - split; [exact Ot|]. split; [exact St|]. intros; cbn [In]; tauto.
  - assert (small (x :: t)) as Sx by (intros y [<-|H]; [apply Sl; left; reflexivity|apply St; exact H]).
    pose proof (tree_add_spec t x Ot Sx) as T. unfold tree_add_dup at 2 4 6. destruct (tree_add t x) as [t1|].
    + destruct T as [T0 [T1 T2]]. destruct (IH t1) as [J1 [J2 J3]]; [intros y H; apply Sl; right; exact H|intros y H; apply T2 in H; apply Sx; destruct H as [->|H]; [left; reflexivity|right; exact H]|exact T1|].
      split; [exact J1|]. split; [exact J2|]. intros y. rewrite J3, T2. cbn [In]. intuition.
    + destruct (IH t) as [J1 [J2 J3]]; [intros y H; apply Sl; right; exact H|exact St|exact Ot|]. split; [exact J1|]. split; [exact J2|]. intros y. rewrite J3. cbn [In]. split; [intuition|]. intros [H|[->|H]]; auto.
Qed.

Lemma each_normal l : forall r, NoDup l -> (forall x, In x l -> x <> c /\ x <> 0 /\ ~ In x (nin r)) ->
  exists m, each_entry (insert_normal c) l r = Some (set_nin r m) /\ (forall x, In x m <-> In x (nin r) \/ In x l).
Proof.
  induction l as [|x l IH]; intros r ND A.
  - exists (nin r). split; [destruct r; reflexivity|]. intros; cbn [In]; tauto.
  - inversion ND; subst. destruct (A x (or_introl eq_refl)) as [A1 [A2 A3]]. cbn [each_entry]. change (insert_normal c x r) with (obind (ins c x (nin r)) (fun l => Some (set_nin r l))). rewrite ins_ok by assumption. cbn [obind].
    destruct (IH (set_nin r (x :: nin r))) as [m [E M]]; [assumption| |].
    + intros y H. destruct (A y (or_intror H)) as [B1 [B2 B3]]. split; [exact B1|]. split; [exact B2|]. cbn [nin set_nin In]. intros [->|Q]; [contradiction|exact (B3 Q)].
    + exists m. split; [etransitivity; [exact E|reflexivity]|]. intros y. rewrite M. cbn [nin set_nin In]. intuition.
Qed.
Lemma each_glink g l : forall r, NoDup l -> g <> 0 -> (forall x, In x l -> group_id x -> x <> g /\ x <> 0 /\ ~ In (x, g) (glinks r)) ->
  exists m, each_entry (fun x r => if is_group (kind_of x) then insert_glink x g r else Some r) l r = Some (set_glinks r m) /\
    (forall a b, In (a, b) m <-> In (a, b) (glinks r) \/ (In a l /\ group_id a /\ b = g)).
Proof.
  induction l as [|x l IH]; intros r ND G A.
  - exists (glinks r). split; [destruct r; reflexivity|]. intros; cbn [In]; tauto.
  - inversion ND; subst. cbn [each_entry]. destruct (is_group (kind_of x)) eqn:Gx; [apply is_group_id in Gx|apply not_group_id in Gx].
    + destruct (A x (or_introl eq_refl) Gx) as [A1 [A2 A3]]. unfold insert_glink at 1. rewrite pair_insert_ok by assumption. cbn [obind].
      destruct (IH (set_glinks r ((x, g) :: glinks r))) as [m [E M]]; [assumption|exact G| |].
      * intros y H Gy. destruct (A y (or_intror H) Gy) as [B1 [B2 B3]]. split; [exact B1|]. split; [exact B2|]. cbn [glinks set_glinks In]. intros [Q|Q]; [injection Q as ->; contradiction|exact (B3 Q)].
      * exists m. split; [etransitivity; [exact E|reflexivity]|]. intros y h. rewrite M. cbn [glinks set_glinks In]. split.
        -- intros [[Q|Q]|[Q1 Q2]]; [injection Q as -> ->; auto|auto|auto].
        -- intros [Q|[[->|Q1] [Q2 ->]]]; [auto|auto|auto].
    + cbn [obind]. destruct (IH r) as [m [E M]]; [assumption|exact G|intros y H Gy; apply (A y (or_intror H) Gy)|]. exists m. split; [exact E|]. intros y h. rewrite M. cbn [In]. split; [intuition|]. intros [Q|[[->|Q] [Q2 Q3]]]; [auto|contradiction|auto].
Qed.

(** ** What tup_db_write_inputs does; [r] is the database before the rule. *)
Definition ins_wrote (d : declared) (og : option id) (checked : bool) (r r' : rows) : Prop :=
  only_ins r r' /\
  (forall x, In x (stk r') <-> In x (d_ins d)) /\
  (forall x, In x (nin r') <-> In x (nin r) /\ (In x (stk r) -> In x (d_ins d)) /\ ~ loses_group kind_of d r \/ In x (d_env d) /\ (~ In x (stk r) \/ loses_group kind_of d r)) /\
  (forall a b, In (a, b) (glinks r') <-> group_id a /\ In a (d_ins d) /\ d_group d = Some b) /\
  (forall y, In y (modlist r') <-> In y (modlist r) \/ y = c /\ (loses_group kind_of d r \/ (exists x, In x (stk r) /\ In x (nin r) /\ ~ In x (d_ins d)) \/ (exists x, In x (d_env d) /\ ~ In x (stk r)))) /\
  (checked = true <-> d_group d <> None /\ (og <> d_group d \/ exists x, group_id x /\ In x (d_ins d) /\ ~ In x (stk r))).

Lemma write_inputs_ok d og r : proper d -> ~ circular d -> small (stk r) -> (forall x, is_env x = true -> In x (nin r) -> In x (stk r)) ->
  (forall a b, In (a, b) (glinks r) <-> (group_id a /\ In a (stk r)) /\ og = Some b) ->
  exists r' checked, write_inputs kind_of c (d_ins d) (d_env d) (d_group d) og false r = Some (r', checked) /\ ins_wrote d og checked r r'.
Proof.
  intros P NC Ss Ke Kg. unfold write_inputs. set (same := opt_eqb (d_group d) og). set (gid := if same then d_group d else None).
  assert (forall g, gid = Some g <-> d_group d = Some g /\ og = Some g) as GI.
  { intros g. subst gid same. destruct (opt_eqb (d_group d) og) eqn:Q.
    - apply opt_eqb_eq in Q. rewrite Q. tauto.
    - split; [discriminate|]. intros [Q1 Q2]. rewrite Q1, Q2 in Q. cbn in Q. rewrite Nat.eqb_refl in Q. discriminate. }
  destruct (p_sorted _ _ _ _ _ P) as [_ [_ [Si Se]]]. destruct (p_small _ _ _ _ _ P) as [_ [_ [Mi _]]].
  destruct (sticky_set (stk r) [] Ss) as [T1 [T2 T3]]; [intros x []|constructor|].
  set (ss := fold_left tree_add_dup (stk r) []) in *. assert (forall x, In x ss <-> In x (stk r)) as T3' by (intros x; rewrite T3; cbn [In]; tauto). clear T3.
  destruct (diffs_spec (d_ins d) ss Si T1) as [D1 [D2 _]]. rewrite compare_tell.
  assert (forall a g, d_group d = Some g -> In a (d_ins d) -> a <> g) as NE by (intros a g G I ->; apply NC; left; exists g; auto).
  destruct (tell_ins (d_env d) gid (diffs (d_ins d) ss) Se {| w_rows := r; new_groups := false; normal_links_invalid := false; refactoring_failed := false |}) as [w [E [A1 [A2 [A3 [A4 [A5 [A6 [A7 A8]]]]]]]]].
  { apply diffs_nodup; assumption. }
  { intros x H. apply D1 in H. destruct H as [H N]. rewrite T3' in N. cbn [w_rows]. destruct (p_real _ _ _ _ _ P x) as [X1 X2]; [auto|]. split; [|split; [exact X1|split; [exact X2|split; [exact N|split]]]].
    - intros y [<-|I]; apply Mi; [exact H|]. apply (p_env _ _ _ _ _ P). exact I.
    - intros I J. apply N, Ke; [apply (p_env _ _ _ _ _ P); exact I|exact J].
    - intros g G Gx. apply GI in G. destruct G as [G1 G2]. split; [exact (NE x g G1 H)|]. split; [apply (p_real _ _ _ _ _ P); auto|]. rewrite Kg. tauto. }
  rewrite E. cbn [obind]. cbn [w_rows new_groups normal_links_invalid refactoring_failed] in *.
  assert (normal_links_invalid w = true <-> loses_group kind_of d r) as LG.
  { rewrite A4. unfold loses_group. split; [intros [H|[x [H1 H2]]]; [discriminate|apply D2 in H1; rewrite T3' in H1; exists x; tauto]|]. intros [x [H1 [H2 H3]]]. right. exists x. rewrite D2, T3'. tauto. }
  assert (forall x, In x (stk (w_rows w)) <-> In x (d_ins d)) as A5'.
  { intros x. rewrite A5, D1, D2, T3'. destruct (in_dec Nat.eq_dec x (stk r)), (in_dec Nat.eq_dec x (d_ins d)); tauto. }
  assert (exists r1, (if normal_links_invalid w then each_entry (insert_normal c) (d_env d) (set_nin (mark c (w_rows w)) []) else Some (w_rows w)) = Some r1 /\ only_ins r r1 /\ glinks r1 = glinks (w_rows w) /\ stk r1 = stk (w_rows w) /\
     (forall x, In x (nin r1) <-> In x (nin r) /\ (In x (stk r) -> In x (d_ins d)) /\ ~ loses_group kind_of d r \/ In x (d_env d) /\ (~ In x (stk r) \/ loses_group kind_of d r)) /\
     (forall y, In y (modlist r1) <-> In y (modlist r) \/ y = c /\ (loses_group kind_of d r \/ (exists x, In x (stk r) /\ In x (nin r) /\ ~ In x (d_ins d)) \/ (exists x, In x (d_env d) /\ ~ In x (stk r))))) as [r1 [E1 [B1 [B2 [B3 [B4 B5]]]]]].
  { assert (forall y, In y (modlist (w_rows w)) <-> In y (modlist r) \/ y = c /\ ((exists x, In x (stk r) /\ In x (nin r) /\ ~ In x (d_ins d)) \/ (exists x, In x (d_env d) /\ ~ In x (stk r)))) as A8'.
    { intros y. rewrite A8. split.
      - intros [H|[-> [[x [H1 H2]]|[x [H1 H2]]]]]; [auto|apply D2 in H1; rewrite T3' in H1; right; split; [reflexivity|left; exists x; tauto]|apply D1 in H1; rewrite T3' in H1; right; split; [reflexivity|right; exists x; tauto]].
      - intros [H|[-> [[x [H1 H2]]|[x [H1 H2]]]]]; [auto|right; split; [reflexivity|left; exists x; rewrite D2, T3'; tauto]|right; split; [reflexivity|right; exists x; rewrite D1, T3'; split; [split; [apply (p_env _ _ _ _ _ P); exact H1|exact H2]|exact H1]]]. }
    destruct (normal_links_invalid w).
    - assert (loses_group kind_of d r) as L by (apply LG; reflexivity).
      destruct (each_normal (d_env d) (set_nin (mark c (w_rows w)) [])) as [m [Em M]].
      + apply sorted_NoDup. exact Se.
      + intros x H. destruct (p_real _ _ _ _ _ P x) as [X1 X2]; [right; right; left; apply (p_env _ _ _ _ _ P); exact H|]. split; [exact X1|]. split; [exact X2|]. intros [].
      + eexists. split; [exact Em|]. split; [exact A1|]. split; [reflexivity|]. split; [reflexivity|]. split.
        * intros x. cbn [nin set_nin]. rewrite M. cbn [nin set_nin In]. tauto.
        * intros y. cbn [modlist set_nin mark]. rewrite put_iff, A8'. tauto.
    - assert (~ loses_group kind_of d r) as L by (intros Q; apply LG in Q; discriminate).
      exists (w_rows w). split; [reflexivity|]. split; [exact A1|]. split; [reflexivity|]. split; [reflexivity|]. split.
      + intros x. rewrite A6, D1, D2, T3'. pose proof (p_env _ _ _ _ _ P x) as PE. destruct (in_dec Nat.eq_dec x (stk r)), (in_dec Nat.eq_dec x (d_ins d)); tauto.
      + intros y. rewrite A8'. tauto. }
  rewrite E1. cbn [obind]. rewrite A2.
  set (s := if same then _ else _).
  assert (exists r2 ck, s = Some (r2, ck) /\ only_ins r1 r2 /\ stk r2 = stk r1 /\ nin r2 = nin r1 /\ modlist r2 = modlist r1 /\ (forall a b, In (a, b) (glinks r2) <-> group_id a /\ In a (d_ins d) /\ d_group d = Some b) /\
    (ck = true <-> d_group d <> None /\ (og <> d_group d \/ exists x, group_id x /\ In x (d_ins d) /\ ~ In x (stk r)))) as [r2 [ck [Es [C1 [C2 [C3 [C4 [C5 C6]]]]]]]].
  { subst s gid. destruct same eqn:Q; subst same.
    - apply opt_eqb_eq in Q. subst og. exists r1, (new_groups w). split; [reflexivity|]. split; [apply only_ins_refl|]. repeat (split; [reflexivity|]). split.
      + intros a b. rewrite B2, A7, Kg, D1, D2, T3'. destruct (in_dec Nat.eq_dec a (stk r)), (in_dec Nat.eq_dec a (d_ins d)); tauto.
      + rewrite A3. split.
        * intros [H|[x [H1 [H2 H3]]]]; [discriminate|]. apply D1 in H1. rewrite T3' in H1. split; [exact H3|]. right. exists x. tauto.
        * intros [H1 [H2|[x H2]]]; [contradiction|]. right. exists x. rewrite D1, T3'. tauto.
    - assert (og <> d_group d) as Ne by (intros X; symmetry in X; apply opt_eqb_eq in X; congruence).
      assert (forall a b, In (a, b) (glinks r1) <-> (group_id a /\ In a (stk r)) /\ og = Some b) as G1.
      { intros a b. rewrite B2, A7, Kg. split; [intros [[H _]|[_ [_ H]]]; [exact H|discriminate]|]. intros H. left. split; [exact H|]. intros [_ [_ X]]; discriminate. }
      set (r1' := match og with Some _ => set_glinks r1 [] | None => r1 end).
      assert (only_ins r1 r1' /\ stk r1' = stk r1 /\ nin r1' = nin r1 /\ modlist r1' = modlist r1 /\ forall a b, ~ In (a, b) (glinks r1')) as [F1 [F2 [F3 [F4 F5]]]].
      { subst r1'. destruct og; (split; [repeat split|]); repeat (split; [reflexivity|]); intros a b; [intros []|rewrite G1; intros [_ X]; discriminate]. }
      clearbody r1'. destruct (d_group d) as [g|] eqn:G.
      + destruct (each_glink g (d_ins d) r1') as [m [Em M]].
        * apply sorted_NoDup. exact Si.
        * apply (p_real _ _ _ _ _ P). auto.
        * intros x H Gx. split; [exact (NE x g eq_refl H)|]. split; [apply (p_real _ _ _ _ _ P); auto|]. apply F5.
        * rewrite Em. cbn [obind]. exists (set_glinks r1' m), true. split; [reflexivity|]. split; [exact F1|]. split; [exact F2|]. split; [exact F3|]. split; [exact F4|]. split.
          -- intros a b. cbn [glinks set_glinks]. rewrite M. split; [intros [H|[H1 [H2 ->]]]; [exfalso; exact (F5 _ _ H)|auto]|]. intros [H1 [H2 H3]]. injection H3 as ->. auto.
          -- split; [|reflexivity]. intros _. split; [discriminate|auto].
      + exists r1', (new_groups w). split; [reflexivity|]. split; [exact F1|]. split; [exact F2|]. split; [exact F3|]. split; [exact F4|]. split.
        * intros a b. split; [intros H; exfalso; exact (F5 _ _ H)|intros [_ [_ H]]; discriminate].
        * rewrite A3. split; [intros [H|[x [_ [_ H]]]]; [discriminate|contradiction]|intros [H _]; contradiction]. }
  rewrite Es. cbn [obind]. exists r2, ck. split; [reflexivity|]. split; [exact (only_ins_trans _ _ _ B1 C1)|]. split; [intros x; rewrite C2, B3; apply A5'|]. split; [intros x; rewrite C3; apply B4|]. split; [exact C5|]. split; [intros y; rewrite C4; apply B5|exact C6].
Qed.

(** ** The whole of it *)
Lemma circular_dec d : proper d -> (if match d_group d with Some g => tree_search (d_ins d) g | None => false end then true else existsb (tree_search (d_ins d)) (d_outs d)) = true <-> circular d.
Proof.
  intros P. destruct (p_sorted _ _ _ _ _ P) as [_ [_ [Si _]]]. destruct (p_small _ _ _ _ _ P) as [Mo [_ [Mi Mg]]].
  assert (forall x, small [x] -> tree_search (d_ins d) x = true <-> In x (d_ins d)) as TS.
  { intros x H. apply tree_search_spec; [exact Si|]. intros y [<-|I]; [apply H; left; reflexivity|apply Mi; exact I]. }
  assert (existsb (tree_search (d_ins d)) (d_outs d) = true <-> exists x, In x (d_outs d) /\ In x (d_ins d)) as EX.
  { rewrite existsb_exists. split; intros [x [H1 H2]]; exists x; (split; [exact H1|]); apply TS; try exact H2; intros y [<-|[]]; apply Mo; exact H1. }
  unfold circular. destruct (d_group d) as [g|] eqn:G.
  - pose proof (TS g (Mg g eq_refl)) as T. destruct (tree_search (d_ins d) g).
    + split; [|reflexivity]. intros _. left. exists g. split; [reflexivity|apply T; reflexivity].
    + rewrite EX. split; [auto|]. intros [[h [E I]]|H]; [injection E as <-; apply T in I; discriminate|exact H].
  - rewrite EX. split; [auto|]. intros [[h [E I]]|H]; [discriminate|exact H].
Qed.

Record recorded (d : declared) (modified transient : bool) (r r' : rows) (checked : bool) : Prop := {
  rec_outs : same_outputs d r';
  rec_ins : same_inputs d r';
  rec_ok : consistent r';
  rec_member : forall x g, In (x, g) (member r') <-> In (x, g) (member r) /\ ~ (makes r x /\ writes_group r g) \/ In x (d_outs d) /\ d_group d = Some g;
  rec_nin : forall x, In x (nin r') <-> In x (nin r) /\ (In x (stk r) -> In x (d_ins d)) /\ ~ loses_group kind_of d r \/ In x (d_env d) /\ (~ In x (stk r) \/ loses_group kind_of d r);
  rec_mod : forall y, In y (modlist r') <-> In y (modlist r) \/ (y = c /\ rule_changed kind_of excl d modified r) \/ (writes_group r y /\ d_group d <> Some y) \/ (d_group d = Some y /\ (modified = true \/ ~ same_outputs d r));
  rec_trans : forall y, In y (translist r') <-> In y (translist r) \/ y = c /\ transient = true /\ (modified = true \/ ~ same_outputs d r);
  rec_poked : forall y, In y (poked r') <-> In y (poked r) \/ makes r y /\ exists g, writes_group r g /\ d_group d <> Some g;
  rec_checked : checked = true <-> exists g, d_group d = Some g /\ (~ writes_group r g \/ exists x, group_id x /\ In x (d_ins d) /\ ~ In x (stk r)) }.

Lemma record_ok d modified transient r : consistent r -> proper d -> taken_over d r -> ~ circular d ->
  exists r' checked, record_rule kind_of excl c d false modified transient r = Some (r', checked) /\ recorded d modified transient r r' checked.
Proof.
  intros K P T NC. unfold record_rule.
  assert ((match d_group d with Some g => tree_search (d_ins d) g | None => false end) = false /\ existsb (tree_search (d_ins d)) (d_outs d) = false) as [Q1 Q2].
  { pose proof (circular_dec d P) as CD. destruct (match d_group d with Some g => tree_search (d_ins d) g | None => false end); [exfalso; apply NC, CD; reflexivity|].
    split; [reflexivity|]. destruct (existsb _ _); [exfalso; apply NC, CD; reflexivity|reflexivity]. }
  rewrite Q1, Q2.
  destruct (write_outputs_ok d modified transient r K P T) as [og [r1 [differ [E1 [Hg [[W1 [W2 [W3 [W4 [W5 [W6 [W7 [W8 W9]]]]]]]] DF]]]]]]. rewrite E1. cbn [obind fst snd].
  destruct (write_inputs_ok d og r1 P NC) as [r' [ck [E2 [[U1 [U2 [U3 U4]]] [I2 [I3 [I4 [I5 I6]]]]]]]].
  { rewrite W2. apply (k_small _ _ _ _ _ K). }
  { rewrite W1, W2. exact (k_env _ _ _ _ _ K). }
  { intros a b. rewrite W3, W2, (Hg b). apply (k_glinks _ _ _ _ _ K). }
  exists r', ck. split; [exact E2|].
  assert (forall g, writes_group r' g <-> d_group d = Some g) as WG.
  { intros g. unfold LinkSpec.writes_group. rewrite U1, W5. split; [|intros H; split; [auto|exact (p_group _ _ _ _ _ P g H)]]. intros [[H|[H|H]] G]; [exfalso; exact (proj1 (p_outs _ _ _ _ _ P g H) G)|exfalso; exact (proj1 (p_excl _ _ _ _ _ P g H) G)|exact H]. }
  assert (forall x, makes r' x <-> In x (d_outs d)) as MK.
  { intros x. unfold LinkSpec.makes. rewrite U1, W5. split; [|intros H; split; [auto|exact (p_outs _ _ _ _ _ P x H)]]. intros [[H|[H|H]] [G X]]; [exact H|destruct (p_excl _ _ _ _ _ P x H); congruence|exfalso; exact (G (p_group _ _ _ _ _ P x H))]. }
  assert (forall x, excludes r' x <-> In x (d_excl d)) as XK.
  { intros x. unfold LinkSpec.excludes. rewrite U1, W5. split; [|intros H; split; [auto|exact (p_excl _ _ _ _ _ P x H)]]. intros [[H|[H|H]] [G X]]; [destruct (p_outs _ _ _ _ _ P x H); congruence|exact H|exfalso; exact (G (p_group _ _ _ _ _ P x H))]. }
  assert (loses_group kind_of d r1 <-> loses_group kind_of d r) as LGE by (unfold loses_group; rewrite W2; reflexivity).
  assert (forall x g, In (x, g) (member r') <-> In (x, g) (member r) /\ ~ (makes r x /\ writes_group r g) \/ In x (d_outs d) /\ d_group d = Some g) as MB by (intros x g; rewrite U2; apply W6).
  assert (forall x, In x (nin r') <-> In x (nin r) /\ (In x (stk r) -> In x (d_ins d)) /\ ~ loses_group kind_of d r \/ In x (d_env d) /\ (~ In x (stk r) \/ loses_group kind_of d r)) as NI.
  { intros x. rewrite I3, W1, W2, LGE. reflexivity. }
  constructor.
  - split; [exact MK|]. split; [exact XK|exact WG].
  - exact I2.
  - constructor.
    + rewrite U1. exact W4.
    + rewrite U1, W5. intros H. assert (c <> c /\ c <> 0) as [X _] by (apply (p_real _ _ _ _ _ P); tauto). exact (X eq_refl).
    + destruct (p_small _ _ _ _ _ P) as [M1 [M2 [M3 M4]]]. split; [|split].
      * intros x H. rewrite U1, W5 in H. destruct H as [H|[H|H]]; [apply M1; exact H|apply M2; exact H|apply (M4 x H); left; reflexivity].
      * intros x H. apply I2 in H. apply M3; exact H.
      * intros x H. apply NI in H. destruct H as [[H _]|[H _]]; [apply (k_small _ _ _ _ _ K); exact H|apply M3, (p_env _ _ _ _ _ P); exact H].
    + intros g h H1 H2. apply WG in H1, H2. congruence.
    + intros x g M. apply MK in M. rewrite MB, WG. split; [|auto].
      intros [[H1 H2]|[_ H]]; [|exact H]. exfalso.
      destruct (in_dec Nat.eq_dec x (outs r)) as [I|I]; [|exact (T x g M I H1)].
      destruct (p_outs _ _ _ _ _ P x M) as [X1 X2]. assert (makes r x) as MR by (split; [exact I|split; assumption]). apply H2. split; [exact MR|]. apply (proj1 (k_member _ _ _ _ _ K x g MR)). exact H1.
    + intros a b. rewrite I4, I2, WG. tauto.
    + intros x X H. rewrite I2. apply NI in H. destruct H as [[H [H1 _]]|[H _]]; [apply H1, (k_env _ _ _ _ _ K); assumption|apply (p_env _ _ _ _ _ P); exact H].
  - exact MB.
  - exact NI.
  - intros y. rewrite I5, W7, LGE, W1, W2. unfold rule_changed, old_group_left.
    rewrite DF. apply shape_mod.
  - intros y. rewrite U3, W8, DF. apply shape_trans.
  - intros y. rewrite U4, W9. unfold old_group_left. reflexivity.
  - rewrite I6, W2. split.
    + intros [H1 H2]. destruct (d_group d) as [g|] eqn:G; [|contradiction]. exists g. split; [reflexivity|]. destruct H2 as [H2|H2]; [left; intros W; apply Hg in W; congruence|right; exact H2].
    + intros [g [G H]]. rewrite G. split; [discriminate|]. destruct H as [H|H]; [left; intros ->; apply H, Hg; reflexivity|right; exact H].
Qed.

Lemma record_circular d refac modified transient r : proper d -> circular d -> record_rule kind_of excl c d refac modified transient r = None.
Proof.
  intros P C. apply (circular_dec d P) in C. unfold record_rule. destruct (match d_group d with Some g => tree_search (d_ins d) g | None => false end); [reflexivity|]. rewrite C. reflexivity.
Qed.

(** Nothing to do. *)
Lemma some_nil {A} (l : list A) : some l = false -> l = [].
Proof. destruct l; [reflexivity|discriminate]. Qed.
Lemma record_same d refac transient r : consistent r -> proper d -> ~ circular d -> same_outputs d r -> same_inputs d r ->
  record_rule kind_of excl c d refac false transient r = Some (r, false).
Proof.
  intros K P NC SO SI. unfold record_rule.
  pose proof (circular_dec d P) as CD. destruct (match d_group d with Some g => tree_search (d_ins d) g | None => false end); [exfalso; apply NC, CD; reflexivity|].
  destruct (existsb _ _); [exfalso; apply NC, CD; reflexivity|]. clear CD.
  unfold write_outputs. destruct (old_outputs r K) as [o [e [og [E [So [Se [Ho [He Hg]]]]]]]]. rewrite E. cbn [obind].
  apply (same_outputs_dec d r o e og So Se P Ho He Hg) in SO. apply andb_true_iff in SO. destruct SO as [SO S3]. apply andb_true_iff in SO. destruct SO as [S1 S2]. apply negb_true_iff in S2, S3.
  unfold change_group. rewrite S1. cbn [obind]. rewrite compare_tell, (some_nil _ S2). cbn [tell obind]. rewrite compare_tell, (some_nil _ S3). cbn [tell obind fst snd].
  unfold write_inputs. apply opt_eqb_eq in S1. subst og. assert (opt_eqb (d_group d) (d_group d) = true) as -> by (apply opt_eqb_eq; reflexivity).
  destruct (p_sorted _ _ _ _ _ P) as [_ [_ [Si _]]].
  destruct (sticky_set (stk r) []) as [T1 [T2 T3]]; [apply (k_small _ _ _ _ _ K)|intros x []|constructor|].
  assert (some (diffs (d_ins d) (fold_left tree_add_dup (stk r) [])) = false) as N.
  { apply no_diffs; [exact Si|exact T1|]. intros x. rewrite T3. cbn [In]. rewrite (SI x). tauto. }
  rewrite compare_tell, (some_nil _ N). cbn [tell obind w_rows normal_links_invalid new_groups refactoring_failed]. reflexivity.
Qed.

(** In the refactoring mode nothing else is accepted. *)
Lemma record_refac d modified transient r r' ck : consistent r -> proper d -> record_rule kind_of excl c d true modified transient r = Some (r', ck) ->
  modified = false /\ ~ circular d /\ same_outputs d r /\ same_inputs d r.
Proof.
  intros K P H. assert (~ circular d) as NC by (intros C; rewrite (record_circular d true modified transient r P C) in H; discriminate).
  unfold record_rule in H. pose proof (circular_dec d P) as CD. destruct (match d_group d with Some g => tree_search (d_ins d) g | None => false end); [discriminate|]. destruct (existsb _ _); [discriminate|]. clear CD.
  unfold write_outputs in H. destruct (old_outputs r K) as [o [e [og [E [So [Se [Ho [He Hg]]]]]]]]. rewrite E in H. cbn [obind] in H.
  pose proof (same_outputs_dec d r o e og So Se P Ho He Hg) as SD.
  unfold change_group in H. destruct (opt_eqb og (d_group d)) eqn:Q.
  - cbn [obind] in H. rewrite compare_tell, tell_refac in H. cbn [obind fst snd] in H. rewrite compare_tell, tell_refac in H. cbn [obind fst snd] in H.
    destruct (modified || some (diffs o (d_outs d)) || some (diffs e (d_excl d))) eqn:D; [discriminate|]. cbn [fst snd obind] in H.
    apply orb_false_iff in D. destruct D as [D D3]. apply orb_false_iff in D. destruct D as [D1 D2]. split; [exact D1|]. split; [exact NC|]. split; [apply SD; rewrite D2, D3; reflexivity|].
    unfold write_inputs in H. rewrite compare_tell, tell_ins_refac in H. cbn [obind w_rows normal_links_invalid new_groups refactoring_failed] in H. rewrite orb_false_l in H.
    destruct (p_sorted _ _ _ _ _ P) as [_ [_ [Si _]]]. destruct (sticky_set (stk r) []) as [T1 [T2 T3]]; [apply (k_small _ _ _ _ _ K)|intros x []|constructor|].
    destruct (some (diffs (d_ins d) (fold_left tree_add_dup (stk r) []))) eqn:N.
    + match type of H with obind ?A _ = _ => destruct A; discriminate end.
    + intros x. apply no_diffs with (1 := Si) (2 := T1) in N || idtac. pose proof (proj1 (no_diffs _ _ Si T1) N x) as NN. rewrite T3 in NN. cbn [In] in NN. tauto.
  - exfalso. destruct (match d_group d with Some g => obind (each_entry (fun x => insert_member x g) (d_outs d) r) (insert_out c g) | None => Some r end) as [r0|]; [|discriminate]. cbn [obind] in H.
    rewrite compare_tell, tell_refac in H. cbn [obind fst snd] in H. rewrite compare_tell, tell_refac in H. cbn [obind fst snd orb] in H. discriminate.
Qed.
End links.
