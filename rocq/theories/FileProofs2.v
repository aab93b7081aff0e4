From Verif Require Import Base ExecModel ExecProofs GraphModel GraphProofs TentModel TentSpec TentProofs FileModel FileSpec FileProofs.
From Coq Require Import ZArith Sorted.

Section Publish.
Variable rename_ok mtime_ok : mapping -> bool.
Lemma publish_spec l : forall b,
  (publish rename_ok mtime_ok l b = Some false <-> b = false /\
    (forall m, In m l -> tmpname m <> realname m -> rename_ok m = true) /\
    (forall m, In m l -> mtent m <> None -> mtime_ok m = true)).
Proof.
  induction l as [|m l IH]; intros b; cbn [publish].
  - split; [intros E; injection E as ->; split; [reflexivity|split; intros m []]|intros [-> _]; reflexivity].
  - set (b' := if bytes_eqb (tmpname m) (realname m) then b else b || negb (rename_ok m)).
    assert (b' = false <-> b = false /\ (tmpname m <> realname m -> rename_ok m = true)) as Q.
    { unfold b'. destruct (bytes_eqb_spec (tmpname m) (realname m)) as [E|E]; [tauto|].
      rewrite orb_false_iff, negb_false_iff. tauto. }
    assert (forall P : mapping -> Prop, (forall k, In k (m :: l) -> P k) <-> P m /\ forall k, In k l -> P k) as A.
    { intros P. cbn [In]. split; [intros H; split; intros; apply H; auto|intros [H1 H2] k [<-|H]; auto]. }
    rewrite !A. destruct (mtent m) as [x|] eqn:E.
    + destruct (mtime_ok m) eqn:M.
      * rewrite IH, Q. intuition discriminate.
      * split; [discriminate|]. intros [_ [_ [C _]]]. assert (false = true) by (apply C; discriminate). discriminate.
    + rewrite IH, Q. intuition congruence.
Qed.
End Publish.

Section Write.
Variable kind_of : id -> kind.
Variable hidden excluded ignorable : bytes -> bool.
Variable lookup : bytes -> option id.
Variable do_unlink : bool.
Variable rename_ok mtime_ok : mapping -> bool.
Hypothesis LS : forall w x, lookup w = Some x -> (Z.of_nat x < 2 ^ 31)%Z.
Hypothesis LI : forall v w x, lookup v = Some x -> lookup w = Some x -> v = w.
Variable outputs : list id.
Hypothesis So : sorted outputs.
Variable success : bool.
Variable ws : list bytes.
Variable ms : list mapping.
Hypothesis NM : NoDup (names ms).
Hypothesis NT : forall m, In m ms -> mtent m = None.
Notation vis := (visible hidden excluded).

Theorem write_info_spec :
  match update_write_info kind_of hidden excluded ignorable lookup do_unlink rename_ok mtime_ok outputs success ws ms with
  | None => exists w, In w ws /\ hidden w = false /\ excluded w = true /\ ignorable w = false
  | Some (d, s, ok) =>
      (forall w, In w ws -> hidden w = false -> excluded w = true -> ignorable w = true) /\
      (ok = true <->
        (forall w, In w ws -> vis w -> exists x, lookup w = Some x /\ In x outputs) /\
        (success = true -> forall x, In x outputs -> exists w, In w ws /\ vis w /\ lookup w = Some x) /\
        (forall m, In m (maps d) -> (tmpname m <> realname m -> rename_ok m = true) /\ (mtent m <> None -> mtime_ok m = true))) /\
      (forall m, In m (maps d) -> In (realname m) ws -> vis (realname m) ->
         exists x, lookup (realname m) = Some x /\ In x outputs) /\
      (forall x, (exists r, In r (reports d) /\ blames_write r x) <->
         (exists w, In w ws /\ vis w /\ lookup w = Some x) /\ ~ In x outputs) /\
      (forall x, In (NotWritten x) (reports d) <-> success = true /\ In x outputs /\ ~ exists w, In w ws /\ vis w /\ lookup w = Some x) /\
      (forall f, In f (wdeleted s) <-> do_unlink = true /\ In f ws /\ vis f /\ lookup f = None) /\
      (forall f, In f (wignored s) <-> In f ws /\ hidden f = false /\ excluded f = true)
  end.
Proof.
  unfold update_write_info.
  set (s0 := {| wtree := []; wbork := false; wmaps := ms; wdeleted := []; wignored := []; wwarn := 0 |}).
  pose proof (write_loop_spec hidden excluded ignorable lookup do_unlink LS (length ws) ws s0 (le_n _) (SSorted_nil lt)
    (fun x H => match H with end) NM) as L.
  assert (forall m x, In m (wmaps s0) -> mtent m = Some x -> lookup (realname m) = Some x) as M0.
  { intros m x Hm E. rewrite (NT m Hm) in E. discriminate. }
  specialize (L M0). destruct (write_loop _ _ _ _ _ _ ws s0) as [s|]; cbn [obind]; [|exact L].
  destruct L as [A0 [A1 [A2 [A3 [A4 [A5 [A6 [A7 [A8 [A9 A10]]]]]]]]]]. cbn [s0 wtree wbork wdeleted wignored wmaps In] in *.
  destruct (check_outputs_spec kind_of (wtree s) outputs (wmaps s) (wbork s) do_unlink success A1 So)
    as [b [d [E [H1 [H2 [H3 [_ [_ H6]]]]]]]].
  rewrite E. cbn [obind fst snd].
  assert (NoDup (flat_map (fun m => match mtent m with Some t => [t] | None => [] end) (wmaps s))) as NDT.
  { clear - A5 A6 LI. induction (wmaps s) as [|m l IH]; [constructor|]. cbn [flat_map names map] in *.
    inversion A5 as [|? ? N1 N2]; subst. assert (NoDup (flat_map (fun m => match mtent m with Some t => [t] | None => [] end) l)) as I.
    { apply IH; [exact N2|]. intros k x Hk. apply A6. right. exact Hk. }
    destruct (mtent m) as [t|] eqn:T; [|exact I]. cbn [app]. constructor; [|exact I]. intros C. apply in_flat_map in C.
    destruct C as [k [K1 K2]]. destruct (mtent k) as [u|] eqn:U; [|destruct K2]. destruct K2 as [->|[]].
    apply N1. assert (realname m = realname k) as ->; [|apply in_map; exact K1].
    apply (LI _ _ t); [apply A6; [left; reflexivity|exact T]|apply A6; [right; exact K1|exact U]]. }
  specialize (H6 NDT).
  assert (forall x, In x (wtree s) <-> exists w, In w ws /\ vis w /\ lookup w = Some x) as T.
  { intros x. rewrite A3. split; [intros [[]|H]; exact H|auto]. }
  assert (wbork s = true <-> exists w, In w ws /\ vis w /\ lookup w = None) as BK.
  { rewrite A4. split; [intros [H|H]; [discriminate|exact H]|auto]. }
  split; [exact A0|]. split; [|split; [|split; [|split; [|split]]]].
  - assert (forall o : option bool, match o with Some b0 => negb b0 | None => false end = true <-> o = Some false) as Z.
    { intros [[]|]; cbn; split; congruence. }
    rewrite Z, publish_spec.
    assert (b = false <-> (forall w, In w ws -> vis w -> exists x, lookup w = Some x /\ In x outputs) /\
        (success = true -> forall x, In x outputs -> exists w, In w ws /\ vis w /\ lookup w = Some x)) as Q.
    { split.
      - intros ->. assert (~ (wbork s = true \/ (exists x, In x (wtree s) /\ ~ In x outputs) \/ (success = true /\ exists x, In x outputs /\ ~ In x (wtree s)))) as N.
        { intros C. apply H1 in C. discriminate. }
        split.
        + intros w Hw V. destruct (lookup w) as [x|] eqn:Lw.
          * exists x. split; [reflexivity|]. destruct (in_dec Nat.eq_dec x outputs) as [I|I]; [exact I|].
            exfalso. apply N. right. left. exists x. split; [apply T; exists w; auto|exact I].
          * exfalso. apply N. left. apply BK. exists w. auto.
        + intros Sx x Hx. apply T. destruct (in_dec Nat.eq_dec x (wtree s)) as [I|I]; [exact I|].
          exfalso. apply N. right. right. split; [exact Sx|]. exists x. auto.
      - intros [C1 C2]. destruct b; [|reflexivity]. exfalso. destruct (proj1 H1 eq_refl) as [C|[[x [X1 X2]]|[C [x [X1 X2]]]]].
        + apply BK in C. destruct C as [w [W1 [W2 W3]]]. destruct (C1 w W1 W2) as [x [X _]]. congruence.
        + apply T in X1. destruct X1 as [w [W1 [W2 W3]]]. destruct (C1 w W1 W2) as [y [Y1 Y2]]. congruence.
        + apply X2. apply T. exact (C2 C x X1). }
    rewrite Q. split.
    + intros [[C1 C2] [C3 C4]]. split; [exact C1|]. split; [exact C2|]. intros m Hm. split; [exact (C3 m Hm)|exact (C4 m Hm)].
    + intros [C1 [C2 C3]]. split; [auto|]. split; intros m Hm; apply (C3 m Hm).
  - intros m Hm Hr V. apply H6 in Hm. destruct Hm as [Hm O]. specialize (A7 m Hm Hr V).
    destruct (mtent m) as [x|] eqn:Tm; [|congruence]. specialize (A6 m x Hm Tm). exists x. split; [exact A6|].
    apply (O x eq_refl). apply T. exists (realname m). auto.
  - intros x. rewrite H2, T. reflexivity.
  - intros x. rewrite H3, T. reflexivity.
  - intros f. rewrite A8. split; [intros [[]|H]; exact H|auto].
  - intros f. rewrite A9. split; [intros [[]|H]; exact H|auto].
Qed.
End Write.

(** ** The set of entries that were read *)
Section Reads.
Variable excluded : bytes -> bool.
Variable node_of var_of : bytes -> option id.
Hypothesis NS : forall n x, node_of n = Some x -> (Z.of_nat x < 2 ^ 31)%Z.
Hypothesis VS : forall n x, var_of n = Some x -> (Z.of_nat x < 2 ^ 31)%Z.

Lemma add_nodes_spec (f : bytes -> option id) (FS : forall n x, f n = Some x -> (Z.of_nat x < 2 ^ 31)%Z) l : forall t,
  sorted t -> small t ->
  sorted (add_nodes f l t) /\ small (add_nodes f l t) /\
  forall x, In x (add_nodes f l t) <-> In x t \/ exists n, In n l /\ f n = Some x.
Proof.
  induction l as [|n l IH]; intros t So Sm; unfold add_nodes; cbn [fold_left].
  - split; [exact So|]. split; [exact Sm|]. intros x. split; [auto|]. intros [H|[n [[] _]]]. exact H.
  - change (fold_left _ l ?z) with (add_nodes f l z). destruct (f n) as [y|] eqn:E.
    + destruct (add_dup_spec t y So) as [B1 [B2 B3]]; [intros z [<-|Hz]; [exact (FS n y E)|exact (Sm z Hz)]|].
      destruct (IH _ B1 B2) as [I1 [I2 I3]]. split; [exact I1|]. split; [exact I2|]. intros x. rewrite I3, B3. split.
      * intros [[->|H]|[m [H1 H2]]]; [right; exists n; split; [left; reflexivity|exact E]|auto|right; exists m; split; [right; exact H1|exact H2]].
      * intros [H|[m [[<-|H1] H2]]]; [auto|left; left; congruence|right; exists m; auto].
    + destruct (IH _ So Sm) as [I1 [I2 I3]]. split; [exact I1|]. split; [exact I2|]. intros x. rewrite I3. split.
      * intros [H|[m [H1 H2]]]; [auto|right; exists m; split; [right; exact H1|exact H2]].
      * intros [H|[m [[<-|H1] H2]]]; [auto|congruence|right; exists m; auto].
Qed.

Lemma tree_copy_spec src : forall t, sorted t -> small t -> small src -> NoDup src -> (forall x, In x src -> ~ In x t) ->
  sorted (tree_copy t src) /\ small (tree_copy t src) /\ forall x, In x (tree_copy t src) <-> In x t \/ In x src.
Proof.
  induction src as [|y src IH]; intros t So Sm Ss ND DJ; cbn [tree_copy].
  - split; [exact So|]. split; [exact Sm|]. intros x. cbn. tauto.
  - inversion ND as [|? ? N1 N2]; subst. assert (small (y :: t)) as Sy by (intros z [<-|Hz]; [apply Ss; left; reflexivity|exact (Sm z Hz)]).
    pose proof (tree_add_spec t y So Sy) as A. destruct (tree_add t y) as [t'|].
    2:{ exfalso. exact (DJ y (or_introl eq_refl) A). }
    destruct A as [A1 [A2 A3]]. destruct (IH t' A2) as [I1 [I2 I3]].
    + intros z Hz. apply A3 in Hz. destruct Hz as [->|Hz]; [apply Sy; left; reflexivity|exact (Sm z Hz)].
    + intros z Hz. apply Ss. right. exact Hz.
    + exact N2.
    + intros z Hz C. apply A3 in C. destruct C as [->|C]; [exact (N1 Hz)|exact (DJ z (or_intror Hz) C)].
    + split; [exact I1|]. split; [exact I2|]. intros x. rewrite I3, A3. cbn [In]. intuition.
Qed.

Theorem read_tree_spec i groups : small groups -> NoDup groups ->
  (forall n x, In n (reads i) -> node_of n = Some x -> ~ In x groups) ->
  (forall n x, In n (vars i) -> var_of n = Some x -> ~ In x groups) ->
  sorted (read_tree excluded node_of var_of i groups) /\
  forall x, In x (read_tree excluded node_of var_of i groups) <->
    (exists n, In n (reads i) /\ excluded n = false /\ node_of n = Some x) \/
    (exists n, In n (vars i) /\ var_of n = Some x) \/ In x groups.
Proof.
  intros Sg Ng D1 D2. unfold read_tree.
  destruct (add_nodes_spec node_of NS (filter (fun n => negb (excluded n)) (reads i)) [] (SSorted_nil lt) (fun x H => match H with end)) as [A1 [A2 A3]].
  destruct (add_nodes_spec var_of VS (vars i) _ A1 A2) as [B1 [B2 B3]].
  assert (forall x, In x (add_nodes var_of (vars i) (add_nodes node_of (filter (fun n => negb (excluded n)) (reads i)) [])) <->
    (exists n, In n (reads i) /\ excluded n = false /\ node_of n = Some x) \/ (exists n, In n (vars i) /\ var_of n = Some x)) as Q.
  { intros x. rewrite B3, A3. cbn [In]. split.
    - intros [[[]|[n [H1 H2]]]|H]; [left|right; exact H]. apply filter_In in H1. rewrite negb_true_iff in H1. exists n. tauto.
    - intros [[n [H1 [H2 H3]]]|H]; [left; right|right; exact H]. exists n. split; [apply filter_In; rewrite H2; auto|exact H3]. }
  destruct (tree_copy_spec groups _ B1 B2 Sg Ng) as [C1 [C2 C3]].
  - intros x Hx C. apply Q in C. destruct C as [[n [H1 [H2 H3]]]|[n [H1 H2]]]; [exact (D1 n x H1 H3 Hx)|exact (D2 n x H1 H2 Hx)].
  - split; [exact C1|]. intros x. rewrite C3, Q. tauto.
Qed.
End Reads.
