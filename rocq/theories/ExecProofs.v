From Verif Require Import Base ExecModel ExecSpec.
From Coq Require Import Permutation.

Lemma inb_In i l : inb i l = true <-> In i l.
Proof.
  unfold inb. rewrite existsb_exists. split.
  - intros [x [H E]]. apply Nat.eqb_eq in E. subst. exact H.
  - intros H. exists i. split; [exact H|apply Nat.eqb_refl].
Qed.
Lemma inb_nIn i l : inb i l = false <-> ~ In i l.
Proof. rewrite <- inb_In. destruct (inb i l); split; congruence. Qed.

Lemma rm_In i l x : In x (rm i l) <-> In x l /\ x <> i.
Proof.
  induction l as [|y l IH]; cbn [rm In]; [tauto|].
  destruct (Nat.eqb_spec y i) as [->|N]; cbn [In]; rewrite IH; intuition congruence.
Qed.
Lemma rm_nIn i l : ~ In i l -> rm i l = l.
Proof.
  induction l as [|y l IH]; cbn [rm]; [reflexivity|]. intros H.
  destruct (Nat.eqb_spec y i) as [->|N]; [exfalso; apply H; left; reflexivity|].
  f_equal. apply IH. intros h. apply H. right. exact h.
Qed.
Lemma rm_perm i l : NoDup l -> In i l -> Permutation l (i :: rm i l).
Proof.
  induction l as [|y l IH]; intros N H; [destruct H|]. apply NoDup_cons_iff in N. destruct N as [Ny N].
  cbn [rm]. destruct (Nat.eqb_spec y i) as [->|E].
  - rewrite (rm_nIn i l Ny). reflexivity.
  - destruct H as [->|H]; [congruence|]. rewrite perm_swap. apply perm_skip. apply IH; assumption.
Qed.

Lemma upd_same {A} (f : id -> A) i v : upd f i v i = v.
Proof. unfold upd. rewrite Nat.eqb_refl. reflexivity. Qed.
Lemma upd_other {A} (f : id -> A) i v j : j <> i -> upd f i v j = f j.
Proof. intros N. unfold upd. destruct (Nat.eqb_spec j i); congruence. Qed.

Lemma edge_eqb_eq a b : edge_eqb a b = true <-> a = b.
Proof.
  unfold edge_eqb. destruct a as [a1 a2 a3], b as [b1 b2 b3]. cbn.
  rewrite !andb_true_iff, !Nat.eqb_eq, eqb_true_iff.
  split; [intros [[-> ->] ->]; reflexivity|intros [= -> -> ->]; auto].
Qed.

Lemma NoDup_app_disj {A} (a b : list A) x : NoDup (a ++ b) -> In x a -> In x b -> False.
Proof.
  induction a as [|y a IH]; intros ND Ha Hb; [destruct Ha|].
  cbn [app] in ND. apply NoDup_cons_iff in ND. destruct ND as [N1 N2].
  destruct Ha as [->|Ha]; [apply N1; apply in_or_app; auto|apply IH; assumption].
Qed.
Lemma NoDup_app_r {A} (a b : list A) : NoDup (a ++ b) -> NoDup b.
Proof.
  induction a as [|y a IH]; intros ND; [exact ND|].
  cbn [app] in ND. apply NoDup_cons_iff in ND. exact (IH (proj2 ND)).
Qed.
Lemma NoDup_app_l {A} (a b : list A) : NoDup (a ++ b) -> NoDup a.
Proof.
  induction a as [|y a IH]; intros ND; [constructor|].
  cbn [app] in ND. apply NoDup_cons_iff in ND. destruct ND as [N1 N2].
  constructor; [|apply IH; exact N2]. intros C. apply N1. apply in_or_app. auto.
Qed.

Definition lists (g : graph) : list id := plist g ++ node_list g.

Definition from (n : id) (e : edge) : bool := src e =? n.

Lemma remove_edge_from n e l r : from n e = true ->
  filter (from n) l = e :: r ->
  filter (from n) (remove_edge e l) = r /\
  (forall x, In x (remove_edge e l) /\ src x <> n <-> In x l /\ src x <> n).
Proof.
  intros Fe. revert r. induction l as [|y l IH]; cbn [filter remove_edge]; intros r H; [discriminate|].
  destruct (from n y) eqn:Fy.
  - injection H as -> H. rewrite (proj2 (edge_eqb_eq e e) eq_refl). split; [exact H|].
    intros x. cbn [In]. unfold from in Fe. apply Nat.eqb_eq in Fe. intuition congruence.
  - destruct (edge_eqb y e) eqn:Q; [apply edge_eqb_eq in Q; congruence|].
    destruct (IH _ H) as [I1 I2]. cbn [filter]. rewrite Fy. split; [exact I1|].
    intros x. cbn [In]. specialize (I2 x). tauto.
Qed.

Definition flip (e : edge) : edge := {| src := dst e; dst := src e; normal := true |}.

(** The destinations are where their state says. *)
Definition placed (g : graph) (d : id) : Prop :=
  (state g d = Processing -> In d (plist g)) /\ (state g d <> Processing -> In d (node_list g)).

Lemma pop_edges_spec n es : forall g,
  NoDup (lists g) -> ~ In n (lists g) ->
  filter (from n) (edges g) = es ->
  (forall e, In e es -> placed g (dst e)) ->
  exists g', pop_edges g n es = Some g' /\
    Permutation (lists g') (lists g) /\
    (forall x, In x (plist g') <-> In x (plist g) \/ exists e, In e es /\ dst e = x) /\
    (forall x, state g' x = state g x \/ (state g' x = Processing /\ exists e, In e es /\ dst e = x)) /\
    (forall e, In e es -> state g' (dst e) = Processing) /\
    trans g' = trans g /\ expanded g' = expanded g /\
    (forall x, In x (edges g') <->
       (In x (edges g) /\ src x <> n) \/
       (trans g n = TProcessing /\ exists e, In e es /\ x = flip e)).
Proof.
  induction es as [|e es IH]; intros g ND Nn F P.
  - exists g. cbn [pop_edges]. split; [reflexivity|]. split; [reflexivity|].
    split. { intros x. split; [auto|]. intros [H|[e [[] _]]]; exact H. }
    split; [auto|]. split; [intros ? []|]. split; [reflexivity|]. split; [reflexivity|].
    intros x. split.
    + intros H. left. split; [exact H|]. intros S.
      assert (In x (filter (from n) (edges g))) as C.
      { apply filter_In. split; [exact H|]. unfold from. apply Nat.eqb_eq. exact S. }
      rewrite F in C. exact C.
    + intros [[H _]|[_ [e [[] _]]]]. exact H.
  - cbn [pop_edges].
    assert (from n e = true) as Fe.
    { assert (In e (filter (from n) (edges g))) as C by (rewrite F; left; reflexivity).
      apply filter_In in C. exact (proj2 C). }
    assert (src e = n) as Se by (apply Nat.eqb_eq; exact Fe).
    pose proof (P e (or_introl eq_refl)) as [Pe1 Pe2].
    assert (In (dst e) (lists g)) as Din.
    { unfold lists. apply in_or_app. destruct (state g (dst e)); [right; apply Pe2; discriminate|
       left; apply Pe1; reflexivity|right; apply Pe2; discriminate]. }
    assert (dst e <> n) as Dn by (intros E; apply Nn; rewrite <- E; exact Din).
    assert (exists g1, (if is_processing (state g (dst e)) then Some g else
             obind (off_nodes g (dst e)) (fun g1 =>
             obind (to_plist_head g1 (dst e)) (fun g2 =>
             Some (set_state g2 (dst e) Processing)))) = Some g1 /\
        Permutation (lists g1) (lists g) /\
        (forall x, In x (plist g1) <-> In x (plist g) \/ x = dst e) /\
        (forall x, state g1 x = if x =? dst e then Processing else state g x) /\
        edges g1 = edges g /\ trans g1 = trans g /\ expanded g1 = expanded g) as
      [g1 [-> [L1 [P1 [S1 [E1 [T1 X1]]]]]]].
    { destruct (state g (dst e)) eqn:St; cbn [is_processing].
      2:{ exists g. split; [reflexivity|]. split; [reflexivity|].
          split. { intros x. split; [auto|]. intros [H|H]; [exact H|subst; apply Pe1; reflexivity]. }
          split; [|auto]. intros x. destruct (Nat.eqb_spec x (dst e)) as [->|]; auto. }
      all: assert (In (dst e) (node_list g)) as Dl by (apply Pe2; discriminate);
        unfold off_nodes; rewrite (proj2 (inb_In _ _) Dl); cbn [obind]; unfold to_plist_head; cbn [plist node_list];
        assert (~ In (dst e) (plist g)) as Np
          by (intros C; exact (NoDup_app_disj _ _ _ ND C Dl));
        rewrite (proj2 (inb_nIn _ _) Np);
        assert (~ In (dst e) (rm (dst e) (node_list g))) as Nr by (rewrite rm_In; tauto);
        rewrite (proj2 (inb_nIn _ _) Nr); cbn [orb obind];
        eexists; split; [reflexivity|]; cbn [lists plist node_list set_state edges trans expanded state];
        (split; [unfold lists; cbn [plist node_list];
           pose proof (NoDup_app_r _ _ ND) as NDn;
           apply (Permutation_trans (Permutation_middle (plist g) _ (dst e)));
           apply Permutation_app_head; symmetry; exact (rm_perm _ _ NDn Dl)|]);
        (split; [intros x; cbn [In]; split; intros [H|H]; auto|]);
        (split; [intros x; unfold upd; destruct (x =? dst e); reflexivity|auto]). }
    cbn [obind].
    set (es1 := if is_tproc (trans g1 n)
                then {| src := dst e; dst := n; normal := true |} :: edges g1 else edges g1).
    assert (filter (from n) es1 = e :: es) as F1.
    { unfold es1. rewrite E1. destruct (is_tproc (trans g1 n)); [|exact F].
      cbn [filter]. unfold from at 1. cbn [src].
      destruct (Nat.eqb_spec (dst e) n) as [C|_]; [congruence|exact F]. }
    destruct (remove_edge_from n e es1 es Fe F1) as [R1 R2].
    destruct (IH (set_edges g1 (remove_edge e es1))) as
      [g' [-> [L' [P' [S' [S2' [T' [X' E']]]]]]]].
    { cbn [lists set_edges plist node_list]. change (NoDup (lists g1)).
      apply (Permutation_NoDup (Permutation_sym L1)). exact ND. }
    { change (~ In n (lists g1)). intros C. apply Nn. apply (Permutation_in _ L1). exact C. }
    { exact R1. }
    { intros e' H. cbn [placed set_edges state plist node_list].
      pose proof (P e' (or_intror H)) as [Q1 Q2]. split; intros Hs; cbn [set_edges state plist node_list] in *.
      - apply P1. rewrite S1 in Hs. destruct (Nat.eqb_spec (dst e') (dst e)) as [->|]; [right; reflexivity|left; auto].
      - rewrite S1 in Hs. destruct (Nat.eqb_spec (dst e') (dst e)) as [|N]; [congruence|].
        pose proof (Q2 Hs) as Q. assert (In (dst e') (lists g1)) as C.
        { apply (Permutation_in _ (Permutation_sym L1)). unfold lists. apply in_or_app. auto. }
        unfold lists in C. apply in_app_or in C. destruct C as [C|C]; [|exact C].
        apply P1 in C. destruct C as [C|C]; [|congruence].
        exfalso. exact (NoDup_app_disj _ _ _ ND C Q). }
    exists g'. cbn [set_edges plist node_list state trans expanded edges] in *.
    split; [reflexivity|]. split; [rewrite L'; exact L1|].
    split. { intros x. rewrite P', P1. split.
      - intros [[H|H]|[e' [H1 H2]]]; [auto|right; exists e; split; [left; reflexivity|auto]|
          right; exists e'; split; [right; exact H1|exact H2]].
      - intros [H|[e' [[<-|H1] H2]]]; [auto|auto|right; exists e'; auto]. }
    split. { intros x. destruct (S' x) as [H|[H [e' [H1 H2]]]].
      - rewrite S1 in H. destruct (Nat.eqb_spec x (dst e)) as [Ex|]; [|auto].
        right. split; [exact H|]. exists e. split; [left; reflexivity|symmetry; exact Ex].
      - right. split; [exact H|]. exists e'. split; [right|]; assumption. }
    split. { intros e' [<-|H]; [|apply S2'; exact H].
      destruct (S' (dst e)) as [H|[H _]]; [|exact H]. rewrite H, S1, Nat.eqb_refl. reflexivity. }
    split; [congruence|]. split; [congruence|].
    intros x. rewrite E'. cbn [set_edges trans]. rewrite T1.
    assert (forall y, (In y (remove_edge e es1) /\ src y <> n) <->
        (In y (edges g) /\ src y <> n) \/ (trans g n = TProcessing /\ y = flip e)) as K.
    { intros y. rewrite R2. unfold es1. rewrite T1, E1.
      destruct (trans g n) eqn:Tn; cbn [is_tproc].
      1,3: split; [auto|intros [H|[H _]]; [exact H|discriminate]].
      cbn [In]. unfold flip. rewrite Se. split.
      - intros [[<-|H] N]; [right; auto|left; auto].
      - intros [[H N]|[_ ->]]; [auto|]. split; [left; reflexivity|cbn; exact Dn]. }
    split.
    + intros [H|[Ht [e' [H1 H2]]]].
      * apply K in H. destruct H as [H|[H1 H2]]; [auto|]. right. split; [exact H1|]. exists e. split; [left; reflexivity|exact H2].
      * right. split; [exact Ht|]. exists e'. split; [right|]; assumption.
    + intros [H|[Ht [e' [[<-|H1] H2]]]].
      * left. apply K. auto.
      * left. apply K. auto.
      * right. split; [exact Ht|]. exists e'. auto.
Qed.

Lemma pop_node_spec g n : NoDup (lists g) -> ~ In n (lists g) ->
  (forall e, In e (edges g) -> src e = n -> placed g (dst e)) ->
  exists g', pop_node g n = Some g' /\
    (trans g n = TProcessing -> Permutation (lists g') (n :: lists g)) /\
    (trans g n <> TProcessing -> Permutation (lists g') (lists g)) /\
    (forall x, In x (plist g') <-> In x (plist g) \/ direct g n x \/
        (x = n /\ trans g n = TProcessing /\ (forall e, In e (edges g) -> src e <> n))) /\
    (forall x, x <> n -> state g' x = state g x \/ (state g' x = Processing /\ direct g n x)) /\
    (forall x, direct g n x -> state g' x = Processing) /\
    (trans g n = TProcessing -> state g' n = Finished) /\
    (forall x, trans g' x = if x =? n then match trans g n with TProcessing => TDelete | t => t end else trans g x) /\
    expanded g' = expanded g /\
    (forall x, In x (edges g') <->
       (In x (edges g) /\ src x <> n) \/
       (trans g n = TProcessing /\ exists e, In e (edges g) /\ src e = n /\ x = flip e)).
Proof.
  intros ND Nn P. unfold pop_node, out_edges.
  change (filter (fun e => src e =? n) (edges g)) with (filter (from n) (edges g)).
  assert (forall e, In e (filter (from n) (edges g)) <-> In e (edges g) /\ src e = n) as FI.
  { intros e. rewrite filter_In. unfold from. rewrite Nat.eqb_eq. tauto. }
  destruct (pop_edges_spec n (filter (from n) (edges g)) g ND Nn eq_refl) as
    [g1 [-> [L [Pl [S1 [S2 [T [X E]]]]]]]].
  { intros e H. apply FI in H. apply P; tauto. }
  assert (forall x, (exists e, In e (filter (from n) (edges g)) /\ dst e = x) <-> direct g n x) as DI.
  { intros x. unfold direct. split; intros [e H]; exists e; rewrite FI in *; tauto. }
  assert (forall x, (exists e, In e (filter (from n) (edges g)) /\ x = flip e) <->
                    (exists e, In e (edges g) /\ src e = n /\ x = flip e)) as DF.
  { intros x. split; intros [e H]; exists e; rewrite FI in *; tauto. }
  assert (forall x, direct g n x -> state g1 x = Processing) as S2'.
  { intros x H. apply DI in H. destruct H as [e [H <-]]. apply S2. exact H. }
  assert (~ In n (lists g1)) as Nn1.
  { intros C. apply Nn. apply (Permutation_in _ L). exact C. }
  assert (~ direct g n n) as Nd.
  { intros C. apply DI in C. assert (In n (plist g1)) as D by (apply Pl; auto).
    apply Nn1. unfold lists. apply in_or_app. auto. }
  cbn [obind]. rewrite T. destruct (trans g n) eqn:Tn; cbn [is_tproc].
  1,3: exists g1; split; [reflexivity|]; split; [discriminate|]; split; [intros _; exact L|];
    (split; [intros x; rewrite Pl, DI; intuition congruence|]);
    (split; [intros x _; rewrite <- DI; apply S1|]); split; [exact S2'|];
    (split; [discriminate|]); (split; [intros x; rewrite T; destruct (Nat.eqb_spec x n) as [->|]; congruence|]);
    split; [exact X|]; intros x; rewrite E; intuition discriminate.
  assert (inb n (plist g1) || inb n (node_list g1) = false) as NI.
  { apply orb_false_iff. rewrite !inb_nIn. split; intros C; apply Nn1; unfold lists; apply in_or_app; auto. }
  unfold to_plist_head, to_nodes_head. rewrite NI.
  assert (forall g2, lists g2 = n :: lists g1 \/ (Permutation (lists g2) (n :: lists g1)) ->
          Permutation (lists g2) (n :: lists g)) as LP.
  { intros g2 [H|H]; [rewrite H|rewrite H]; apply perm_skip; exact L. }
  destruct (filter (from n) (edges g)) as [|e0 es0] eqn:Fe; cbn [obind]; eexists; (split; [reflexivity|]);
    cbn [plist node_list state trans expanded edges set_state set_trans lists].
  - split; [intros _; apply LP; left; reflexivity|]. split; [congruence|].
    split. { intros x. cbn [In]. rewrite Pl. split.
      - intros [->|[H|[e [[] _]]]]; [|auto]. right. right. split; [reflexivity|]. split; [reflexivity|].
        intros e H1 H2. apply (proj2 (FI e)). auto.
      - intros [H|[H|[-> _]]]; [auto| |auto]. apply DI in H. destruct H as [e [[] _]]. }
    split. { intros x N. rewrite upd_other by exact N. rewrite <- DI. apply S1. }
    split. { intros x H. rewrite upd_other by congruence. apply S2'. exact H. }
    split; [intros _; apply upd_same|].
    split. { intros x. rewrite T. unfold upd. destruct (x =? n); reflexivity. }
    split; [exact X|]. intros x. rewrite E, DF. tauto.
  - split; [intros _; apply LP; right; unfold lists; cbn [plist node_list];
            symmetry; apply Permutation_middle|]. split; [congruence|].
    split. { intros x. rewrite Pl, DI. split; [tauto|]. intros [H|[H|[-> [_ H]]]]; [auto|auto|].
      exfalso. apply (H e0); apply FI; left; reflexivity. }
    split. { intros x N. rewrite upd_other by exact N. rewrite <- DI. apply S1. }
    split. { intros x H. rewrite upd_other by congruence. apply S2'. exact H. }
    split; [intros _; apply upd_same|].
    split. { intros x. rewrite T. unfold upd. destruct (x =? n); reflexivity. }
    split; [exact X|]. intros x. rewrite E, DF. tauto.
Qed.
