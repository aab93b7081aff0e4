(** The graph of the groups has the cycles of the rules. *)
From Verif Require Import Base ExecModel GraphModel GraphProofs GraphSpec GraphProofs2 CircModel CircSpec CircProofs.
Require Import Lia.

Definition weight (s : nstate) : nat := match s with Initialized => 2 | Processing => 1 | Finished => 0 end.
Definition total (U : list id) (g : graph) : nat := fold_right (fun u a => weight (state g u) + a) 0 U.
Lemma total_le U g g' : (forall u, weight (state g' u) <= weight (state g u)) -> total U g' <= total U g.
Proof. intros H. unfold total. induction U as [|u U IH]; cbn [fold_right]; [lia|]. pose proof (H u). lia. Qed.
Lemma total_lt U g g' c : (forall u, weight (state g' u) <= weight (state g u)) -> In c U -> weight (state g' c) < weight (state g c) -> total U g' < total U g.
Proof.
  intros H. unfold total. induction U as [|u U IH]; [intros []|]. intros [-> |C] L; cbn [fold_right].
  - pose proof (total_le U g g' H). unfold total in *. lia.
  - pose proof (IH C L). pose proof (H u). lia.
Qed.
Lemma total_max U g : total U g <= 2 * length U.
Proof. unfold total. induction U as [|u U IH]; cbn [fold_right length]; [lia|]. destruct (state g u); cbn [weight]; lia. Qed.
Lemma total_in U g c : In c U -> weight (state g c) <= total U g.
Proof. unfold total. induction U as [|u U IH]; [intros []|]. intros [-> |C]; cbn [fold_right]; [lia|]. specialize (IH C). lia. Qed.

Definition edge_of (a b : id) : edge := {| src := a; dst := b; normal := true |}.
Lemma in_from l n a b c : In (a, b, c) (rows_from l n) <-> In (a, b, c) l /\ a = n.
Proof. unfold rows_from. rewrite <- in_rev, filter_In. cbn [fst]. rewrite Nat.eqb_eq. tauto. Qed.

Lemma nodup_left {A} (a b : list A) : NoDup (a ++ b) -> NoDup a.
Proof. induction a as [|x a IH]; intros N; [constructor|]. cbn in N. inversion N as [|? ? N1 N2]; subst. constructor; [intros Z; apply N1, in_or_app; auto|auto]. Qed.
Lemma nodup_right {A} (a b : list A) : NoDup (a ++ b) -> NoDup b.
Proof. induction a as [|x a IH]; intros N; [exact N|]. cbn in N. inversion N; subst. auto. Qed.

Section Loop.
Variables (is_grp : id -> bool) (root : id) (l : list row) (U : list id).
Hypothesis rows_ok : forall a b c, In (a, b, c) l -> is_grp a = true /\ is_grp b = true /\ b <> root /\ is_grp c = false /\ c <> root.
Hypothesis rows_U : forall a b c, In (a, b, c) l -> In b U /\ In c U.

Record GI (g : graph) : Prop := {
  gi_fit : fit root g;
  gi_stack : forall n, In n (plist g) -> state g n <> Finished;
  gi_fin : forall n, In n (node_list g) -> n <> root -> state g n = Finished;
  gi_U : forall n, known g n -> n = root \/ In n U;
  gi_edges : forall e, In e (edges g) -> known g (src e) /\ known g (dst e) /\ exists a b c, In (a, b, c) l /\ (e = edge_of a c \/ e = edge_of c b);
  gi_done : forall n b c, known g n -> state g n <> Initialized -> In (n, b, c) l -> In (edge_of n c) (edges g) /\ In (edge_of c b) (edges g) }.

Lemma stack_split g cur rest : fit root g -> plist g = cur :: rest -> ~ In cur rest /\ ~ In cur (node_list g) /\ cur <> root /\ NoDup rest /\ NoDup (node_list g) /\ forall x, In x rest -> ~ In x (node_list g).
Proof.
  intros F E. pose proof (f_nodup _ _ F) as N. rewrite E in N. cbn in N. inversion N as [|? ? N1 N2]; subst. assert (~ In cur rest /\ ~ In cur (node_list g)) as [A C] by (split; intros Z; apply N1, in_or_app; auto).
  split; [exact A|]. split; [exact C|]. split; [intros ->; apply C, F|]. split; [eapply nodup_left; exact N2|]. split; [eapply nodup_right; exact N2|].
  intros x X Y. clear - N2 X Y. induction rest as [|z rest IH]; [destruct X|]. cbn in N2. inversion N2 as [|? ? M1 M2]; subst. destruct X as [->|X]; [apply M1, in_or_app; auto|exact (IH M2 X)].
Qed.

Lemma loop_ok : forall fuel g, GI g -> total U g <= fuel -> exists g', build_group_graph fuel l g = Some (Some g') /\ GI g' /\ plist g' = [] /\ forall x, known g x -> known g' x.
Proof.
  induction fuel as [|f IH]; intros g I T.
  - cbn [build_group_graph]. destruct (plist g) as [|cur rest] eqn:E; [exists g; auto|]. exfalso. assert (In cur (plist g)) as Ic by (rewrite E; left; reflexivity).
    destruct (stack_split g cur rest (gi_fit _ I) E) as [_ [_ [Cr _]]]. destruct (gi_U _ I cur (or_introl Ic)) as [Z|Z]; [contradiction|]. pose proof (total_in U g cur Z). pose proof (gi_stack _ I cur Ic). destruct (state g cur); cbn [weight] in *; [lia|lia|congruence].
  - cbn [build_group_graph]. destruct (plist g) as [|cur rest] eqn:E; [exists g; auto|]. assert (In cur (plist g)) as Ic by (rewrite E; left; reflexivity).
    destruct (stack_split g cur rest (gi_fit _ I) E) as [C1 [C2 [Cr [R1 [R2 R3]]]]]. assert (In cur U) as Cu by (destruct (gi_U _ I cur (or_introl Ic)) as [Z|Z]; [contradiction|exact Z]).
    destruct (state g cur) eqn:Sc.
    + destruct (cbs_ok is_grp root cur (rows_from l cur) g (gi_fit _ I)) as [g1 [E1 [F1 [K1 [S1 [N1 [[new P1] D1]]]]]]].
      { intros a b c R. apply in_from in R as [R _]. destruct (rows_ok a b c R) as [A1 [A2 [A3 [A4 A5]]]]. split; [intros ->; congruence|auto]. }
      rewrite E1. cbn [obind]. destruct (IH (set_state g1 cur Processing)) as [g' [B1 [B2 [B3 B4]]]].
      * assert (forall x, state (set_state g1 cur Processing) x = if x =? cur then Processing else state g x) as St by (intros x; cbn [set_state state]; rewrite upd_if, S1; reflexivity).
        assert (forall x, known (set_state g1 cur Processing) x <-> known g1 x) as Kn by (intros x; reflexivity).
        split.
        -- split; [apply F1|apply F1|apply F1|]. intros n Z. rewrite St. destruct (n =? cur) eqn:Q; [|rewrite <- S1; apply (f_new _ _ F1 n Z)]. apply Nat.eqb_eq in Q. subst n. exfalso. apply Z, Kn, K1. left. left. exact Ic.
        -- intros n Z. rewrite St. destruct (n =? cur); [discriminate|]. destruct (find_node g n) eqn:Fn; [|apply find_unknown in Fn; rewrite (f_new _ _ (gi_fit _ I) n Fn); discriminate].
           apply find_known in Fn as [Fn|Fn]; [apply (gi_stack _ I n Fn)|]. exfalso. pose proof (f_nodup _ _ F1) as Nd. rewrite N1 in Nd. clear - Z Fn Nd. cbn [set_state plist] in Z. induction (plist g1) as [|z p IHp]; [destruct Z|]. cbn in Nd. inversion Nd as [|? ? M1 M2]; subst. destruct Z as [->|Z]; [apply M1, in_or_app; auto|auto].
        -- intros n Z Zr. cbn [set_state node_list] in Z. rewrite N1 in Z. rewrite St. destruct (n =? cur) eqn:Q; [apply Nat.eqb_eq in Q; subst; contradiction|]. apply (gi_fin _ I n Z Zr).
        -- intros n Z. apply Kn, K1 in Z as [Z|[a [b [c [R X]]]]]; [apply (gi_U _ I n Z)|]. right. apply in_from in R as [R _]. destruct (rows_U a b c R). destruct X as [-> | ->]; assumption.
        -- intros e Z. cbn [set_state edges] in Z. apply D1 in Z as [Z|[a [b [c [R X]]]]].
           ++ destruct (gi_edges _ I e Z) as [A1 [A2 A3]]. split; [apply Kn, K1; auto|]. split; [apply Kn, K1; auto|exact A3].
           ++ pose proof R as R'. apply in_from in R' as [R' Ea]. subst a. split; [|split]; [apply Kn, K1|apply Kn, K1|].
              ** destruct X as [-> | ->]; cbn [src]; [left; left; exact Ic|right; exists cur, b, c; auto].
              ** destruct X as [-> | ->]; cbn [dst]; right; exists cur, b, c; auto.
              ** exists cur, b, c. split; [exact R'|]. destruct X as [-> | ->]; auto.
        -- intros n b c Z Zs R. rewrite St in Zs. cbn [set_state edges]. destruct (n =? cur) eqn:Q.
           ++ apply Nat.eqb_eq in Q. subst n. split; apply D1; right; exists cur, b, c; (split; [apply in_from; auto|auto]).
           ++ assert (known g n) as Kg by (destruct (find_node g n) eqn:Fn; [apply find_known; exact Fn|apply find_unknown in Fn; rewrite (f_new _ _ (gi_fit _ I) n Fn) in Zs; congruence]).
              destruct (gi_done _ I n b c Kg Zs R) as [A1 A2]. split; apply D1; auto.
      * assert (total U (set_state g1 cur Processing) < total U g); [|lia]. apply (total_lt U g _ cur); [|exact Cu|].
        -- intros u. cbn [set_state state]. rewrite upd_if, S1. destruct (u =? cur) eqn:Q; [|lia]. apply Nat.eqb_eq in Q. subst u. rewrite Sc. cbn. lia.
        -- cbn [set_state state]. rewrite upd_same, Sc. cbn. lia.
      * exists g'. split; [exact B1|]. split; [exact B2|]. split; [exact B3|]. intros x X. apply B4. unfold known in *. cbn [set_state plist node_list]. apply K1. auto.
    + unfold off_plist. rewrite (proj2 (inb_in cur (plist g)) Ic). cbn [obind]. rewrite E. cbn [rm]. rewrite Nat.eqb_refl, (rm_notin cur rest C1). unfold to_nodes_tail. cbn [plist node_list edges state trans expanded].
      rewrite (proj2 (inb_false cur rest) C1), (proj2 (inb_false cur (node_list g)) C2). cbn [orb obind].
      set (g2 := set_state _ cur Finished).
      assert (forall x, state g2 x = if x =? cur then Finished else state g x) as St by (intros x; reflexivity).
      assert (forall x, known g2 x <-> known g x) as Kn by (intros x; unfold known, g2; cbn [set_state plist node_list]; rewrite E, in_app_iff; cbn; tauto).
      destruct (IH g2) as [g' [B1 [B2 [B3 B4]]]].
      * split.
        -- split.
           ++ unfold g2. cbn [set_state plist node_list]. rewrite app_assoc. pose proof (f_nodup _ _ (gi_fit _ I)) as Nd. rewrite E in Nd. cbn in Nd. inversion Nd as [|? ? M1 M2]; subst. apply NoDup_app_intro; [exact M2|repeat constructor; intros []|]. intros x X [<-|[]]. contradiction.
           ++ unfold g2. cbn [set_state node_list]. apply in_or_app. left. apply (gi_fit _ I).
           ++ intros n Z Zr. apply (f_exp _ _ (gi_fit _ I) n); [apply Kn; exact Z|exact Zr].
           ++ intros n Z. rewrite St. destruct (n =? cur) eqn:Q; [apply Nat.eqb_eq in Q; subst n; exfalso; apply Z, Kn; left; exact Ic|]. apply (f_new _ _ (gi_fit _ I) n). intros Y. apply Z, Kn, Y.
        -- intros n Z. rewrite St. unfold g2 in Z. cbn [set_state plist] in Z. destruct (n =? cur) eqn:Q; [apply Nat.eqb_eq in Q; subst; contradiction|]. apply (gi_stack _ I). rewrite E. right. exact Z.
        -- intros n Z Zr. rewrite St. unfold g2 in Z. cbn [set_state node_list] in Z. destruct (n =? cur) eqn:Q; [reflexivity|]. apply in_app_or in Z as [Z|[Z|[]]]; [apply (gi_fin _ I n Z Zr)|]. subst n. rewrite Nat.eqb_refl in Q. discriminate.
        -- intros n Z. apply (gi_U _ I), Kn, Z.
        -- intros e Z. destruct (gi_edges _ I e Z) as [A1 [A2 A3]]. rewrite !Kn. auto.
        -- intros n b c Z Zs R. apply (gi_done _ I n b c (proj1 (Kn n) Z)); [|exact R]. rewrite St in Zs. destruct (n =? cur) eqn:Q; [|exact Zs]. apply Nat.eqb_eq in Q. subst n. rewrite Sc. discriminate.
      * assert (total U g2 < total U g); [|lia]. apply (total_lt U g _ cur); [|exact Cu|].
        -- intros u. rewrite St. destruct (u =? cur); cbn [weight]; lia.
        -- rewrite St, Nat.eqb_refl, Sc. cbn. lia.
      * exists g'. split; [exact B1|]. split; [exact B2|]. split; [exact B3|]. intros x X. apply B4, Kn, X.
    + exfalso. exact (gi_stack _ I cur Ic Sc).
Qed.

(** Cycles of the table and of the graph. *)
Inductive steps : id -> id -> Prop :=
| s_one a b c : In (a, b, c) l -> steps a b
| s_more a b b' c : steps a b -> In (b, b', c) l -> steps a b'.
Hypothesis one_target : forall a b c a' b', In (a, b, c) l -> In (a', b', c) l -> b = b'.

Lemma path_from g a b : GI g -> is_grp a = true -> gpath g a b ->
  (is_grp b = true -> steps a b) /\ (is_grp b = false -> exists i b', (i = a \/ steps a i) /\ In (i, b', b) l).
Proof.
  intros I Ga P. revert Ga. induction P as [e He|a e P IH He]; intros Ga.
  - destruct (gi_edges _ I e He) as [_ [_ [x [y [c [R [-> | ->]]]]]]]; cbn [edge_of src dst] in *; destruct (rows_ok x y c R) as [T1 [T2 [_ [T3 _]]]].
    + split; [congruence|]. intros _. exists x, y. auto.
    + congruence.
  - destruct (IH Ga) as [IH1 IH2]. destruct (gi_edges _ I e He) as [_ [_ [x [y [c [R [-> | ->]]]]]]]; cbn [edge_of src dst] in *; destruct (rows_ok x y c R) as [T1 [T2 [_ [T3 _]]]].
    + split; [congruence|]. intros _. exists x, y. split; [right; exact (IH1 T1)|exact R].
    + split; [|congruence]. intros _. destruct (IH2 T3) as [i [b' [X R']]]. assert (b' = y) as -> by (eapply one_target; eauto). destruct X as [->|X]; [eapply s_one; eauto|eapply s_more; eauto].
Qed.
Lemma cycle_to_table g n : GI g -> gpath g n n -> exists a, steps a a.
Proof.
  intros I P. destruct (is_grp n) eqn:G; [exists n; apply (proj1 (path_from g n n I G P)); exact G|].
  destruct (gpath_first g n n P) as [e [He [Se Ne]]]. assert (is_grp (dst e) = true) as Gd.
  { destruct (gi_edges _ I e He) as [_ [_ [x [y [c [R [-> | ->]]]]]]]; cbn [edge_of src dst] in *; destruct (rows_ok x y c R) as [T1 [T2 _]]; [congruence|exact T2]. }
  destruct Ne as [Ne|Ne]; [rewrite Ne in Gd; congruence|]. exists (dst e). apply (proj1 (path_from g (dst e) (dst e) I Gd (gpath_trans g _ _ _ Ne ltac:(rewrite <- Se; apply gpath_one; exact He)))). exact Gd.
Qed.
Lemma table_to_path g a b : GI g -> plist g = [] -> is_grp a = true -> a <> root -> known g a -> steps a b -> gpath g a b /\ known g b.
Proof.
  intros I E Ga Ra Ka P. assert (forall x y c, is_grp x = true -> x <> root -> known g x -> In (x, y, c) l -> gpath g x y /\ known g y) as Go.
  { intros x y c Gx Rx [Kx|Kx] R; [rewrite E in Kx; destruct Kx|]. destruct (gi_done _ I x y c (or_intror Kx)) as [E1 E2]; [rewrite (gi_fin _ I x Kx Rx); discriminate|exact R|].
    split; [|apply (gi_edges _ I _ E2)]. apply gpath_trans with c; [exact (gpath_one g _ E1)|exact (gpath_one g _ E2)]. }
  induction P as [a b c R|a b b' c P IH R]; [exact (Go a b c Ga Ra Ka R)|]. destruct (IH Ga Ra Ka) as [P1 K1]. destruct (rows_ok b b' c R) as [Gb _].
  assert (b <> root) as Rb. { clear - P rows_ok. destruct P as [a b c R|a b b' c _ R]; apply (rows_ok _ _ _ R). }
  destruct (Go b b' c Gb Rb K1 R) as [P2 K2]. split; [eapply gpath_trans; eauto|exact K2].
Qed.
Lemma done_wfg g : GI g -> plist g = [] -> wfg g.
Proof.
  intros I E. pose proof (f_nodup _ _ (gi_fit _ I)) as N. rewrite E in N. cbn in N. split; [exact N| |].
  - intros e He. destruct (gi_edges _ I e He) as [[K|K] _]; [rewrite E in K; destruct K|exact K].
  - intros e He. destruct (gi_edges _ I e He) as [_ [[K|K] _]]; [rewrite E in K; destruct K|exact K].
Qed.
End Loop.
