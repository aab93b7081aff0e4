(** The check finds each cycle that an update makes. *)
From Verif Require Import Base ExecModel GraphModel GraphProofs GraphSpec GraphProofs2 CircModel CircSpec CircProofs CircProofs2.
Require Import Lia.

Section Phase.
Variables (is_grp : id -> bool) (root : id).
Notation typed := (typed is_grp root).

Lemma steps_leads s a b : table s -> (steps (g_link s) a b <-> leads s a b).
Proof.
  intros T. split.
  - induction 1 as [a b c R|a b b' c P IH R]; [apply leads_one|eapply leads_more; [exact IH|]]; exists c; apply T in R; exact R.
  - induction 1 as [a b [c F]|a b b' P IH [c F]]; [eapply s_one|eapply s_more; [exact IH|]]; apply T; exact F.
Qed.
Lemma rows_typed s : table s -> typed s -> forall a b c, In (a, b, c) (g_link s) -> is_grp a = true /\ is_grp b = true /\ b <> root /\ is_grp c = false /\ c <> root.
Proof. intros T Y a b c R. apply T in R as [A C]. destruct (Y c) as [Y1 Y2]. destruct (Y1 a A). destruct (Y2 b C) as [? [? [? ?]]]. auto. Qed.
Lemma rows_one s : table s -> forall a b c a' b', In (a, b, c) (g_link s) -> In (a', b', c) (g_link s) -> b = b'.
Proof. intros T a b c a' b' R R'. apply T in R as [_ R]. apply T in R' as [_ R']. congruence. Qed.

Record SG (g : graph) : Prop := {
  sg_fit : fit root g; sg_edges : edges g = []; sg_nodes : node_list g = [root]; sg_state : forall n, state g n = Initialized; sg_grp : forall n, In n (plist g) -> is_grp n = true }.
Lemma sg_new : SG (new_graph root).
Proof.
  split; try reflexivity.
  - split; cbn.
    + repeat constructor. intros [].
    + left. reflexivity.
    + intros n [[]|[->|[]]] N. congruence.
    + intros n _. rewrite upd_if. destruct (n =? root); reflexivity.
  - intros n. cbn. rewrite upd_if. destruct (n =? root); reflexivity.
  - intros n [].
Qed.
Lemma add_ok g n : SG g -> is_grp n = true -> n <> root -> exists g', add_group_circ_check g n = Some g' /\ SG g' /\ forall x, In x (plist g') <-> x = n \/ In x (plist g).
Proof.
  intros S G N. unfold add_group_circ_check. destruct (find_node g n) eqn:F.
  - exists g. split; [reflexivity|]. split; [exact S|]. intros x. split; [auto|]. intros [->|X]; [|exact X]. apply find_known in F as [F|F]; [exact F|]. rewrite (sg_nodes _ S) in F. destruct F as [F|[]]. congruence.
  - apply find_unknown in F. assert (~ In n (plist g) /\ ~ In n (node_list g)) as [Np Nn] by (unfold known in F; tauto).
    unfold off_nodes. cbn [new_node node_list plist edges state trans expanded]. rewrite (proj2 (inb_in n (node_list g ++ [n]))) by (apply in_or_app; right; left; reflexivity). rewrite (rm_fresh_tail n _ Nn). cbn [obind]. unfold to_plist_head. cbn [node_list plist edges state trans expanded].
    rewrite (proj2 (inb_false n (plist g)) Np), (proj2 (inb_false n (node_list g)) Nn). cbn [orb obind]. eexists. split; [reflexivity|]. split.
    + split; cbn [set_expanded node_list plist edges state trans expanded]; try apply S.
      * split; cbn [set_expanded node_list plist edges state trans expanded].
        -- cbn. constructor; [intros Z; apply in_app_or in Z as [Z|Z]; auto|apply S].
        -- apply S.
        -- intros x X R. rewrite upd_if. destruct (x =? n) eqn:Q; [reflexivity|]. rewrite upd_if, Q. apply S; [|exact R]. unfold known in *. cbn in X. destruct X as [[X|X]|X]; [subst; rewrite Nat.eqb_refl in Q; discriminate|auto|auto].
        -- intros x _. rewrite upd_if. destruct (x =? n); [reflexivity|apply (sg_state _ S)].
      * intros x. rewrite upd_if. destruct (x =? n); [reflexivity|apply (sg_state _ S)].
      * intros x [<-|X]; [exact G|apply (sg_grp _ S); exact X].
    + intros x. cbn. intuition congruence.
Qed.

Definition stack (g : option graph) (x : id) : Prop := exists g1, g = Some g1 /\ In x (plist g1).
Definition started (g : option graph) : Prop := forall g1, g = Some g1 -> SG g1.

Lemma ops_ok : forall os s g, table s -> typed s -> started g -> (forall o, In o os -> op_ok is_grp root o) ->
  do_ops root os s g = PSelf /\ (exists c ins x, In (Rule c ins (Some x)) os /\ In x ins) \/
  exists s' g', do_ops root os s g = POk s' g' /\ table s' /\ typed s' /\ started g' /\ says_so os s s' /\ (forall x, stack g x -> stack g' x) /\
    (forall c ins x, In (Rule c ins (Some x)) os -> ~ In x ins) /\
    forall a b c, In (a, b, c) (g_link s') -> In (a, b, c) (g_link s) \/ stack g' b.
Proof.
  induction os as [|o os IH]; intros s g T Y G O; cbn [do_ops].
  - right. exists s, g. split; [reflexivity|]. split; [exact T|]. split; [exact Y|]. split; [exact G|]. split; [intros c; reflexivity|]. split; [auto|]. split; [intros c ins x []|auto].
  - assert (forall o, In o os -> op_ok is_grp root o) as Os by (intros p P; apply O; right; exact P). specialize (O o (or_introl eq_refl)). destruct o as [c ins group|c]; cbn [do_op].
    + destruct O as [Gc [Rc [Nd Gi]]]. destruct (match group with Some x => inb x ins | None => false end) eqn:Self.
      { left. split; [reflexivity|]. destruct group as [x|]; [|discriminate]. apply inb_in in Self. exists c, ins, x. split; [left; reflexivity|exact Self]. }
      destruct (write_ok is_grp root c ins group s T Nd) as [s1 [new [-> [Ei [Eo [T1 [Ng Nl]]]]]]].
      assert (typed s1) as Y1.
      { intros x. rewrite Ei, Eo, !upd_if. destruct (x =? c) eqn:Q; [|apply Y]. apply Nat.eqb_eq in Q. subst x. split; [intros a A; apply Gi; auto|]. intros b Bb. destruct (Gi b (or_intror Bb)). auto. }
      assert (forall os s', says_so os s1 s' -> says_so (Rule c ins group :: os) s s') as Sy.
      { intros os' s' S x. rewrite (S x), Ei, Eo, !upd_if. cbn [says]. rewrite (Nat.eqb_sym c x). destruct (x =? c); reflexivity. }
      assert (forall x, group = Some x -> ~ In x ins) as Ns by (intros x -> Z; apply inb_in in Z; congruence).
      destruct new.
      * destruct group as [x|]; [|exfalso; exact (Ng eq_refl eq_refl)]. destruct (Gi x (or_intror eq_refl)) as [Gx Rx].
        assert (SG (match g with Some g => g | None => new_graph root end)) as S0 by (destruct g as [g|]; [apply G; reflexivity|exact sg_new]).
        destruct (add_ok _ x S0 Gx Rx) as [g1 [-> [S1 P1]]]. destruct (IH s1 (Some g1) T1 Y1 (fun g2 E => ltac:(injection E as <-; exact S1)) Os) as [[E [c' [ins' [x' [R X]]]]]|[s' [g' [E [T' [Y' [G' [Sa [St [Ns' Nl']]]]]]]]]].
        -- left. split; [exact E|]. exists c', ins', x'. split; [right; exact R|exact X].
        -- right. exists s', g'. split; [exact E|]. split; [exact T'|]. split; [exact Y'|]. split; [exact G'|]. split; [apply Sy; exact Sa|]. split; [|split].
           ++ intros y [g0 [Eg Py]]. apply St. exists g1. split; [reflexivity|]. apply P1. right. subst g. exact Py.
           ++ intros c' ins' x' [R|R]; [injection R as <- <- <-; apply Ns; reflexivity|eapply Ns'; eauto].
           ++ intros a b z R. destruct (Nl' a b z R) as [Q|Q]; [|right; exact Q]. destruct (Nl a b z Q) as [W|[_ W]]; [left; exact W|right]. injection W as <-. apply St. exists g1. split; [reflexivity|]. apply P1. left. reflexivity.
      * destruct (IH s1 g T1 Y1 G Os) as [[E [c' [ins' [x' [R X]]]]]|[s' [g' [E [T' [Y' [G' [Sa [St [Ns' Nl']]]]]]]]]].
        -- left. split; [exact E|]. exists c', ins', x'. split; [right; exact R|exact X].
        -- right. exists s', g'. split; [exact E|]. split; [exact T'|]. split; [exact Y'|]. split; [exact G'|]. split; [apply Sy; exact Sa|]. split; [exact St|]. split.
           ++ intros c' ins' x' [R|R]; [injection R as <- <- ->; apply Ns; reflexivity|eapply Ns'; eauto].
           ++ intros a b z R. destruct (Nl' a b z R) as [Q|Q]; [|right; exact Q]. destruct (Nl a b z Q) as [W|[W _]]; [left; exact W|discriminate].
    + set (s1 := {| g_in := upd (g_in s) c []; g_out := upd (g_out s) c None; g_link := delete_group_links c (g_link s) |}).
      assert (table s1) as T1.
      { intros a b x. unfold s1. cbn [g_in g_out g_link]. rewrite delete_ok, !upd_if. rewrite (T a b x). destruct (x =? c) eqn:Q; [apply Nat.eqb_eq in Q; cbn; split; [tauto|intros [[] _]]|apply Nat.eqb_neq in Q; tauto]. }
      assert (typed s1) as Y1.
      { intros x. unfold s1. cbn [g_in g_out]. rewrite !upd_if. destruct (x =? c); [split; [intros a []|discriminate]|apply Y]. }
      destruct (IH s1 g T1 Y1 G Os) as [[E [c' [ins' [x' [R X]]]]]|[s' [g' [E [T' [Y' [G' [Sa [St [Ns' Nl']]]]]]]]]].
      * left. split; [exact E|]. exists c', ins', x'. split; [right; exact R|exact X].
      * right. exists s', g'. split; [exact E|]. split; [exact T'|]. split; [exact Y'|]. split; [exact G'|]. split; [|split; [exact St|split]].
        -- intros x. rewrite (Sa x). unfold s1. cbn [g_in g_out says]. rewrite !upd_if, (Nat.eqb_sym c x). destruct (x =? c); reflexivity.
        -- intros c' ins' x' [R|R]; [discriminate|eapply Ns'; eauto].
        -- intros a b z R. destruct (Nl' a b z R) as [Q|Q]; [|right; exact Q]. left. unfold s1 in Q. cbn [g_link] in Q. apply delete_ok in Q. tauto.
Qed.

Lemma check_ok s g : table s -> typed s -> SG g ->
  (group_circ_check is_grp (g_link s) (Some g) = Passes /\ forall k a, In k (plist g) -> a = k \/ steps (g_link s) k a -> ~ steps (g_link s) a a) \/
  exists ns, group_circ_check is_grp (g_link s) (Some g) = Cycle ns /\ (exists a, steps (g_link s) a a) /\ (forall n, In n ns -> is_grp n = true) /\
    forall k a, In k (plist g) -> a = k \/ steps (g_link s) k a -> steps (g_link s) a a -> In a ns.
Proof.
  intros T Y S. set (l := g_link s). set (U := plist g ++ flat_map (fun r : row => [snd (fst r); snd r]) l). pose proof (rows_typed s T Y) as RT. pose proof (rows_one s T) as RO. fold l in RT, RO.
  assert (GI root l U g) as I.
  { split.
    - apply S.
    - intros n _. rewrite (sg_state _ S). discriminate.
    - intros n N R. rewrite (sg_nodes _ S) in N. destruct N as [N|[]]. congruence.
    - intros n [N|N]; [right; apply in_or_app; auto|left]. rewrite (sg_nodes _ S) in N. destruct N as [N|[]]. auto.
    - intros e E. rewrite (sg_edges _ S) in E. destruct E.
    - intros n b c _ Z. rewrite (sg_state _ S) in Z. congruence. }
  assert (forall a b c, In (a, b, c) l -> In b U /\ In c U) as RU.
  { intros a b c R. split; apply in_or_app; right; apply in_flat_map; exists (a, b, c); (split; [exact R|cbn; auto]). }
  assert (length U = length (plist g) + 2 * length l) as LU.
  { unfold U. rewrite app_length. f_equal. clear. induction l as [|r l IH]; [reflexivity|]. cbn [flat_map app length]. rewrite IH. lia. }
  destruct (loop_ok is_grp root l U RT RU (2 * (length (plist g) + 2 * length l)) g I) as [g' [E [I' [P' K']]]]; [rewrite <- LU; apply total_max|].
  assert (forall k a, In k (plist g) -> a = k \/ steps l k a -> steps l a a -> gpath g' a a) as Cy.
  { intros k a Kk X C. assert (k <> root) as Kr. { intros ->. pose proof (f_nodup _ _ (sg_fit _ S)) as N. rewrite (sg_nodes _ S) in N. apply NoDup_remove_2 in N. rewrite app_nil_r in N. contradiction. }
    assert (known g' a) as Ka. { destruct X as [->|X]; [apply K'; left; exact Kk|]. apply (table_to_path is_grp root l U RT g' k a I' P'); auto; [apply S; exact Kk|apply K'; left; exact Kk]. }
    assert (is_grp a = true) as Ga. { clear - C RT. destruct C as [a b c R|a b b' c _ R]; apply (RT _ _ _ R). }
    assert (a <> root) as Ra. { clear - C RT. destruct C as [a b c R|a b b' c _ R]; apply (RT _ _ _ R). }
    apply (table_to_path is_grp root l U RT g' a a I' P' Ga Ra Ka C). }
  cbn [group_circ_check]. rewrite E. destruct (trim_exact g' (done_wfg root l U g' I' P')) as [t [Et [Ne Al]]]. rewrite Et. destruct (node_list t) as [|x ns] eqn:Nt.
  - left. split; [reflexivity|]. intros k a Kk X C. apply (proj1 Ne eq_refl). exists a. exact (Cy k a Kk X C).
  - right. exists (filter is_grp (x :: ns)). split; [reflexivity|]. split; [|split].
    + assert (~ ~ exists n, gpath g' n n) as NN by (intros Z; apply Ne in Z; discriminate).
      destruct (trim_graph_spec (length (node_list g')) g' (done_wfg root l U g' I' P') (le_n _)) as [t' [Et' [W' [_ [_ [Ie Hn]]]]]]. rewrite Et in Et'. injection Et' as <-.
      destruct (all_out_cycle t W') as [n P].
      * rewrite Nt. discriminate.
      * intros n Hx. destruct (Hn n Hx) as [_ O]. unfold no_out in O. apply negb_false_iff in O. apply existsb_exists in O as [e [E1 E2]]. apply Nat.eqb_eq in E2. exists e. auto.
      * eapply (cycle_to_table is_grp root l U RT RO g' n I'). apply (gpath_mono t g' Ie). exact P.
    + intros n N. apply filter_In in N. apply N.
    + intros k a Kk X C. apply filter_In. split; [apply Al; exact (Cy k a Kk X C)|]. destruct C as [a b c R|a b b' c _ R]; apply (RT _ _ _ R).
Qed.

Lemma new_cycle l0 l (K : id -> Prop) a b : (forall x y z, In (x, y, z) l -> In (x, y, z) l0 \/ K y) -> steps l a b -> steps l0 a b \/ exists k, K k /\ (b = k \/ steps l k b) /\ steps l a k.
Proof.
  intros H P. induction P as [a b c R|a b b' c P IH R].
  - destruct (H a b c R) as [Q|Q]; [left; eapply s_one; exact Q|right]. exists b. split; [exact Q|]. split; [auto|eapply s_one; exact R].
  - destruct IH as [IH|[k [Kk [X A]]]].
    + destruct (H b b' c R) as [Q|Q]; [left; eapply s_more; [exact IH|exact Q]|right]. exists b'. split; [exact Q|]. split; [auto|eapply s_more; [exact P|exact R]].
    + right. exists k. split; [exact Kk|]. split; [right|exact A]. destruct X as [<-|X]; [eapply s_one; exact R|eapply s_more; [exact X|exact R]].
Qed.

Lemma phase_ok os s : table s -> typed s -> ~ circular s -> (forall o, In o os -> op_ok is_grp root o) ->
  parse_phase is_grp root os s = SelfError /\ (exists c ins x, In (Rule c ins (Some x)) os /\ In x ins) \/
  (forall c ins x, In (Rule c ins (Some x)) os -> ~ In x ins) /\ exists s', table s' /\ typed s' /\ says_so os s s' /\
    (parse_phase is_grp root os s = Committed s' /\ ~ circular s' \/
     exists ns, parse_phase is_grp root os s = CycleError ns /\ circular s' /\ (forall n, In n ns -> is_grp n = true) /\ forall a, leads s' a a -> In a ns).
Proof.
  intros T Y A O. unfold parse_phase. destruct (ops_ok os s None T Y (fun g E => ltac:(discriminate)) O) as [[-> R]|[s' [g' [-> [T' [Y' [G' [Sa [_ [Ns Nl]]]]]]]]]]; [left; auto|right].
  split; [exact Ns|]. exists s'. split; [exact T'|]. split; [exact Y'|]. split; [exact Sa|].
  assert (forall a, steps (g_link s') a a -> exists k, stack g' k /\ (a = k \/ steps (g_link s') k a)) as Nc.
  { intros a C. destruct (new_cycle (g_link s) (g_link s') (stack g') a a Nl C) as [Z|[k [Kk [X _]]]]; [|eauto]. exfalso. apply A. exists a. apply (steps_leads s a a T). exact Z. }
  destruct g' as [g'|].
  - destruct (check_ok s' g' T' Y' (G' g' eq_refl)) as [[-> H]|[ns [-> [[a C] [Gn H]]]]].
    + left. split; [reflexivity|]. intros [a C]. apply (steps_leads s' a a T') in C. destruct (Nc a C) as [k [[g1 [E1 Kk]] X]]. injection E1 as <-. exact (H k a Kk X C).
    + right. exists ns. split; [reflexivity|]. split; [exists a; apply (steps_leads s' a a T'); exact C|]. split; [exact Gn|]. intros x Cx. apply (steps_leads s' x x T') in Cx. destruct (Nc x Cx) as [k [[g1 [E1 Kk]] X]]. injection E1 as <-. exact (H k x Kk X Cx).
  - left. split; [reflexivity|]. intros [a C]. apply (steps_leads s' a a T') in C. destruct (Nc a C) as [k [[g1 [E1 _]] _]]. discriminate.
Qed.

Lemma history_ok s : history is_grp root s -> table s /\ typed s /\ ~ circular s.
Proof.
  induction 1 as [|s os H [T [Y A]] O].
  - split; [intros a b c; cbn; tauto|]. split; [intros c; split; [intros a []|discriminate]|]. intros [a C]. assert (forall x y, leads empty_gdb x y -> False) as Z; [|exact (Z a a C)].
    induction 1 as [x y [c [[] _]]|x y z _ IH _]; exact IH.
  - destruct (phase_ok os s T Y A O) as [[-> _]|[_ [s' [T' [Y' [_ [[-> A']|[ns [-> _]]]]]]]]]; cbn [after]; auto.
Qed.
End Phase.
