(** The number of commands in the message. *)
From Verif Require Import Base ExecModel ExecSpec ExecProofs GraphModel GraphSpec GraphProofs GraphProofs2 TodoModel.
From Coq Require Import Permutation.

Lemma perm_filter {A} (f : A -> bool) l l' : Permutation l l' -> length (filter f l) = length (filter f l').
Proof. intros H. induction H; cbn [filter]; try destruct (f x); try destruct (f y); cbn [length]; lia. Qed.
Lemma perm_rm n l : NoDup l -> In n l -> Permutation l (n :: rm n l).
Proof.
  intros ND I. apply in_split in I. destruct I as [a [b ->]]. assert (~ In n a /\ ~ In n b) as [Na Nb].
  { apply NoDup_remove_2 in ND. split; intros H; apply ND, in_or_app; auto. }
  rewrite rm_app. cbn [rm]. rewrite Nat.eqb_refl, !rm_notin by assumption. symmetry. apply Permutation_middle.
Qed.

Section count.
Variable kind_of : id -> kind.
Variable links glinks inputs : id -> list id.
Variable transient_ exclusion : id -> bool.
Variable root : id.
Hypothesis Kg : forall a n, In n (glinks a) -> kind_of n = KGroup.
Notation all b := (plist (gr_ b) ++ node_list (gr_ b)).
Definition cnt (b : bgraph) (n : id) : bool := expanded (gr_ b) n && is_cmd (kind_of n).
Record CI (b : bgraph) : Prop := { ci_nd : NoDup (all b); ci_num : num_nodes b = length (filter (cnt b) (all b)) }.

Lemma CI_same b b' : Permutation (all b) (all b') -> (forall n, In n (all b) -> cnt b' n = cnt b n) -> num_nodes b' = num_nodes b -> CI b -> CI b'.
Proof.
  intros P C N [I1 I2]. split; [exact (Permutation_NoDup P I1)|]. rewrite N, I2, (perm_filter _ _ _ P).
  f_equal. apply filter_ext_in. intros n H. symmetry. apply C. exact (Permutation_in _ (Permutation_sym P) H).
Qed.
Lemma CI_create b n : CI b -> ~ In n (all b) -> CI (create_node kind_of transient_ b n).
Proof.
  intros [I1 I2] F. split; cbn [create_node gr_ plist node_list num_nodes].
  - rewrite app_assoc. apply (Permutation_NoDup (l := n :: all b)); [apply Permutation_cons_append|]. constructor; assumption.
  - rewrite app_assoc, filter_app, app_length. cbn [filter]. unfold cnt at 2. cbn [create_node gr_ expanded]. unfold upd at 1. rewrite Nat.eqb_refl. cbn [andb length].
    rewrite I2, Nat.add_0_r. f_equal. apply filter_ext_in. intros m H. unfold cnt. cbn [create_node gr_ expanded]. unfold upd. destruct (Nat.eqb_spec m n); [subst; contradiction|reflexivity].
Qed.
Lemma CI_found b n : CI b -> CI (if found b n then b else create_node kind_of transient_ b n).
Proof.
  intros I. destruct (found b n) eqn:F; [exact I|]. apply CI_create; [exact I|]. intros H. unfold found in F. apply orb_false_iff in F. destruct F as [F1 F2].
  apply in_app_or in H. destruct H as [H|H]; apply inb_In in H; congruence.
Qed.
(** expand_node moves the node and counts it. *)
Lemma expand_spec b n g c : CI b -> expanded (gr_ b) n = false -> expand_node (gr_ b) n = Some g ->
  CI {| gr_ := g; skip := skip b; counted := c; num_nodes := num_nodes b + (if is_cmd (kind_of n) then 1 else 0) |}.
Proof.
  intros [I1 I2] E X. unfold expand_node, off_nodes in X. cbn [set_expanded node_list plist] in X.
  destruct (inb n (node_list (gr_ b))) eqn:M; [|discriminate]. cbn [obind] in X. unfold to_plist_head in X. cbn [plist node_list] in X.
  destruct (_ || _); [discriminate|]. injection X as <-. apply inb_In in M.
  assert (~ In n (plist (gr_ b))) as Np.
  { intros H. apply in_split in H. destruct H as [u [v H]]. rewrite H, <- app_assoc in I1. cbn [app] in I1. apply NoDup_remove_2 in I1. apply I1. rewrite app_assoc. apply in_or_app. right. exact M. }
  assert (NoDup (node_list (gr_ b))) as Nn. { clear - I1. induction (plist (gr_ b)) as [|x l IH]; [exact I1|]. cbn [app] in I1. inversion I1. auto. }
  assert (Permutation (all b) (n :: plist (gr_ b) ++ rm n (node_list (gr_ b)))) as P.
  { rewrite (perm_rm n _ Nn M) at 1. symmetry. apply Permutation_middle. }
  pose proof (Permutation_NoDup P I1) as ND. split; cbn [gr_ plist node_list num_nodes app]; [exact ND|].
  match goal with |- _ = length (filter (cnt ?x) _) => set (b' := x) end.
  assert (forall m, cnt b' m = (if m =? n then true else expanded (gr_ b) m) && is_cmd (kind_of m)) as C' by reflexivity.
  inversion ND as [|? ? N1 N2]; subst.
  rewrite I2, (perm_filter _ _ _ P). cbn [filter]. rewrite C', Nat.eqb_refl. unfold cnt at 1. rewrite E. cbn [andb].
  rewrite (filter_ext_in (cnt b') (cnt b) (plist (gr_ b) ++ rm n (node_list (gr_ b)))).
  - destruct (is_cmd (kind_of n)); cbn [length]; lia.
  - intros m H. rewrite C'. destruct (Nat.eqb_spec m n); [subst; contradiction|reflexivity].
Qed.
Lemma CI_edge b g' sk ct : CI b -> plist g' = plist (gr_ b) -> node_list g' = node_list (gr_ b) -> expanded g' = expanded (gr_ b) ->
  CI {| gr_ := g'; skip := sk; counted := ct; num_nodes := num_nodes b |}.
Proof.
  intros I P N E. apply (CI_same b); [cbn [gr_]; rewrite P, N; reflexivity| |reflexivity|exact I]. intros n _. unfold cnt. cbn [gr_]. rewrite E. reflexivity.
Qed.
Lemma CI_cb b cur n b' : CI b -> build_graph_cb kind_of transient_ root (Some KCmd) b cur n = Done b' -> CI b'.
Proof.
  intros I H. unfold build_graph_cb in H. pose proof (CI_found b n I) as I1. set (b1 := if found b n then b else create_node kind_of transient_ b n) in *.
  clearbody b1. unfold make_edge in H. destruct (is_processing (state (gr_ b1) n)); [discriminate|].
  destruct (expanded (gr_ b1) n) eqn:E.
  - cbn [then_] in H. injection H as <-. apply CI_edge; [exact I1|reflexivity..].
  - destruct (expand_node (gr_ b1) n) as [g|] eqn:X; [|discriminate H]. cbn [of_option then_] in H. injection H as <-.
    cbn [num_nodes gr_ skip counted counts]. replace (if is_cmd (kind_of n) then S (num_nodes b1) else num_nodes b1) with (num_nodes b1 + (if is_cmd (kind_of n) then 1 else 0)) by (destruct (is_cmd (kind_of n)); lia).
    pose proof (expand_spec b1 n g (counted b1) I1 E X) as I2.
    match goal with |- CI {| gr_ := ?g'; skip := ?sk; counted := ?ct; num_nodes := _ |} => exact (CI_edge _ g' sk ct I2 eq_refl eq_refl eq_refl) end.
Qed.
Lemma CI_gcb b cur n b' : is_cmd (kind_of n) = false -> CI b -> build_graph_group_cb kind_of transient_ b cur n = Done b' -> CI b'.
Proof.
  intros K I H. unfold build_graph_group_cb in H. pose proof (CI_found b n I) as I1. set (b1 := if found b n then b else create_node kind_of transient_ b n) in *.
  clearbody b1. destruct (expanded (gr_ b1) n) eqn:E.
  - cbn [then_] in H. injection H as <-. apply CI_edge; [exact I1|reflexivity..].
  - destruct (expand_node (gr_ b1) n) as [g|] eqn:X; [|discriminate H]. cbn [of_option then_] in H. injection H as <-.
    pose proof (expand_spec b1 n g (counted b1) I1 E X) as I2. rewrite K, Nat.add_0_r in I2.
    apply (CI_edge _ (create_edge g cur n true) (skip b1) (counted b1)) in I2; [exact I2|reflexivity..].
Qed.
Lemma CI_each f l : (forall b n b', In n l -> CI b -> f b n = Done b' -> CI b') -> forall b b', CI b -> each f b l = Done b' -> CI b'.
Proof.
  induction l as [|n l IH]; intros Hf b b' I H; cbn [each] in H; [injection H as <-; exact I|].
  destruct (f b n) as [b1| | |] eqn:E; try discriminate H. cbn [then_] in H. refine (IH _ b1 b' _ H).
  - intros c m c' Hm. apply Hf. right. exact Hm.
  - exact (Hf b n b1 (or_introl eq_refl) I E).
Qed.
Lemma CI_links b cur b' : CI b -> expand_links kind_of links glinks transient_ root (Some KCmd) b cur = Done b' -> CI b'.
Proof.
  intros I H. unfold expand_links in H. destruct (each _ b (links cur)) as [b1| | |] eqn:E; try discriminate H. cbn [then_] in H.
  assert (CI b1) as I1. { apply (CI_each _ _ (fun c n c' _ => CI_cb c cur n c') b b1 I E). }
  destruct (is_group (kind_of cur)); [|injection H as <-; exact I1].
  refine (CI_each _ _ (fun c n c' Hn => CI_gcb c cur n c' _) b1 b' I1 H). rewrite (Kg _ _ Hn). reflexivity.
Qed.
Lemma CI_loop fuel : forall b b', CI b -> build_loop kind_of links glinks transient_ root (Some KCmd) fuel b = Done b' -> CI b'.
Proof.
  induction fuel as [|f IH]; intros b b' I H; cbn [build_loop] in H; destruct (plist (gr_ b)) as [|cur rest] eqn:P; try (injection H as <-; exact I); try discriminate H.
  destruct (state (gr_ b) cur); try discriminate H.
  - destruct (expand_links _ _ _ _ _ _ b cur) as [b1| | |] eqn:E; try discriminate H. cbn [then_] in H. refine (IH _ _ _ H).
    apply CI_edge; [exact (CI_links _ _ _ I E)|reflexivity..].
  - unfold off_plist in H. rewrite P in H. cbn [inb existsb] in H. rewrite Nat.eqb_refl in H. cbn [orb obind] in H.
    unfold to_nodes_tail in H. cbn [plist node_list] in H. destruct (_ || _); [discriminate H|]. cbn [of_option then_] in H. refine (IH _ _ _ H).
    pose proof (ci_nd _ I) as ND. rewrite P in ND.
    apply (CI_same b); [|intros; reflexivity|reflexivity|exact I]. cbn [with_gr set_state gr_ plist node_list]. rewrite P.
    inversion ND as [|? ? N1 N2]; subst. cbn [rm]. rewrite Nat.eqb_refl.
    rewrite rm_notin by (intros X; apply N1, in_or_app; auto).
    cbn [app]. rewrite app_assoc. apply Permutation_cons_append.
Qed.
Lemma CI_update fuel flags b : update_graph kind_of links glinks inputs transient_ root (Some KCmd) fuel flags = Done b -> CI b.
Proof.
  intros H. unfold update_graph in H. destruct (each _ _ flags) as [b1| | |] eqn:E; try discriminate H. cbn [then_] in H.
  unfold build_graph in H. destruct (build_loop _ _ _ _ _ _ fuel b1) as [b2| | |] eqn:L; try discriminate H. cbn [then_] in H. injection H as <-.
  apply CI_edge; [|reflexivity..]. apply (CI_loop fuel b1 b2); [|exact L].
  refine (CI_each _ _ (fun c n c' _ => CI_cb c root n c') _ b1 _ E). split; [cbn; repeat constructor; intros []|].
  cbn. unfold cnt. cbn. unfold upd. rewrite Nat.eqb_refl. reflexivity.
Qed.
Lemma number_update fuel flags b nodes : kind_of root = KRoot -> built kind_of links glinks inputs transient_ root (Some KCmd) flags b nodes ->
  update_graph kind_of links glinks inputs transient_ root (Some KCmd) fuel flags = Done b ->
  num_nodes b = length (filter (fun n => is_cmd (kind_of n)) nodes).
Proof.
  intros Kr B H. destruct (CI_update _ _ _ H) as [_ ->]. rewrite (b_plist _ _ _ _ _ _ _ _ _ _ B), (b_nodes _ _ _ _ _ _ _ _ _ _ B). cbn [app filter].
  unfold cnt at 1. rewrite Kr, andb_false_r. f_equal. apply filter_ext_in. intros n I. unfold cnt.
  rewrite (b_expanded _ _ _ _ _ _ _ _ _ _ B n I). reflexivity.
Qed.

(** ** Pruning *)
Lemma prune_count marked : forall l b modify b' modify', NoDup l -> incl l (node_list (gr_ b)) -> NoDup (node_list (gr_ b)) ->
  (forall n, In n l -> n <> root -> counted b n = is_cmd (kind_of n)) ->
  num_nodes b = length (filter (fun n => is_cmd (kind_of n)) (node_list (gr_ b))) ->
  prune_nodes kind_of root b modify marked l = Some (b', modify') ->
  num_nodes b' = length (filter (fun n => is_cmd (kind_of n)) (node_list (gr_ b'))).
Proof.
  induction l as [|n l IH]; intros b m b' m' Nl Il Nn C Q H; cbn [prune_nodes] in H; [injection H as <- _; exact Q|].
  inversion Nl as [|? ? N1 N2]; subst.
  destruct (inb n marked || (n =? root)) eqn:S.
  { refine (IH b m b' m' N2 _ Nn _ Q H); [intros x Hx; apply Il; right; exact Hx|intros x Hx; apply C; right; exact Hx]. }
  apply orb_false_iff in S. destruct S as [_ S]. apply Nat.eqb_neq in S. pose proof (C n (or_introl eq_refl) S) as Cn.
  unfold prune_node in H. destruct (counted b n && negb (is_cmd (kind_of n))); [discriminate H|]. cbn [obind fst snd] in H.
  assert (In n (node_list (gr_ b))) as In_ by (apply Il; left; reflexivity).
  pose proof (perm_rm n _ Nn In_) as P. pose proof (Permutation_NoDup P Nn) as ND. inversion ND as [|? ? Q1 Q2]; subst.
  refine (IH _ _ b' m' N2 _ _ _ _ H); clear H; cbn [gr_ counted num_nodes].
  - intros x Hx. destruct (is_file (kind_of n)); cbn [drop_node node_list]; [apply Il; right; exact Hx|].
    assert (In x (n :: rm n (node_list (gr_ b)))) as X by (apply (Permutation_in _ P), Il; right; exact Hx). destruct X as [<- |X]; [contradiction|exact X].
  - destruct (is_file (kind_of n)); cbn [drop_node node_list]; assumption.
  - intros x Hx. apply C. right. exact Hx.
  - pose proof (perm_filter (fun n => is_cmd (kind_of n)) _ _ P) as F. rewrite <- Q in F. cbn [filter] in F. rewrite Cn.
    destruct (kind_of n) eqn:K; cbn [is_file is_cmd drop_node node_list length] in *; try exact F; try exact Q. rewrite F. reflexivity.
Qed.
End count.
