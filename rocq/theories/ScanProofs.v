(** The tables under single changes, and what the removal of an entry leaves. *)
From Verif Require Import Base ConfigModel ParseModel PathModel DbModel DbSpec DbProofs DbProofs3 ScanModel ScanSpec.
Require Import Lia.

Lemma bytes_eqb_spec a b : bytes_eqb a b = true <-> a = b.
Proof. split; [apply bytes_eqb_eq|intros ->; apply bytes_eqb_refl]. Qed.
Lemma ntype_eqb_eq a b : ntype_eqb a b = true <-> a = b.
Proof. destruct a, b; cbn; split; congruence. Qed.
Lemma ntype_eqb_neq a b : ntype_eqb a b = false <-> a <> b.
Proof. destruct a, b; cbn; split; congruence. Qed.

(** Tables. *)
Lemma lookup_in d x n : lookup d x = Some n -> In (x, n) (nodes d).
Proof. apply assoc_in. Qed.
Lemma in_lookup d x n : NoDup (map fst (nodes d)) -> In (x, n) (nodes d) -> lookup d x = Some n.
Proof. apply in_assoc. Qed.

Lemma assoc_map x f l y : assoc y (map (fun p : nat * node => if fst p =? x then (fst p, f (snd p)) else p) l)
  = if y =? x then option_map f (assoc y l) else assoc y l.
Proof.
  induction l as [|[z n] l IH]; cbn [map assoc]; [destruct (y =? x); reflexivity|]. cbn [fst snd].
  destruct (z =? x) eqn:Z; cbn [assoc]; destruct (y =? z) eqn:Y.
  - apply Nat.eqb_eq in Y. subst. rewrite Z. reflexivity.
  - exact IH.
  - apply Nat.eqb_eq in Y. subst. rewrite Z. reflexivity.
  - exact IH.
Qed.
Lemma lookup_update x f d y : lookup (update_node x f d) y = if y =? x then option_map f (lookup d y) else lookup d y.
Proof. apply assoc_map. Qed.
Lemma ids_update x f d : map fst (nodes (update_node x f d)) = map fst (nodes d).
Proof. unfold update_node, with_nodes. cbn [nodes]. rewrite map_map. apply map_ext. intros [y n]. cbn. destruct (y =? x); reflexivity. Qed.

Lemma assoc_drop x l y : assoc y (filter (fun p => negb (fst p =? x)) l) = if y =? x then None else assoc y l.
Proof.
  induction l as [|[z n] l IH]; cbn [filter assoc]; [destruct (y =? x); reflexivity|]. cbn [fst].
  destruct (z =? x) eqn:Z; cbn [negb assoc]; [|cbn [assoc]]; destruct (y =? z) eqn:Y; try exact IH.
  - apply Nat.eqb_eq in Y. subst. rewrite Z. rewrite IH, Z. reflexivity.
  - apply Nat.eqb_eq in Y. subst. rewrite Z. reflexivity.
Qed.
Lemma ids_filter f (l : list (nat * node)) : NoDup (map fst l) -> NoDup (map fst (filter f l)).
Proof.
  induction l as [|[z n] l IH]; intros N; [exact N|]. cbn in N. inversion N as [|? ? N1 N2]; subst. cbn. destruct (f (z, n)); [|auto].
  cbn. constructor; [|auto]. intros I. apply N1. apply in_map_iff in I as [[w m] [E I]]. cbn in E. subst w. apply filter_In in I as [I _]. apply in_map_iff. exists (z, m). auto.
Qed.

Lemma max_ge l x : In x l -> x <= fold_right Nat.max 0 l.
Proof. induction l as [|y l IH]; cbn; [tauto|]. intros [->|I]; [|specialize (IH I)]; lia. Qed.
Lemma lookup_fresh d x : fresh d <= x -> lookup d x = None.
Proof.
  intros H. destruct (lookup d x) as [n|] eqn:L; [|reflexivity]. apply lookup_in in L. assert (In x (map fst (nodes d))) as I by (apply in_map_iff; exists (x, n); auto).
  apply max_ge in I. unfold fresh in H. lia.
Qed.
Lemma lookup_lt d x n : lookup d x = Some n -> x < fresh d.
Proof. intros L. destruct (le_lt_dec (fresh d) x) as [H|H]; [|exact H]. rewrite lookup_fresh in L; [discriminate|exact H]. Qed.
Lemma assoc_app x l l' : assoc x (l ++ l') = match assoc x l with Some n => Some n | None => assoc x l' end.
Proof. induction l as [|[z n] l IH]; [reflexivity|]. cbn. destruct (x =? z); [reflexivity|exact IH]. Qed.
Lemma lookup_insert n d y : lookup (insert_node n d) y = if y =? fresh d then Some n else lookup d y.
Proof.
  unfold insert_node, with_nodes, lookup. cbn [nodes]. rewrite assoc_app. cbn [assoc]. destruct (y =? fresh d) eqn:E.
  - apply Nat.eqb_eq in E. subst. change (assoc (fresh d) (nodes d)) with (lookup d (fresh d)). rewrite lookup_fresh; [reflexivity|lia].
  - destruct (assoc y (nodes d)); reflexivity.
Qed.
Lemma NoDup_snoc {A} (l : list A) a : NoDup l -> ~ In a l -> NoDup (l ++ [a]).
Proof.
  induction l as [|b l IH]; intros N I; cbn; [constructor; [intros []|constructor]|]. inversion N; subst. constructor.
  - rewrite in_app_iff. cbn. intros [H|[<-|[]]]; [contradiction|]. apply I. left. reflexivity.
  - apply IH; [assumption|]. intros H. apply I. right. exact H.
Qed.
Lemma ids_insert n d : NoDup (map fst (nodes d)) -> NoDup (map fst (nodes (insert_node n d))).
Proof.
  intros N. unfold insert_node, with_nodes. cbn [nodes]. rewrite map_app. cbn. apply NoDup_snoc; [exact N|].
  intros I. apply max_ge in I. unfold fresh in I. lia.
Qed.

(** A consistent database, but for where files are. *)
Record base (d : db) : Prop := {
  b_ids : NoDup (map fst (nodes d));
  b_names : forall x n y m, lookup d x = Some n -> lookup d y = Some m -> dir n = dir m -> nname n = nname m -> x = y;
  b_top : exists n, lookup d top = Some n /\ kind n = TDir /\ dir n = 0;
  b_parent : forall x n, lookup d x = Some n -> x <> top -> lookup d (dir n) <> None /\ dir n < x;
  b_links : forall x y, In (x, y) (normal d) -> lookup d x <> None /\ lookup d y <> None;
  b_source : forall x n s, lookup d x = Some n -> src n = Some s -> lookup d s <> None;
  b_generated : forall x n, lookup d x = Some n -> kind n = TGenerated -> src n <> None;
  b_config : forall x n, lookup d x = Some n -> nname n = B "tup.config" -> is_dir (kind n) = false }.
Definition home (d : db) : Prop := forall x n, lookup d x = Some n -> real (kind n) = true -> x <> top -> exists m, lookup d (dir n) = Some m /\ is_dir (kind m) = true.
Lemma sound_base d : sound d <-> base d /\ home d.
Proof.
  split.
  - intros [I N T P L S G H C]. split; [split|].
    + exact I.
    + intros x n y m X Y. apply (N x n y m); apply lookup_in; assumption.
    + exact T.
    + intros x n X. apply P. apply lookup_in. exact X.
    + exact L.
    + intros x n s X. apply (S x n s). apply lookup_in. exact X.
    + intros x n X. apply (G x n). apply lookup_in. exact X.
    + intros x n X. apply (C x n). apply lookup_in. exact X.
    + intros x n X. apply (H x n). apply lookup_in. exact X.
  - intros [[I N T P L S G C] H]. split.
    + exact I.
    + intros x n y m X Y. apply (N x n y m); apply in_lookup; assumption.
    + exact T.
    + intros x n X. apply P. apply in_lookup; assumption.
    + exact L.
    + intros x n s X. apply (S x n s). apply in_lookup; assumption.
    + intros x n X. apply (G x n). apply in_lookup; assumption.
    + intros x n X. apply (H x n). apply in_lookup; assumption.
    + intros x n X. apply (C x n). apply in_lookup; assumption.
Qed.

Lemma child_spec d x nm y : base d -> (child d x nm = Some y <-> exists n, lookup d y = Some n /\ dir n = x /\ nname n = nm).
Proof.
  intros W. unfold child. split.
  - destruct (find _ _) as [[z n]|] eqn:F; [|discriminate]. cbn. intros H. injection H as <-. apply find_some in F as [I F]. cbn in F.
    apply andb_true_iff in F as [F1 F2]. apply Nat.eqb_eq in F1. apply bytes_eqb_eq in F2. exists n. split; [|auto]. apply in_lookup; [apply W|exact I].
  - intros [n [L [D N]]]. destruct (find _ _) as [[z m]|] eqn:F.
    + cbn. f_equal. apply find_some in F as [I F]. cbn in F. apply andb_true_iff in F as [F1 F2]. apply Nat.eqb_eq in F1. apply bytes_eqb_eq in F2.
      apply (b_names _ W z m y n); [apply in_lookup; [apply W|exact I]|exact L|congruence|congruence].
    + exfalso. apply lookup_in in L. apply (find_none _ _ F) in L. cbn in L. rewrite D, N, Nat.eqb_refl, bytes_eqb_refl in L. discriminate.
Qed.
Lemma child_none d x nm : base d -> (child d x nm = None <-> forall y n, lookup d y = Some n -> dir n = x -> nname n <> nm).
Proof.
  intros W. split.
  - intros H y n L D N. assert (child d x nm = Some y) by (apply child_spec; eauto). congruence.
  - intros H. destruct (child d x nm) as [y|] eqn:E; [|reflexivity]. apply child_spec in E as [n [L [D N]]]; [|exact W]. exfalso. exact (H y n L D N).
Qed.

(** What is in a directory. *)
Inductive below (d : db) (x : nat) : nat -> Prop :=
| be_self : below d x x
| be_in z y m : below d x z -> lookup d y = Some m -> y <> top -> dir m = z -> below d x y.
Lemma below_le d x y : base d -> below d x y -> x <= y.
Proof. intros W H. induction H as [|z y m H IH L T D]; [lia|]. destruct (b_parent _ W y m L T) as [_ P]. lia. Qed.
Lemma below_trans d x y z : below d x y -> below d y z -> below d x z.
Proof. intros H G. induction G as [|w v m G IH L T D]; [exact H|]. econstructor; eauto. Qed.
Lemma not_top_dir d y m : base d -> lookup d y = Some m -> dir m <> 0 -> y <> top.
Proof. intros W L H ->. destruct (b_top _ W) as [n [L' [_ E]]]. congruence. Qed.
Lemma id_pos d y m : base d -> lookup d y = Some m -> 0 < y.
Proof. intros W L. destruct (Nat.eq_dec y top) as [->|T]; [unfold top; lia|]. destruct (b_parent _ W y m L T) as [_ P]. lia. Qed.

(** Flags alone. *)
Definition flags_only (d d' : db) : Prop := nodes d' = nodes d /\ normal d' = normal d /\ sticky d' = sticky d /\
  incl (modify d) (modify d') /\ incl (create d) (create d') /\ incl (config d) (config d').
Lemma flags_refl d : flags_only d d.
Proof. repeat split; auto using incl_refl. Qed.
Lemma flags_trans d e f : flags_only d e -> flags_only e f -> flags_only d f.
Proof. intros [A1 [A2 [A3 [A4 [A5 A6]]]]] [B1 [B2 [B3 [B4 [B5 B6]]]]]. repeat split; try congruence; eapply incl_tran; eauto. Qed.
Lemma flags_modify l d : flags_only d (add_modify l d).
Proof. repeat split; cbn; auto using incl_refl, incl_appr. Qed.
Lemma flags_create l d : flags_only d (add_create l d).
Proof. repeat split; cbn; auto using incl_refl, incl_appr. Qed.
Lemma flags_config l d : flags_only d (add_config l d).
Proof. repeat split; cbn; auto using incl_refl, incl_appr. Qed.
Lemma flags_dependent x d : flags_only d (set_dependent_flags x d).
Proof. unfold set_dependent_flags. eapply flags_trans; [apply flags_create|apply flags_config]. Qed.
Lemma flags_group x d : flags_only d (flag_group_users d x).
Proof. unfold flag_group_users. destruct (has_kind d [TGroup] x); [apply flags_create|apply flags_refl]. Qed.
Lemma flags_lookup d d' x : flags_only d d' -> lookup d' x = lookup d x.
Proof. intros [E _]. unfold lookup. rewrite E. reflexivity. Qed.
Lemma flags_base d d' : flags_only d d' -> base d -> base d'.
Proof.
  intros F [I N T P L S G C]. assert (forall x, lookup d' x = lookup d x) as E by (intros; apply flags_lookup; exact F). destruct F as [F1 [F2 _]]. split.
  - rewrite F1. exact I.
  - intros x n y m. rewrite !E. apply N.
  - rewrite E. exact T.
  - intros x n. rewrite !E. apply P.
  - intros x y. rewrite F2, !E. apply L.
  - intros x n s. rewrite !E. apply S.
  - intros x n. rewrite E. apply G.
  - intros x n. rewrite E. apply C.
Qed.

(** A database that only lost entries, or has ghosts in their place. *)
Record shrunk (d d' : db) : Prop := {
  sh_ids : NoDup (map fst (nodes d'));
  sh_from : forall y n', lookup d' y = Some n' -> exists n, lookup d y = Some n /\ dir n' = dir n /\ nname n' = nname n /\ time n' = time n
              /\ (n' = n \/ kind n' = TGhost /\ (src n' = src n \/ src n' = None));
  sh_top : lookup d' top = lookup d top;
  sh_parent : forall y n', lookup d' y = Some n' -> y <> top -> lookup d' (dir n') <> None;
  sh_source : forall y n' s, lookup d' y = Some n' -> src n' = Some s -> lookup d' s <> None;
  sh_links : forall a b, In (a, b) (normal d') -> In (a, b) (normal d) /\ lookup d' a <> None /\ lookup d' b <> None }.
Lemma shrunk_refl d : base d -> shrunk d d.
Proof.
  intros W. split.
  - apply W.
  - intros y n' L. exists n'. auto 10.
  - reflexivity.
  - intros y n' L T. apply (b_parent _ W y n' L T).
  - apply (b_source _ W).
  - intros a b H. split; [exact H|]. apply (b_links _ W _ _ H).
Qed.
Lemma shrunk_trans d e f : shrunk d e -> shrunk e f -> shrunk d f.
Proof.
  intros A C. split.
  - apply C.
  - intros y n' L. destruct (sh_from _ _ C y n' L) as [n [L1 [D1 [N1 [T1 K1]]]]]. destruct (sh_from _ _ A y n L1) as [m [L2 [D2 [N2 [T2 K2]]]]].
    exists m. repeat split; try congruence. destruct K1 as [->|[K1 S1]]; [exact K2|]. right. split; [exact K1|].
    destruct K2 as [->|[_ S2]]; [exact S1|]. destruct S1 as [->|S1]; auto.
  - rewrite (sh_top _ _ C). apply A.
  - apply (sh_parent _ _ C).
  - apply (sh_source _ _ C).
  - intros a b H. destruct (sh_links _ _ C a b H) as [H1 H2]. split; [|exact H2]. apply (sh_links _ _ A a b H1).
Qed.
Lemma shrunk_base d d' : base d -> shrunk d d' -> base d'.
Proof.
  intros W S. split.
  - apply S.
  - intros x n y m X Y D N. destruct (sh_from _ _ S x n X) as [n1 [L1 [D1 [N1 _]]]]. destruct (sh_from _ _ S y m Y) as [n2 [L2 [D2 [N2 _]]]].
    apply (b_names _ W x n1 y n2); congruence.
  - rewrite (sh_top _ _ S). apply W.
  - intros x n L T. destruct (sh_from _ _ S x n L) as [n1 [L1 [D1 _]]]. split; [apply (sh_parent _ _ S x n L T)|]. rewrite D1. apply (b_parent _ W x n1 L1 T).
  - intros a b H. apply (sh_links _ _ S a b H).
  - apply (sh_source _ _ S).
  - intros x n L K. destruct (sh_from _ _ S x n L) as [n1 [L1 [_ [_ [_ [->|[K1 _]]]]]]]; [apply (b_generated _ W x n1 L1 K)|congruence].
  - intros x n L E. destruct (sh_from _ _ S x n L) as [n1 [L1 [_ [N1 [_ [->|[K1 _]]]]]]]; [apply (b_config _ W x n1 L1 E)|]. rewrite K1. reflexivity.
Qed.
Lemma shrunk_below d d' x y : shrunk d d' -> below d' x y -> below d x y.
Proof.
  intros S H. induction H as [|z y m H IH L T D]; [constructor|]. destruct (sh_from _ _ S y m L) as [n [L1 [D1 _]]]. econstructor; [exact IH|exact L1|exact T|congruence].
Qed.
Lemma shrunk_flags d d' : base d -> flags_only d d' -> shrunk d d'.
Proof.
  intros W F. pose proof (flags_base _ _ F W) as W'. assert (forall x, lookup d' x = lookup d x) as E by (intros; apply flags_lookup; exact F). split.
  - apply W'.
  - intros y n'. rewrite E. intros L. exists n'. auto 10.
  - apply E.
  - intros y n' L T. apply (b_parent _ W' y n' L T).
  - apply (b_source _ W').
  - intros a b H. split; [|apply (b_links _ W' _ _ H)]. destruct F as [_ [F _]]. rewrite F in H. exact H.
Qed.

(** One entry becomes a ghost. *)
Lemma shrunk_ghost d x f : base d -> x <> top -> (forall n, dir (f n) = dir n /\ nname (f n) = nname n /\ time (f n) = time n /\ kind (f n) = TGhost /\ (src (f n) = src n \/ src (f n) = None)) ->
  shrunk d (update_node x f d).
Proof.
  intros W T F. assert (forall y n', lookup (update_node x f d) y = Some n' -> exists n, lookup d y = Some n /\ dir n' = dir n /\ nname n' = nname n /\ time n' = time n /\ (n' = n \/ kind n' = TGhost /\ (src n' = src n \/ src n' = None))) as Fr.
  { intros y n'. rewrite lookup_update. destruct (y =? x); [|intros L; exists n'; auto 10].
    destruct (lookup d y) as [n|]; [|discriminate]. cbn. intros H. injection H as <-. exists n. destruct (F n) as [F1 [F2 [F3 F4]]]. auto 10. }
  assert (forall y, lookup d y <> None -> lookup (update_node x f d) y <> None) as K.
  { intros y. rewrite lookup_update. destruct (y =? x); [|auto]. destruct (lookup d y); [cbn; discriminate|auto]. }
  split.
  - rewrite ids_update. apply W.
  - exact Fr.
  - rewrite lookup_update. destruct (top =? x) eqn:E; [apply Nat.eqb_eq in E; congruence|reflexivity].
  - intros y n' L Y. destruct (Fr y n' L) as [n [L1 [D _]]]. rewrite D. apply K. apply (b_parent _ W y n L1 Y).
  - intros y n' s L E. destruct (Fr y n' L) as [n [L1 [_ [_ [_ [->|[_ [S|S]]]]]]]].
    + apply K. apply (b_source _ W y n s L1 E).
    + apply K. apply (b_source _ W y n s L1). congruence.
    + congruence.
  - intros a b H. split; [exact H|]. destruct (b_links _ W _ _ H). auto.
Qed.

(** delete_name_file removes the entry, or leaves a ghost. *)
Lemma queue_add_some d x q : lookup d x <> None -> exists q', queue_add d x q = Some q'.
Proof. unfold queue_add. destruct (lookup d x); [eauto|congruence]. Qed.
Lemma no_ghosts_false d x : NoDup (map fst (nodes d)) -> node_has_ghosts d x = false -> forall y m, lookup d y = Some m -> dir m <> x /\ src m <> Some x.
Proof.
  intros N H y m L. apply lookup_in in L. unfold node_has_ghosts in H.
  assert ((dir m =? x) || src_is x m = false) as E.
  { destruct ((dir m =? x) || src_is x m) eqn:E; [|reflexivity]. rewrite <- H. symmetry. apply existsb_exists. exists (y, m). auto. }
  apply orb_false_iff in E as [E1 E2]. apply Nat.eqb_neq in E1. split; [exact E1|]. intros E. unfold src_is in E2. rewrite E, Nat.eqb_refl in E2. discriminate.
Qed.
Record removed (x : nat) (d d' : db) : Prop := {
  rm_shrunk : shrunk d d';
  rm_self : forall n', lookup d' x = Some n' -> kind n' = TGhost;
  rm_other : forall y, y <> x -> lookup d' y = lookup d y;
  rm_links : forall a b, In (a, b) (normal d) -> a <> x -> b <> x -> In (a, b) (normal d');
  rm_modify : forall c, In c (modify d) -> c <> x -> In c (modify d');
  rm_create : forall c, In c (create d) -> c <> x -> In c (create d');
  rm_config : forall c, In c (config d) -> c <> x -> In c (config d') }.
Lemma dnf d x n q : base d -> lookup d x = Some n -> x <> top -> exists d' q', delete_name_file d x q = Some (d', q') /\ removed x d d' /\
  (kind n = TDir -> lookup d' x <> None -> In x (create d')).
Proof.
  intros W L T. unfold delete_name_file, delete_links.
  destruct (queue_all (unflag x d) (froms (normal (unflag x d)) x ++ tos (normal (unflag x d)) x) q) as [q1|] eqn:Q.
  2: { exfalso. revert Q. apply queue_all_some. intros y Y. change (lookup d y <> None). cbn [normal unflag] in Y. apply in_app_iff in Y as [Y|Y].
       - apply froms_in in Y. apply (b_links _ W _ _ Y).
       - apply tos_in in Y. apply (b_links _ W _ _ Y). }
  set (dd := with_links (flag_group_users (unflag x d) x) (drop_links x (normal (flag_group_users (unflag x d) x))) (drop_links x (sticky (flag_group_users (unflag x d) x)))).
  pose proof (flags_group x (unflag x d)) as [F1 [F2 [F3 [F4 [F5 F6]]]]].
  assert (nodes dd = nodes d) as N by exact F1.
  assert (forall y, lookup dd y = lookup d y) as E by (intros y; unfold lookup; rewrite N; reflexivity).
  assert (normal dd = drop_links x (normal d)) as NL by (unfold dd; cbn [normal with_links]; rewrite F2; reflexivity).
  assert (forall c, In c (modify d) -> c <> x -> In c (modify dd)) as M by (intros c C X; apply F4; cbn [modify unflag]; apply remove_in; auto).
  assert (forall c, In c (create d) -> c <> x -> In c (create dd)) as C by (intros c C X; apply F5; cbn [create unflag]; apply remove_in; auto).
  assert (forall c, In c (config d) -> c <> x -> In c (config dd)) as G by (intros c C' X; apply F6; cbn [config unflag]; apply remove_in; auto).
  assert (forall a b, In (a, b) (normal dd) <-> In (a, b) (normal d) /\ a <> x /\ b <> x) as DL.
  { intros a b. rewrite NL. unfold drop_links. rewrite filter_In. cbn [fst snd]. rewrite negb_orb, andb_true_iff, !negb_true_iff, !Nat.eqb_neq. reflexivity. }
  clearbody dd. unfold delete_node. rewrite E, L.
  assert (exists q2, match src n with Some s => queue_add dd s q1 | None => Some q1 end = Some q2) as [q2 Q2].
  { destruct (src n) as [s|] eqn:S; [|eauto]. apply queue_add_some. rewrite E. apply (b_source _ W x n s L S). }
  rewrite Q2. assert (base dd) as Wd.
  { destruct W as [I Nm Tp P Li S Ge Co]. split.
    - rewrite N. exact I.
    - intros y m z k. rewrite !E. apply Nm.
    - rewrite E. exact Tp.
    - intros y m. rewrite !E. apply P.
    - intros a b H. apply DL in H as [H _]. rewrite !E. apply Li. exact H.
    - intros y m s. rewrite !E. apply S.
    - intros y m. rewrite E. apply Ge.
    - intros y m. rewrite E. apply Co. }
  assert (shrunk d dd) as Sd.
  { split.
    - apply Wd.
    - intros y n'. rewrite E. intros Y. exists n'. auto 10.
    - apply E.
    - intros y n' Y TY. apply (b_parent _ Wd y n' Y TY).
    - apply (b_source _ Wd).
    - intros a b H. split; [apply DL in H; tauto|]. apply (b_links _ Wd _ _ H). }
  destruct (node_has_ghosts dd x) eqn:HG.
  - set (d1 := if ntype_eqb (kind n) TDir then add_create [x] dd else dd).
    assert (flags_only dd d1) as F by (unfold d1; destruct (ntype_eqb (kind n) TDir); [apply flags_create|apply flags_refl]).
    pose proof (flags_base _ _ F Wd) as W1. do 2 eexists. split; [reflexivity|].
    set (f := fun n => set_src None (set_kind TGhost n)).
    assert (forall y, lookup (update_node x f d1) y = if y =? x then option_map f (lookup d y) else lookup d y) as E1.
    { intros y. rewrite lookup_update, (flags_lookup _ _ _ F), E. reflexivity. }
    split; [split|].
    + eapply shrunk_trans; [exact Sd|]. eapply shrunk_trans; [apply (shrunk_flags _ _ Wd F)|]. apply shrunk_ghost; [exact W1|exact T|]. intros m. unfold f. cbn. auto 10.
    + intros n' H. rewrite E1, Nat.eqb_refl, L in H. cbn in H. injection H as <-. reflexivity.
    + intros y Y. rewrite E1. apply Nat.eqb_neq in Y. rewrite Y. reflexivity.
    + intros a b H A B'. change (normal (update_node x f d1)) with (normal d1). destruct F as [_ [F _]]. rewrite F. apply DL. auto.
    + intros c H X. change (In c (modify d1)). destruct F as [_ [_ [_ [F _]]]]. apply F. auto.
    + intros c H X. change (In c (create d1)). destruct F as [_ [_ [_ [_ [F _]]]]]. apply F. auto.
    + intros c H X. change (In c (config d1)). destruct F as [_ [_ [_ [_ [_ F]]]]]. apply F. auto.
    + intros K _. change (In x (create d1)). unfold d1. rewrite K. cbn. auto.
  - assert (lookup dd (dir n) <> None) as P by (rewrite E; apply (b_parent _ W x n L T)). destruct (queue_add_some dd (dir n) q2 P) as [q3 Q3]. rewrite Q3.
    do 2 eexists. split; [reflexivity|]. set (d' := with_nodes dd (filter (fun p => negb (fst p =? x)) (nodes dd))).
    assert (forall y, lookup d' y = if y =? x then None else lookup d y) as E1.
    { intros y. unfold d', with_nodes, lookup. cbn [nodes]. rewrite assoc_drop. change (assoc y (nodes dd)) with (lookup dd y). rewrite E. reflexivity. }
    assert (forall y, y <> x -> lookup d' y = lookup d y) as E2 by (intros y Y; rewrite E1; apply Nat.eqb_neq in Y; rewrite Y; reflexivity).
    pose proof (no_ghosts_false dd x (b_ids _ Wd) HG) as NG.
    assert (forall y m, lookup d' y = Some m -> y <> x /\ lookup d y = Some m) as E3.
    { intros y m. rewrite E1. destruct (y =? x) eqn:Y; [discriminate|]. apply Nat.eqb_neq in Y. auto. }
    split; [split; [split|..]|].
    + apply ids_filter. apply Wd.
    + intros y m Y. apply E3 in Y as [_ Y]. exists m. auto 10.
    + apply E2. auto.
    + intros y m Y TY. apply E3 in Y as [YX Y]. rewrite E2; [apply (b_parent _ W y m Y TY)|]. rewrite <- E in Y. apply (NG y m Y).
    + intros y m s Y S. apply E3 in Y as [YX Y]. rewrite E2; [apply (b_source _ W y m s Y S)|]. intros ->. rewrite <- E in Y. apply (NG y m Y). exact S.
    + intros a b H. change (In (a, b) (normal dd)) in H. apply DL in H as [H [A B']]. split; [exact H|]. rewrite !E2; auto. apply (b_links _ W _ _ H).
    + intros n' H. rewrite E1, Nat.eqb_refl in H. discriminate.
    + exact E2.
    + intros a b H A B'. change (In (a, b) (normal dd)). apply DL. auto.
    + exact M.
    + exact C.
    + exact G.
    + intros _ H. rewrite E1, Nat.eqb_refl in H. congruence.
Qed.
