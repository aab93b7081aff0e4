(** Parsing: what gets into the lists. *)
From Verif Require Import Base ConfigModel ParseModel PathModel DbModel DbSpec DbProofs DbProofs3 ScanModel ScanSpec ScanProofs ScanProofs2 ScanProofs3 CleanModel CleanSpec.
Require Import Lia.

Lemma base_from d d' : base d -> NoDup (map fst (nodes d')) ->
  (forall y n', lookup d' y = Some n' -> exists n, lookup d y = Some n /\ dir n' = dir n /\ nname n' = nname n /\ (is_dir (kind n') = true -> is_dir (kind n) = true)) ->
  (forall y, lookup d y <> None -> lookup d' y <> None) -> lookup d' top = lookup d top -> incl (normal d') (normal d) ->
  (forall y n' s, lookup d' y = Some n' -> src n' = Some s -> lookup d s <> None) ->
  (forall y n', lookup d' y = Some n' -> kind n' = TGenerated -> src n' <> None) -> base d'.
Proof.
  intros W I F K T N S G. split; auto.
  - intros x n y m X Y D Nm. destruct (F x n X) as [n1 [X1 [D1 [N1 _]]]]. destruct (F y m Y) as [m1 [Y1 [D2 [N2 _]]]]. apply (b_names _ W x n1 y m1); congruence.
  - rewrite T. apply W.
  - intros x n X Tx. destruct (F x n X) as [n1 [X1 [D1 _]]]. rewrite D1. destruct (b_parent _ W x n1 X1 Tx). auto.
  - intros x y H. apply N in H. destruct (b_links _ W _ _ H). auto.
  - intros x n s X E. apply K. eauto.
  - intros x n X E. destruct (F x n X) as [n1 [X1 [_ [N1 C]]]]. destruct (is_dir (kind n)) eqn:Z; [|reflexivity]. rewrite N1 in E. pose proof (b_config _ W x n1 X1 E). rewrite C in H; auto.
Qed.
Lemma base_insert d n p : base d -> lookup d (dir n) = Some p -> child d (dir n) (nname n) = None -> is_dir (kind n) = false -> (forall s, src n = Some s -> lookup d s <> None) ->
  (kind n = TGenerated -> src n <> None) -> base (insert_node n d).
Proof.
  intros W P C K S G. assert (lookup d (fresh d) = None) as Lf by (apply lookup_fresh; lia).
  assert (forall y m, lookup d y = Some m -> lookup (insert_node n d) y = Some m) as Ke by (intros y m Y; rewrite lookup_insert; destruct (y =? fresh d) eqn:E; [apply Nat.eqb_eq in E; congruence|exact Y]).
  assert (forall y, lookup d y <> None -> lookup (insert_node n d) y <> None) as Kn by (intros y Y; destruct (lookup d y) as [m|] eqn:E; [rewrite (Ke y m E); discriminate|congruence]).
  assert (forall y m, lookup (insert_node n d) y = Some m -> y = fresh d /\ m = n \/ lookup d y = Some m) as Fr by (intros y m; rewrite lookup_insert; destruct (y =? fresh d) eqn:E; [apply Nat.eqb_eq in E; intros H; injection H as <-; auto|auto]).
  pose proof (proj1 (child_none d (dir n) (nname n) W) C) as No. split.
  - unfold insert_node, with_nodes. cbn [nodes]. rewrite map_app. cbn. apply NoDup_snoc; [apply W|]. intros I. apply in_map_iff in I as [[z m] [E I]]. cbn in E. subst z. apply in_lookup in I; [congruence|apply W].
  - intros x a y b X Y D N. destruct (Fr x a X) as [[-> ->]|X1]; destruct (Fr y b Y) as [[-> ->]|Y1]; auto.
    + exfalso. apply (No y b Y1); congruence.
    + exfalso. apply (No x a X1); congruence.
    + apply (b_names _ W x a y b); auto.
  - destruct (b_top _ W) as [t [Lt X]]. exists t. split; [apply Ke; exact Lt|exact X].
  - intros x a X T. destruct (Fr x a X) as [[-> ->]|X1].
    + split; [apply Kn; congruence|]. eapply lookup_lt; eauto.
    + destruct (b_parent _ W x a X1 T). auto.
  - intros x y H. destruct (b_links _ W _ _ H). auto.
  - intros x a s X E. apply Kn. destruct (Fr x a X) as [[-> ->]|X1]; [auto|exact (b_source _ W x a s X1 E)].
  - intros x a X E. destruct (Fr x a X) as [[-> ->]|X1]; [auto|exact (b_generated _ W x a X1 E)].
  - intros x a X E. destruct (Fr x a X) as [[-> ->]|X1]; [exact K|exact (b_config _ W x a X1 E)].
Qed.

(** tup_db_delete_links *)
Lemma links_spec x d q d' q' : delete_links d x q = Some (d', q') ->
  nodes d' = nodes d /\ (forall a b, In (a, b) (normal d') <-> In (a, b) (normal d) /\ a <> x /\ b <> x) /\ modify d' = modify d.
Proof.
  unfold delete_links. destruct (queue_all d _ q) as [q1|]; [|discriminate]. intros H. injection H as <- <-. pose proof (flags_group x d) as [F1 [F2 _]]. split; [exact F1|]. split.
  - intros a b. cbn [normal with_links]. rewrite F2. unfold drop_links. rewrite filter_In. cbn [fst snd]. rewrite negb_orb, andb_true_iff, !negb_true_iff, !Nat.eqb_neq. reflexivity.
  - cbn. unfold flag_group_users. destruct (has_kind d [TGroup] x); reflexivity.
Qed.
Lemma mem_in x l : mem x l = true <-> In x l.
Proof. unfold mem. rewrite existsb_exists. split; [intros [y [I E]]; apply Nat.eqb_eq in E; subst; exact I|intros I; exists x; split; [exact I|apply Nat.eqb_refl]]. Qed.
Lemma mem_out x l : mem x l = false <-> ~ In x l.
Proof. rewrite <- mem_in. destruct (mem x l); split; congruence. Qed.
Lemma tree_add_ok x l l' : tree_add x l = Ok l' -> l' = x :: l /\ ~ In x l.
Proof. unfold tree_add. destruct (mem x l) eqn:E; [discriminate|]. intros H. injection H as <-. split; [reflexivity|apply mem_out; exact E]. Qed.
Lemma made_by_in d x y : base d -> (In y (made_by d x) <-> exists n, lookup d y = Some n /\ src n = Some x /\ kind n = TGenerated /\ nname n <> B ".gitignore").
Proof.
  intros W. unfold made_by. rewrite in_map_iff. split.
  - intros [[z n] [E F]]. cbn in E. subst z. apply filter_In in F as [I F]. cbn [snd] in F. apply andb_true_iff in F as [F F3]. apply andb_true_iff in F as [F1 F2]. exists n.
    split; [apply in_lookup; [apply W|exact I]|]. unfold src_is in F1. destruct (src n) as [s|]; [|discriminate]. apply Nat.eqb_eq in F1. subst s. apply ntype_eqb_eq in F2. apply negb_true_iff in F3.
    split; [reflexivity|]. split; [exact F2|]. intros E. rewrite E, bytes_eqb_refl in F3. discriminate.
  - intros [n [L [S [K N]]]]. exists (y, n). split; [reflexivity|]. apply filter_In. split; [apply lookup_in; exact L|]. cbn [snd]. unfold src_is. rewrite S, K, Nat.eqb_refl. cbn [ntype_eqb andb].
    apply negb_true_iff. destruct (bytes_eqb (nname n) (B ".gitignore")) eqn:E; [apply bytes_eqb_eq in E; contradiction|reflexivity].
Qed.
Lemma each_ind {A S} (f : A -> S -> outcome S) (P : list A -> S -> Prop) : forall l done s s', each f l s = Ok s' -> P done s ->
  (forall a done s s', In a l -> P done s -> f a s = Ok s' -> P (done ++ [a]) s') -> P (done ++ l) s'.
Proof.
  induction l as [|a l IH]; intros done s s' H I St; cbn in H.
  - injection H as <-. rewrite app_nil_r. exact I.
  - destruct (f a s) as [s1| | |] eqn:E; try discriminate. cbn in H. change (a :: l) with ([a] ++ l). rewrite app_assoc. apply (IH (done ++ [a]) s1 s' H).
    + apply (St a done s s1); auto. left. reflexivity.
    + intros b dn u u' I'. apply St. right. exact I'.
Qed.

(** One output. *)
Definition flag_kind (k : ntype) : Prop := k = TGhost \/ k = TCmd \/ k = TGroup.
Record declares (x dt : nat) (nm : bytes) (y : nat) (s s' : cst) : Prop := {
  dc_base : base (cs_db s');
  dc_self : exists n', lookup (cs_db s') y = Some n' /\ dir n' = dt /\ nname n' = nm /\ kind n' = TGenerated /\ src n' = Some x;
  dc_other : forall z, z <> y -> lookup (cs_db s') z = lookup (cs_db s) z;
  dc_was : forall n, lookup (cs_db s) y = Some n -> dir n = dt /\ nname n = nm /\ (kind n = TGhost \/ kind n = TGenerated);
  dc_gen : forall z, In z (gen_del s') <-> In z (gen_del s) /\ (z <> y \/ lookup (cs_db s) y = None);
  dc_saved : forall z, In z (saved s') <-> In z (saved s) /\ (z <> y \/ lookup (cs_db s) y = None);
  dc_nodup : (NoDup (gen_del s) -> NoDup (gen_del s')) /\ (NoDup (saved s) -> NoDup (saved s'));
  dc_cmd : cmd_del s' = cmd_del s;
  dc_unlinked : unlinked s' = unlinked s;
  dc_modify : incl (modify (cs_db s)) (modify (cs_db s'));
  dc_modified : forall z, In z (modify (cs_db s')) -> In z (modify (cs_db s)) \/ exists m, lookup (cs_db s) z = Some m /\ flag_kind (kind m);
  dc_links : forall a b, In (a, b) (normal (cs_db s)) -> (forall n, lookup (cs_db s) y = Some n -> kind n = TGhost -> a <> y /\ b <> y) -> In (a, b) (normal (cs_db s')) }.
Lemma declare_spec x dt nm s s' p : base (cs_db s) -> lookup (cs_db s) dt = Some p -> lookup (cs_db s) x <> None -> declare x (dt, nm) s = Ok s' -> exists y, declares x dt nm y s s'.
Proof.
  intros W P X. unfold declare. destruct (child (cs_db s) dt nm) as [y|] eqn:C.
  2: { intros H. injection H as <-. exists (fresh (cs_db s)). assert (lookup (cs_db s) (fresh (cs_db s)) = None) as Lf by (apply lookup_fresh; lia). split; cbn [with_db cs_db gen_del saved cmd_del unlinked fst].
       - eapply base_insert; eauto; cbn; try discriminate. intros z H. injection H as <-. exact X.
       - rewrite lookup_insert, Nat.eqb_refl. eexists. split; [reflexivity|]. auto.
       - intros z Z. rewrite lookup_insert. apply Nat.eqb_neq in Z. rewrite Z. reflexivity.
       - intros n. congruence.
       - tauto.
       - tauto.
       - auto.
       - reflexivity.
       - reflexivity.
       - cbn. apply incl_refl.
       - auto.
       - auto. }
  apply (child_spec _ _ _ _ W) in C as [n [L [D N]]]. rewrite L. intros H. exists y.
  assert (exists d' q', base d' /\ s' = with_roots (with_db s (d', q')) (remove_id y (gen_del s)) (remove_id y (saved s)) (cmd_del s) /\
    (exists n', lookup d' y = Some n' /\ dir n' = dt /\ nname n' = nm /\ kind n' = TGenerated /\ src n' = Some x) /\ (forall z, z <> y -> lookup d' z = lookup (cs_db s) z) /\ (kind n = TGhost \/ kind n = TGenerated) /\
    incl (modify (cs_db s)) (modify d') /\ (forall z, In z (modify d') -> In z (modify (cs_db s)) \/ exists m, lookup (cs_db s) z = Some m /\ flag_kind (kind m)) /\
    (forall a b, In (a, b) (normal (cs_db s)) -> (kind n = TGhost -> a <> y /\ b <> y) -> In (a, b) (normal d'))) as [d' [q' [W' [-> [Sf [Ot [Kd [Mi [Mo Ml]]]]]]]]].
  { assert (forall d e f, base d -> nodes e = nodes d -> incl (normal e) (normal d) -> lookup d y = Some n -> lookup d x <> None -> y <> top -> is_dir (kind (f n)) = false ->
      dir (f n) = dir n -> nname (f n) = nname n -> src (f n) = Some x -> base (update_node y f e)) as Up.
    { intros d e f Wd E I Ly Lx T K D' N' S'. assert (forall z, lookup (update_node y f e) z = if z =? y then option_map f (lookup d z) else lookup d z) as Lk by (intros z; rewrite lookup_update; unfold lookup; rewrite E; reflexivity).
      apply (base_from d); auto.
      - rewrite ids_update, E. apply Wd.
      - intros z n'. rewrite Lk. destruct (z =? y) eqn:Z; [|intros H1; exists n'; auto]. apply Nat.eqb_eq in Z. subst z. rewrite Ly. cbn. intros H1. injection H1 as <-. exists n. repeat split; auto. congruence.
      - intros z. rewrite Lk. destruct (z =? y); [|auto]. destruct (lookup d z); [discriminate|auto].
      - rewrite Lk. destruct (top =? y) eqn:Z; [apply Nat.eqb_eq in Z; congruence|reflexivity].
      - intros z n' s0. rewrite Lk. destruct (z =? y) eqn:Z; [|apply (b_source _ Wd)]. apply Nat.eqb_eq in Z. subst z. rewrite Ly. cbn. intros H1. injection H1 as <-. rewrite S'. intros H1. injection H1 as <-. exact Lx.
      - intros z n'. rewrite Lk. destruct (z =? y) eqn:Z; [|apply (b_generated _ Wd)]. apply Nat.eqb_eq in Z. subst z. rewrite Ly. cbn. intros H1. injection H1 as <-. rewrite S'. discriminate. }
    assert (is_dir (kind n) = false -> y <> top) as NT by (intros K ->; destruct (b_top _ W) as [t [Lt [Kt _]]]; rewrite Lt in L; injection L as ->; rewrite Kt in K; discriminate).
    destruct (kind n) eqn:K; try discriminate.
    - cbn [obind] in H. injection H as <-. do 2 eexists. split; [|split; [reflexivity|]].
      + apply (Up (cs_db s) (cs_db s)); auto using incl_refl. cbn. rewrite K. reflexivity.
      + split; [|split; [|split; [auto|split; [apply incl_refl|split; auto]]]].
        * rewrite lookup_update, Nat.eqb_refl, L. cbn. eexists. split; [reflexivity|]. cbn. auto.
        * intros z Z. rewrite lookup_update. apply Nat.eqb_neq in Z. rewrite Z. reflexivity.
    - destruct (delete_links _ y (cs_queue s)) as [[d1 q1]|] eqn:DL; [|discriminate]. cbn [option_map of_option obind] in H. injection H as <-.
      apply links_spec in DL as [L1 [L2 L3]]. set (d2 := modify_cmds_by_input y (set_dependent_dir_flags y (cs_db s))) in *.
      assert (flags_only (cs_db s) d2) as F by (unfold d2, modify_cmds_by_input, set_dependent_dir_flags; eapply flags_trans; [apply flags_create|apply flags_modify]).
      pose proof (flags_base _ _ F W) as W2. assert (forall z, lookup d1 z = lookup (cs_db s) z) as E1 by (intros z; rewrite <- (flags_lookup _ _ z F); unfold lookup; rewrite L1; reflexivity).
      do 2 eexists. split; [|split; [reflexivity|]].
      + apply (Up d2 (add_modify [y] d1)); auto. intros [a b] I. apply L2 in I. tauto.
      + split; [|split; [|split; [auto|split; [|split]]]].
        * rewrite lookup_update, Nat.eqb_refl. change (lookup (add_modify [y] d1) y) with (lookup d1 y). rewrite E1, L. cbn. eexists. split; [reflexivity|]. cbn. auto.
        * intros z Z. rewrite lookup_update. apply Nat.eqb_neq in Z. rewrite Z. apply E1.
        * cbn [modify update_node with_nodes add_modify]. rewrite L3. apply incl_appr. apply F.
        * cbn [modify update_node with_nodes add_modify]. rewrite L3. cbn [app]. intros z [<-|Z]; [right; exists n; unfold flag_kind; auto|].
          unfold d2, modify_cmds_by_input in Z. cbn [modify add_modify] in Z. apply in_app_iff in Z as [Z|Z]; [|auto]. apply filter_In in Z as [_ Z]. apply has_kind_spec in Z as [m [Lm Km]].
          right. exists m. split; [exact Lm|]. unfold flag_kind. cbn in Km. destruct Km as [Km|[Km|[]]]; auto.
        * intros a b I A. cbn [normal update_node with_nodes add_modify]. apply L2. split; [destruct F as [_ [F _]]; rewrite F; exact I|auto]. }
  split; cbn [with_roots with_db cs_db gen_del saved cmd_del unlinked fst]; auto.
  - intros m Lm. rewrite L in Lm. injection Lm as <-. auto.
  - intros z. rewrite remove_in. split; [tauto|]. intros [I [Z|Z]]; [auto|congruence].
  - intros z. rewrite remove_in. split; [tauto|]. intros [I [Z|Z]]; [auto|congruence].
  - split; apply NoDup_filter.
  - intros a b I A. apply Ml; [exact I|]. intros K. apply (A n L K).
Qed.
