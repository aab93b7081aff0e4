From Verif Require Import Base ConfigModel DbModel DbSpec DbProofs.

Lemma has_kind_spec d ks y : has_kind d ks y = true <-> exists n, lookup d y = Some n /\ In (kind n) ks.
Proof.
  unfold has_kind. destruct (lookup d y) as [n|]; [|split; [discriminate|intros [m [H _]]; discriminate]].
  rewrite existsb_exists. split.
  - intros [k [I E]]. exists n. split; [reflexivity|]. assert (kind n = k) as -> by (destruct (kind n), k; cbn in E; congruence). exact I.
  - intros [m [H I]]. injection H as <-. exists (kind n). split; [exact I|]. destruct (kind n); reflexivity.
Qed.

Lemma in_dependent_create x d c : In (x, c) (normal d) -> is_kind d TDir c -> In c (create (set_dependent_flags x d)).
Proof.
  intros I [n [L K]]. unfold set_dependent_flags. cbn. apply in_or_app. left. apply filter_In. split; [apply tos_in; exact I|].
  apply has_kind_spec. exists n. split; [exact L|]. cbn. auto.
Qed.

Lemma file_mod_flags x mtime force ign d d' n : lookup d x = Some n -> file_mod x mtime force ign d = Some d' ->
  (time n <> mtime \/ (force = true /\ (ign = true -> kind n <> TGenerated))) ->
  In x (modify d') /\ normal d' = normal d /\ (forall c, In (x, c) (normal d) -> is_kind d TDir c -> c <> x -> In c (create d')) /\
  (kind n = TGenerated -> forall p, In (p, x) (normal d) -> In p (modify d')).
Proof.
  intros L H Ch. unfold file_mod in H. rewrite L in H.
  assert (negb (Z.eqb (time n) mtime) || (if ign && ntype_eqb (kind n) TGenerated then false else force) = true) as E.
  { apply orb_true_iff. destruct Ch as [Ch|[-> Ch]]; [left; apply negb_true_iff, Z.eqb_neq; exact Ch|right].
    destruct ign; [|reflexivity]. destruct (ntype_eqb (kind n) TGenerated) eqn:K; [|reflexivity]. exfalso. apply Ch; [reflexivity|]. destruct (kind n); cbn in K; congruence. }
  rewrite E in H. clear Ch E. 
  assert (K : kind n = TFile \/ kind n = TGenerated \/ kind n = TGhost) by (destruct (kind n); auto; discriminate).
  set (d1 := if ntype_eqb (kind n) TGhost then ghost_to_file x n d else d) in *.
  set (d2 := if ntype_eqb (kind n) TGenerated then modify_cmds_by_output x d1 else d1) in *.
  assert (N1 : normal d1 = normal d) by (unfold d1; destruct (ntype_eqb (kind n) TGhost); [unfold ghost_to_file; cbn; destruct (has_kind _ _ _)|]; reflexivity).
  assert (N2 : normal d2 = normal d) by (unfold d2; destruct (ntype_eqb (kind n) TGenerated); exact N1).
  assert (Kc : forall c, is_kind d TDir c -> c <> x -> is_kind d2 TDir c).
  { intros c [m [Lc Km]] Nc. exists m. split; [|exact Km]. assert (lookup d1 c = Some m) as Lc1.
    { unfold d1. destruct (ntype_eqb (kind n) TGhost); [|exact Lc]. unfold ghost_to_file.
      assert (lookup (update_node x (set_kind TFile) d) c = lookup d c) as U.
      { unfold lookup, update_node. cbn. clear - Nc. induction (nodes d) as [|[y m] l IH]; [reflexivity|]. cbn. destruct (y =? x) eqn:E; cbn; rewrite IH; [|reflexivity].
        apply Nat.eqb_eq in E. subst y. destruct (c =? x) eqn:E2; [apply Nat.eqb_eq in E2; contradiction|reflexivity]. }
      destruct (has_kind _ _ _); unfold lookup in *; cbn; rewrite <- Lc; exact U. }
    unfold d2. destruct (ntype_eqb (kind n) TGenerated); exact Lc1. }
  set (d4 := update_node x (set_time mtime) (set_dependent_flags x (add_modify [x] d2))) in *.
  assert (d' = (if true && bytes_eqb (nname n) (B "tup.config") then add_config [x] d4 else d4)) as -> by (destruct K as [K|[K|K]]; rewrite K in H; injection H as <-; reflexivity).
  assert (forall A (f : db -> A), f (add_config [x] d4) = f d4 -> f (if true && bytes_eqb (nname n) (B "tup.config") then add_config [x] d4 else d4) = f d4) as Fl.
  { intros A f E. cbn. destruct (bytes_eqb _ _); [exact E|reflexivity]. }
  rewrite (Fl _ modify), (Fl _ normal), (Fl _ create); try reflexivity. repeat split.
  - left. reflexivity.
  - exact N2.
  - intros c I Kd Nc. change (create d4) with (create (set_dependent_flags x (add_modify [x] d2))). apply in_dependent_create; [cbn; rewrite N2; exact I|].
    destruct (Kc c Kd Nc) as [m [Lm Km]]. exists m. split; [exact Lm|exact Km].
  - intros Kg p I. right. unfold d2. rewrite Kg. cbn. apply in_or_app. left. apply froms_in. rewrite N1. exact I.
Qed.

(** Removing an entry clears no flag but its own. *)
Lemma delete_keeps_flags d x q d' q' : delete_name_file d x q = Some (d', q') -> forall c, c <> x ->
  (In c (modify d) -> In c (modify d')) /\ (In c (create d) -> In c (create d')).
Proof.
  intros H c N. unfold delete_name_file, delete_links in H. destruct (queue_all _ _ q) as [q1|]; [|discriminate].
  cbv zeta in H. set (d1 := unflag x d) in *. set (d2 := with_links _ _ _) in H.
  assert (M2 : modify d2 = remove_id x (modify d)) by (unfold d2, flag_group_users; cbn; destruct (has_kind _ _ _); reflexivity).
  assert (C2 : forall c, In c (remove_id x (create d)) -> In c (create d2)).
  { intros e I. unfold d2, flag_group_users. cbn. destruct (has_kind _ _ _); [cbn; apply in_or_app; right|]; exact I. }
  unfold delete_node in H. destruct (lookup d2 x) as [n|]; [|discriminate]. destruct (match src n with Some s => _ | None => _ end) as [q2|]; [|discriminate].
  destruct (node_has_ghosts d2 x).
  - injection H as <- <-. split; intros I.
    + assert (In c (modify d2)) as I2 by (rewrite M2; apply remove_in; auto). destruct (ntype_eqb (kind n) TDir); exact I2.
    + assert (In c (create d2)) as I2 by (apply C2, remove_in; auto). destruct (ntype_eqb (kind n) TDir); [right|]; exact I2.
  - destruct (queue_add d2 (dir n) q2) as [q3|]; [|discriminate]. injection H as <- <-. split; intros I; [change (In c (modify d2)); rewrite M2; apply remove_in; auto|change (In c (create d2)); apply C2, remove_in; auto].
Qed.

Lemma file_del_flags x force d q d' q' n : lookup d x = Some n -> file_del x force d q = Some (d', q') -> nname n <> B "tup.config" -> kind n = TFile ->
  forall c, In (x, c) (normal d) -> c <> x -> (is_kind d TCmd c \/ is_kind d TGroup c -> In c (modify d')) /\ (is_kind d TDir c -> In c (create d')).
Proof.
  intros L H T K c I N. unfold file_del in H. rewrite L in H. destruct (bytes_eqb (nname n) (B "tup.config")) eqn:E; [apply bytes_eqb_eq in E; contradiction|].
  rewrite K in H. apply delete_keeps_flags with (c := c) in H; [|exact N]. destruct H as [H1 H2].
  split; intros Kc.
  - apply H1. assert (In c (modify (modify_cmds_by_input x (set_dependent_flags x d)))) as J.
    { cbn. apply in_or_app. left. apply filter_In. split; [apply tos_in; exact I|]. apply has_kind_spec. destruct Kc as [[m [Lm Km]]|[m [Lm Km]]]; exists m; (split; [exact Lm|]); rewrite Km; cbn; auto. }
    destruct force; exact J.
  - apply H2. assert (In c (create (modify_cmds_by_input x (set_dependent_flags x d)))) as J by (apply in_dependent_create; assumption).
    destruct force; [|right]; exact J.
Qed.
Lemma file_del_generated x d q d' q' n : lookup d x = Some n -> file_del x false d q = Some (d', q') -> nname n <> B "tup.config" -> nname n <> B ".gitignore" -> kind n = TGenerated ->
  normal d' = normal d /\ nodes d' = nodes d /\ forall p, p <> x -> In (p, x) (normal d) -> In p (modify d').
Proof.
  intros L H T T2 K. unfold file_del in H. rewrite L in H. destruct (bytes_eqb (nname n) (B "tup.config")) eqn:E; [apply bytes_eqb_eq in E; contradiction|].
  rewrite K in H. destruct (bytes_eqb (nname n) (B ".gitignore")) eqn:E2; [apply bytes_eqb_eq in E2; contradiction|]. injection H as <- <-.
  repeat split. intros p N I. cbn. apply remove_in. split; [|exact N]. apply in_or_app. left. apply froms_in. exact I.
Qed.
Lemma file_del_forced x d q d' q' n : lookup d x = Some n -> file_del x true d q = Some (d', q') -> nname n <> B "tup.config" -> kind n = TGenerated ->
  forall c, In (x, c) (normal d) -> c <> x -> is_kind d TCmd c \/ is_kind d TGroup c -> In c (modify d').
Proof.
  intros L H T K c I N Kc. unfold file_del in H. rewrite L in H. destruct (bytes_eqb (nname n) (B "tup.config")) eqn:E; [apply bytes_eqb_eq in E; contradiction|].
  rewrite K in H. apply delete_keeps_flags with (c := c) in H; [|exact N]. apply H. cbn. apply in_or_app. left. apply filter_In. split; [apply tos_in; exact I|].
  apply has_kind_spec. destruct Kc as [[m [Lm Km]]|[m [Lm Km]]]; exists m; (split; [exact Lm|]); rewrite Km; cbn; auto.
Qed.

Lemma ghost_to_file_flags x mtime force ign d d' n : lookup d x = Some n -> kind n = TGhost -> file_mod x mtime force ign d = Some d' ->
  In x (modify d') /\ normal d' = normal d /\ (is_kind d TDir (dir n) -> dir n <> x -> In (dir n) (create d')) /\ is_kind d' TFile x.
Proof.
  intros L K H. unfold file_mod in H. rewrite L, K in H. cbn [ntype_eqb andb] in H. rewrite andb_false_r in H.
  set (d1 := ghost_to_file x n d) in *.
  assert (A1 : In x (modify d1)) by (left; reflexivity).
  assert (A2 : normal d1 = normal d) by (unfold d1, ghost_to_file; cbn; destruct (has_kind _ _ _); reflexivity).
  assert (U : forall f c, lookup (update_node x f d) c = if c =? x then option_map f (lookup d c) else lookup d c).
  { intros f c. unfold lookup, update_node, with_nodes. cbn [nodes]. clear. induction (nodes d) as [|[y m] l IH]; cbn; [destruct (c =? x); reflexivity|].
    destruct (Nat.eqb_spec y x) as [E|E]; cbn [assoc fst snd]; rewrite IH; destruct (Nat.eqb_spec c x) as [E2|E2]; destruct (Nat.eqb_spec c y) as [E3|E3]; try reflexivity; congruence. }
  assert (A3 : is_kind d TDir (dir n) -> dir n <> x -> In (dir n) (create d1)).
  { intros [m [Lm Km]] Nx. unfold d1, ghost_to_file. assert (has_kind (update_node x (set_kind TFile) d) [TDir] (dir n) = true) as ->; [|left; reflexivity].
    apply has_kind_spec. exists m. rewrite U. destruct (Nat.eqb_spec (dir n) x); [contradiction|]. split; [exact Lm|left; auto]. }
  assert (N1 : nodes d1 = nodes (update_node x (set_kind TFile) d)) by (unfold d1, ghost_to_file; destruct (has_kind _ _ _); reflexivity).
  assert (A4 : lookup d1 x = Some (set_kind TFile n)).
  { unfold lookup. rewrite N1. change (lookup (update_node x (set_kind TFile) d) x = Some (set_kind TFile n)). rewrite U, Nat.eqb_refl, L. reflexivity. }
  set (d4 := update_node x (set_time mtime) (set_dependent_flags x (add_modify [x] d1))).
  assert (UU : forall e, lookup (update_node x (set_time mtime) e) x = option_map (set_time mtime) (lookup e x)).
  { intros e. unfold lookup, update_node, with_nodes. cbn [nodes]. clear. induction (nodes e) as [|[y m] l IH]; cbn; [reflexivity|]. destruct (Nat.eqb_spec y x) as [->|N]; cbn; [rewrite Nat.eqb_refl; reflexivity|]. destruct (Nat.eqb_spec x y); [congruence|exact IH]. }
  assert (B1 : In x (modify d4) /\ normal d4 = normal d /\ (is_kind d TDir (dir n) -> dir n <> x -> In (dir n) (create d4)) /\ is_kind d4 TFile x).
  { split; [left; reflexivity|]. split; [exact A2|]. split; [intros Kd Nd; cbn; apply in_or_app; right; apply A3; assumption|].
    exists (set_time mtime (set_kind TFile n)). split; [|reflexivity]. unfold d4. rewrite UU. change (lookup (set_dependent_flags x (add_modify [x] d1)) x) with (lookup d1 x). rewrite A4. reflexivity. }
  destruct (negb (time n =? mtime)%Z || force); cbn [andb] in H; injection H as <-.
  - fold d4. destruct (bytes_eqb _ _); exact B1.
  - split; [exact A1|]. split; [exact A2|]. split; [exact A3|]. exists (set_kind TFile n). split; [exact A4|reflexivity].
Qed.
