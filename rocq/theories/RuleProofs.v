From Verif Require Import Base ConfigModel DbModel DbSpec DbProofs DbProofs3 RuleModel RuleSpec.

Record wf (p : pst) : Prop := {
  w_sound : sound (pdb p);
  w_one : one_producer (pdb p);
  w_cache : forall x c, is_kind (pdb p) TGenerated x -> cache p x = Some c -> forall a, produces (pdb p) a x -> a = c;
  w_cached : forall x c, cache p x = Some c -> is_kind (pdb p) TCmd c }.

(** Two databases with the same entries. *)
Definition same_kinds (d d' : db) : Prop := forall x, option_map kind (lookup d' x) = option_map kind (lookup d x).
Lemma same_kinds_kind d d' k x : same_kinds d d' -> is_kind d' k x <-> is_kind d k x.
Proof.
  intros H. specialize (H x). unfold is_kind. destruct (lookup d' x) as [n'|], (lookup d x) as [n|]; cbn in H; try discriminate.
  - injection H as H. split; intros [m [E K]]; injection E as <-; eexists; (split; [reflexivity|congruence]).
  - split; intros [m [E _]]; discriminate.
Qed.
Lemma same_kinds_some d d' x : same_kinds d d' -> lookup d' x <> None <-> lookup d x <> None.
Proof. intros H. specialize (H x). destruct (lookup d' x), (lookup d x); cbn in H; try discriminate; split; congruence. Qed.
Lemma same_kinds_refl d : same_kinds d d.
Proof. intros x. reflexivity. Qed.
Lemma same_kinds_trans a b c : same_kinds a b -> same_kinds b c -> same_kinds a c.
Proof. intros H1 H2 x. rewrite H2. apply H1. Qed.
Lemma same_kinds_nodes d d' : nodes d' = nodes d -> same_kinds d d'.
Proof. intros H x. unfold lookup. rewrite H. reflexivity. Qed.
Lemma lookup_update x f d y : lookup (update_node x f d) y = if y =? x then option_map f (lookup d y) else lookup d y.
Proof.
  unfold lookup, update_node. cbn. induction (nodes d) as [|[z m] l IH]; cbn; [destruct (y =? x); reflexivity|].
  destruct (z =? x) eqn:E; cbn; destruct (y =? z) eqn:E2; try exact IH.
  - apply Nat.eqb_eq in E, E2. subst. rewrite Nat.eqb_refl. reflexivity.
  - apply Nat.eqb_eq in E2. subst. rewrite E. reflexivity.
Qed.
Lemma same_kinds_update x f d : (forall n, kind (f n) = kind n) -> same_kinds d (update_node x f d).
Proof. intros H y. rewrite lookup_update. destruct (y =? x); [|reflexivity]. destruct (lookup d y); cbn; [rewrite H|]; reflexivity. Qed.
Lemma ids_update x f d : map fst (nodes (update_node x f d)) = map fst (nodes d).
Proof. unfold update_node. cbn. rewrite map_map. apply map_ext. intros [y n]. cbn. destruct (y =? x); reflexivity. Qed.

(** Same entries, fewer links: nothing is lost. *)
Definition shrinks (d d' : db) : Prop := same_kinds d d' /\ map fst (nodes d') = map fst (nodes d) /\ incl (normal d') (normal d).
Lemma shrinks_refl d : shrinks d d.
Proof. split; [apply same_kinds_refl|]. split; [reflexivity|apply incl_refl]. Qed.
Lemma shrinks_trans a b c : shrinks a b -> shrinks b c -> shrinks a c.
Proof. intros [A1 [A2 A3]] [B1 [B2 B3]]. split; [eapply same_kinds_trans; eauto|]. split; [congruence|eapply incl_tran; eauto]. Qed.
Lemma shrinks_sound d d' : shrinks d d' -> sound d -> sound d'.
Proof.
  intros [A1 [A2 A3]] [S1 S2 S4 S3]. split; [rewrite A2; exact S1| |intros x I; exact (S4 x (A3 _ I))|].
  - intros x y I. apply A3, S2 in I as [I1 I2]. split; apply (same_kinds_some _ _ _ A1); assumption.
  - intros a x P K. apply (same_kinds_kind _ _ _ _ A1). apply (S3 a x); [apply A3; exact P|]. rewrite <- !(same_kinds_kind _ _ _ x A1). exact K.
Qed.
Lemma wf_shrinks p p' : wf p -> shrinks (pdb p) (pdb p') -> (forall x c, cache p' x = Some c -> cache p x = Some c \/ (is_kind (pdb p) TCmd c /\ forall a, produces (pdb p') a x -> a = c)) -> wf p'.
Proof.
  intros [W1 W2 W3 W4] S HC. split; [eapply shrinks_sound; eauto| | |]; destruct S as [A1 [A2 A3]].
  - intros x a b K I1 I2. apply (W2 x); [apply (same_kinds_kind _ _ _ _ A1); exact K| |]; apply A3; assumption.
  - intros x c K E a I. destruct (HC x c E) as [H|[_ H]]; [|auto]. apply (W3 x c); [apply (same_kinds_kind _ _ _ _ A1); exact K|exact H|apply A3; exact I].
  - intros x c E. apply (same_kinds_kind _ _ _ _ A1). destruct (HC x c E) as [H|[H _]]; [exact (W4 x c H)|exact H].
Qed.

Lemma remove_in_links a b d x y : In (x, y) (normal (link_remove a b d)) <-> In (x, y) (normal d) /\ ~ (x = a /\ y = b).
Proof.
  unfold link_remove. cbn. rewrite filter_In. cbn. rewrite negb_true_iff, andb_false_iff, !Nat.eqb_neq. split; intros [H1 H2]; (split; [exact H1|]).
  - tauto.
  - destruct (Nat.eq_dec x a), (Nat.eq_dec y b); tauto.
Qed.
Lemma shrinks_remove a b d : shrinks d (link_remove a b d).
Proof. split; [apply same_kinds_nodes; reflexivity|]. split; [reflexivity|]. intros [x y] I. apply remove_in_links in I. tauto. Qed.

(** The parts of the state that do not change. *)
Definition aside (p p' : pst) : Prop := pdel p' = pdel p /\ pwait p' = pwait p /\ pcmds p' = pcmds p.

Lemma get_incoming_spec x p o p' : get_incoming x p = Some (o, p') -> wf p -> is_kind (pdb p) TGenerated x ->
  wf p' /\ pdb p' = pdb p /\ aside p p' /\ (forall a, produces (pdb p) a x -> o = Some a).
Proof.
  intros H W K. unfold get_incoming in H. destruct (cache p x) as [c|] eqn:E.
  - injection H as <- <-. split; [exact W|]. split; [reflexivity|]. split; [repeat split|]. intros a I. f_equal. symmetry. exact (w_cache _ W x c K E a I).
  - destruct (froms (normal (pdb p)) x) as [|c t] eqn:F.
    + injection H as <- <-. split; [exact W|]. split; [reflexivity|]. split; [repeat split|]. intros a I. apply froms_in in I. rewrite F in I. destruct I.
    + destruct (forallb (Nat.eqb c) t) eqn:Fa; [|discriminate]. injection H as <- <-.
      assert (forall a, produces (pdb p) a x -> a = c) as A.
      { intros a I. apply froms_in in I. rewrite F in I. destruct I as [<-|I]; [reflexivity|]. rewrite forallb_forall in Fa. specialize (Fa a I). apply Nat.eqb_eq in Fa. congruence. }
      assert (is_kind (pdb p) TCmd c) as Kc by (apply (s_commands _ (w_sound _ W) c x); [unfold produces; apply froms_in; rewrite F; left; reflexivity|auto]).
      split; [|split; [reflexivity|split; [repeat split|intros a I; f_equal; symmetry; apply A; exact I]]].
      apply (wf_shrinks p); [exact W|apply shrinks_refl|]. intros y d. cbn. destruct (y =? x) eqn:Ey; [|auto].
      apply Nat.eqb_eq in Ey. subst y. intros X. injection X as <-. right. split; [exact Kc|exact A].
Qed.
(** The cached producer, even of other entries. *)
Lemma get_incoming_db x p o p' : get_incoming x p = Some (o, p') -> pdb p' = pdb p /\ aside p p'.
Proof.
  unfold get_incoming. destruct (cache p x); [intros H; injection H as <- <-; split; [reflexivity|repeat split]|]. destruct (froms _ _) as [|c t]; [intros H; injection H as <- <-; split; [reflexivity|repeat split]|].
  destruct (forallb _ t); [|discriminate]. intros H. injection H as <- <-. split; [reflexivity|repeat split].
Qed.
Lemma get_incoming_wf x p o p' : get_incoming x p = Some (o, p') -> wf p -> is_kind (pdb p) TGenerated x \/ is_kind (pdb p) TGhost x -> wf p' /\ (forall c, o = Some c -> is_kind (pdb p) TCmd c).
Proof.
  intros H W K. unfold get_incoming in H. destruct (cache p x) as [c|] eqn:E; [injection H as <- <-; split; [exact W|]; intros d X; injection X as <-; exact (w_cached _ W _ _ E)|].
  destruct (froms (normal (pdb p)) x) as [|c t] eqn:F; [injection H as <- <-; split; [exact W|discriminate]|].
  destruct (forallb (Nat.eqb c) t) eqn:Fa; [|discriminate]. injection H as <- <-.
  assert (is_kind (pdb p) TCmd c) as Kc by (apply (s_commands _ (w_sound _ W) c x); [unfold produces; apply froms_in; rewrite F; left; reflexivity|exact K]).
  split; [|intros d X; injection X as <-; exact Kc].
  apply (wf_shrinks p); [exact W|apply shrinks_refl|]. intros y d. cbn. destruct (y =? x) eqn:Ey; [|auto].
  apply Nat.eqb_eq in Ey. subst y. intros X. injection X as <-. right. split; [exact Kc|].
  intros a I. apply froms_in in I. rewrite F in I. destruct I as [<-|I]; [reflexivity|]. rewrite forallb_forall in Fa. specialize (Fa a I). apply Nat.eqb_eq in Fa. congruence.
Qed.

Lemma queue_one_db x p p' : queue_one x p = Some p' -> pdb p' = pdb p /\ aside p p' /\ cache p' = cache p.
Proof. unfold queue_one. destruct (queue_add _ _ _); [|discriminate]. intros H. injection H as <-. repeat split. Qed.
Lemma wf_same p p' : pdb p' = pdb p -> cache p' = cache p -> wf p -> wf p'.
Proof. intros E1 E2 [A B C D]. split; rewrite ?E1, ?E2; assumption. Qed.

Lemma create_unique_link_spec a b p p' : create_unique_link a b p = Some p' -> wf p -> is_kind (pdb p) TGenerated b ->
  wf p' /\ shrinks (pdb p) (pdb p') /\ aside p p' /\ (forall e, produces (pdb p') e b -> e = a) /\
  (forall e x, produces (pdb p) e x -> ~ produces (pdb p') e x -> x = b \/ e = b).
Proof.
  intros H W K. unfold create_unique_link in H. destruct (get_incoming b p) as [[o p1]|] eqn:G; [|discriminate].
  destruct (get_incoming_spec _ _ _ _ G W K) as [W1 [D1 [A1 I1]]]. destruct o as [i|].
  - destruct (i =? a) eqn:E.
    + apply Nat.eqb_eq in E. subst i. injection H as <-. rewrite D1. split; [exact W1|]. split; [apply shrinks_refl|]. split; [exact A1|]. split.
      * intros e I. apply I1 in I. congruence.
      * intros e x P N. contradiction.
    + destruct (get_output_group i (pdb p1)) as [og|]; [|discriminate].
      destruct (match og with Some g => _ | None => _ end) as [p2|] eqn:Q; [|discriminate]. injection H as <-.
      assert (S2 : shrinks (pdb p) (pdb p2) /\ aside p p2 /\ cache p2 = cache p1 /\ (forall e x, produces (pdb p) e x -> ~ produces (pdb p2) e x -> e = b)).
      { destruct og as [g|].
        - apply queue_one_db in Q as [Q1 [Q2 Q3]]. rewrite Q1, Q3. cbn [pdb with_db cache]. rewrite D1. split; [apply (shrinks_remove b g)|]. split; [unfold aside in *; cbn in *; intuition congruence|]. split; [reflexivity|].
          intros e x P N. unfold produces in N. rewrite remove_in_links in N. destruct (Nat.eq_dec e b); [assumption|]. exfalso. apply N. split; [exact P|tauto].
        - injection Q as <-. rewrite D1. split; [apply shrinks_refl|]. split; [exact A1|]. split; [reflexivity|]. intros e x P N. contradiction. }
      destruct S2 as [S2 [A2 [C2 L2]]]. cbn [pdb with_cache with_db].
      assert (S3 : shrinks (pdb p) (link_remove i b (pdb p2))) by (eapply shrinks_trans; [exact S2|apply shrinks_remove]).
      split; [|split; [exact S3|split; [unfold aside in *; cbn; intuition congruence|split]]].
      * apply (wf_shrinks p1); [exact W1|cbn [pdb with_db with_cache]; rewrite D1; exact S3|]. intros y e. cbn. destruct (y =? b); [discriminate|]. rewrite C2. auto.
      * intros e I. apply remove_in_links in I as [I N]. exfalso. apply N. split; [|reflexivity]. apply S2 in I. apply I1 in I. congruence.
      * intros e x P N. unfold produces in N. rewrite remove_in_links in N. destruct (Nat.eq_dec x b); [auto|]. right. apply (L2 e x P). intros P2. apply N. split; [exact P2|tauto].
  - assert (NB : forall e, ~ produces (pdb p) e b) by (intros e I; apply I1 in I; discriminate).
    destruct (get_output_group b (pdb p1)) as [[g|]|]; [|injection H as <-|discriminate].
    + apply queue_one_db in H as [Q1 [Q2 Q3]]. cbn [pdb with_db cache] in Q1, Q3. rewrite Q1, D1. split; [|split; [apply shrinks_remove|split; [unfold aside in *; cbn in *; intuition congruence|split]]].
      * apply (wf_shrinks p1); [exact W1|rewrite Q1; apply shrinks_remove|]. intros y e X. left. rewrite <- Q3. exact X.
      * intros e I. apply remove_in_links in I as [I _]. destruct (NB e I).
      * intros e x P N. unfold produces in N. rewrite remove_in_links in N. destruct (Nat.eq_dec e b); [auto|]. exfalso. apply N. split; [exact P|tauto].
    + rewrite D1. split; [exact W1|]. split; [apply shrinks_refl|]. split; [exact A1|]. split; [intros e I; destruct (NB e I)|intros e x P N; contradiction].
Qed.

Lemma get_incoming_cache x p o p' : get_incoming x p = Some (o, p') -> cache p' x = o /\ forall y, y <> x -> cache p' y = cache p y.
Proof.
  unfold get_incoming. destruct (cache p x) as [c|] eqn:E; [intros H; injection H as <- <-; auto|]. destruct (froms _ _) as [|c t]; [intros H; injection H as <- <-; auto|].
  destruct (forallb _ t); [|discriminate]. intros H. injection H as <- <-. cbn. rewrite Nat.eqb_refl. split; [reflexivity|]. intros y N. apply Nat.eqb_neq in N. rewrite N. reflexivity.
Qed.
Lemma create_unique_link_cache a b p p' : create_unique_link a b p = Some p' -> (cache p' b = None \/ cache p' b = Some a) /\ forall y, y <> b -> cache p' y = cache p y.
Proof.
  unfold create_unique_link. intros H. destruct (get_incoming b p) as [[o p1]|] eqn:G; [|discriminate]. apply get_incoming_cache in G as [G1 G2]. destruct o as [i|].
  - destruct (i =? a) eqn:E; [apply Nat.eqb_eq in E; subst i; injection H as <-; auto|].
    destruct (get_output_group i (pdb p1)) as [og|]; [|discriminate].
    destruct (match og with Some g => _ | None => _ end) as [p2|] eqn:Q; [|discriminate]. injection H as <-. cbn. rewrite Nat.eqb_refl. split; [auto|].
    assert (cache p2 = cache p1) as C by (destruct og; [apply queue_one_db in Q as [_ [_ Q]]; exact Q|injection Q as <-; reflexivity]).
    intros y N. rewrite C, <- (G2 y N). apply Nat.eqb_neq in N. rewrite N. reflexivity.
  - assert (cache p' = cache p1) as C by (destruct (get_output_group b (pdb p1)) as [[g|]|]; [apply queue_one_db in H as [_ [_ H]]; exact H|injection H as <-; reflexivity|discriminate]).
    rewrite C, G1. auto.
Qed.

Lemma create_unique_links_spec a bs : forall p p', create_unique_links a bs p = Some p' -> wf p -> (forall b, In b bs -> is_kind (pdb p) TGenerated b) -> NoDup bs ->
  wf p' /\ shrinks (pdb p) (pdb p') /\ aside p p' /\ (forall b, In b bs -> (forall e, produces (pdb p') e b -> e = a) /\ (cache p' b = None \/ cache p' b = Some a)) /\
  (forall y, ~ In y bs -> cache p' y = cache p y).
Proof.
  induction bs as [|b bs IH]; intros p p' H W K ND.
  - injection H as <-. split; [exact W|]. split; [apply shrinks_refl|]. split; [repeat split|]. split; [intros b []|reflexivity].
  - cbn in H. destruct (create_unique_link a b p) as [p1|] eqn:E; [|discriminate]. apply NoDup_cons_iff in ND as [NB ND].
    destruct (create_unique_link_spec _ _ _ _ E W (K b (or_introl eq_refl))) as [W1 [S1 [A1 [P1 _]]]]. destruct (create_unique_link_cache _ _ _ _ E) as [C1 C2].
    destruct (IH p1 p' H W1) as [W2 [S2 [A2 [P2 C3]]]]; [intros e I; apply (same_kinds_kind _ _ _ _ (proj1 S1)); apply K; right; exact I|exact ND|].
    split; [exact W2|]. split; [eapply shrinks_trans; eauto|]. split; [unfold aside in *; intuition congruence|]. split.
    + intros e [<-|I]; [|auto]. split; [intros f P; apply P1, S2, P|]. rewrite (C3 b NB). exact C1.
    + intros y N. rewrite C3, C2; [reflexivity| |]; intros X; apply N; [left; congruence|right; exact X].
Qed.

(** New entries. *)
Lemma fresh_new d x : In x (map fst (nodes d)) -> x < fresh d.
Proof.
  unfold fresh. induction (map fst (nodes d)) as [|y l IH]; [intros []|]. cbn. intros [->|I]; [lia|]. specialize (IH I). lia.
Qed.
Lemma in_ids d x : lookup d x <> None <-> In x (map fst (nodes d)).
Proof.
  unfold lookup. induction (nodes d) as [|[y n] l IH]; cbn; [tauto|]. destruct (x =? y) eqn:E.
  - apply Nat.eqb_eq in E. split; [auto|discriminate].
  - apply Nat.eqb_neq in E. rewrite IH. split; [auto|]. intros [F|F]; [congruence|exact F].
Qed.
Lemma lookup_insert n d x : lookup (insert_node n d) x = if x =? fresh d then Some n else lookup d x.
Proof. unfold insert_node. destruct (ntype_eqb _ _); reflexivity. Qed.
Lemma insert_rows n d : nodes (insert_node n d) = (fresh d, n) :: nodes d.
Proof. unfold insert_node. destruct (ntype_eqb _ _); reflexivity. Qed.
Lemma insert_normal n d : normal (insert_node n d) = normal d.
Proof. unfold insert_node. destruct (ntype_eqb _ _); reflexivity. Qed.
Lemma lookup_fresh d : lookup d (fresh d) = None.
Proof.
  destruct (lookup d (fresh d)) eqn:E; [|reflexivity]. assert (lookup d (fresh d) <> None) as H by congruence. apply in_ids, fresh_new in H. lia.
Qed.
Lemma insert_old n d x m : lookup d x = Some m -> lookup (insert_node n d) x = Some m.
Proof. intros H. rewrite lookup_insert. destruct (x =? fresh d) eqn:E; [|exact H]. apply Nat.eqb_eq in E. rewrite E, lookup_fresh in H. discriminate. Qed.
Lemma wf_insert n p : kind n <> TGhost -> wf p -> wf (with_db p (insert_node n (pdb p))).
Proof.
  intros NG [[S1 S2 S4 S3] W2 W3 W4]. assert (NL : forall a, ~ In (a, fresh (pdb p)) (normal (pdb p))) by (intros a I; apply S2 in I as [_ I]; rewrite lookup_fresh in I; contradiction).
  assert (KD : forall k x, is_kind (insert_node n (pdb p)) k x -> is_kind (pdb p) k x \/ x = fresh (pdb p)).
  { intros k x [m [L K]]. rewrite lookup_insert in L. destruct (x =? fresh (pdb p)) eqn:E; [apply Nat.eqb_eq in E; auto|]. left. exists m. auto. }
  assert (KU : forall k x, is_kind (pdb p) k x -> is_kind (insert_node n (pdb p)) k x) by (intros k x [m [L K]]; exists m; split; [apply insert_old; exact L|exact K]).
  split; cbn [pdb with_db cache]; unfold one_producer, produces in *; rewrite ?insert_normal.
  - split; unfold produces; rewrite ?insert_normal.
    + rewrite insert_rows. cbn. constructor; [|exact S1]. intros I. apply fresh_new in I. lia.
    + intros x y I. apply S2 in I as [I1 I2]. destruct (lookup (pdb p) x) eqn:E1; [|contradiction]. destruct (lookup (pdb p) y) eqn:E2; [|contradiction].
      rewrite (insert_old _ _ _ _ E1), (insert_old _ _ _ _ E2). split; discriminate.
    + exact S4.
    + intros a x P K. apply KU. apply (S3 a x P). destruct K as [K|K]; apply KD in K as [K| ->]; auto; destruct (NL a P).
  - intros x a b K P1 P2. destruct (KD _ x K) as [K'| ->]; [exact (W2 x a b K' P1 P2)|]. destruct (NL a P1).
  - intros x c K E a P. destruct (KD _ x K) as [K'| ->]; [exact (W3 x c K' E a P)|]. destruct (NL a P).
  - intros x c E. apply KU. eauto.
Qed.

Lemma delete_links_spec d x q d' q' : delete_links d x q = Some (d', q') -> nodes d' = nodes d /\ incl (normal d') (normal d) /\
  (forall a, ~ In (a, x) (normal d') /\ ~ In (x, a) (normal d')) /\ (forall a b, In (a, b) (normal d) -> a <> x -> b <> x -> In (a, b) (normal d')).
Proof.
  unfold delete_links. destruct (queue_all _ _ _); [|discriminate]. intros H. injection H as <- <-.
  assert (flag_group_users d x = d \/ exists l, flag_group_users d x = add_create l d) as F by (unfold flag_group_users; destruct (has_kind _ _ _); eauto).
  assert (nodes (flag_group_users d x) = nodes d /\ normal (flag_group_users d x) = normal d) as [F1 F2] by (destruct F as [->|[l0 ->]]; split; reflexivity).
  cbn. rewrite F1, F2. unfold drop_links. split; [reflexivity|]. split; [|split].
  - intros e I. apply filter_In in I. tauto.
  - intros a. rewrite !filter_In. cbn. rewrite Nat.eqb_refl, orb_true_r. cbn. split; intros [_ I]; discriminate.
  - intros a b I N1 N2. apply filter_In. split; [exact I|]. cbn. apply Nat.eqb_neq in N1, N2. rewrite N1, N2. reflexivity.
Qed.

Lemma find_in_lookup d dt name x : NoDup (map fst (nodes d)) -> find_in d dt name = Some x -> exists n, lookup d x = Some n /\ dir n = dt /\ nname n = name.
Proof.
  intros U H. unfold find_in in H. destruct (find _ (nodes d)) as [[y n]|] eqn:F; [|discriminate]. injection H as ->. apply find_some in F as [I E].
  apply andb_true_iff in E as [E1 E2]. apply Nat.eqb_eq in E1. apply bytes_eqb_eq in E2. exists n. split; [apply in_assoc; assumption|auto].
Qed.

(** Creating one output. *)
Definition grows (d d' : db) : Prop :=
  (forall x n, lookup d x = Some n -> exists n', lookup d' x = Some n' /\ dir n' = dir n /\ nname n' = nname n /\ (kind n' = kind n \/ (kind n = TGhost /\ kind n' = TGenerated))) /\
  incl (normal d') (normal d) /\
  (forall a b, In (a, b) (normal d) -> ~ is_kind d TGhost a -> ~ is_kind d TGhost b -> In (a, b) (normal d')).
Lemma create_output_spec dt name tf p x ch p' : create_output dt name tf p = Some (x, ch, p') -> wf p ->
  wf p' /\ is_kind (pdb p') TGenerated x /\ grows (pdb p) (pdb p') /\ aside p p' /\
  (exists n', lookup (pdb p') x = Some n' /\ src n' = Some tf /\ dir n' = dt /\ nname n' = name) /\ (forall y n, y <> x -> lookup (pdb p) y = Some n -> lookup (pdb p') y = Some n).
Proof.
  intros H W. pose proof (w_sound _ W) as [U UL US UC]. unfold create_output in H. destruct (find_in (pdb p) dt name) as [y|] eqn:F.
  - destruct (find_in_lookup _ _ _ _ U F) as [n [L [Dn Nn]]]. rewrite L in H. destruct (kind n) eqn:K; try discriminate.
    + (* generated *)
      injection H as <- <- <-. cbn [pdb with_db].
      assert (same_kinds (pdb p) (update_node y (set_src (Some tf)) (pdb p))) as SK by (apply same_kinds_update; reflexivity).
      split; [|split; [|split; [|split; [|split]]]].
      * apply (wf_shrinks p); [exact W| |auto]. cbn. split; [exact SK|]. split; [apply ids_update|apply incl_refl].
      * apply (same_kinds_kind _ _ _ _ SK). exists n. auto.
      * split; [|split; [apply incl_refl|auto]]. intros z m Lz. rewrite lookup_update. destruct (z =? y); rewrite Lz; cbn; eexists; (split; [reflexivity|cbn; auto]).
      * repeat split.
      * rewrite lookup_update, Nat.eqb_refl, L. cbn. eexists. split; [reflexivity|]. cbn. auto.
      * intros z m Nz Lz. rewrite lookup_update. apply Nat.eqb_neq in Nz. rewrite Nz. exact Lz.
    + (* a ghost *)
      destruct (delete_links _ y (pq p)) as [[d2 q]|] eqn:E; [|discriminate]. injection H as <- <- <-. apply delete_links_spec in E as [E1 [E2 [E3 E4]]].
      cbn in E1, E2, E4. cbn [pdb with_db with_q].
      set (f := fun n => set_src (Some tf) (set_kind TGenerated n)) in *.
      assert (LD : forall z, lookup (update_node y f (add_modify [y] d2)) z = if z =? y then option_map f (lookup (pdb p) z) else lookup (pdb p) z).
      { intros z. rewrite lookup_update. unfold lookup. cbn. rewrite E1. reflexivity. }
      assert (KO : forall z, z <> y -> is_kind (update_node y f (add_modify [y] d2)) TGenerated z -> is_kind (pdb p) TGenerated z).
      { intros z N [m [Lm Km]]. rewrite LD in Lm. apply Nat.eqb_neq in N. rewrite N in Lm. exists m. auto. }
      split; [|split; [|split; [|split; [|split]]]].
      * split; cbn [pdb with_db with_q cache].
        -- split; [rewrite ids_update; cbn; rewrite E1; exact U|intros a b I; cbn in I|intros a I; exact (US a (E2 _ I))|].
           { apply E2, UL in I as [I1 I2]. rewrite !LD.
           split; [destruct (a =? y); [destruct (lookup (pdb p) a); [discriminate|contradiction]|exact I1]|destruct (b =? y); [destruct (lookup (pdb p) b); [discriminate|contradiction]|exact I2]]. }
           intros a b P Kb. cbn in P. assert (b <> y) as Nb by (intros ->; exact (proj1 (E3 a) P)). assert (a <> y) as Na by (intros ->; exact (proj2 (E3 b) P)).
           assert (forall k, is_kind (update_node y f (add_modify [y] d2)) k b -> is_kind (pdb p) k b) as KB.
           { intros k [m [Lm Km]]. rewrite LD in Lm. apply Nat.eqb_neq in Nb. rewrite Nb in Lm. exists m. auto. }
           destruct (UC a b (E2 _ P)) as [m [Lm Km]]; [destruct Kb as [Kb|Kb]; apply KB in Kb; auto|]. exists m. split; [|exact Km]. rewrite LD. apply Nat.eqb_neq in Na. rewrite Na. exact Lm.
        -- intros z a b Kz P1 P2. cbn in P1, P2. destruct (Nat.eq_dec z y) as [->|N]; [exfalso; exact (proj1 (E3 a) P1)|]. apply (w_one _ W z); [apply KO; assumption|apply E2; exact P1|apply E2; exact P2].
        -- intros z c Kz Ec a P. cbn in P. destruct (Nat.eq_dec z y) as [->|N]; [exfalso; exact (proj1 (E3 a) P)|]. apply (w_cache _ W z c); [apply KO; assumption|exact Ec|apply E2; exact P].
        -- intros z c Ec. destruct (w_cached _ W z c Ec) as [m [Lm Km]]. exists m. split; [|exact Km]. rewrite LD. destruct (c =? y) eqn:Ecy; [|exact Lm]. apply Nat.eqb_eq in Ecy. subst c. congruence.
      * exists (f n). rewrite LD, Nat.eqb_refl, L. split; reflexivity.
      * split; [|split; [exact E2|]].
        -- intros z m Lz. rewrite LD. destruct (z =? y) eqn:Ez; rewrite Lz; cbn; eexists; (split; [reflexivity|cbn; auto]). apply Nat.eqb_eq in Ez. subst z. rewrite L in Lz. injection Lz as <-. auto.
        -- intros a b I Na Nb. apply E4; [exact I| |]; intros ->; [apply Na|apply Nb]; exists n; auto.
      * repeat split.
      * rewrite LD, Nat.eqb_refl, L. cbn. eexists. split; [reflexivity|]. cbn. auto.
      * intros z m Nz Lz. rewrite LD. apply Nat.eqb_neq in Nz. rewrite Nz. exact Lz.
  - injection H as <- <- <-. cbn [pdb with_db]. split; [apply wf_insert; [discriminate|exact W]|]. split; [|split; [|split; [|split]]].
    + eexists. rewrite lookup_insert, Nat.eqb_refl. split; reflexivity.
    + unfold grows. rewrite insert_normal. split; [|split; [apply incl_refl|auto]]. intros z m Lz. exists m. rewrite (insert_old _ _ _ _ Lz). auto.
    + repeat split.
    + eexists. rewrite lookup_insert, Nat.eqb_refl. split; [reflexivity|]. auto.
    + intros z m Nz Lz. apply insert_old. exact Lz.
Qed.
