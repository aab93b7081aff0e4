From Verif Require Import Base ConfigModel DbModel DbSpec.

Definition out (R : list nat) (x : nat) : bool := negb (existsb (Nat.eqb x) R).
Lemma out_spec R x : out R x = true <-> ~ In x R.
Proof.
  unfold out. rewrite negb_true_iff. split.
  - intros H I. assert (existsb (Nat.eqb x) R = true) by (apply existsb_exists; exists x; rewrite Nat.eqb_refl; auto). congruence.
  - intros H. destruct (existsb (Nat.eqb x) R) eqn:E; [|reflexivity]. apply existsb_exists in E as [y [Y E]]. apply Nat.eqb_eq in E. subst. contradiction.
Qed.
Lemma out_cons x R y : out (x :: R) y = out R y && negb (y =? x).
Proof. unfold out. cbn. rewrite negb_orb, andb_comm. reflexivity. Qed.

Lemma filter_filter {A} (f g : A -> bool) l : filter f (filter g l) = filter (fun a => g a && f a) l.
Proof. induction l as [|a l IH]; [reflexivity|]. cbn. destruct (g a) eqn:G; cbn; [destruct (f a)|]; rewrite IH; reflexivity. Qed.

(** [d'] is [d] without the entries R. *)
Record stripped (R : list nat) (d d' : db) : Prop := {
  s_nodes : nodes d' = filter (fun p => out R (fst p)) (nodes d);
  s_normal : normal d' = filter (fun p => out R (fst p) && out R (snd p)) (normal d);
  s_sticky : sticky d' = filter (fun p => out R (fst p) && out R (snd p)) (sticky d);
  s_modify : modify d' = filter (out R) (modify d);
  s_create : create d' = filter (out R) (create d);
  s_config : config d' = filter (out R) (config d) }.

Lemma filter_true {A} (f : A -> bool) l : (forall a, In a l -> f a = true) -> filter f l = l.
Proof. induction l as [|a l IH]; intros H; [reflexivity|]. cbn. rewrite (H a (or_introl eq_refl)). f_equal. apply IH. intros b B. apply H. right. exact B. Qed.
Lemma stripped_nil d : stripped [] d d.
Proof. split; symmetry; apply filter_true; reflexivity. Qed.

Lemma assoc_filter R l x : assoc x (filter (fun p => out R (fst p)) l) = if out R x then assoc x l else None.
Proof.
  induction l as [|[y n] l IH]; cbn; [destruct (out R x); reflexivity|]. destruct (out R y) eqn:O; cbn.
  - destruct (x =? y) eqn:E; [apply Nat.eqb_eq in E; subst; rewrite O; reflexivity|exact IH].
  - destruct (x =? y) eqn:E; [apply Nat.eqb_eq in E; subst; rewrite O, IH; rewrite O; reflexivity|exact IH].
Qed.
Lemma stripped_lookup R d d' x : stripped R d d' -> lookup d' x = if out R x then lookup d x else None.
Proof. intros S. unfold lookup. rewrite (s_nodes _ _ _ S). apply assoc_filter. Qed.
Lemma assoc_in x l n : assoc x l = Some n -> In (x, n) l.
Proof. induction l as [|[y m] l IH]; cbn; [discriminate|]. destruct (x =? y) eqn:E; [intros H; injection H as ->; apply Nat.eqb_eq in E; subst; auto|auto]. Qed.
Lemma in_assoc x l n : NoDup (map fst l) -> In (x, n) l -> assoc x l = Some n.
Proof.
  induction l as [|[y m] l IH]; intros N I; [destruct I|]. cbn in N. inversion N as [|? ? Ny Nl]; subst. cbn. destruct I as [E|I].
  - injection E as -> ->. rewrite Nat.eqb_refl. reflexivity.
  - destruct (x =? y) eqn:E; [|auto]. apply Nat.eqb_eq in E. subst. exfalso. apply Ny. apply in_map_iff. exists (y, n). auto.
Qed.

Lemma insert_in x q y : In y (insert x q) <-> y = x \/ In y q.
Proof.
  induction q as [|z q IH]; cbn [insert]; [cbn; intuition|]. destruct (x <? z); [cbn; intuition|]. destruct (x =? z) eqn:E.
  - apply Nat.eqb_eq in E. subst. cbn [In]. split; [auto|]. intros [->|H]; auto.
  - cbn [In]. rewrite IH. intuition.
Qed.
Lemma remove_in x q y : In y (remove_id x q) <-> In y q /\ y <> x.
Proof. unfold remove_id. rewrite filter_In, negb_true_iff, Nat.eqb_neq. reflexivity. Qed.

Lemma ghostly_disposable k : ghostly k = disposable k. Proof. destruct k; reflexivity. Qed.
Lemma queue_add_spec d x q q' : queue_add d x q = Some q' -> forall z, In z q' <-> In z q \/ (z = x /\ queueable d z).
Proof.
  unfold queue_add, queueable. destruct (lookup d x) as [n|] eqn:L; [|discriminate]. rewrite ghostly_disposable; destruct (disposable (kind n)) eqn:G; intros H z; injection H as <-.
  - rewrite insert_in. split; [intros [->|I]; eauto|]. intros [I|[-> _]]; auto.
  - split; [auto|]. intros [I|[-> [m [L2 G2]]]]; [exact I|congruence].
Qed.
Lemma queue_all_spec d l : forall q q', queue_all d l q = Some q' -> forall z, In z q' <-> In z q \/ (In z l /\ queueable d z).
Proof.
  induction l as [|x l IH]; intros q q' H z; cbn in H.
  - injection H as <-. cbn. tauto.
  - destruct (queue_add d x q) as [q1|] eqn:E; [|discriminate]. rewrite (IH _ _ H). rewrite (queue_add_spec _ _ _ _ E). cbn. intuition; subst; auto.
Qed.
Lemma queue_all_some d l : (forall x, In x l -> lookup d x <> None) -> forall q, queue_all d l q <> None.
Proof.
  induction l as [|x l IH]; intros H q; cbn; [discriminate|]. unfold queue_add at 1. destruct (lookup d x) as [n|] eqn:L; [|exfalso; apply (H x); [left; reflexivity|exact L]].
  apply IH. intros y Y. apply H. right. exact Y.
Qed.
Lemma froms_in l x y : In y (froms l x) <-> In (y, x) l.
Proof.
  unfold froms. rewrite in_map_iff. split.
  - intros [[a b] [<- I]]. apply filter_In in I as [I E]. cbn in *. apply Nat.eqb_eq in E. subst. exact I.
  - intros I. exists (y, x). split; [reflexivity|]. apply filter_In. cbn. rewrite Nat.eqb_refl. auto.
Qed.
Lemma tos_in l x y : In y (tos l x) <-> In (x, y) l.
Proof.
  unfold tos. rewrite in_map_iff. split.
  - intros [[a b] [<- I]]. apply filter_In in I as [I E]. cbn in *. apply Nat.eqb_eq in E. subst. exact I.
  - intros I. exists (x, y). split; [reflexivity|]. apply filter_In. cbn. rewrite Nat.eqb_refl. auto.
Qed.

(** Flags and links do not matter to lookups. *)
Lemma lookup_nodes d d' x : nodes d = nodes d' -> lookup d x = lookup d' x.
Proof. unfold lookup. intros ->. reflexivity. Qed.
Lemma queueable_nodes d d' x : nodes d = nodes d' -> queueable d x <-> queueable d' x.
Proof. unfold queueable, lookup. intros ->. reflexivity. Qed.

Section Delete.
  Variables (d0 : db) (R : list nat) (d : db).
  Hypothesis S : stripped R d0 d.

  Lemma in_nodes y m : In (y, m) (nodes d) <-> In (y, m) (nodes d0) /\ ~ In y R.
  Proof. rewrite (s_nodes _ _ _ S), filter_In. cbn. rewrite out_spec. reflexivity. Qed.
  Lemma in_normal a b : In (a, b) (normal d) <-> In (a, b) (normal d0) /\ ~ In a R /\ ~ In b R.
  Proof. rewrite (s_normal _ _ _ S), filter_In, andb_true_iff. cbn. rewrite !out_spec. reflexivity. Qed.
  Lemma in_sticky a b : In (a, b) (sticky d) <-> In (a, b) (sticky d0) /\ ~ In a R /\ ~ In b R.
  Proof. rewrite (s_sticky _ _ _ S), filter_In, andb_true_iff. cbn. rewrite !out_spec. reflexivity. Qed.
  Lemma lookup_some x n : lookup d x = Some n <-> lookup d0 x = Some n /\ ~ In x R.
  Proof. rewrite (stripped_lookup _ _ _ _ S). rewrite <- out_spec. destruct (out R x); intuition congruence. Qed.

  Lemma has_ghosts_false x : node_has_ghosts d x = false <-> forall y m, In (y, m) (nodes d0) -> ~ In y R -> dir m <> x /\ src m <> Some x.
  Proof.
    unfold node_has_ghosts. split.
    - intros H y m I N. assert ((dir m =? x) || src_is x m = false) as E.
      { destruct ((dir m =? x) || src_is x m) eqn:E; [|reflexivity]. rewrite <- H. symmetry. apply existsb_exists. exists (y, m). split; [apply in_nodes; auto|exact E]. }
      apply orb_false_iff in E as [E1 E2]. apply Nat.eqb_neq in E1. split; [exact E1|]. intros E. unfold src_is in E2. rewrite E, Nat.eqb_refl in E2. discriminate.
    - intros H. destruct (existsb _ _) eqn:E; [|reflexivity]. apply existsb_exists in E as [[y m] [I E]]. apply in_nodes in I as [I N]. cbn in E.
      destruct (H y m I N) as [H1 H2]. apply orb_true_iff in E as [E|E]; [apply Nat.eqb_eq in E; contradiction|]. unfold src_is in E.
      destruct (src m) as [s|]; [apply Nat.eqb_eq in E; subst; contradiction|discriminate].
  Qed.
End Delete.

Lemma drop_links_strip x R l : drop_links x (filter (fun p => out R (fst p) && out R (snd p)) l) = filter (fun p => out (x :: R) (fst p) && out (x :: R) (snd p)) l.
Proof.
  unfold drop_links. rewrite filter_filter. apply filter_ext. intros [a b]. cbn [fst snd]. rewrite !out_cons, negb_orb.
  destruct (out R a), (out R b), (a =? x), (b =? x); reflexivity.
Qed.
Lemma remove_strip x R l : remove_id x (filter (out R) l) = filter (out (x :: R)) l.
Proof. unfold remove_id. rewrite filter_filter. apply filter_ext. intros a. rewrite out_cons. reflexivity. Qed.

(** Deleting an entry that has no children, and, if it is a group, no links. *)
Lemma delete_name_file_spec d0 excl R d x n q : consistent d0 excl -> stripped R d0 d -> lookup d x = Some n -> disposable (kind n) = true ->
  node_has_ghosts d x = false ->
  (forall y m, In (y, m) (nodes d0) -> disposable (kind m) = true -> ~ In y R -> ~ In (dir m) R) ->
  (forall y m s, In (y, m) (nodes d0) -> src m = Some s -> disposable (kind m) = true -> ~ In y R -> ~ In s R) ->
  (kind n = TGroup -> (forall y, ~ In (x, y) (normal d)) /\ (forall y, ~ In (y, x) (normal d)) /\ (forall y, ~ In (x, y) (sticky d))) ->
  exists d' q', delete_name_file d x q = Some (d', q') /\ stripped (x :: R) d0 d' /\
    forall z, In z q' <-> In z q \/ (neighbour d0 x z /\ ~ In z R /\ queueable d0 z).
Proof.
  intros C S L G NG PR SR GL. unfold delete_name_file, delete_links.
  set (d1 := unflag x d). assert (nodes d1 = nodes d) as E1 by reflexivity. assert (normal d1 = normal d) as E2 by reflexivity.
  destruct (queue_all d1 (froms (normal d1) x ++ tos (normal d1) x) q) as [q1|] eqn:Q1.
  2: { exfalso. revert Q1. apply queue_all_some. intros y Y. rewrite (lookup_nodes _ _ _ E1). rewrite E2 in Y.
       rewrite in_app_iff, froms_in, tos_in, !(in_normal _ _ _ S) in Y.
       assert (In y R -> False) as NR by tauto. assert (lookup d0 y <> None) as LY.
       { destruct Y as [[Y _]|[Y _]]; apply (c_links _ _ C) in Y; tauto. }
       destruct (lookup d0 y) as [m|] eqn:Ly; [|contradiction]. rewrite (proj2 (lookup_some _ _ _ S y m) (conj Ly NR)). discriminate. }
  pose proof (queue_all_spec _ _ _ _ Q1) as H1.
  assert (flag_group_users d1 x = d1) as FG.
  { unfold flag_group_users. destruct (has_kind d1 [TGroup] x) eqn:HK; [|reflexivity].
    assert (kind n = TGroup) as Kn.
    { unfold has_kind in HK. rewrite (lookup_nodes _ _ _ E1), L in HK. cbn in HK. destruct (kind n); cbn in HK; congruence. }
    destruct (GL Kn) as [A [B C']]. replace (tos (sticky d1) x) with (@nil nat).
    2: { symmetry. destruct (tos (sticky d1) x) as [|y l] eqn:E; [reflexivity|]. exfalso. apply (C' y). apply tos_in. change (sticky d) with (sticky d1). rewrite E. left. reflexivity. }
    replace (froms (normal d1) x) with (@nil nat).
    2: { symmetry. destruct (froms (normal d1) x) as [|y l] eqn:E; [reflexivity|]. exfalso. apply (B y). apply froms_in. change (normal d) with (normal d1). rewrite E. left. reflexivity. }
    cbn. unfold add_create. destruct d1; reflexivity. }
  rewrite FG. cbv zeta. set (d2 := with_links d1 _ _). assert (nodes d2 = nodes d) as E3 by reflexivity.
  unfold delete_node. rewrite (lookup_nodes _ _ _ E3), L.
  pose proof (proj1 (lookup_some _ _ _ S x n) L) as [L0 NR]. pose proof (assoc_in _ _ _ L0) as I0.
  assert (exists q2, match src n with Some s => queue_add d2 s q1 | None => Some q1 end = Some q2 /\
    forall z, In z q2 <-> In z q1 \/ (src n = Some z /\ queueable d z)) as [q2 [Q2 H2]].
  { destruct (src n) as [s|] eqn:Es; [|exists q1; split; [reflexivity|]; intros z; intuition discriminate].
    assert (lookup d2 s <> None) as Ls.
    { rewrite (lookup_nodes _ _ _ E3). pose proof (c_source _ _ C x n s I0 Es) as P. destruct (lookup d0 s) as [m|] eqn:Lm; [|contradiction].
      rewrite (proj2 (lookup_some _ _ _ S s m)); [discriminate|]. split; [exact Lm|]. apply (SR x n s I0 Es G NR). }
    unfold queue_add at 1. destruct (lookup d2 s) as [m|] eqn:Lm; [|contradiction].
    exists (if ghostly (kind m) then insert s q1 else q1). split; [reflexivity|]. intros z.
    rewrite (queue_add_spec d2 s q1 _ ltac:(unfold queue_add; rewrite Lm; reflexivity)). rewrite (queueable_nodes d2 d z E3). intuition congruence. }
  rewrite Q2. replace (node_has_ghosts d2 x) with (node_has_ghosts d x) by reflexivity. rewrite NG.
  assert (exists q3, queue_add d2 (dir n) q2 = Some q3 /\ forall z, In z q3 <-> In z q2 \/ (dir n = z /\ queueable d z)) as [q3 [Q3 H3]].
  { pose proof (c_parent _ _ C x n I0 G) as P. destruct (lookup d0 (dir n)) as [m|] eqn:Lm; [|contradiction].
    assert (lookup d2 (dir n) = Some m) as Lm2.
    { rewrite (lookup_nodes _ _ _ E3). apply (lookup_some _ _ _ S). split; [exact Lm|]. apply (PR x n I0 G NR). }
    unfold queue_add at 1. rewrite Lm2. exists (if ghostly (kind m) then insert (dir n) q2 else q2). split; [reflexivity|]. intros z.
    rewrite (queue_add_spec d2 (dir n) q2 _ ltac:(unfold queue_add; rewrite Lm2; reflexivity)). rewrite (queueable_nodes d2 d z E3). intuition congruence. }
  rewrite Q3. eexists _, q3. split; [reflexivity|]. split.
  - split; unfold with_nodes, d2, with_links, d1, unflag; cbn [nodes normal sticky modify create config].
    + rewrite (s_nodes _ _ _ S), filter_filter. apply filter_ext. intros a. rewrite out_cons. reflexivity.
    + rewrite (s_normal _ _ _ S). apply drop_links_strip.
    + rewrite (s_sticky _ _ _ S). apply drop_links_strip.
    + rewrite (s_modify _ _ _ S). apply remove_strip.
    + rewrite (s_create _ _ _ S). apply remove_strip.
    + rewrite (s_config _ _ _ S). apply remove_strip.
  - intros z. rewrite H3, H2, H1. rewrite (queueable_nodes d1 d z E1), E2, in_app_iff, froms_in, tos_in, !(in_normal _ _ _ S).
    assert (queueable d z <-> queueable d0 z /\ ~ In z R) as QZ.
    { unfold queueable. split.
      - intros [m [Lm Gm]]. apply (lookup_some _ _ _ S) in Lm as [Lm Nz]. eauto.
      - intros [[m [Lm Gm]] Nz]. exists m. split; [apply (lookup_some _ _ _ S); auto|exact Gm]. }
    rewrite QZ. unfold neighbour. split.
    + intros [[[I|[I [Q Nz]]]|[E [Q Nz]]]|[E [Q Nz]]]; auto.
      * right. split; [|auto]. right. tauto.
      * right. split; [|auto]. left. eauto.
      * right. split; [|auto]. left. eauto.
    + intros [I|[Nb [Nz Q]]]; [auto|]. destruct Nb as [[m [Im E]]|[I|I]].
      * assert (m = n) as -> by (pose proof (in_assoc _ _ _ (c_unique _ _ C) Im) as A; unfold lookup in L0; congruence). destruct E as [E|E]; auto.
      * left. left. right. tauto.
      * left. left. right. tauto.
Qed.
