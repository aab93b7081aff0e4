(** The temporary files while the graph is executed. *)
From Verif Require Import Base ExecModel ExecSpec GraphModel GraphSpec TransModel TransSpec ExecProofs ExecProofs2 ExecProofs3.

Section Run.
Variable kind_of : id -> kind.
Variable transient_ exclusion caret_o : id -> bool.
Variable keep_going : bool.
Variable g0 : graph.
Variable root : id.
Variable nodes : list id.
Hypothesis PG : prepared g0 root nodes.
Variable jobs : nat.
Hypothesis Jpos : 0 < jobs.
Variable w0 : files.
Hypothesis Fresh : ran w0 = [] /\ broke w0 = [].

(** A temporary file of this update. *)
Definition temp (f : id) : Prop := In f nodes /\ trans g0 f = TProcessing.

Variable maker : id -> id.
Hypothesis Mk : forall f, temp f -> kind_of f <> KCmd /\ real kind_of exclusion f = true /\
  kind_of (maker f) = KCmd /\ transient_ (maker f) = true /\ (In (maker f) nodes -> trans g0 (maker f) = TNone) /\
  (In (maker f) nodes -> direct g0 (maker f) f) /\ (forall n, direct g0 n f -> n = root \/ n = maker f).
Hypothesis Rows : forall f, temp f -> there w0 f = true -> row w0 f = true.

Notation work := (work kind_of transient_ exclusion caret_o).
Notation reach := (steps work keep_going (start jobs g0 w0)).
Notation exec := (@exec files).
Notation Inv := (Inv keep_going g0 root nodes jobs).

Lemma step_shape (s s' : exec) : step work keep_going s s' ->
  (ws s' = ws s /\ hist s' = hist s /\ running s' = running s) \/
  (exists n, ws s' = ws s /\ hist s' = Start n :: hist s /\ running s' = n :: running s) \/
  (exists n ok l r, running s = l ++ n :: r /\ running s' = l ++ r /\ work (gr s) n (ws s) (ws s') ok /\ hist s' = Finish n ok :: hist s).
Proof.
  intros H. destruct H as [s n p At C Pl|s At C|s n ok r At C Fi|s At C|s n l r ws' ok Ru W|s De]; auto.
  - unfold loop_body. destruct (has_incoming (gr s) n).
    + left. destruct (obind _ _); auto.
    + destruct (negb (expanded (gr s) n)).
      * left. destruct (obind _ _); auto.
      * destruct (off_plist (gr s) n); [|auto]. destruct (free s); [auto|]. right. left. exists n. auto.
  - left. unfold reap. destruct ok; [destruct (pop_node (gr s) n)|destruct (to_nodes_tail (gr s) n)]; auto.
  - right. right. exists n, ok, l, r. auto.
Qed.

Lemma clear_skips_le g n sk x : clear_skips g n sk x = true -> sk x = true.
Proof. unfold clear_skips. intros H. apply andb_true_iff in H. tauto. Qed.
Lemma done_skips_le g n sk x : done_skips g n sk x = true -> sk x = true.
Proof.
  unfold done_skips. revert sk. induction (targets g n) as [|o l IH]; intros sk H; [exact H|]. cbn [fold_left] in H. apply IH in H.
  destruct (sk o); [exact H|]. exact (clear_skips_le g o sk x H).
Qed.
Lemma run_skips_le g n same sk x : run_skips kind_of exclusion caret_o g n same sk x = true -> sk x = true.
Proof. unfold run_skips. intros H. apply andb_true_iff in H. tauto. Qed.

Record J (s : exec) : Prop := {
  j_ran : forall n, In n (ran (ws s)) -> In (Finish n true) (hist s);
  j_broke : forall n, In n (broke (ws s)) -> In (Finish n false) (hist s);
  j_skp : forall n, skp (ws s) n = true -> skp w0 n = true;
  j_fin : forall c, kind_of c = KCmd -> skp w0 c = false -> In (Finish c true) (hist s) -> In c (ran (ws s));
  j_there : forall f, temp f -> starts f (hist s) <= 1 ->
    (there w0 f = true /\ ~ In (maker f) (broke (ws s))) \/ In (maker f) (ran (ws s)) -> there (ws s) f = true;
  j_row : forall f, temp f -> there (ws s) f = true -> row (ws s) f = true \/ In (maker f) (broke (ws s));
  j_del : forall f, temp f -> starts f (hist s) = 2 -> ~ In f (running s) -> ~ In (Finish f false) (hist s) ->
    there (ws s) f = false /\ row (ws s) f = false;
  j_safe : forall x, ~ temp x -> there w0 x = true -> there (ws s) x = true \/ exists n, In n (broke (ws s)) /\ direct g0 n x
}.

Lemma target_edge (s : exec) n x : In x (targets (gr s) n) -> exists e, In e (edges (gr s)) /\ src e = n /\ dst e = x.
Proof.
  unfold targets. intros H. apply in_map_iff in H. destruct H as [e [H1 H2]]. unfold out_edges in H2. apply filter_In in H2.
  destruct H2 as [H2 H3]. apply Nat.eqb_eq in H3. exists e. auto.
Qed.
Lemma outputs_direct (s : exec) n x : Inv s -> In x (outputs kind_of exclusion (gr s) n) -> direct g0 n x.
Proof.
  intros I H. unfold outputs in H. apply filter_In in H. destruct H as [H1 H2]. apply andb_true_iff in H2. destruct H2 as [_ H2].
  destruct (target_edge s n x H1) as [e [E1 [E2 E3]]]. destruct (i_edge _ _ _ _ _ _ I e E1) as [[E4 _]|[E4 _]].
  - exists e. auto.
  - rewrite E3 in E4. rewrite E4 in H2. discriminate.
Qed.
Lemma run_live (s : exec) n : In n (running s) -> In n (live s).
Proof. intros H. apply live_in. auto. Qed.
Lemma run_not_lists (s : exec) n : Inv s -> In n (running s) -> ~ In n (lists (gr s)).
Proof.
  intros I H C. destruct (in_lists_not_busy s n (i_nodup _ _ _ _ _ _ I) C) as [X _]. contradiction.
Qed.
Lemma run_not_fin (s : exec) n ok : Inv s -> In n (running s) -> ~ In (n, ok) (fin s).
Proof.
  intros I H C. pose proof (i_nodup _ _ _ _ _ _ I) as ND. unfold live in ND. apply NoDup_app_r in ND.
  apply (NoDup_app_disj _ _ n ND H). apply in_map_iff. exists (n, ok). auto.
Qed.
(** A running command has not finished. *)
Lemma run_unfinished (s : exec) n : Inv s -> In n (running s) -> trans g0 n = TNone -> ~ In (Finish n true) (hist s).
Proof.
  intros I H T C. destruct (i_dup _ _ _ _ _ _ I n C (run_live s n H)) as [D|D]; [|exact (run_not_fin s n true I H D)].
  destruct (i_trans _ _ _ _ _ _ I n) as [[_ [Q _]]|Q]; congruence.
Qed.
Lemma ordered_started (s : exec) x n : Inv s -> In (Start x) (hist s) -> direct g0 n x -> n <> root -> In (Finish n true) (hist s).
Proof.
  intros I H D Nr. apply in_split in H. destruct H as [h1 [h2 E]].
  destruct (ordered_split work keep_going g0 root w0 _ h1 x h2 (i_hist _ _ _ _ _ _ I) E) as [O _]. rewrite E. apply in_or_app. right. right. exact (O n D Nr).
Qed.
Lemma run_started (s : exec) n : Inv s -> In n (running s) -> In (Start n) (hist s).
Proof.
  intros I H. apply starts_pos. rewrite (i_run _ _ _ _ _ _ I n (or_introl H)). lia.
Qed.
Lemma maker_out (s : exec) f : Inv s -> temp f -> In (maker f) (running s) -> In f (outputs kind_of exclusion (gr s) (maker f)).
Proof.
  intros I T R. destruct (Mk f T) as [_ [M1 [_ [_ [M4 [M5 _]]]]]].
  assert (In (maker f) nodes) as Hn by (apply (i_sub _ _ _ _ _ _ I), run_live, R).
  assert (maker f <> root) as Nr by (intros E; pose proof (p_nodup _ _ _ PG) as ND; apply NoDup_cons_iff in ND; rewrite E in Hn; tauto).
  destruct (M5 Hn) as [e [E1 [E2 E3]]].
  unfold outputs. apply filter_In. split.
  - destruct (i_orig _ _ _ _ _ _ I e E1) as [X|[X _]]; [congruence| |exfalso; rewrite E2 in X; exact (run_unfinished s _ I R (M4 Hn) X)].
    unfold targets, out_edges. apply in_map_iff. exists e. split; [exact E3|]. apply filter_In. split; [exact X|]. apply Nat.eqb_eq. exact E2.
  - rewrite M1. cbn [andb]. destruct (trans (gr s) f) eqn:Tf; try reflexivity. exfalso.
    destruct (i_trans _ _ _ _ _ _ I f) as [[_ [_ X]]|X]; [|rewrite Tf in X; destruct T; congruence].
    pose proof (i_ran _ _ _ _ _ _ I f X) as X1. apply starts_pos in X1.
    apply (run_unfinished s _ I R (M4 Hn)). apply (ordered_started s f _ I X1); [exists e; auto|exact Nr].
Qed.

Lemma work_made (s : exec) n w' ok x : Inv s -> work (gr s) n (ws s) w' ok -> temp x -> In n (running s) -> n <> x -> n <> maker x ->
  there w' x = there (ws s) x.
Proof.
  intros I W T R N1 N2.
  assert (inb x (outputs kind_of exclusion (gr s) n) = false) as O.
  { apply inb_nIn. intros C. apply (outputs_direct s n x I) in C. destruct (Mk x T) as [_ [_ [_ [_ [_ [_ M6]]]]]].
    destruct (M6 n C) as [E|E]; [|contradiction]. pose proof (i_sub _ _ _ _ _ _ I n (run_live s n R)) as X.
    pose proof (p_nodup _ _ _ PG) as ND. apply NoDup_cons_iff in ND. rewrite E in X. tauto. }
  destruct W; cbn [there]; try reflexivity.
  - rewrite O. reflexivity.
  - rewrite O. reflexivity.
  - unfold upd. rewrite (proj2 (Nat.eqb_neq x n)) by congruence. reflexivity.
Qed.

Lemma starts_finish f n ok h : starts f (Finish n ok :: h) = starts f h.
Proof. rewrite starts_cons. reflexivity. Qed.

Lemma J_step (s s' : exec) : Inv s -> Inv s' -> J s -> step work keep_going s s' -> J s'.
Proof.
  intros I I' j H. apply step_shape in H.
  destruct H as [[E1 [E2 E3]]|[[n [E1 [E2 E3]]]|[n [ok [l [r [Ru [Ru' [W Hh]]]]]]]]].
  - destruct j. split; rewrite ?E1, ?E2, ?E3; auto.
  - destruct j as [j1 j2 j3 j4 j5 j6 j7 j8]. split; rewrite ?E1, ?E2, ?E3; auto.
    + intros m Hm. right. exact (j1 m Hm).
    + intros m Hm. right. exact (j2 m Hm).
    + intros c H1 H2 [H3|H3]; [discriminate|exact (j4 c H1 H2 H3)].
    + intros f T Hs. apply (j5 f T). rewrite starts_cons in Hs. lia.
    + intros f T Hs Hr Hf. assert (f <> n) as D by (intros ->; apply Hr; left; reflexivity). apply (j7 f T).
      * rewrite starts_cons in Hs. rewrite (proj2 (Nat.eqb_neq n f)) in Hs by congruence. exact Hs.
      * intros C. apply Hr. right. exact C.
      * intros C. apply Hf. right. exact C.
  - destruct j as [j1 j2 j3 j4 j5 j6 j7 j8].
    assert (In n (running s)) as Rn by (rewrite Ru; apply in_elt).
    assert (In n nodes) as Nn by (apply (i_sub _ _ _ _ _ _ I), run_live, Rn).
    assert (n <> root) as Nr by (intros E; pose proof (p_nodup _ _ _ PG) as ND; apply NoDup_cons_iff in ND; rewrite E in Nn; tauto).
    assert (forall f, temp f -> kind_of n = KCmd -> n <> f) as Dk by (intros f T K ->; destruct (Mk f T) as [M _]; contradiction).
    assert (forall f, In f (running s) -> f <> n -> In f (l ++ r)) as Rl.
    { intros f Hf D. rewrite Ru in Hf. apply in_app_or in Hf. apply in_or_app. destruct Hf as [Hf|[Hf|Hf]]; [auto|congruence|auto]. }
    split; rewrite ?Hh, ?Ru'.
    + intros m Hm. destruct W; cbn [ran] in Hm; try (right; exact (j1 m Hm)). destruct Hm as [<-|Hm]; [left; reflexivity|right; exact (j1 m Hm)].
    + intros m Hm. destruct W; cbn [broke] in Hm; try (right; exact (j2 m Hm)). destruct Hm as [<-|Hm]; [left; reflexivity|right; exact (j2 m Hm)].
    + intros m Hm. destruct W; cbn [skp] in Hm.
      * apply done_skips_le in Hm. exact (j3 m Hm).
      * apply done_skips_le, run_skips_le in Hm. exact (j3 m Hm).
      * apply run_skips_le in Hm. exact (j3 m Hm).
      * destruct (skp (ws s) n); [exact (j3 m Hm)|]. apply clear_skips_le in Hm. exact (j3 m Hm).
      * destruct (skp (ws s) n); [exact (j3 m Hm)|]. apply clear_skips_le in Hm. exact (j3 m Hm).
      * destruct (skp (ws s) n); [exact (j3 m Hm)|]. apply clear_skips_le in Hm. exact (j3 m Hm).
    + intros c Kc Sc [Hc|Hc].
      * injection Hc as -> ->. inversion W as [K S|same K S| |K _|K _ _|]; subst; cbn [ran]; try contradiction.
        -- apply j3 in S. congruence.
        -- left. reflexivity.
      * pose proof (j4 c Kc Sc Hc) as Q. destruct W; cbn [ran]; auto. right. exact Q.
    + intros f T. rewrite starts_finish. intros Hs Hy.
      destruct (Nat.eq_dec n f) as [->|D].
      { inversion W as [K|same K|same left K|K Tr|K Tr|K Tr]; subst; cbn [there] in *; try (destruct (Mk f T) as [M _]; contradiction).
        - match goal with E : _ = ws s' |- _ => rewrite <- E in * end. cbn [there ran broke] in *. exact (j5 f T Hs Hy).
        - exfalso. pose proof (i_run _ _ _ _ _ _ I f (or_introl Rn)) as X. unfold base in X. rewrite Tr in X. lia.
        - match goal with E : _ = ws s' |- _ => rewrite <- E in * end. cbn [there ran broke] in *. exact (j5 f T Hs Hy). }
      destruct (Nat.eq_dec n (maker f)) as [E|D2].
      { pose proof (maker_out s f I T ltac:(rewrite <- E; exact Rn)) as O. rewrite <- E in O. apply inb_In in O.
        destruct (Mk f T) as [_ [_ [Km _]]]. rewrite <- E in Km.
        inversion W as [K S|same K S|same left K S|K Tr|K Tr|K Tr]; subst; try contradiction.
        - rewrite <- H in *. cbn [there ran broke] in *. exact (j5 f T Hs Hy).
        - cbn [there]. rewrite O. reflexivity.
        - exfalso. rewrite <- H in Hy. cbn [ran broke] in Hy. destruct Hy as [[_ Hy]|Hy]; [apply Hy; left; reflexivity|].
          apply j1 in Hy. apply (run_unfinished s (maker f) I Rn); [apply (Mk f T); apply (i_sub _ _ _ _ _ _ I), run_live; exact Rn|exact Hy]. }
      rewrite (work_made s n _ ok f I W T Rn D D2). apply (j5 f T Hs).
      destruct W; cbn [ran broke] in Hy; auto.
      * destruct Hy as [Hy|[Hy|Hy]]; [auto|contradiction|auto].
      * destruct Hy as [[H1 H2]|Hy]; [left; split; [exact H1|]; intros C; apply H2; right; exact C|auto].
    + intros f T Ht.
      destruct W as [K S|same K S|same left K S|K Tr|K Tr Th|K Tr Th]; cbn [there row broke] in *.
      * destruct (j6 f T Ht) as [Q|Q]; [left|auto]. unfold skip_rows. destruct (transient_ n); [|exact Q]. unfold upd.
        rewrite (proj2 (Nat.eqb_neq f n)) by (apply not_eq_sym, Dk; assumption). exact Q.
      * apply orb_true_iff in Ht. destruct Ht as [Ht|Ht].
        -- left. apply inb_In in Ht. destruct (outputs_direct s n f I Ht) as [e [X1 [X2 X3]]].
           destruct (Mk f T) as [_ [M1 [_ [M3 [_ [_ M6]]]]]]. destruct (M6 n ltac:(exists e; auto)) as [C|C]; [contradiction|].
           unfold done_rows. rewrite C, M3. rewrite <- C.
           assert (inb f (marked kind_of exclusion (gr s) n) = true) as ->.
           { apply inb_In. unfold outputs in Ht. apply filter_In in Ht. unfold marked. apply filter_In. tauto. }
           cbn [orb andb]. apply negb_true_iff, Nat.eqb_neq, not_eq_sym, Dk; assumption.
        -- destruct (j6 f T Ht) as [Q|Q]; [left|auto]. unfold done_rows. destruct (transient_ n); [|exact Q]. rewrite Q, orb_true_r. cbn [andb].
           apply negb_true_iff, Nat.eqb_neq, not_eq_sym, Dk; assumption.
      * destruct (inb f (outputs kind_of exclusion (gr s) n)) eqn:O.
        -- right. left. apply inb_In in O. destruct (outputs_direct s n f I O) as [e [X1 [X2 X3]]].
           destruct (Mk f T) as [_ [_ [_ [_ [_ [_ M6]]]]]]. destruct (M6 n ltac:(exists e; auto)); [contradiction|assumption].
        -- destruct (j6 f T Ht) as [Q|Q]; [auto|right; right; exact Q].
      * exact (j6 f T Ht).
      * unfold upd in *. destruct (f =? n); [discriminate|]. exact (j6 f T Ht).
      * exact (j6 f T Ht).
    + intros f T. rewrite starts_finish. intros Hs Hr Hf.
      destruct (Nat.eq_dec n f) as [->|D].
      { inversion W as [K S|same K S|same left K S|K Tr|K Tr Th|K Tr Th]; subst; try (destruct (Mk f T) as [M _]; contradiction).
        - exfalso. pose proof (i_run _ _ _ _ _ _ I f (or_introl Rn)) as X. unfold base in X. destruct (trans (gr s) f); try lia. contradiction.
        - cbn [there row]. rewrite !upd_same. auto.
        - exfalso. apply Hf. left. reflexivity. }
      assert (~ In f (running s)) as Hr2 by (intros C; apply Hr, Rl; [exact C|congruence]).
      assert (~ In (Finish f false) (hist s)) as Hf2 by (intros C; apply Hf; right; exact C).
      destruct (j7 f T Hs Hr2 Hf2) as [Q1 Q2].
      assert (~ In f (targets (gr s) n)) as Nt.
      { intros C. destruct (target_edge s n f C) as [e [X1 [X2 X3]]]. pose proof (i_dst _ _ _ _ _ _ I e X1) as X4. rewrite X3 in X4.
        apply lists_in in X4. assert (starts f (hist s) = base s f) as X5 by (apply (i_starts _ _ _ _ _ _ I); tauto).
        unfold base in X5. destruct (trans (gr s) f); lia. }
      assert (inb f (outputs kind_of exclusion (gr s) n) = false) as O1.
      { apply inb_nIn. intros C. apply Nt. unfold outputs in C. apply filter_In in C. tauto. }
      assert (inb f (marked kind_of exclusion (gr s) n) = false) as O2.
      { apply inb_nIn. intros C. apply Nt. unfold marked in C. apply filter_In in C. tauto. }
      destruct W; cbn [there row]; rewrite ?O1.
      * split; [exact Q1|]. unfold skip_rows. destruct (transient_ n); [|exact Q2]. unfold upd. destruct (f =? n); [reflexivity|exact Q2].
      * split; [exact Q1|]. unfold done_rows. destruct (transient_ n); [|exact Q2]. rewrite O2, Q2. reflexivity.
      * auto.
      * auto.
      * unfold upd. rewrite (proj2 (Nat.eqb_neq f n)) by congruence. auto.
      * auto.
    + intros x Nt Hx. destruct (j8 x Nt Hx) as [Q|[m [Q1 Q2]]].
      * destruct W as [K S|same K S|same left K S|K Tr|K Tr Th|K Tr Th]; cbn [there broke]; auto.
        -- rewrite Q, orb_true_r. auto.
        -- destruct (inb x (outputs kind_of exclusion (gr s) n)) eqn:O; [|auto]. right. exists n. split; [left; reflexivity|].
           apply inb_In in O. exact (outputs_direct s n x I O).
        -- left. unfold upd. destruct (Nat.eqb_spec x n) as [->|D]; [|exact Q]. exfalso. apply Nt. split; [exact Nn|].
           destruct (i_trans _ _ _ _ _ _ I n) as [[_ [X _]]|X]; [exact X|]. exfalso. apply (p_trans _ _ _ PG n). congruence.
      * right. exists m. split; [|exact Q2]. destruct W; cbn [broke]; auto. right. exact Q1.
Qed.

Lemma start_ws : ws (start jobs g0 w0) = w0 /\ running (start jobs g0 w0) = [].
Proof. unfold start. destruct (node_list g0) as [|r l]; [auto|]. destruct (obind _ _); auto. Qed.

Lemma J_start : J (start jobs g0 w0).
Proof.
  destruct start_ws as [E1 E2]. pose proof (start_hist g0 jobs w0) as E3. destruct Fresh as [F1 F2].
  split; rewrite ?E1, ?E2, ?E3, ?F1, ?F2; cbn; auto; try contradiction; try (intros; discriminate).
  intros f _ _ [[H _]|[]]. exact H.
Qed.

Lemma reach_J s : reach s -> J s.
Proof.
  intros R. remember (start jobs g0 w0) as s0 eqn:E0. induction R as [s|s s' s'' R IH H]; subst.
  - exact J_start.
  - assert (Inv s') as I' by exact (reach_Inv _ _ _ _ _ PG _ Jpos _ _ R).
    apply (J_step s' s''); [exact I'| |exact (IH eq_refl)|exact H]. exact (step_inv _ _ _ _ _ PG _ Jpos _ _ I' H).
Qed.

Lemma started_in s n : reach s -> In (Start n) (hist s) -> In n nodes.
Proof.
  intros R. remember (start jobs g0 w0) as s0 eqn:E0. induction R as [s|s s' s'' R IH H]; subst.
  - rewrite start_hist. intros [].
  - intros St. pose proof (step_inv _ _ _ _ _ PG _ Jpos _ _ (reach_Inv _ _ _ _ _ PG _ Jpos _ _ R) H) as I.
    destruct (step_shape _ _ H) as [(_ & E & _)|[(m & _ & E & Er)|(m & ok & l & r & _ & _ & _ & E)]]; rewrite E in St.
    + auto.
    + destruct St as [St|St]; [|auto]. injection St as ->. apply (i_sub _ _ _ _ _ _ I), run_live. rewrite Er. left. reflexivity.
    + destruct St as [St|St]; [discriminate|auto].
Qed.

(** While a user runs, the file waits to be deleted. *)
Lemma user_running s f u : reach s -> temp f -> direct g0 f u -> In u (running s) -> starts f (hist s) = 1.
Proof.
  intros R [Hn T] [e [E1 [E2 E3]]] Hu. pose proof (reach_Inv _ _ _ _ _ PG _ Jpos _ _ R) as I.
  assert (f <> root) as Nr by (intros E; pose proof (p_nodup _ _ _ PG) as ND; apply NoDup_cons_iff in ND; rewrite E in Hn; tauto).
  assert (trans g0 u = TNone) as Tu.
  { rewrite <- E3. apply (p_flip _ _ _ PG e E1). rewrite E2. exact T. }
  pose proof (run_unfinished s u I Hu Tu) as Nf.
  assert (In (Finish f true) (hist s)) as Ff by (apply (ordered_started s u f I (run_started s u I Hu)); [exists e; auto|exact Nr]).
  pose proof (i_ran _ _ _ _ _ _ I f Ff) as P.
  assert (starts f (hist s) <> 2) as N2.
  { intros C. assert (In (Start f) (hist s)) as S by (apply starts_pos; lia).
    apply in_split in S. destruct S as [h1 [h2 E]].
    assert (exists h1' h2', hist s = h1' ++ Start f :: h2' /\ 0 < starts f h2') as [a [b [Ea Eb]]].
    { destruct (Nat.eq_dec (starts f h2) 0) as [Z|Z]; [|exists h1, h2; split; [exact E|lia]].
      rewrite E, starts_app, starts_cons, Nat.eqb_refl, Z in C. assert (0 < starts f h1) as C1 by lia. apply starts_pos in C1.
      apply in_split in C1. destruct C1 as [a [b Eb]]. exists a, (b ++ Start f :: h2). split; [rewrite E, Eb, <- app_assoc; reflexivity|].
      rewrite starts_app, starts_cons, Nat.eqb_refl. lia. }
    destruct (ordered_split work keep_going g0 root w0 _ a f b (i_hist _ _ _ _ _ _ I) Ea) as [_ O]. apply Nf. rewrite Ea. apply in_or_app. right. right.
    apply (O Eb). exists e. auto. }
  pose proof (starts_bound _ _ _ _ _ PG _ Jpos _ s f R) as B. rewrite T in B. lia.
Qed.

Theorem user_finds s f u : reach s -> temp f -> direct g0 f u -> In u (running s) ->
  there w0 f = true \/ In (maker f) (ran (ws s)) -> there (ws s) f = true.
Proof.
  intros R T D Hu Hy. pose proof (reach_J s R) as j. apply (j_there _ j f T).
  - rewrite (user_running s f u R T D Hu). lia.
  - destruct Hy as [Hy|Hy]; [left; split; [exact Hy|]|right; exact Hy]. intros C. apply (j_broke _ j) in C.
    pose proof (reach_Inv _ _ _ _ _ PG _ Jpos _ _ R) as I.
    destruct (Mk f T) as [_ [_ [_ [_ [M4 [M5 _]]]]]].
    assert (In (maker f) nodes) as Hn.
    { destruct (i_failed _ _ _ _ _ _ I _ C) as [L _]. apply (i_sub _ _ _ _ _ _ I), live_in. destruct L; eauto. }
    assert (forall x, In x nodes -> x <> root) as Nr by (intros x Hx ->; pose proof (p_nodup _ _ _ PG) as ND; apply NoDup_cons_iff in ND; tauto).
    assert (depends g0 root (maker f) u) as Dp.
    { apply dep_trans with f; [apply dep_direct; [exact (M5 Hn)|exact (Nr _ Hn)]|exact D|exact (Nr f (proj1 T))]. }
    exact (failed_blocks _ _ _ _ _ PG _ Jpos _ s (maker f) u R (M4 Hn) C Dp (run_started s u I Hu)).
Qed.

Theorem maker_ran s f u : reach s -> temp f -> direct g0 f u -> In u (running s) -> In (maker f) nodes ->
  skp w0 (maker f) = false -> In (maker f) (ran (ws s)).
Proof.
  intros R T D Hu Hn Sk. pose proof (reach_J s R) as j. pose proof (reach_Inv _ _ _ _ _ PG _ Jpos _ _ R) as I.
  assert (forall x, In x nodes -> x <> root) as Nr by (intros x Hx ->; pose proof (p_nodup _ _ _ PG) as ND; apply NoDup_cons_iff in ND; tauto).
  destruct (Mk f T) as [_ [_ [M2 [_ [M4 [M5 _]]]]]]. apply (j_fin _ j); [exact M2|exact Sk|].
  apply (ordered_started s f); [exact I| |exact (M5 Hn)|exact (Nr _ Hn)].
  apply starts_pos. rewrite (user_running s f u R T D Hu). lia.
Qed.

Theorem gone_at_end s f : reach s -> at_ s = Returned 0 -> temp f -> there (ws s) f = false /\ row (ws s) f = false.
Proof.
  intros R A T. pose proof (reach_J s R) as j. pose proof (reach_Inv _ _ _ _ _ PG _ Jpos _ _ R) as I. apply (j_del _ j f T).
  - destruct (rc0_all _ _ _ _ _ PG _ Jpos _ s R A f (proj1 T)) as [_ X]. rewrite (proj2 T) in X. exact X.
  - destruct (i_ret _ _ _ _ _ _ I _ A) as [_ [Z _]]. destruct (Z eq_refl) as [_ [_ Ac]]. pose proof (i_active _ _ _ _ _ _ I) as IA.
    rewrite Ac in IA. destruct (running s); [intros []|cbn in IA; lia].
  - exact (rc0_no_failure _ _ _ _ _ PG _ Jpos _ s R A f).
Qed.

(** Without ^o, what depends on a change is not skipped. *)
Section Changed.
Hypothesis No_o : forall n, caret_o n = false.
Variable chg : id -> Prop.
Definition carry (a n : id) : Prop :=
  In {| src := a; dst := n; normal := true |} (edges g0) /\ a <> root /\ (kind_of a = KCmd -> real kind_of exclusion n = true /\ trans g0 a = TNone).
Hypothesis Chg : forall n, chg n -> skp w0 n = false \/ exists a, chg a /\ carry a n.

Lemma out_edges_in g e : In e (edges g) -> In e (out_edges g (src e)).
Proof. intros H. unfold out_edges. apply filter_In. split; [exact H|]. apply Nat.eqb_refl. Qed.

Lemma chg_step (s s' : exec) : Inv s -> J s -> step work keep_going s s' ->
  (forall a n, chg a -> carry a n -> In (Finish a true) (hist s) -> skp (ws s) n = false) ->
  (forall a n, chg a -> carry a n -> In (Finish a true) (hist s') -> skp (ws s') n = false).
Proof.
  intros I j St IH a n Ca [E [Nr Hr]] Hf.
  assert (forall x, chg x -> In (Start x) (hist s) -> skp (ws s) x = false) as K1.
  { intros x Cx Sx. destruct (Chg x Cx) as [H|[y [Cy Hy]]].
    - destruct (skp (ws s) x) eqn:Q; [|reflexivity]. apply (j_skp _ j) in Q. congruence.
    - apply (IH y x Cy Hy). destruct Hy as [Ey [Ny _]]. apply (ordered_started s x y I Sx); [|exact Ny]. exists {| src := y; dst := x; normal := true |}. auto. }
  destruct (step_shape _ _ St) as [(E1 & E2 & _)|[(m & E1 & E2 & _)|(m & ok & l & r & R1 & _ & W & E2)]].
  - rewrite E1. rewrite E2 in Hf. exact (IH a n Ca (conj E (conj Nr Hr)) Hf).
  - rewrite E1. rewrite E2 in Hf. destruct Hf as [Hf|Hf]; [discriminate|]. exact (IH a n Ca (conj E (conj Nr Hr)) Hf).
  - assert (forall x, skp (ws s) x = false -> skp (ws s') x = false) as Mono.
    { intros x Hx. destruct (skp (ws s') x) eqn:Q; [|reflexivity]. rewrite <- Hx. symmetry.
      destruct W; cbn [skp] in Q;
        [apply done_skips_le in Q|apply done_skips_le, run_skips_le in Q|apply run_skips_le in Q
        |destruct (skp (ws s) m); [|apply clear_skips_le in Q]..]; exact Q. }
    destruct (in_dec (fun x y : event => ltac:(decide equality; (apply Nat.eq_dec || apply bool_dec))) (Finish a true) (hist s)) as [Old|New].
    { apply Mono. exact (IH a n Ca (conj E (conj Nr Hr)) Old). }
    rewrite E2 in Hf. destruct Hf as [Hf|Hf]; [|contradiction]. injection Hf as -> ->.
    assert (In a (running s)) as Ra by (rewrite R1; apply in_elt).
    pose proof (K1 a Ca (run_started s a I Ra)) as Ka.
    assert (In {| src := a; dst := n; normal := true |} (edges (gr s))) as Eg.
    { destruct (i_orig _ _ _ _ _ _ I _ E Nr) as [H|[H _]]; [exact H|contradiction]. }
    pose proof (out_edges_in _ _ Eg) as Oe. cbn [src] in Oe.
    assert (forall sk : id -> bool, clear_skips (gr s) a sk n = false) as Cl.
    { intros sk. unfold clear_skips. apply andb_false_iff. right. apply negb_false_iff, existsb_exists. eexists. split; [exact Oe|].
      cbn [normal dst]. apply Nat.eqb_refl. }
    inversion W as [Kc Sk|same Kc Sk|same left Kc Sk|Kc Tc|Kc Tc Th|Kc Tc Th]; subst; cbn [skp]; try congruence.
    + destruct (Hr Kc) as [Rn Ta].
      destruct (done_skips _ _ _ _) eqn:Q; [|reflexivity]. apply done_skips_le in Q. unfold run_skips in Q. rewrite No_o in Q.
      assert (inb n (outputs kind_of exclusion (gr s) a) = true) as Ho.
      { apply inb_In. unfold outputs. apply filter_In. split; [unfold targets; apply in_map_iff; eexists; split; [|exact Oe]; reflexivity|].
        rewrite Rn. cbn [andb]. destruct (trans (gr s) n) eqn:Tn; try reflexivity. exfalso.
        destruct (i_trans _ _ _ _ _ _ I n) as [(_ & _ & Fn)|Tn0].
        - apply New. apply (ordered_started s n a I); [|exists {| src := a; dst := n; normal := true |}; auto|exact Nr].
          apply starts_pos. exact (i_ran _ _ _ _ _ _ I n Fn).
        - rewrite Tn in Tn0. symmetry in Tn0. exact (p_trans _ _ _ PG n Tn0). }
      rewrite Ho, andb_false_r in Q. discriminate.
    + rewrite Ka. apply Cl.
    + rewrite Ka. apply Cl.
Qed.

Lemma chg_started s n : reach s -> chg n -> In (Start n) (hist s) -> skp (ws s) n = false.
Proof.
  intros R Cn Sn.
  assert (forall a n, chg a -> carry a n -> In (Finish a true) (hist s) -> skp (ws s) n = false) as K2.
  { clear n Cn Sn. remember (start jobs g0 w0) as s0 eqn:E0. induction R as [s|s s' s'' R IH H]; subst.
    - intros a n _ _ H. rewrite start_hist in H. destruct H.
    - apply (chg_step s'); [exact (reach_Inv _ _ _ _ _ PG _ Jpos _ _ R)|exact (reach_J _ R)|exact H|exact (IH eq_refl)]. }
  destruct (Chg n Cn) as [H|[y [Cy Hy]]].
  - destruct (skp (ws s) n) eqn:Q; [|reflexivity]. apply (j_skp _ (reach_J s R)) in Q. congruence.
  - apply (K2 y n Cy Hy). destruct Hy as [Ey [Ny _]]. apply (ordered_started s n y (reach_Inv _ _ _ _ _ PG _ Jpos _ _ R) Sn); [|exact Ny].
    exists {| src := y; dst := n; normal := true |}. auto.
Qed.

(** A command that depends on a change and has finished was run. *)
Theorem changed_ran s n : reach s -> chg n -> kind_of n = KCmd -> In (Finish n true) (hist s) -> In n (ran (ws s)).
Proof.
  intros R Cn Kn. remember (start jobs g0 w0) as s0 eqn:E0. induction R as [s|s s' s'' R IH H]; subst.
  - intros F. rewrite start_hist in F. destruct F.
  - specialize (IH eq_refl). intros F. pose proof (reach_Inv _ _ _ _ _ PG _ Jpos _ _ R) as I.
    destruct (step_shape _ _ H) as [(E1 & E2 & _)|[(m & E1 & E2 & _)|(m & ok & l & r & R1 & _ & W & E2)]].
    + rewrite E1. rewrite E2 in F. auto.
    + rewrite E1. rewrite E2 in F. destruct F as [F|F]; [discriminate|auto].
    + rewrite E2 in F. destruct F as [F|F].
      * injection F as -> ->. assert (In n (running s')) as Rn by (rewrite R1; apply in_elt).
        pose proof (chg_started s' n R Cn (run_started s' n I Rn)) as Sk.
        inversion W; subst; cbn [ran]; try congruence. left. reflexivity.
      * destruct W; cbn [ran]; auto. right. auto.
Qed.
End Changed.
End Run.
