(** Paths, sets of paths, and the invariant of the histories of variants. *)
From Verif Require Import Base ModeModel ModeSpec.

Lemma path_eqb_eq p q : path_eqb p q = true <-> p = q.
Proof.
  revert q; induction p as [|a p IH]; intros [|c q]; cbn; try (split; congruence).
  rewrite andb_true_iff, bytes_eqb_eq, IH. split; [intros [-> ->]; reflexivity|intros E; injection E; auto].
Qed.
Lemma path_eqb_neq p q : path_eqb p q = false <-> p <> q.
Proof. rewrite <- not_true_iff_false, path_eqb_eq. tauto. Qed.
Lemma path_eqb_refl p : path_eqb p p = true.
Proof. apply path_eqb_eq; reflexivity. Qed.
Lemma mem_In p l : mem p l = true <-> In p l.
Proof.
  unfold mem. rewrite existsb_exists. split.
  - intros [q [H E]]. apply path_eqb_eq in E. subst q. exact H.
  - intros H. exists p. split; [exact H|apply path_eqb_refl].
Qed.
Lemma mem_not p l : mem p l = false <-> ~ In p l.
Proof. rewrite <- not_true_iff_false, mem_In. tauto. Qed.
Lemma In_dec_path (p : path) l : In p l \/ ~ In p l.
Proof. destruct (mem p l) eqn:E; [left; apply mem_In|right; apply mem_not]; exact E. Qed.
Lemma In_add p q l : In q (add p l) <-> q = p \/ In q l.
Proof.
  unfold add. destruct (mem p l) eqn:E; cbn.
  - apply mem_In in E. split; [auto|intros [-> |H]; assumption].
  - split; intros [H|H]; auto.
Qed.
Lemma In_add_last p q l : In q (add_last p l) <-> q = p \/ In q l.
Proof.
  unfold add_last. destruct (mem p l) eqn:E.
  - apply mem_In in E. split; [auto|intros [-> |H]; assumption].
  - rewrite in_app_iff. cbn. split; intros H; intuition auto.
Qed.
Lemma In_del p q l : In q (del p l) <-> q <> p /\ In q l.
Proof.
  unfold del. rewrite filter_In, negb_true_iff, path_eqb_neq. split; intros [A C]; split; auto.
Qed.
Lemma strip_Some d p r : strip d p = Some r <-> p = d ++ r.
Proof.
  revert p; induction d as [|a d IH]; intros p; cbn.
  - split; [intros E; injection E; auto|intros ->; reflexivity].
  - destruct p as [|c p]; [split; discriminate|].
    destruct (bytes_eqb a c) eqn:E.
    + apply bytes_eqb_eq in E. subst c. rewrite IH. split; [intros ->; reflexivity|intros H; injection H; auto].
    + split; [discriminate|]. intros H. injection H as <- _. rewrite bytes_eqb_refl in E. discriminate.
Qed.
Lemma under_iff d p : under d p = true <-> exists r, p = d ++ r.
Proof.
  unfold under. destruct (strip d p) as [r|] eqn:E.
  - apply strip_Some in E. split; [eauto|reflexivity].
  - split; [discriminate|]. intros [r H]. apply strip_Some in H. congruence.
Qed.
Lemma under_not d p : under d p = false <-> forall r, p <> d ++ r.
Proof.
  rewrite <- not_true_iff_false, under_iff. split; [intros H r E; eauto|intros H [r E]; eapply H; eauto].
Qed.
Lemma below_iff d p : below d p = true <-> exists c r, p = d ++ c :: r.
Proof.
  unfold below. destruct (strip d p) as [[|c r]|] eqn:E.
  - apply strip_Some in E. split; [discriminate|]. intros [c [r H]]. rewrite H in E.
    apply app_inv_head in E. discriminate.
  - apply strip_Some in E. split; [eauto|reflexivity].
  - split; [discriminate|]. intros [c [r H]]. apply strip_Some in H. congruence.
Qed.
Lemma below_under d p : below d p = true -> under d p = true.
Proof. rewrite below_iff, under_iff. intros [c [r ->]]. eauto. Qed.
Lemma rest_app v s : rest v (v ++ s) = s.
Proof. unfold rest. replace (strip v (v ++ s)) with (Some s); [reflexivity|]. symmetry. apply strip_Some. reflexivity. Qed.
Lemma file_eqb_eq f g : file_eqb f g = true <-> f = g.
Proof.
  unfold file_eqb. rewrite andb_true_iff, path_eqb_eq, bytes_eqb_eq. destruct f, g; cbn.
  split; [intros [-> ->]; reflexivity|intros E; injection E; auto].
Qed.
Lemma fmem_In f l : fmem f l = true <-> In f l.
Proof.
  unfold fmem. rewrite existsb_exists. split.
  - intros [q [H E]]. apply file_eqb_eq in E. subst q. exact H.
  - intros H. exists f. split; [exact H|apply file_eqb_eq; reflexivity].
Qed.
Lemma lookup_In {A} p (l : list (path * A)) x : lookup p l = Some x -> In (p, x) l.
Proof.
  induction l as [|[q y] t IH]; cbn; [discriminate|]. destruct (path_eqb p q) eqn:E.
  - intros H. injection H as ->. apply path_eqb_eq in E. subst q. auto.
  - auto.
Qed.
Lemma lookup_None {A} p (l : list (path * A)) : lookup p l = None <-> forall x, ~ In (p, x) l.
Proof.
  induction l as [|[q y] t IH]; cbn; [split; auto|]. destruct (path_eqb p q) eqn:E.
  - apply path_eqb_eq in E. subst q. split; [discriminate|]. intros H. elim (H y). auto.
  - rewrite IH. apply path_eqb_neq in E. split; intros H x; [intros [C|C]; [congruence|exact (H x C)]|intros C; apply (H x); auto].
Qed.
Lemma lookup_filter {A} (f : path -> bool) p (l : list (path * A)) :
  lookup p (filter (fun c => f (fst c)) l) = if f p then lookup p l else None.
Proof.
  induction l as [|[q y] t IH]; cbn; [destruct (f p); reflexivity|].
  destruct (f q) eqn:E; cbn; destruct (path_eqb p q) eqn:E2; rewrite ?IH; auto.
  - apply path_eqb_eq in E2. subst q. rewrite E. reflexivity.
  - apply path_eqb_eq in E2. subst q. rewrite E. reflexivity.
Qed.
Lemma lookup_app {A} p (l m : list (path * A)) :
  lookup p (l ++ m) = match lookup p l with Some x => Some x | None => lookup p m end.
Proof. induction l as [|[q y] t IH]; cbn; [reflexivity|]. destruct (path_eqb p q); auto. Qed.
Lemma lookup_map {A C} (f : A -> C) p (l : list (path * A)) :
  lookup p (map (fun c => (fst c, f (snd c))) l) = option_map f (lookup p l).
Proof. induction l as [|[q y] t IH]; cbn; [reflexivity|]. destruct (path_eqb p q); auto. Qed.

(** One name. *)
Lemma one_under (d v s : path) : length d = 1 -> length v = 1 -> under d (v ++ s) = true -> d = v.
Proof.
  destruct d as [|a [|]], v as [|c [|]]; cbn; try discriminate. intros _ _ H.
  apply under_iff in H. destruct H as [r H]. cbn in H. injection H as -> _. reflexivity.
Qed.
Lemma one_app (v s d r : path) : length d = 1 -> length v = 1 -> v ++ s = d ++ r -> v = d /\ s = r.
Proof.
  destruct d as [|a [|]], v as [|c [|]]; cbn; try discriminate. intros _ _ H. injection H as -> ->. auto.
Qed.

(** [owner] is the nearest one upwards. *)
Lemma owner_Some l pre p v : owner l pre p = Some v -> In v l /\ exists r m, p = r ++ m /\ v = pre ++ r.
Proof.
  revert pre; induction p as [|c p IH]; intros pre; cbn.
  - destruct (mem pre l) eqn:E; [|discriminate]. intros H. injection H as <-. apply mem_In in E.
    split; [exact E|]. exists [], []. split; [reflexivity|symmetry; apply app_nil_r].
  - destruct (owner l (pre ++ [c]) p) as [u|] eqn:E.
    + intros H. injection H as ->. destruct (IH _ E) as [A [r [m [-> ->]]]]. split; [exact A|].
      exists (c :: r), m. rewrite <- app_assoc. auto.
    + destruct (mem pre l) eqn:E2; [|discriminate]. intros H. injection H as <-. apply mem_In in E2.
      split; [exact E2|]. exists [], (c :: p). split; [reflexivity|symmetry; apply app_nil_r].
Qed.
Lemma owner_prefix l pre r m : In (pre ++ r) l -> exists v, owner l pre (r ++ m) = Some v /\ length (pre ++ r) <= length v.
Proof.
  revert pre; induction r as [|c r IH]; intros pre H.
  - rewrite app_nil_r in *. cbn [app]. destruct m as [|c m]; cbn.
    + apply mem_In in H. rewrite H. eauto.
    + destruct (owner l (pre ++ [c]) m) as [u|] eqn:E.
      * exists u. split; [reflexivity|]. apply owner_Some in E. destruct E as [_ [r' [m' [_ ->]]]].
        rewrite !app_length. lia.
      * apply mem_In in H. rewrite H. eauto.
  - replace (pre ++ c :: r) with ((pre ++ [c]) ++ r) in H by (rewrite <- app_assoc; reflexivity).
    destruct (IH _ H) as [v [E L]]. cbn. rewrite E. exists v. split; [reflexivity|].
    rewrite <- app_assoc in L. exact L.
Qed.
(** In a list of directories of the top and the top. *)
Lemma owner_one l v s : (forall x, In x l -> length x <= 1) -> length v = 1 -> In v l -> owner l [] (v ++ s) = Some v.
Proof.
  intros L1 Lv H. destruct (owner_prefix l [] v s H) as [u [E L]]. rewrite E. f_equal. cbn in L.
  apply owner_Some in E. destruct E as [A [r [m [E ->]]]]. cbn in *. specialize (L1 _ A).
  apply one_app in E; [|lia|lia]. destruct E as [-> _]. reflexivity.
Qed.
Lemma owner_top l s : In [] l -> (forall v, In v l -> v <> [] -> under v s = false) -> owner l [] s = Some [].
Proof.
  intros H N. destruct (owner_prefix l [] [] s H) as [u [E _]]. cbn [app] in E. rewrite E. f_equal.
  apply owner_Some in E. destruct E as [A [r [m [-> ->]]]]. cbn in *. destruct r as [|c r]; [reflexivity|].
  exfalso. specialize (N _ A ltac:(discriminate)). rewrite (proj2 (under_iff _ _)) in N; [discriminate|eauto].
Qed.

(** A directory of a variant that does not need to be parsed: its outputs are
    those of the Tupfile. *)
Definition right (w : world) (b : db) (v s : path) : Prop :=
  In (v ++ s) (ddirs b) /\ forall o, In (v ++ s, o) (dgen b) <-> In o (wtup w s).
Definition marked (w : world) (b : db) (v s : path) : Prop :=
  In s (dcreate b) \/ In s (wdirty w) \/ (In (v ++ s) (dcreate b) /\ In (v ++ s) (ddirs b)).

Definition inside (V : path -> Prop) (ss : list path) (v p : path) : Prop := exists r, p = v ++ r /\ (In r ss \/ V r).

Record Inv (V : path -> Prop) (ss : list path) (w : world) (b : db) (n : notes) : Prop := {
  i_src : srcs w = ss;
  i_outs : forall s o, In o (wtup w s) -> ~ V (s ++ [o]) /\ ~ In (s ++ [o]) ss;
  i_wc : forall d, lookup d (wconf w) <> None -> (d = [] \/ V d) /\ In d (wdirs w);
  i_srcdirs : forall s, In s ss -> In s (wdirs w);
  i_srcd : dvars b <> [] -> forall s, In s ss -> In s (ddirs b);
  i_dirs : forall p, In p (wdirs w) \/ In p (ddirs b) ->
             In p ss \/ V p \/ exists v, In v (dvars b) /\ v <> [] /\ (below v p = true /\ inside V ss v p);
  i_gen : forall g, In g (wgen w) -> In g (dgen b);
  i_gdir : forall g, In g (wgen w) -> In (fst g) (wdirs w);
  i_dgen : forall q o, In (q, o) (dgen b) ->
             exists v s, In v (dvars b) /\ In s ss /\ q = v ++ s /\ ~ V (s ++ [o]) /\ ~ In (s ++ [o]) ss;
  i_root : In [] (dvars b) -> forall v, In v (dvars b) -> v = [];
  i_var : forall v, In v (dvars b) -> v <> [] ->
             V v /\ lookup v (dnode b) <> None /\ forall s, In s ss -> under v s = false;
  i_keys : forall d, In d (dconf b) \/ lookup d (dnode b) <> None -> d = [] \/ V d;
  i_live : forall d t, d <> [] -> lookup d (dnode b) = Some (Some t) -> ~ In d (dconf b) -> In d (dvars b) /\ In d (ddirs b);
  i_ghost : forall d, In d (dvars b) -> d <> [] -> lookup d (dnode b) = Some None -> In d (dconf b);
  i_new : forall d t, d <> [] -> lookup d (dnode b) = Some (Some t) -> In d (dconf b) -> ~ In d (dvars b) -> In d (dcreate b);
  i_gone : forall d, In d (dvars b) -> d <> [] -> ~ In d (ddirs b) ->
             In d (dconf b) /\ lookup d (dnode b) = Some None /\ In d (gone n);
  i_miss : forall d, In d (dvars b) -> d <> [] -> ~ In d (wdirs w) -> In d (away n) \/ In d (gone n);
  i_away : forall d, In d (away n) -> ~ In d (wdirs w);
  i_notes : forall d, In d (away n) \/ In d (gone n) -> V d;
  i_back : forall d, In d (gone n) -> In d (wdirs w) -> In d (back n);
  i_back2 : forall d, In d (back n) -> lookup d (wconf w) <> None;
  i_flag : forall v s, In v (dvars b) -> (v = [] \/ In v (ddirs b)) -> In s ss -> marked w b v s \/ right w b v s;
  i_init : dvars b = [] -> dgen b = [] /\ forall s, In s ss -> In s (dcreate b) \/ ~ In s (ddirs b)
}.

Ltac keep I :=
  destruct I; first [assumption | intros; eauto; fail].

Section Ops.
Variables (V : path -> Prop) (ss : list path) (t0 : path -> list bytes).
Hypothesis P : project V ss t0.

Lemma V_one d : V d -> length d = 1.
Proof. apply (p_one _ _ _ P). Qed.
Lemma V_not_nil d : V d -> d <> [].
Proof. intros H ->. apply V_one in H. discriminate. Qed.

Lemma inv_start : Inv V ss (start ss t0) init quiet_notes.
Proof.
  constructor; cbn; intros; try tauto; try discriminate; auto.
  exact (p_outs _ _ _ P _ _ H).
Qed.

Lemma inv_act w b n o n' : Inv V ss w b n -> allowed V w n o n' -> Inv V ss (act o w) b n'.
Proof.
  intros I A. destruct A as [d t H|d H|d H1 H2|g|g H1 H2|s os H].
  - (* AddConfig *)
    assert (NU : In d (wdirs w) \/ ~ In d (wdirs w)) by apply In_dec_path.
    constructor; cbn [act srcs wconf wdirs wgen wextra wtup wdirty away gone back]; try solve [keep I].
    + intros x Hx. cbn in Hx. destruct (path_eqb x d) eqn:E.
      * apply path_eqb_eq in E. subst x. split; [tauto|apply In_add; auto].
      * rewrite (lookup_filter (fun p => negb (path_eqb d p))) in Hx.
        destruct (negb (path_eqb d x)); [|congruence]. apply (i_wc _ _ _ _ _ I) in Hx. rewrite In_add. tauto.
    + intros s Hs. apply In_add. right. apply (i_srcdirs _ _ _ _ _ I), Hs.
    + intros p [Hp|Hp]; [|apply (i_dirs _ _ _ _ _ I); auto]. apply In_add in Hp. destruct Hp as [-> |Hp].
      * destruct H as [-> |H]; [left; apply (p_top _ _ _ P)|auto].
      * apply (i_dirs _ _ _ _ _ I). auto.
    + intros g Hg. apply In_add. right. apply (i_gdir _ _ _ _ _ I), Hg.
    + intros x Hx Hn Hw. rewrite In_add in Hw. rewrite In_del.
      destruct (i_miss _ _ _ _ _ I x Hx Hn ltac:(tauto)); [left|right]; tauto.
    + intros x Hx Hw. apply In_del in Hx. apply In_add in Hw. destruct Hx as [Hx1 Hx2], Hw as [Hw|Hw]; [tauto|].
      exact (i_away _ _ _ _ _ I x Hx2 Hw).
    + intros x Hx. rewrite In_del in Hx. apply (i_notes _ _ _ _ _ I). tauto.
    + intros x Hx Hw. destruct (path_eqb x d) eqn:E.
      * apply path_eqb_eq in E. subst x. apply mem_In in Hx. rewrite Hx. left. reflexivity.
      * apply path_eqb_neq in E. apply In_add in Hw. destruct Hw as [Hw|Hw]; [tauto|].
        pose proof (i_back _ _ _ _ _ I x Hx Hw). destruct (mem d (gone n)); [right|]; assumption.
    + intros x Hx. cbn. destruct (path_eqb x d) eqn:E; [discriminate|].
      rewrite (lookup_filter (fun p => negb (path_eqb d p))).
      replace (path_eqb d x) with false by (symmetry; apply path_eqb_neq; apply path_eqb_neq in E; congruence). cbn.
      apply (i_back2 _ _ _ _ _ I). destruct (mem d (gone n)); [|exact Hx]. destruct Hx as [-> |Hx]; [|exact Hx].
      rewrite path_eqb_refl in E. discriminate.
  - (* RmConfig *)
    constructor; cbn [act srcs wconf wdirs wgen wextra wtup wdirty away gone back]; try solve [keep I].
    + intros x Hx. rewrite (lookup_filter (fun p => negb (path_eqb d p))) in Hx.
      destruct (negb (path_eqb d x)); [|congruence]. exact (i_wc _ _ _ _ _ I x Hx).
    + intros x Hx. rewrite (lookup_filter (fun p => negb (path_eqb d p))).
      replace (path_eqb d x) with false by (symmetry; apply path_eqb_neq; intros ->; tauto). cbn.
      exact (i_back2 _ _ _ _ _ I x Hx).
  - (* RmTree *)
    assert (U : forall x, In x (filter (fun p => negb (under d p)) (wdirs w)) -> In x (wdirs w) /\ under d x = false).
    { intros x Hx. apply filter_In in Hx. rewrite negb_true_iff in Hx. exact Hx. }
    constructor; cbn [act srcs wconf wdirs wgen wextra wtup wdirty away gone back]; try solve [keep I].
    + intros x Hx. rewrite (lookup_filter (fun p => negb (under d p))) in Hx.
      destruct (negb (under d x)) eqn:E; [|congruence]. pose proof (i_wc _ _ _ _ _ I x Hx) as [A C].
      split; [exact A|]. apply filter_In. auto.
    + intros s Hs. apply filter_In. split; [apply (i_srcdirs _ _ _ _ _ I), Hs|]. rewrite H2; [reflexivity|]. rewrite (i_src _ _ _ _ _ I). exact Hs.
    + intros p [Hp|Hp]; apply (i_dirs _ _ _ _ _ I); [apply U in Hp; tauto|auto].
    + intros g Hg. apply filter_In in Hg. apply (i_gen _ _ _ _ _ I). tauto.
    + intros g Hg. apply filter_In in Hg. apply filter_In. split; [apply (i_gdir _ _ _ _ _ I)|]; tauto.
    + intros x Hx Hn Hw. rewrite filter_In, negb_true_iff in Hw.
      destruct (under d x) eqn:E.
      * left. left. pose proof (proj1 (i_var _ _ _ _ _ I x Hx Hn)) as Vx. apply (one_under d x []); try apply V_one; auto.
        rewrite app_nil_r. exact E.
      * destruct (i_miss _ _ _ _ _ I x Hx Hn ltac:(tauto)); [left; right|right]; assumption.
    + intros x [<-|Hx] Hw; apply U in Hw; destruct Hw as [Hw1 Hw2].
      * rewrite (proj2 (under_iff d d)) in Hw2; [discriminate|]. exists []. rewrite app_nil_r. reflexivity.
      * exact (i_away _ _ _ _ _ I x Hx Hw1).
    + intros x [[<- |Hx]|Hx]; [exact H1|apply (i_notes _ _ _ _ _ I); auto|apply (i_notes _ _ _ _ _ I); auto].
    + intros x Hx Hw. apply U in Hw. destruct Hw as [Hw1 Hw2]. apply In_del. split; [|exact (i_back _ _ _ _ _ I x Hx Hw1)].
      intros ->. rewrite (proj2 (under_iff d d)) in Hw2; [discriminate|]. exists []. rewrite app_nil_r. reflexivity.
    + intros x Hx. apply In_del in Hx. destruct Hx as [Hx1 Hx2]. pose proof (i_back2 _ _ _ _ _ I x Hx2) as Q.
      rewrite (lookup_filter (fun p => negb (under d p))). destruct (under d x) eqn:E; [|exact Q].
      destruct (i_wc _ _ _ _ _ I x Q) as [[-> |Vx] _].
      * apply under_iff in E. destruct E as [r E]. destruct d; [apply V_not_nil in H1; congruence|discriminate].
      * exfalso. apply Hx1. symmetry. apply (one_under d x []); try apply V_one; auto. rewrite app_nil_r. exact E.
  - (* RmOut *)
    constructor; cbn [act srcs wconf wdirs wgen wextra wtup wdirty]; try solve [keep I].
    + intros h Hh. apply filter_In in Hh. apply (i_gen _ _ _ _ _ I). tauto.
    + intros h Hh. apply filter_In in Hh. apply (i_gdir _ _ _ _ _ I). tauto.
  - (* AddFile *)
    constructor; cbn [act srcs wconf wdirs wgen wextra wtup wdirty]; try solve [keep I].
    intros v s A C D. destruct (i_flag _ _ _ _ _ I v s A C D) as [[M|[M|M]]|M]; [left; left; exact M|left; right; left|left; right; right; exact M|right; exact M].
    right. exact M.
  - (* Edit *)
    constructor; cbn [act srcs wconf wdirs wgen wextra wtup wdirty]; try solve [keep I].
    + intros p o Ho. destruct (path_eqb p s) eqn:E; [|exact (i_outs _ _ _ _ _ I p o Ho)].
      apply path_eqb_eq in E. subst p. rewrite <- (i_src _ _ _ _ _ I). exact (H o Ho).
    + intros v p A C D. destruct (path_eqb p s) eqn:E.
      * apply path_eqb_eq in E. subst p. left. right. left. left. reflexivity.
      * destruct (i_flag _ _ _ _ _ I v p A C D) as [[M|[M|M]]|M]; [left; left; exact M|left; right; left; right; exact M|left; right; right; exact M|right].
        unfold right in *. cbn. rewrite E. exact M.
Qed.
End Ops.
