(** The create phase and the update. *)
From Verif Require Import Base ModeModel ModeSpec ModeProofs ModeProofs2 ModeProofs3 ModeProofs4.

Lemma parse_Some w j b b' : parse w j b = Some b' ->
  b' = {| dnode := dnode b; dconf := dconf b; dvars := dvars b; dcreate := dcreate b;
          dgen := map (fun o => (place j, o)) (makes w (snd j)) ++ filter (fun g => negb (path_eqb (place j) (fst g))) (dgen b);
          ddirs := ddirs b |}.
Proof. unfold parse. destruct (existsb _ _); [discriminate|]. intros E. injection E as <-. reflexivity. Qed.
Lemma parse_gen w j b b' q o : parse w j b = Some b' ->
  (In (q, o) (dgen b') <-> (q = place j /\ In o (makes w (snd j))) \/ (q <> place j /\ In (q, o) (dgen b))).
Proof.
  intros E. rewrite (parse_Some _ _ _ _ E). cbn [dgen]. rewrite in_app_iff, in_map_iff, filter_In. cbn [fst].
  rewrite negb_true_iff, path_eqb_neq. split.
  - intros [[x [A C]]|[A C]]; [left|right].
    + injection A as <- <-. auto.
    + split; [congruence|exact A].
  - intros [[-> A]|[A C]]; [left; exists o; auto|right]. split; [exact C|congruence].
Qed.
Lemma parse_all_same w js : forall b b', parse_all w js b = Some b' ->
  dnode b' = dnode b /\ dconf b' = dconf b /\ dvars b' = dvars b /\ ddirs b' = ddirs b.
Proof.
  induction js as [|j js IH]; intros b b'; cbn [parse_all]; [intros E; injection E as <-; auto|].
  destruct (parse w j b) as [b1|] eqn:E; [|discriminate]. intros H. apply IH in H. apply parse_Some in E. subst b1. exact H.
Qed.
Lemma parse_all_gen w js : (forall j j', In j js -> In j' js -> place j = place j' -> snd j = snd j') ->
  forall b b', parse_all w js b = Some b' -> forall q o,
  (forall j, In j js -> place j = q -> (In (q, o) (dgen b') <-> In o (makes w (snd j)))) /\
  ((forall j, In j js -> place j <> q) -> (In (q, o) (dgen b') <-> In (q, o) (dgen b))).
Proof.
  intros U. induction js as [|j js IH]; intros b b' E q o; cbn [parse_all] in E.
  - injection E as <-. split; [intros j []|tauto].
  - destruct (parse w j b) as [b1|] eqn:E1; [|discriminate].
    specialize (IH (fun x y A C => U x y (or_intror A) (or_intror C)) b1 b' E q o). destruct IH as [IH1 IH2].
    pose proof (parse_gen _ _ _ _ q o E1) as G. split.
    + intros x Hx Hq.
      assert (D : (exists y, In y js /\ place y = q) \/ (forall y, In y js -> place y <> q)).
      { clear. induction js as [|y js [[z [A C]]|IH]]; [right; intros ? []|left; exists z; cbn; auto|].
        destruct (path_eqb (place y) q) eqn:Q; [left; exists y; apply path_eqb_eq in Q; cbn; auto|right].
        apply path_eqb_neq in Q. intros z [<- |Hz]; auto. }
      destruct D as [[y [Hy Hyq]]|D].
      * rewrite (U x y Hx (or_intror Hy)) by congruence. apply IH1; auto.
      * destruct Hx as [<- |Hx]; [|elim (D x Hx Hq)]. rewrite (IH2 D), G. rewrite Hq. tauto.
    + intros D. rewrite IH2; [|intros y Hy; apply D; right; exact Hy]. rewrite G.
      pose proof (D j (or_introl eq_refl)). split; [intros [[A _]|[_ A]]; [congruence|exact A]|intros A; right; split; [congruence|exact A]].
Qed.

Section Create.
Variables (V : path -> Prop) (ss : list path) (t0 : path -> list bytes).
Hypothesis P : project V ss t0.
Variables (w0 : world) (b0 : db) (L : list path).
Hypothesis J : Post V ss w0 b0 L.
Variables (N : list path) (w : world) (b : db) (l : list path) (on : bool).
Hypothesis M : Mid V ss w0 N N w b l on.

Lemma vars_live v : In v (dvars b) -> v <> [] -> live w0 v.
Proof. intros H Hn. apply (y_vars _ _ _ _ _ _ _ _ _ M) in H. tauto. Qed.
Lemma vars_root : In [] (dvars b) -> forall v, In v (dvars b) -> v = [].
Proof.
  intros H v Hv. apply (y_vars _ _ _ _ _ _ _ _ _ M) in H. destruct H as [[H _]|[_ H]]; [congruence|].
  apply (y_vars _ _ _ _ _ _ _ _ _ M) in Hv. destruct Hv as [[A C]|[A _]]; auto.
Qed.
Lemma vars_some : dvars b <> [].
Proof.
  intros E. assert (H : In [] (dvars b)); [|rewrite E in H; exact H].
  apply (y_vars _ _ _ _ _ _ _ _ _ M). right. split; [reflexivity|]. intros d Hd.
  destruct d as [|x y]; [reflexivity|]. assert (H : In (x :: y) (dvars b)); [|rewrite E in H; destruct H].
  apply (y_vars _ _ _ _ _ _ _ _ _ M). left. split; [discriminate|exact Hd].
Qed.
Lemma src_dirs s : In s ss -> In s (ddirs b).
Proof.
  intros Hs. rewrite (y_eq _ _ _ _ _ _ _ _ _ M). apply (y_keep _ _ _ _ _ _ _ _ _ M); [apply (j_srcdirs _ _ _ _ _ J), Hs|auto].
Qed.
Lemma live_dirs d : live w0 d -> In d (ddirs b) /\ length d <= 1.
Proof.
  intros Hd. destruct (j_wc _ _ _ _ _ J d Hd) as [A C].
  assert (length d <= 1) by (destruct A as [-> |A]; [cbn; lia|rewrite (V_one V ss t0 P d A); lia]).
  split; [|assumption]. rewrite (y_eq _ _ _ _ _ _ _ _ _ M). apply (y_keep _ _ _ _ _ _ _ _ _ M); auto.
Qed.

(** From here on the state satisfies the invariant, whatever was parsed. *)
Lemma inv_mid w' b' n :
  srcs w' = ss -> wconf w' = wconf w0 -> wtup w' = wtup w0 ->
  dnode b' = dnode b -> dconf b' = dconf b -> dvars b' = dvars b ->
  (forall p, In p (wdirs w) -> In p (wdirs w')) -> (forall p, In p (ddirs b) -> In p (ddirs b')) ->
  (forall p, In p (wdirs w') \/ In p (ddirs b') -> In p (ddirs b) \/ exists v s, In v (dvars b) /\ v <> [] /\ p = v ++ s /\ (In s ss \/ V s)) ->
  (forall g, In g (wgen w') -> In g (dgen b') /\ In (fst g) (wdirs w')) ->
  (forall q o, In (q, o) (dgen b') ->
     exists v s, In v (dvars b) /\ In s ss /\ q = v ++ s /\ ~ V (s ++ [o]) /\ ~ In (s ++ [o]) ss) ->
  (forall v s, In v (dvars b) -> In s ss -> marked w' b' v s \/ right w' b' v s) ->
  (forall d, In d (away n) \/ In d (gone n) -> V d /\ ~ In d (wdirs w0)) -> back n = [] ->
  Inv V ss w' b' n.
Proof.
  intros h1 h2 h3 h4 h5 h6 h7 h8 h9 h10 h11 h12 h13 h14.
  assert (NW : forall d, In d (away n) \/ In d (gone n) -> ~ In d (wdirs w')).
  { intros d Hd Hw. destruct (h13 d Hd) as [A C]. pose proof (V_one V ss t0 P d A) as D.
    destruct (h9 d (or_introl Hw)) as [Q|[v [s [Q1 [Q2 [-> _]]]]]].
    - apply C. apply (y_short _ _ _ _ _ _ _ _ _ M); [|lia]. rewrite <- (y_eq _ _ _ _ _ _ _ _ _ M). exact Q.
    - destruct s as [|x y].
      + rewrite app_nil_r in *. apply C. apply (j_wc _ _ _ _ _ J). apply vars_live; auto.
      + rewrite app_length in D. destruct v; [congruence|cbn in D; lia]. }
  constructor.
  - exact h1.
  - rewrite h3. apply (j_outs _ _ _ _ _ J).
  - rewrite h2. intros d Hd. split; [apply (j_wc _ _ _ _ _ J), Hd|]. apply h7. rewrite <- (y_eq _ _ _ _ _ _ _ _ _ M).
    apply live_dirs, Hd.
  - intros s Hs. apply h7. rewrite <- (y_eq _ _ _ _ _ _ _ _ _ M). apply src_dirs, Hs.
  - intros _ s Hs. apply h8, src_dirs, Hs.
  - intros p Hp. rewrite h6. destruct (h9 p Hp) as [Q|[v [s [Q1 [Q2 [-> Q4]]]]]]; [apply (y_dirs _ _ _ _ _ _ _ _ _ M), Q|].
    destruct s as [|x y].
    + rewrite app_nil_r. right. left. apply (y_var _ _ _ _ _ _ _ _ _ M); auto.
    + right. right. exists v. split; [exact Q1|]. split; [exact Q2|]. split; [apply below_iff; eauto|exists (x :: y); auto].
  - intros g Hg. apply h10, Hg.
  - intros g Hg. apply h10, Hg.
  - rewrite h6. exact h11.
  - rewrite h6. apply vars_root.
  - rewrite h6, h4. intros v Hv Hn. destruct (y_var _ _ _ _ _ _ _ _ _ M v Hv Hn) as [A1 [[t A2] A3]].
    split; [exact A1|]. split; [congruence|exact A3].
  - rewrite h5, h4. intros d [Hd|Hd]; [elim (y_conf _ _ _ _ _ _ _ _ _ M d Hd)|apply (y_keys _ _ _ _ _ _ _ _ _ M), Hd].
  - rewrite h4, h6. intros d t Hn E _. pose proof (y_node _ _ _ _ _ _ _ _ _ M d t Hn E) as A. split.
    + apply (y_vars _ _ _ _ _ _ _ _ _ M). auto.
    + apply h8, live_dirs, A.
  - rewrite h4, h6. intros d Hd Hn E. destruct (y_var _ _ _ _ _ _ _ _ _ M d Hd Hn) as [_ [[t A] _]]. congruence.
  - rewrite h5. intros d t _ _ Hd. elim (y_conf _ _ _ _ _ _ _ _ _ M d Hd).
  - rewrite h6. intros d Hd Hn Hx. elim Hx. apply h8, live_dirs, vars_live; auto.
  - rewrite h6. intros d Hd Hn Hx. elim Hx. apply h7. rewrite <- (y_eq _ _ _ _ _ _ _ _ _ M). apply live_dirs, vars_live; auto.
  - intros d Hd. apply NW. auto.
  - intros d Hd. apply h13, Hd.
  - intros d Hd Hw. elim (NW d (or_intror Hd) Hw).
  - rewrite h14. intros d [].
  - rewrite h6. intros v s Hv _ Hs. apply h12; auto.
  - rewrite h6. intros E. elim (vars_some E).
Qed.

Lemma in_mirrors v p : In (v, p) (mirrors l b) <->
  v <> [] /\ In v (dvars b) /\ In p (dcreate b) /\ In p (ddirs b) /\ outside l p = true.
Proof.
  unfold mirrors. rewrite in_flat_map. split.
  - intros [x [Hx Hy]]. apply filter_In in Hx. destruct Hx as [Hx Ho]. apply filter_In in Hx. destruct Hx as [Hx1 Hx2].
    apply mem_In in Hx2. apply in_map_iff in Hy. destruct Hy as [y [E Hy]]. injection E as -> ->.
    apply In_del in Hy. destruct Hy as [Hy1 Hy2]. apply (y_l _ _ _ _ _ _ _ _ _ M) in Hy2. destruct Hy2; [congruence|auto].
  - intros [A [C [D [E F]]]]. exists p. split.
    + apply filter_In. split; [|exact F]. apply filter_In. split; [exact D|apply mem_In, E].
    + apply in_map_iff. exists v. split; [reflexivity|]. apply In_del. split; [exact A|]. apply (y_l _ _ _ _ _ _ _ _ _ M). auto.
Qed.
Lemma l_short x : In x l -> length x <= 1.
Proof.
  intros H. apply (y_l _ _ _ _ _ _ _ _ _ M) in H. destruct H as [-> |H]; [cbn; lia|]. destruct x as [|x y]; [cbn; lia|].
  rewrite (V_one V ss t0 P); [lia|]. apply (y_var _ _ _ _ _ _ _ _ _ M); [exact H|discriminate].
Qed.
Lemma src_owner s : In s ss -> owner l [] s = Some [].
Proof.
  intros Hs. apply owner_top; [apply (y_l _ _ _ _ _ _ _ _ _ M); auto|]. intros v Hv Hn.
  apply (y_l _ _ _ _ _ _ _ _ _ M) in Hv. destruct Hv as [Hv|Hv]; [congruence|].
  destruct (y_var _ _ _ _ _ _ _ _ _ M v Hv Hn) as [_ [_ A]]. auto.
Qed.
Lemma var_owner v s : In v (dvars b) -> v <> [] -> owner l [] (v ++ s) = Some v.
Proof.
  intros Hv Hn. apply owner_one; [exact l_short| |apply (y_l _ _ _ _ _ _ _ _ _ M); auto].
  apply (V_one V ss t0 P). apply (y_var _ _ _ _ _ _ _ _ _ M); auto.
Qed.
Lemma job_var j : In j (jobs l on b) -> In (fst j) (dvars b).
Proof.
  unfold jobs. rewrite in_app_iff. intros [H|H].
  - destruct j as [v p]. apply in_mirrors in H. tauto.
  - apply in_flat_map in H. destruct H as [p [Hp H]]. destruct (owner l [] p) as [[|x y]|] eqn:E.
    + destruct on eqn:O; [|destruct H]. destruct H as [<- |[]]. apply (y_on _ _ _ _ _ _ _ _ _ M). reflexivity.
    + destruct H as [<- |[]]. apply owner_Some in E. destruct E as [E _]. apply (y_l _ _ _ _ _ _ _ _ _ M) in E.
      destruct E; [discriminate|assumption].
    + destruct on eqn:O; [|destruct H]. destruct H as [<- |[]]. apply (y_on _ _ _ _ _ _ _ _ _ M). reflexivity.
Qed.
Lemma vars_place v v' s s' : In v (dvars b) -> In v' (dvars b) -> v ++ s = v' ++ s' -> v = v' /\ s = s'.
Proof.
  intros Hv Hv' E. destruct (In_dec_path v [[]]) as [[<- |[]]|Hn].
  - rewrite (vars_root Hv v' Hv') in *. auto.
  - assert (H : v <> []) by (intros ->; apply Hn; left; reflexivity).
    assert (H' : v' <> []) by (intros ->; apply H; apply (vars_root Hv' v Hv)).
    apply one_app; [| |exact E]; apply (V_one V ss t0 P); apply (y_var _ _ _ _ _ _ _ _ _ M); auto.
Qed.
Lemma job_marked v s : In v (dvars b) -> In s ss -> marked w b v s ->
  In (v, s) (jobs l on b) /\ (In (v ++ s) (ddirs b) \/ In (v, s) (mirrors l b)).
Proof.
  intros Hv Hs K. assert (K' : In s (dcreate b) \/ (In (v ++ s) (dcreate b) /\ In (v ++ s) (ddirs b))).
  { destruct K as [K|[K|K]]; auto. rewrite (y_dirty _ _ _ _ _ _ _ _ _ M) in K. destruct K. }
  destruct (In_dec_path v [[]]) as [[<- |[]]|Hn].
  - assert (C : In s (dcreate b)) by (cbn in K'; tauto). split; [|left; apply src_dirs, Hs].
    unfold jobs. apply in_app_iff. right. apply in_flat_map. exists s. split.
    + apply filter_In. split; [exact C|]. apply mem_In, src_dirs, Hs.
    + rewrite src_owner by exact Hs. apply (y_on _ _ _ _ _ _ _ _ _ M) in Hv. rewrite Hv. left. reflexivity.
  - assert (H : v <> []) by (intros ->; apply Hn; left; reflexivity).
    destruct K' as [C|[C D]].
    + assert (Q : In (v, s) (mirrors l b)).
      { apply in_mirrors. repeat split; auto; [apply src_dirs, Hs|]. unfold outside. rewrite src_owner by exact Hs. reflexivity. }
      split; [|auto]. unfold jobs. apply in_app_iff. left. exact Q.
    + split; [|auto]. unfold jobs. apply in_app_iff. right. apply in_flat_map. exists (v ++ s). split.
      * apply filter_In. split; [exact C|]. apply mem_In, D.
      * rewrite var_owner by assumption. destruct v as [|x y]; [congruence|]. left. rewrite rest_app. reflexivity.
Qed.
Lemma outside_src p : In p (ddirs b) -> outside l p = true -> In p ss \/ V p.
Proof.
  intros A4 A5. destruct (y_dirs _ _ _ _ _ _ _ _ _ M _ A4) as [Q|[Q|[x [Q1 [Q2 [Q3 _]]]]]]; [auto|auto|].
  apply below_iff in Q3. destruct Q3 as [z [r Q3]]. unfold outside in A5. rewrite Q3 in A5.
  rewrite (var_owner x (z :: r) Q1 Q2) in A5. destruct x; [congruence|discriminate].
Qed.
Lemma displaced_not g : In g (dgen b) -> displaced (mirrors l b) g = false.
Proof.
  intros Hg. destruct (displaced (mirrors l b) g) eqn:E; [|reflexivity]. exfalso. unfold displaced in E.
  apply existsb_exists in E. destruct E as [[v p] [Hj E]]. apply path_eqb_eq in E. unfold place in E. cbn [fst snd] in E.
  apply in_mirrors in Hj. destruct Hj as [A1 [A2 [A3 [A4 A5]]]]. destruct g as [q o]. cbn [fst snd] in E.
  destruct (y_dgen _ _ _ _ _ _ _ _ _ M q o Hg) as [v' [s [C1 [C2 [-> [C4 C5]]]]]]. rewrite <- app_assoc in E.
  destruct (vars_place v v' p (s ++ [o]) A2 C1 E) as [<- ->].
  destruct (outside_src _ A4 A5) as [Q|Q]; auto.
Qed.

Lemma process_create_mid n :
  (forall d, In d (away n) \/ In d (gone n) -> V d /\ ~ In d (wdirs w0)) -> back n = [] ->
  match process_create l on w b with
  | Bad w2 => Inv V ss w2 b n
  | Good (w2, b2) =>
      (forall ok, Inv V ss (fst (process_update ok w2 b2)) b2 n /\ Inv V ss (fst (process_update ok w2 b2)) b2 quiet_notes) /\
      (forall ok, wconf (fst (process_update ok w2 b2)) = wconf w0) /\
      (forall ok, wtup (fst (process_update ok w2 b2)) = wtup w0) /\
      (forall ok, srcs (fst (process_update ok w2 b2)) = ss) /\
      dvars b2 = dvars b /\
      (forall g, In g (wgen w2) -> In g (dgen b2)) /\
      (forall q o, In (q, o) (dgen b2) <-> exists v s, In v (dvars b) /\ In s ss /\ In o (wtup w0 s) /\ q = v ++ s)
  end.
Proof.
  intros hn hb. unfold process_create.
  set (ms := mirrors l b).
  set (w1 := with_dirs w _ _). set (b1 := {| dnode := dnode b; dconf := _; dvars := _; dcreate := _; dgen := filter _ _; ddirs := _ |}).
  assert (FL : forall v s, In v (dvars b) -> In s ss -> marked w b v s \/ right w b v s).
  { intros v s Hv Hs. apply (y_flag _ _ _ _ _ _ _ _ _ M); auto. destruct (In_dec_path v N); auto. }
  assert (G1 : forall g, In g (dgen b1) <-> In g (dgen b)).
  { intros g. cbn [b1 dgen]. rewrite filter_In, negb_true_iff. split; [tauto|]. intros H. split; [exact H|apply displaced_not, H]. }
  assert (PL : forall p, In p (map place ms) -> exists v s, In v (dvars b) /\ v <> [] /\ p = v ++ s /\ (In s ss \/ V s)).
  { intros p Hp. apply in_map_iff in Hp. destruct Hp as [[v s] [<- Hp]]. apply in_mirrors in Hp.
    exists v, s. unfold place. split; [tauto|]. split; [tauto|]. split; [reflexivity|]. apply outside_src; tauto. }
  assert (DR : forall p, In p (map place ms ++ ddirs b) -> In p (ddirs b) \/ exists v s, In v (dvars b) /\ v <> [] /\ p = v ++ s /\ (In s ss \/ V s)).
  { intros p Hp. apply in_app_iff in Hp. destruct Hp as [Hp|Hp]; auto. }
  assert (WG1 : forall g, In g (wgen w1) -> In g (dgen b) /\ In (fst g) (wdirs w1)).
  { intros g Hg. cbn [w1 with_dirs wgen] in Hg. apply filter_In in Hg. destruct Hg as [Hg _]. split; [apply (y_gen _ _ _ _ _ _ _ _ _ M), Hg|].
    cbn [w1 with_dirs wdirs]. apply in_app_iff. right. apply (y_gdir _ _ _ _ _ _ _ _ _ M), Hg. }
  assert (E1 : srcs w1 = ss) by (exact (y_src _ _ _ _ _ _ _ _ _ M)).
  assert (E2 : wconf w1 = wconf w0) by (exact (y_wconf _ _ _ _ _ _ _ _ _ M)).
  assert (E3 : wtup w1 = wtup w0) by (exact (y_tup _ _ _ _ _ _ _ _ _ M)).
  assert (ED : wdirs w1 = map place ms ++ ddirs b) by (cbn; rewrite (y_eq _ _ _ _ _ _ _ _ _ M); reflexivity).
  destruct (parse_all w1 (jobs l on b) b1) as [b2|] eqn:PA.
  - destruct (parse_all_same _ _ _ _ PA) as [S1 [S2 [S3 S4]]].
    assert (U : forall j j', In j (jobs l on b) -> In j' (jobs l on b) -> place j = place j' -> snd j = snd j').
    { intros j j' Hj Hj' E. apply job_var in Hj. apply job_var in Hj'. apply (vars_place _ _ _ _ Hj Hj' E). }
    pose proof (parse_all_gen w1 _ U _ _ PA) as PG.
    assert (MK : forall s o, In o (makes w1 s) <-> In s ss /\ In o (wtup w0 s)).
    { intros s o. unfold makes. rewrite E1, E3. destruct (mem s ss) eqn:Q.
      - apply mem_In in Q. tauto.
      - apply mem_not in Q. cbn. tauto. }
    assert (JD : forall q, (exists j, In j (jobs l on b) /\ place j = q) \/ (forall j, In j (jobs l on b) -> place j <> q)).
    { intros q. generalize (jobs l on b). clear. intros js. induction js as [|y js [[z [A C]]|IH]]; [right; intros ? []|left; exists z; cbn; auto|].
      destruct (path_eqb (place y) q) eqn:Q; [left; exists y; apply path_eqb_eq in Q; cbn; auto|right].
      apply path_eqb_neq in Q. intros z [<- |Hz]; auto. }
    assert (R : forall v s, In v (dvars b) -> In s ss ->
              In (v ++ s) (map place ms ++ ddirs b) /\ forall o, In (v ++ s, o) (dgen b2) <-> In o (wtup w0 s)).
    { intros v s Hv Hs. split.
      - apply in_app_iff. destruct (FL v s Hv Hs) as [K|[K _]]; [|auto].
        destruct (job_marked v s Hv Hs K) as [_ [Q|Q]]; [auto|left]. apply in_map_iff. exists (v, s). auto.
      - intros o. destruct (JD (v ++ s)) as [[j [Hj Ej]]|D].
        + destruct (PG (v ++ s) o) as [PG1 _]. rewrite (PG1 j Hj Ej).
          pose proof (job_var j Hj) as Hvj. destruct (vars_place _ _ _ _ Hvj Hv Ej) as [_ ->]. rewrite MK. tauto.
        + destruct (PG (v ++ s) o) as [_ PG2]. rewrite (PG2 D), G1.
          destruct (FL v s Hv Hs) as [K|[_ K]]; [|rewrite K, (y_tup _ _ _ _ _ _ _ _ _ M); tauto].
          destruct (job_marked v s Hv Hs K) as [Q _]. elim (D _ Q). reflexivity. }
    assert (W : forall q o, In (q, o) (dgen b2) <-> exists v s, In v (dvars b) /\ In s ss /\ In o (wtup w0 s) /\ q = v ++ s).
    { intros q o. split.
      - intros H. destruct (JD q) as [[j [Hj Ej]]|D].
        + destruct (PG q o) as [PG1 _]. apply (PG1 j Hj Ej) in H. apply MK in H. exists (fst j), (snd j).
          split; [apply job_var, Hj|]. split; [tauto|]. split; [tauto|]. symmetry. exact Ej.
        + destruct (PG q o) as [_ PG2]. pose proof H as H'. apply (PG2 D), G1 in H.
          destruct (y_dgen _ _ _ _ _ _ _ _ _ M q o H) as [v [s [C1 [C2 [-> _]]]]].
          exists v, s. split; [exact C1|]. split; [exact C2|]. split; [|reflexivity]. apply (R v s C1 C2), H'.
      - intros [v [s [A1 [A2 [A3 ->]]]]]. apply (R v s A1 A2), A3. }
    set (w2 := with_dirs w1 _ _). set (b3 := {| dnode := dnode b2; dconf := _; dvars := _; dcreate := []; dgen := _; ddirs := _ |}).
    assert (WG : forall g, In g (wgen w2) -> In g (dgen b2) /\ In (fst g) (wdirs w2)).
    { intros g Hg. cbn [w2 with_dirs wgen] in Hg. apply filter_In in Hg. destruct Hg as [Hg Q]. destruct (WG1 g Hg) as [A C].
      split; [|exact C]. apply orb_true_iff in Q. destruct Q as [Q|Q]; [apply fmem_In, Q|].
      apply negb_true_iff in Q. apply G1 in A. apply fmem_In in A. congruence. }
    assert (IV : forall ok m, (forall d, In d (away m) \/ In d (gone m) -> V d /\ ~ In d (wdirs w0)) -> back m = [] ->
              Inv V ss (fst (process_update ok w2 b3)) b3 m).
    { intros ok m Hm Hb. apply inv_mid; auto.
      - intros p Hp. change (In p (wdirs w1)). rewrite ED, (y_eq _ _ _ _ _ _ _ _ _ M). apply in_app_iff. auto.
      - intros p Hp. change (In p (ddirs b2)). rewrite S4. apply in_app_iff. auto.
      - intros p Hp. apply DR. destruct Hp as [Hp|Hp].
        + change (In p (wdirs w1)) in Hp. rewrite ED in Hp. exact Hp.
        + change (In p (ddirs b2)) in Hp. rewrite S4 in Hp. exact Hp.
      - intros g Hg. cbn [process_update fst with_dirs wgen] in Hg. apply in_app_iff in Hg. destruct Hg as [Hg|Hg]; [|apply WG, Hg].
        apply filter_In in Hg. destruct Hg as [Hg _]. apply filter_In in Hg. destruct Hg as [Hg _]. split; [exact Hg|].
        change (In (fst g) (wdirs w1)). rewrite ED. destruct g as [q o]. apply W in Hg. destruct Hg as [v [s [A1 [A2 [A3 ->]]]]].
        apply (R v s A1 A2).
      - intros q o Hq. apply W in Hq. destruct Hq as [v [s [A1 [A2 [A3 ->]]]]]. exists v, s.
        destruct (j_outs _ _ _ _ _ J s o A3). auto.
      - intros v s Hv Hs. right. destruct (R v s Hv Hs) as [A C]. split.
        + change (In (v ++ s) (ddirs b2)). rewrite S4. exact A.
        + intros o. change (dgen b3) with (dgen b2). rewrite C. change (wtup (fst (process_update ok w2 b3))) with (wtup w1). rewrite E3. tauto. }
    split; [intros ok; split; apply IV; auto; intros d [[]|[]]|].
    split; [intros ok; exact E2|]. split; [intros ok; exact E3|]. split; [intros ok; exact E1|].
    split; [exact S3|]. split; [intros g Hg; apply WG, Hg|exact W].
  - apply inv_mid; auto.
    + intros p Hp. rewrite ED, (y_eq _ _ _ _ _ _ _ _ _ M). apply in_app_iff. auto.
    + intros p [Hp|Hp]; [|auto]. apply DR. rewrite <- ED. exact Hp.
    + apply (y_dgen _ _ _ _ _ _ _ _ _ M).
Qed.
End Create.

Section Update.
Variables (V : path -> Prop) (ss : list path) (t0 : path -> list bytes).
Hypothesis P : project V ss t0.

Lemma live_config w d : live w d <-> has_config w d.
Proof.
  unfold live, has_config. destruct (lookup d (wconf w)) as [t|] eqn:E.
  - split; [|discriminate]. intros _. exists t. apply lookup_In, E.
  - split; [congruence|]. intros [t H]. pose proof (proj1 (lookup_None d (wconf w)) E t H) as [].
Qed.

Lemma update_spec ok w b n w' b' r : Inv V ss w b n -> update ok w b = (w', b', r) ->
  (r = true -> Inv V ss w' b' quiet_notes /\ (forall v, In v (dvars b') <-> variant w' v) /\
               (forall g, In g (wgen w') <-> wanted w' g)) /\
  (r = false -> back n = [] -> Inv V ss w' b' {| away := away n; gone := away n ++ gone n; back := [] |}).
Proof.
  intros I E. unfold update in E. pose proof (post_scan V ss t0 P w b n I) as J.
  pose proof (process_config_mid V ss t0 P _ _ _ J) as C.
  destruct (process_config (load w b) (scanned w) (scan w b)) as [[[[w1 b1] l] on]|w1].
  - destruct C as [N M].
    assert (HN : back n = [] -> forall d, In d (away n) \/ In d (away n ++ gone n) -> V d /\ ~ In d (wdirs (scanned w))).
    { intros HB d Hd. rewrite in_app_iff in Hd. split; [apply (i_notes _ _ _ _ _ I); tauto|].
      destruct Hd as [Hd|[Hd|Hd]]; [exact (i_away _ _ _ _ _ I d Hd)|exact (i_away _ _ _ _ _ I d Hd)|].
      intros Hw. pose proof (i_back _ _ _ _ _ I d Hd Hw) as X. rewrite HB in X. destruct X. }
    pose proof (process_create_mid V ss t0 P _ _ _ J N w1 b1 l on M) as K.
    destruct (process_create l on w1 b1) as [[w2 b2]|w2].
    + unfold process_update in E. injection E as <- <- <-. split.
      * intros A. destruct (K quiet_notes (fun d Hd => match Hd with or_introl H => match H with end | or_intror H => match H with end end) eq_refl)
          as [K1 [K2 [K3 [K4 [K5 [K6 K7]]]]]].
        specialize (K2 ok). specialize (K3 ok). specialize (K4 ok). cbn [process_update fst with_dirs wconf wtup srcs] in K2, K3, K4.
        assert (LV : forall w'', wconf w'' = wconf (scanned w) -> forall v, In v (dvars b1) <-> variant w'' v).
        { intros w'' Ew v. rewrite (y_vars _ _ _ _ _ _ _ _ _ M v). unfold variant, no_variants, has_config. rewrite Ew.
          assert (Q : forall d, live (scanned w) d <-> exists t, In (d, t) (wconf (scanned w))) by (intros d; apply live_config).
          split; intros [[A1 A2]|[A1 A2]].
          - left. split; [exact A1|apply Q, A2].
          - right. split; [exact A1|]. intros d Hd. apply A2, Q, Hd.
          - left. split; [exact A1|apply Q, A2].
          - right. split; [exact A1|]. intros d Hd. apply A2, Q, Hd. }
        split; [apply (K1 ok)|]. split; [rewrite K5; apply LV; exact K2|].
        intros [q o]. cbn [with_dirs wgen].
        assert (EQ : In (q, o) (filter ok (filter (fun g => negb (fmem g (wgen w2))) (dgen b2)) ++ wgen w2) <-> In (q, o) (dgen b2)).
        { rewrite in_app_iff, !filter_In. split; [intros [H|H]; [tauto|apply K6, H]|]. intros H.
          destruct (fmem (q, o) (wgen w2)) eqn:Q; [right; apply fmem_In, Q|left].
          split; [split; [exact H|reflexivity]|]. rewrite forallb_forall in A. apply A. apply filter_In. rewrite Q. auto. }
        rewrite EQ, K7. unfold wanted. cbn [with_dirs srcs wtup]. rewrite K3, K4.
        split.
        -- intros [v [s [A1 [A2 [A3 ->]]]]]. exists v, s, o. split; [apply LV; [exact K2|exact A1]|]. auto.
        -- intros [v [s [x [A1 [A2 [A3 X]]]]]]. injection X as -> ->. exists v, s. split; [|auto].
           apply LV in A1; [exact A1|exact K2].
      * intros A HB. apply (K {| away := away n; gone := away n ++ gone n; back := [] |}); [apply HN, HB|reflexivity].
    + injection E as <- <- <-. split; [discriminate|]. intros _ HB. apply K; [apply HN, HB|reflexivity].
  - injection E as <- <- <-. split; [discriminate|]. intros _ HB. eapply inv_scan; eauto.
Qed.

Lemma reach_inv w b n : reach V ss t0 w b n -> Inv V ss w b n.
Proof.
  induction 1 as [|w b n o n' R IH A|w b n R IH HB|ok w b n w' b' R IH HB E|ok w b n w' b' R IH E].
  - exact (inv_start V ss t0 P).
  - eapply inv_act; eauto.
  - eapply inv_scan; eauto. apply shrunk_refl. apply (i_gdir _ _ _ _ _ IH).
  - apply (update_spec _ _ _ _ _ _ _ IH E); auto.
  - apply (update_spec _ _ _ _ _ _ _ IH E); auto.
Qed.
End Update.
