(** The scan. *)
From Verif Require Import Base ModeModel ModeSpec ModeProofs.

Definition live (w : world) (d : path) : Prop := lookup d (wconf w) <> None.
Lemma live_dec w d : live w d \/ lookup d (wconf w) = None.
Proof. unfold live. destruct (lookup d (wconf w)); [left; discriminate|right; reflexivity]. Qed.

(** After the scan, before the config list is processed. *)
Record Post (V : path -> Prop) (ss : list path) (w : world) (b : db) (L : list path) : Prop := {
  j_src : srcs w = ss;
  j_outs : forall s o, In o (wtup w s) -> ~ V (s ++ [o]) /\ ~ In (s ++ [o]) ss;
  j_wc : forall d, live w d -> (d = [] \/ V d) /\ In d (wdirs w);
  j_srcdirs : forall s, In s ss -> In s (wdirs w);
  j_eq : ddirs b = wdirs w;
  j_dirty : wdirty w = [];
  j_dirs : forall p, In p (ddirs b) -> In p ss \/ V p \/ exists v, In v (dvars b) /\ v <> [] /\ (below v p = true /\ inside V ss v p);
  j_gen : forall g, In g (wgen w) -> In g (dgen b);
  j_gdir : forall g, In g (wgen w) -> In (fst g) (wdirs w);
  j_dgen : forall q o, In (q, o) (dgen b) ->
             exists v s, In v (dvars b) /\ In s ss /\ q = v ++ s /\ ~ V (s ++ [o]) /\ ~ In (s ++ [o]) ss;
  j_root : In [] (dvars b) -> forall v, In v (dvars b) -> v = [];
  j_var : forall v, In v (dvars b) -> v <> [] ->
             V v /\ lookup v (dnode b) <> None /\ forall s, In s ss -> under v s = false;
  j_keys : forall d, In d (dconf b) \/ lookup d (dnode b) <> None -> d = [] \/ V d;
  j_node : forall d, (exists t, lookup d (dnode b) = Some (Some t)) <-> live w d;
  j_live : forall d, d <> [] -> live w d -> ~ In d (dconf b) -> In d L;
  j_ghost : forall d, In d (dvars b) -> d <> [] -> ~ live w d -> In d (dconf b) /\ In d L;
  j_new : forall d, d <> [] -> live w d -> In d (dconf b) -> ~ In d L -> In d (dcreate b);
  j_load : forall d, In d L -> In d (dvars b);
  j_load2 : forall d, In d (dvars b) -> In d L \/ (d <> [] /\ In d (dconf b) /\ live w d);
  j_flag : forall v s, In v L -> (v = [] \/ live w v) -> In s ss -> marked w b v s \/ right w b v s;
  j_init : dvars b = [] -> dgen b = [] /\ forall s, In s ss -> In s (dcreate b)
}.

Lemma scan_lookup w b d : lookup d (dnode (scan w b)) =
  match lookup d (wconf w) with
  | Some t => Some (Some t)
  | None => match lookup d (dnode b) with Some _ => Some None | None => None end
  end.
Proof.
  cbn [scan dnode]. unfold scan_node. rewrite lookup_app, (lookup_map (fun t => Some t)).
  destruct (lookup d (wconf w)) as [t|] eqn:E; [reflexivity|]. cbn [option_map].
  rewrite (lookup_map (fun _ => None)).
  rewrite (lookup_filter (fun p => match lookup p (wconf w) with None => true | Some _ => false end)), E.
  destruct (lookup d (dnode b)); reflexivity.
Qed.
Lemma changed_In w b d :
  onat_eqb (match lookup d (dnode b) with Some o => o | None => None end) (lookup d (wconf w)) = false ->
  In d (changed w b).
Proof.
  intros H. unfold changed. apply filter_In. split; [|rewrite H; reflexivity]. apply in_app_iff.
  destruct (lookup d (wconf w)) as [t|] eqn:E.
  - left. apply lookup_In in E. apply in_map_iff. exists (d, t). auto.
  - destruct (lookup d (dnode b)) as [o|] eqn:E2; [|discriminate].
    right. apply lookup_In in E2. apply in_map_iff. exists (d, o). auto.
Qed.
Lemma changed_key w b d : In d (changed w b) -> live w d \/ lookup d (dnode b) <> None.
Proof.
  unfold changed, live. intros H. apply filter_In in H. destruct H as [H _]. apply in_app_iff in H.
  destruct H as [H|H]; apply in_map_iff in H; destruct H as [[q x] [<- H]]; cbn; [left|right];
    intros E; eapply lookup_None in E; eauto.
Qed.
Lemma In_adds l m (x : path) : In x (fold_right add m l) <-> In x l \/ In x m.
Proof. induction l as [|y l IH]; cbn; [tauto|]. rewrite In_add, IH. intuition auto. Qed.
Lemma scan_conf w b d : In d (dconf (scan w b)) <-> In d (changed w b) \/ In d (dconf b).
Proof. apply In_adds. Qed.
Lemma missing_true w b p : missing w b p = true <-> In p (ddirs b) /\ ~ In p (wdirs w).
Proof. unfold missing. rewrite andb_true_iff, negb_true_iff, mem_In, mem_not. tauto. Qed.
Lemma missing_here w b p : In p (wdirs w) -> missing w b p = false.
Proof. intros H. apply not_true_iff_false. rewrite missing_true. tauto. Qed.
Lemma load_In w b d : In d (load w b) <-> In d (dvars b) /\ ~ (In d (wdirs w) /\ ~ In d (ddirs b)).
Proof.
  unfold load. rewrite filter_In, <- in_rev, negb_true_iff, <- not_true_iff_false, andb_true_iff, negb_true_iff, mem_In, mem_not. tauto.
Qed.

Section Scan.
Variables (V : path -> Prop) (ss : list path) (t0 : path -> list bytes).
Hypothesis P : project V ss t0.

Lemma scan_create w b p : In p (dcreate (scan w b)) <->
  (In p (dcreate b) /\ missing w b p = false) \/ In p (wdirty w) \/ (In p (wdirs w) /\ ~ In p (ddirs b)) \/
  (exists q, In q (ddirs b) /\ missing w b q = true /\ In p (scan_missing w b q)) \/
  (In p (changed w b) /\ live w p).
Proof.
  cbn [scan dcreate]. rewrite !in_app_iff, !filter_In, in_flat_map. rewrite !negb_true_iff, mem_not.
  split; intros [A|[A|[A|[A|A]]]]; auto.
  - destruct A as [q [A C]]. apply filter_In in A. right. right. right. left. exists q. tauto.
  - right. right. right. right. split; [tauto|]. unfold live. destruct (lookup p (wconf w)); [discriminate|destruct A; discriminate].
  - destruct A as [q [A [C D]]]. right. right. right. left. exists q. rewrite filter_In. tauto.
  - right. right. right. right. split; [tauto|]. unfold live in A. destruct (lookup p (wconf w)); [reflexivity|tauto].
Qed.

Lemma owner_nonroot w b n v s : Inv V ss w b n -> In v (dvars b) -> v <> [] ->
  owner (del [] (dvars b)) [] (v ++ s) = Some v.
Proof.
  intros I Hv Hn. apply owner_one.
  - intros x Hx. apply In_del in Hx. destruct Hx as [Hx1 Hx2].
    rewrite (V_one V ss t0 P x); [lia|]. exact (proj1 (i_var _ _ _ _ _ I x Hx2 Hx1)).
  - apply (V_one V ss t0 P). exact (proj1 (i_var _ _ _ _ _ I v Hv Hn)).
  - apply In_del. auto.
Qed.

(** A directory of a variant that was neither removed nor came back. *)
Lemma scan_flag w b n v s : Inv V ss w b n -> In v (dvars b) ->
  v = [] \/ (In v (ddirs b) /\ In v (wdirs w)) -> In s ss ->
  marked (scanned w) (scan w b) v s \/ right (scanned w) (scan w b) v s.
Proof.
  intros I Hv Hd Hs. pose proof (i_srcdirs _ _ _ _ _ I s Hs) as Sw.
  assert (M : In s (dcreate (scan w b)) -> marked (scanned w) (scan w b) v s) by (intros H; left; exact H).
  assert (NE : v <> [] -> missing w b v = false).
  { intros Hn. destruct Hd as [Hd|[_ Hd]]; [tauto|]. apply missing_here, Hd. }
  assert (G : In (v ++ s) (ddirs b) -> ~ In (v ++ s) (wdirs w) -> In s (dcreate (scan w b))).
  { intros H1 H2. destruct v as [|c v]; [elim H2; exact Sw|]. rewrite scan_create. right. right. right. left.
    exists ((c :: v) ++ s). split; [exact H1|]. split; [apply missing_true; auto|].
    unfold scan_missing. rewrite (owner_nonroot w b n _ s I Hv) by discriminate.
    rewrite NE by discriminate. left. apply rest_app. }
  destruct (i_flag _ _ _ _ _ I v s Hv ltac:(tauto) Hs) as [[A|[A|[A C]]]|[A C]].
  - left. apply M. apply scan_create. left. split; [exact A|apply missing_here, Sw].
  - left. apply M. apply scan_create. right. left. exact A.
  - left. destruct (In_dec_path (v ++ s) (wdirs w)) as [D|D].
    + right. right. split; [|exact D]. apply scan_create. left. split; [exact A|apply missing_here, D].
    + apply M, G; assumption.
  - destruct (In_dec_path (v ++ s) (wdirs w)) as [D|D].
    + right. split; [exact D|]. intros o. cbn [scan dgen scanned wtup]. rewrite filter_In, C. cbn [fst].
      rewrite missing_here by exact D. cbn. tauto.
    + left. apply M, G; assumption.
Qed.

Lemma post_scan w b n : Inv V ss w b n -> Post V ss (scanned w) (scan w b) (load w b).
Proof.
  intros I. pose proof (p_top _ _ _ P) as T.
  assert (LD : forall d, In d (dvars b) -> In d (load w b) \/ (d <> [] /\ In d (dconf b) /\ live w d /\ ~ In d (ddirs b))).
  { intros d Hd. destruct (mem d (wdirs w) && negb (mem d (ddirs b))) eqn:E.
    - right. apply andb_true_iff in E. rewrite negb_true_iff, mem_In, mem_not in E. destruct E as [E1 E2].
      assert (d <> []).
      { intros ->. apply E2. apply (i_srcd _ _ _ _ _ I); [|exact T]. intros E. rewrite E in Hd. destruct Hd. }
      destruct (i_gone _ _ _ _ _ I d Hd H E2) as [C1 [_ C3]]. repeat split; auto.
      apply (i_back2 _ _ _ _ _ I). exact (i_back _ _ _ _ _ I d C3 E1).
    - left. apply load_In. split; [exact Hd|]. rewrite <- mem_In, <- mem_not, <- negb_true_iff, <- andb_true_iff, E. discriminate. }
  assert (CH : forall d, lookup d (dnode b) = None \/ lookup d (dnode b) = Some None -> live w d -> In d (changed w b)).
  { intros d H1 H2. apply changed_In. unfold live in H2. destruct (lookup d (wconf w)); [|tauto].
    destruct H1 as [-> | ->]; reflexivity. }
  constructor.
  - apply (i_src _ _ _ _ _ I).
  - apply (i_outs _ _ _ _ _ I).
  - apply (i_wc _ _ _ _ _ I).
  - apply (i_srcdirs _ _ _ _ _ I).
  - reflexivity.
  - reflexivity.
  - intros p Hp. apply (i_dirs _ _ _ _ _ I). left. exact Hp.
  - intros g Hg. cbn [scan dgen]. apply filter_In. pose proof (i_gen _ _ _ _ _ I g Hg) as D. split; [exact D|].
    apply negb_true_iff, missing_here, (i_gdir _ _ _ _ _ I), Hg.
  - apply (i_gdir _ _ _ _ _ I).
  - intros q o H. cbn [scan dgen] in H. apply filter_In in H. apply (i_dgen _ _ _ _ _ I). tauto.
  - apply (i_root _ _ _ _ _ I).
  - intros v Hv Hn. destruct (i_var _ _ _ _ _ I v Hv Hn) as [A [C D]]. split; [exact A|]. split; [|exact D].
    rewrite scan_lookup. destruct (lookup v (wconf w)); [discriminate|]. destruct (lookup v (dnode b)); [discriminate|tauto].
  - intros d [H|H].
    + apply scan_conf in H. destruct H as [H|H]; [|apply (i_keys _ _ _ _ _ I); auto].
      apply changed_key in H. destruct H as [H|H]; [apply (i_wc _ _ _ _ _ I d H)|apply (i_keys _ _ _ _ _ I); auto].
    + rewrite scan_lookup in H. destruct (lookup d (wconf w)) eqn:E.
      * apply (i_wc _ _ _ _ _ I d). congruence.
      * apply (i_keys _ _ _ _ _ I). right. destruct (lookup d (dnode b)); [discriminate|tauto].
  - intros d. rewrite scan_lookup. unfold live. cbn [scanned wconf]. destruct (lookup d (wconf w)) as [t|].
    + split; [discriminate|]. intros _. eauto.
    + split; [|tauto]. intros [t H]. destruct (lookup d (dnode b)); discriminate.
  - intros d Hn Hl Hc. rewrite scan_conf in Hc.
    destruct (lookup d (dnode b)) as [[t|]|] eqn:E.
    + destruct (i_live _ _ _ _ _ I d t Hn E ltac:(tauto)) as [A C]. apply load_In. tauto.
    + elim Hc. left. apply CH; auto.
    + elim Hc. left. apply CH; auto.
  - intros d Hv Hn Hl.
    assert (C : In d (dconf (scan w b))).
    { apply scan_conf. destruct (i_var _ _ _ _ _ I d Hv Hn) as [_ [C _]].
      destruct (lookup d (dnode b)) as [[t|]|] eqn:E; [left|right|tauto].
      - apply changed_In. rewrite E. destruct (live_dec w d) as [Q| ->]; [elim Hl; exact Q|reflexivity].
      - exact (i_ghost _ _ _ _ _ I d Hv Hn E). }
    split; [exact C|]. destruct (LD d Hv) as [H|[_ [_ [H _]]]]; [exact H|elim Hl; exact H].
  - intros d Hn Hl Hc Hld. apply scan_create.
    destruct (In_dec_path d (dvars b)) as [Hv|Hv].
    + destruct (LD d Hv) as [H|[_ [_ [_ H]]]]; [elim Hld; exact H|]. right. right. left.
      split; [apply (i_wc _ _ _ _ _ I d Hl)|exact H].
    + destruct (lookup d (dnode b)) as [[t|]|] eqn:E.
      * destruct (In_dec_path d (dconf b)) as [Q|Q].
        -- left. split; [exact (i_new _ _ _ _ _ I d t Hn E Q Hv)|]. apply missing_here, (i_wc _ _ _ _ _ I d Hl).
        -- elim Hv. apply (i_live _ _ _ _ _ I d t Hn E Q).
      * right. right. right. right. split; [apply CH; auto|exact Hl].
      * right. right. right. right. split; [apply CH; auto|exact Hl].
  - intros d H. apply load_In in H. tauto.
  - intros d H. destruct (LD d H) as [A|[A [C [D _]]]]; [left; exact A|right]. split; [exact A|]. split; [|exact D].
    apply scan_conf. right. exact C.
  - intros v s Hv Hl Hs. pose proof (proj1 (load_In w b v) Hv) as [A C]. apply (scan_flag w b n); auto.
    destruct Hl as [Hl|Hl]; [left; exact Hl|right].
    pose proof (proj2 (i_wc _ _ _ _ _ I v Hl)) as D. split; [|exact D].
    destruct (In_dec_path v (ddirs b)) as [Q|Q]; [exact Q|]. elim C. auto.
  - intros E. destruct (i_init _ _ _ _ _ I E) as [A C]. split.
    + cbn [scan dgen]. rewrite A. reflexivity.
    + intros s Hs. apply scan_create. pose proof (i_srcdirs _ _ _ _ _ I s Hs) as Sw.
      destruct (C s Hs) as [D|D]; [left|right; right; left; auto]. split; [exact D|apply missing_here, Sw].
Qed.

(** A failed update may have removed more from the disk. *)
Record shrunk (w w1 : world) : Prop := {
  h_src : srcs w1 = srcs w; h_conf : wconf w1 = wconf w; h_tup : wtup w1 = wtup w; h_extra : wextra w1 = wextra w; h_dirty : wdirty w1 = wdirty w;
  h_gen : forall g, In g (wgen w1) -> In g (wgen w) /\ In (fst g) (wdirs w1);
  h_dirs : forall p, In p (wdirs w1) -> In p (wdirs w);
  h_keep : forall p, In p (wdirs w) -> In p (srcs w) \/ length p <= 1 -> In p (wdirs w1) }.

Lemma inv_scan w b n w1 : Inv V ss w b n -> back n = [] -> shrunk (scanned w) w1 ->
  Inv V ss w1 (scan w b) {| away := away n; gone := away n ++ gone n; back := [] |}.
Proof.
  intros I HB [h1 h2 h3 h3' h4 h5 h6 h7]. pose proof (post_scan w b n I) as J.
  assert (NB : forall d, In d (dvars b) -> d <> [] -> In d (wdirs w) -> In d (ddirs b)).
  { intros d Hd Hn Hw. destruct (In_dec_path d (ddirs b)) as [Q|Q]; [exact Q|].
    destruct (i_gone _ _ _ _ _ I d Hd Hn Q) as [_ [_ C]]. pose proof (i_back _ _ _ _ _ I d C Hw) as E.
    rewrite HB in E. destruct E. }
  assert (V1 : forall d, V d -> length d <= 1) by (intros d Hd; rewrite (V_one V ss t0 P d Hd); lia).
  constructor; cbn [away gone back].
  - rewrite h1. apply (j_src _ _ _ _ _ J).
  - rewrite h3. apply (j_outs _ _ _ _ _ J).
  - rewrite h2. intros d Hd. destruct (j_wc _ _ _ _ _ J d Hd) as [A C]. split; [exact A|]. apply h7; [exact C|].
    right. destruct A as [-> |A]; [cbn; lia|auto].
  - intros s Hs. apply h7; [apply (j_srcdirs _ _ _ _ _ J), Hs|]. left. rewrite (j_src _ _ _ _ _ J). exact Hs.
  - intros _ s Hs. rewrite (j_eq _ _ _ _ _ J). apply (j_srcdirs _ _ _ _ _ J), Hs.
  - intros p Hp. apply (j_dirs _ _ _ _ _ J). destruct Hp as [Hp|Hp]; [|exact Hp]. apply h6 in Hp. exact Hp.
  - intros g Hg. apply (j_gen _ _ _ _ _ J). apply h5. exact Hg.
  - intros g Hg. apply h5. exact Hg.
  - apply (j_dgen _ _ _ _ _ J).
  - apply (j_root _ _ _ _ _ J).
  - apply (j_var _ _ _ _ _ J).
  - apply (j_keys _ _ _ _ _ J).
  - intros d t Hn E Hc.
    assert (Hl : live (scanned w) d) by (apply (j_node _ _ _ _ _ J); eauto).
    split; [apply (j_load _ _ _ _ _ J), (j_live _ _ _ _ _ J); auto|]. rewrite (j_eq _ _ _ _ _ J).
    apply (j_wc _ _ _ _ _ J), Hl.
  - intros d Hv Hn E. apply (j_ghost _ _ _ _ _ J); auto. intros Hl. apply (j_node _ _ _ _ _ J) in Hl. destruct Hl. congruence.
  - intros d t Hn E Hc Hv. apply (j_new _ _ _ _ _ J); auto.
    + apply (j_node _ _ _ _ _ J). eauto.
    + intros H. apply Hv, (j_load _ _ _ _ _ J), H.
  - intros d Hv Hn Hd. change (~ In d (wdirs w)) in Hd.
    assert (Hl : ~ live (scanned w) d) by (intros Hl; apply Hd, (i_wc _ _ _ _ _ I d Hl)).
    split; [apply (j_ghost _ _ _ _ _ J); auto|]. split.
    + destruct (j_var _ _ _ _ _ J d Hv Hn) as [_ [A _]]. pose proof (j_node _ _ _ _ _ J d) as B'.
      destruct (lookup d (dnode (scan w b))) as [[t|]|]; [|reflexivity|tauto]. elim Hl. apply B'. eauto.
    + apply in_app_iff. apply (i_miss _ _ _ _ _ I); auto.
  - intros d Hv Hn Hd.
    assert (Q : ~ In d (wdirs w)).
    { intros Q. apply Hd, h7; [exact Q|]. right. apply V1. apply (i_var _ _ _ _ _ I d Hv Hn). }
    right. apply in_app_iff. apply (i_miss _ _ _ _ _ I); auto.
  - intros d Hd Hw. apply h6 in Hw. exact (i_away _ _ _ _ _ I d Hd Hw).
  - intros d Hd. rewrite in_app_iff in Hd. apply (i_notes _ _ _ _ _ I). tauto.
  - intros d Hd Hw. apply h6 in Hw. apply in_app_iff in Hd. destruct Hd as [Hd|Hd].
    + elim (i_away _ _ _ _ _ I d Hd Hw).
    + rewrite <- HB. exact (i_back _ _ _ _ _ I d Hd Hw).
  - intros d [].
  - intros v s Hv Hd Hs.
    assert (Q : v = [] \/ (In v (ddirs b) /\ In v (wdirs w))).
    { destruct v as [|c v]; [left; reflexivity|]. right. destruct Hd as [Hd|Hd]; [discriminate|].
      split; [apply NB; [exact Hv|discriminate|exact Hd]|exact Hd]. }
    destruct (scan_flag w b n v s I Hv Q Hs) as [A|A]; [left|right].
    + destruct A as [A|[A|A]]; [left; exact A|destruct A|right; right; exact A].
    + unfold right in *. rewrite h3. exact A.
  - intros E. destruct (j_init _ _ _ _ _ J E) as [A C]. split; [exact A|]. intros s Hs. left. auto.
Qed.
Lemma shrunk_refl w : (forall g, In g (wgen w) -> In (fst g) (wdirs w)) -> shrunk w w.
Proof. intros H. constructor; auto. Qed.
End Scan.
