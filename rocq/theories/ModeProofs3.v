(** The config list. *)
From Verif Require Import Base ModeModel ModeSpec ModeProofs ModeProofs2.

Lemma shrunk_trans w w1 w2 : shrunk w w1 -> shrunk w1 w2 -> shrunk w w2.
Proof.
  intros A C. destruct A, C. constructor; try congruence; auto.
  - intros g Hg. destruct (h_gen0 g Hg) as [D E]. split; [|exact E]. apply h_gen, D.
  - intros p Hp Hs. apply h_keep0; [|rewrite h_src; exact Hs]. apply h_keep; auto.
Qed.
Lemma below_len d p : below d p = true -> length d < length p.
Proof. rewrite below_iff. intros [c [r ->]]. rewrite app_length. cbn. lia. Qed.
Lemma below_not_under d p : under d p = false -> below d p = false.
Proof. intros H. destruct (below d p) eqn:E; [|reflexivity]. apply below_under in E. congruence. Qed.
Lemma shrunk_clear d w : d <> [] -> (forall g, In g (wgen w) -> In (fst g) (wdirs w)) ->
  (forall s, In s (srcs w) -> below d s = false) -> shrunk w (clear_world d w).
Proof.
  intros D G S. constructor; try reflexivity; cbn [clear_world with_dirs wgen wdirs].
  - intros g Hg. apply filter_In in Hg. destruct Hg as [Hg U]. split; [exact Hg|]. apply filter_In. split; [auto|].
    apply negb_true_iff in U. apply negb_true_iff. apply below_not_under. exact U.
  - intros p Hp. apply filter_In in Hp. tauto.
  - intros p Hp Hs. apply filter_In. split; [exact Hp|]. apply negb_true_iff. destruct Hs as [Hs|Hs]; [auto|].
    destruct (below d p) eqn:E; [|reflexivity]. apply below_len in E. destruct d; [congruence|cbn in E; lia].
Qed.
Lemma under_refl d : under d d = true.
Proof. apply under_iff. exists []. rewrite app_nil_r. reflexivity. Qed.
Definition drop_world (t : path) (w : world) : world :=
  with_dirs (clear_world t w) (wgen (clear_world t w)) (del t (wdirs (clear_world t w))).
Definition drop_db (t : path) (b : db) : db :=
  let b1 := clear_db t b in
  {| dnode := dnode b1; dconf := dconf b1; dvars := dvars b1;
     dcreate := del t (dcreate b1); dgen := dgen b1; ddirs := del t (ddirs b1) |}.
Lemma under_split t p : under t p = false -> t <> p /\ below t p = false.
Proof.
  intros H. split; [intros <-; rewrite under_refl in H; discriminate|apply below_not_under, H].
Qed.
Lemma split_under t p : p <> t -> below t p = false -> under t p = false.
Proof.
  intros A C. destruct (under t p) eqn:E; [|reflexivity]. apply under_iff in E. destruct E as [r ->].
  destruct r as [|c r]; [rewrite app_nil_r in A; congruence|].
  assert (below t (t ++ c :: r) = true) by (apply below_iff; eauto). congruence.
Qed.
Lemma shrunk_drop t w : 1 < length t -> (forall g, In g (wgen w) -> In (fst g) (wdirs w)) ->
  (forall s, In s (srcs w) -> under t s = false) -> shrunk w (drop_world t w).
Proof.
  intros D G S. constructor; try reflexivity; cbn [drop_world clear_world with_dirs wgen wdirs].
  - intros g Hg. apply filter_In in Hg. destruct Hg as [Hg U]. split; [exact Hg|]. apply negb_true_iff in U.
    apply under_split in U. apply In_del. split; [intuition congruence|]. apply filter_In. split; [auto|].
    apply negb_true_iff. tauto.
  - intros p Hp. apply In_del in Hp. destruct Hp as [_ Hp]. apply filter_In in Hp. tauto.
  - intros p Hp Hs. destruct Hs as [Hs|Hs].
    + specialize (S p Hs). apply under_split in S. apply In_del. split; [intuition congruence|].
      apply filter_In. split; [exact Hp|]. apply negb_true_iff. tauto.
    + apply In_del. split; [intros ->; lia|]. apply filter_In. split; [exact Hp|]. apply negb_true_iff.
      destruct (below t p) eqn:E; [|reflexivity]. apply below_len in E. lia.
Qed.

(** What is in a region may be gone, all else is kept. *)
Record pruned (P : path -> Prop) (w : world) (b : db) (w1 : world) (b1 : db) : Prop := {
  q_eq : ddirs b = wdirs w -> ddirs b1 = wdirs w1;
  q_dsub : forall p, In p (ddirs b1) -> In p (ddirs b);
  q_dkeep : forall p, In p (ddirs b) -> ~ P p -> In p (ddirs b1);
  q_gsub : forall g, In g (dgen b1) -> In g (dgen b);
  q_gkeep : forall g, In g (dgen b) -> ~ P (fst g) -> In g (dgen b1);
  q_wg : (forall g, In g (wgen w) -> In g (dgen b)) -> forall g, In g (wgen w1) -> In g (dgen b1);
  q_ckeep : forall p, In p (dcreate b) -> ~ P p -> In p (dcreate b1);
  q_conf : forall p, In p (dconf b1) -> In p (dconf b);
  q_node : forall p, ~ P p -> lookup p (dnode b1) = lookup p (dnode b);
  q_nsub : forall p, lookup p (dnode b1) <> None -> lookup p (dnode b) <> None;
  q_vsub : forall p, In p (dvars b1) -> In p (dvars b);
  q_vkeep : forall p, In p (dvars b) -> ~ P p -> In p (dvars b1) }.
Lemma pruned_refl P w b : pruned P w b w b.
Proof. constructor; auto. Qed.
Lemma pruned_trans (P : path -> Prop) w b w1 b1 w2 b2 : pruned P w b w1 b1 -> pruned P w1 b1 w2 b2 -> pruned P w b w2 b2.
Proof.
  intros A C. destruct A, C. constructor; intros; eauto.
  rewrite q_node1, q_node0 by assumption. reflexivity.
Qed.
Lemma pruned_weak (P Q : path -> Prop) w b w1 b1 : (forall p, P p -> Q p) -> pruned P w b w1 b1 -> pruned Q w b w1 b1.
Proof. intros H A. destruct A. constructor; intros; eauto. Qed.

Lemma pruned_clear d w b : pruned (fun p => under d p = true) w b (clear_world d w) (clear_db d b).
Proof.
  assert (K : forall p, under d p <> true -> negb (below d p) = true).
  { intros p H. apply negb_true_iff, below_not_under, not_true_iff_false, H. }
  constructor; cbn [clear_world with_dirs clear_db wdirs wgen dnode dconf dvars dcreate dgen ddirs].
  - intros ->. reflexivity.
  - intros p H. apply filter_In in H. tauto.
  - intros p H N. apply filter_In. auto.
  - intros g H. apply filter_In in H. tauto.
  - intros g H N. apply filter_In. split; [exact H|]. apply negb_true_iff, not_true_iff_false, N.
  - intros H g Hg. apply filter_In in Hg. apply filter_In. split; [apply H|]; tauto.
  - intros p H N. apply filter_In. auto.
  - intros p H. apply filter_In in H. tauto.
  - intros p N. rewrite (lookup_filter (fun q => negb (below d q))). rewrite (K p N). reflexivity.
  - intros p. rewrite (lookup_filter (fun q => negb (below d q))). destruct (negb (below d p)); [auto|congruence].
  - intros p H. apply filter_In in H. tauto.
  - intros p H N. apply filter_In. auto.
Qed.
Lemma pruned_drop d w b : pruned (fun p => under d p = true) w b (drop_world d w) (drop_db d b).
Proof.
  assert (K : forall p, under d p <> true -> p <> d).
  { intros p H ->. rewrite under_refl in H. congruence. }
  destruct (pruned_clear d w b). constructor; cbn [drop_world with_dirs drop_db wdirs wgen dnode dconf dvars dcreate dgen ddirs]; auto.
  - intros H. rewrite (q_eq0 H). reflexivity.
  - intros p H. apply In_del in H. apply q_dsub0. tauto.
  - intros p H N. apply In_del. auto.
  - intros p H N. apply In_del. auto.
Qed.

Lemma delete_dirs_spec name vs : forall w b,
  (forall v, In v vs -> v <> [] -> forall s, In s (srcs w) -> under (v ++ [name]) s = false) ->
  (forall g, In g (wgen w) -> In (fst g) (wdirs w)) ->
  match delete_dirs vs name w b with
  | Bad w1 => shrunk w w1
  | Good (w1, b1) => shrunk w w1 /\ pruned (fun p => exists v, In v vs /\ v <> [] /\ under (v ++ [name]) p = true) w b w1 b1
  end.
Proof.
  induction vs as [|v r IH]; intros w b S G; cbn [delete_dirs].
  - split; [apply shrunk_refl, G|apply pruned_refl].
  - destruct (path_eqb v []) eqn:E.
    + specialize (IH w b (fun v H => S v (or_intror H)) G). destruct (delete_dirs r name w b) as [[w1 b1]|w1]; [|exact IH].
      split; [tauto|]. eapply pruned_weak; [|apply IH]. intros p [x [H K]]. exists x. split; [right; exact H|exact K].
    + apply path_eqb_neq in E.
      assert (T : 1 < length (v ++ [name])) by (rewrite app_length; destruct v; [congruence|cbn; lia]).
      assert (SV : forall s, In s (srcs w) -> under (v ++ [name]) s = false) by (apply S; [left; reflexivity|exact E]).
      destruct (mem (v ++ [name]) (ddirs b)) eqn:M.
      * destruct (stuck w (v ++ [name]) || _ || _).
        -- apply shrunk_clear; [destruct v; discriminate|exact G|]. intros s Hs. apply below_not_under. auto.
        -- pose proof (shrunk_drop (v ++ [name]) w T G SV) as SD. pose proof (pruned_drop (v ++ [name]) w b) as PD.
           change (with_dirs _ _ _) with (drop_world (v ++ [name]) w).
           change {| dnode := _; dconf := _; dvars := _; dcreate := _; dgen := _; ddirs := _ |} with (drop_db (v ++ [name]) b).
           specialize (IH (drop_world (v ++ [name]) w) (drop_db (v ++ [name]) b) (fun v H => S v (or_intror H))
             (fun g H => proj2 (h_gen _ _ SD g H))).
           destruct (delete_dirs r name _ _) as [[w1 b1]|w1].
           ++ destruct IH as [A C]. split; [eapply shrunk_trans; eauto|].
              eapply pruned_trans; [eapply pruned_weak; [|exact PD]|eapply pruned_weak; [|exact C]].
              ** intros p H. exists v. cbn. auto.
              ** intros p [x [H K]]. exists x. split; [right; exact H|exact K].
           ++ eapply shrunk_trans; eauto.
      * match goal with |- context [if ?x then Bad w else _] => destruct x end; [apply shrunk_refl, G|].
        specialize (IH w b (fun v H => S v (or_intror H)) G). destruct (delete_dirs r name w b) as [[w1 b1]|w1]; [|exact IH].
        split; [tauto|]. eapply pruned_weak; [|apply IH]. intros p [x [H K]]. exists x. split; [right; exact H|exact K].
Qed.

Section Config.
Variables (V : path -> Prop) (ss : list path) (t0 : path -> list bytes).
Hypothesis P : project V ss t0.
Variables (w0 : world) (b0 : db) (L : list path).
Hypothesis J : Post V ss w0 b0 L.

Record Loop (r : list path) (c : cstate) : Prop := {
  l_world : shrunk w0 (cw c);
  l_eq : ddirs (cb c) = wdirs (cw c);
  l_gen : forall g, In g (wgen (cw c)) -> In g (dgen (cb c));
  l_dgen0 : forall g, In g (dgen (cb c)) -> In g (dgen b0);
  l_dgen : forall q o, In (q, o) (dgen (cb c)) -> exists v s, In v (dvars b0) /\ In v (dvars (cb c)) /\
             In s ss /\ q = v ++ s /\ ~ V (s ++ [o]) /\ ~ In (s ++ [o]) ss;
  l_ghost : forall d, V d -> (ghost (cb c) d = false <-> live w0 d);
  l_var : forall v, In v (dvars (cb c)) -> v <> [] ->
             V v /\ lookup v (dnode (cb c)) <> None /\ forall s, In s ss -> under v s = false;
  l_keys : forall d, lookup d (dnode (cb c)) <> None -> d = [] \/ V d;
  l_conf : forall d, In d (dconf (cb c)) -> In d r;
  l_rest : forall d, In d r -> In d (dconf b0);
  l_load : forall v, In v (loaded c) -> In v (dvars (cb c));
  l_load2 : forall v, In v (dvars (cb c)) -> In v (loaded c) \/ (v <> [] /\ In v r /\ live w0 v);
  l_live : forall v, v <> [] -> live w0 v -> ~ In v r -> In v (loaded c);
  l_dead : forall v, In v (loaded c) -> v <> [] -> live w0 v \/ In v r;
  l_keep : forall v, In v L -> v = [] \/ live w0 v -> In v (loaded c);
  l_old : forall v, In v (loaded c) -> ~ In v (newv c) -> In v L \/ v = [];
  l_flag : forall v s, In v (loaded c) -> In v L -> (v = [] \/ live w0 v) -> In s ss ->
             marked (cw c) (cb c) v s \/ right (cw c) (cb c) v s;
  l_new : forall v, In v (newv c) -> In v (loaded c) /\ v <> [] /\ live w0 v /\ ~ In v L;
  l_create : forall p, In p (dcreate b0) -> In p ss \/ length p <= 1 -> In p (dcreate (cb c));
  l_dirs : forall p, In p (ddirs (cb c)) -> In p ss \/ V p \/ exists v, In v (dvars (cb c)) /\ v <> [] /\ (below v p = true /\ inside V ss v p);
  l_removed : (forall v, In v (dvars b0) -> In v (dvars (cb c))) \/ removed c = true;
  l_fresh : fresh c = true <-> exists v, In v (newv c) }.

Lemma loop_start : Loop (dconf b0) {| cw := w0; cb := b0; loaded := L; newv := []; removed := false; fresh := false |}.
Proof.
  constructor; cbn [cw cb loaded newv removed fresh]; try (destruct J; auto; fail).
  - apply shrunk_refl, (j_gdir _ _ _ _ _ J).
  - intros q o H. destruct (j_dgen _ _ _ _ _ J q o H) as [v [s [A C]]]. exists v, s. tauto.
  - intros d Hd. rewrite <- (j_node _ _ _ _ _ J d). unfold ghost. destruct (lookup d (dnode b0)) as [[t|]|].
    + split; eauto.
    + split; [discriminate|intros [? ?]; discriminate].
    + split; [discriminate|intros [? ?]; discriminate].
  - intros v Hv Hn. destruct (live_dec w0 v) as [A|A]; [left; exact A|right]. apply (j_ghost _ _ _ _ _ J); auto.
    apply (j_load _ _ _ _ _ J), Hv.
  - intros v [].
  - split; [discriminate|intros [? []]].
Qed.

Lemma config_node_loop n r c : Loop (n :: r) c ->
  match config_node n c with Bad w1 => shrunk w0 w1 | Good c' => Loop r c' end.
Proof.
  intros I. pose proof (j_keys _ _ _ _ _ J n (or_introl (l_rest _ _ I n (or_introl eq_refl)))) as KN.
  pose proof (fun g H => proj2 (h_gen _ _ (l_world _ _ I) g H)) as GD.
  assert (SS : srcs (cw c) = ss) by (rewrite (h_src _ _ (l_world _ _ I)); apply (j_src _ _ _ _ _ J)).
  pose proof (V_one V ss t0 P) as V1.
  unfold config_node. destruct (ghost (cb c) n && negb (path_eqb n [])) eqn:E.
  - apply andb_true_iff in E. destruct E as [E1 E2]. apply negb_true_iff, path_eqb_neq in E2.
    destruct KN as [KN|KN]; [congruence|].
    assert (NL : ~ live w0 n) by (intros H; apply (l_ghost _ _ I n KN) in H; congruence).
    destruct (mem n (loaded c)) eqn:M.
    + apply mem_In in M. destruct n as [|a [|x y]]; [congruence| |apply V1 in KN; discriminate].
      destruct (l_var _ _ I _ (l_load _ _ I _ M) E2) as [_ [_ NS]].
      assert (SC : shrunk (cw c) (clear_world [a] (cw c))).
      { apply shrunk_clear; [discriminate|exact GD|]. rewrite SS. intros s Hs. apply below_not_under; auto. }
      assert (SH : shrunk w0 (clear_world [a] (cw c))) by (eapply shrunk_trans; [apply (l_world _ _ I)|exact SC]).
      destruct (stuck (cw c) [a]); [exact SH|].
      pose proof (pruned_clear [a] (cw c) (cb c)) as Q.
      assert (VO : forall d, d = [] \/ V d -> d <> [a] -> ~ under [a] d = true).
      { intros d [-> |Hd] Hn H; [discriminate H|]. apply V1 in Hd. apply Hn. symmetry.
        apply (one_under [a] d []); [reflexivity|exact Hd|rewrite app_nil_r; exact H]. }
      assert (VS : forall v s, v = [] \/ V v -> v <> [a] -> In s ss -> ~ under [a] (v ++ s) = true).
      { intros v s [-> |Hv] Hn Hs H; [cbn in H; rewrite (NS s Hs) in H; discriminate|]. apply V1 in Hv.
        apply Hn. symmetry. eapply one_under; eauto. }
      assert (VV : forall v, In v (dvars (cb c)) -> v = [] \/ V v).
      { intros v Hv. destruct v as [|x y]; [left; reflexivity|right]. apply (l_var _ _ I); [exact Hv|discriminate]. }
      constructor; cbn [cw cb loaded newv removed fresh forget_config dnode dconf dvars dcreate dgen ddirs].
      * exact SH.
      * apply (q_eq _ _ _ _ _ Q), (l_eq _ _ I).
      * apply (q_wg _ _ _ _ _ Q), (l_gen _ _ I).
      * intros g Hg. apply (l_dgen0 _ _ I), (q_gsub _ _ _ _ _ Q), Hg.
      * intros q o H. cbn [clear_db dgen] in H. apply filter_In in H. destruct H as [H U].
        destruct (l_dgen _ _ I q o H) as [v [s [A1 [A2 [A3 [A4 A5]]]]]]. exists v, s. split; [exact A1|]. split; [|tauto].
        assert (v <> [a]).
        { intros ->. cbn [fst] in U. apply negb_true_iff in U. rewrite A4 in U.
          assert (under [a] ([a] ++ s) = true) by (apply under_iff; eauto). congruence. }
        apply In_del. split; [assumption|]. apply (q_vkeep _ _ _ _ _ Q); [auto|auto].
      * intros d Hd. rewrite <- (l_ghost _ _ I d Hd). unfold ghost. cbn [dnode forget_config unflag_config set_vars].
        rewrite (lookup_filter (fun q => negb (path_eqb [a] q))). destruct (path_eqb [a] d) eqn:X.
        -- apply path_eqb_eq in X. subst d. cbn [negb]. unfold ghost in E1. rewrite E1. tauto.
        -- apply path_eqb_neq in X. cbn [negb]. rewrite (q_node _ _ _ _ _ Q); [tauto|]. apply VO; auto.
      * intros v Hv Hn. apply In_del in Hv. destruct Hv as [Hna Hv]. apply (q_vsub _ _ _ _ _ Q) in Hv.
        destruct (l_var _ _ I v Hv Hn) as [A1 [A2 A3]]. split; [exact A1|]. split; [|exact A3].
        rewrite (lookup_filter (fun q => negb (path_eqb [a] q))). destruct (path_eqb [a] v) eqn:X.
        -- apply path_eqb_eq in X. congruence.
        -- cbn [negb]. rewrite (q_node _ _ _ _ _ Q); [exact A2|]. apply VO; auto.
      * intros d. rewrite (lookup_filter (fun q => negb (path_eqb [a] q))). destruct (negb (path_eqb [a] d)); [|congruence].
        intros H. apply (q_nsub _ _ _ _ _ Q) in H. apply (l_keys _ _ I), H.
      * intros d Hd. apply In_del in Hd. destruct Hd as [Hn Hd]. apply (q_conf _ _ _ _ _ Q) in Hd.
        apply (l_conf _ _ I) in Hd. destruct Hd; [congruence|assumption].
      * intros d Hd. apply (l_rest _ _ I). right. exact Hd.
      * intros v Hv. apply In_del in Hv. destruct Hv as [Hn Hv]. apply (l_load _ _ I) in Hv.
        apply In_del. split; [exact Hn|]. apply (q_vkeep _ _ _ _ _ Q); [auto|auto].
      * intros v Hv. apply In_del in Hv. destruct Hv as [Hn Hv]. apply (q_vsub _ _ _ _ _ Q) in Hv.
        destruct (l_load2 _ _ I v Hv) as [A|[A [[C|C] D]]]; [left; apply In_del; auto|congruence|right; auto].
      * intros v Hn Hl Hr. apply In_del. split; [intros ->; auto|]. apply (l_live _ _ I); auto. intros [<- |H]; auto.
      * intros v Hv Hn. apply In_del in Hv. destruct Hv as [Hna Hv].
        destruct (l_dead _ _ I v Hv Hn) as [A|[A|A]]; [auto|congruence|auto].
      * intros v Hv Hl. apply In_del. split; [intros ->; destruct Hl as [Hl|Hl]; [congruence|auto]|]. apply (l_keep _ _ I); auto.
      * intros v Hv Hn. apply In_del in Hv. apply (l_old _ _ I); tauto.
      * intros v s Hv HL Hl Hs. apply In_del in Hv. destruct Hv as [Hn Hv].
        assert (U : ~ under [a] (v ++ s) = true) by (apply VS; auto; apply VV, (l_load _ _ I), Hv).
        assert (U2 : ~ under [a] s = true) by (rewrite NS by exact Hs; discriminate).
        assert (CK : forall p, In p (dcreate (clear_db [a] (cb c))) ->
                  In p (if mem [a] (ddirs (clear_db [a] (cb c))) then add [a] (dcreate (clear_db [a] (cb c))) else dcreate (clear_db [a] (cb c)))).
        { intros p Hp. destruct (mem [a] _); [apply In_add; right|]; exact Hp. }
        destruct (l_flag _ _ I v s Hv HL Hl Hs) as [[A|[A|[A1 A2]]]|[A1 A2]].
        -- left. left. apply CK, (q_ckeep _ _ _ _ _ Q); auto.
        -- left. right. left. exact A.
        -- left. right. right. split; [apply CK, (q_ckeep _ _ _ _ _ Q)|apply (q_dkeep _ _ _ _ _ Q)]; auto.
        -- right. split; [apply (q_dkeep _ _ _ _ _ Q); auto|]. intros o. cbn [dgen forget_config].
           change (wtup (clear_world [a] (cw c))) with (wtup (cw c)). rewrite <- A2. split.
           ++ apply (q_gsub _ _ _ _ _ Q).
           ++ intros H. apply (q_gkeep _ _ _ _ _ Q); auto.
      * intros v Hv. destruct (l_new _ _ I v Hv) as [A [C [D F]]]. split; [|auto]. apply In_del. split; [intros ->; auto|exact A].
      * intros p Hp Hs.
        assert (X : In p (dcreate (clear_db [a] (cb c)))).
        { pose proof (l_create _ _ I p Hp Hs) as X. cbn [clear_db dcreate]. apply filter_In. split; [exact X|].
          apply negb_true_iff. destruct Hs as [Hs|Hs]; [apply below_not_under; auto|].
          destruct (below [a] p) eqn:Y; [|reflexivity]. apply below_len in Y. cbn in Y. lia. }
        destruct (mem [a] _); [apply In_add; right|]; exact X.
      * intros p Hp. cbn [clear_db ddirs] in Hp. apply filter_In in Hp. destruct Hp as [Hp U]. apply negb_true_iff in U.
        destruct (l_dirs _ _ I p Hp) as [A|[A|[v [A1 [A2 A3]]]]]; [auto|auto|right; right].
        exists v. split; [|auto]. apply In_del. assert (v <> [a]) by (destruct A3; congruence). split; [assumption|].
        apply (q_vkeep _ _ _ _ _ Q); [auto|auto].
      * right. reflexivity.
      * apply (l_fresh _ _ I).
    + apply mem_not in M.
      assert (ND : ~ In n (dvars (cb c))) by (intros H; destruct (l_load2 _ _ I n H) as [A|[_ [_ A]]]; auto).
      constructor; cbn [cw cb loaded newv removed fresh unflag_config dnode dconf dvars dcreate dgen ddirs];
        try (destruct I; auto; fail).
      * intros d Hd. apply In_del in Hd. destruct Hd as [Hn Hd]. apply (l_conf _ _ I) in Hd. destruct Hd; [congruence|assumption].
      * intros d Hd. apply (l_rest _ _ I). right. exact Hd.
      * intros v Hv. destruct (l_load2 _ _ I v Hv) as [A|[A [[C|C] D]]]; [auto|congruence|auto].
      * intros v Hn Hl Hr. apply (l_live _ _ I); auto. intros [<- |H]; auto.
      * intros v Hv Hn. destruct (l_dead _ _ I v Hv Hn) as [A|[A|A]]; [auto|congruence|auto].
  - assert (LV : n <> [] -> live w0 n).
    { intros H. destruct KN as [KN|KN]; [congruence|]. apply (l_ghost _ _ I n KN). apply path_eqb_neq in H.
      rewrite H in E. cbn [negb] in E. rewrite andb_true_r in E. exact E. }
    destruct (mem n (loaded c)) eqn:M.
    + apply mem_In in M.
      constructor; cbn [cw cb loaded newv removed fresh unflag_config dnode dconf dvars dcreate dgen ddirs];
        try (destruct I; auto; fail).
      * intros d Hd. apply In_del in Hd. destruct Hd as [Hn Hd]. apply (l_conf _ _ I) in Hd. destruct Hd; [congruence|assumption].
      * intros d Hd. apply (l_rest _ _ I). right. exact Hd.
      * intros v Hv. destruct (l_load2 _ _ I v Hv) as [A|[A [[C|C] D]]]; [auto|left; congruence|auto].
      * intros v Hn Hl Hr. destruct (In_dec_path v [n]) as [[<- |[]]|X]; [exact M|].
        apply (l_live _ _ I); auto. intros [<- |H]; auto. apply X. left. reflexivity.
      * intros v Hv Hn. destruct (l_dead _ _ I v Hv Hn) as [A|[A|A]]; [auto| |auto]. left. subst v. auto.
    + apply mem_not in M. destruct (path_eqb n []) eqn:N0.
      * apply path_eqb_eq in N0. subst n.
        assert (DL : forall v, In v (add_last [] (dvars (cb c))) -> v = [] \/ In v (dvars (cb c))).
        { intros v Hv. apply In_add_last in Hv. exact Hv. }
        constructor; cbn [cw cb loaded newv removed fresh unflag_config set_vars dnode dconf dvars dcreate dgen ddirs];
          try (destruct I; auto; fail).
        -- intros q o H. destruct (l_dgen _ _ I q o H) as [v [s A]]. exists v, s. rewrite In_add_last. tauto.
        -- intros v Hv Hn. apply DL in Hv. destruct Hv as [-> |Hv]; [congruence|]. apply (l_var _ _ I); auto.
        -- intros d Hd. apply In_del in Hd. destruct Hd as [Hn Hd]. apply (l_conf _ _ I) in Hd. destruct Hd; [congruence|assumption].
        -- intros d Hd. apply (l_rest _ _ I). right. exact Hd.
        -- intros v [<- |Hv]; apply In_add_last; [left; reflexivity|right]. apply (l_load _ _ I), Hv.
        -- intros v Hv. apply DL in Hv. destruct Hv as [-> |Hv]; [left; left; reflexivity|].
           destruct (l_load2 _ _ I v Hv) as [A|[A [[C|C] D]]]; [left; right; auto|congruence|auto].
        -- intros v Hn Hl Hr. right. apply (l_live _ _ I); auto. intros [<- |H]; auto.
        -- intros v [<- |Hv] Hn; [congruence|]. destruct (l_dead _ _ I v Hv Hn) as [A|[A|A]]; [auto|congruence|auto].
        -- intros v Hv Hl. right. apply (l_keep _ _ I); auto.
        -- intros v [<- |Hv] Hn; [right; reflexivity|]. apply (l_old _ _ I); auto.
        -- intros v s Hv HL Hl Hs. destruct (l_flag _ _ I v s) as [A|A]; auto. apply (l_keep _ _ I); auto.
        -- intros v Hv. destruct (l_new _ _ I v Hv) as [A C]. split; [right; exact A|exact C].
        -- intros p Hp. destruct (l_dirs _ _ I p Hp) as [A|[A|[v A]]]; [auto|auto|right; right]. exists v.
           rewrite In_add_last. tauto.
        -- destruct (l_removed _ _ I) as [A|A]; [left|right; exact A]. intros v Hv. apply In_add_last. auto.
      * apply path_eqb_neq in N0. destruct KN as [KN|KN]; [congruence|]. specialize (LV N0).
        destruct (check_empty (cw c) n) eqn:CE; [|apply (l_world _ _ I)].
        assert (NS : forall s, In s ss -> under n s = false).
        { intros s Hs. unfold check_empty in CE. rewrite !andb_true_iff in CE. destruct CE as [[[C1 C2] _] _].
          rewrite SS in C1. apply negb_true_iff, mem_not in C1. apply split_under; [intros ->; auto|].
          destruct (below n s) eqn:BE; [|reflexivity]. apply below_iff in BE. destruct BE as [x [y BE]].
          rewrite forallb_forall in C2.
          assert (SD : In s (wdirs (cw c))).
          { apply (h_keep _ _ (l_world _ _ I)); [apply (j_srcdirs _ _ _ _ _ J), Hs|left].
            rewrite (j_src _ _ _ _ _ J). exact Hs. }
          specialize (C2 s SD). unfold quiet in C2. replace (strip n s) with (Some (x :: y)) in C2
            by (symmetry; apply strip_Some; exact BE).
          rewrite (p_hidden _ _ _ P s x Hs) in C2; [discriminate|]. rewrite BE. apply in_app_iff. right. left. reflexivity. }
        pose proof (V1 n KN) as N1. destruct n as [|a [|? ?]]; try discriminate N1. cbn [last].
        assert (VL : forall v, In v (loaded c) -> v <> [] -> V v /\ forall s, In s ss -> under v s = false).
        { intros v Hv Hn. destruct (l_var _ _ I v (l_load _ _ I v Hv) Hn) as [A1 [_ A2]]. auto. }
        assert (TS : forall v, In v (loaded c) -> v <> [] -> forall s, In s (srcs (cw c)) -> under (v ++ [a]) s = false).
        { intros v Hv Hn s Hs. rewrite SS in Hs. destruct (VL v Hv Hn) as [_ A]. specialize (A s Hs).
          destruct (under (v ++ [a]) s) eqn:U; [|reflexivity]. apply under_iff in U. destruct U as [y ->].
          rewrite <- app_assoc in A. assert (under v (v ++ [a] ++ y) = true) by (apply under_iff; eauto). congruence. }
        pose proof (delete_dirs_spec a (loaded c) (cw c) (cb c) TS GD) as DD.
        destruct (delete_dirs (loaded c) a (cw c) (cb c)) as [[w1 b1]|w1];
          [|eapply shrunk_trans; [apply (l_world _ _ I)|exact DD]].
        destruct DD as [SH Q].
        set (R := fun p => exists v, In v (loaded c) /\ v <> [] /\ under (v ++ [a]) p = true) in Q.
        assert (R1 : forall p, length p <= 1 -> ~ R p).
        { intros p Hp [v [A1 [A2 A3]]]. apply under_iff in A3. destruct A3 as [y ->]. rewrite !app_length in Hp.
          destruct v; [congruence|cbn in Hp; lia]. }
        assert (RV : forall p, p = [] \/ V p -> ~ R p).
        { intros p Hp. apply R1. destruct Hp as [-> |Hp]; [cbn; lia|rewrite (V1 p Hp); lia]. }
        assert (RS : forall s, In s ss -> ~ R s).
        { intros s Hs [v [A1 [A2 A3]]]. rewrite TS in A3; [discriminate|auto|auto|]. rewrite SS. exact Hs. }
        assert (RVS : forall v s, v = [] \/ V v -> In s ss -> ~ R (v ++ s)).
        { intros v s [-> |Hv] Hs; [apply RS, Hs|]. intros [x [A1 [A2 A3]]]. destruct (VL x A1 A2) as [A4 _].
          apply under_iff in A3. destruct A3 as [y A3]. rewrite <- app_assoc in A3.
          apply one_app in A3; [|apply V1; auto|apply V1; auto]. destruct A3 as [_ A3].
          specialize (NS s Hs). rewrite A3 in NS. assert (under [a] ([a] ++ y) = true) by (apply under_iff; eauto). congruence. }
        assert (VV : forall v, In v (dvars (cb c)) -> v = [] \/ V v).
        { intros v Hv. destruct v as [|x y]; [left; reflexivity|right]. apply (l_var _ _ I); [exact Hv|discriminate]. }
        assert (RD : forall v, In v (dvars (cb c)) -> In v (dvars b1)).
        { intros v Hv. apply (q_vkeep _ _ _ _ _ Q); [exact Hv|]. apply RV, VV, Hv. }
        assert (NLn : ~ In [a] L) by (intros H; apply M, (l_keep _ _ I); auto).
        constructor; cbn [cw cb loaded newv removed fresh unflag_config set_vars dnode dconf dvars dcreate dgen ddirs].
        -- eapply shrunk_trans; [apply (l_world _ _ I)|exact SH].
        -- apply (q_eq _ _ _ _ _ Q), (l_eq _ _ I).
        -- apply (q_wg _ _ _ _ _ Q), (l_gen _ _ I).
        -- intros g Hg. apply (l_dgen0 _ _ I), (q_gsub _ _ _ _ _ Q), Hg.
        -- intros q o H. apply (q_gsub _ _ _ _ _ Q) in H. destruct (l_dgen _ _ I q o H) as [v [s [A1 [A2 A3]]]].
           exists v, s. split; [exact A1|]. split; [|exact A3]. apply In_add_last. right. apply RD; assumption.
        -- intros d Hd. rewrite <- (l_ghost _ _ I d Hd). unfold ghost. cbn [dnode forget_config unflag_config set_vars]. rewrite (q_node _ _ _ _ _ Q); [tauto|]. apply RV. auto.
        -- intros v Hv Hn. apply In_add_last in Hv. destruct Hv as [-> |Hv].
           ++ split; [exact KN|]. split; [|exact NS]. apply (l_ghost _ _ I [a] KN) in LV. unfold ghost in LV.
              rewrite (q_node _ _ _ _ _ Q) by (apply RV; auto). destruct (lookup [a] (dnode (cb c))); [discriminate|discriminate].
           ++ apply (q_vsub _ _ _ _ _ Q) in Hv. destruct (l_var _ _ I v Hv Hn) as [A1 [A2 A3]]. split; [exact A1|]. split; [|exact A3].
              rewrite (q_node _ _ _ _ _ Q) by (apply RV; auto). exact A2.
        -- intros d Hd. apply (q_nsub _ _ _ _ _ Q) in Hd. apply (l_keys _ _ I), Hd.
        -- intros d Hd. apply In_del in Hd. destruct Hd as [Hn Hd]. apply (q_conf _ _ _ _ _ Q) in Hd.
           apply (l_conf _ _ I) in Hd. destruct Hd; [congruence|assumption].
        -- intros d Hd. apply (l_rest _ _ I). right. exact Hd.
        -- intros v [<- |Hv]; apply In_add_last; [left; reflexivity|right]. apply (l_load _ _ I) in Hv.
           apply RD; assumption.
        -- intros v Hv. apply In_add_last in Hv. destruct Hv as [-> |Hv]; [left; left; reflexivity|].
           apply (q_vsub _ _ _ _ _ Q) in Hv.
           destruct (l_load2 _ _ I v Hv) as [A|[A [[C|C] D]]]; [left; right; auto|left; left; exact C|auto].
        -- intros v Hn Hl Hr. destruct (In_dec_path v [[a]]) as [[<- |[]]|X]; [left; reflexivity|right].
           apply (l_live _ _ I); auto. intros [<- |H]; auto. apply X. left. reflexivity.
        -- intros v [<- |Hv] Hn; [auto|]. destruct (l_dead _ _ I v Hv Hn) as [A|[A|A]]; [auto|subst; auto|auto].
        -- intros v Hv Hl. right. apply (l_keep _ _ I); auto.
        -- intros v [<- |Hv] Hn; [elim Hn; left; reflexivity|]. apply (l_old _ _ I); auto. intros H. apply Hn. right. exact H.
        -- intros v s [<- |Hv] HL Hl Hs; [elim (NLn HL)|].
           pose proof (RVS v s (VV v (l_load _ _ I v Hv)) Hs) as U.
           destruct (l_flag _ _ I v s Hv HL Hl Hs) as [[A|[A|[A1 A2]]]|[A1 A2]].
           ++ left. left. apply (q_ckeep _ _ _ _ _ Q); [exact A|apply RS, Hs].
           ++ left. right. left. rewrite (h_dirty _ _ SH). exact A.
           ++ left. right. right. split; [apply (q_ckeep _ _ _ _ _ Q)|apply (q_dkeep _ _ _ _ _ Q)]; auto.
           ++ right. split; [apply (q_dkeep _ _ _ _ _ Q); auto|]. intros o. cbn [dgen]. rewrite (h_tup _ _ SH), <- A2. split.
              ** apply (q_gsub _ _ _ _ _ Q).
              ** intros H. apply (q_gkeep _ _ _ _ _ Q); auto.
        -- intros v [<- |Hv]; [|destruct (l_new _ _ I v Hv) as [A C]; split; [right; exact A|exact C]].
           split; [left; reflexivity|]. auto.
        -- intros p Hp Hs. apply (q_ckeep _ _ _ _ _ Q); [apply (l_create _ _ I); auto|]. destruct Hs; [apply RS|apply R1]; assumption.
        -- intros p Hp. apply (q_dsub _ _ _ _ _ Q) in Hp. destruct (l_dirs _ _ I p Hp) as [A|[A|[v [A1 A2]]]]; [auto|auto|right; right].
           exists v. split; [|exact A2]. apply In_add_last. right. apply RD; assumption.
        -- destruct (l_removed _ _ I) as [A|A]; [left|right; exact A]. intros v Hv. apply In_add_last. right.
           apply RD, A, Hv.
        -- split; [intros _; exists [a]; left; reflexivity|reflexivity].
Qed.

Lemma config_nodes_loop r : forall c, Loop r c ->
  match config_nodes r c with Bad w1 => shrunk w0 w1 | Good c' => Loop [] c' end.
Proof.
  induction r as [|n r IH]; intros c I; cbn [config_nodes]; [exact I|].
  pose proof (config_node_loop n r c I) as H. destruct (config_node n c) as [c'|w1]; [apply IH, H|exact H].
Qed.
End Config.
