(** An update works when nothing is in its way. *)
From Verif Require Import Base ModeModel ModeSpec ModeProofs ModeProofs2 ModeProofs3 ModeProofs4 ModeProofs5.

Lemma existsb_none {A} (f : A -> bool) l : (forall x, In x l -> f x = false) -> existsb f l = false.
Proof.
  intros H. destruct (existsb f l) eqn:E; [|reflexivity]. apply existsb_exists in E. destruct E as [x [A1 A2]].
  rewrite (H x A1) in A2. discriminate.
Qed.
Lemma under_cut d e p : under (d ++ e) p = true -> under d p = true.
Proof. rewrite !under_iff. intros [r ->]. exists (e ++ r). rewrite app_assoc. reflexivity. Qed.
Lemma conf_len (w : world) : (forall d, live w d -> length d <= 1) -> forall c, In c (wconf w) -> length (fst c) <= 1.
Proof.
  intros H [d t] Hc. apply H. unfold live. intros E. exact (proj1 (lookup_None d (wconf w)) E t Hc).
Qed.

Lemma stuck_not w d : 1 <= length d -> (forall c, In c (wconf w) -> length (fst c) <= 1) ->
  (forall g, In g (wextra w) -> under d (fst g) = false) -> stuck w d = false.
Proof.
  intros L C X. unfold stuck. apply orb_false_iff. split; apply existsb_none.
  - intros g Hg. apply below_not_under. auto.
  - intros c Hc. destruct (below d (fst c)) eqn:E; [|reflexivity]. apply below_len in E. specialize (C c Hc). lia.
Qed.

Lemma delete_dirs_good name vs : forall w b,
  (forall c, In c (wconf w) -> length (fst c) <= 1) ->
  (forall v, In v vs -> v <> [] -> ~ In (v, name) (dgen b) /\ forall g, In g (wextra w) -> under v (fst g) = false) ->
  exists w1 b1, delete_dirs vs name w b = Good (w1, b1).
Proof.
  induction vs as [|v r IH]; intros w b C X; cbn [delete_dirs]; [eauto|].
  destruct (path_eqb v []) eqn:E; [apply IH; [exact C|intros x Hx; apply X; right; exact Hx]|].
  apply path_eqb_neq in E. destruct (X v (or_introl eq_refl) E) as [X1 X2].
  assert (XU : forall g, In g (wextra w) -> under (v ++ [name]) (fst g) = false).
  { intros g Hg. specialize (X2 g Hg). destruct (under (v ++ [name]) (fst g)) eqn:U; [|reflexivity]. apply under_cut in U. congruence. }
  destruct (mem (v ++ [name]) (ddirs b)) eqn:M.
  - match goal with |- context [if ?x then Bad _ else _] => replace x with false end.
    + apply IH; [exact C|]. intros x Hx Hn. destruct (X x (or_intror Hx) Hn) as [Y1 Y2]. split; [|exact Y2].
      cbn [clear_db dgen]. intros H. apply filter_In in H. apply Y1. tauto.
    + symmetry. rewrite !orb_false_iff. split; [split|].
      * apply stuck_not; [rewrite app_length; cbn; lia|exact C|exact XU].
      * apply existsb_none. intros g Hg. apply path_eqb_neq. intros H. specialize (XU g Hg). rewrite <- H, under_refl in XU. discriminate.
      * apply existsb_none. intros c Hc. apply path_eqb_neq. intros H. specialize (C c Hc). rewrite <- H, app_length in C.
        destruct v; [congruence|cbn in C; lia].
  - match goal with |- context [if ?x then Bad _ else _] => replace x with false end.
    + apply IH; [exact C|]. intros x Hx. apply X. right. exact Hx.
    + symmetry. apply orb_false_iff. split; apply not_true_iff_false; intros H.
      * apply fmem_In in H. exact (X1 H).
      * apply fmem_In in H. specialize (X2 _ H). cbn [fst] in X2. rewrite under_refl in X2. discriminate.
Qed.

Lemma parse_all_good w js : forall b,
  (forall j o, In j js -> In o (makes w (snd j)) -> ~ In (place j ++ [o]) (ddirs b) /\ ~ In (place j, o) (wextra w)) ->
  exists b', parse_all w js b = Some b'.
Proof.
  induction js as [|j js IH]; intros b H; cbn [parse_all]; [eauto|].
  unfold parse. match goal with |- context [if ?x then None else _] => replace x with false end.
  - apply IH. cbn [ddirs]. intros x o Hx. apply H. right. exact Hx.
  - symmetry. apply existsb_none. intros o Ho. destruct (H j o (or_introl eq_refl) Ho) as [A C].
    apply orb_false_iff. split; [apply mem_not, A|]. apply not_true_iff_false. intros Q. apply fmem_In in Q. exact (C Q).
Qed.

Section Works.
Variables (V : path -> Prop) (ss : list path) (t0 : path -> list bytes).
Hypothesis P : project V ss t0.
Variables (w0 : world) (b0 : db) (L : list path).
Hypothesis J : Post V ss w0 b0 L.
Hypothesis X : forall g d, In g (wextra w0) -> V d -> under d (fst g) = false.
Hypothesis E0 : forall d, live w0 d -> d <> [] -> ~ In d L -> empty_dir w0 d.
Hypothesis C0 : forall s o, In s ss -> In o (wtup w0 s) -> ~ In (s, o) (wextra w0).

Lemma conf_short c : In c (wconf w0) -> length (fst c) <= 1.
Proof.
  apply conf_len. intros d Hd. destruct (j_wc _ _ _ _ _ J d Hd) as [[-> |A] _]; [cbn; lia|]. rewrite (V_one V ss t0 P d A). lia.
Qed.

Lemma quiet_not d p : (forall c r, p <> d ++ c :: r) -> quiet d p = true.
Proof.
  intros H. unfold quiet. destruct (strip d p) as [[|c r]|] eqn:E; try reflexivity. apply strip_Some in E. elim (H c r E).
Qed.
Lemma cut_last (p d : path) o c r : p ++ [o] = d ++ c :: r -> exists e, p = d ++ e.
Proof.
  revert p. induction d as [|a d IH]; intros p E; [exists p; reflexivity|]. destruct p as [|x p].
  - cbn in E. injection E as _ E. destruct d; discriminate.
  - cbn in E. injection E as -> E. destruct (IH p E) as [e ->]. exists e. reflexivity.
Qed.

Lemma config_node_good n r c : Loop V ss w0 b0 L (n :: r) c -> exists c', config_node n c = Good c'.
Proof.
  intros I. pose proof (j_keys _ _ _ _ _ J n (or_introl (l_rest _ _ _ _ _ _ _ I n (or_introl eq_refl)))) as KN.
  pose proof (l_world _ _ _ _ _ _ _ I) as SH.
  pose proof (V_one V ss t0 P) as V1.
  assert (CL : forall c', In c' (wconf (cw c)) -> length (fst c') <= 1) by (rewrite (h_conf _ _ SH); apply conf_short).
  unfold config_node. destruct (ghost (cb c) n && negb (path_eqb n [])) eqn:E.
  - apply andb_true_iff in E. destruct E as [E1 E2]. apply negb_true_iff, path_eqb_neq in E2. destruct KN as [KN|KN]; [congruence|].
    destruct (mem n (loaded c)); [|eauto]. destruct n as [|a [|y z]]; [congruence| |eauto].
    rewrite stuck_not; [eauto|cbn; lia|exact CL|]. rewrite (h_extra _ _ SH). intros g Hg. apply X; auto.
  - destruct (mem n (loaded c)) eqn:M; [eauto|]. apply mem_not in M. destruct (path_eqb n []) eqn:N0; [eauto|].
    apply path_eqb_neq in N0. destruct KN as [KN|KN]; [congruence|].
    assert (LV : live w0 n).
    { apply (l_ghost _ _ _ _ _ _ _ I n KN). destruct n as [|n1 n2]; [congruence|].
      cbn [path_eqb negb] in E. rewrite andb_true_r in E. exact E. }
    assert (NL : ~ In n L) by (intros H; apply M, (l_keep _ _ _ _ _ _ _ I); auto).
    destruct (E0 n LV N0 NL) as [F1 [F2 F3]].
    assert (CE : check_empty (cw c) n = true).
    { unfold check_empty. rewrite !andb_true_iff. repeat split.
      - rewrite (h_src _ _ SH). apply negb_true_iff, mem_not, F1.
      - apply forallb_forall. intros p Hp. apply quiet_not. intros x y ->. apply (F2 x y). apply (h_dirs _ _ SH), Hp.
      - apply forallb_forall. intros g Hg. apply quiet_not. intros x y H. apply cut_last in H. destruct H as [e H].
        apply (F3 g e); [|exact H]. apply (h_gen _ _ SH), Hg.
      - apply forallb_forall. intros g Hg. apply quiet_not. intros x y H. apply cut_last in H. destruct H as [e H].
        rewrite (h_extra _ _ SH) in Hg. exact (proj1 (under_not n (fst g)) (X g n Hg KN) e H). }
    rewrite CE. pose proof (V1 n KN) as N1. destruct n as [|a [|? ?]]; try discriminate N1. cbn [last].
    destruct (delete_dirs_good a (loaded c) (cw c) (cb c) CL) as [w1 [b1 ->]]; [|eauto].
    intros v Hv Hn. pose proof (l_load _ _ _ _ _ _ _ I v Hv) as Hv2. destruct (l_var _ _ _ _ _ _ _ I v Hv2 Hn) as [Vv [_ NS]]. split.
    + intros H. destruct (l_dgen _ _ _ _ _ _ _ I v a H) as [v' [s [A1 [A2 [A3 [A4 [A5 A6]]]]]]].
      destruct v' as [|x y].
      * cbn in A4. subst s. specialize (NS v A3). rewrite under_refl in NS. discriminate.
      * destruct (l_var _ _ _ _ _ _ _ I _ A2 ltac:(discriminate)) as [Vv' _].
        assert (Q : v ++ [] = (x :: y) ++ s) by (rewrite app_nil_r; exact A4).
        apply one_app in Q; [|apply V1; auto|apply V1; auto]. destruct Q as [_ <-]. apply A5. exact KN.
    + rewrite (h_extra _ _ SH). intros g Hg. apply X; auto.
Qed.
Lemma config_nodes_good r : forall c, Loop V ss w0 b0 L r c -> exists c', config_nodes r c = Good c'.
Proof.
  induction r as [|n r IH]; intros c I; cbn [config_nodes]; [eauto|].
  destruct (config_node_good n r c I) as [c' E]. pose proof (config_node_loop V ss t0 P w0 b0 L J n r c I) as Q.
  rewrite E in *. apply IH, Q.
Qed.
Lemma process_config_good : exists w1 b1 l on, process_config L w0 b0 = Good (w1, b1, l, on).
Proof.
  unfold process_config.
  destruct (config_nodes_good (dconf b0) _ (loop_start V ss w0 b0 L J)) as [c ->].
  destruct (root_node _ c) as [c1 on]. destruct (fold_right _ _ _) as [w2 b2]. eauto.
Qed.

Lemma process_create_good N w b l on : Mid V ss w0 N N w b l on -> exists w1 b1, process_create l on w b = Good (w1, b1).
Proof.
  intros M. unfold process_create.
  match goal with |- context [parse_all ?w1 ?js ?b1] => destruct (parse_all_good w1 js b1) as [b2 ->]; [|eauto] end.
  intros j o Hj Ho. cbn [with_dirs ddirs wextra]. pose proof (job_var V ss w0 N w b l on M j Hj) as Hv.
  assert (Q : In (snd j) ss /\ In o (wtup w0 (snd j))).
  { unfold makes in Ho. cbn [with_dirs srcs wtup] in Ho. rewrite (y_src _ _ _ _ _ _ _ _ _ M), (y_tup _ _ _ _ _ _ _ _ _ M) in Ho.
    destruct (mem (snd j) ss) eqn:E; [|destruct Ho]. apply mem_In in E. auto. }
  destruct Q as [Qs Qo]. destruct (j_outs _ _ _ _ _ J _ _ Qo) as [K1 K2]. destruct j as [v s]. cbn [fst snd] in *. unfold place; cbn [fst snd].
  assert (VP : forall x z, In x (dvars b) -> (v ++ s) ++ [o] = x ++ z -> s ++ [o] = z).
  { intros x z Hx E. rewrite <- app_assoc in E. apply (vars_place V ss t0 P w0 N w b l on M v x _ _ Hv Hx E). }
  split.
  - rewrite in_app_iff. intros [H|H].
    + apply in_map_iff in H. destruct H as [[x p] [E H]]. unfold place in E. cbn [fst snd] in E.
      apply (in_mirrors V ss w0 N w b l on M) in H. destruct H as [A1 [A2 [A3 [A4 A5]]]].
      destruct (outside_src V ss t0 P w0 N w b l on M p A4 A5) as [B'|B']; rewrite <- (VP x p A2 (eq_sym E)) in B'; auto.
    + destruct v as [|x y].
      * cbn [app] in *. destruct (y_dirs _ _ _ _ _ _ _ _ _ M _ H) as [A|[A|[z [A1 [A2 A3]]]]]; [auto|auto|].
        elim A2. apply (vars_root V ss w0 N w b l on M Hv z A1).
      * destruct (y_var _ _ _ _ _ _ _ _ _ M _ Hv ltac:(discriminate)) as [Vv [_ NS]].
        destruct (y_dirs _ _ _ _ _ _ _ _ _ M _ H) as [A|[A|[z [A1 [A2 [_ [r [A3 A4]]]]]]]].
        -- apply (proj1 (under_not _ _) (NS _ A) (s ++ [o])). rewrite app_assoc. reflexivity.
        -- apply (V_one V ss t0 P) in A. rewrite !app_length in A. cbn in A. lia.
        -- rewrite <- (VP z r A1 A3) in A4. tauto.
  - rewrite (y_extra _ _ _ _ _ _ _ _ _ M). destruct v as [|x y]; [apply C0; auto|]. intros H.
    destruct (y_var _ _ _ _ _ _ _ _ _ M _ Hv ltac:(discriminate)) as [Vv _]. exact (proj1 (under_not _ _) (X _ _ H Vv) s eq_refl).
Qed.
End Works.

Lemma update_works V ss t0 w b n ok : project V ss t0 -> Inv V ss w b n -> workable V w b -> (forall g, ok g = true) ->
  snd (update ok w b) = true.
Proof.
  intros P I [F1 F2 F3] Hok. pose proof (post_scan V ss t0 P w b n I) as J.
  assert (X : forall g d, In g (wextra (scanned w)) -> V d -> under d (fst g) = false).
  { intros g d Hg Hd. apply under_not. intros r. apply F2; auto. }
  assert (E : forall d, live (scanned w) d -> d <> [] -> ~ In d (load w b) -> empty_dir (scanned w) d).
  { intros d Hd Hn HL. destruct (F1 d) as [[A C]|A]; [apply live_config; exact Hd|exact Hn| |exact A].
    elim HL. apply load_In. split; [exact A|]. tauto. }
  unfold update. destruct (process_config_good V ss t0 P _ _ _ J X E) as [w1 [b1 [l [on Q]]]].
  pose proof (process_config_mid V ss t0 P _ _ _ J) as M. rewrite Q in *. destruct M as [N M].
  assert (C : forall s o, In s ss -> In o (wtup (scanned w) s) -> ~ In (s, o) (wextra (scanned w))).
  { intros s o Hs. apply F3. rewrite (i_src _ _ _ _ _ I). exact Hs. }
  destruct (process_create_good V ss t0 P _ _ _ J X C N w1 b1 l on M) as [w2 [b2 ->]].
  cbn [process_update snd]. apply forallb_forall. auto.
Qed.

(** What the user wrote is as it was. *)
Lemma config_node_same n c : 
  match config_node n c with
  | Good c' => srcs (cw c') = srcs (cw c) /\ wconf (cw c') = wconf (cw c) /\ wtup (cw c') = wtup (cw c) /\ wextra (cw c') = wextra (cw c)
  | Bad w1 => srcs w1 = srcs (cw c) /\ wconf w1 = wconf (cw c) /\ wtup w1 = wtup (cw c) /\ wextra w1 = wextra (cw c)
  end.
Proof.
  assert (DD : forall vs name w b, match delete_dirs vs name w b with
    | Good (w1, _) | Bad w1 => srcs w1 = srcs w /\ wconf w1 = wconf w /\ wtup w1 = wtup w /\ wextra w1 = wextra w end).
  { induction vs as [|v r IH]; intros name w b; cbn [delete_dirs]; [auto|].
    destruct (path_eqb v []); [apply IH|]. destruct (mem _ _).
    - match goal with |- context [if ?x then Bad _ else _] => destruct x end; [auto|].
      match goal with |- context [delete_dirs r name ?w1 ?b1] => specialize (IH name w1 b1) end. exact IH.
    - match goal with |- context [if ?x then Bad _ else _] => destruct x end; [auto|apply IH]. }
  unfold config_node. destruct (ghost (cb c) n && _).
  - destruct (mem n (loaded c)); [|auto]. destruct n as [|a [|y z]]; cbn [cw]; auto. destruct (stuck (cw c) [a]); auto.
  - destruct (mem n (loaded c)); [auto|]. destruct (path_eqb n []); [auto|]. destruct (check_empty (cw c) n); [|auto].
    specialize (DD (loaded c) (last n []) (cw c) (cb c)). destruct (delete_dirs _ _ _ _) as [[w1 b1]|w1]; exact DD.
Qed.
Lemma config_nodes_same r : forall c,
  match config_nodes r c with
  | Good c' => srcs (cw c') = srcs (cw c) /\ wconf (cw c') = wconf (cw c) /\ wtup (cw c') = wtup (cw c) /\ wextra (cw c') = wextra (cw c)
  | Bad w1 => srcs w1 = srcs (cw c) /\ wconf w1 = wconf (cw c) /\ wtup w1 = wtup (cw c) /\ wextra w1 = wextra (cw c)
  end.
Proof.
  induction r as [|n r IH]; intros c; cbn [config_nodes]; [auto|].
  pose proof (config_node_same n c) as H. destruct (config_node n c) as [c1|w1]; [|exact H].
  specialize (IH c1). destruct (config_nodes r c1) as [c2|w2]; intuition congruence.
Qed.
Lemma duplicates_same l N w b : let w1 := fst (fold_right (duplicate l) (w, b) N) in
  srcs w1 = srcs w /\ wconf w1 = wconf w /\ wtup w1 = wtup w /\ wextra w1 = wextra w.
Proof.
  induction N as [|v N IH]; cbn [fold_right]; [auto|]. destruct (fold_right (duplicate l) (w, b) N) as [w1 b1]. exact IH.
Qed.
Lemma update_same ok w b : let w' := fst (fst (update ok w b)) in
  srcs w' = srcs w /\ wconf w' = wconf w /\ wtup w' = wtup w /\ wextra w' = wextra w.
Proof.
  cbv zeta. unfold update, process_config.
  pose proof (config_nodes_same (dconf (scan w b)) {| cw := scanned w; cb := scan w b; loaded := load w b; newv := []; removed := false; fresh := false |}) as H.
  destruct (config_nodes _ _) as [c|w1]; [|exact H]. cbn [cw scanned srcs wconf wtup wextra] in H.
  destruct (root_node (in_use (scan w b) (load w b)) c) as [c1 on] eqn:R.
  assert (H1 : srcs (cw c1) = srcs w /\ wconf (cw c1) = wconf w /\ wtup (cw c1) = wtup w /\ wextra (cw c1) = wextra w).
  { unfold root_node in R. destruct (negb (mem [] (loaded c))).
    - destruct (loaded c); injection R as <- _; exact H.
    - destruct (snd _ && fresh c), (fst _ || fresh c); injection R as <- _; exact H. }
  match goal with |- context [fold_right ?f (?x, ?y) ?z] => pose proof (duplicates_same (loaded c1) z x y) as D; destruct (fold_right f (x, y) z) as [w2 b2] end.
  cbn [fst] in D. unfold process_create.
  destruct (parse_all _ _ _) as [b3|]; cbn [process_update fst with_dirs srcs wconf wtup wextra]; intuition congruence.
Qed.
