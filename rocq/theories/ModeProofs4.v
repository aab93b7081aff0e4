(** After the config list: the variant of the top and new variants. *)
From Verif Require Import Base ModeModel ModeSpec ModeProofs ModeProofs2 ModeProofs3.

Lemma in_use_root b l : In [] l -> (forall v, In v l -> v = []) -> in_use b l = (false, true).
Proof.
  destruct l as [|d l]; [intros []|]. intros _ H. rewrite (H d (or_introl eq_refl)). reflexivity.
Qed.
Lemma in_use_none b l : ~ In [] l ->
  snd (in_use b l) = false /\ (fst (in_use b l) = true <-> exists d, In d l /\ ghost b d = false).
Proof.
  induction l as [|d l IH]; intros H; cbn [in_use].
  - split; [reflexivity|]. split; [discriminate|intros [? [[] _]]].
  - destruct (path_eqb d []) eqn:E; [apply path_eqb_eq in E; elim H; left; exact E|].
    destruct (ghost b d) eqn:G.
    + destruct IH as [A C]; [intros K; apply H; right; exact K|]. split; [exact A|]. rewrite C. split.
      * intros [x [D F]]. exists x. cbn. auto.
      * intros [x [[<- |D] F]]; [congruence|eauto].
    + split; [reflexivity|]. split; [intros _; exists d; cbn; auto|reflexivity].
Qed.

Section Config.
Variables (V : path -> Prop) (ss : list path) (t0 : path -> list bytes).
Hypothesis P : project V ss t0.
Variables (w0 : world) (b0 : db) (L : list path).
Hypothesis J : Post V ss w0 b0 L.

(** [N] are the new variants, [D] those of them that have their directories. *)
Record Mid (N D : list path) (w : world) (b : db) (l : list path) (on : bool) : Prop := {
  y_src : srcs w = ss;
  y_wconf : wconf w = wconf w0;
  y_tup : wtup w = wtup w0;
  y_extra : wextra w = wextra w0;
  y_dirty : wdirty w = [];
  y_eq : ddirs b = wdirs w;
  y_short : forall p, In p (wdirs w) -> length p <= 1 -> In p (wdirs w0);
  y_keep : forall p, In p (wdirs w0) -> In p ss \/ length p <= 1 -> In p (wdirs w);
  y_gen : forall g, In g (wgen w) -> In g (dgen b);
  y_gdir : forall g, In g (wgen w) -> In (fst g) (wdirs w);
  y_dgen : forall q o, In (q, o) (dgen b) ->
             exists v s, In v (dvars b) /\ In s ss /\ q = v ++ s /\ ~ V (s ++ [o]) /\ ~ In (s ++ [o]) ss;
  y_vars : forall v, In v (dvars b) <-> (v <> [] /\ live w0 v) \/ (v = [] /\ forall d, live w0 d -> d = []);
  y_l : forall v, In v l <-> v = [] \/ In v (dvars b);
  y_on : on = true <-> In [] (dvars b);
  y_var : forall v, In v (dvars b) -> v <> [] ->
             V v /\ (exists t, lookup v (dnode b) = Some (Some t)) /\ forall s, In s ss -> under v s = false;
  y_keys : forall d, lookup d (dnode b) <> None -> d = [] \/ V d;
  y_conf : forall d, ~ In d (dconf b);
  y_node : forall d t, d <> [] -> lookup d (dnode b) = Some (Some t) -> live w0 d;
  y_dirs : forall p, In p (ddirs b) -> In p ss \/ V p \/ exists v, In v (dvars b) /\ v <> [] /\ (below v p = true /\ inside V ss v p);
  y_flag : forall v s, In v (dvars b) -> ~ In v N \/ In v D -> In s ss -> marked w b v s \/ right w b v s;
  y_new : forall v, In v N -> In v (dvars b) /\ v <> [] /\ In v (dcreate b) /\ In v (ddirs b) }.

Lemma duplicate_mid N D w b l on v : Mid N D w b l on -> In v N ->
  Mid N (v :: D) (fst (duplicate l v (w, b))) (snd (duplicate l v (w, b))) l on.
Proof.
  intros M HN. destruct (y_new _ _ _ _ _ _ M v HN) as [Hv [Hn [Hc Hd]]].
  pose proof (V_one V ss t0 P v (proj1 (y_var _ _ _ _ _ _ M v Hv Hn))) as V1.
  set (new := map (fun s => v ++ s) (sources l (ddirs b))).
  assert (NB : forall p, In p new -> (below v p = true /\ inside V ss v p) /\ 1 < length p).
  { intros p Hp. apply in_map_iff in Hp. destruct Hp as [s [<- Hs]]. apply filter_In in Hs. destruct Hs as [Hs0 Hs].
    assert (SD : In s ss \/ V s).
    { destruct (y_dirs _ _ _ _ _ _ M s Hs0) as [A|[A|[x [A1 [A2 [A3 _]]]]]]; [auto|auto|].
      apply below_iff in A3. destruct A3 as [z [r ->]].
      assert (OW : owner l [] (x ++ z :: r) = Some x).
      { apply owner_one; [|apply (V_one V ss t0 P), (y_var _ _ _ _ _ _ M); auto|apply (y_l _ _ _ _ _ _ M); auto].
        intros q Hq. apply (y_l _ _ _ _ _ _ M) in Hq. destruct Hq as [-> |Hq]; [cbn; lia|]. destruct q as [|q1 q2]; [cbn; lia|].
        rewrite (V_one V ss t0 P); [lia|]. apply (y_var _ _ _ _ _ _ M); [exact Hq|discriminate]. }
      destruct x as [|x1 x2]; [congruence|]. cbn [app] in Hs, OW. rewrite OW in Hs. discriminate. }
    destruct s as [|x y]; [discriminate|]. split; [split; [apply below_iff; eauto|exists (x :: y); auto]|]. rewrite app_length, V1. cbn. lia. }
  assert (NI : forall s, In s ss -> s <> [] -> In (v ++ s) new).
  { intros s Hs Ne. apply in_map. apply filter_In. split.
    - rewrite (y_eq _ _ _ _ _ _ M). apply (y_keep _ _ _ _ _ _ M); [apply (j_srcdirs _ _ _ _ _ J), Hs|auto].
    - destruct s as [|a s]; [congruence|]. rewrite owner_top; [reflexivity|apply (y_l _ _ _ _ _ _ M); auto|].
      intros x Hx Hxn. apply (y_l _ _ _ _ _ _ M) in Hx. destruct Hx as [Hx|Hx]; [congruence|].
      destruct (y_var _ _ _ _ _ _ M x Hx Hxn) as [_ [_ A]]. auto. }
  unfold duplicate. fold new. cbn [fst snd].
  constructor; cbn [with_dirs srcs wconf wdirs wgen wextra wtup wdirty dnode dconf dvars dcreate dgen ddirs];
    try (destruct M; assumption).
  - rewrite (y_eq _ _ _ _ _ _ M). reflexivity.
  - intros p Hp Hl. apply in_app_iff in Hp. destruct Hp as [Hp|Hp]; [apply NB in Hp; lia|].
    apply (y_short _ _ _ _ _ _ M); auto.
  - intros p Hp Hl. apply in_app_iff. right. apply (y_keep _ _ _ _ _ _ M); auto.
  - intros g Hg. apply in_app_iff. right. apply (y_gdir _ _ _ _ _ _ M), Hg.
  - intros p Hp. apply in_app_iff in Hp. destruct Hp as [Hp|Hp]; [|apply (y_dirs _ _ _ _ _ _ M), Hp].
    right. right. exists v. apply NB in Hp. tauto.
  - intros x s Hx Hq Hs.
    assert (OLD : ~ In x N \/ In x D -> marked w b x s \/ right w b x s) by (intros Q; apply (y_flag _ _ _ _ _ _ M); auto).
    assert (C : x = v \/ (~ In x N \/ In x D)) by (cbn in Hq; intuition).
    destruct C as [-> |C].
    + left. right. right. cbn [dcreate ddirs]. rewrite !in_app_iff. destruct s as [|a s].
      * rewrite app_nil_r. auto.
      * pose proof (NI (a :: s) Hs ltac:(discriminate)). auto.
    + unfold marked, right. cbn [dcreate ddirs wdirty with_dirs dgen wtup]. rewrite !in_app_iff.
      destruct (OLD C) as [[A|[A|[A1 A2]]]|[A1 A2]]; auto 8.
  - intros x Hx. destruct (y_new _ _ _ _ _ _ M x Hx) as [A1 [A2 [A3 A4]]]. rewrite !in_app_iff. auto.
Qed.

Lemma duplicates_mid N w b l on M : Mid N [] w b l on -> (forall v, In v M -> In v N) ->
  Mid N M (fst (fold_right (duplicate l) (w, b) M)) (snd (fold_right (duplicate l) (w, b) M)) l on.
Proof.
  intros H S. induction M as [|v M IH]; cbn [fold_right]; [exact H|].
  specialize (IH (fun x Hx => S x (or_intror Hx))). destruct (fold_right (duplicate l) (w, b) M) as [w1 b1].
  cbn [fst snd] in IH. apply duplicate_mid; [exact IH|apply S; left; reflexivity].
Qed.

Section Top.
Variable c : cstate.
Hypothesis I : Loop V ss w0 b0 L [] c.

Lemma loaded_vars v : In v (dvars (cb c)) <-> In v (loaded c).
Proof.
  split; [|apply (l_load _ _ _ _ _ _ _ I)]. intros H. destruct (l_load2 _ _ _ _ _ _ _ I v H) as [A|[_ [[] _]]]. exact A.
Qed.
Lemma loaded_live v : v <> [] -> (In v (loaded c) <-> live w0 v).
Proof.
  intros Hn. split.
  - intros H. destruct (l_dead _ _ _ _ _ _ _ I v H Hn) as [A|[]]. exact A.
  - intros H. apply (l_live _ _ _ _ _ _ _ I); auto.
Qed.

Lemma top_mid vs g wg cr l on :
  (forall v, In v vs <-> (v <> [] /\ live w0 v) \/ (v = [] /\ forall d, live w0 d -> d = [])) ->
  (g = [] \/ (g = dgen (cb c) /\ forall v, In v (dvars b0) -> In v (dvars (cb c)) -> In v vs)) ->
  (forall x, In x wg -> In x (wgen (cw c)) /\ In x g) ->
  (forall v, In v l <-> v = [] \/ In v vs) ->
  (on = true <-> In [] vs) ->
  (forall p, In p (dcreate (cb c)) -> In p (ddirs (cb c)) -> In p cr) ->
  (forall v, In v vs -> ~ In v (newv c) -> v <> [] -> g = dgen (cb c)) ->
  (In [] vs -> ~ In [] L -> forall s, In s ss -> In s cr) ->
  (In [] vs -> In [] L -> g = dgen (cb c)) ->
  Mid (newv c) [] (with_dirs (cw c) wg (wdirs (cw c)))
    {| dnode := dnode (cb c); dconf := dconf (cb c); dvars := vs; dcreate := cr; dgen := g; ddirs := ddirs (cb c) |} l on.
Proof.
  intros HV HG HW HL HO HC HK HR HR2.
  pose proof (l_world _ _ _ _ _ _ _ I) as SH.
  assert (DIRS : forall s, In s ss -> In s (ddirs (cb c))).
  { intros s Hs. rewrite (l_eq _ _ _ _ _ _ _ I). apply (h_keep _ _ SH); [apply (j_srcdirs _ _ _ _ _ J), Hs|].
    left. rewrite (j_src _ _ _ _ _ J). exact Hs. }
  assert (LD : forall d, live w0 d -> In d (ddirs (cb c)) /\ length d <= 1).
  { intros d Hd. destruct (j_wc _ _ _ _ _ J d Hd) as [A C].
    assert (length d <= 1) by (destruct A as [-> |A]; [cbn; lia|rewrite (V_one V ss t0 P d A); lia]).
    split; [|assumption]. rewrite (l_eq _ _ _ _ _ _ _ I). apply (h_keep _ _ SH); auto. }
  assert (VL : forall v, In v vs -> v <> [] -> In v (loaded c)).
  { intros v Hv Hn. apply HV in Hv. apply loaded_live; [exact Hn|]. tauto. }
  assert (LV : forall v, In v (loaded c) -> v <> [] -> In v vs).
  { intros v Hv Hn. apply HV. left. split; [exact Hn|]. apply loaded_live; auto. }
  constructor; cbn [with_dirs srcs wconf wdirs wgen wextra wtup wdirty dnode dconf dvars dcreate dgen ddirs].
  - rewrite (h_src _ _ SH). apply (j_src _ _ _ _ _ J).
  - apply (h_conf _ _ SH).
  - apply (h_tup _ _ SH).
  - apply (h_extra _ _ SH).
  - rewrite (h_dirty _ _ SH). apply (j_dirty _ _ _ _ _ J).
  - apply (l_eq _ _ _ _ _ _ _ I).
  - intros p Hp _. apply (h_dirs _ _ SH), Hp.
  - intros p Hp Hs. apply (h_keep _ _ SH); [exact Hp|]. rewrite (j_src _ _ _ _ _ J). exact Hs.
  - intros x Hx. apply HW, Hx.
  - intros x Hx. apply HW in Hx. apply (h_gen _ _ SH), Hx.
  - intros q o H. destruct HG as [-> |[-> HG]]; [destruct H|].
    destruct (l_dgen _ _ _ _ _ _ _ I q o H) as [v [s [A1 [A2 A3]]]]. exists v, s. auto.
  - exact HV.
  - exact HL.
  - exact HO.
  - intros v Hv Hn. pose proof (VL v Hv Hn) as HL1.
    destruct (l_var _ _ _ _ _ _ _ I v (proj2 (loaded_vars v) HL1) Hn) as [A1 [_ A3]]. split; [exact A1|]. split; [|exact A3].
    apply loaded_live in HL1; [|exact Hn]. apply (l_ghost _ _ _ _ _ _ _ I v A1) in HL1. unfold ghost in HL1.
    destruct (lookup v (dnode (cb c))) as [[t|]|]; [eauto|discriminate|discriminate].
  - apply (l_keys _ _ _ _ _ _ _ I).
  - intros d Hd. apply (l_conf _ _ _ _ _ _ _ I) in Hd. exact Hd.
  - intros d t Hn E. assert (Hd : V d).
    { destruct (l_keys _ _ _ _ _ _ _ I d) as [A|A]; [congruence|congruence|exact A]. }
    apply (l_ghost _ _ _ _ _ _ _ I d Hd). unfold ghost. rewrite E. reflexivity.
  - intros p Hp. destruct (l_dirs _ _ _ _ _ _ _ I p Hp) as [A|[A|[v [A1 [A2 A3]]]]]; auto.
    right. right. exists v. split; [|auto]. apply LV; [apply loaded_vars|]; auto.
  - intros v s Hv [Hx|[]] Hs.
    destruct (In_dec_path v [[]]) as [[<- |[]]|Hn].
    + destruct (In_dec_path [] L) as [HLL|HLL]; [|left; left; apply HR; auto].
      assert (g = dgen (cb c)) as -> by (apply HR2; auto).
      destruct (l_flag _ _ _ _ _ _ _ I [] s) as [[A|[A|[A1 A2]]]|A]; auto.
      * apply (l_keep _ _ _ _ _ _ _ I); auto.
      * left. left. apply HC; auto.
      * left. right. left. exact A.
      * left. right. right. split; [apply HC|]; auto.
    + assert (v <> []) by (intros ->; apply Hn; left; reflexivity).
      rewrite (HK v Hv Hx H). pose proof (VL v Hv H) as HL1.
      destruct (l_old _ _ _ _ _ _ _ I v HL1 Hx) as [HLL|E]; [|congruence].
      destruct (l_flag _ _ _ _ _ _ _ I v s) as [[A|[A|[A1 A2]]]|A]; auto.
      * right. apply loaded_live; auto.
      * left. left. apply HC; auto.
      * left. right. left. exact A.
      * left. right. right. split; [apply HC|]; auto.
  - intros v Hv. destruct (l_new _ _ _ _ _ _ _ I v Hv) as [A1 [A2 [A3 A4]]]. destruct (LD v A3) as [A5 A6].
    split; [auto|]. split; [exact A2|]. split; [|exact A5]. apply HC; [|exact A5].
    apply (l_create _ _ _ _ _ _ _ I); [|auto]. apply (j_new _ _ _ _ _ J); auto.
    destruct (In_dec_path v (dconf b0)) as [Q|Q]; [exact Q|]. elim A4. apply (j_live _ _ _ _ _ J); auto.
Qed.
End Top.

Lemma process_config_mid :
  match process_config L w0 b0 with
  | Bad w1 => shrunk w0 w1
  | Good (w1, b1, l, on) => exists N, Mid N N w1 b1 l on
  end.
Proof.
  unfold process_config.
  pose proof (config_nodes_loop V ss t0 P w0 b0 L J (dconf b0) _ (loop_start V ss w0 b0 L J)) as I.
  destruct (config_nodes (dconf b0) _) as [c|w1]; [|exact I].
  set (u := in_use b0 L).
  destruct (root_node u c) as [c1 on] eqn:E.
  set (b1 := if negb (fst u) && removed c1 then reparse_all (cb c1) else cb c1).
  assert (M : newv c1 = newv c /\ Mid (newv c) [] (cw c1) b1 (loaded c1) on).
  2:{ destruct M as [-> M]. pose proof (duplicates_mid _ _ _ _ _ (newv c) M (fun v H => H)) as R.
      destruct (fold_right _ _ _) as [w2 b2]. cbn [fst snd] in R. exists (newv c). exact R. }
  pose proof (loaded_vars c I) as LV. pose proof (loaded_live c I) as LL.
  assert (LIVE0 : forall d, In d L -> d <> [] -> (ghost b0 d = false <-> live w0 d)).
  { intros d Hd Hn. rewrite <- (j_node _ _ _ _ _ J d). unfold ghost. destruct (lookup d (dnode b0)) as [[t|]|].
    - split; eauto.
    - split; [discriminate|intros [? ?]; discriminate].
    - split; [discriminate|intros [? ?]; discriminate]. }
  assert (UA : In [] L -> u = (false, true) /\ (forall v, In v (dvars b0) -> v = [])).
  { intros H. pose proof (j_root _ _ _ _ _ J (j_load _ _ _ _ _ J [] H)) as A. split; [|exact A].
    apply in_use_root; [exact H|]. intros v Hv. apply A, (j_load _ _ _ _ _ J), Hv. }
  assert (UB : ~ In [] L -> snd u = false /\ ~ In [] (dvars b0) /\ (fst u = true <-> exists d, In d L /\ d <> [] /\ live w0 d)).
  { intros H. destruct (in_use_none b0 L H) as [A C]. split; [exact A|]. split.
    - intros K. destruct (j_load2 _ _ _ _ _ J [] K) as [Q|[Q _]]; [auto|congruence].
    - unfold u. rewrite C. split; intros [d Q]; exists d.
      + destruct Q as [Q1 Q2]. assert (d <> []) by congruence. split; [auto|]. split; [auto|]. apply LIVE0; auto.
      + destruct Q as [Q1 [Q2 Q3]]. split; [auto|]. apply LIVE0; auto. }
  assert (FL : fst u = true -> exists d, d <> [] /\ In d (loaded c)).
  { intros H. destruct (In_dec_path [] L) as [K|K].
    - destruct (UA K) as [K2 _]. rewrite K2 in H. discriminate.
    - apply (UB K) in H. destruct H as [d [A [C D]]]. exists d. split; [exact C|]. apply (l_keep _ _ _ _ _ _ _ I); auto. }
  assert (NW : fresh c = true -> exists d, d <> [] /\ In d (loaded c)).
  { intros H. apply (l_fresh _ _ _ _ _ _ _ I) in H. destruct H as [d H]. destruct (l_new _ _ _ _ _ _ _ I d H) as [A [C _]]. eauto. }
  assert (NW0 : fresh c = false -> newv c = []).
  { intros H. destruct (newv c) as [|x y] eqn:Q; [reflexivity|].
    assert (fresh c = true) by (apply (l_fresh _ _ _ _ _ _ _ I); rewrite Q; exists x; left; reflexivity). congruence. }
  set (rb := fun b : db => if negb (fst u) && removed c then reparse_all b else b).
  assert (RB : forall b, exists cr, rb b = {| dnode := dnode b; dconf := dconf b; dvars := dvars b; dcreate := cr; dgen := dgen b; ddirs := ddirs b |}
      /\ (forall p, In p (dcreate b) -> In p (ddirs b) -> In p cr) /\ (negb (fst u) && removed c = true -> cr = ddirs b)).
  { intros b. unfold rb. destruct (negb (fst u) && removed c).
    - exists (ddirs b). split; [reflexivity|auto].
    - exists (dcreate b). split; [destruct b; reflexivity|]. split; [auto|discriminate]. }
  assert (SRC : forall s, In s ss -> In s (ddirs (cb c))).
  { intros s Hs. rewrite (l_eq _ _ _ _ _ _ _ I). apply (h_keep _ _ (l_world _ _ _ _ _ _ _ I)); [apply (j_srcdirs _ _ _ _ _ J), Hs|].
    left. rewrite (j_src _ _ _ _ _ J). exact Hs. }
  assert (WD : cw c = with_dirs (cw c) (wgen (cw c)) (wdirs (cw c))) by (destruct (cw c); reflexivity).
  (* The build in the source tree starts. *)
  assert (ON : forall cr, ~ In [] L -> (forall v, In v (loaded c) -> v = []) ->
      (forall p, In p (dcreate (cb c)) -> In p (ddirs (cb c)) -> In p cr) -> (negb (fst u) && removed c = true -> cr = ddirs (cb c)) ->
      forall s, In s ss -> In s cr).
  { intros cr HL HN HC HR s Hs.
    assert (U : fst u = false).
    { destruct (fst u) eqn:Q; [|reflexivity]. destruct (FL eq_refl) as [d [A C]]. elim A. auto. }
    destruct (removed c) eqn:R.
    - rewrite U in HR. rewrite HR by reflexivity. auto.
    - apply HC; [|auto]. apply (l_create _ _ _ _ _ _ _ I); [|auto]. apply (j_init _ _ _ _ _ J); [|exact Hs].
      destruct (l_removed _ _ _ _ _ _ _ I) as [Q|Q]; [|congruence].
      destruct (dvars b0) as [|x y] eqn:Z; [reflexivity|]. assert (x = []).
      { apply HN, LV, Q. left. reflexivity. }
      subst x. destruct (UB HL) as [_ [K _]]. elim K. left. reflexivity. }
  unfold root_node in E. destruct (mem [] (loaded c)) eqn:M0; cbn [negb] in E.
  - apply mem_In in M0.
    destruct (In_dec_path [] L) as [HL|HL].
    + destruct (UA HL) as [U UV]. rewrite U in E. cbn [fst snd] in E. cbn [andb orb] in E.
      assert (OLDN : forall v, In v (loaded c) -> v <> [] -> In v (newv c)).
      { intros v Hv Hn. destruct (In_dec_path v (newv c)) as [Q|Q]; [exact Q|].
        destruct (l_old _ _ _ _ _ _ _ I v Hv Q) as [A|A]; [|congruence]. elim Hn. apply UV, (j_load _ _ _ _ _ J), A. }
      destruct (fresh c) eqn:F; cbn [fst snd] in E; injection E as <- <-; split; try reflexivity;
        cbn [cw cb newv loaded removed].
      * unfold b1. cbn [removed cb]. match goal with |- context [reparse_all ?b] => destruct (RB b) as [cr [R1 [R2 R3]]] end.
        unfold rb in R1. rewrite R1. cbn [set_vars dnode dconf dvars dcreate dgen ddirs] in *.
        destruct (NW eq_refl) as [d [Hd1 Hd2]].
        apply top_mid; auto.
        -- intros v. rewrite In_del, LV. split.
           ++ intros [A C]. left. split; [exact A|]. apply LL; auto.
           ++ intros [[A C]|[A C]]; [split; [exact A|]; apply LL; auto|]. elim Hd1. apply C, LL; auto.
        -- intros x Hx. exfalso. apply filter_In in Hx. destruct Hx as [Hx Q]. apply negb_true_iff in Q.
           apply (l_gen _ _ _ _ _ _ _ I) in Hx. apply fmem_In in Hx. congruence.
        -- intros v. rewrite In_del, LV. destruct v as [|x y]; [tauto|].
           split; [intros H; right; split; [discriminate|exact H]|intros [H|[_ H]]; [discriminate|exact H]].
        -- rewrite In_del. split; [discriminate|intuition congruence].
        -- intros v Hv Hx Hn. elim Hx. apply OLDN; [|exact Hn]. apply LV. apply In_del in Hv. tauto.
        -- intros H. apply In_del in H. intuition congruence.
        -- intros H. apply In_del in H. intuition congruence.
      * unfold b1. cbn [removed cb]. match goal with |- context [reparse_all ?b] => destruct (RB b) as [cr [R1 [R2 R3]]] end.
        unfold rb in R1. rewrite R1. rewrite WD at 1.
        assert (ALL : forall v, In v (loaded c) -> v = []).
        { intros v Hv. destruct (In_dec_path v [[]]) as [[<- |[]]|Q]; [reflexivity|].
          assert (H : v <> []) by (intros ->; apply Q; left; reflexivity).
          pose proof (OLDN v Hv H) as H2. rewrite NW0 in H2 by reflexivity. destruct H2. }
        assert (LN : forall d, live w0 d -> d = []).
        { intros d Hd. destruct (In_dec_path d [[]]) as [[<- |[]]|Q]; [reflexivity|].
          assert (H : d <> []) by (intros ->; apply Q; left; reflexivity). apply ALL, LL; auto. }
        apply top_mid; auto.
        -- intros v. rewrite LV. split.
           ++ intros H. right. split; [auto|exact LN].
           ++ intros [[A C]|[-> C]]; [elim A; auto|exact M0].
        -- intros x Hx. split; [exact Hx|apply (l_gen _ _ _ _ _ _ _ I), Hx].
        -- intros v. rewrite LV. split; [auto|intros [-> |H]; auto].
        -- rewrite LV. tauto.
    + destruct (UB HL) as [U1 [U2 U3]]. rewrite U1 in E. cbn [andb] in E.
      destruct (fst u || fresh c) eqn:FU; cbn [fst snd] in E; injection E as <- <-; split; try reflexivity;
        cbn [cw cb newv loaded removed].
      * unfold b1. cbn [removed cb]. match goal with |- context [reparse_all ?b] => destruct (RB b) as [cr [R1 [R2 R3]]] end.
        unfold rb in R1. rewrite R1. cbn [set_vars dnode dconf dvars dcreate dgen ddirs] in *. rewrite WD at 1.
        assert (X : exists d, d <> [] /\ In d (loaded c)) by (apply orb_true_iff in FU; destruct FU; auto).
        destruct X as [d [Hd1 Hd2]].
        apply top_mid; auto.
        -- intros v. rewrite In_del, LV. split.
           ++ intros [A C]. left. split; [exact A|]. apply LL; auto.
           ++ intros [[A C]|[A C]]; [split; [exact A|]; apply LL; auto|]. elim Hd1. apply C, LL; auto.
        -- right. split; [reflexivity|]. intros v A C. apply In_del. split; [intros ->; auto|exact C].
        -- intros x Hx. split; [exact Hx|apply (l_gen _ _ _ _ _ _ _ I), Hx].
        -- intros v. rewrite In_del, LV. destruct v as [|x y]; [tauto|].
           split; [intros H; right; split; [discriminate|exact H]|intros [H|[_ H]]; [discriminate|exact H]].
        -- rewrite In_del. split; [discriminate|intuition congruence].
        -- intros H. apply In_del in H. intuition congruence.
      * unfold b1. cbn [removed cb]. match goal with |- context [reparse_all ?b] => destruct (RB b) as [cr [R1 [R2 R3]]] end.
        unfold rb in R1. rewrite R1. rewrite WD at 1. apply orb_false_iff in FU. destruct FU as [FU1 FU2].
        assert (ALL : forall v, In v (loaded c) -> v = []).
        { intros v Hv. destruct (In_dec_path v [[]]) as [[<- |[]]|Q]; [reflexivity|].
          assert (H : v <> []) by (intros ->; apply Q; left; reflexivity).
          destruct (l_old _ _ _ _ _ _ _ I v Hv) as [A|A]; [rewrite NW0 by exact FU2; intros []| |congruence].
          assert (fst u = true) by (apply U3; exists v; split; [exact A|]; split; [exact H|apply LL; auto]). congruence. }
        assert (LN : forall d, live w0 d -> d = []).
        { intros d Hd. destruct (In_dec_path d [[]]) as [[<- |[]]|Q]; [reflexivity|].
          assert (H : d <> []) by (intros ->; apply Q; left; reflexivity). apply ALL, LL; auto. }
        apply top_mid; auto.
        -- intros v. rewrite LV. split.
           ++ intros H. right. split; [auto|exact LN].
           ++ intros [[A C]|[-> C]]; [elim A; auto|exact M0].
        -- intros x Hx. split; [exact Hx|apply (l_gen _ _ _ _ _ _ _ I), Hx].
        -- intros v. rewrite LV. split; [auto|intros [-> |H]; auto].
        -- rewrite LV. tauto.
  - apply mem_not in M0.
    assert (HL : ~ In [] L) by (intros H; apply M0, (l_keep _ _ _ _ _ _ _ I); auto).
    destruct (loaded c) as [|x y] eqn:Q; injection E as <- <-; split; try reflexivity; cbn [cw cb newv loaded removed].
    + unfold b1. cbn [removed cb]. match goal with |- context [reparse_all ?b] => destruct (RB b) as [cr [R1 [R2 R3]]] end.
      unfold rb in R1. rewrite R1. cbn [set_vars dnode dconf dvars dcreate dgen ddirs] in *. rewrite WD at 1.
      assert (DV : dvars (cb c) = []) by (destruct (dvars (cb c)) as [|a z]; [reflexivity|elim (proj1 (LV a)); left; reflexivity]).
      assert (LN : forall d, live w0 d -> d = []).
      { intros d Hd. destruct (In_dec_path d [[]]) as [[<- |[]]|Z]; [reflexivity|].
        assert (H : d <> []) by (intros ->; apply Z; left; reflexivity). elim (proj2 (LL d H) Hd). }
      rewrite DV. cbn [add_last mem existsb app].
      apply top_mid; auto.
      * intros v. cbn. split.
        -- intros [<- |[]]. right. auto.
        -- intros [[A C]|[-> C]]; [elim A; auto|auto].
      * right. split; [reflexivity|]. intros v _ H. rewrite DV in H. destruct H.
      * intros z Hz. split; [exact Hz|apply (l_gen _ _ _ _ _ _ _ I), Hz].
      * intros v. cbn. intuition congruence.
      * cbn. tauto.
      * intros _ _. apply ON; auto. intros v [].
    + unfold b1. cbn [removed cb]. match goal with |- context [reparse_all ?b] => destruct (RB b) as [cr [R1 [R2 R3]]] end.
      unfold rb in R1. rewrite R1. rewrite WD at 1.
      assert (NX : forall v, In v (x :: y) -> v <> []) by (intros v Hv ->; auto).
      apply top_mid; auto.
      * intros v. rewrite LV. split.
        -- intros H. left. split; [auto|]. apply LL; auto.
        -- intros [[A C]|[-> C]]; [apply LL; auto|]. elim (NX x); [left; reflexivity|]. apply C, LL; [apply NX|]; left; reflexivity.
      * intros z Hz. split; [exact Hz|apply (l_gen _ _ _ _ _ _ _ I), Hz].
      * intros v. rewrite LV. cbn. intuition congruence.
      * rewrite LV. split; [discriminate|tauto].
      * intros H. apply LV in H. tauto.
Qed.
End Config.
