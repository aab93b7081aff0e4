From Verif Require Import Base ExecModel ExecProofs BuildModel BuildSpec BuildProofs BuildProofs2 BuildProofs3.

Section Reasons.
Context {V : Type}.
Variable V_eqb : V -> V -> bool.
Variable behave : id -> (id -> option V) -> result V.
Variable caret_o : id -> bool.
Hypothesis Veq : forall a b, V_eqb a b = true <-> a = b.
Hypothesis det : deterministic behave.

Notation world := (world V).
Notation Cmd w c := (In c (commands (rls w))).
Notation Out w c x := (In x (outs (rls w) c)).
Notation Inv := (Inv behave caret_o).

Variable w1 : world.
Variable nodes : list id.
Variable keep : id -> bool.
Notation w0 := (prune keep nodes w1).
Hypothesis I1 : Inv w1.
Hypothesis Hn : graph_of w1 nodes.
Hypothesis Hsel : selection w1 nodes keep.
Notation RI := (RI behave caret_o w0 nodes keep).
Notation reason := (reason caret_o w1).

(** An output that does not stay skipped when its command was run. *)
Definition chg (s : run V) (c x : id) : Prop :=
  caret_o c = false \/ content w1 x = None \/ content (cur s) x <> content w1 x \/
  exists y, In y (links w1 c) /\ generated w1 y = true /\ ~ In y (links (cur s) c).

Record K (s : run V) : Prop := {
  k2 : forall x d, ~ Cmd w1 x -> In x (done s) -> skip s x = false -> In d (normal_succ w0 x) -> skip s d = false;
  k3 : forall c x, In c (done s) -> Cmd w1 c -> Out w1 c x -> skip s c = false -> chg s c x -> skip s x = false;
  k4 : forall n, keep n = true -> skip s n = false -> reason s n
}.

Lemma normal_succ_inv x d : ~ Cmd w1 x -> In d (normal_succ w0 x) ->
  (Cmd w1 d /\ In x (links w1 d)) \/ In d (member (rls w1) x).
Proof.
  intros N. unfold normal_succ. change (is_command w0 x) with (is_command w1 x).
  destruct (is_command w1 x) eqn:E; [apply is_command_In in E; contradiction|].
  intros H. apply in_app_or in H as [H|H]; [left|right; exact H].
  apply filter_In in H as [A B]. apply inb_In in B. split; [exact A|exact B].
Qed.

(** The exact effect of modify_outputs on the skip flags. *)
Lemma fold_skip l : forall ms d,
  let ms' := fold_left (fun (ms : MS) o => if snd ms o then ms else modify_outputs w0 o ms) l ms in
  (snd ms' d = true -> snd ms d = true) /\
  (snd ms' d = false -> snd ms d = false \/ exists o, In o l /\ snd ms' o = false /\ In d (normal_succ w0 o)).
Proof.
  induction l as [|o l IH]; intros ms d; cbn [fold_left]; [auto|].
  specialize (IH (if snd ms o then ms else modify_outputs w0 o ms)). cbn zeta in IH.
  set (ms' := fold_left _ l _) in *.
  assert (Mo : forall e, snd ms' e = true -> snd ms e = true).
  { intros e H. apply IH in H. destruct (snd ms o); [exact H|]. cbn in H. apply andb_true_iff in H. tauto. }
  split; [auto|]. intros H.
  destruct (proj2 (IH d) H) as [X|[o' [A [B C]]]]; [|right; exists o'; cbn; auto].
  destruct (snd ms o) eqn:So; [auto|]. cbn in X. apply andb_false_iff in X as [X|X]; [auto|].
  right. exists o. split; [left; reflexivity|]. split.
  - destruct (snd ms' o) eqn:E; [apply Mo in E; congruence|reflexivity].
  - apply inb_In, negb_false_iff, X.
Qed.

(** Reasons do not go away. *)
Lemma reason_mono (s s' : run V) : incl (done s) (done s') ->
  (forall c, In c (done s) -> Cmd w1 c -> links (cur s') c = links (cur s) c) ->
  (forall c x, In c (done s) -> Cmd w1 c -> Out w1 c x -> content (cur s') x = content (cur s) x) ->
  forall n, reason s n -> reason s' n.
Proof.
  intros Di Li Co n R. induction R as [n M|c x Kc O D R IH Ch|c x Kc L R IH|x g G R IH].
  - apply flagged, M.
  - apply (rewritten _ _ _ c x Kc O (Di c D) IH). rewrite (Li c D Kc), (Co c x D Kc O). exact Ch.
  - eapply used; eauto.
  - eapply grouped; eauto.
Qed.

Lemma start_K : K (start w0).
Proof.
  constructor; cbn [start skip done cur].
  - intros x d _ [].
  - intros c x [].
  - intros n Kn S. apply negb_false_iff in S. cbn [prune modify] in S. rewrite Kn in S. cbn [negb] in S. rewrite andb_false_r, orb_false_r in S.
    apply flagged, S.
Qed.

(** Processing [n] after the files were changed. *)
Lemma finish_K (s m : run V) n (l : list id) :
  K s -> RI s -> ready w0 nodes keep s n -> done m = done s -> failed m = failed s ->
  (forall c, c <> n -> links (cur m) c = links (cur s) c) ->
  (forall x, Cmd w1 n /\ Out w1 n x \/ (fs (cur m) x = fs (cur s) x /\ skip m x = skip s x)) ->
  (forall x, skip m x = true -> skip s x = true) ->
  (forall x, Cmd w1 n -> Out w1 n x -> skip s x = true -> skip m x = false -> skip s n = false /\ chg m n x) ->
  (forall x, Cmd w1 n -> Out w1 n x -> skip m n = false -> chg m n x -> skip m x = false) ->
  (forall o, In o l <-> (Cmd w1 n /\ Out w1 n o) \/ (~ Cmd w1 n /\ n = o)) ->
  let ms' := fold_left (fun (ms : MS) o => if snd ms o then ms else modify_outputs w0 o ms) l (modify (cur m), skip m) in
  K {| cur := set_modify (cur m) (upd (fst ms') n false); skip := snd ms'; done := n :: done s; failed := failed s |}.
Proof.
  intros Ks R Q Ed Ef El Efs Es Ech Ech2 Hl ms'. assert (Q5 := ready_all w0 nodes keep (proj1 Hsel) s n Q). destruct Q as [Q1 [Q2 [Q3 [Q4 _]]]].
  assert (Ru : rules_ok (rls w1)) by apply I1.
  assert (I0 : Inv w0) by (apply prune_Inv, I1). assert (G0 : graph_of w0 nodes) by (apply prune_graph, Hn).
  pose proof (fold_skip l (modify (cur m), skip m)) as Fs. fold ms' in Fs. cbn [snd] in Fs.
  assert (Mn : forall d, snd ms' d = true -> skip s d = true) by (intros d H; apply Es, Fs, H).
  assert (Out1 : forall x, Out w1 n x -> Cmd w1 n -> In x nodes).
  { intros x O C. eapply (node_succ w0 nodes G0); [exact Q1|]. apply succ_out; assumption. }
  (* what is processed gets no new flags *)
  assert (St : forall x, In x (done s) -> snd ms' x = skip s x).
  { intros x X. destruct (snd ms' x) eqn:E; [symmetry; auto|]. destruct (proj2 (Fs x) E) as [A|[o [A [B C]]]].
    - destruct (Efs x) as [[C O]|[_ Z]]; [|congruence]. exfalso. apply Q3.
      apply (r_closed _ _ _ _ _ _ R n x X Q1). apply succ_out; assumption.
    - exfalso. apply Q3. apply normal_succ_sub in C. apply Hl in A as [[Cn O]|[Cn <-]].
      + apply (r_closed _ _ _ _ _ _ R n o); [|exact Q1|apply succ_out; assumption].
        exact (r_closed _ _ _ _ _ _ R o x X (Out1 o O Cn) C).
      + exact (r_closed _ _ _ _ _ _ R n x X Q1 C). }
  assert (Sn : snd ms' n = skip m n).
  { destruct (snd ms' n) eqn:E; [symmetry; apply (proj1 (Fs n)), E|]. destruct (proj2 (Fs n) E) as [A|[o [A [B C]]]]; [congruence|].
    exfalso. apply Hl in A as [[Cn O]|[Cn <-]].
    - apply normal_succ_sub in C. assert (Do : In o (done s)).
      { apply Q5; [exact (Out1 o O Cn)|exact C]. }
      apply Q3. apply (r_closed _ _ _ _ _ _ R n o Do Q1). apply succ_out; assumption.
    - apply Q3. apply Q5; [exact Q1|]. apply normal_succ_sub, C. }
  assert (Sm : skip m n = skip s n).
  { destruct (Efs n) as [[Cn O]|[_ Z]]; [exfalso; exact (ro_files _ Ru n n Cn O Cn)|exact Z]. }
  set (s' := {| cur := _ |}).
  assert (Cc : forall x, content (cur s') x = content (cur m) x) by reflexivity.
  assert (Cx : forall c x, In c (done s) -> Cmd w1 c -> Out w1 c x -> content (cur m) x = content (cur s) x).
  { intros c x D C O. destruct (Efs x) as [[Cn On]|[F _]]; [|unfold content; rewrite F; reflexivity].
    assert (c = n) by (eapply (ro_unique _ Ru); eassumption). subst c. contradiction. }
  assert (Rm : forall z, reason s z -> reason s' z).
  { apply reason_mono.
    - intros x X. right. exact X.
    - intros c D C. apply El. congruence.
    - intros c x D C O. rewrite Cc. eauto. }
  assert (Rn : snd ms' n = false -> reason s' n).
  { intros S. apply Rm. apply (k4 s Ks n Q2). congruence. }
  assert (Ro : forall x, Cmd w1 n -> Out w1 n x -> keep x = true -> skip m x = false -> reason s' x).
  { intros x C O Kx S. destruct (skip s x) eqn:E; [|apply Rm, (k4 s Ks x Kx E)].
    destruct (Ech x C O E S) as [Z1 Z2]. apply (rewritten _ _ _ n x C O); [left; reflexivity|apply Rn; congruence|].
    destruct Z2 as [Z2|[Z2|[Z2|Z2]]]; auto. }
  constructor.
  - intros x d N [<-|X] S Hd.
    + (* a file *)
      change (snd ms' n = false) in S. change (snd ms' d = false).
      clear - Hl N S Hd Sn Fs. unfold ms' in *.
      assert (In n l) by (apply Hl; right; auto).
      (* the list has only [n] *)
      assert (Eq : forall o, In o l -> o = n) by (intros o O; apply Hl in O as [[C _]|[_ E]]; [contradiction|auto]).
      clear Hl. set (f := fun (ms : MS) o => if snd ms o then ms else modify_outputs w0 o ms) in *.
      assert (Sm : skip m n = false) by congruence. clear Fs Sn S.
      assert (G : forall l ms, (forall o, In o l -> o = n) -> (snd ms n = false) -> (In n l \/ snd ms d = false) -> snd (fold_left f l ms) d = false).
      { clear - Hd. induction l as [|o l IH]; intros ms Eq Sn [I|I]; cbn [fold_left]; [destruct I|exact I|..].
        - assert (o = n) by (apply Eq; left; reflexivity). subst o. apply IH.
          + intros o O. apply Eq. right. exact O.
          + unfold f. rewrite Sn. cbn [modify_outputs snd]. rewrite Sn. reflexivity.
          + right. unfold f. rewrite Sn. cbn [modify_outputs snd]. rewrite (proj2 (inb_In _ _) Hd). apply andb_false_r.
        - assert (o = n) by (apply Eq; left; reflexivity). subst o. apply IH.
          + intros o O. apply Eq. right. exact O.
          + unfold f. rewrite Sn. cbn [modify_outputs snd]. rewrite Sn. reflexivity.
          + right. unfold f. rewrite Sn. cbn [modify_outputs snd]. rewrite I. reflexivity. }
      apply G; auto.
    + change (snd ms' x = false) in S. rewrite (St x X) in S. change (snd ms' d = false).
      destruct (snd ms' d) eqn:E; [|reflexivity]. apply Mn in E. rewrite (k2 s Ks x d N X S Hd) in E. discriminate.
  - intros c x [<-|D] C O S Ch; change (snd ms' x = false).
    + change (snd ms' n = false) in S. rewrite Sn in S.
      destruct (snd ms' x) eqn:E; [|reflexivity]. apply (proj1 (Fs x)) in E. rewrite <- E. apply Ech2; assumption.
    + change (snd ms' c = false) in S. rewrite (St c D) in S.
      destruct (snd ms' x) eqn:E; [|reflexivity]. apply Mn in E. rewrite <- E. apply (k3 s Ks c x D C O S).
      unfold chg in *. rewrite Cc, (Cx c x D C O) in Ch.
      assert (links (cur s') c = links (cur s) c) as <- by (apply El; congruence). exact Ch.
  - intros d Kd S. change (snd ms' d = false) in S. destruct (proj2 (Fs d) S) as [A|[o [A [B Cd]]]].
    + destruct (Efs d) as [[C O]|[_ Z]]; [apply Ro; assumption|]. apply Rm. apply (k4 s Ks d Kd). congruence.
    + assert (No : ~ Cmd w1 o) by (apply Hl in A as [[C O]|[C <-]]; [exact (ro_files _ Ru n o C O)|exact C]).
      assert (R1 : keep o = true -> reason s' o).
      { intros Ko. apply Hl in A as [[C O]|[C <-]]; [|auto].
        destruct (proj2 (Fs o) B) as [X|[o' [A' [B' C']]]]; [apply Ro; assumption|].
        exfalso. (* an output is not the successor of an output *)
        assert (A2 : Out w1 n o') by (apply Hl in A' as [[_ Y]|[Y _]]; [exact Y|contradiction]).
        apply normal_succ_inv in C'; [|exact (ro_files _ Ru n o' C A2)].
        destruct C' as [[Y _]|Y]; [exact (ro_files _ Ru n o C O Y)|].
        apply (ro_groups _ Ru o' o Y). exists n. tauto. }
      destruct (keep o) eqn:Ko.
      * destruct (normal_succ_inv o d No Cd) as [[Kc L]|G]; [eapply used; eauto|eapply grouped; eauto].
      * exfalso. apply Hl in A as [[C O]|[C <-]]; [|congruence].
        destruct Hsel as [_ Ho]. rewrite (Ho n o (proj2 (is_command_In w1 n) C) Q2 O) in Ko. discriminate.
Qed.

Lemma K_step (s s' : run V) : K s -> RI s -> ustep V_eqb behave caret_o false w0 nodes keep s s' -> K s'.
Proof.
  intros Ks R S. assert (Ru : rules_ok (rls w1)) by apply I1. assert (I0 : Inv w0) by (apply prune_Inv, I1).
  destruct S as [s n Q C|s n Q C Sk|s n view Q C Sk Vi A|s n w' Q C Sk L].
  - assert (N : ~ Cmd w1 n) by (intros X; apply (is_command_In w0) in X; congruence).
    apply (finish_K s s n [n]); auto; try tauto.
    intros o. cbn. split; [intros [E|[]]; auto|intros [[E _]|[_ E]]; auto; contradiction].
  - apply (is_command_In w0) in C. assert (C1 : Cmd w1 n) by exact C.
    apply (finish_K s s n (outs (rls w0) n)); auto; try tauto.
    + intros x _ _ E F. congruence.
    + intros x _ _ E F. congruence.
  - apply (is_command_In w0) in C. assert (C1 : Cmd w1 n) by exact C. destruct A as [_ [A2 _]].
    set (r := behave n (hide (outs (rls w0) n) view)) in *. set (m := accept V_eqb caret_o n r s).
    pose proof (r_rls _ _ _ _ _ _ R) as Er. pose proof Q as [Q1 [Q2 [Q3 [Q4 _]]]].
    assert (Ew : forall x, Out w1 n x -> content (cur s) x = content w1 x).
    { intros x O. unfold content. f_equal. exact (own_same behave caret_o w0 nodes keep I0 s n x R C Q3 Q4 O). }
    assert (Cm : forall x, Out w1 n x -> content (cur m) x = r_out r x).
    { intros x O. unfold content, m. cbn [accept cur fs]. rewrite Er. rewrite (proj2 (inb_In x (outs (rls w0) n)) O). destruct (r_out r x); reflexivity. }
    assert (Lm : links (cur m) n = filter (fun x => negb (inb x (outs (rls w1) n))) (r_reads r)).
    { unfold m. cbn [accept cur links]. unfold upd. rewrite Nat.eqb_refl, Er. reflexivity. }
    assert (Ln : links (cur s) n = links w1 n) by exact (r_links _ _ _ _ _ _ R n Q3 Q4).
    assert (Im : important_removed (cur s) n r = true -> exists y, In y (links w1 n) /\ generated w1 y = true /\ ~ In y (links (cur m) n)).
    { unfold important_removed. rewrite Ln. intros E. apply existsb_exists in E as [y [Y E]]. apply andb_true_iff in E as [E1 E2].
      exists y. split; [exact Y|split].
      - unfold generated in E2. rewrite Er in E2. exact E2.
      - rewrite Lm. rewrite filter_In. rewrite Er in E1. change (outs (rls w0) n) with (outs (rls w1) n) in E1.
        intros [X Z]. rewrite Z, (proj2 (inb_In _ _) X) in E1. discriminate. }
    assert (Sx : forall x, Out w1 n x -> skip m x = skip s x &&
        (caret_o n && negb (important_removed (cur s) n r) && oV_eqb V_eqb (content (cur s) x) (r_out r x))).
    { intros x O. unfold m. cbn [accept skip]. rewrite Er. change (outs (rls w0) n) with (outs (rls w1) n). rewrite (proj2 (inb_In _ _) O). cbn [andb]. rewrite negb_involutive. reflexivity. }
    apply (finish_K s m n (outs (rls w0) n)); auto; try tauto.
    + intros c Hc. unfold m; cbn [accept cur links]. unfold upd. apply Nat.eqb_neq in Hc. rewrite Hc. reflexivity.
    + intros x. destruct (inb_dec x (outs (rls w1) n)) as [X|X]; [left; tauto|right].
      unfold m; cbn [accept cur fs skip]. rewrite Er. change (outs (rls w0) n) with (outs (rls w1) n). rewrite (proj2 (inb_nIn _ _) X). cbn [andb negb]. rewrite andb_true_r. auto.
    + intros x E. unfold m in E; cbn [accept skip] in E. apply andb_true_iff in E. tauto.
    + intros x _ O E F. split; [exact Sk|]. rewrite (Sx x O), E in F. cbn [andb] in F. unfold chg.
      apply andb_false_iff in F as [F|F]; [apply andb_false_iff in F as [F|F]|].
      * left. exact F.
      * right. right. right. apply Im. apply negb_false_iff, F.
      * right. rewrite (Cm x O), <- (Ew x O). destruct (content (cur s) x) as [a|] eqn:Ea; [|left; reflexivity].
        right. left. intros G. rewrite G in F. cbn in F. rewrite (proj2 (Veq a a) eq_refl) in F. discriminate.
    + intros x _ O F Ch. rewrite (Sx x O). destruct (skip s x) eqn:Es; [cbn [andb]|reflexivity].
      destruct Ch as [Ch|[Ch|[Ch|[y [Y1 [Y2 Y3]]]]]].
      * rewrite Ch. reflexivity.
      * rewrite (Ew x O), Ch. apply andb_false_r.
      * rewrite (Cm x O), <- (Ew x O) in Ch. destruct (oV_eqb V_eqb (content (cur s) x) (r_out r x)) eqn:E; [|apply andb_false_r].
        exfalso. apply Ch. destruct (content (cur s) x), (r_out r x); try discriminate. cbn in E. apply Veq in E. congruence.
      * assert (important_removed (cur s) n r = true) as ->; [|rewrite andb_false_r; reflexivity].
        unfold important_removed. rewrite Ln. apply existsb_exists. exists y. split; [exact Y1|]. apply andb_true_iff. split.
        -- apply negb_true_iff. destruct (inb y (r_reads r) && negb (inb y (outs (rls (cur s)) n))) eqn:X; [|reflexivity].
           exfalso. apply Y3. rewrite Lm. apply filter_In. rewrite Er in X. apply andb_true_iff in X as [X1 X2].
           split; [apply inb_In, X1|exact X2].
        -- unfold generated. rewrite Er. exact Y2.
  - (* a failed command *)
    apply (is_command_In w0) in C. assert (C1 : Cmd w1 n) by exact C. destruct L as [L1 [L2 [L3 [L4 [L5 L6]]]]].
    pose proof (r_rls _ _ _ _ _ _ R) as Er. assert (Q5 := ready_all w0 nodes keep (proj1 Hsel) s n Q). destruct Q as [Q1 [Q2 [Q3 [Q4 _]]]].
    assert (Cx : forall c x, In c (done s) -> Cmd w1 c -> Out w1 c x -> content w' x = content (cur s) x).
    { intros c x D Kc O. destruct (L6 x) as [[_ [F _]]|[On _]]; [unfold content; rewrite F; reflexivity|].
      rewrite Er in On. assert (c = n) by (eapply (ro_unique _ Ru); eassumption). subst c. contradiction. }
    constructor; cbn [skip done].
    + apply (k2 s Ks).
    + intros c x D Kc O S Ch. apply (k3 s Ks c x D Kc O S). unfold chg in *. cbn [cur] in Ch.
      rewrite (Cx c x D Kc O), (L4 c) in Ch by congruence. exact Ch.
    + intros d Kd S. eapply reason_mono; [..|apply (k4 s Ks d Kd S)].
      * apply incl_refl.
      * intros c D Kc. cbn [cur]. apply L4. congruence.
      * intros c x D Kc O. cbn [cur]. eauto.
Qed.

Lemma usteps_K s : usteps V_eqb behave caret_o false w0 nodes keep (start w0) s -> K s.
Proof.
  intros U. assert (G : usteps V_eqb behave caret_o false w0 nodes keep (start w0) s -> K s /\ RI s); [|apply G, U].
  clear U. intros U. remember (start w0) as s0 eqn:E. induction U as [s|s1 s2 s3 U IH S].
  - subst. split; [apply start_K|]. apply start_RI; [apply prune_Inv, I1|apply prune_graph, Hn].
  - destruct (IH E) as [Ks R]. split; [eapply K_step; eassumption|].
    apply (usteps_RI V_eqb behave caret_o Veq det w0 nodes keep); [apply prune_Inv, I1|apply prune_graph, Hn|exact (proj1 Hsel)|].
    rewrite <- E. eapply us_step; eassumption.
Qed.

(** A reason is passed on when the nodes before it are processed. *)
Lemma reason_skip s : K s -> RI s -> forall n, reason s n ->
  (forall a, In a nodes -> In n (succ w0 a) -> In a (done s)) -> skip s n = false /\ In n nodes.
Proof.
  intros Ks R. assert (Ru : rules_ok (rls w1)) by apply I1. assert (I0 : Inv w0) by (apply prune_Inv, I1).
  assert (G0 : graph_of w0 nodes) by (apply prune_graph, Hn).
  assert (Cl : forall x, In x (done s) -> forall a, In a nodes -> In x (succ w0 a) -> In a (done s)).
  { intros x X a A S. exact (r_closed _ _ _ _ _ _ R a x X A S). }
  intros n Re. induction Re as [n M|c x Kc O D Re IH Ch|c x Kc L Re IH|x g G Re IH]; intros Pd.
  - split; [|apply Hn, aff_flag, M]. apply (r_skip0 _ _ _ _ _ _ R). cbn [prune modify]. rewrite M. reflexivity.
  - destruct IH as [S N]; [apply Cl, D|]. split; [exact (k3 s Ks c x D Kc O S Ch)|].
    eapply (node_succ w0 nodes G0); [exact N|]. apply succ_out; assumption.
  - assert (Nx : ~ Cmd w1 x) by exact (i_links _ _ _ I1 c x Kc L).
    assert (Sc : In c (succ w0 x)) by (apply (succ_link behave caret_o w0 I0); assumption).
    assert (X : In x nodes -> In x (done s)) by (intros X; apply Pd; assumption).
    assert (IHs : skip s x = false /\ In x nodes).
    { apply IH. intros a A S. apply (Cl x); [|exact A|exact S]. apply X. eapply (node_succ w0 nodes G0); eauto. }
    destruct IHs as [S N]. split; [|eapply (node_succ w0 nodes G0); eauto].
    apply (k2 s Ks x c Nx (X N) S). unfold normal_succ. change (is_command w0 x) with (is_command w1 x).
    destruct (is_command w1 x) eqn:E; [apply is_command_In in E; contradiction|]. apply in_or_app. left. apply filter_In.
    split; [exact Kc|apply inb_In, L].
  - destruct (ro_groups _ Ru x g G) as [Nx _].
    assert (Hk : is_command w1 x = false) by (destruct (is_command w1 x) eqn:E; [apply is_command_In in E; contradiction|reflexivity]).
    assert (Sc : In g (succ w0 x)).
    { unfold succ. change (is_command w0 x) with (is_command w1 x). rewrite Hk. apply in_or_app. right. exact G. }
    assert (X : In x nodes -> In x (done s)) by (intros X; apply Pd; assumption).
    assert (IHs : skip s x = false /\ In x nodes).
    { apply IH. intros a A S. apply (Cl x); [|exact A|exact S]. apply X. eapply (node_succ w0 nodes G0); eauto. }
    destruct IHs as [S N]. split; [|eapply (node_succ w0 nodes G0); eauto].
    apply (k2 s Ks x g Nx (X N) S). unfold normal_succ. change (is_command w0 x) with (is_command w1 x). rewrite Hk.
    apply in_or_app. right. exact G.
Qed.

Lemma ready_reason s n : usteps V_eqb behave caret_o false w0 nodes keep (start w0) s -> ready w0 nodes keep s n ->
  (skip s n = false <-> reason s n).
Proof.
  intros U Q. assert (Ks := usteps_K s U).
  assert (R : RI s) by (apply (usteps_RI V_eqb behave caret_o Veq det w0 nodes keep); [apply prune_Inv, I1|apply prune_graph, Hn|exact (proj1 Hsel)|exact U]).
  assert (Q5 := ready_all w0 nodes keep (proj1 Hsel) s n Q). destruct Q as [Q1 [Q2 [Q3 [Q4 _]]]]. split.
  - apply (k4 s Ks n Q2).
  - intros Re. apply (reason_skip s Ks R n Re Q5).
Qed.
End Reasons.
