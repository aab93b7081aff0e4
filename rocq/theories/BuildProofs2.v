From Verif Require Import Base ExecModel ExecProofs BuildModel BuildSpec BuildProofs.

Section Run.
Context {V : Type}.
Variable V_eqb : V -> V -> bool.
Variable behave : id -> (id -> option V) -> result V.
Variable caret_o : id -> bool.
Hypothesis Veq : forall a b, V_eqb a b = true <-> a = b.
Hypothesis det : deterministic behave.

Notation world := (world V).
Notation Cmd w c := (In c (commands (rls w))).
Notation Out w c x := (In x (outs (rls w) c)).
Notation sound := (sound behave).
Notation Inv := (Inv behave caret_o).
Notation dirty := (dirty caret_o).
Notation pending := (pending caret_o).

Variable w0 : world.
Variable nodes : list id.
Variable keep : id -> bool.
Hypothesis I0 : Inv w0.
Hypothesis Hn : graph_of w0 nodes.
(* a partial update keeps what a node that it keeps needs *)
Hypothesis Hk : forall a b, In a nodes -> In b (succ w0 a) -> keep b = true -> keep a = true.

Lemma ready_all (s : run V) n : ready w0 nodes keep s n -> forall a, In a nodes -> In n (succ w0 a) -> In a (done s).
Proof. intros [A [B [_ [_ D]]]] a Na S. apply D; auto. exact (Hk a n Na S B). Qed.

Lemma node_succ a b : In a nodes -> In b (succ w0 a) -> In b nodes.
Proof. intros A B. apply Hn. eapply aff_link; [apply Hn, A|exact B]. Qed.
Lemma node_flag n : modify w0 n = true -> In n nodes.
Proof. intros M. apply Hn. apply aff_flag, M. Qed.
Lemma succ_out c x : Cmd w0 c -> Out w0 c x -> In x (succ w0 c).
Proof. intros H O. unfold succ. rewrite (proj2 (is_command_In w0 c) H). exact O. Qed.
Lemma succ_user c x : Cmd w0 c -> ~ Cmd w0 x -> In x (links w0 c) \/ In x (decl (rls w0) c) -> In c (succ w0 x).
Proof.
  intros H N O. unfold succ. destruct (is_command w0 x) eqn:K; [apply is_command_In in K; contradiction|].
  apply in_or_app. left. apply filter_In. split; [exact H|]. apply orb_true_iff. rewrite !inb_In. exact O.
Qed.
Lemma succ_link c x : Cmd w0 c -> In x (links w0 c) -> In c (succ w0 x).
Proof. intros H L. apply succ_user; auto. exact (i_links _ _ _ I0 c x H L). Qed.

Definition changed (w : world) (x : id) : Prop := dirty w0 x \/ content w x <> content w0 x.
Definition pushed (x : id) (m sk : id -> bool) (dn : list id) : Prop :=
  forall c, Cmd w0 c -> ~ In c dn -> In x (links w0 c) -> m c = true /\ sk c = false.

(** Everything before a processed node was processed earlier. *)
Definition pred (w : world) (a b : id) : Prop := In b (succ w a) /\ (derived w0 a \/ Cmd w0 a) /\ In a nodes.
Fixpoint in_order (w : world) (l : list id) : Prop :=
  match l with
  | [] => True
  | b :: l2 => (forall a, pred w a b -> In a l2) /\ in_order w l2
  end.
Lemma in_order_tl (w : world) l : forall b x a, in_order w (b :: l) -> In x (b :: l) -> pred w a x -> In a l.
Proof.
  induction l as [|c l IH]; intros b x a [H1 H2] [<-|X] P; [apply H1, P|destruct X|apply H1, P|].
  right. eapply IH; eauto.
Qed.
Lemma in_order_ext (w w' : world) l : (forall a b, In b l -> pred w' a b -> pred w a b) -> in_order w l -> in_order w' l.
Proof.
  induction l as [|b l IH]; intros E H; [exact I|]. destruct H as [H1 H2]. split.
  - intros a P. apply H1, E; [left; reflexivity|exact P].
  - apply IH; [|exact H2]. intros a c C. apply E. right. exact C.
Qed.
Lemma no_circle (w : world) l : forall C : id -> Prop, in_order w l ->
  (forall x, C x -> In x l) -> (forall x, C x -> exists a, C a /\ pred w a x) -> forall x, ~ C x.
Proof.
  induction l as [|b l IH]; intros C O I P x Cx; [destruct (I x Cx)|].
  destruct (P x Cx) as [a [Ca Pa]].
  apply (IH (fun y => C y /\ In y l)) with (x := a).
  - exact (proj2 O).
  - intros y Y. exact (proj2 Y).
  - intros y [Cy Ly]. destruct (P y Cy) as [z [Cz Pz]]. exists z. split; [|exact Pz]. split; [exact Cz|].
    exact (in_order_tl w l b y z O (or_intror Ly) Pz).
  - split; [exact Ca|]. exact (in_order_tl w l b x a O (I x Cx) Pa).
Qed.

Record RI (s : run V) : Prop := {
  r_ord : in_order (cur s) (done s);
  r_rls : rls (cur s) = rls w0;
  r_done_in : forall n, In n (done s) -> In n nodes /\ keep n = true;
  r_failed_in : forall n, In n (failed s) -> In n nodes /\ Cmd w0 n /\ ~ In n (done s);
  r_closed : forall a b, In b (done s) -> In a nodes -> In b (succ w0 a) -> In a (done s);
  r_links : forall c, ~ In c (done s) -> ~ In c (failed s) -> links (cur s) c = links w0 c;
  r_read : forall d y, In d (done s) -> Cmd w0 d -> In y (links (cur s) d) -> derived w0 y -> In y nodes -> In y (done s);
  r_lncmd : forall c x, Cmd w0 c -> In x (links (cur s) c) -> ~ Cmd w0 x;
  r_fs : forall x, (forall c, Cmd w0 c -> Out w0 c x -> ~ In c (done s) /\ ~ In c (failed s)) ->
           fs (cur s) x = fs w0 x /\ mtime (cur s) x = mtime w0 x;
  r_new : forall x, fs (cur s) x = fs w0 x \/ (generated w0 x = true /\
           (fs (cur s) x = None \/ exists v t, fs (cur s) x = Some (v, t) /\ clock w0 <= t));
  r_old : stamps_old (cur s) /\ clock w0 <= clock (cur s);
  r_mdone : forall n, In n (done s) -> modify (cur s) n = false;
  r_mkeep : forall n, ~ In n (done s) -> modify w0 n = true -> modify (cur s) n = true;
  r_mnodes : forall n, modify (cur s) n = true -> In n nodes;
  r_skipm : forall c, Cmd w0 c -> ~ In c (done s) -> skip s c = false -> modify (cur s) c = true;
  r_skip0 : forall n, modify w0 n = true -> skip s n = false;
  r_failm : forall c, In c (failed s) -> modify (cur s) c = true;
  r_sound : forall c, In c (done s) -> Cmd w0 c -> sound (cur s) c;
  r_failo : forall c x, In c (failed s) -> caret_o c = true -> Out w0 c x -> fs (cur s) x = None \/ fs (cur s) x = fs w0 x;
  r_push1 : forall x, modify w0 x = true -> In x (done s) -> pushed x (modify (cur s)) (skip s) (done s);
  r_push2 : forall c x, In c (done s) -> Cmd w0 c -> Out w0 c x -> changed (cur s) x -> pushed x (modify (cur s)) (skip s) (done s)
}.

Lemma start_RI : RI (start w0).
Proof.
  constructor; cbn [start cur skip done failed]; try (intros; contradiction); auto; try tauto.
  - exact I.
  - intros c x K L. eapply i_links; eauto.
  - split; [apply (i_old _ _ _ I0)|lia].
  - apply node_flag.
  - intros c _ _ S. apply negb_false_iff, S.
  - intros n ->. reflexivity.
Qed.

(** What modify_outputs does. *)
Definition MS := ((id -> bool) * (id -> bool))%type.
Record pushes (P : id -> Prop) (ms ms' : MS) : Prop := {
  ps_m : forall d, fst ms d = true -> fst ms' d = true;
  ps_s : forall d, snd ms' d = true -> snd ms d = true;
  ps_mi : forall d, fst ms' d = true -> fst ms d = true \/ exists o, P o /\ In d (succ w0 o);
  ps_si : forall d, Cmd w0 d -> snd ms' d = false -> snd ms d = false \/ fst ms' d = true;
  ps_do : forall o, P o -> snd ms o = false -> forall c, Cmd w0 c -> In o (links w0 c) -> fst ms' c = true /\ snd ms' c = false
}.

Lemma normal_succ_sub n d : In d (normal_succ w0 n) -> In d (succ w0 n).
Proof.
  unfold normal_succ, succ. destruct (is_command w0 n); intros H; [exact H|].
  apply in_app_or in H as [H|H]; apply in_or_app; [left|right; exact H]. apply filter_In in H as [A B]. apply filter_In.
  split; [exact A|]. rewrite B. reflexivity.
Qed.
Lemma normal_succ_link n c : Cmd w0 c -> In n (links w0 c) -> In c (normal_succ w0 n).
Proof.
  intros H L. unfold normal_succ. destruct (is_command w0 n) eqn:K.
  - exfalso. apply is_command_In in K. exact (i_links _ _ _ I0 c n H L K).
  - apply in_or_app. left. apply filter_In. split; [exact H|]. apply inb_In, L.
Qed.

Lemma pushes_nil (P : id -> Prop) ms : (forall o, P o -> snd ms o = true) -> pushes P ms ms.
Proof. intros H. constructor; auto. intros o Po S. rewrite (H o Po) in S. discriminate. Qed.
Lemma pushes_one n ms : pushes (eq n) ms (if snd ms n then ms else modify_outputs w0 n ms).
Proof.
  destruct (snd ms n) eqn:S. { apply pushes_nil. intros o <-. exact S. }
  constructor; cbn [modify_outputs fst snd].
  - intros d ->. reflexivity.
  - intros d H. apply andb_true_iff in H. tauto.
  - intros d H. apply orb_true_iff in H as [H|H]; [auto|]. right. apply andb_true_iff in H as [H _]. exists n. split; [reflexivity|].
    apply normal_succ_sub, inb_In, H.
  - intros d K H. apply andb_false_iff in H as [H|H]; [auto|]. right. apply negb_false_iff in H.
    rewrite H, (proj2 (is_command_In w0 d) K). apply orb_true_r.
  - intros o <- _ c K L. rewrite (proj2 (inb_In _ _) (normal_succ_link n c K L)), (proj2 (is_command_In w0 c) K).
    rewrite orb_true_r, andb_false_r. auto.
Qed.
Lemma pushes_cat (P Q : id -> Prop) a b c : pushes P a b -> pushes Q b c -> pushes (fun o => P o \/ Q o) a c.
Proof.
  intros [A1 A2 A3 A4 A5] [B1 B2 B3 B4 B5]. constructor; auto.
  - intros d H. destruct (B3 d H) as [X|[o [X Y]]]; [|eauto]. destruct (A3 d X) as [Z|[o [Z Y]]]; eauto.
  - intros d K H. destruct (B4 d K H) as [X|X]; [|auto]. destruct (A4 d K X); auto.
  - intros o [X|X] S d K L.
    + destruct (A5 o X S d K L) as [Z1 Z2]. split; [auto|].
      destruct (snd c d) eqn:E; [apply B2 in E; congruence|reflexivity].
    + apply (B5 o X); auto. destruct (snd b o) eqn:E; [apply A2 in E; congruence|reflexivity].
Qed.
Lemma pushes_fold l : forall ms,
  pushes (fun o => In o l) ms (fold_left (fun (ms : MS) o => if snd ms o then ms else modify_outputs w0 o ms) l ms).
Proof.
  induction l as [|o l IH]; intros ms; cbn [fold_left]; [apply pushes_nil; intros _ []|].
  pose proof (pushes_cat _ _ _ _ _ (pushes_one o ms) (IH _)) as H. destruct H as [H1 H2 H3 H4 H5]. constructor; auto.
Qed.

(** The step that processes [n], after the files were changed. *)
Lemma finish_RI (s m : run V) n ms' (P : id -> Prop) :
  RI s -> ready w0 nodes keep s n ->
  done m = done s -> failed m = failed s -> rls (cur m) = rls w0 -> modify (cur m) = modify (cur s) ->
  (forall c, c <> n -> links (cur m) c = links (cur s) c) ->
  (forall x, Cmd w0 n /\ Out w0 n x \/ (fs (cur m) x = fs (cur s) x /\ mtime (cur m) x = mtime (cur s) x /\ skip m x = skip s x)) ->
  (forall x, Cmd w0 n /\ Out w0 n x -> skip m x = true -> skip s x = true) ->
  (forall x, fs (cur m) x = fs w0 x \/ (generated w0 x = true /\
           (fs (cur m) x = None \/ exists v t, fs (cur m) x = Some (v, t) /\ clock w0 <= t))) ->
  stamps_old (cur m) -> clock w0 <= clock (cur m) ->
  (Cmd w0 n -> sound (cur m) n) ->
  (forall y, Cmd w0 n -> In y (links (cur m) n) -> ~ Cmd w0 y /\ (derived w0 y -> In y nodes -> In y (done s))) ->
  (~ Cmd w0 n -> links (cur m) n = links (cur s) n) ->
  (forall o, P o <-> (Cmd w0 n /\ Out w0 n o) \/ (~ Cmd w0 n /\ n = o)) ->
  pushes P (modify (cur m), skip m) ms' ->
  (forall x, Cmd w0 n -> Out w0 n x -> changed (cur m) x -> skip m x = false) ->
  RI {| cur := set_modify (cur m) (upd (fst ms') n false); skip := snd ms'; done := n :: done s; failed := failed s |}.
Proof.
  intros R Q Ed Ef Er Em El Efs Es En Eo Ec So Rd Ln HP Ps Pc. assert (Q5 := ready_all s n Q). destruct Q as [Q1 [Q2 [Q3 [Q4 _]]]].
  assert (Ru := i_rules _ _ _ I0).
  (* outputs of [n] are not used by anything that was processed *)
  assert (Nu : forall d x, In d (done s) -> Cmd w0 d -> In x (links (cur s) d) -> Cmd w0 n -> Out w0 n x -> False).
  { intros d x D1 D2 L K O. apply Q3. apply (r_closed s R n x).
    - apply (r_read s R d x D1 D2 L); [left; exists n; tauto|]. eapply node_succ; [exact Q1|]. apply succ_out; assumption.
    - exact Q1.
    - apply succ_out; assumption. }
  assert (Cn : forall x, Cmd w0 n /\ Out w0 n x \/ fs (cur m) x = fs (cur s) x) by (intros x; destruct (Efs x); tauto).
  assert (Mx : forall d, d <> n -> modify (cur s) d = true -> upd (fst ms') n false d = true).
  { intros d D M. unfold upd. apply Nat.eqb_neq in D. rewrite D. apply (ps_m _ _ _ Ps). cbn [fst]. rewrite Em. exact M. }
  constructor; cbn [cur skip done failed set_modify rls fs mtime links clock modify].
  - split.
    + intros a [S [Da Na]]. unfold succ, is_command in S. cbn [set_modify rls links] in S. rewrite Er in S. fold (is_command w0 a) in S.
      destruct (is_command w0 a) eqn:K.
      * apply Q5; [exact Na|]. unfold succ. rewrite K. exact S.
      * apply in_app_or in S as [S|S].
        -- apply filter_In in S as [Kn S]. apply orb_true_iff in S as [S|S].
           ++ apply inb_In in S. apply (Rd a Kn S); [|exact Na]. destruct Da as [Da|Da]; [exact Da|].
              apply is_command_In in Da. congruence.
           ++ apply Q5; [exact Na|]. unfold succ. rewrite K. apply in_or_app. left. apply filter_In. split; [exact Kn|]. rewrite S. apply orb_true_r.
        -- apply Q5; [exact Na|]. unfold succ. rewrite K. apply in_or_app. right. exact S.
    + eapply in_order_ext; [|apply (r_ord s R)]. intros a b B [S Z]. split; [|exact Z].
      assert (b <> n) by congruence. unfold succ, is_command in *. cbn [set_modify rls links] in S. rewrite Er in S. rewrite (r_rls s R).
      destruct (inb a (commands (rls w0))); [exact S|]. apply in_app_or in S as [S|S]; apply in_or_app; [left|right; exact S].
      apply filter_In in S as [Kb S]. apply filter_In. split; [exact Kb|]. rewrite El in S by assumption. exact S.
  - exact Er.
  - intros x [<-|X]; [tauto|apply (r_done_in s R x X)].
  - intros x X. destruct (r_failed_in s R x X) as [A [B C]]. split; [exact A|split; [exact B|]]. intros [<-|Y]; contradiction.
  - intros a b [<-|B] A S; [right; auto|right; eapply (r_closed s R); eauto].
  - intros c N1 N2. assert (c <> n) by (intros ->; apply N1; left; reflexivity). rewrite El by assumption.
    apply (r_links s R); auto. intros X. apply N1. right. exact X.
  - intros d y [<-|D] K L Dy Ny.
    + right. apply (proj2 (Rd y K L) Dy Ny).
    + right. destruct (Nat.eq_dec d n) as [->|Nd]; [contradiction|]. rewrite El in L by exact Nd. eapply (r_read s R); eauto.
  - intros c x K L. destruct (Nat.eq_dec c n) as [->|Nd]; [apply (Rd x K L)|]. rewrite El in L by exact Nd. eapply (r_lncmd s R); eauto.
  - intros x H. destruct (Efs x) as [[K O]|[F [M _]]].
    + destruct (H n K O) as [N _]. exfalso. apply N. left. reflexivity.
    + rewrite F, M. apply (r_fs s R). intros c K O. destruct (H c K O) as [N1 N2]. split; [|exact N2]. intros X. apply N1. right. exact X.
  - exact En.
  - split; [|exact Ec]. destruct Eo as [E1 E2]. split; [exact E1|exact E2].
  - intros x [<-|X]; unfold upd; [rewrite Nat.eqb_refl; reflexivity|].
    destruct (x =? n) eqn:E; [reflexivity|]. destruct (fst ms' x) eqn:F; [|reflexivity]. exfalso.
    apply (ps_mi _ _ _ Ps) in F as [F|[o [Po S]]].
    + cbn [fst] in F. rewrite Em, (r_mdone s R x X) in F. discriminate.
    + apply HP in Po as [[K O]|[K <-]].
      * apply Q3. apply (r_closed s R n o); [|exact Q1|apply succ_out; assumption].
        apply (r_closed s R o x X); [|exact S]. eapply node_succ; [exact Q1|apply succ_out; assumption].
      * apply Q3. eapply (r_closed s R); eauto.
  - intros x N M. assert (x <> n) by (intros ->; apply N; left; reflexivity). apply Mx; [assumption|].
    apply (r_mkeep s R); [|exact M]. intros X. apply N. right. exact X.
  - intros x. unfold upd. destruct (x =? n) eqn:E; [discriminate|]. intros F.
    apply (ps_mi _ _ _ Ps) in F as [F|[o [Po S]]].
    + cbn [fst] in F. rewrite Em in F. apply (r_mnodes s R x F).
    + apply HP in Po as [[K O]|[K <-]]; (eapply node_succ; [|exact S]); [|exact Q1].
      eapply node_succ; [exact Q1|]. apply succ_out; assumption.
  - intros c K N S. assert (c <> n) by (intros ->; apply N; left; reflexivity).
    assert (~ In c (done s)) by (intros X; apply N; right; exact X).
    destruct (ps_si _ _ _ Ps c K S) as [X|X].
    + apply Mx; [assumption|]. apply (r_skipm s R); auto. cbn [snd] in X. destruct (Efs c) as [[Kn O]|[_ [_ Z]]]; [|congruence].
      exfalso. exact (ro_files _ Ru n c Kn O K).
    + unfold upd. destruct (c =? n) eqn:E; [apply Nat.eqb_eq in E; contradiction|exact X].
  - intros x M. destruct (snd ms' x) eqn:E; [|reflexivity]. apply (ps_s _ _ _ Ps) in E. cbn [snd] in E.
    rewrite <- (r_skip0 s R x M). destruct (Efs x) as [Y|[_ [_ Z]]]; [symmetry; apply Es; assumption|congruence].
  - intros c F. apply Mx; [intros ->; contradiction|]. apply (r_failm s R c F).
  - intros c [<-|D] K.
    + apply (sound_ext behave det (cur m)); auto.
    + assert (c <> n) by congruence.
      apply (sound_ext behave det (cur s)); auto.
      * cbn [set_modify rls]. rewrite Er, (r_rls s R). reflexivity.
      * cbn [set_modify links]. apply El. assumption.
      * intros x X. unfold content. cbn [set_modify fs]. destruct (Cn x) as [[Kn O]|F]; [|rewrite F; reflexivity].
        exfalso. destruct X as [X|X].
        -- eapply Nu; eauto.
        -- rewrite (r_rls s R) in X. assert (c = n) by (eapply (ro_unique _ Ru); eassumption). contradiction.
      * apply (r_sound s R); assumption.
  - intros c x F Co O. destruct (Cn x) as [[Kn On]|E].
    + destruct (r_failed_in s R c F) as [_ [K _]]. assert (c = n) by (eapply (ro_unique _ Ru); eassumption). subst c. contradiction.
    + rewrite E. apply (r_failo s R c); assumption.
  - intros x M [<-|X] c K N L.
    + assert (Nn : ~ Cmd w0 n) by exact (i_links _ _ _ I0 c n K L).
      assert (c <> n) by congruence.
      destruct (ps_do _ _ _ Ps n) with (c := c) as [Z1 Z2]; auto.
      * apply HP. right. auto.
      * cbn [snd]. destruct (Efs n) as [[? _]|[_ [_ Z]]]; [contradiction|]. rewrite Z. apply (r_skip0 s R n M).
      * split; [|exact Z2]. unfold upd. destruct (c =? n) eqn:E; [apply Nat.eqb_eq in E; contradiction|exact Z1].
    + assert (c <> n) by (intros ->; apply N; left; reflexivity).
      assert (Nc : ~ In c (done s)) by (intros Y; apply N; right; exact Y).
      destruct (r_push1 s R x M X c K Nc L) as [Z1 Z2]. split; [apply Mx; assumption|].
      destruct (snd ms' c) eqn:E; [|reflexivity]. apply (ps_s _ _ _ Ps) in E. cbn [snd] in E.
      destruct (Efs c) as [[Kn O]|[_ [_ Z]]]; [exfalso; exact (ro_files _ Ru n c Kn O K)|congruence].
  - intros d x [<-|D] Kd O Ch c K N L.
    + assert (c <> n) by (intros ->; apply N; left; reflexivity).
      destruct (ps_do _ _ _ Ps x) with (c := c) as [Z1 Z2]; auto.
      * apply HP. left. auto.
      * cbn [snd]. apply Pc; auto.
      * split; [|exact Z2]. unfold upd. destruct (c =? n) eqn:E; [apply Nat.eqb_eq in E; contradiction|exact Z1].
    + assert (c <> n) by (intros ->; apply N; left; reflexivity).
      assert (Nc : ~ In c (done s)) by (intros Y; apply N; right; exact Y).
      assert (Ch' : changed (cur s) x).
      { destruct Ch as [Ch|Ch]; [left; exact Ch|right]. unfold content in *. cbn [set_modify fs] in Ch.
        destruct (Cn x) as [[Kn On]|E]; [|congruence].
        assert (d = n) by (eapply (ro_unique _ Ru); eassumption). subst d. contradiction. }
      destruct (r_push2 s R d x D Kd O Ch' c K Nc L) as [Z1 Z2]. split; [apply Mx; assumption|].
      destruct (snd ms' c) eqn:E; [|reflexivity]. apply (ps_s _ _ _ Ps) in E. cbn [snd] in E.
      destruct (Efs c) as [[Kn O']|[_ [_ Z]]]; [exfalso; exact (ro_files _ Ru n c Kn O' K)|congruence].
Qed.

Lemma not_gen_same (s : run V) x : RI s -> ~ (exists c, Cmd w0 c /\ Out w0 c x) -> fs (cur s) x = fs w0 x.
Proof. intros R N. apply (r_fs s R). intros c K O. exfalso. eauto. Qed.
Lemma own_same (s : run V) n x : RI s -> Cmd w0 n -> ~ In n (done s) -> ~ In n (failed s) -> Out w0 n x -> fs (cur s) x = fs w0 x.
Proof.
  intros R K N1 N2 O. apply (r_fs s R). intros c Kc Oc.
  assert (c = n) by (eapply (ro_unique _ (i_rules _ _ _ I0)); eassumption). subst c. tauto.
Qed.

Lemma skip_sound (s : run V) n : RI s -> ready w0 nodes keep s n -> Cmd w0 n -> skip s n = true -> sound (cur s) n.
Proof.
  intros R Q K Sk. assert (Q5 := ready_all s n Q). destruct Q as [Q1 [Q2 [Q3 [Q4 _]]]].
  assert (El : links (cur s) n = links w0 n) by (apply (r_links s R); assumption).
  assert (Nn : forall x, In x (links w0 n) -> In x nodes -> In x (done s)).
  { intros x L X. apply Q5; [exact X|]. apply succ_link; assumption. }
  assert (P2 : forall x c, In x (links w0 n) -> Cmd w0 c -> Out w0 c x -> In c nodes -> ~ changed (cur s) x).
  { intros x c L Kc O Nc Ch. assert (In x nodes) by (eapply node_succ; [exact Nc|apply succ_out; assumption]).
    assert (In c (done s)) by (eapply (r_closed s R c x); auto; apply succ_out; assumption).
    assert (Z := r_push2 s R c x H0 Kc O Ch n K Q3 L). destruct Z as [_ Z]. congruence. }
  assert (Sm : forall x, In x (links w0 n) -> content (cur s) x = content w0 x).
  { intros x L. destruct (generated w0 x) eqn:G.
    - apply generated_In in G as [c [Kc O]]. destruct (inb_dec c nodes) as [Nc|Nc].
      + destruct (ocV_dec V_eqb Veq (content (cur s) x) (content w0 x)) as [E|E]; [exact E|].
        exfalso. eapply P2; eauto. right. exact E.
      + unfold content. f_equal. apply (own_same s c x R Kc); [| |exact O].
        * intros X. apply (r_done_in s R) in X. tauto.
        * intros X. apply (r_failed_in s R) in X. tauto.
    - apply generated_no in G. unfold content. f_equal. apply not_gen_same; assumption. }
  assert (So : sound w0 n).
  { destruct (i_cmd _ _ _ I0 n K) as [[M|[x [L [M|[c [Kc [O [M Z]]]]]]]]|S]; [| | |exact S]; exfalso.
    - rewrite (r_skip0 s R n M) in Sk. discriminate.
    - assert (Dx : In x (done s)) by (apply Nn; [exact L|apply node_flag, M]).
      destruct (r_push1 s R x M Dx n K Q3 L) as [_ Z]. congruence.
    - apply (P2 x c L Kc O); [apply node_flag, M|]. left. right. exists c. tauto. }
  apply (sound_ext behave det w0); auto.
  - rewrite (r_rls s R). reflexivity.
  - intros x [L|O]; [auto|]. unfold content. f_equal. eapply own_same; eauto.
Qed.

(** Nothing that leads to a processed node is still to be processed. *)
Definition good (s : run V) (z : id) : Prop := In z nodes -> In z (done s).
Lemma derived_or_cmd (w : world) a b : In b (succ w a) -> derived w b \/ Cmd w b.
Proof.
  unfold succ. destruct (is_command w a) eqn:K; intros S.
  - left. left. exists a. split; [apply is_command_In, K|exact S].
  - apply in_app_or in S as [S|S]; [right; apply filter_In in S; tauto|left; right; exists a; exact S].
Qed.
Lemma good_back (s : run V) a b : RI s -> In b (succ (cur s) a) -> derived w0 a \/ Cmd w0 a -> good s b -> good s a.
Proof.
  intros R S Da G Na.
  assert (St : In b (succ w0 a) -> In a (done s)).
  { intros S0. apply (r_closed s R a b); [|exact Na|exact S0]. apply G. eapply node_succ; eassumption. }
  unfold succ, is_command in S. rewrite (r_rls s R) in S. fold (is_command w0 a) in S. destruct (is_command w0 a) eqn:K.
  - apply St. unfold succ. rewrite K. exact S.
  - apply in_app_or in S as [S|S].
    + apply filter_In in S as [Kb S]. apply orb_true_iff in S as [S|S].
      * assert (~ Cmd w0 a) by (rewrite <- is_command_In; congruence).
        apply inb_In in S. destruct (inb_dec b (done s)) as [Db|Db].
        -- destruct Da as [Da|Da]; [|contradiction]. eapply (r_read s R); eauto.
        -- apply St. apply succ_link; [exact Kb|]. rewrite <- (r_links s R b); auto.
           intros F. apply (r_failed_in s R) in F as [F _]. auto.
      * apply St. unfold succ. rewrite K. apply in_or_app. left. apply filter_In. split; [exact Kb|]. rewrite S. apply orb_true_r.
    + apply St. unfold succ. rewrite K. apply in_or_app. right. exact S.
Qed.
Lemma good_leads (s : run V) y v : RI s -> leads (cur s) y v -> derived w0 y \/ Cmd w0 y -> good s v -> good s y.
Proof.
  intros R L. induction L as [a b S|a b c P IH S]; intros D G; [eapply good_back; eassumption|].
  apply IH; [exact D|]. eapply good_back; try eassumption.
  assert (exists z, In b (succ (cur s) z)) as [z Z] by (destruct P; eauto).
  apply derived_or_cmd in Z. unfold derived in *. rewrite (r_rls s R) in Z. exact Z.
Qed.

Lemma file_RI (s : run V) n : RI s -> ready w0 nodes keep s n -> is_command w0 n = false -> RI (finish_file w0 n s).
Proof.
  intros R Q K. assert (~ Cmd w0 n) by (rewrite <- is_command_In; congruence).
  unfold finish_file. apply (finish_RI s s n _ (eq n)); auto; try tauto.
  - apply (r_rls s R).
  - apply (r_new s R).
  - apply (r_old s R).
  - apply (r_old s R).
  - apply (pushes_one n (modify (cur s), skip s)).
Qed.

Lemma skip_RI (s : run V) n : RI s -> ready w0 nodes keep s n -> is_command w0 n = true -> skip s n = true -> RI (finish_command w0 n s).
Proof.
  intros R Q K Sk. apply is_command_In in K. assert (Q5 := ready_all s n Q). pose proof Q as [Q1 [Q2 [Q3 [Q4 _]]]].
  unfold finish_command. apply (finish_RI s s n _ (fun o => In o (outs (rls w0) n))); auto; try tauto.
  - apply (r_rls s R).
  - apply (r_new s R).
  - apply (r_old s R).
  - apply (r_old s R).
  - intros _. apply skip_sound; assumption.
  - intros y _ L. split; [exact (r_lncmd s R n y K L)|]. intros _ Ny. apply Q5; [exact Ny|]. apply succ_link; [exact K|].
    rewrite <- (r_links s R n); assumption.
  - apply pushes_fold.
  - intros x _ O [[M|[c [Kc [Oc [M _]]]]]|C].
    + apply (r_skip0 s R), M.
    + assert (c = n) by (eapply (ro_unique _ (i_rules _ _ _ I0)); eassumption). subst c.
      rewrite (r_skip0 s R n M) in Sk. discriminate.
    + exfalso. apply C. unfold content. f_equal. eapply own_same; eauto.
Qed.

Lemma ok_RI (s : run V) n view : RI s -> ready w0 nodes keep s n -> is_command w0 n = true -> skip s n = false ->
  visible s nodes n view -> acceptable (cur s) n (behave n (hide (outs (rls w0) n) view)) ->
  RI (finish_command w0 n (accept V_eqb caret_o n (behave n (hide (outs (rls w0) n) view)) s)).
Proof.
  intros R Q K Sk Vi [A1 [A2 [A3 A4]]]. apply is_command_In in K. assert (Q5 := ready_all s n Q). pose proof Q as [Q1 [Q2 [Q3 [Q4 _]]]].
  set (r := behave n (hide (outs (rls w0) n) view)) in *.
  pose proof (r_rls s R) as Er. rewrite Er in A2, A3, A4.
  assert (Gd : forall y, In y (r_reads r) -> ~ Out w0 n y -> derived w0 y -> good s y).
  { intros y Y1 Y2 Y3. destruct (A4 y Y1 Y2) as [v [Dv Lv]]; [unfold derived; rewrite Er; exact Y3|].
    assert (Gv : good s v).
    { intros Nv. apply Q5; [exact Nv|]. apply succ_user; auto. exact (ro_inputs _ (i_rules _ _ _ I0) n v K Dv). }
    destruct Lv as [->|Lv]; [exact Gv|]. eapply good_leads; eauto. }
  assert (Vw : forall x, In x (r_reads r) -> ~ Out w0 n x -> view x = content (cur s) x).
  { intros x X1 X2. destruct (Vi x) as [E|[c [N1 [N2 [N3 [N4 N5]]]]]]; [exact E|]. rewrite Er in N3, N5. exfalso. apply N4.
    assert (In x nodes) by (eapply node_succ; [exact N2|apply succ_out; assumption]).
    apply (r_closed s R c x); [|exact N2|apply succ_out; assumption]. apply Gd; auto. left. exists c. tauto. }
  set (m := accept V_eqb caret_o n r s).
  assert (Cm : forall x, ~ Out w0 n x -> content (cur m) x = content (cur s) x).
  { intros x X. unfold content, m. cbn [accept cur fs]. rewrite Er. rewrite (proj2 (inb_nIn _ _) X). reflexivity. }
  assert (Co : forall x, Out w0 n x -> content (cur m) x = r_out r x).
  { intros x X. unfold content, m. cbn [accept cur fs]. rewrite Er. rewrite (proj2 (inb_In _ _) X). destruct (r_out r x); reflexivity. }
  assert (Emr : rls (cur m) = rls w0) by exact Er.
  destruct (det n (hide (outs (rls w0) n) view) (sees (cur m) n)) as [D1 [D2 D3]].
  { intros x X. unfold sees, hide. rewrite Emr. destruct (inb x (outs (rls w0) n)) eqn:I; [reflexivity|].
    apply inb_nIn in I. rewrite Cm by exact I. apply Vw; assumption. }
  fold r in D1, D2, D3.
  change (finish_command w0 n m) with
    {| cur := set_modify (cur m) (upd (fst (fold_left (fun (ms : MS) o => if snd ms o then ms else modify_outputs w0 o ms) (outs (rls w0) n) (modify (cur m), skip m))) n false);
       skip := snd (fold_left (fun (ms : MS) o => if snd ms o then ms else modify_outputs w0 o ms) (outs (rls w0) n) (modify (cur m), skip m));
       done := n :: done s; failed := failed s |}.
  apply (finish_RI s m n _ (fun o => In o (outs (rls w0) n))); auto; try tauto.
  - intros c Hc. unfold m; cbn [accept cur links]. unfold upd. apply Nat.eqb_neq in Hc. rewrite Hc. reflexivity.
  - intros x. destruct (inb_dec x (outs (rls w0) n)) as [X|X]; [left; tauto|right].
    unfold m; cbn [accept cur fs mtime skip]. rewrite Er, (proj2 (inb_nIn _ _) X). cbn [andb negb]. rewrite andb_true_r. auto.
  - intros x _ E. unfold m in E; cbn [accept skip] in E. apply andb_true_iff in E. tauto.
  - intros x. unfold m; cbn [accept cur fs]. rewrite Er. destruct (inb x (outs (rls w0) n)) eqn:I; [|apply (r_new s R)].
    right. split; [apply generated_In; exists n; split; [exact K|apply inb_In, I]|].
    destruct (r_out r x) as [v|]; cbn [option_map]; [right|left; reflexivity]. exists v, (clock (cur s)). split; [reflexivity|apply (r_old s R)].
  - destruct (r_old s R) as [[O1 O2] O3]. split; unfold m; cbn [accept cur fs mtime clock].
    + intros x v t. destruct (inb x (outs (rls (cur s)) n)).
      * destruct (r_out r x); cbn [option_map]; [|discriminate]. intros F. inversion F. lia.
      * intros F. apply O1 in F. lia.
    + intros x t. destruct (inb x (outs (rls (cur s)) n)); intros F; [inversion F; lia|]. apply O2 in F. lia.
  - unfold m; cbn [accept cur clock]. pose proof (r_old s R). lia.
  - intros _. split.
    + split; [congruence|]. intros x X. change (Out (cur s) n x) in X. rewrite Er in X. rewrite D3, (Co x X). split; [apply A2, X|reflexivity].
    + intros x. rewrite D2. change (outs (rls (cur m)) n) with (outs (rls (cur s)) n). rewrite Er.
      unfold m; cbn [accept cur links]. unfold upd. rewrite Nat.eqb_refl, filter_In, Er, negb_true_iff, inb_nIn. tauto.
  - intros y _ L. unfold m in L; cbn [accept cur links] in L. unfold upd in L. rewrite Nat.eqb_refl, filter_In, Er, negb_true_iff, inb_nIn in L.
    destruct L as [L1 L2]. split; [apply A3, L1|]. intros Dy. apply Gd; assumption.
  - apply pushes_fold.
  - intros x _ O Ch. unfold m; cbn [accept skip]. rewrite Er, (proj2 (inb_In _ _) O). cbn [andb].
    assert (Ew : content (cur s) x = content w0 x) by (unfold content; f_equal; eapply own_same; eauto).
    destruct (skip s x) eqn:Sx; [cbn [andb]|reflexivity]. rewrite negb_involutive.
    destruct Ch as [[M|[c [Kc [Oc [M Z]]]]]|C].
    + rewrite (r_skip0 s R x M) in Sx. discriminate.
    + assert (c = n) by (eapply (ro_unique _ (i_rules _ _ _ I0)); eassumption). subst c.
      destruct Z as [Z|Z]; [rewrite Z; reflexivity|]. rewrite Ew. unfold content. rewrite Z. cbn [option_map oV_eqb]. apply andb_false_r.
    + rewrite (Co x O) in C. destruct (oV_eqb V_eqb (content (cur s) x) (r_out r x)) eqn:E; [|apply andb_false_r].
      exfalso. apply C. rewrite <- Ew. destruct (content (cur s) x), (r_out r x); try discriminate. cbn in E. apply Veq in E. congruence.
Qed.

Lemma fail_RI (s : run V) n w' : RI s -> ready w0 nodes keep s n -> is_command w0 n = true -> skip s n = false ->
  left_behind caret_o false n (cur s) w' ->
  RI {| cur := w'; skip := skip s; done := done s; failed := n :: failed s |}.
Proof.
  intros R Q K Sk [L1 [L2 [L3 [L4 [L5 L6]]]]]. apply is_command_In in K. assert (Q5 := ready_all s n Q). pose proof Q as [Q1 [Q2 [Q3 [Q4 _]]]].
  assert (Ru := i_rules _ _ _ I0). pose proof (r_rls s R) as Er. rewrite Er in L5.
  assert (Nu : forall d x, In d (done s) -> Cmd w0 d -> In x (links (cur s) d) -> Out w0 n x -> False).
  { intros d x D1 D2 L O. apply Q3. apply (r_closed s R n x).
    - apply (r_read s R d x D1 D2 L); [left; exists n; tauto|]. eapply node_succ; [exact Q1|]. apply succ_out; assumption.
    - exact Q1.
    - apply succ_out; assumption. }
  assert (Cn : forall x, Out w0 n x \/ fs w' x = fs (cur s) x /\ mtime w' x = mtime (cur s) x).
  { intros x. destruct (L6 x) as [[_ X]|[X _]]; [auto|]. rewrite Er in X. auto. }
  constructor; cbn [cur skip done failed]; try rewrite L3; try apply R.
  - eapply in_order_ext; [|apply (r_ord s R)]. intros a b B [S Z]. split; [|exact Z].
    assert (b <> n) by congruence. unfold succ, is_command in *. rewrite L1 in S.
    destruct (inb a (commands (rls (cur s)))); [exact S|]. apply in_app_or in S as [S|S]; apply in_or_app; [left|right; exact S].
    apply filter_In in S as [Kb S]. apply filter_In. split; [exact Kb|]. rewrite L4 in S by assumption. exact S.
  - congruence.
  - intros x [<-|X]; [tauto|apply (r_failed_in s R x X)].
  - intros c N1 N2. assert (c <> n) by (intros ->; apply N2; left; reflexivity). rewrite L4 by assumption.
    apply (r_links s R); auto. intros X. apply N2. right. exact X.
  - intros d y D Kd L Dy Ny. rewrite L4 in L by congruence. eapply (r_read s R); eauto.
  - intros c x Kc L. destruct (Nat.eq_dec c n) as [->|Nc]; [auto|]. rewrite L4 in L by exact Nc. eapply (r_lncmd s R); eauto.
  - intros x H. destruct (Cn x) as [O|[F M]].
    + destruct (H n K O) as [_ N]. exfalso. apply N. left. reflexivity.
    + rewrite F, M. apply (r_fs s R). intros c Kc O. destruct (H c Kc O) as [N1 N2]. split; [exact N1|]. intros X. apply N2. right. exact X.
  - intros x. destruct (L6 x) as [[_ [F _]]|[O [_ F]]]; [rewrite F; apply (r_new s R)|]. rewrite Er in O.
    assert (G : generated w0 x = true) by (apply generated_In; exists n; tauto).
    destruct F as [F|[F|[_ [v [t [F T]]]]]].
    + rewrite F. apply (r_new s R).
    + right. auto.
    + right. split; [exact G|right]. exists v, t. split; [exact F|]. pose proof (r_old s R). lia.
  - destruct (r_old s R) as [[O1 O2] O3]. split; [|lia].
    assert (F1 : forall x v t, fs w' x = Some (v, t) -> t < clock w').
    { intros x v t F. destruct (L6 x) as [[_ [G _]]|[_ [_ [G|[G|[_ [v' [t' [G T]]]]]]]]].
      - rewrite G in F. apply O1 in F. lia.
      - rewrite G in F. apply O1 in F. lia.
      - congruence.
      - rewrite G in F. inversion F; subst. lia. }
    split; [exact F1|]. intros x t F. destruct (L6 x) as [[_ [_ G]]|[_ [[G|G] _]]].
    + rewrite G in F. apply O2 in F. lia.
    + rewrite G in F. apply O2 in F. lia.
    + rewrite G in F. unfold stamp in F. destruct (fs w' x) as [[v t']|] eqn:E; [|discriminate]. cbn in F. inversion F; subst. eauto.
  - intros c [<-|F]; [apply (r_skipm s R); assumption|apply (r_failm s R c F)].
  - intros c D Kc. assert (c <> n) by congruence. apply (sound_ext behave det (cur s)); [congruence|auto|..|apply (r_sound s R); assumption].
    intros x X. unfold content. destruct (Cn x) as [O|[F _]]; [|rewrite F; reflexivity].
    exfalso. destruct X as [X|X]; [eapply Nu; eauto|]. rewrite Er in X.
    assert (c = n) by (eapply (ro_unique _ Ru); eassumption). contradiction.
  - intros c x [<-|F] Co O.
    + destruct (L6 x) as [[N _]|[_ [_ F]]]; [rewrite Er in N; contradiction|].
      destruct F as [F|[F|[[F|[F _]] _]]]; [|auto|congruence|discriminate]. right. rewrite F. eapply own_same; eauto.
    + destruct (Cn x) as [On|[E _]]; [|rewrite E; apply (r_failo s R c); assumption].
      destruct (r_failed_in s R c F) as [_ [Kc _]]. assert (c = n) by (eapply (ro_unique _ Ru); eassumption). subst c. contradiction.
  - intros d x D Kd O Ch. apply (r_push2 s R d x D Kd O). destruct Ch as [Ch|Ch]; [left; exact Ch|right].
    unfold content in *. destruct (Cn x) as [On|[E _]]; [|congruence].
    assert (d = n) by (eapply (ro_unique _ Ru); eassumption). subst d. contradiction.
Qed.

Lemma usteps_RI s : usteps V_eqb behave caret_o false w0 nodes keep (start w0) s -> RI s.
Proof.
  intros U. remember (start w0) as s0 eqn:E. induction U as [s|s1 s2 s3 U IH S]; [subst; apply start_RI|].
  specialize (IH E). destruct S.
  - apply file_RI; assumption.
  - apply skip_RI; assumption.
  - apply ok_RI; assumption.
  - apply fail_RI; assumption.
Qed.

Lemma cpath_cat (w : world) a b c : cpath w a b -> cpath w b c -> cpath w a c.
Proof. intros P Q. induction Q as [b c E|b c d Q IH E]; [exact (cp2 w a b c P E)|exact (cp2 w a c d (IH P) E)]. Qed.

Lemma RI_circles s : RI s -> circles_flagged (cur s).
Proof.
  intros R n P. pose proof (r_rls s R) as Er.
  set (C := fun z => cpath (cur s) n z /\ cpath (cur s) z n).
  assert (Cn : C n) by (split; exact P).
  assert (Pr : forall z, C z -> exists y, C y /\ cedge (cur s) y z).
  { intros z [P1 P2]. inversion P1 as [a b E|a b c P3 E]; subst.
    - exists n. split; [exact Cn|exact E].
    - exists b. split; [|exact E]. split; [exact P3|]. eapply cpath_cat; [apply cp1, E|exact P2]. }
  assert (Dc : forall z, C z -> derived w0 z \/ Cmd w0 z).
  { intros z Z. destruct (Pr z Z) as [y [_ [S _]]]. apply derived_or_cmd in S. unfold derived in *. rewrite Er in S. exact S. }
  assert (Bk : forall Q : id -> Prop, (forall a b, C a -> C b -> cedge (cur s) a b -> Q b -> Q a) ->
               forall z, C z -> Q z -> forall y, C y -> Q y).
  { intros Q H z Z Qz y Y. assert (Pa : cpath (cur s) y z) by (eapply cpath_cat; [apply Y|apply Z]).
    clear - H Z Qz Y Pa. revert Z Qz. induction Pa as [a b E|a b c P3 IH E]; intros Z Qz; [eauto|].
    assert (C b) by (split; [eapply cpath_cat; [apply Y|exact P3]|eapply cpath_cat; [apply cp1, E|apply Z]]). eauto. }
  (* a circle that was there at the start *)
  assert (Old : (forall z, C z -> ~ In z (done s) /\ ~ In z (failed s)) -> False).
  { intros H. apply (i_circ _ _ _ I0 n).
    assert (E : forall a b, C a -> C b -> cedge (cur s) a b -> cedge w0 a b).
    { intros a b Ca Cb [S [E1 E2]].
      assert (Ca' : forall z, C z -> calm (cur s) z -> calm w0 z).
      { intros z Z Cz Kz. destruct (modify w0 z) eqn:M; [|reflexivity].
        rewrite <- Cz by (rewrite Er; exact Kz). symmetry. apply (r_mkeep s R); [apply (H z Z)|exact M]. }
      split; [|split; auto]. unfold succ, is_command in *. rewrite Er in S. destruct (inb a (commands (rls w0))); [exact S|].
      apply in_app_or in S as [S|S]; apply in_or_app; [left|right; exact S].
      apply filter_In in S as [Kb S]. apply filter_In. split; [exact Kb|]. rewrite (r_links s R) in S; [exact S|apply (H b Cb)|apply (H b Cb)]. }
    assert (G : forall a b, cpath (cur s) a b -> C a -> C b -> cpath w0 a b).
    { induction 1 as [a b S|a b c P3 IH S]; intros Ca Cb; [apply cp1; auto|].
      assert (C b) by (split; [eapply cpath_cat; [apply Ca|exact P3]|eapply cpath_cat; [apply cp1, S|apply Cb]]).
      eapply cp2; [apply IH; assumption|auto]. }
    apply G; auto. }
  assert (Nf : forall z, C z -> ~ In z (failed s)).
  { intros z Z F. destruct (Pr z Z) as [y [_ [_ [_ Cz]]]]. unfold calm in Cz. rewrite Er in Cz.
    destruct (r_failed_in s R z F) as [_ [K _]]. rewrite (r_failm s R z F) in Cz. specialize (Cz K). discriminate. }
  assert (Gb : forall a b, C a -> C b -> cedge (cur s) a b -> good s b -> good s a).
  { intros a b Ca Cb [S _] G. eapply good_back; eauto. }
  destruct (inb_dec n (done s)) as [Dn|Dn].
  - (* everything on the circle is processed *)
    assert (Gd : forall z, C z -> good s z) by (apply (Bk (good s) Gb n Cn); intros _; exact Dn).
    assert (Nb : forall a b, C a -> C b -> cedge (cur s) a b -> ~ In b nodes -> ~ In a nodes).
    { intros a b Ca Cb [S _] N A. apply N. eapply node_succ; [exact A|].
      unfold succ, is_command in *. rewrite Er in S. destruct (inb a (commands (rls w0))); [exact S|].
      apply in_app_or in S as [S|S]; apply in_or_app; [left|right; exact S].
      apply filter_In in S as [Kb S]. apply filter_In. split; [exact Kb|]. rewrite (r_links s R) in S; [exact S| |].
      - intros D. apply N, (r_done_in s R b D).
      - intros D. apply N, (r_failed_in s R b D). }
    assert (Al : forall z, C z -> In z (done s)).
    { intros z Z. apply Gd; [exact Z|]. destruct (inb_dec z nodes) as [Y|Y]; [exact Y|].
      exfalso. apply (Bk (fun z => ~ In z nodes) Nb z Z Y n Cn). apply (r_done_in s R n Dn). }
    apply (no_circle (cur s) (done s) C (r_ord s R) Al) with (x := n); [|exact Cn].
    intros z Z. destruct (Pr z Z) as [y [Y [S _]]]. exists y. split; [exact Y|]. split; [exact S|split; [auto|]].
    apply (r_done_in s R y (Al y Y)).
  - (* nothing on the circle is processed *)
    apply Old. intros z Z. split; [|auto]. intros Dz.
    assert (Gz : good s z) by (intros _; exact Dz).
    assert (Gn : good s n) by exact (Bk (good s) Gb z Z Gz n Cn).
    assert (Nn : ~ In n nodes) by (intros X; apply Dn, Gn, X).
    assert (Nb : forall a b, C a -> C b -> cedge (cur s) a b -> ~ In b nodes -> ~ In a nodes).
    { intros a b Ca Cb [S _] N A. apply N. eapply node_succ; [exact A|].
      unfold succ, is_command in *. rewrite Er in S. destruct (inb a (commands (rls w0))); [exact S|].
      apply in_app_or in S as [S|S]; apply in_or_app; [left|right; exact S].
      apply filter_In in S as [Kb S]. apply filter_In. split; [exact Kb|]. rewrite (r_links s R) in S; [exact S| |].
      - intros D. apply N, (r_done_in s R b D).
      - intros D. apply N, (r_failed_in s R b D). }
    apply (Bk (fun z => ~ In z nodes) Nb n Cn Nn z Z). apply (r_done_in s R z Dz).
Qed.

(** The state that is committed, whenever the update stops. *)
Lemma commit_Inv s : RI s -> Inv (cur s).
Proof.
  intros R. assert (Ru := i_rules _ _ _ I0). pose proof (r_rls s R) as Er.
  constructor.
  - rewrite Er. exact Ru.
  - rewrite Er. apply (r_lncmd s R).
  - intros c K. rewrite Er in K. destruct (inb_dec c (done s)) as [D|D]; [right; apply (r_sound s R); assumption|].
    destruct (inb_dec c (failed s)) as [F|F]; [left; left; apply (r_failm s R c F)|].
    pose proof (r_links s R c D F) as El.
    (* a pending input *)
    assert (P3 : forall x c', In x (links w0 c) -> Cmd w0 c' -> Out w0 c' x -> modify (cur s) c' = true ->
                 caret_o c' = false \/ fs (cur s) x = None -> pending (cur s) c).
    { intros x c' L K' O M Z. right. exists x. rewrite El. split; [exact L|]. right. exists c'. rewrite Er. tauto. }
    assert (P2 : forall x c', In x (links w0 c) -> Cmd w0 c' -> Out w0 c' x -> In c' (done s) -> changed (cur s) x -> pending (cur s) c).
    { intros x c' L K' O D' Ch. left. apply (r_push2 s R c' x D' K' O Ch c K D L). }
    assert (S1 : pending (cur s) c \/ forall x, In x (links w0 c) -> content (cur s) x = content w0 x).
    { assert (Q : forall l, incl l (links w0 c) -> pending (cur s) c \/ forall x, In x l -> content (cur s) x = content w0 x).
      { induction l as [|x l IH]; intros I; [right; intros x []|].
        destruct IH as [P|IH]; [intros y Y; apply I; right; exact Y|left; exact P|].
        specialize (I x (or_introl eq_refl)).
        assert (X : pending (cur s) c \/ content (cur s) x = content w0 x).
        { destruct (generated w0 x) eqn:G.
          - apply generated_In in G as [c' [K' O]]. destruct (inb_dec c' (done s)) as [D'|D'].
            + destruct (ocV_dec V_eqb Veq (content (cur s) x) (content w0 x)) as [E|E]; [auto|].
              left. eapply P2; eauto. right. exact E.
            + destruct (inb_dec c' (failed s)) as [F'|F'].
              * destruct (caret_o c') eqn:Co; [|left; eapply P3; eauto; apply (r_failm s R c' F')].
                destruct (r_failo s R c' x F' Co O) as [Z|Z]; [left; eapply P3; eauto; apply (r_failm s R c' F')|].
                right. unfold content. rewrite Z. reflexivity.
              * right. unfold content. f_equal. eapply own_same; eauto.
          - apply generated_no in G. right. unfold content. f_equal. apply not_gen_same; assumption. }
        destruct X as [X|X]; [left; exact X|]. right. intros y [<-|Y]; [exact X|auto]. }
      apply Q, incl_refl. }
    destruct S1 as [P|S1]; [left; exact P|].
    destruct (i_cmd _ _ _ I0 c K) as [[M|[x [L [M|[c' [K' [O [M Z]]]]]]]]|S].
    + left. left. apply (r_mkeep s R); assumption.
    + left. destruct (inb_dec x (done s)) as [Dx|Dx].
      * left. apply (r_push1 s R x M Dx c K D L).
      * right. exists x. rewrite El. split; [exact L|]. left. apply (r_mkeep s R); assumption.
    + left. destruct (inb_dec c' (done s)) as [D'|D'].
      * apply (P2 x c' L K' O D'). left. right. exists c'. tauto.
      * apply (P3 x c' L K' O); [apply (r_mkeep s R); assumption|]. destruct Z as [Z|Z]; [auto|].
        destruct (caret_o c') eqn:Co; [right|auto]. destruct (inb_dec c' (failed s)) as [F'|F'].
        -- destruct (r_failo s R c' x F' Co O); congruence.
        -- rewrite <- Z. eapply own_same; eauto.
    + right. apply (sound_ext behave det w0); auto; [rewrite Er; reflexivity|].
      intros x [L|O]; [auto|]. unfold content. f_equal. eapply own_same; eauto.
  - intros x G. unfold generated in G. rewrite Er in G. fold (generated w0 x) in G. pose proof G as G'.
    apply generated_no in G'. destruct (r_fs s R x) as [E1 E2]; [intros c K O; exfalso; eauto|].
    unfold stamp. rewrite E1, E2. apply (i_sync _ _ _ I0 x G).
  - apply (r_old s R).
  - apply RI_circles; assumption.
Qed.
End Run.
