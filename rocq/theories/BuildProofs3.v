From Verif Require Import Base ExecModel ExecProofs BuildModel BuildSpec BuildProofs BuildProofs2.

Lemma duplicate (l : list id) : ~ NoDup l -> exists a l1 l2 l3, l = l1 ++ a :: l2 ++ a :: l3.
Proof.
  induction l as [|x l IH]; intros N; [exfalso; apply N; constructor|].
  destruct (inb_dec x l) as [I|I].
  - apply in_split in I as [l2 [l3 ->]]. exists x, [], l2, l3. reflexivity.
  - destruct IH as [a [l1 [l2 [l3 ->]]]]; [intros D; apply N; constructor; assumption|]. exists a, (x :: l1), l2, l3. reflexivity.
Qed.

Section History.
Context {V : Type}.
Variable V_eqb : V -> V -> bool.
Variable behave : id -> (id -> option V) -> result V.
Variable caret_o : id -> bool.
Hypothesis Veq : forall a b, V_eqb a b = true <-> a = b.
Hypothesis det : deterministic behave.

Notation world := (world V).
Notation Cmd w c := (In c (commands (rls w))).
Notation Out w c x := (In x (outs (rls w) c)).
Notation sound := (sound behave).
Notation Inv := (Inv behave caret_o).
Notation Pre := (Pre behave caret_o).
Notation dirty := (dirty caret_o).
Notation pending := (pending caret_o).
Notation RI := (RI behave caret_o).

Lemma prune_Inv (w : world) nodes keep : Inv w -> Inv (prune keep nodes w).
Proof.
  intros [A Ln B C D E].
  assert (Mm : forall n, modify w n = true -> modify (prune keep nodes w) n = true) by (intros n M; cbn [prune modify]; rewrite M; reflexivity).
  constructor; auto.
  - intros c K. destruct (B c K) as [[M|[x [L [M|[c' [K' [O [M Z]]]]]]]]|S]; [left; left; auto|..|right; exact S].
    + left. right. exists x. split; [exact L|left; auto].
    + left. right. exists x. split; [exact L|right]. exists c'. auto.
  - revert E. apply circles_ext; auto.
Qed.
Lemma prune_graph (w : world) nodes keep : graph_of w nodes -> graph_of (prune keep nodes w) nodes.
Proof.
  intros H n. rewrite (H n). split.
  - induction 1 as [n M|a b A IH S]; [apply aff_flag; cbn [prune modify]; rewrite M; reflexivity|eapply aff_link; [exact IH|exact S]].
  - induction 1 as [n M|a b A IH S].
    + cbn [prune modify] in M. apply orb_true_iff in M as [M|M]; [apply aff_flag, M|].
      apply andb_true_iff in M as [M _]. apply andb_true_iff in M as [_ M]. apply H, inb_In, M.
    + eapply aff_link; [exact IH|exact S].
Qed.

Lemma crash_Pre (w : world) nodes keep s w' : Inv w -> RI (prune keep nodes w) nodes keep s -> crashed w s w' -> Pre w'.
Proof.
  intros [A Ln B C [D1 D2] E] R [H1 [H2 [H3 [H4 [H5 H6]]]]].
  assert (Ow : stamps_old (cur s) /\ clock w <= clock (cur s)) by exact (r_old _ _ _ _ _ _ R). destruct Ow as [[O1 O2] O3].
  constructor.
  - rewrite H1. exact A.
  - rewrite H1, H3. exact Ln.
  - exists (fs w). split; [|split].
    + intros c K. rewrite H1 in K. destruct (B c K) as [[M|[x [L Dx]]]|S].
      * left. left. cbn [with_fs modify]. rewrite H2. exact M.
      * left. right. exists x. cbn [with_fs links]. rewrite H3. split; [exact L|]. unfold BuildProofs.dirty. cbn [with_fs modify rls fs]. rewrite H1, H2. exact Dx.
      * right. apply (sound_ext behave det w); auto; cbn [with_fs rls links]; congruence.
    + intros x G M. unfold generated in G. rewrite H1 in G. specialize (C x G). rewrite H4 in M. rewrite C in M.
      unfold stamp in M. destruct (fs w x); [discriminate|reflexivity].
    + intros x. unfold stamp, generated. rewrite H1, H4. fold (generated w x). intros T G.
      assert (N : forall v t, fs w' x = Some (v, t) -> clock w <= t -> False).
      { intros v t F Ht. rewrite F in T. cbn in T. symmetry in T. apply D2 in T. lia. }
      destruct (H6 x) as [F|[Gx [F|[v [t [F Ht]]]]]].
      * destruct (r_new _ _ _ _ _ _ R x) as [F'|[Gx [F'|[v [t [F' Ht]]]]]].
        -- rewrite F. exact F'.
        -- exfalso. apply G; [exact Gx|congruence].
        -- exfalso. eapply N; [rewrite F; exact F'|exact Ht].
      * exfalso. apply G; assumption.
      * exfalso. eapply N; [exact F|lia].
  - split.
    + intros x v t F. destruct (H6 x) as [F'|[_ [F'|[v' [t' [F' Ht]]]]]].
      * rewrite F' in F. apply O1 in F. lia.
      * congruence.
      * rewrite F' in F. inversion F; subst. lia.
    + intros x t F. rewrite H4 in F. apply D2 in F. lia.
  - revert E. apply circles_ext; [exact H1|intros; rewrite H3; reflexivity|intros c _; rewrite H2; auto].
Qed.

Lemma updating_RI (w : world) nodes keep s : Inv w -> updating V_eqb behave caret_o false w nodes keep s ->
  RI (prune keep nodes w) nodes keep s.
Proof.
  intros I [G [Sl U]]. eapply usteps_RI; eauto; [apply prune_Inv, I|apply prune_graph, G|exact (proj1 Sl)].
Qed.

Lemma step_Pre w w' : Pre w -> step V_eqb behave caret_o false w w' -> Pre w'.
Proof.
  intros P S. destruct S as [w x v|w w1 R|w w1 nodes keep s R U|w w1 nodes keep s w' R U C].
  - apply edit_Pre, P.
  - apply Inv_Pre. eapply (reparse_Inv behave caret_o det); [|exact R]. apply (scan_Inv V_eqb behave caret_o Veq det), P.
  - apply Inv_Pre. assert (I1 : Inv w1) by (eapply (reparse_Inv behave caret_o det); [|exact R]; apply (scan_Inv V_eqb behave caret_o Veq det), P).
    pose proof U as [G _].
    eapply (commit_Inv V_eqb behave caret_o Veq det); [apply prune_Inv, I1|apply prune_graph, G|apply updating_RI; eassumption].
  - assert (I1 : Inv w1) by (eapply (reparse_Inv behave caret_o det); [|exact R]; apply (scan_Inv V_eqb behave caret_o Veq det), P).
    eapply crash_Pre; [exact I1|apply updating_RI; eassumption|exact C].
Qed.

Lemma empty_Pre : Pre (empty_world V).
Proof.
  constructor.
  - constructor; cbn; try tauto. 
  - cbn. tauto.
  - exists (fun _ => None). split; [|split].
    + intros c [].
    + reflexivity.
    + reflexivity.
  - split; cbn; discriminate.
  - intros n P. destruct (cpath_last _ _ _ P) as [z [S _]]. destruct S.
Qed.
Lemma history_Pre w : history V_eqb behave caret_o false w -> Pre w.
Proof. induction 1 as [|w w' H IH S]; [apply empty_Pre|eapply step_Pre; eassumption]. Qed.
Lemma history_start w w1 : history V_eqb behave caret_o false w -> reparse caret_o (scan w) w1 -> Inv w1.
Proof. intros H R. eapply (reparse_Inv behave caret_o det); [|exact R]. apply (scan_Inv V_eqb behave caret_o Veq det), history_Pre, H. Qed.

(** After an update in which everything that was selected was processed. *)
Lemma success_sound (w1 : world) nodes keep s c : Inv w1 -> updating V_eqb behave caret_o false w1 nodes keep s ->
  successful nodes keep s -> Cmd (cur s) c -> (In c nodes -> keep c = true) -> sound (cur s) c /\ modify (cur s) c = false.
Proof.
  intros I1 U [Sf Sd] K Sel. pose proof U as [G [Sl _]].
  assert (I0 := prune_Inv w1 nodes keep I1). assert (G0 := prune_graph w1 nodes keep G).
  assert (R := updating_RI w1 nodes keep s I1 U). pose proof (r_rls _ _ _ _ _ _ R) as Er.
  destruct (inb_dec c nodes) as [N|N].
  - assert (D : In c (done s)) by auto. split; [|apply (r_mdone _ _ _ _ _ _ R c D)].
    apply (r_sound _ _ _ _ _ _ R c D). rewrite <- Er. exact K.
  - assert (Nm : forall x, modify (cur s) x = true -> In x nodes) by apply (r_mnodes _ _ _ _ _ _ R).
    assert (Mc : modify (cur s) c = false) by (destruct (modify (cur s) c) eqn:M; [exfalso; auto|reflexivity]).
    split; [|exact Mc].
    assert (Nd : ~ In c (done s)) by (intros D; apply N, (r_done_in _ _ _ _ _ _ R c D)).
    assert (El : links (cur s) c = links w1 c).
    { apply (r_links _ _ _ _ _ _ R c Nd). rewrite Sf. auto. }
    assert (K0 : Cmd w1 c) by (rewrite Er in K; exact K).
    assert (Nx : forall x, In x (links w1 c) -> ~ In x nodes).
    { intros x L X. apply N. apply G. eapply aff_link; [apply G, X|].
      apply (succ_link behave caret_o (prune keep nodes w1) I0); assumption. }
    destruct (commit_Inv V_eqb behave caret_o Veq det _ _ _ I0 G0 s R) as [_ _ Ci _ _ _].
    destruct (Ci c K) as [[M|[x [L [M|[c' [K' [O [M _]]]]]]]]|S]; [congruence|..|exact S]; exfalso; rewrite El in L; apply (Nx x L); [auto|].
    apply G. eapply aff_link; [apply G, Nm, M|]. rewrite Er in K', O. apply (succ_out (prune keep nodes w1)); assumption.
Qed.

Lemma success_clean (w1 : world) nodes s : Inv w1 -> updating V_eqb behave caret_o false w1 nodes all_nodes s ->
  successful nodes all_nodes s -> forall n, modify (cur s) n = false.
Proof.
  intros I1 U [Sf Sd] n. assert (R := updating_RI w1 nodes _ s I1 U).
  destruct (modify (cur s) n) eqn:M; [|reflexivity]. pose proof (r_mnodes _ _ _ _ _ _ R n M) as N.
  rewrite <- M. apply (r_mdone _ _ _ _ _ _ R). auto.
Qed.

(** Two states that are up to date and have the same sources are the same. *)
Section Unique.
Variables w w' : world.
Hypothesis same : same_project w w'.
Hypothesis snd1 : forall c, Cmd w c -> sound w c.
Hypothesis upd2 : forall c, Cmd w' c -> up_to_date behave w' c.
Hypothesis ok : rules_ok (rls w).
Hypothesis lnc : forall c x, Cmd w c -> In x (links w c) -> ~ Cmd w x.
Hypothesis clean : forall n, modify w n = false.
Hypothesis circ : circles_flagged w.

Definition feeds (a b : id) : Prop := Cmd w a /\ Cmd w b /\ exists y, Out w a y /\ In y (links w b).
Definition bad (c : id) : Prop := Cmd w c /\ exists x, Out w c x /\ content w x <> content w' x.

Lemma feeds_cpath a b : feeds a b -> cpath w a b.
Proof.
  intros [A [B [y [O L]]]]. assert (Cl : forall n, calm w n) by (intros n _; apply clean).
  eapply cp2; [apply cp1|]; (split; [|split; apply Cl]).
  - unfold succ. rewrite (proj2 (is_command_In w a) A). exact O.
  - unfold succ. destruct (is_command w y) eqn:K; [exfalso; apply is_command_In in K; exact (lnc b y B L K)|].
    apply in_or_app. left. apply filter_In. split; [exact B|]. rewrite (proj2 (inb_In _ _) L). reflexivity.
Qed.

Lemma bad_step c : bad c -> exists c', bad c' /\ feeds c' c.
Proof.
  intros [K [x [O X]]]. destruct same as [Sr Ss].
  destruct (snd1 c K) as [[_ U1] Li]. assert (K' : Cmd w' c) by (rewrite <- Sr; exact K). destruct (upd2 c K') as [_ U2].
  destruct (Exists_dec (fun y => content w y <> content w' y) (links w c)) as [E|E].
  { intros y. destruct (ocV_dec V_eqb Veq (content w y) (content w' y)) as [Z|Z]; [right; auto|left; exact Z]. }
  - apply Exists_exists in E as [y [L Y]]. destruct (generated w y) eqn:G; [|exfalso; apply Y, Ss, G].
    apply generated_In in G as [c' [Kc' Oc']]. exists c'. split; [split; eauto|]. split; [exact Kc'|split; [exact K|eauto]].
  - exfalso. apply X. rewrite (proj2 (U1 x O)). rewrite Sr in O. rewrite (proj2 (U2 x O)). symmetry. apply det.
    intros y R. unfold sees, hide. rewrite <- Sr. destruct (inb y (outs (rls w) c)) eqn:I; [reflexivity|]. apply inb_nIn in I.
    destruct (ocV_dec V_eqb Veq (content w y) (content w' y)) as [Z|Z]; [exact Z|].
    exfalso. apply E. apply Exists_exists. exists y. split; [apply Li; tauto|exact Z].
Qed.

Fixpoint chain (l : list id) : Prop :=
  match l with
  | a :: t => match t with b :: _ => feeds b a | [] => True end /\ chain t
  | [] => True
  end.
Lemma chain_long k : forall c, bad c -> exists p, length p = k /\ chain (c :: p) /\ incl (c :: p) (commands (rls w)).
Proof.
  induction k as [|k IH]; intros c B.
  - exists []. cbn. split; [reflexivity|split; [auto|]]. intros x [<-|[]]. apply B.
  - destruct (bad_step c B) as [c' [B' F]]. destruct (IH c' B') as [p [P1 [P2 P3]]]. exists (c' :: p).
    split; [cbn; lia|split; [split; assumption|]]. intros x [<-|X]; [apply B|apply P3, X].
Qed.
Lemma cpath_trans a b c : cpath w a b -> cpath w b c -> cpath w a c.
Proof. intros P Q. induction Q as [b c E|b c d Q IH E]; [exact (cp2 w a b c P E)|exact (cp2 w a c d (IH P) E)]. Qed.
Lemma chain_path l2 : forall a b l3, chain (a :: l2 ++ b :: l3) -> cpath w b a.
Proof.
  induction l2 as [|c l2 IH]; intros a b l3 [F C]; [apply feeds_cpath, F|].
  eapply cpath_trans; [eapply IH, C|apply feeds_cpath, F].
Qed.
Lemma chain_tail l1 l2 : chain (l1 ++ l2) -> chain l2.
Proof. induction l1 as [|a l1 IH]; [auto|]. intros [_ C]. auto. Qed.

Lemma never_bad c : ~ bad c.
Proof.
  intros B. destruct (chain_long (length (commands (rls w))) c B) as [p [P1 [P2 P3]]].
  assert (N : ~ NoDup (c :: p)).
  { intros N. pose proof (NoDup_incl_length N P3). cbn in H. lia. }
  apply duplicate in N.
  destruct N as [a [l1 [l2 [l3 E]]]]. rewrite E in P2. apply chain_tail in P2. apply chain_path in P2. exact (circ a P2).
Qed.
Lemma unique_contents x : content w x = content w' x.
Proof.
  destruct (ocV_dec V_eqb Veq (content w x) (content w' x)) as [E|E]; [exact E|].
  destruct (generated w x) eqn:G; [|apply same, G]. apply generated_In in G as [c [K O]].
  exfalso. apply (never_bad c). split; eauto.
Qed.
End Unique.
End History.
