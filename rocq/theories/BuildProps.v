(** C08, C09, C10: histories of edits, updates, failures and crashes. *)
From Verif Require Import Base ExecModel ExecProofs BuildModel BuildSpec BuildProofs BuildProofs2 BuildProofs3 BuildProofs4 BuildExamples.

(** Without ^o it does not matter what is allowed to commands with ^o. *)
Section NoCaret.
Context {V : Type}.
Variables (V_eqb : V -> V -> bool) (behave : id -> (id -> option V) -> result V) (caret_o : id -> bool) (g : bool).
Hypothesis no_o : forall c, caret_o c = false.
Lemma left_no_o n w w' : left_behind caret_o g n w w' -> left_behind (V := V) caret_o false n w w'.
Proof.
  intros [H1 [H2 [H3 [H4 [H5 H6]]]]]. do 5 (split; [assumption|]). intros x. destruct (H6 x) as [X|[O [M F]]]; [left; exact X|right].
  split; [exact O|split; [exact M|]]. destruct F as [F|[F|[_ F]]]; auto.
Qed.
Lemma usteps_no_o w0 nodes keep s s' : usteps V_eqb behave caret_o g w0 nodes keep s s' -> usteps V_eqb behave caret_o false w0 nodes keep s s'.
Proof.
  induction 1 as [s|s1 s2 s3 U IH S]; [apply us_refl|]. eapply us_step; [exact IH|]. destruct S.
  - apply step_file; assumption.
  - apply step_skip; assumption.
  - apply step_ok; assumption.
  - apply step_fail; try assumption. apply left_no_o; assumption.
Qed.
Lemma updating_no_o w nodes keep s : updating V_eqb behave caret_o g w nodes keep s -> updating V_eqb behave caret_o false w nodes keep s.
Proof. intros [A [B C]]. split; [exact A|split; [exact B|apply usteps_no_o, C]]. Qed.
Lemma history_no_o w : history V_eqb behave caret_o g w -> history V_eqb behave caret_o false w.
Proof.
  induction 1 as [|w w' H IH S]; [apply h_init|]. eapply h_step; [exact IH|]. destruct S.
  - apply do_edit.
  - eapply do_parse; eassumption.
  - eapply do_update; [eassumption|apply updating_no_o; eassumption].
  - eapply do_crash; [eassumption|apply updating_no_o; eassumption|eassumption].
Qed.
End NoCaret.

(** C08. Whatever happened before (edits of any file, changes of the rules,
    failed, killed, crashed and partial updates, in any number and order), an
    update that processes everything without failure leaves every output equal to
    what its command would write if it were run now, and nothing is left to do.
    Here no command has the flag ^o. *)
Theorem C08_resumed : forall V (V_eqb : V -> V -> bool) behave caret_o garbage w nodes w1 s,
  (forall a b, V_eqb a b = true <-> a = b) -> deterministic behave -> (forall c, caret_o c = false) ->
  history V_eqb behave caret_o garbage w ->
  invocation behave V_eqb caret_o garbage w nodes all_nodes w1 s -> successful nodes all_nodes s ->
  (forall c, In c (commands (rls (cur s))) -> up_to_date behave (cur s) c) /\ (forall n, modify (cur s) n = false).
Proof.
  intros V V_eqb behave caret_o garbage w nodes w1 s Veq det No H [R U] S.
  apply history_no_o in H; [|exact No]. apply updating_no_o in U; [|exact No].
  assert (I := history_start V_eqb behave caret_o Veq det w w1 H R). split.
  - intros c K. apply (success_sound V_eqb behave caret_o Veq det w1 nodes all_nodes s c I U S K). reflexivity.
  - apply (success_clean V_eqb behave caret_o Veq det w1 nodes s I U S).
Qed.

(** The same with commands that have ^o, provided that such a command, when it
    fails, does not leave an output behind that was not there before
    ([garbage = false]). What is missing is refuted below. *)
Theorem C08_resumed_caret_o_partial : forall V (V_eqb : V -> V -> bool) behave caret_o w nodes w1 s,
  (forall a b, V_eqb a b = true <-> a = b) -> deterministic behave ->
  history V_eqb behave caret_o false w ->
  invocation behave V_eqb caret_o false w nodes all_nodes w1 s -> successful nodes all_nodes s ->
  (forall c, In c (commands (rls (cur s))) -> up_to_date behave (cur s) c) /\ (forall n, modify (cur s) n = false).
Proof.
  intros V V_eqb behave caret_o w nodes w1 s Veq det H [R U] S.
  assert (I := history_start V_eqb behave caret_o Veq det w w1 H R). split.
  - intros c K. apply (success_sound V_eqb behave caret_o Veq det w1 nodes all_nodes s c I U S K). reflexivity.
  - apply (success_clean V_eqb behave caret_o Veq det w1 nodes s I U S).
Qed.

(** After a partial update: the commands that it did not leave out are up to
    date, and those that it left out stay flagged (C07). *)
Theorem C07_selected_part_is_current : forall V (V_eqb : V -> V -> bool) behave caret_o w nodes keep w1 s,
  (forall a b, V_eqb a b = true <-> a = b) -> deterministic behave ->
  history V_eqb behave caret_o false w ->
  invocation behave V_eqb caret_o false w nodes keep w1 s -> successful nodes keep s ->
  forall c, In c (commands (rls (cur s))) ->
    (affected w1 c /\ keep c = false /\ modify (cur s) c = true) \/ (up_to_date behave (cur s) c /\ modify (cur s) c = false).
Proof.
  intros V V_eqb behave caret_o w nodes keep w1 s Veq det H [R U] S c K.
  assert (I := history_start V_eqb behave caret_o Veq det w w1 H R). pose proof U as [G _].
  assert (RI := updating_RI V_eqb behave caret_o Veq det w1 nodes keep s I U).
  destruct (inb_dec c nodes) as [N|N].
  - destruct (keep c) eqn:Kc.
    + right. destruct (success_sound V_eqb behave caret_o Veq det w1 nodes keep s c I U S K (fun _ => Kc)) as [[A _] B]. auto.
    + left. split; [apply G, N|split; [reflexivity|]]. apply (r_mkeep _ _ _ _ _ _ RI).
      * intros D. apply (r_done_in _ _ _ _ _ _ RI) in D. destruct D. congruence.
      * rewrite (r_rls _ _ _ _ _ _ RI) in K. cbn [prune modify]. change (In c (commands (rls w1))) in K.
        rewrite (proj2 (is_command_In w1 c) K), (proj2 (inb_In _ _) N), Kc. apply orb_true_r.
  - right. destruct (success_sound V_eqb behave caret_o Veq det w1 nodes keep s c I U S K) as [[A _] B]; [tauto|auto].
Qed.

(** C09. Two histories of the same project, one of which may be a build from
    scratch, that end with successful updates on the same sources have the same
    generated files. *)
Theorem C09_incremental_is_full : forall V (V_eqb : V -> V -> bool) behave caret_o garbage,
  (forall a b, V_eqb a b = true <-> a = b) -> deterministic behave -> (forall c, caret_o c = false) ->
  forall wa nodesa w1a sa wb nodesb w1b sb,
  history V_eqb behave caret_o garbage wa -> invocation behave V_eqb caret_o garbage wa nodesa all_nodes w1a sa -> successful nodesa all_nodes sa ->
  history V_eqb behave caret_o garbage wb -> invocation behave V_eqb caret_o garbage wb nodesb all_nodes w1b sb -> successful nodesb all_nodes sb ->
  same_project (cur sa) (cur sb) ->
  forall x, content (cur sa) x = content (cur sb) x.
Proof.
  intros V V_eqb behave caret_o garbage Veq det No wa nodesa w1a sa wb nodesb w1b sb Ha [Ra Ua] Sa Hb [Rb Ub] Sb Same.
  apply history_no_o in Ha; [|exact No]. apply updating_no_o in Ua; [|exact No].
  apply history_no_o in Hb; [|exact No]. apply updating_no_o in Ub; [|exact No].
  assert (Ia := history_start V_eqb behave caret_o Veq det wa w1a Ha Ra).
  assert (Ib := history_start V_eqb behave caret_o Veq det wb w1b Hb Rb).
  assert (RIa := updating_RI V_eqb behave caret_o Veq det w1a nodesa all_nodes sa Ia Ua).
  destruct (commit_Inv V_eqb behave caret_o Veq det _ _ _ (prune_Inv _ _ _ _ _ Ia) (prune_graph _ _ _ (proj1 Ua)) sa RIa) as [C1 C2 _ _ _ C6].
  apply (unique_contents V_eqb behave caret_o Veq det); auto.
  - intros c K. apply (success_sound V_eqb behave caret_o Veq det w1a nodesa all_nodes sa c Ia Ua Sa K). reflexivity.
  - intros c K. apply (success_sound V_eqb behave caret_o Veq det w1b nodesb all_nodes sb c Ib Ub Sb K). reflexivity.
  - apply (success_clean V_eqb behave caret_o Veq det w1a nodesa sa Ia Ua Sa).
Qed.

(** The same with ^o and tidy failures. *)
Theorem C09_incremental_is_full_caret_o_partial : forall V (V_eqb : V -> V -> bool) behave caret_o,
  (forall a b, V_eqb a b = true <-> a = b) -> deterministic behave ->
  forall wa nodesa w1a sa wb nodesb w1b sb,
  history V_eqb behave caret_o false wa -> invocation behave V_eqb caret_o false wa nodesa all_nodes w1a sa -> successful nodesa all_nodes sa ->
  history V_eqb behave caret_o false wb -> invocation behave V_eqb caret_o false wb nodesb all_nodes w1b sb -> successful nodesb all_nodes sb ->
  same_project (cur sa) (cur sb) ->
  forall x, content (cur sa) x = content (cur sb) x.
Proof.
  intros V V_eqb behave caret_o Veq det wa nodesa w1a sa wb nodesb w1b sb Ha [Ra Ua] Sa Hb [Rb Ub] Sb Same.
  assert (Ia := history_start V_eqb behave caret_o Veq det wa w1a Ha Ra).
  assert (Ib := history_start V_eqb behave caret_o Veq det wb w1b Hb Rb).
  assert (RIa := updating_RI V_eqb behave caret_o Veq det w1a nodesa all_nodes sa Ia Ua).
  destruct (commit_Inv V_eqb behave caret_o Veq det _ _ _ (prune_Inv _ _ _ _ _ Ia) (prune_graph _ _ _ (proj1 Ua)) sa RIa) as [C1 C2 _ _ _ C6].
  apply (unique_contents V_eqb behave caret_o Veq det); auto.
  - intros c K. apply (success_sound V_eqb behave caret_o Veq det w1a nodesa all_nodes sa c Ia Ua Sa K). reflexivity.
  - intros c K. apply (success_sound V_eqb behave caret_o Veq det w1b nodesb all_nodes sb c Ib Ub Sb K). reflexivity.
  - apply (success_clean V_eqb behave caret_o Veq det w1a nodesa sa Ia Ua Sa).
Qed.

(** A command with ^o that fails and leaves a new output behind breaks both
    properties: the next update succeeds, and an output is stale. *)
Theorem C09_caret_o_stale_output_refuted :
  exists (behave : id -> (id -> option nat) -> result nat) caret_o w nodes w1 s c,
    deterministic behave /\ history Nat.eqb behave caret_o true w /\
    invocation behave Nat.eqb caret_o true w nodes all_nodes w1 s /\ successful nodes all_nodes s /\
    In c (commands (rls (cur s))) /\ ~ up_to_date behave (cur s) c.
Proof.
  exists ex_behave, ex_caret, e2, ex_nodes, p2, s2, 2.
  split; [exact ex_deterministic|split; [exact (hist2 true eq_refl)|split; [split|split; [split|split]]]].
  - apply parse_same; reflexivity.
  - apply run2.
  - reflexivity.
  - intros n [<-|[<-|[<-|[<-|[<-|[]]]]]] _; cbn; tauto.
  - cbn. tauto.
  - intros [_ U]. destruct (U 5 (or_introl eq_refl)) as [_ E]. vm_compute in E. discriminate.
Qed.

(** C10. A command that is about to be processed is run, and not skipped, if and
    only if it is flagged or one of its inputs is flagged or was changed in this
    update, where outputs of commands with ^o count as changed only if their
    contents are new or the command stopped using a generated file. *)
Theorem C10_run_iff_reason : forall V (V_eqb : V -> V -> bool) behave caret_o w nodes keep w1 s c,
  (forall a b, V_eqb a b = true <-> a = b) -> deterministic behave ->
  history V_eqb behave caret_o false w ->
  invocation behave V_eqb caret_o false w nodes keep w1 s ->
  ready (prune keep nodes w1) nodes keep s c ->
  (skip s c = false <-> reason caret_o w1 s c).
Proof.
  intros V V_eqb behave caret_o w nodes keep w1 s c Veq det H [R [G [Sl U]]] Q.
  assert (I := history_start V_eqb behave caret_o Veq det w w1 H R).
  apply (ready_reason V_eqb behave caret_o Veq det w1 nodes keep I G Sl s c U Q).
Qed.

(** A command that is skipped would not have changed anything. *)
Theorem C10_skipped_is_up_to_date : forall V (V_eqb : V -> V -> bool) behave caret_o w nodes keep w1 s c,
  (forall a b, V_eqb a b = true <-> a = b) -> deterministic behave ->
  history V_eqb behave caret_o false w ->
  invocation behave V_eqb caret_o false w nodes keep w1 s ->
  ready (prune keep nodes w1) nodes keep s c -> In c (commands (rls w1)) -> skip s c = true ->
  up_to_date behave (cur s) c.
Proof.
  intros V V_eqb behave caret_o w nodes keep w1 s c Veq det H [R U] Q K Sk.
  assert (I := history_start V_eqb behave caret_o Veq det w w1 H R). pose proof U as [G [Sl _]].
  assert (RI := updating_RI V_eqb behave caret_o Veq det w1 nodes keep s I U).
  apply (skip_sound V_eqb behave caret_o Veq det _ nodes keep (prune_Inv _ _ _ _ _ I) (prune_graph _ _ _ G) (proj1 Sl) s c RI Q K Sk).
Qed.

(** The hypotheses are met: a project is built, its source is edited, and the
    update runs both commands. *)
Example build_hypotheses : 
  history Nat.eqb ex_behave ex_caret false e1' /\
  invocation ex_behave Nat.eqb ex_caret false e1' ex_nodes all_nodes p1' s1' /\ successful ex_nodes all_nodes s1' /\
  content (cur s0) 5 = Some 5 /\ content (cur s1') 5 = Some 7 /\ content e1' 5 = Some 5.
Proof.
  split; [apply hist1'|split; [split; [apply parse_same; reflexivity|apply run1']|split; [split; [reflexivity|]|repeat split]]].
  intros n [<-|[<-|[<-|[<-|[<-|[]]]]]] _; cbn; tauto.
Qed.
(** A build from scratch of the same sources gives the same files. *)
Definition fresh_world : world nat := edit 3 (Some 0) (empty_world nat).
Example build_twice : invocation ex_behave Nat.eqb ex_caret false fresh_world ex_nodes all_nodes p0 s0 /\ successful ex_nodes all_nodes s0.
Proof.
  split; [split; [exact parse0|apply run0]|split; [reflexivity|]]. intros n [<-|[<-|[<-|[<-|[<-|[]]]]]] _; cbn; tauto.
Qed.
Example run_reason : ready (full p1') ex_nodes all_nodes (start (full p1')) 3 /\ reason ex_caret p1' (start (full p1')) 3.
Proof. split; [apply ready_check; reflexivity|apply flagged; reflexivity]. Qed.

Print Assumptions C08_resumed.
Print Assumptions C08_resumed_caret_o_partial.
Print Assumptions C07_selected_part_is_current.
Print Assumptions C09_incremental_is_full.
Print Assumptions C09_incremental_is_full_caret_o_partial.
Print Assumptions C09_caret_o_stale_output_refuted.
Print Assumptions C10_run_iff_reason.
Print Assumptions C10_skipped_is_up_to_date.
