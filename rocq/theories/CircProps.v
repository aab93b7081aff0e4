(** C70: circular dependencies among groups are refused when they are made. *)
From Verif Require Import Base ExecModel GraphModel GraphProofs GraphSpec GraphProofs2 CircModel CircSpec CircProofs CircProofs2 CircProofs3.
Require Import Lia.

(** Whatever was parsed before, the rules of an update are committed exactly if none of them reads
    the group it writes to, and the rules are not circular then. *)
Theorem C70_detects is_grp root s os : history is_grp root s -> (forall o, In o os -> op_ok is_grp root o) ->
  (exists s', parse_phase is_grp root os s = Committed s') <->
  (forall c ins x, In (Rule c ins (Some x)) os -> ~ In x ins) /\ forall s', says_so os s s' -> ~ circular s'.
Proof.
  intros H O. destruct (history_ok is_grp root s H) as [T [Y A]].
  assert (forall s1 s2, says_so os s s1 -> says_so os s s2 -> forall a b, leads s1 a b -> leads s2 a b) as Same.
  { intros s1 s2 S1 S2. assert (forall a b, feeds s1 a b -> feeds s2 a b) as F.
    { intros a b [c [X Z]]. exists c. pose proof (S1 c) as E1. rewrite <- (S2 c) in E1. injection E1 as E1 E2. rewrite <- E1, <- E2. auto. }
    induction 1 as [a b L|a b c _ IH L]; [apply leads_one; auto|eapply leads_more; [exact IH|auto]]. }
  destruct (phase_ok is_grp root os s T Y A O) as [[E [c [ins [x [R X]]]]]|[Ns [s' [_ [_ [Sa [[E A']|[ns [E [C _]]]]]]]]]]; rewrite E.
  - split; [intros [s' Z]; discriminate|]. intros [Z _]. exfalso. exact (Z c ins x R X).
  - split; [|intros _; exists s'; reflexivity]. intros _. split; [exact Ns|]. intros s2 S2 [a L]. apply A'. exists a. exact (Same s2 s' S2 Sa a a L).
  - split; [intros [s2 Z]; discriminate|]. intros [_ Z]. exfalso. exact (Z s' Sa C).
Qed.
Print Assumptions C70_detects.

(** What is committed is what the rules say. *)
Theorem C70_committed is_grp root s os s' : history is_grp root s -> (forall o, In o os -> op_ok is_grp root o) -> parse_phase is_grp root os s = Committed s' ->
  forall c, (g_in s' c, g_out s' c) = says os c (g_in s c, g_out s c).
Proof.
  intros H O E. destruct (history_ok is_grp root s H) as [T [Y A]].
  destruct (phase_ok is_grp root os s T Y A O) as [[Z _]|[_ [s2 [_ [_ [Sa [[Z _]|[ns [Z _]]]]]]]]]; rewrite Z in E; try discriminate. injection E as <-. exact Sa.
Qed.
Print Assumptions C70_committed.

(** No database that updates lead to has circular groups. *)
Theorem C70_history is_grp root s : history is_grp root s -> ~ circular s.
Proof. intros H. apply (history_ok is_grp root s H). Qed.
Print Assumptions C70_history.

(** The table of links says what the rules say. *)
Theorem C70_table is_grp root s : history is_grp root s -> forall a b c, In (a, b, c) (g_link s) <-> In a (g_in s c) /\ g_out s c = Some b.
Proof. intros H. apply (history_ok is_grp root s H). Qed.
Print Assumptions C70_table.

(** The check ends, with no internal error: the rules are committed, or the error is one of the
    two that name a cause. *)
Theorem C70_ends is_grp root s os : history is_grp root s -> (forall o, In o os -> op_ok is_grp root o) ->
  match parse_phase is_grp root os s with
  | Committed _ => True
  | SelfError => exists c ins x, In (Rule c ins (Some x)) os /\ In x ins
  | CycleError _ => exists s', says_so os s s' /\ circular s'
  | Internal_ | NoRounds_ => False
  end.
Proof.
  intros H O. destruct (history_ok is_grp root s H) as [T [Y A]].
  destruct (phase_ok is_grp root os s T Y A O) as [[-> R]|[_ [s2 [_ [_ [Sa [[-> _]|[ns [-> [C _]]]]]]]]]]; [exact R|exact I|exists s2; auto].
Qed.
Print Assumptions C70_ends.

(** The error names groups, and all those that are on a cycle. *)
Theorem C70_named is_grp root s os ns : history is_grp root s -> (forall o, In o os -> op_ok is_grp root o) -> parse_phase is_grp root os s = CycleError ns ->
  (forall n, In n ns -> is_grp n = true) /\ exists s', says_so os s s' /\ circular s' /\ forall a, leads s' a a -> In a ns.
Proof.
  intros H O E. destruct (history_ok is_grp root s H) as [T [Y A]].
  destruct (phase_ok is_grp root os s T Y A O) as [[Z _]|[_ [s2 [_ [_ [Sa [[Z _]|[ns' [Z [C [G N]]]]]]]]]]]; rewrite Z in E; try discriminate. injection E as ->. split; [exact G|]. exists s2. auto.
Qed.
Print Assumptions C70_named.

(** After an error the database is as it was. *)
Theorem C70_rollback is_grp root s os : (forall s', parse_phase is_grp root os s <> Committed s') -> after (parse_phase is_grp root os s) s = s.
Proof. intros H. destruct (parse_phase is_grp root os s) as [s'| | | |]; try reflexivity. destruct (H s' eq_refl). Qed.
Print Assumptions C70_rollback.

(** An update that only deletes commands, or has rules that write to no group, is never refused. *)
Theorem C70_harmless is_grp root s os : history is_grp root s -> (forall o, In o os -> op_ok is_grp root o) ->
  (forall c ins x, ~ In (Rule c ins (Some x)) os) -> exists s', parse_phase is_grp root os s = Committed s'.
Proof.
  intros H O N. apply (C70_detects is_grp root s os H O). split; [intros c ins x R; destruct (N c ins x R)|]. intros s' S [a L].
  apply (C70_history is_grp root s H). exists a.
  assert (forall o p x b, (forall c ins x, ~ In (Rule c ins (Some x)) o) -> snd (says o x p) = Some b -> says o x p = p) as K.
  { induction o as [|[c ins g|c] o IH]; intros p x b Q E; cbn [says] in *; [reflexivity| |].
    - destruct (c =? x) eqn:Cx; [|apply (IH _ _ b); [intros c' i' x' Z; apply (Q c' i' x'); right; exact Z|exact E]]. destruct g as [g|]; [destruct (Q c ins g); left; reflexivity|].
      exfalso. rewrite (IH (ins, None) x b) in E; [discriminate|intros c' i' x' Z; apply (Q c' i' x'); right; exact Z|exact E].
    - destruct (c =? x) eqn:Cx; [|apply (IH _ _ b); [intros c' i' x' Z; apply (Q c' i' x'); right; exact Z|exact E]].
      exfalso. rewrite (IH ([], None) x b) in E; [discriminate|intros c' i' x' Z; apply (Q c' i' x'); right; exact Z|exact E]. }
  assert (forall x y, feeds s' x y -> feeds s x y) as F.
  { intros x y [c [X Z]]. exists c. pose proof (S c) as E. assert (says os c (g_in s c, g_out s c) = (g_in s c, g_out s c)) as E' by (apply (K os _ c y N); rewrite <- E; exact Z). rewrite E' in E. injection E as E1 E2. rewrite <- E1, <- E2. auto. }
  clear - L F. revert L. generalize a at 2 4. intros b. induction 1 as [x y L|x y z _ IH L]; [apply leads_one; auto|eapply leads_more; [exact IH|auto]].
Qed.
Print Assumptions C70_harmless.

(** Examples: groups are 1 to 9, the root is 0, commands are above 9. *)
Definition grp (n : id) : bool := (1 <=? n) && (n <=? 9).
Definition ex_chain : list op := [Rule 11 [1] (Some 2); Rule 12 [2; 3] (Some 4)].
Definition op_okb (o : op) : bool :=
  match o with
  | Rule c ins group => negb (grp c) && negb (c =? 0) && (length (nodup Nat.eq_dec ins) =? length ins) && forallb (fun i => grp i && negb (i =? 0)) (ins ++ match group with Some g => [g] | None => [] end)
  | Delete _ => true
  end.
Lemma op_okb_ok os : forallb op_okb os = true -> forall o, In o os -> op_ok grp 0 o.
Proof.
  intros H o X. rewrite forallb_forall in H. specialize (H o X). destruct o as [c ins group|c]; [|exact I]. cbn [op_okb] in H. rewrite !andb_true_iff, !negb_true_iff, Nat.eqb_neq, Nat.eqb_eq in H. destruct H as [[[H1 H2] H3] H4].
  split; [exact H1|]. split; [exact H2|]. split.
  - apply (@NoDup_incl_NoDup _ (nodup Nat.eq_dec ins)); [apply NoDup_nodup|exact (Nat.eq_le_incl _ _ (eq_sym H3))|]. intros x Y. apply nodup_In in Y. exact Y.
  - rewrite forallb_forall in H4. intros i Q. specialize (H4 i). rewrite andb_true_iff, negb_true_iff, Nat.eqb_neq in H4. apply H4, in_or_app. destruct Q as [Q| ->]; [left; exact Q|right; left; reflexivity].
Qed.
Ltac ops := apply op_okb_ok; reflexivity.
Lemma ex_history : history grp 0 (after (parse_phase grp 0 ex_chain empty_gdb) empty_gdb).
Proof. apply h_update; [apply h_new|ops]. Qed.
(** Two rules are committed in one update; a third closes the cycle in a later one, and is refused;
    with one of the old rules deleted in the same update, or turned round, it is accepted. *)
Example ex_commits : exists s', parse_phase grp 0 ex_chain empty_gdb = Committed s' /\ length (g_link s') = 3.
Proof. eexists. split; vm_compute; reflexivity. Qed.
Example ex_refused : exists ns, parse_phase grp 0 [Rule 13 [4] (Some 1)] (after (parse_phase grp 0 ex_chain empty_gdb) empty_gdb) = CycleError ns /\ incl [1; 2; 4] ns /\ incl ns [1; 2; 4].
Proof. eexists. split; [vm_compute; reflexivity|]. split; intros x X; cbn in *; tauto. Qed.
Example ex_deleted : exists s', parse_phase grp 0 [Rule 13 [4] (Some 1); Delete 11] (after (parse_phase grp 0 ex_chain empty_gdb) empty_gdb) = Committed s'.
Proof. eexists. vm_compute. reflexivity. Qed.
Example ex_self : parse_phase grp 0 [Rule 13 [4] (Some 4)] empty_gdb = SelfError.
Proof. reflexivity. Qed.

(** Not only groups on cycles are named: of two cycles with a group between them, that one is
    named too. *)
Definition ex_two : list op := [Rule 11 [1] (Some 2); Rule 12 [2] (Some 1); Rule 13 [3] (Some 4); Rule 14 [4] (Some 3); Rule 15 [2] (Some 5); Rule 16 [5] (Some 3)].
Theorem C70_named_exact_refuted :
  ~ forall is_grp root s os ns, history is_grp root s -> (forall o, In o os -> op_ok is_grp root o) -> parse_phase is_grp root os s = CycleError ns ->
    forall s', says_so os s s' -> forall a, In a ns -> leads s' a a.
Proof.
  intros H. assert (forall o, In o ex_two -> op_ok grp 0 o) as O by ops.
  destruct (phase_ok grp 0 ex_two empty_gdb) as [[E _]|[_ [s' [_ [_ [S [[E _]|[ns [E _]]]]]]]]]; try exact O; try apply (history_ok grp 0 _ (h_new grp 0)); try (vm_compute in E; discriminate).
  assert (In 5 ns) as I5. { vm_compute in E. injection E as <-. cbn. tauto. }
  pose proof (H grp 0 empty_gdb ex_two ns (h_new _ _) O E s' S 5 I5) as L.
  assert (forall x y, feeds s' x y -> (x = 5 \/ x = 3 \/ x = 4) -> y = 3 \/ y = 4) as F.
  { intros x y [c [X Z]] K. pose proof (S c) as Q. cbn [says ex_two] in Q. 
    assert (In x (fst (g_in s' c, g_out s' c))) as X' by exact X. assert (snd (g_in s' c, g_out s' c) = Some y) as Z' by exact Z. rewrite Q in X', Z'. clear Q X Z E S L.
    cbn [empty_gdb g_in g_out] in X', Z'.
    destruct (16 =? c); [cbn in *; injection Z' as <-; auto|]. destruct (15 =? c); [cbn in *; intuition (subst; discriminate)|]. destruct (14 =? c); [cbn in *; injection Z' as <-; auto|].
    destruct (13 =? c); [cbn in *; injection Z' as <-; auto|]. destruct (12 =? c); [cbn in *; intuition (subst; discriminate)|]. destruct (11 =? c); cbn in *; intuition (subst; discriminate). }
  assert (forall x y, leads s' x y -> x = 5 -> y = 3 \/ y = 4) as G.
  { induction 1 as [x y P|x y z _ IH P]; intros ->; [eapply F; [exact P|auto]|]. eapply F; [exact P|]. destruct (IH eq_refl); auto. }
  destruct (G 5 5 L eq_refl); discriminate.
Qed.
Print Assumptions C70_named_exact_refuted.

(** A cycle that goes through a file is not seen by this check: one rule reads the group and writes a
    file, and the other reads the file and writes to the group. *)
Theorem C70_files_refuted :
  ~ forall is_grp root rs, (forall o, In o (map rule_of rs) -> op_ok is_grp root o) -> (exists r, waits_on rs r r) -> forall s', parse_phase is_grp root (map rule_of rs) empty_gdb <> Committed s'.
Proof.
  intros H. set (r1 := {| fr_cmd := 11; fr_in := []; fr_groups := [1]; fr_out := [20]; fr_group := None |}). set (r2 := {| fr_cmd := 12; fr_in := [20]; fr_groups := []; fr_out := [21]; fr_group := Some 1 |}).
  assert (forall o, In o (map rule_of [r1; r2]) -> op_ok grp 0 o) as O by (unfold r1, r2, rule_of; ops).
  assert (exists r, waits_on [r1; r2] r r) as C.
  { exists r1. apply (w_more _ r1 r2 r1); [apply w_one; cbn; auto| |].
    - left. exists 20. cbn. auto.
    - cbn. auto.
    - right. exists 1. cbn. auto. }
  eapply (H grp 0 [r1; r2] O C). vm_compute. reflexivity.
Qed.
Print Assumptions C70_files_refuted.
