(** C15 and the end of C11: a command's file accesses. *)
From Verif Require Import Base ExecModel GraphModel TentModel TentSpec TentProofs FileModel FileSpec FileProofs FileProofs2.
From Coq Require Import ZArith Sorted.

(** ** C15 *)
Definition net (l : list event) : finfo := handle_unlink (handle_events l finfo0).

(** A file counts as written exactly if it exists at the end because the command
    created it, whatever was created, renamed and removed in between. *)
Theorem C15_written_iff_own l f : renames_own l [] -> In f (writes (net l)) <-> In f (own l []).
Proof. exact (writes_are_own l f). Qed.

(** A file that was read, and not removed or renamed away, counts as an input,
    also if the command wrote to it. *)
Theorem C15_read_is_input l f : In (ERead f) l -> ~ In (EUnlink f) l -> (forall b, ~ In (ERename f b) l) -> In f (reads (net l)).
Proof.
  intros H U R. apply reads_spec. split.
  - destruct (in_split _ _ H) as [l1 [l2 E]]. exists l1, f, l2. split; [exact E|].
    assert (forall b, ~ In (ERename f b) l2) as R2. { intros b C. apply (R b). rewrite E. apply in_or_app. right. right. exact C. }
    clear - R2. induction l2 as [|e l IH]; [reflexivity|].
    assert (f = current f l) as I by (apply IH; intros b C; apply (R2 b); right; exact C).
    destruct e as [g|g|g|g|a b]; try exact I. cbn [current]. destruct (bytes_eqb_spec f a) as [E|E]; [|exact I].
    exfalso. apply (R2 b). left. rewrite E. reflexivity.
  - intros [l1 [l2 [E _]]]. apply U. rewrite E. apply in_or_app. right. left. reflexivity.
Qed.

(** Only files that were read count as inputs (under the name they got). *)
Theorem C15_input_was_read l f : In f (reads (net l)) -> exists l1 x l2, l = l1 ++ ERead x :: l2 /\ f = current x l2.
Proof. intros H. apply reads_spec in H. exact (proj1 H). Qed.

(** False: "a file that is read before the command created it is an input". If
    the command reads the file, overwrites it and removes it (or just removes
    it), the read is forgotten. *)
Theorem C15_read_then_removed_refuted : exists l f, hd_error l = Some (ERead f) /\ reads (net l) = [] /\ writes (net l) = [].
Proof. exists [ERead (B "in"); EWrite (B "in"); EUnlink (B "in")], (B "in"). repeat split. Qed.

(** False without [renames_own]: a file that existed before and is moved to an
    output's place is not seen as written. *)
Theorem C15_foreign_rename_refuted : exists l f, In f (own l []) /\ ~ In f (writes (net l)) /\ ~ In f (reads (net l)).
Proof. exists [ERename (B "old") (B "out")], (B "out"). split; [left; reflexivity|]. split; intros []. Qed.

Definition ex_trace : list event :=
  [ERead (B "a.c"); EWrite (B "a.tmp"); EWrite (B "b.tmp"); EUnlink (B "b.tmp"); ERename (B "a.tmp") (B "a.o"); ERead (B "a.h")].
Example ex_net : writes (net ex_trace) = [B "a.o"] /\ reads (net ex_trace) = [B "a.c"; B "a.h"] /\ own ex_trace [] = [B "a.o"].
Proof. repeat split. Qed.
Example ex_net_hyps : renames_own ex_trace [] /\ In (ERead (B "a.c")) ex_trace /\ ~ In (EUnlink (B "a.c")) ex_trace.
Proof.
  split; [cbn; tauto|]. split; [cbn; tauto|]. intros H. repeat (destruct H as [H|H]; [discriminate|]). destruct H.
Qed.

(** ** C11 *)
Section Accept.
Variable kind_of : id -> kind.
Variable hidden excluded ignorable : bytes -> bool.
Variable lookup : bytes -> option id.
Variable do_unlink : bool.
Variable rename_ok mtime_ok : mapping -> bool.
Variable node_of var_of : bytes -> option id.
Variable input_check : list id -> bool.
Variable outputs used_groups : list id.
Variable tmpdirs : list bytes.
Variable ms : list mapping.
Variable events : list event.
(** Ids fit in 31 bits, a file has one name, the declared outputs are a set, and
    the temporary files have different names and have not been matched yet. *)
Hypothesis LS : forall w x, lookup w = Some x -> (Z.of_nat x < 2 ^ 31)%Z.
Hypothesis LI : forall v w x, lookup v = Some x -> lookup w = Some x -> v = w.
Hypothesis So : sorted outputs.
Hypothesis NM : NoDup (map realname ms).
Hypothesis NT : forall m, In m ms -> mtent m = None.
Hypothesis RO : renames_own events [].
Notation accepted ty := (write_files kind_of hidden excluded ignorable lookup do_unlink rename_ok mtime_ok node_of var_of input_check
  outputs used_groups tmpdirs ms ty (handle_events events finfo0)).
Let created (f : bytes) : Prop := In f (own events []) /\ hidden f = false /\ excluded f = false.

(** A successful command is accepted only if the files that it created are
    exactly the declared outputs, no directory is left over, and its reads pass
    the check of inputs. Hidden and excluded files do not count. *)
Theorem C11_accepted_created_exactly_the_outputs : accepted CheckSuccess = true ->
  (forall f, In f (own events []) -> hidden f = false -> excluded f = false -> exists x, lookup f = Some x /\ In x outputs) /\
  (forall x, In x outputs -> exists f, In f (own events []) /\ hidden f = false /\ excluded f = false /\ lookup f = Some x) /\
  (forall d, In d tmpdirs -> excluded d = true) /\
  input_check (read_tree excluded node_of var_of (net events) used_groups) = true.
Proof.
  unfold write_files. cbn [andb]. destruct (existsb _ tmpdirs) eqn:T; [discriminate|].
  fold (net events).
  pose proof (write_info_spec kind_of hidden excluded ignorable lookup do_unlink rename_ok mtime_ok LS LI outputs So true (writes (net events)) ms NM NT) as W.
  destruct (update_write_info _ _ _ _ _ _ _ _ _ _ _ _) as [[[d s] ok]|]; [|discriminate].
  intros E. apply andb_prop in E. destruct E as [-> E]. destruct W as [_ [W _]]. destruct (proj1 W eq_refl) as [W1 [W2 _]].
  assert (forall f, In f (writes (net events)) <-> In f (own events [])) as O by (intros f; apply writes_are_own; exact RO).
  split; [|split; [|split]].
  - intros f Hf H1 H2. apply (W1 f); [apply O; exact Hf|split; assumption].
  - intros x Hx. destruct (W2 eq_refl x Hx) as [f [F1 [[F2 F3] F4]]]. exists f. split; [apply O; exact F1|auto].
  - intros d0 Hd. destruct (excluded d0) eqn:X; [reflexivity|]. exfalso.
    assert (existsb (fun d => negb (excluded d)) tmpdirs = true) as C by (apply existsb_exists; exists d0; rewrite X; auto). congruence.
  - exact E.
Qed.

(** A command that failed or was stopped is accepted only if it created no
    undeclared file. *)
Theorem C11_failed_created_no_others ty : accepted ty = true ->
  forall f, In f (own events []) -> hidden f = false -> excluded f = false -> exists x, lookup f = Some x /\ In x outputs.
Proof.
  unfold write_files. set (success := match ty with CheckSuccess => true | _ => false end).
  destruct (success && _); [discriminate|]. fold (net events).
  pose proof (write_info_spec kind_of hidden excluded ignorable lookup do_unlink rename_ok mtime_ok LS LI outputs So success (writes (net events)) ms NM NT) as W.
  destruct (update_write_info _ _ _ _ _ _ _ _ _ _ _ _) as [[[d s] ok]|]; [|discriminate].
  intros E f Hf H1 H2. apply andb_prop in E. destruct E as [-> _]. destruct W as [_ [W _]]. destruct (proj1 W eq_refl) as [W1 _].
  apply (W1 f); [apply writes_are_own; assumption|split; assumption].
Qed.

(** Nothing else is refused: if the sets agree and moving the files works, the
    command is accepted. *)
Theorem C11_agreement_is_accepted :
  (forall f, In f (own events []) -> hidden f = false -> excluded f = false -> exists x, lookup f = Some x /\ In x outputs) ->
  (forall x, In x outputs -> exists f, In f (own events []) /\ hidden f = false /\ excluded f = false /\ lookup f = Some x) ->
  (forall d, In d tmpdirs -> excluded d = true) ->
  (forall f, excluded f = true -> ignorable f = true) ->
  (forall m, rename_ok m = true) -> (forall m, mtime_ok m = true) ->
  input_check (read_tree excluded node_of var_of (net events) used_groups) = true ->
  accepted CheckSuccess = true.
Proof.
  intros H1 H2 H3 H4 H5 H6 H7. unfold write_files. cbn [andb]. fold (net events).
  assert (existsb (fun d => negb (excluded d)) tmpdirs = false) as ->.
  { destruct (existsb _ tmpdirs) eqn:E; [|reflexivity]. apply existsb_exists in E. destruct E as [d [D1 D2]]. rewrite (H3 d D1) in D2. discriminate. }
  pose proof (write_info_spec kind_of hidden excluded ignorable lookup do_unlink rename_ok mtime_ok LS LI outputs So true (writes (net events)) ms NM NT) as W.
  assert (forall f, In f (writes (net events)) <-> In f (own events [])) as O by (intros f; apply writes_are_own; exact RO).
  destruct (update_write_info _ _ _ _ _ _ _ _ _ _ _ _) as [[[d s] ok]|].
  - destruct W as [_ [W _]]. rewrite H7. assert (ok = true) as ->; [|reflexivity]. apply W. split; [|split].
    + intros f Hf [V1 V2]. apply O in Hf. exact (H1 f Hf V1 V2).
    + intros _ x Hx. destruct (H2 x Hx) as [f [F1 [F2 [F3 F4]]]]. exists f. split; [apply O; exact F1|]. split; [split; assumption|exact F4].
    + intros m _. split; intros _; auto.
  - exfalso. destruct W as [w [_ [_ [W1 W2]]]]. rewrite (H4 w W1) in W2. discriminate.
Qed.

(** Whatever the outcome, an undeclared file is not moved to its place, and each
    one that has an entry is named in a report. *)
Theorem C11_undeclared_is_blocked_and_named success d s ok :
  update_write_info kind_of hidden excluded ignorable lookup do_unlink rename_ok mtime_ok outputs success (writes (net events)) ms = Some (d, s, ok) ->
  (forall m, In m (maps d) -> created (realname m) -> exists x, lookup (realname m) = Some x /\ In x outputs) /\
  (forall f x, created f -> lookup f = Some x -> ~ In x outputs -> exists r, In r (reports d) /\ blames_write r x) /\
  (forall f, In f (wdeleted s) <-> do_unlink = true /\ created f /\ lookup f = None).
Proof.
  intros E. pose proof (write_info_spec kind_of hidden excluded ignorable lookup do_unlink rename_ok mtime_ok LS LI outputs So success (writes (net events)) ms NM NT) as W.
  rewrite E in W. destruct W as [_ [_ [W1 [W2 [_ [W4 _]]]]]].
  assert (forall f, In f (writes (net events)) <-> In f (own events [])) as O by (intros f; apply writes_are_own; exact RO).
  split; [|split].
  - intros m Hm [C1 [C2 C3]]. apply W1; [exact Hm|apply O; exact C1|split; assumption].
  - intros f x [C1 [C2 C3]] L N. apply W2. split; [|exact N]. exists f. split; [apply O; exact C1|]. split; [split; assumption|exact L].
  - intros f. rewrite W4, O. unfold visible, created. tauto.
Qed.
End Accept.

(** The set of entries that the inputs are checked against is what the events
    say (with C12 and C13 this covers the whole of write_files()). *)
Theorem C13_read_set excluded node_of var_of events used_groups :
  (forall n x, node_of n = Some x -> (Z.of_nat x < 2 ^ 31)%Z) -> (forall n x, var_of n = Some x -> (Z.of_nat x < 2 ^ 31)%Z) ->
  small used_groups -> NoDup used_groups ->
  (forall n x, node_of n = Some x -> ~ In x used_groups) -> (forall n x, var_of n = Some x -> ~ In x used_groups) ->
  sorted (read_tree excluded node_of var_of (net events) used_groups) /\
  forall x, In x (read_tree excluded node_of var_of (net events) used_groups) <->
    (exists n, In n (reads (net events)) /\ excluded n = false /\ node_of n = Some x) \/
    (exists n, In n (vars (net events)) /\ var_of n = Some x) \/ In x used_groups.
Proof. intros NS VS SG NG D1 D2. apply read_tree_spec; eauto. Qed.

(** Non-vacuity: a.o is declared as output 3; x.o as output 4. *)
Definition ex_lookup (f : bytes) : option id := if bytes_eqb f (B "a.o") then Some 3 else if bytes_eqb f (B "x.o") then Some 4 else None.
Definition ex_accept (outs : list id) := write_files (fun _ => KGenerated) (fun _ => false) (fun f => bytes_eqb f (B "log")) (fun _ => true) ex_lookup
  true (fun _ => true) (fun _ => true) ex_lookup (fun _ => None) (fun _ => true) outs [] [] [{| realname := B "a.o"; tmpname := B "t/1"; mtent := None |}]
  CheckSuccess (handle_events (EWrite (B "log") :: ex_trace) finfo0).
Example ex_accept_yes : ex_accept [3] = true.
Proof. reflexivity. Qed.
Example ex_accept_missing : ex_accept [3; 4] = false.
Proof. reflexivity. Qed.
Example ex_accept_extra : ex_accept [] = false.
Proof. reflexivity. Qed.
Example ex_accept_hyps : (forall w x, ex_lookup w = Some x -> (Z.of_nat x < 2 ^ 31)%Z) /\
  (forall v w x, ex_lookup v = Some x -> ex_lookup w = Some x -> v = w) /\ sorted [3; 4] /\ renames_own (EWrite (B "log") :: ex_trace) [].
Proof.
  unfold ex_lookup. split; [|split; [|split]].
  - intros w x. destruct (bytes_eqb w _); [intros E; injection E as <-; reflexivity|]. destruct (bytes_eqb w _); [|discriminate]. intros E. injection E as <-. reflexivity.
  - intros v w x. destruct (bytes_eqb_spec v (B "a.o")); destruct (bytes_eqb_spec w (B "a.o")); try congruence;
      destruct (bytes_eqb_spec v (B "x.o")); destruct (bytes_eqb_spec w (B "x.o")); congruence.
  - repeat constructor.
  - cbn. tauto.
Qed.

Print Assumptions C15_written_iff_own.
Print Assumptions C15_read_is_input.
Print Assumptions C15_input_was_read.
Print Assumptions C15_read_then_removed_refuted.
Print Assumptions C15_foreign_rename_refuted.
Print Assumptions C11_accepted_created_exactly_the_outputs.
Print Assumptions C11_failed_created_no_others.
Print Assumptions C11_agreement_is_accepted.
Print Assumptions C11_undeclared_is_blocked_and_named.
Print Assumptions C13_read_set.
