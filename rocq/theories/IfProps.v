(** C22: conditionals in Tupfiles. *)
From Verif Require Import Base IfModel IfSpec IfProofs.

(** A block-structured Tupfile of nesting depth at most 8 does exactly what
    its tree means, for every state, every meaning of the other directives and
    of the conditions. *)
Theorem C22_block_semantics :
  forall St eval_eq var_ifdef other (b : blocks) (s : St),
  wf b -> depth b <= 8 ->
  parse_lines St eval_eq var_ifdef other s if_init (flatten b)
  = run St (if_meaning eval_eq var_ifdef) other true b s.
Proof. exact parse_blocks. Qed.
Print Assumptions C22_block_semantics.

(** A concrete file: the lines of the selected branches, in order. *)
Definition ex_file : blocks :=
  IfElse (B "ifeq (a,a)") (Line (B "X = 1") (If (B "ifneq (a,a)") (Line (B "Y = 1") Done) Done))
    (Line (B "Z = 1") Done) (Line (B ": |> c |>") Done).
Definition ex_log (s : list bytes) (l : bytes) : list bytes * bool := (s ++ [l], true).
Example C22_block_semantics_ex :
  wf ex_file /\ depth ex_file <= 8 /\
  parse_lines _ (fun s _ => (s, Some true)) (fun s _ => (s, Some true)) ex_log [] if_init (flatten ex_file)
  = ([B "X = 1"; B ": |> c |>"], true).
Proof.
  split; [|split; [vm_compute; lia|vm_compute; reflexivity]].
  assert (forall l, if_lineb l = false -> l <> B "else" -> l <> B "endif" -> is_plain l) as P.
  { intros l H1 H2 H3. repeat split; auto. intros H. apply is_if_lineb in H. congruence. }
  cbn. repeat split; try (apply is_if_lineb; vm_compute; reflexivity);
    try (apply P; [vm_compute; reflexivity|discriminate|discriminate]);
    try discriminate; intros H; apply is_if_lineb in H; vm_compute in H; discriminate.
Qed.

(** Any accepted sequence of lines has every else and endif inside a block, at
    most 8 open blocks, and no unterminated block. *)
Theorem C22_accepted_is_nested :
  forall St eval_eq var_ifdef other ls (s s' : St),
  parse_lines St eval_eq var_ifdef other s if_init ls = (s', true) ->
  nesting 8 0 ls = Some 0.
Proof. exact parse_ok_nesting. Qed.
Print Assumptions C22_accepted_is_nested.

(** Conversely such a sequence is accepted if no single directive fails. *)
Theorem C22_nested_is_accepted :
  forall St eval_eq var_ifdef other,
  (forall (s : St) l, is_if l -> snd (if_meaning eval_eq var_ifdef s l) <> None) ->
  (forall s l, snd (other s l) = true) ->
  forall ls s, nesting 8 0 ls = Some 0 ->
  snd (parse_lines St eval_eq var_ifdef other s if_init ls) = true.
Proof. exact nesting_ok_parse. Qed.
Print Assumptions C22_nested_is_accepted.
Example C22_nested_is_accepted_ex :
  (forall (s : list bytes) l, is_if l ->
     snd (if_meaning (fun s _ => (s, Some true)) (fun s _ => (s, Some false)) s l) <> None) /\
  nesting 8 0 [B "ifdef X"; B "A = 1"; B "else"; B "endif"] = Some 0 /\
  nesting 8 0 [B "A = 1"; B "endif"] = None.
Proof.
  split; [|vm_compute; split; reflexivity].
  intros s l H. apply is_if_lineb in H. unfold if_lineb in H. unfold if_meaning.
  destruct (prefixb (B "ifeq ") l); [discriminate|].
  destruct (prefixb (B "ifneq ") l); [discriminate|].
  destruct (prefixb (B "ifdef ") l); [discriminate|].
  destruct (prefixb (B "ifndef ") l); discriminate.
Qed.

(** Finding: a second else in the same block is accepted and selects the first
    branch again. *)
Theorem C22_second_else_rejected_refuted :
  exists ls : list bytes,
    ls = [B "ifdef X"; B "a"; B "else"; B "b"; B "else"; B "c"; B "endif"] /\
    parse_lines _ (fun s _ => (s, Some true)) (fun s _ => (s, Some true)) ex_log [] if_init ls
    = ([B "a"; B "c"], true).
Proof. eexists; split; [reflexivity|vm_compute; reflexivity]. Qed.
Print Assumptions C22_second_else_rejected_refuted.
