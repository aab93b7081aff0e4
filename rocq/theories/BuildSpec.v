(** What a user expects of the outputs after an update. *)
From Verif Require Import Base ExecModel BuildModel.

Section Spec.
Context {V : Type}.
Variable behave : id -> (id -> option V) -> result V.

(** What a command would see if it were run now. *)
Definition sees (w : world V) (c : id) : id -> option V := hide (outs (rls w) c) (content w).

(** Running the command on the files as they are now would succeed and would
    write exactly the outputs that are there. *)
Definition up_to_date (w : world V) (c : id) : Prop :=
  r_ok (behave c (sees w c)) = true /\
  forall x, In x (outs (rls w) c) -> content w x <> None /\ content w x = r_out (behave c (sees w c)) x.

(** A command is a function of the files that it reads. *)
Definition deterministic : Prop := forall c v v',
  (forall x, In x (r_reads (behave c v)) -> v x = v' x) ->
  r_ok (behave c v') = r_ok (behave c v) /\ r_reads (behave c v') = r_reads (behave c v) /\
  forall x, r_out (behave c v') x = r_out (behave c v) x.

(** An invocation of tup: scan, parse and update; it succeeds if nothing failed
    and every node that was selected was processed. *)
Definition invocation (V_eqb : V -> V -> bool) (caret_o : id -> bool) (garbage : bool)
    (w : world V) (nodes : list id) (keep : id -> bool) (w1 : world V) (s : run V) : Prop :=
  reparse caret_o (scan w) w1 /\ updating V_eqb behave caret_o garbage w1 nodes keep s.
Definition successful (nodes : list id) (keep : id -> bool) (s : run V) : Prop :=
  failed s = [] /\ forall n, In n nodes -> keep n = true -> In n (done s).
Definition all_nodes : id -> bool := fun _ => true.

(** Why a node has to be processed and not just skipped, in the update that
    started from [w] and has reached [s]: it is flagged; or it is the output of a
    command that had a reason to run, and it was rewritten, has new contents, or
    the command stopped using a generated file; or it uses such a file. *)
Inductive reason (caret_o : id -> bool) (w : world V) (s : run V) : id -> Prop :=
| flagged n : modify w n = true -> reason caret_o w s n
| rewritten c x : In c (commands (rls w)) -> In x (outs (rls w) c) -> In c (done s) -> reason caret_o w s c ->
    (caret_o c = false \/ content w x = None \/ content (cur s) x <> content w x \/
     exists y, In y (links w c) /\ generated w y = true /\ ~ In y (links (cur s) c)) ->
    reason caret_o w s x
| used c x : In c (commands (rls w)) -> In x (links w c) -> reason caret_o w s x -> reason caret_o w s c
| grouped x g : In g (member (rls w) x) -> reason caret_o w s x -> reason caret_o w s g.

(** The two projects have the same rules and the same source files. *)
Definition same_project (w w' : world V) : Prop :=
  rls w = rls w' /\ forall x, generated w x = false -> content w x = content w' x.
End Spec.
