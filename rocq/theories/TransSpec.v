(** What an update with temporary files should look at. *)
From Verif Require Import Base ExecModel ExecSpec GraphModel GraphSpec.

Section Spec.
(** The stored rules: [links] of a command are its outputs, [inputs] the files
    it declares. [flags] are the nodes that changed or whose outputs are gone;
    [rows] are the temporary files that an earlier update left behind, and the
    ^t commands that are new or were edited. *)
Variable kind_of : id -> kind.
Variable links glinks inputs : id -> list id.
Variable transient_ : id -> bool.
Variable rows flags : list id.
Notation next := (next kind_of links glinks).

(** A temporary file left behind that nobody has touched since. *)
Definition leftover (f : id) : Prop := In f rows /\ kind_of f <> KCmd /\ ~ In f flags.

(** A ^t command whose outputs are (or may be) gone: it is to run only on
    demand. *)
Definition waiting (c : id) : Prop := In c flags /\ kind_of c = KCmd /\ transient_ c = true.

(** To be processed in any case: what changed, what was left behind and what
    depends on what changed. *)
Inductive due : id -> Prop :=
| due_flag n : In n flags -> ~ waiting n -> due n
| due_row n : In n rows -> due n
| due_next a n : due a -> ~ leftover a -> next a n -> due n.

(** The part of it in which a change is passed on by files: not through groups
    and excluded outputs, which only order commands. *)
Inductive changed (exclusion : id -> bool) : id -> Prop :=
| chg_flag n : In n flags -> ~ waiting n -> changed exclusion n
| chg_row n : In n rows -> changed exclusion n
| chg_next a n : changed exclusion a -> ~ leftover a -> next a n ->
    (kind_of a = KCmd -> kind_of n <> KGroup /\ exclusion n = false) -> changed exclusion n.

(** ... and what is demanded: the commands that make missing temporary files
    for something that takes part. *)
Inductive joins : id -> Prop :=
| join_due n : due n -> joins n
| join_cmd c f u : waiting c -> In f (links c) -> ~ In f rows -> joins u -> In f (inputs u) -> joins c
| join_out c f : waiting c -> joins c -> In f (links c) -> joins f.

(** A ^t command of which one output is missing and demanded while another was
    left behind. *)
Definition torn (c : id) : Prop :=
  waiting c /\ ~ due c /\
  (exists f u, In f (links c) /\ ~ In f rows /\ joins u /\ In f (inputs u)) /\
  (exists f, In f (links c) /\ leftover f).

(** The outputs of the ^t commands in question are files of their own: made by
    nothing else, in no group, and not touched by hand. *)
Record plain : Prop := {
  pl_nodup : NoDup flags;
  pl_links : forall c, waiting c -> NoDup (links c);
  pl_own : forall c f a, waiting c -> In f (links c) -> next a f -> a = c;
  pl_kind : forall c f, waiting c -> In f (links c) -> kind_of f = KGenerated;
  pl_touch : forall c f, waiting c -> In f (links c) -> ~ In f flags;
  pl_self : forall c f, waiting c -> In f (links c) -> ~ In f (inputs c);
}.

(** What the database guarantees, with [universe] as in [db_ok]: sticky links
    can be followed both ways and lead to commands. *)
Record store_ok (users : id -> list id) (root : id) (universe : list id) : Prop := {
  so_db : db_ok kind_of links glinks root universe (flags ++ rows);
  so_kinds : kinds_ok kind_of links glinks inputs root;
  so_users : forall f u, In u (users f) <-> In f (inputs u);
  so_cmds : forall f u, In f (inputs u) -> kind_of u = KCmd;
}.

(** [f] is a temporary file: generated, with the flag of its ^t command, which
    is the only one that makes it. *)
Definition temporary (f : id) : Prop := kind_of f = KGenerated /\ transient_ f = true.
Record makers (exclusion : id -> bool) (maker : id -> id) : Prop := {
  mk_cmd : forall f, temporary f -> kind_of (maker f) = KCmd /\ transient_ (maker f) = true;
  mk_link : forall f, temporary f -> In f (links (maker f));
  mk_only : forall f a, temporary f -> next a f -> a = maker f;
  mk_real : forall f, temporary f -> exclusion f = false;
}.
End Spec.
