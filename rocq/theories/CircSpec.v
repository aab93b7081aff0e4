(** Circular dependencies among groups. *)
From Verif Require Import Base ExecModel GraphModel CircModel.

(** Some command reads the group [a] and writes to the group [b]. *)
Definition feeds (s : gdb) (a b : id) : Prop := exists c, In a (g_in s c) /\ g_out s c = Some b.
(** One or more such steps. *)
Inductive leads (s : gdb) : id -> id -> Prop :=
| leads_one a b : feeds s a b -> leads s a b
| leads_more a b c : leads s a b -> feeds s b c -> leads s a c.
Definition circular (s : gdb) : Prop := exists a, leads s a a.

(** The ids of commands, of groups and of the root node of graphs are different; rules read
    each group once. *)
Definition op_ok (is_grp : id -> bool) (root : id) (o : op) : Prop :=
  match o with
  | Rule c ins group => is_grp c = false /\ c <> root /\ NoDup ins /\ (forall i, In i ins \/ group = Some i -> is_grp i = true /\ i <> root)
  | Delete c => True
  end.
(** The databases that updates lead to, from an empty one. *)
Inductive history (is_grp : id -> bool) (root : id) : gdb -> Prop :=
| h_new : history is_grp root empty_gdb
| h_update s os : history is_grp root s -> (forall o, In o os -> op_ok is_grp root o) -> history is_grp root (after (parse_phase is_grp root os s) s).

(** What the rules say about a command: the groups that it reads and the one it writes to. *)
Fixpoint says (os : list op) (c : id) (cur : list id * option id) : list id * option id :=
  match os with
  | [] => cur
  | Rule c' ins group :: os => says os c (if c' =? c then (ins, group) else cur)
  | Delete c' :: os => says os c (if c' =? c then ([], None) else cur)
  end.
(** The database after the rules were parsed. *)
Definition says_so (os : list op) (s s' : gdb) : Prop := forall c, (g_in s' c, g_out s' c) = says os c (g_in s c, g_out s c).

(** Rules with the files that they read and write. *)
Record frule := { fr_cmd : id; fr_in : list id; fr_groups : list id; fr_out : list id; fr_group : option id }.
Definition rule_of (r : frule) : op := Rule (fr_cmd r) (fr_groups r) (fr_group r).
(** The second rule reads what the first writes: a file, or a group. *)
Definition waits (r r' : frule) : Prop :=
  (exists f, In f (fr_out r) /\ In f (fr_in r')) \/ (exists g, fr_group r = Some g /\ In g (fr_groups r')).
Inductive waits_on (rs : list frule) : frule -> frule -> Prop :=
| w_one r r' : In r rs -> In r' rs -> waits r r' -> waits_on rs r r'
| w_more r r' r'' : waits_on rs r r' -> In r'' rs -> waits r' r'' -> waits_on rs r r''.
