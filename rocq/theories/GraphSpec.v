(** Reachability and cycles in the stored dependency graph. *)
From Verif Require Import Base ExecModel GraphModel.

Section Spec.
Variable kind_of : id -> kind.
Variable links glinks : id -> list id.

(** [b] directly depends on [a]: a stored link, or a link between groups. *)
Definition next (a b : id) : Prop := In b (links a) \/ (kind_of a = KGroup /\ In b (glinks a)).

(** A non-empty path. *)
Inductive path : id -> id -> Prop :=
| path_one a b : next a b -> path a b
| path_step a b c : path a b -> next b c -> path a c.

(** Affected by one of [flags]. *)
Inductive affected (flags : list id) : id -> Prop :=
| aff_flag n : In n flags -> affected flags n
| aff_next a b : affected flags a -> next a b -> affected flags b.

(** What the database guarantees: ids below [root] do not exist, the links stay
    in a finite set of nodes. *)
Record db_ok (root : id) (universe flags : list id) : Prop := {
  u_root : ~ In root universe;
  u_flags : incl flags universe;
  u_next : forall a b, In a universe -> next a b -> In b universe;
}.

(** The kinds of nodes that links connect: group links lead to groups, the
    outputs of commands are not sources of other generated files, the root of
    the graph is neither a sticky input nor anything but a root. *)
Record kinds_ok (inputs : id -> list id) (root : id) : Prop := {
  k_root : kind_of root = KRoot;
  k_glinks : forall a n, In n (glinks a) -> kind_of n = KGroup;
  k_inputs : forall n, ~ In root (inputs n);
  k_generated : forall a n, kind_of a = KGenerated -> next a n -> kind_of n <> KGenerated;
  k_file : forall a n, next a n -> kind_of n <> KFile;
}.
End Spec.

(** What a partial update for [targets] needs: the targets, everything upstream
    of what is needed, and all the outputs of the commands that are needed
    (groups and exclusions are not outputs). *)
Inductive needed (kind_of : id -> kind) (exclusion : id -> bool) (g : graph) (targets : list id) : id -> Prop :=
| need_target t : In t targets -> In t (node_list g) -> needed kind_of exclusion g targets t
| need_upstream e : In e (edges g) -> needed kind_of exclusion g targets (dst e) ->
    needed kind_of exclusion g targets (src e)
| need_output e : In e (edges g) -> needed kind_of exclusion g targets (src e) ->
    kind_of (src e) = KCmd -> kind_of (dst e) <> KGroup -> exclusion (dst e) = false ->
    needed kind_of exclusion g targets (dst e).

(** Non-empty paths along the edges of a graph. *)
Inductive gpath (g : graph) : id -> id -> Prop :=
| gpath_one e : In e (edges g) -> gpath g (src e) (dst e)
| gpath_step a e : gpath g a (src e) -> In e (edges g) -> gpath g a (dst e).
