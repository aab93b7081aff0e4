(** tup todo, the third phase: what will be executed (updater.c:1755-1788
    [check_update_todo], 2254-2262 [todo_work]). The graph, its construction
    and its execution are those of GraphModel.v and ExecModel.v. *)
From Verif Require Import Base ExecModel GraphModel.

Section Todo.
Variable kind_of : id -> kind.
Variable links glinks inputs : id -> list id.
Variable transient_ exclusion : id -> bool.
Variable root : id.

(** updater.c:2254-2262 todo_work with count_flags == TUP_NODE_CMD: the command
    is shown; [w] are those shown so far, in order. *)
Definition shown (n : id) : list id := if is_cmd (kind_of n) then [n] else [].
Inductive todo_work (g : graph) (n : id) (w : list id) : list id -> bool -> Prop :=
| tw : todo_work g n w (w ++ shown n) true.

(** updater.c:1762-1769 (and updater.c:546 for [targets]: the arguments that
    prune_graph takes for names): the graph, with what is added to modify_list. All
    of modify_list goes in by build_graph_cb, and transient_list is not looked
    at, unlike in process_update_nodes (updater.c:1638-1658). [None]: no
    arguments. *)
Definition todo_graph (fuel : nat) (flags : list id) (targets : option (list id)) : outcome (bgraph * list id) :=
  then_ (update_graph kind_of links glinks inputs transient_ root (Some KCmd) fuel flags) (fun b =>
  match targets with
  | None => Done (b, [])
  | Some ts => of_option (prune_graph kind_of exclusion root b [] ts)
  end).

(** updater.c:1770-1773 and 575-581: the number in the message, or "Everything
    is up-to-date" for 0. *)
Definition number (b : bgraph) : nat := num_nodes b.

(** updater.c:1774 execute_graph(&g, 0, 1, todo_work). *)
Definition shows (b : bgraph) (s : @exec (list id)) : Prop := steps todo_work false (start 1 (gr_ b) []) s.
End Todo.
