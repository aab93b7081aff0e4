(** Model of the check for circular dependencies among groups: the table group_link as the parser
    keeps it (src/tup/db.c:5911-6068, 3707, 6854-6996), and the graph that is built from it
    (src/tup/graph.c:433-465, 537-577, 910-928, 1394-1444). Errors of SQL and malloc are left out, and
    so is tup refactor, which refuses all changes. *)
From Verif Require Import Base ExecModel GraphModel.

(** A row of group_link: from_id, to_id, cmdid (db.c:316). *)
Definition row := (id * id * id)%type.
Definition row_eqb (a b : row) : bool := let '(x, y, z) := a in let '(u, v, w) := b in (x =? u) && (y =? v) && (z =? w).

(** The part of the database that is looked at: the groups that a command reads (the sticky
    links to it from groups, db.c:5714-5745 tup_db_get_inputs), the group that it writes to (db.c:5469
    tup_db_get_outputs), and group_link. *)
Record gdb := { g_in : id -> list id; g_out : id -> option id; g_link : list row }.

(** db.c:6854-6908 group_link_insert: an insertion fails for a row that is there (the table is
    unique(from_id, to_id, cmdid)). *)
Definition group_link_insert (r : row) (l : list row) : option (list row) := if existsb (row_eqb r) l then None else Some (r :: l).
(** db.c:6910-6955 group_link_remove *)
Definition group_link_remove (r : row) (l : list row) : list row := filter (fun x => negb (row_eqb x r)) l.
(** db.c:6957-6996 delete_group_links *)
Definition delete_group_links (c : id) (l : list row) : list row := filter (fun x => negb (snd x =? c)) l.

Fixpoint insert_all (rs : list row) (l : list row) : option (list row) :=
  match rs with [] => Some l | r :: rs => obind (group_link_insert r l) (insert_all rs) end.
Definition remove_all (rs : list row) (l : list row) : list row := fold_left (fun l r => group_link_remove r l) rs l.

Definition opt_eqb (a b : option id) : bool :=
  match a, b with Some x, Some y => x =? y | None, None => true | _, _ => false end.

(** db.c:6001-6068 tup_db_write_inputs for a command that reads the groups [ins] and writes to
    [group], with add_sticky (5911-5940) and rm_sticky (5942-5999); and whether new_groups is set.
    compare_tent_trees goes through both sets in the order of the ids; here the additions come
    first, which makes no difference as they are other rows. Of the inputs only the groups are here. *)
Definition write_inputs (c : id) (ins : list id) (group : option id) (s : gdb) : option (gdb * bool) :=
  let old := g_out s c in
  let added := filter (fun i => negb (inb i (g_in s c))) ins in
  let removed := filter (fun i => negb (inb i ins)) (g_in s c) in
  let done_ l new := Some ({| g_in := upd (g_in s) c ins; g_out := upd (g_out s) c group; g_link := l |}, new) in
  if opt_eqb group old then
    match group with
    | Some g => obind (insert_all (map (fun i => (i, g, c)) added) (g_link s)) (fun l =>
                done_ (remove_all (map (fun i => (i, g, c)) removed) l) (match added with [] => false | _ => true end))
    | None => done_ (g_link s) false
    end
  else
    let l := match old with Some _ => delete_group_links c (g_link s) | None => g_link s end in
    match group with
    | Some g => obind (insert_all (map (fun i => (i, g, c)) ins) l) (fun l => done_ l true)
    | None => done_ l false
    end.

(** find_node, graph.c:44-51 *)
Definition find_node (g : graph) (n : id) : bool := inb n (plist g) || inb n (node_list g).
(** graph.c:53-89 create_node. [skip] and the counts are not used for this graph. *)
Definition new_node (g : graph) (n : id) : graph :=
  {| plist := plist g; node_list := node_list g ++ [n]; edges := edges g; state := upd (state g) n Initialized; trans := upd (trans g) n TNone; expanded := upd (expanded g) n false |}.
(** graph.c:222-256 create_graph *)
Definition new_graph (root : id) : graph :=
  new_node {| plist := []; node_list := []; edges := []; state := fun _ => Initialized; trans := fun _ => TNone; expanded := fun _ => false |} root.
(** graph.c:393-407 find_or_create_node *)
Definition find_or_create_node (g : graph) (n : id) : graph := if find_node g n then g else new_node g n.

(** graph.c:1399-1420 add_group_circ_check on a graph that exists *)
Definition add_group_circ_check (g : graph) (n : id) : option graph :=
  if find_node g n then Some g
  else obind (off_nodes (new_node g n) n) (fun g => obind (to_plist_head g n) (fun g => Some (set_expanded g n))).

(** graph.c:278-286 expand_node, if it was not expanded *)
Definition expand_once (g : graph) (n : id) : option graph := if expanded g n then Some g else expand_node g n.
(** graph.c:436-465 build_group_cb *)
Definition build_group_cb (cur n c : id) (g : graph) : option graph :=
  let g := find_or_create_node g n in
  let g := find_or_create_node g c in
  obind (expand_once g n) (fun g =>
  obind (expand_once g c) (fun g =>
  Some (create_edge (create_edge g cur c true) c n true))).
Fixpoint group_cbs (cur : id) (rs : list row) (g : graph) : option graph :=
  match rs with [] => Some g | r :: rs => obind (build_group_cb cur (snd (fst r)) (snd r) g) (group_cbs cur rs) end.
(** db.c:4466-4546 tup_db_select_node_by_group_link: the rows are put in front of a list, and the
    list is gone through. *)
Definition rows_from (l : list row) (n : id) : list row := rev (filter (fun r => fst (fst r) =? n) l).

(** graph.c:544-577 build_graph with TUP_LINK_GROUP. [None] is an error, [Some None] out of
    rounds. *)
Fixpoint build_group_graph (fuel : nat) (l : list row) (g : graph) : option (option graph) :=
  match plist g with
  | [] => Some (Some g)
  | cur :: _ =>
      match fuel with
      | O => Some None
      | S f =>
          match state g cur with
          | Initialized => obind (group_cbs cur (rows_from l cur) g) (fun g => build_group_graph f l (set_state g cur Processing))
          | Processing => obind (off_plist g cur) (fun g => obind (to_nodes_tail g cur) (fun g => build_group_graph f l (set_state g cur Finished)))
          | Finished => None
          end
      end
  end.

(** What group_circ_check comes to: no error, the error with the groups that are named, an
    internal error, or (not an outcome of the program) out of rounds. *)
Inductive verdict := Passes | Cycle (names : list id) | Broken | NoRounds.
(** graph.c:1422-1444 group_circ_check. [None] is a graph that was not needed.
    The nodes are those there are and two for each row, and each is visited twice. *)
Definition group_circ_check (is_grp : id -> bool) (l : list row) (g : option graph) : verdict :=
  match g with
  | None => Passes
  | Some g =>
      match build_group_graph (2 * (length (plist g) + 2 * length l)) l g with
      | None => Broken
      | Some None => NoRounds
      | Some (Some g) =>
          match trim_graph (length (node_list g)) g with
          | None => NoRounds
          | Some g => match node_list g with [] => Passes | ns => Cycle (filter is_grp ns) end
          end
      end
  end.

(** What happens to commands while Tupfiles are parsed and files are deleted: a rule is parsed, or
    a command is deleted. *)
Inductive op := Rule (c : id) (ins : list id) (group : option id) | Delete (c : id).
Inductive parsed := POk (s : gdb) (g : option graph) | PSelf | PBroken.
(** parser.c:3695-3721: a rule; db.c:3691-3709 tup_db_delete_links *)
Definition do_op (root : id) (o : op) (s : gdb) (g : option graph) : parsed :=
  match o with
  | Rule c ins group =>
      if match group with Some x => inb x ins | None => false end then PSelf
      else match write_inputs c ins group s with
           | None => PBroken
           | Some (s, true) =>
               match group with
               | Some x => match add_group_circ_check (match g with Some g => g | None => new_graph root end) x with Some g => POk s (Some g) | None => PBroken end
               | None => PBroken
               end
           | Some (s, false) => POk s g
           end
  | Delete c => POk {| g_in := upd (g_in s) c []; g_out := upd (g_out s) c None; g_link := delete_group_links c (g_link s) |} g
  end.
Fixpoint do_ops (root : id) (os : list op) (s : gdb) (g : option graph) : parsed :=
  match os with
  | [] => POk s g
  | o :: os => match do_op root o s g with POk s g => do_ops root os s g | e => e end
  end.

(** updater.c:1383-1637 process_create_nodes as far as the groups go: if the check fails, or a
    rule, the transaction is rolled back. *)
Inductive result := Committed (s : gdb) | SelfError | CycleError (names : list id) | Internal_ | NoRounds_.
Definition parse_phase (is_grp : id -> bool) (root : id) (os : list op) (s : gdb) : result :=
  match do_ops root os s None with
  | POk s g => match group_circ_check is_grp (g_link s) g with Passes => Committed s | Cycle ns => CycleError ns | Broken => Internal_ | NoRounds => NoRounds_ end
  | PSelf => SelfError
  | PBroken => Internal_
  end.
Definition after (r : result) (s : gdb) : gdb := match r with Committed s => s | _ => s end.
Definition empty_gdb : gdb := {| g_in := fun _ => []; g_out := fun _ => None; g_link := [] |}.
