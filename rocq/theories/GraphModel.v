(** Construction of the update graph: graph.c [create_graph], [build_graph],
    [add_graph_stickies], [prune_graph], [nodes_are_connected], [trim_graph]. *)
From Verif Require Import Base ExecModel.

(** db_types.h:25-42 TUP_NODE_*: the types the graph code distinguishes. *)
Inductive kind := KRoot | KFile | KCmd | KGenerated | KGroup | KGhost | KDir | KVar | KOther.
Definition is_cmd (k : kind) := match k with KCmd => true | _ => false end.
Definition is_file (k : kind) := match k with KFile => true | _ => false end.
Definition is_group (k : kind) := match k with KGroup => true | _ => false end.
Definition is_generated (k : kind) := match k with KGenerated => true | _ => false end.

(** graph.h struct graph with the node fields [skip] and [counted].
    [node_root] (find_node) always holds the nodes of the two lists:
    create_node (graph.c:53-89) and remove_node (graph.c:140-150) change both
    together, so it is not kept separately. *)
Record bgraph := {
  gr_ : graph;
  skip : id -> bool;
  counted : id -> bool;
  num_nodes : nat;
}.

(** Outcome of building: a graph, "Circular dependency detected" (graph.c:291-300),
    a "tup internal error", or (not a C outcome) out of fuel. *)
Inductive outcome (A : Type) := Done (a : A) | Circular | Internal | Timeout.
Arguments Done {A}. Arguments Circular {A}. Arguments Internal {A}. Arguments Timeout {A}.
Definition then_ {A C} (o : outcome A) (f : A -> outcome C) : outcome C :=
  match o with Done a => f a | Circular => Circular | Internal => Internal | Timeout => Timeout end.
Definition of_option {A} (o : option A) : outcome A := match o with Some a => Done a | None => Internal end.

Definition with_gr (b : bgraph) (g : graph) : bgraph :=
  {| gr_ := g; skip := skip b; counted := counted b; num_nodes := num_nodes b |}.

(** graph.c:44-51 find_node. *)
Definition found (b : bgraph) (n : id) : bool := inb n (plist (gr_ b)) || inb n (node_list (gr_ b)).

Section Build.
(** The database. [links]: rows of normal_link from an id
    (db.c:4361-4446 get_outputs, tup_db_select_node_by_link), in the order
    sqlite returns them. [glinks]: distinct group_link rows
    (db.c:4548-4610). [inputs]: sticky inputs of a command
    (db.c:5714-5745 tup_db_get_inputs). [transient_]: is_transient_tent
    (entry.c:802-805). [exclusion]: dt == exclusion_dt(). *)
Variable kind_of : id -> kind.
Variable links : id -> list id.
Variable glinks : id -> list id.
Variable inputs : id -> list id.
Variable transient_ : id -> bool.
Variable exclusion : id -> bool.
Variable root : id.
(** g->count_flags; [None] is TUP_NODE_ROOT, which counts everything. *)
Variable count_flags : option kind.
Definition counts (k : kind) : bool :=
  match count_flags with
  | None => true
  | Some KCmd => is_cmd k
  | Some KFile => is_file k
  | Some KGroup => is_group k
  | Some KGenerated => is_generated k
  | Some _ => false
  end.

(** graph.c:53-89 create_node. *)
Definition create_node (b : bgraph) (n : id) : bgraph :=
  let g := gr_ b in
  {| gr_ := {| plist := plist g; node_list := node_list g ++ [n]; edges := edges g;
               state := upd (state g) n Initialized;
               trans := upd (trans g) n
                          (if is_generated (kind_of n) && transient_ n then TProcessing else TNone);
               expanded := upd (expanded g) n false |};
     skip := upd (skip b) n true; counted := upd (counted b) n false; num_nodes := num_nodes b |}.

(** graph.c:222-256 create_graph: the root node alone. *)
Definition create_graph : bgraph :=
  create_node {| gr_ := {| plist := []; node_list := []; edges := [];
                           state := fun _ => Initialized; trans := fun _ => TNone;
                           expanded := fun _ => false |};
                 skip := fun _ => true; counted := fun _ => false; num_nodes := 0 |} root.

Definition set_expanded (g : graph) (n : id) : graph :=
  {| plist := plist g; node_list := node_list g; edges := edges g; state := state g;
     trans := trans g; expanded := upd (expanded g) n true |}.

(** graph.c:278-286 expand_node. *)
Definition expand_node (g : graph) (n : id) : option graph :=
  obind (off_nodes (set_expanded g n) n) (fun g1 => to_plist_head g1 n).

(** graph.c:152-169 create_edge: head insertion. *)
Definition create_edge (g : graph) (a b : id) (nrm : bool) : graph :=
  set_edges g ({| src := a; dst := b; normal := nrm |} :: edges g).

(** graph.c:288-322 make_edge. The sum of the mtimes (total_mtime, used for the
    progress estimate) is left out. The C code does not look at the result of
    expand_node; here a failure is [Internal], which the proofs exclude. *)
Definition make_edge (b : bgraph) (cur n : id) : outcome bgraph :=
  if is_processing (state (gr_ b) n) then Circular
  else
    then_ (if expanded (gr_ b) n then Done b
           else
             let c := counts (kind_of n) in
             then_ (of_option (expand_node (gr_ b) n)) (fun g =>
             Done {| gr_ := g; skip := skip b;
                     counted := if c then upd (counted b) n true else counted b;
                     num_nodes := if c then S (num_nodes b) else num_nodes b |})) (fun b1 =>
    Done {| gr_ := create_edge (gr_ b1) cur n true;
            skip := if cur =? root then upd (skip b1) n false else skip b1;
            counted := counted b1; num_nodes := num_nodes b1 |}).

(** graph.c:378-391 build_graph_cb. *)
Definition build_graph_cb (b : bgraph) (cur n : id) : outcome bgraph :=
  make_edge (if found b n then b else create_node b n) cur n.

(** graph.c:413-430 build_graph_group_cb (with find_or_create_node,
    graph.c:393-407). *)
Definition build_graph_group_cb (b : bgraph) (cur n : id) : outcome bgraph :=
  let b1 := if found b n then b else create_node b n in
  then_ (if expanded (gr_ b1) n then Done b1
         else then_ (of_option (expand_node (gr_ b1) n)) (fun g => Done (with_gr b1 g))) (fun b2 =>
  Done (with_gr b2 (create_edge (gr_ b2) cur n true))).

Fixpoint each (f : bgraph -> id -> outcome bgraph) (b : bgraph) (l : list id) : outcome bgraph :=
  match l with [] => Done b | n :: r => then_ (f b n) (fun b1 => each f b1 r) end.

(** graph.c:546-560: expand the links of the node on top of the stack. *)
Definition expand_links (b : bgraph) (cur : id) : outcome bgraph :=
  then_ (each (fun b n => build_graph_cb b cur n) b (links cur)) (fun b1 =>
  if is_group (kind_of cur) then each (fun b n => build_graph_group_cb b cur n) b1 (glinks cur)
  else Done b1).

(** graph.c:544-577: the loop of build_graph on a graph whose style is not
    TUP_LINK_GROUP. *)
Fixpoint build_loop (fuel : nat) (b : bgraph) : outcome bgraph :=
  match plist (gr_ b) with
  | [] => Done b
  | cur :: _ =>
    match fuel with
    | O => Timeout
    | S f =>
      match state (gr_ b) cur with
      | Initialized =>
        then_ (expand_links b cur) (fun b1 =>
        build_loop f (with_gr b1 (set_state (gr_ b1) cur Processing)))
      | Processing =>
        then_ (of_option (obind (off_plist (gr_ b) cur) (fun g1 => to_nodes_tail g1 cur))) (fun g =>
        build_loop f (with_gr b (set_state g cur Finished)))
      | Finished => Internal
      end
    end
  end.

(** graph.c:619-642 add_graph_stickies: for each command, an edge from each of
    its sticky inputs that is in the graph. *)
Definition sticky_edges (b : bgraph) (n : id) : list edge :=
  if is_cmd (kind_of n) then
    map (fun i => {| src := i; dst := n; normal := false |}) (filter (found b) (inputs n))
  else [].
Definition add_graph_stickies (b : bgraph) : bgraph :=
  with_gr b (set_edges (gr_ b)
    (fold_left (fun es n => rev (sticky_edges b n) ++ es) (node_list (gr_ b)) (edges (gr_ b)))).

(** graph.c:537-610 build_graph without transient commands (graph.c:579-592
    attach_transient_nodes is in TransModel.v: here [transient_root] is empty), for a
    graph other than the create graph. *)
Definition build_graph (fuel : nat) (b : bgraph) : outcome bgraph :=
  then_ (build_loop fuel b) (fun b1 => Done (add_graph_stickies b1)).

(** updater.c:1643-1656: the update graph for the nodes [flags] of modify_list
    (and the commands of transient_list). *)
Definition update_graph (fuel : nat) (flags : list id) : outcome bgraph :=
  then_ (each (fun b n => build_graph_cb b root n) create_graph flags) (build_graph fuel).

(** graph.c:736-770 mark_nodes. The recursion marks a node before it looks at
    its neighbours, so its depth is bounded by the number of nodes. *)
Definition mark_next (g : graph) (n : id) : list id :=
  (if is_cmd (kind_of n) then
     filter (fun d => negb (is_group (kind_of d)) && negb (exclusion d)) (map dst (out_edges g n))
   else []) ++
  map src (filter (fun e => dst e =? n) (edges g)).
Fixpoint mark_nodes (fuel : nat) (g : graph) (marked : list id) (n : id) : option (list id) :=
  if inb n marked then Some marked
  else
    match fuel with
    | O => None
    | S f =>
      fold_left (fun m x => obind m (fun m => mark_nodes f g m x)) (mark_next g n) (Some (n :: marked))
    end.

(** Edges of a node that goes away (graph.c:128-138 remove_node_internal). *)
Definition drop_node (g : graph) (n : id) : graph :=
  {| plist := rm n (plist g); node_list := rm n (node_list g);
     edges := filter (fun e => negb (src e =? n) && negb (dst e =? n)) (edges g);
     state := state g; trans := trans g; expanded := expanded g |}.

(** graph.c:772-815 prune_node with GRAPH_PRUNE_GENERATED. Besides the graph,
    the modify list (its additions). *)
Definition prune_node (b : bgraph) (modify : list id) (n : id) : option (bgraph * list id) :=
  if counted b n && negb (is_cmd (kind_of n)) then None
  else
    let g := gr_ b in
    let srcs := map src (filter (fun e => dst e =? n) (edges g)) in
    let g1 := {| plist := plist g; node_list := node_list g; edges := edges g; state := state g;
                 trans := fun x => if inb x srcs then TNone else trans g x;
                 expanded := expanded g |} in
    Some ({| gr_ := if is_file (kind_of n) then g1 else drop_node g1 n;
             skip := skip b; counted := counted b;
             num_nodes := if counted b n then pred (num_nodes b) else num_nodes b |},
          if counted b n then n :: modify else modify).

Fixpoint prune_nodes (b : bgraph) (modify marked : list id) (l : list id) : option (bgraph * list id) :=
  match l with
  | [] => Some (b, modify)
  | n :: r =>
    if inb n marked || (n =? root) then prune_nodes b modify marked r
    else obind (prune_node b modify n) (fun p => prune_nodes (fst p) (snd p) marked r)
  end.

(** graph.c:817-908 prune_graph when targets were given, each a file, command
    or group node id [targets] (directories stand for the nodes below them,
    graph.c:874-892, which are then in [targets]). *)
Definition prune_graph (b : bgraph) (modify targets : list id) : option (bgraph * list id) :=
  let g := gr_ b in
  obind (fold_left (fun m t => obind m (fun m =>
           if found b t then mark_nodes (S (length (node_list g))) g m t else Some m))
         targets (Some [])) (fun marked =>
  prune_nodes b modify marked (node_list g)).

(** graph.c:910-928 trim_graph: one pass, repeated while it removes nodes. *)
Definition no_out (g : graph) (n : id) : bool := negb (existsb (fun e => src e =? n) (edges g)).
Fixpoint trim_pass (g : graph) (l : list id) : graph * bool :=
  match l with
  | [] => (g, false)
  | n :: r =>
    if negb (has_incoming g n) || no_out g n then (fst (trim_pass (drop_node g n) r), true)
    else trim_pass g r
  end.
Fixpoint trim_graph (fuel : nat) (g : graph) : option graph :=
  let (g1, removed) := trim_pass g (node_list g) in
  if removed then match fuel with O => None | S f => trim_graph f g1 end else Some g1.
End Build.
