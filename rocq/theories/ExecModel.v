(** The scheduler: updater.c [execute_graph], [pop_node] and the worker
    threads, as a transition system over a prepared graph. *)
From Verif Require Import Base.

(** db_types.h tupid_t: node ids. Unbounded here. *)
Definition id := nat.

(** graph.h:42-45 STATE_INITIALIZED, STATE_PROCESSING, STATE_FINISHED
    (STATE_REMOVING is not used by the update phase). *)
Inductive nstate := Initialized | Processing | Finished.

(** graph.h:47-51 enum transient_type. *)
Inductive transient := TNone | TProcessing | TDelete.

(** graph.h:34-40 struct edge; [normal] is style == TUP_LINK_NORMAL. *)
Record edge := { src : id; dst : id; normal : bool }.

Definition edge_eqb (a b : edge) : bool :=
  (src a =? src b) && (dst a =? dst b) && eqb (normal a) (normal b).

Definition upd {A} (f : id -> A) (i : id) (v : A) : id -> A :=
  fun j => if j =? i then v else f j.

Definition inb (i : id) (l : list id) : bool := existsb (Nat.eqb i) l.
Fixpoint rm (i : id) (l : list id) : list id :=
  match l with [] => [] | x :: r => if x =? i then rm i r else x :: rm i r end.

(** graph.h:77-95 struct graph and the node fields of graph.h:58-75 that the
    scheduler uses. The edge lists of all nodes are one list. *)
Record graph := {
  plist : list id;
  node_list : list id;
  edges : list edge;
  state : id -> nstate;
  trans : id -> transient;
  expanded : id -> bool;
}.

Definition out_edges (g : graph) (n : id) : list edge := filter (fun e => src e =? n) (edges g).
Definition has_incoming (g : graph) (n : id) : bool := existsb (fun e => dst e =? n) (edges g).

(** bsd/queue.h LIST_REMOVE on both lists (graph.c:226-231 remove_edge):
    one edge object. *)
Fixpoint remove_edge (e : edge) (l : list edge) : list edge :=
  match l with
  | [] => []
  | x :: r => if edge_eqb x e then r else x :: remove_edge e r
  end.

(** graph.c:88-128 node_insert_head / node_remove_list on the two lists.
    [None] is the "tup internal error" return of -1. A node is on at most one
    list; "already in a list" is detected by looking at both. *)
Definition to_plist_head (g : graph) (n : id) : option graph :=
  if inb n (plist g) || inb n (node_list g) then None else
  Some {| plist := n :: plist g; node_list := node_list g; edges := edges g;
          state := state g; trans := trans g; expanded := expanded g |}.
Definition to_nodes_head (g : graph) (n : id) : option graph :=
  if inb n (plist g) || inb n (node_list g) then None else
  Some {| plist := plist g; node_list := n :: node_list g; edges := edges g;
          state := state g; trans := trans g; expanded := expanded g |}.
Definition to_nodes_tail (g : graph) (n : id) : option graph :=
  if inb n (plist g) || inb n (node_list g) then None else
  Some {| plist := plist g; node_list := node_list g ++ [n]; edges := edges g;
          state := state g; trans := trans g; expanded := expanded g |}.
Definition off_plist (g : graph) (n : id) : option graph :=
  if inb n (plist g) then
    Some {| plist := rm n (plist g); node_list := node_list g; edges := edges g;
            state := state g; trans := trans g; expanded := expanded g |}
  else None.
Definition off_nodes (g : graph) (n : id) : option graph :=
  if inb n (node_list g) then
    Some {| plist := plist g; node_list := rm n (node_list g); edges := edges g;
            state := state g; trans := trans g; expanded := expanded g |}
  else None.
Definition set_state (g : graph) (n : id) (s : nstate) : graph :=
  {| plist := plist g; node_list := node_list g; edges := edges g;
     state := upd (state g) n s; trans := trans g; expanded := expanded g |}.
Definition set_trans (g : graph) (n : id) (t : transient) : graph :=
  {| plist := plist g; node_list := node_list g; edges := edges g;
     state := state g; trans := upd (trans g) n t; expanded := expanded g |}.
Definition set_edges (g : graph) (es : list edge) : graph :=
  {| plist := plist g; node_list := node_list g; edges := es;
     state := state g; trans := trans g; expanded := expanded g |}.

Definition obind {A C} (o : option A) (f : A -> option C) : option C :=
  match o with Some a => f a | None => None end.

Definition is_processing (s : nstate) : bool := match s with Processing => true | _ => false end.
Definition is_tproc (t : transient) : bool := match t with TProcessing => true | _ => false end.

(** updater.c:1815-1839, the loop of [pop_node] over the node's edges. *)
Fixpoint pop_edges (g : graph) (n : id) (es : list edge) : option graph :=
  match es with
  | [] => Some g
  | e :: r =>
    obind (if is_processing (state g (dst e)) then Some g else
             obind (off_nodes g (dst e)) (fun g1 =>
             obind (to_plist_head g1 (dst e)) (fun g2 =>
             Some (set_state g2 (dst e) Processing)))) (fun g1 =>
    let es1 := if is_tproc (trans g1 n)
               then {| src := dst e; dst := n; normal := true |} :: edges g1 else edges g1 in
    pop_edges (set_edges g1 (remove_edge e es1)) n r)
  end.

(** updater.c:1812-1860 [pop_node]. A removed node is on no list and has no
    edges. *)
Definition pop_node (g : graph) (n : id) : option graph :=
  let es := out_edges g n in
  obind (pop_edges g n es) (fun g1 =>
  if is_tproc (trans g1 n) then
    obind (match es with [] => to_plist_head g1 n | _ => to_nodes_head g1 n end) (fun g2 =>
    Some (set_trans (set_state g2 n Finished) n TDelete))
  else Some g1).

(** What an observer of the worker threads sees. *)
Inductive event := Start (n : id) | Finish (n : id) (ok : bool).

(** Where the main thread is: at the [while] of updater.c:1927, at the [while]
    of updater.c:1977 (check_empties), returned, or dereferencing an empty
    free list. *)
Inductive pc := Loop | Check | Returned (rc : Z) | Crashed.

Section Exec.
(** The worker function (updater.c wt->fn) acts on a shared state [WS] and may
    read the graph. It is run to completion by the worker; its accesses to
    shared state are under db_mutex, so its effect is one atomic step taken at
    completion. *)
Context {WS : Type}.
Variable work : graph -> id -> WS -> WS -> bool -> Prop.
Variable keep_going : bool.

Record exec := {
  gr : graph;
  free : nat;                  (* length of free_list *)
  running : list id;           (* wt->n of the workers on active_list *)
  fin : list (id * bool);      (* wt->retn, wt->rc of fin_list *)
  active : nat;
  failed : nat;
  dead : bool;                 (* server_is_dead() *)
  at_ : pc;
  ws : WS;
  hist : list event;           (* newest first *)
}.

Definition set_pc (s : exec) (p : pc) : exec :=
  {| gr := gr s; free := free s; running := running s; fin := fin s; active := active s;
     failed := failed s; dead := dead s; at_ := p; ws := ws s; hist := hist s |}.
Definition set_gr (s : exec) (g : graph) : exec :=
  {| gr := g; free := free s; running := running s; fin := fin s; active := active s;
     failed := failed s; dead := dead s; at_ := at_ s; ws := ws s; hist := hist s |}.

(** A graph operation that fails makes execute_graph return -2. *)
Definition with_graph (s : exec) (o : option graph) (p : pc) : exec :=
  match o with Some g => set_pc (set_gr s g) p | None => set_pc s (Returned (-2)) end.

Definition nil {A} (l : list A) : bool := match l with [] => true | _ => false end.

(** updater.c:1927 loop condition. *)
Definition loop_cond (s : exec) : bool :=
  negb (nil (plist (gr s))) && negb (dead s) && ((failed s =? 0) || keep_going).

(** updater.c:1977-1978 check_empties condition. *)
Definition check_cond (s : exec) : bool :=
  (free s =? 0) ||
  ((nil (plist (gr s)) || dead s || (negb (failed s =? 0) && negb keep_going)) && negb (active s =? 0)).

(** updater.c:2004-2019 the return value. *)
Definition final_rc (s : exec) : Z :=
  if dead s then (-1)%Z
  else if negb (failed s =? 0) then (-1)%Z
  else if negb (nil (node_list (gr s))) || negb (nil (plist (gr s))) then (-1)%Z
  else 0%Z.

(** updater.c:1927-1972: one iteration of the loop body for the first node of
    plist, up to check_empties. *)
Definition loop_body (s : exec) (n : id) : exec :=
  let g := gr s in
  if has_incoming g n then
    with_graph s (obind (off_plist g n) (fun g1 =>
                  obind (to_nodes_head g1 n) (fun g2 => Some (set_state g2 n Finished)))) Check
  else if negb (expanded g n) then
    with_graph s (obind (off_plist g n) (fun g1 => pop_node g1 n)) Check
  else
    match off_plist g n with
    | None => set_pc s (Returned (-2))
    | Some g1 =>
      match free s with
      | O => set_pc s Crashed     (* LIST_FIRST of an empty list, dereferenced *)
      | S f => {| gr := g1; free := f; running := n :: running s; fin := fin s;
                  active := S (active s); failed := failed s; dead := dead s; at_ := Check;
                  ws := ws s; hist := Start n :: hist s |}
      end
    end.

(** updater.c:1979-2000: take one finished worker. *)
Definition reap (s : exec) (n : id) (ok : bool) (rest : list (id * bool)) : exec :=
  let s1 := {| gr := gr s; free := S (free s); running := running s; fin := rest;
               active := pred (active s); failed := if ok then failed s else S (failed s);
               dead := dead s; at_ := Check; ws := ws s; hist := hist s |} in
  if ok then with_graph s1 (pop_node (gr s) n) Check
  else with_graph s1 (to_nodes_tail (gr s) n) Check.

Inductive step : exec -> exec -> Prop :=
| S_loop s n p : at_ s = Loop -> loop_cond s = true -> plist (gr s) = n :: p ->
    step s (loop_body s n)
| S_return s : at_ s = Loop -> loop_cond s = false -> step s (set_pc s (Returned (final_rc s)))
| S_reap s n ok r : at_ s = Check -> check_cond s = true -> fin s = (n, ok) :: r ->
    step s (reap s n ok r)
| S_check s : at_ s = Check -> check_cond s = false -> step s (set_pc s Loop)
(* updater.c:2067-2082 run_thread: a worker finishes; worker_ret puts it at the
   head of fin_list. Also after the main thread has returned from the loop:
   it joins the workers. *)
| S_worker s n l r ws' ok : running s = l ++ n :: r -> work (gr s) n (ws s) ws' ok ->
    step s {| gr := gr s; free := free s; running := l ++ r; fin := (n, ok) :: fin s;
              active := active s; failed := failed s; dead := dead s; at_ := at_ s;
              ws := ws'; hist := Finish n ok :: hist s |}
(* A signal. *)
| S_kill s : dead s = false -> step s {| gr := gr s; free := free s; running := running s; fin := fin s;
              active := active s; failed := failed s; dead := true; at_ := at_ s;
              ws := ws s; hist := hist s |}.

(** updater.c:1884-1920: the workers are free, the root (first of node_list)
    is popped. *)
Definition start (jobs : nat) (g : graph) (w : WS) : exec :=
  let s := {| gr := g; free := jobs; running := []; fin := []; active := 0; failed := 0;
              dead := false; at_ := Loop; ws := w; hist := [] |} in
  match node_list g with
  | [] => set_pc s Crashed
  | r :: _ => with_graph s (obind (off_nodes g r) (fun g1 => pop_node g1 r)) Loop
  end.

Inductive steps : exec -> exec -> Prop :=
| steps_refl s : steps s s
| steps_step s s' s'' : steps s s' -> step s' s'' -> steps s s''.

End Exec.
