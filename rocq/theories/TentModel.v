(** Sets of entries ordered by id (tent_tree.c) and the checks of a command's
    actual outputs and inputs against the declared ones (db.c). *)
From Verif Require Import Base ExecModel GraphModel.
From Coq Require Import ZArith.

(** Conversion of the 64 bit difference to the [int] that the function returns
    (two's complement wrap-around). *)
Definition to_int (z : Z) : Z := ((z + 2 ^ 31) mod 2 ^ 32 - 2 ^ 31)%Z.

(** tent_tree.c:26-29 tent_tree_cmp. *)
Definition tent_cmp (a b : id) : Z := to_int (Z.of_nat a - Z.of_nat b).

(** tent_tree.c:39-57 tent_tree_add ([None]: duplicate) and 59-73
    tent_tree_add_dup. The red-black tree is the list of its elements in order
    (RB_MIN, RB_NEXT); the search path is a walk along it. *)
Fixpoint tree_add (t : list id) (n : id) : option (list id) :=
  match t with
  | [] => Some [n]
  | x :: r =>
    if (tent_cmp n x <? 0)%Z then Some (n :: t)
    else if (tent_cmp n x =? 0)%Z then None
    else obind (tree_add r n) (fun r' => Some (x :: r'))
  end.
Definition tree_add_dup (t : list id) (n : id) : list id :=
  match tree_add t n with Some t' => t' | None => t end.

(** tent_tree.c:75-81 tent_tree_search. *)
Fixpoint tree_search (t : list id) (n : id) : bool :=
  match t with
  | [] => false
  | x :: r => if (tent_cmp n x <? 0)%Z then false else if (tent_cmp n x =? 0)%Z then true else tree_search r n
  end.

(** db.c:5747-5783 compare_tent_trees. The callbacks work on a state and may
    fail; [None] in their place is a NULL pointer. Two entries are the same
    object if and only if they have the same id (entry.c keeps one entry per
    id). *)
Section Compare.
Context {S : Type}.
Variables extra_a extra_b : option (id -> S -> option S).
Definition call (cb : option (id -> S -> option S)) (x : id) (s : S) : option S :=
  match cb with None => Some s | Some f => f x s end.
Fixpoint compare_tent_trees (a : list id) : list id -> S -> option S :=
  match a with
  | [] => fix go (b : list id) (s : S) : option S :=
      match b with [] => Some s | y :: b' => obind (call extra_b y s) (go b') end
  | x :: a' => fix go (b : list id) (s : S) : option S :=
      match b with
      | [] => obind (call extra_a x s) (compare_tent_trees a' [])
      | y :: b' =>
        if x =? y then compare_tent_trees a' b' s
        else if x <? y then obind (call extra_a x s) (compare_tent_trees a' b)
        else obind (call extra_b y s) (go b')
      end
  end.
End Compare.

Section Db.
Variable kind_of : id -> kind.

(** What is printed about a file, in order. *)
Inductive report :=
| Unspecified (x : id)          (* db.c:5828 *)
| Delete (x : id)               (* db.c:5812, with delete_file() *)
| Reschedule (x : id)           (* db.c:5817, with tup_db_modify_cmds_by_output() *)
| Overwritten (x : id)          (* db.c:5822 *)
| NotWritten (x : id).          (* db.c:5853 *)

(** file.h:37-42 struct mapping. *)
Record mapping := { realname : bytes; tmpname : bytes; mtent : option id }.

(** db.c:5785-5793 struct actual_output_data. *)
Record aod := { err_extra : bool; err_missing : bool; reports : list report; maps : list mapping }.

(** db.c:5835-5845: the first mapping of the entry goes. *)
Fixpoint del_map_of (x : id) (l : list mapping) : list mapping :=
  match l with
  | [] => []
  | m :: r => match mtent m with
              | Some y => if x =? y then r else m :: del_map_of x r
              | None => m :: del_map_of x r
              end
  end.

(** db.c:5795-5849 extra_output. *)
Definition extra_output (do_unlink : bool) (x : id) (d : aod) : option aod :=
  Some {| err_extra := true; err_missing := err_missing d;
          reports := reports d ++
            [if do_unlink then
               match kind_of x with KGhost => Delete x | KGenerated => Reschedule x | _ => Overwritten x end
             else Unspecified x];
          maps := del_map_of x (maps d) |}.

(** db.c:5851-5865 missing_output. *)
Definition missing_output (x : id) (d : aod) : option aod :=
  Some {| err_extra := err_extra d; err_missing := true; reports := reports d ++ [NotWritten x]; maps := maps d |}.

(** db.c:5867-5899 tup_db_check_actual_outputs: write_bork, the reports and the
    remaining mappings. *)
Definition check_actual_outputs (write_root output_root : list id) (ms : list mapping)
    (write_bork do_unlink complain_missing : bool) : option (bool * aod) :=
  obind (compare_tent_trees (Some (extra_output do_unlink)) (if complain_missing then Some missing_output else None)
           write_root output_root {| err_extra := false; err_missing := false; reports := []; maps := ms |})
    (fun d => Some (write_bork || err_extra d || err_missing d, d)).

(** The links to one command in normal_link (db.c:314, unique(from_id, to_id)).
    db.c:6691-6776 link_insert fails for a link from the command to itself and
    for a duplicate; db.c:6778-6836 link_remove. *)
Definition link_insert (cmd x : id) (links_in : list id) : option (list id) :=
  if (x =? cmd) || (x =? 0) || inb x links_in then None else Some (x :: links_in).
Definition link_remove (x : id) (links_in : list id) : list id := rm x links_in.

(** db.c:6072-6080 struct actual_input_data: what the callbacks change. *)
Record aid := {
  missing : list id;            (* missing_input_root *)
  nlinks : list id;             (* normal_link rows with to_id = cmdid *)
  ghosts : list id;             (* additions to ghost_root *)
  important : bool              (* important_link_removed *)
}.

Variable variant_of : id -> option id.   (* None: the root variant *)
Variable cmd : id.
Definition same_variant (x : id) : bool :=
  match variant_of x with
  | None => true
  | Some v => match variant_of cmd with Some w => v =? w | None => false end
  end.

(** db.c:6082-6104 new_input. *)
Definition new_input (output_root : list id) (x : id) (d : aid) : option aid :=
  if tree_search output_root x then Some d
  else if negb (same_variant x) then None
  else if is_generated (kind_of x) then
    obind (tree_add (missing d) x) (fun m =>
    Some {| missing := m; nlinks := nlinks d; ghosts := ghosts d; important := important d |})
  else Some d.

(** db.c:6106-6126 new_normal_link. *)
Definition new_normal_link (output_root : list id) (x : id) (d : aid) : option aid :=
  if tree_search output_root x then Some d
  else if tree_search (missing d) x then Some d
  else if is_cmd (kind_of x) then None
  else obind (link_insert cmd x (nlinks d)) (fun l =>
    Some {| missing := missing d; nlinks := l; ghosts := ghosts d; important := important d |}).

(** db.c:6128-6149 del_normal_link. *)
Definition del_normal_link (sticky_root : list id) (x : id) (d : aid) : option aid :=
  Some {| missing := missing d; nlinks := link_remove x (nlinks d);
          ghosts := if tree_search sticky_root x then ghosts d else x :: ghosts d;
          important := important d || is_generated (kind_of x) |}.

(** The links between the other nodes. *)
Variable links : id -> list id.
Variable transient_ : id -> bool.
Variable root : id.

(** graph.c:644-676 add_file_cb is [build_graph_cb] with nothing counted (the
    fields skip and counted are not used here). graph.c:698-725: the loop of
    nodes_are_connected. *)
Fixpoint connected_loop (fuel : nat) (src : id) (valid : list id) (b : bgraph) : outcome bool :=
  match plist (gr_ b) with
  | [] => Done false
  | cur :: _ =>
    match fuel with
    | O => Timeout
    | S f =>
      if negb (cur =? src) && tree_search valid cur then Done true
      else
        match state (gr_ b) cur with
        | Initialized =>
          then_ (each (fun b n => build_graph_cb kind_of transient_ root (Some KOther) b cur n) b (links cur)) (fun b1 =>
          connected_loop f src valid (with_gr b1 (set_state (gr_ b1) cur Processing)))
        | Processing =>
          then_ (of_option (obind (off_plist (gr_ b) cur) (fun g1 => to_nodes_tail g1 cur))) (fun g =>
          connected_loop f src valid (with_gr b (set_state g cur Finished)))
        | Finished => Internal
        end
    end
  end.

(** graph.c:678-731 nodes_are_connected. *)
Definition nodes_are_connected (fuel : nat) (src : id) (valid : list id) : outcome bool :=
  then_ (build_graph_cb kind_of transient_ root (Some KOther) (create_graph kind_of transient_ root) root src)
    (connected_loop fuel src valid).

(** db.c:6151-6196 check_generated_inputs: [Done l] lists the files that could
    not be connected; the command is rejected if there are any, or if the
    search failed. *)
Fixpoint check_generated_inputs (fuel : nat) (miss valid groups : list id) : outcome (list id) :=
  match miss with
  | [] => Done []
  | x :: r =>
    then_ (if existsb (fun g => inb g (links x)) groups then Done true else nodes_are_connected fuel x valid)
      (fun c => then_ (check_generated_inputs fuel r valid groups) (fun l => Done (if c then l else x :: l)))
  end.

(** db.c:6198-6243 tup_db_check_actual_inputs: [None] for the errors that
    return before the links are updated; otherwise the final state and whether
    the inputs were accepted. The files that were connected have left
    missing_input_root; if the search fails, missing_input_root keeps an
    unspecified part of the files ([partial]). *)
Definition check_actual_inputs (fuel : nat) (partial : list id -> list id)
    (read_root sticky_root normal_root group_root output_root : list id) : option (aid * bool) :=
  obind (compare_tent_trees (Some (new_input output_root)) None read_root sticky_root
           {| missing := []; nlinks := normal_root; ghosts := []; important := false |}) (fun d =>
  let res := check_generated_inputs fuel (missing d) sticky_root group_root in
  let left := match res with Done l => l | _ => partial (missing d) end in
  obind (compare_tent_trees (Some (new_normal_link output_root)) (Some (del_normal_link sticky_root)) read_root normal_root
           {| missing := left; nlinks := nlinks d; ghosts := ghosts d; important := important d |}) (fun d' =>
  Some (d', match res with Done [] => true | _ => false end))).
End Db.
