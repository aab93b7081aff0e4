(** What a rule leaves in the database about its command: outputs, groups and
    declared inputs (db.c), and the command itself (parser.c), with the
    refactoring mode of both. *)
From Verif Require Import Base ExecModel GraphModel TentModel.

Section links.
Variable kind_of : id -> kind.
(** tent->dt == local_exclusion_dt: the entries for output exclusions. *)
Variable excl : id -> bool.
(** The command. *)
Variable c : id.

(** The rows about the command: normal_link with to_id = c, sticky_link with
    to_id = c (tent->stickies, once read, follows these rows), normal_link with
    from_id = c, normal_link from files to groups, group_link with cmdid = c;
    modify_list, transient_list and ghost_root; [poked]: the files whose readers
    were flagged (tup_db_modify_cmds_by_input). *)
Record rows := { nin : list id; stk : list id; outs : list id; member : list (id * id); glinks : list (id * id);
                 modlist : list id; translist : list id; ghostq : list id; poked : list id }.
Definition set_nin r l := {| nin := l; stk := stk r; outs := outs r; member := member r; glinks := glinks r; modlist := modlist r; translist := translist r; ghostq := ghostq r; poked := poked r |}.
Definition set_stk r l := {| nin := nin r; stk := l; outs := outs r; member := member r; glinks := glinks r; modlist := modlist r; translist := translist r; ghostq := ghostq r; poked := poked r |}.
Definition set_outs r l := {| nin := nin r; stk := stk r; outs := l; member := member r; glinks := glinks r; modlist := modlist r; translist := translist r; ghostq := ghostq r; poked := poked r |}.
Definition set_member r l := {| nin := nin r; stk := stk r; outs := outs r; member := l; glinks := glinks r; modlist := modlist r; translist := translist r; ghostq := ghostq r; poked := poked r |}.
Definition set_glinks r l := {| nin := nin r; stk := stk r; outs := outs r; member := member r; glinks := l; modlist := modlist r; translist := translist r; ghostq := ghostq r; poked := poked r |}.
(** tup_db_add_modify_list, tup_db_add_transient_list ("insert or replace"),
    tup_entry_add_ghost_tree (entry.c:631-639; tent_tree_add_dup). *)
Definition put (x : id) (l : list id) : list id := if inb x l then l else x :: l.
Definition mark x r := {| nin := nin r; stk := stk r; outs := outs r; member := member r; glinks := glinks r; modlist := put x (modlist r); translist := translist r; ghostq := ghostq r; poked := poked r |}.
Definition mark_transient x r := {| nin := nin r; stk := stk r; outs := outs r; member := member r; glinks := glinks r; modlist := modlist r; translist := put x (translist r); ghostq := ghostq r; poked := poked r |}.
Definition poke x r := {| nin := nin r; stk := stk r; outs := outs r; member := member r; glinks := glinks r; modlist := modlist r; translist := translist r; ghostq := ghostq r; poked := put x (poked r) |}.
Definition ghost_check x r :=
  match kind_of x with
  | KGhost | KGroup => {| nin := nin r; stk := stk r; outs := outs r; member := member r; glinks := glinks r; modlist := modlist r; translist := translist r; ghostq := put x (ghostq r); poked := poked r |}
  | _ => r
  end.

(** db.c:6691-6852 link_insert and link_remove, 6854-6955 group_link_insert and
    group_link_remove. The tables have unique rows; a row that is there already is an
    error. *)
Definition inp (p : id * id) (l : list (id * id)) : bool := existsb (fun q => (fst q =? fst p) && (snd q =? snd p)) l.
Definition pair_insert (p : id * id) (l : list (id * id)) : option (list (id * id)) :=
  if (fst p =? snd p) || (fst p =? 0) || (snd p =? 0) || inp p l then None else Some (p :: l).
Definition pair_remove (p : id * id) (l : list (id * id)) : list (id * id) := filter (fun q => negb ((fst q =? fst p) && (snd q =? snd p))) l.
Definition ins (x : id) (l : list id) : option (list id) := if (x =? c) || (x =? 0) || inb x l then None else Some (x :: l).
Definition del (x : id) (l : list id) : list id := filter (fun y => negb (y =? x)) l.
Definition insert_normal x r := obind (ins x (nin r)) (fun l => Some (set_nin r l)).
Definition insert_sticky x r := obind (ins x (stk r)) (fun l => Some (set_stk r l)).
Definition insert_out x r := obind (ins x (outs r)) (fun l => Some (set_outs r l)).
Definition insert_member x g r := obind (pair_insert (x, g) (member r)) (fun l => Some (set_member r l)).
Definition insert_glink a b r := obind (pair_insert (a, b) (glinks r)) (fun l => Some (set_glinks r l)).

(** RB_FOREACH with a body that may fail. *)
Fixpoint each_entry {S} (f : id -> S -> option S) (l : list id) (s : S) : option S :=
  match l with [] => Some s | x :: l => obind (f x s) (each_entry f l) end.

(** db.c:5469-5512 tup_db_get_outputs: outputs, exclusions and the group. *)
Fixpoint get_outputs (l o e : list id) (g : option id) : option (list id * list id * option id) :=
  match l with
  | [] => Some (o, e, g)
  | x :: l =>
      if is_group (kind_of x) then match g with None => get_outputs l o e (Some x) | Some _ => None end
      else if excl x then obind (tree_add e x) (fun e => get_outputs l o e g)
      else obind (tree_add o x) (fun o => get_outputs l o e g)
  end.

(** db.c:6276-6330 add_output and rm_output; the pair is the database and
    pod->outputs_differ. *)
Definition add_output (refac : bool) (group : option id) (x : id) (s : rows * bool) : option (rows * bool) :=
  if refac then Some (fst s, true)
  else
    obind (insert_out x (fst s)) (fun r =>
    obind (match group with Some g => insert_member x g r | None => Some r end) (fun r => Some (r, true))).
Definition rm_output (refac : bool) (group : option id) (x : id) (s : rows * bool) : option (rows * bool) :=
  if refac then Some (fst s, true)
  else
    let r := set_outs (fst s) (del x (outs (fst s))) in
    let r := match group with Some g => set_member r (pair_remove (x, g) (member r)) | None => r end in
    Some (match kind_of x with KGhost => ghost_check x r | _ => r end, true).

Definition opt_eqb (a b : option id) : bool :=
  match a, b with Some x, Some y => x =? y | None, None => true | _, _ => false end.

(** db.c:6388-6408: the old outputs leave the old group; their readers are
    flagged. *)
Definition leave (og : id) (l : list id) (r : rows) : rows := fold_left (fun r x => poke x (set_member r (pair_remove (x, og) (member r)))) l r.

(** db.c:6356-6419 the first part of tup_db_write_outputs: a change of the group.
    The results are the database, pod.outputs_differ and pod.group. The messages of
    a refactoring are left out. *)
Definition change_group (root : list id) (group old_group : option id) (old_outputs : list id) (modified : bool) (r : rows) : option (rows * bool * option id) :=
  if opt_eqb old_group group then Some (r, modified, group)
  else
    obind (match group with
           | Some g => obind (each_entry (fun x => insert_member x g) root r) (insert_out g)
           | None => Some r
           end) (fun r =>
    Some (match old_group with
          | Some og =>
              let r := leave og old_outputs r in
              ghost_check og (mark og (set_outs r (del og (outs r))))
          | None => r
          end, true, None)).

(** db.c:6332-6442 tup_db_write_outputs: the old group and the database.
    [transient]: is_transient_tent(cmdtent). *)
Definition write_outputs (root exclusions : list id) (group : option id) (refac modified transient : bool) (r : rows) : option (option id * rows) :=
  obind (get_outputs (outs r) [] [] None) (fun old =>
  let '(old_outputs, old_exclusions, old_group) := old in
  obind (change_group root group old_group old_outputs modified r) (fun s =>
  let '(r, differ, pod_group) := s in
  obind (compare_tent_trees (Some (rm_output refac pod_group)) (Some (add_output refac pod_group)) old_outputs root (r, differ)) (fun s =>
  obind (compare_tent_trees (Some (rm_output refac None)) (Some (add_output refac None)) old_exclusions exclusions s) (fun s =>
  let '(r, differ) := s in
  if differ then
    if refac then None
    else
      let r := mark c r in
      let r := if transient then mark_transient c r else r in
      Some (old_group, match group with Some g => mark g r | None => r end)
  else Some (old_group, r))))).

(** db.c:5899-5908 struct write_input_data: what the callbacks change. *)
Record wid := { w_rows : rows; new_groups : bool; normal_links_invalid : bool; refactoring_failed : bool }.

(** db.c:5910-5942 add_sticky; [groupid] is None for -1. *)
Definition add_sticky (refac : bool) (env : list id) (groupid : option id) (x : id) (w : wid) : option wid :=
  if refac then Some {| w_rows := w_rows w; new_groups := new_groups w; normal_links_invalid := normal_links_invalid w; refactoring_failed := true |}
  else
    obind (match groupid with
           | Some g => if is_group (kind_of x) then obind (insert_glink x g (w_rows w)) (fun r => Some (r, true)) else Some (w_rows w, new_groups w)
           | None => Some (w_rows w, new_groups w)
           end) (fun s =>
    obind (if tree_search env x then obind (insert_normal x (fst s)) (fun r => Some (mark c r)) else Some (fst s)) (fun r =>
    obind (insert_sticky x r) (fun r =>
    Some {| w_rows := r; new_groups := snd s; normal_links_invalid := normal_links_invalid w; refactoring_failed := refactoring_failed w |}))).

(** db.c:5944-5999 rm_sticky. *)
Definition rm_sticky (refac : bool) (groupid : option id) (x : id) (w : wid) : option wid :=
  if refac then Some {| w_rows := w_rows w; new_groups := new_groups w; normal_links_invalid := normal_links_invalid w; refactoring_failed := true |}
  else
    let r := set_stk (w_rows w) (del x (stk (w_rows w))) in
    let r := if inb x (nin r) then mark c (set_nin r (del x (nin r))) else r in
    if is_group (kind_of x) then
      let r := ghost_check x r in
      let r := match groupid with Some g => set_glinks r (pair_remove (x, g) (glinks r)) | None => r end in
      Some {| w_rows := r; new_groups := new_groups w; normal_links_invalid := true; refactoring_failed := refactoring_failed w |}
    else Some {| w_rows := r; new_groups := new_groups w; normal_links_invalid := normal_links_invalid w; refactoring_failed := refactoring_failed w |}.

(** db.c:6001-6070 tup_db_write_inputs; the boolean is wid.new_groups, which
    has the groups checked for cycles (C06). *)
Definition write_inputs (inputs env : list id) (group old_group : option id) (refac : bool) (r : rows) : option (rows * bool) :=
  let same := opt_eqb group old_group in
  let groupid := if same then group else None in
  obind (compare_tent_trees (Some (add_sticky refac env groupid)) (Some (rm_sticky refac groupid)) inputs (fold_left tree_add_dup (stk r) [])
           {| w_rows := r; new_groups := false; normal_links_invalid := false; refactoring_failed := false |}) (fun w =>
  obind (if normal_links_invalid w then each_entry insert_normal env (set_nin (mark c (w_rows w)) []) else Some (w_rows w)) (fun r =>
  obind (if same then Some (r, new_groups w)
         else
           let r := match old_group with Some _ => set_glinks r [] | None => r end in
           match group with
           | Some g =>
               obind (each_entry (fun x r => if is_group (kind_of x) then insert_glink x g r else Some r) inputs r) (fun r => Some (r, true))
           | None => Some (r, new_groups w)
           end) (fun s =>
  if refactoring_failed w then None else Some s))).

(** What a rule declares, after do_rule() has looked up or created the entries:
    outputs, exclusions, group, inputs (with the exported environment) and
    environment. parser.c:3699-3721: the checks and the two calls at the end of
    do_rule. *)
Record declared := { d_outs : list id; d_excl : list id; d_group : option id; d_ins : list id; d_env : list id }.
Definition record_rule (d : declared) (refac modified transient : bool) (r : rows) : option (rows * bool) :=
  if match d_group d with Some g => tree_search (d_ins d) g | None => false end then None
  else if existsb (tree_search (d_ins d)) (d_outs d) then None
  else
    obind (write_outputs (d_outs d) (d_excl d) (d_group d) refac modified transient r) (fun s =>
    write_inputs (d_ins d) (d_env d) (d_group d) (fst s) refac (snd s)).
End links.
