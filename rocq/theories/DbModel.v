(** Model of the node and link tables (src/tup/db.c, create_name_file.c,
    delete_name_file.c). SQL errors are not modelled. The table group_link, used only to
    look for circles between groups, is left out. *)
From Verif Require Import Base ConfigModel.

(** db_types.h:28-38 *)
Inductive ntype := TFile | TCmd | TDir | TVar | TGenerated | TGhost | TGroup | TGeneratedDir | TRoot.
Definition ntype_eqb (a b : ntype) : bool :=
  match a, b with
  | TFile, TFile | TCmd, TCmd | TDir, TDir | TVar, TVar | TGenerated, TGenerated
  | TGhost, TGhost | TGroup, TGroup | TGeneratedDir, TGeneratedDir | TRoot, TRoot => true
  | _, _ => false
  end.

(** A row of the table node. [src] is srcid, none for the negative values. *)
Record node := { dir : nat; kind : ntype; src : option nat; nname : bytes; time : Z }.

(** normal_link and sticky_link hold (from_id, to_id); the lists hold ids. *)
Record db := { nodes : list (nat * node); normal : list (nat * nat); sticky : list (nat * nat);
  modify : list nat; create : list nat; config : list nat }.

Fixpoint assoc (x : nat) (l : list (nat * node)) : option node :=
  match l with [] => None | (y, n) :: t => if x =? y then Some n else assoc x t end.
Definition lookup (d : db) (x : nat) : option node := assoc x (nodes d).

Definition with_nodes (d : db) (ns : list (nat * node)) : db :=
  {| nodes := ns; normal := normal d; sticky := sticky d; modify := modify d; create := create d; config := config d |}.
Definition with_links (d : db) (nl sl : list (nat * nat)) : db :=
  {| nodes := nodes d; normal := nl; sticky := sl; modify := modify d; create := create d; config := config d |}.
(** "insert or ignore into ..." *)
Definition add_modify (l : list nat) (d : db) : db :=
  {| nodes := nodes d; normal := normal d; sticky := sticky d; modify := l ++ modify d; create := create d; config := config d |}.
Definition add_create (l : list nat) (d : db) : db :=
  {| nodes := nodes d; normal := normal d; sticky := sticky d; modify := modify d; create := l ++ create d; config := config d |}.
Definition add_config (l : list nat) (d : db) : db :=
  {| nodes := nodes d; normal := normal d; sticky := sticky d; modify := modify d; create := create d; config := l ++ config d |}.
(** "update node set ... where id=?" *)
Definition update_node (x : nat) (f : node -> node) (d : db) : db :=
  with_nodes d (map (fun p => if fst p =? x then (fst p, f (snd p)) else p) (nodes d)).
Definition set_kind (k : ntype) (n : node) : node := {| dir := dir n; kind := k; src := src n; nname := nname n; time := time n |}.
Definition set_src (s : option nat) (n : node) : node := {| dir := dir n; kind := kind n; src := s; nname := nname n; time := time n |}.
Definition set_time (t : Z) (n : node) : node := {| dir := dir n; kind := kind n; src := src n; nname := nname n; time := t |}.

(** Link queries: "select from_id from normal_link where to_id=?" and so on. *)
Definition froms (l : list (nat * nat)) (x : nat) : list nat := map fst (filter (fun p => snd p =? x) l).
Definition tos (l : list (nat * nat)) (x : nat) : list nat := map snd (filter (fun p => fst p =? x) l).
Definition has_kind (d : db) (ks : list ntype) (y : nat) : bool :=
  match lookup d y with Some n => existsb (ntype_eqb (kind n)) ks | None => false end.
Definition is_some {A} (o : option A) : bool := match o with Some _ => true | None => false end.
Definition src_is (x : nat) (n : node) : bool := match src n with Some s => s =? x | None => false end.

(** Ghosts. *)

(** entry.c:631-640 tup_entry_add_ghost_tree; a queue is a set of ids in their
    order. An id that is not in the table is an error. *)
Definition ghostly (k : ntype) : bool :=
  match k with TGhost | TGroup | TGeneratedDir => true | _ => false end.
Fixpoint insert (x : nat) (q : list nat) : list nat :=
  match q with
  | [] => [x]
  | y :: t => if x <? y then x :: q else if x =? y then q else y :: insert x t
  end.
Definition remove_id (x : nat) (q : list nat) : list nat := filter (fun y => negb (y =? x)) q.
Definition queue_add (d : db) (x : nat) (q : list nat) : option (list nat) :=
  match lookup d x with
  | Some n => Some (if ghostly (kind n) then insert x q else q)
  | None => None
  end.
Fixpoint queue_all (d : db) (l : list nat) (q : list nat) : option (list nat) :=
  match l with
  | [] => Some q
  | x :: t => match queue_add d x q with Some q' => queue_all d t q' | None => None end
  end.

(** db.c:6994-7047 node_has_ghosts, and ghost_reclaimable1 (7346-7403) negated:
    "select 1 from node where dir=? or srcid=?" *)
Definition node_has_ghosts (d : db) (x : nat) : bool := existsb (fun p => (dir (snd p) =? x) || src_is x (snd p)) (nodes d).

(** db.c:7150-7177 ghost_reclaimable with its queries (7179-7455). [excl] is the
    directory of exclusions. *)
Definition ghost_reclaimable (d : db) (excl x : nat) (n : node) : bool :=
  if dir n =? excl then negb (existsb (fun p => snd p =? x) (normal d))
  else match kind n with
       | TGhost | TGeneratedDir => negb (node_has_ghosts d x) && negb (existsb (fun p => fst p =? x) (normal d))
       | _ => negb (existsb (fun p => (fst p =? x) || (snd p =? x)) (normal d)) && negb (existsb (fun p => fst p =? x) (sticky d))
       end.

(** db.c:3680-3693 flag_group_users: "insert into create_list select dir from node
    where id in (...)" *)
Definition dirs_of (d : db) (l : list nat) : list nat :=
  flat_map (fun y => match lookup d y with Some n => [dir n] | None => [] end) l.
Definition flag_group_users (d : db) (x : nat) : db :=
  if has_kind d [TGroup] x then add_create (dirs_of d (tos (sticky d) x) ++ dirs_of d (froms (normal d) x)) d else d.

(** db.c:3695-3709 tup_db_delete_links with add_ghost_checks and
    add_group_and_exclusion_checks (7049-7073): the queue gets the inputs and the outputs. *)
Definition drop_links (x : nat) (l : list (nat * nat)) : list (nat * nat) := filter (fun p => negb ((fst p =? x) || (snd p =? x))) l.
Definition delete_links (d : db) (x : nat) (q : list nat) : option (db * list nat) :=
  match queue_all d (froms (normal d) x ++ tos (normal d) x) q with
  | Some q' => let d' := flag_group_users d x in Some (with_links d' (drop_links x (normal d')) (drop_links x (sticky d')), q')
  | None => None
  end.

(** db.c:1530-1580 tup_db_delete_node. The removal of a generated directory from the
    disk is not repeated here (it does not fail if it is missing). *)
Definition delete_node (d : db) (x : nat) (q : list nat) : option (db * list nat) :=
  match lookup d x with
  | None => None
  | Some n =>
      match match src n with Some s => queue_add d s q | None => Some q end with
      | None => None
      | Some q1 =>
          if node_has_ghosts d x then
            let d1 := if ntype_eqb (kind n) TDir then add_create [x] d else d in
            Some (update_node x (fun n => set_src None (set_kind TGhost n)) d1, q1)
          else
            (* the parent is taken before the node is deleted *)
            match queue_add d (dir n) q1 with
            | Some q2 => Some (with_nodes d (filter (fun p => negb (fst p =? x)) (nodes d)), q2)
            | None => None
            end
      end
  end.

(** delete_name_file.c:29-46; variant_list and transient_list are not modelled. *)
Definition unflag (x : nat) (d : db) : db :=
  {| nodes := nodes d; normal := normal d; sticky := sticky d; modify := remove_id x (modify d); create := remove_id x (create d); config := remove_id x (config d) |}.
Definition delete_name_file (d : db) (x : nat) (q : list nat) : option (db * list nat) :=
  match delete_links (unflag x d) x q with
  | Some (d', q') => delete_node d' x q'
  | None => None
  end.

(** db.c:7080-7148 reclaim_ghosts. [rmdir] tells whether the directory can be
    removed from the disk. *)
Section Reclaim.
  Variable excl : nat.
  Variable rmdir : nat -> bool.

  Fixpoint reclaim (fuel : nat) (d : db) (q tmp : list nat) : outcome db :=
    match fuel with
    | 0 => NoFuel
    | S fuel =>
        match q with
        | [] => Ok d
        | x :: q =>
            match lookup d x with
            | None => Bad
            | Some n =>
                if negb (ghostly (kind n)) then Bad
                else
                  let swap d q tmp := match q with [] => reclaim fuel d tmp [] | _ => reclaim fuel d q tmp end in
                  if ghost_reclaimable d excl x n && negb (bytes_eqb (nname n) (B "tup.config")) then
                    match queue_add d (dir n) (remove_id x tmp) with
                    | None => Bad
                    | Some tmp' =>
                        if ntype_eqb (kind n) TGeneratedDir && negb (rmdir x) then Bad
                        else match delete_name_file d x (remove_id (dir n) q) with
                             | None => Bad
                             | Some (d', q') => swap d' q' tmp'
                             end
                    end
                  else swap d q tmp
            end
        end
    end.
End Reclaim.

(** Changed and removed files. *)

(** db.c:4095-4133 tup_db_modify_cmds_by_output *)
Definition modify_cmds_by_output (x : nat) (d : db) : db := add_modify (froms (normal d) x) d.
(** db.c:4135-4181 tup_db_modify_cmds_by_input *)
Definition modify_cmds_by_input (x : nat) (d : db) : db := add_modify (filter (has_kind d [TCmd; TGroup]) (tos (normal d) x)) d.
(** db.c:4183-4240, 4319-4359 tup_db_set_dependent_flags *)
Definition set_dependent_flags (x : nat) (d : db) : db :=
  add_config (filter (has_kind d [TFile]) (tos (normal d) x)) (add_create (filter (has_kind d [TDir]) (tos (normal d) x)) d).

(** create_name_file.c: ghost_to_file *)
Definition ghost_to_file (x : nat) (n : node) (d : db) : db :=
  let d1 := update_node x (set_kind TFile) d in
  add_modify [x] (if has_kind d1 [TDir] (dir n) then add_create [dir n] d1 else d1).

(** create_name_file.c:118-212 tup_file_mod_mtime for a file that is in the
    database as a file, a generated file or a ghost. Other types are first deleted
    (tup_del_id_type) and are not modelled. *)
Definition file_mod (x : nat) (mtime : Z) (force ignore_generated : bool) (d : db) : option db :=
  match lookup d x with
  | None => None
  | Some n =>
      let force := if ignore_generated && ntype_eqb (kind n) TGenerated then false else force in
      let changed := negb (Z.eqb (time n) mtime) || force in
      match kind n with
      | TFile | TGenerated | TGhost =>
          let d1 := if ntype_eqb (kind n) TGhost then ghost_to_file x n d else d in
          let d2 :=
            if changed then
              let d2 := if ntype_eqb (kind n) TGenerated then modify_cmds_by_output x d1 else d1 in
              let d3 := set_dependent_flags x (add_modify [x] d2) in
              update_node x (set_time mtime) d3
            else d1 in
          Some (if changed && bytes_eqb (nname n) (B "tup.config") then add_config [x] d2 else d2)
      | _ => None
      end
  end.

(** create_name_file.c:319-500 tup_del_id_type for files and generated files; the
    result also has the queue of ghosts. [force] is set by the parser and when a
    directory is removed. *)
Definition file_del (x : nat) (force : bool) (d : db) (q : list nat) : option (db * list nat) :=
  match lookup d x with
  | None => None
  | Some n =>
      if bytes_eqb (nname n) (B "tup.config") then Some (add_config [x] (update_node x (set_kind TGhost) d), q)
      else match kind n with
           | TGhost | TGroup => Some (d, q)
           | TFile =>
               let d1 := modify_cmds_by_input x (set_dependent_flags x d) in
               delete_name_file (if force then d1 else add_create [dir n] d1) x q
           | TGenerated =>
               if force then delete_name_file (modify_cmds_by_input x d) x q
               else if bytes_eqb (nname n) (B ".gitignore") then Some (add_create [dir n] d, q)
               else
                 let d1 := modify_cmds_by_output x d in
                 Some ({| nodes := nodes d1; normal := normal d1; sticky := sticky d1; modify := remove_id x (modify d1); create := create d1; config := config d1 |}, q)
           | _ => None
           end
  end.
