(** Model of the directories of variants: variant.c, entry.c:419-453
    tup_entry_variant, updater.c:1156-1255 get_rel_tent and the marking of
    directories, updater.c:1407-1495 process_create_nodes up to build_graph,
    db.c:987-1139 tup_db_create_node_srcid, db.c:1519-1578 tup_db_delete_node,
    db.c:1700-1780 tup_db_delete_variant, updater.c:652-677 cleanup_dir. *)
From Verif Require Import Base DbModel.

(** variant.h:29: srcid is -1, VARIANT_SRCDIR_REMOVED or an id. *)
Inductive srcref := NoSrc | SrcRemoved | Src (s : nat).
(** A row of the node table. The top has no parent. Links and flags of rows are
    not modelled. *)
Record row := { up : option nat; nm : bytes; ty : ntype; srcid : srcref }.
Definition table := list (nat * row).
Fixpoint get (r : table) (x : nat) : option row :=
  match r with [] => None | (y, n) :: t => if x =? y then Some n else get t x end.
Definition up_is (x : nat) (n : row) : bool := match up n with Some p => p =? x | None => false end.
Definition src_is (x : nat) (n : row) : bool := match srcid n with Src s => s =? x | _ => false end.
(** tup_db_select_tent *)
Definition find_in (r : table) (d : nat) (name : bytes) : option nat :=
  option_map fst (find (fun p => up_is d (snd p) && bytes_eqb (nm (snd p)) name) r).
Definition set_row (x : nat) (f : row -> row) (r : table) : table := map (fun p => if fst p =? x then (fst p, f (snd p)) else p) r.
Definition fresh (r : table) : nat := S (fold_right Nat.max 0 (map fst r)).
Definition retype (k : ntype) (n : row) : row := {| up := up n; nm := nm n; ty := k; srcid := srcid n |}.
Definition resrc (s : srcref) (n : row) : row := {| up := up n; nm := nm n; ty := ty n; srcid := s |}.

(** db.c:1519-1578 tup_db_delete_node: a row that others refer to becomes a
    ghost. The reclaiming of ghosts afterwards is C17. *)
Definition has_ghosts (r : table) (x : nat) : bool := existsb (fun p => up_is x (snd p) || src_is x (snd p)) r.
Definition delete_row (x : nat) (r : table) : table :=
  if has_ghosts r x then set_row x (fun n => resrc NoSrc (retype TGhost n)) r else filter (fun p => negb (fst p =? x)) r.

(** The table, the names on the disk (each with the row of its directory; what
    kind of file it is is not modelled), the nodes of the graph on plist and
    removing_list. *)
Record state := { tbl : table; disk : list (nat * bytes); plist : list nat; removing : list nat }.
Definition with_tbl (s : state) (r : table) : state := {| tbl := r; disk := disk s; plist := plist s; removing := removing s |}.

(** db.c:999-1139 for TUP_NODE_DIR with a srcid: the entry, whether it is new.
    The flags it sets, and disabling the variant of a directory that was a ghost
    (db.c:1059-1063), are left out. *)
Definition new_dir (d : nat) (name : bytes) (s : nat) (r : table) : nat * bool * table :=
  match find_in r d name with
  | Some x => (x, true, set_row x (fun n => resrc (Src s) (retype TDir n)) r)
  | None => (fresh r, true, (fresh r, {| up := Some d; nm := name; ty := TDir; srcid := Src s |}) :: r)
  end.
Definition create_dir (d : nat) (name : bytes) (s : nat) (r : table) : nat * bool * table :=
  match find_in r d name with
  | None => new_dir d name s r
  | Some x =>
      match option_map ty (get r x) with
      | Some TDir | Some TGeneratedDir => (x, false, set_row x (resrc (Src s)) r)
      | Some TGhost => new_dir d name s r
      | _ => new_dir d name s (delete_row x r)
      end
  end.
Definition entry_eqb (a b : nat * bytes) : bool := (fst a =? fst b) && bytes_eqb (snd a) (snd b).
(** mkdirat; EEXIST is no error. *)
Definition mkdir (a : nat * bytes) (d : list (nat * bytes)) : list (nat * bytes) := if existsb (entry_eqb a) d then d else a :: d.
Definition erase (a : nat * bytes) (d : list (nat * bytes)) : list (nat * bytes) := filter (fun b => negb (entry_eqb a b)) d.

(** updater.c:1156-1220 get_rel_tent with do_mkdirs; [None]: not enough fuel. *)
Fixpoint get_rel (fuel : nat) (base t : nat) (s : state) : option (nat * state) :=
  match fuel with
  | 0 => None
  | S fuel =>
      match get (tbl s) t with
      | None => None
      | Some n =>
          match up n with
          | None => Some (base, s)
          | Some p =>
              match get_rel fuel base p s with
              | None => None
              | Some (d, s) =>
                  let '(r, k) :=
                    match find_in (tbl s) d (nm n) with
                    | Some x =>
                        match option_map ty (get (tbl s) x) with
                        | Some TGenerated => (delete_row x (tbl s), erase (d, nm n) (disk s))
                        | Some TGeneratedDir => (set_row x (retype TDir) (tbl s), disk s)
                        | _ => (tbl s, disk s)
                        end
                    | None => (tbl s, disk s)
                    end in
                  let '(x, changed, r) := create_dir d (nm n) t r in
                  Some (x, {| tbl := r; disk := if changed then mkdir (d, nm n) k else k; plist := plist s; removing := removing s |})
              end
          end
      end
  end.

Section Create.
Variable top : nat.                    (* DOT_DT *)
Variable variants : list nat.          (* the directories of the variants that are not the root variant *)
Variable fuel : nat.

(** entry.c:419-453 without the caching: none for the root variant. *)
Fixpoint variant_of (fuel : nat) (r : table) (x : nat) : option (option nat) :=
  match fuel with
  | 0 => None
  | S fuel =>
      if existsb (Nat.eqb x) variants then Some (Some x)
      else match get r x with
           | Some n => match up n with Some p => variant_of fuel r p | None => Some None end
           | None => None
           end
  end.

(** graph.c:278-322, 378-391: a new node goes to the head of the plist. *)
Definition build_graph_cb (x : nat) (s : state) : state :=
  if existsb (Nat.eqb x) (plist s) || existsb (Nat.eqb x) (removing s) then s
  else {| tbl := tbl s; disk := disk s; plist := x :: plist s; removing := removing s |}.
(** updater.c:1245-1255. The directories that depend on it, which are added to the
    graph too, are left out: they are only parsed. *)
Definition mark (x : nat) (s : state) : state :=
  {| tbl := tbl s; disk := disk s; plist := filter (fun y => negb (y =? x)) (plist s); removing := removing s ++ [x] |}.

(** updater.c:1431-1450 *)
Fixpoint mirror_all (vs : list nat) (x : nat) (s : state) : option state :=
  match vs with
  | [] => Some s
  | v :: vs => match get_rel fuel v x s with Some (m, s) => mirror_all vs x (build_graph_cb m s) | None => None end
  end.

(** db.c:5349-5360 is_virtual_tent *)
Definition virtual (n : row) : bool :=
  up_is top n && (bytes_eqb (nm n) (B "$") || bytes_eqb (nm n) (B "/") || bytes_eqb (nm n) (B "^")).

(** updater.c:1407-1484: one node. Generated files of ghosts are C56. *)
Definition visit (x : nat) (s : state) : option state :=
  match get (tbl s) x with
  | None => None
  | Some n =>
      if negb (ntype_eqb (ty n) TDir) then Some s
      else if virtual n then Some s
      else match variant_of fuel (tbl s) x with
           | None => None
           | Some None => mirror_all variants x s
           | Some (Some _) =>
               match srcid n with
               | NoSrc => Some s
               | SrcRemoved => Some (mark x s)
               | Src y =>
                   match get (tbl s) y with
                   | None => None
                   | Some m => Some (if negb (ntype_eqb (ty m) TDir) || (negb (y =? top) && negb (bytes_eqb (nm m) (nm n))) then mark x s else s)
                   end
               end
           end
  end.
(** TAILQ_FOREACH_SAFE over the plist: what is added at its head is not visited. *)
Fixpoint visit_all (l : list nat) (s : state) : option state :=
  match l with
  | [] => Some s
  | x :: l => match visit x s with Some s => visit_all l s | None => None end
  end.

(** unlinkat on a name of the directory [d]; with AT_REMOVEDIR it fails if
    something is in the directory. *)
Definition unlink (a : nat * bytes) (s : state) : state := {| tbl := tbl s; disk := erase a (disk s); plist := plist s; removing := removing s |}.
Definition rmdir (x : nat) (a : nat * bytes) (s : state) : option state :=
  if existsb (fun b => fst b =? x) (disk s) then None else Some (unlink a s).
(** updater.c:1222-1243 rm_variant_dir_cb *)
Definition leave (x : nat) (s : state) : state :=
  {| tbl := tbl s; disk := disk s; plist := filter (fun y => negb (y =? x)) (plist s); removing := filter (fun y => negb (y =? x)) (removing s) |}.
Definition drop_row (x : nat) (s : state) : state := with_tbl s (delete_row x (tbl s)).

(** db.c:1700-1766 delete_variant_dir. A directory that is not there any more
    (ENOENT) is no error; that tup_db_delete_dir is called for it is left out. *)
Fixpoint delete_dir (fuel : nat) (x : nat) (s : state) : option state :=
  match fuel with
  | 0 => None
  | S fuel =>
      (fix each (l : list (nat * row)) (s : state) : option state :=
         match l with
         | [] => Some s
         | (y, n) :: l =>
             let o := match ty n with
                      | TDir => match delete_dir fuel y s with Some s => rmdir y (x, nm n) s | None => None end
                      | TGenerated => Some (unlink (x, nm n) s)
                      | _ => Some s
                      end in
             match o with Some s => each l (drop_row y s) | None => None end
         end) (filter (fun p => up_is x (snd p)) (tbl s)) (leave x s)
  end.
(** updater.c:652-677 cleanup_dir: here ENOENT is an error. *)
Definition cleanup_dir (x : nat) (s : state) : option state :=
  match get (tbl s) x with
  | Some n =>
      match up n with
      | Some d =>
          if existsb (entry_eqb (d, nm n)) (disk s) then
            match rmdir x (d, nm n) s with Some s => Some (drop_row x s) | None => None end
          else None
      | None => None
      end
  | None => None
  end.
(** updater.c:1486-1495 *)
Fixpoint remove_all (n : nat) (s : state) : option state :=
  match n with
  | 0 => None
  | S n =>
      match removing s with
      | [] => Some s
      | x :: _ =>
          match delete_dir fuel x s with
          | None => None
          | Some s => match cleanup_dir x s with Some s => remove_all n s | None => None end
          end
      end
  end.

(** updater.c:1407-1495. [flagged]: the create list, in the order of the plist. *)
Definition create_dirs (n : nat) (flagged : list nat) (r : table) (d : list (nat * bytes)) : option state :=
  match visit_all flagged {| tbl := r; disk := d; plist := flagged; removing := [] |} with
  | Some s => remove_all n s
  | None => None
  end.
End Create.
