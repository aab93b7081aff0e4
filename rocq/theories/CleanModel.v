(** Model of the removal of files that no rule makes any more (src/tup/updater.c, parser.c).
    Variants, .gitignore files and the conversion of normal to generated directories
    (updater.c:1551-1593) are left out, and so are the links of the commands that are parsed
    (see RuleModel). *)
From Verif Require Import Base ConfigModel ParseModel PathModel DbModel ScanModel.

(** graph.h:89-91 gen_delete_root, save_root and cmd_delete_root; the paths that were
    unlinked, the last one first; the database and the queue of ghosts. *)
Record cst := { cs_db : db; cs_queue : list nat; gen_del : list nat; saved : list nat; cmd_del : list nat; unlinked : list (list bytes) }.
Definition with_db (s : cst) (p : st) : cst :=
  {| cs_db := fst p; cs_queue := snd p; gen_del := gen_del s; saved := saved s; cmd_del := cmd_del s; unlinked := unlinked s |}.
Definition with_roots (s : cst) (g v c : list nat) : cst :=
  {| cs_db := cs_db s; cs_queue := cs_queue s; gen_del := g; saved := v; cmd_del := c; unlinked := unlinked s |}.
Definition mem (x : nat) (l : list nat) : bool := existsb (Nat.eqb x) l.
(** tent_tree.c:40-59 tent_tree_add: twice is an error. *)
Definition tree_add (x : nat) (l : list nat) : outcome (list nat) := if mem x l then Bad else Ok (x :: l).

(** db.c:3803-3870 tup_db_srcid_to_tree for generated files, without .gitignore files. *)
Definition made_by (d : db) (x : nat) : list nat :=
  map fst (filter (fun p => src_is x (snd p) && ntype_eqb (kind (snd p)) TGenerated && negb (bytes_eqb (nname (snd p)) (B ".gitignore"))) (nodes d)).
(** db.c:3723-3801 tup_db_dirtype for commands *)
Definition commands_of (d : db) (x : nat) : list nat :=
  map fst (filter (fun p => (dir (snd p) =? x) && ntype_eqb (kind (snd p)) TCmd) (nodes d)).

(** parser.c:501-521 split_roots; db.c:2922-2963 tup_db_in_modify_list *)
Definition split_root (y : nat) (s : cst) : outcome cst :=
  if mem y (modify (cs_db s)) then obind (tree_add y (saved s)) (fun v => Ok (with_roots s (gen_del s) v (cmd_del s)))
  else obind (tree_add y (gen_del s)) (fun g => Ok (with_roots s g (saved s) (cmd_del s))).

(** One output of a rule of the directory [x]: parser.c:3161-3204 validate_output as far as
    the type goes, db.c:999-1121 tup_db_create_node_part_display for a generated file, and
    parser.c:3652-3678 of do_rule. *)
Definition declare (x : nat) (o : nat * bytes) (s : cst) : outcome cst :=
  let '(dt, nm) := o in
  let d := cs_db s in
  match child d dt nm with
  | None => Ok (with_db s (insert_node {| dir := dt; kind := TGenerated; src := Some x; nname := nm; time := no_time |} d, cs_queue s))
  | Some y =>
      match lookup d y with
      | None => Bad
      | Some n =>
          obind (match kind n with
                 | TGhost =>
                     of_option (option_map (fun '(d, q) => (update_node y (fun n => set_src (Some x) (set_kind TGenerated n)) (add_modify [y] d), q))
                       (delete_links (modify_cmds_by_input y (set_dependent_dir_flags y d)) y (cs_queue s)))
                 | TGenerated => Ok (update_node y (set_src (Some x)) d, cs_queue s)
                 | _ => Bad
                 end) (fun p =>
          Ok (with_roots (with_db s p) (remove_id y (gen_del s)) (remove_id y (saved s)) (cmd_del s)))
      end
  end.

(** updater.c:2084-2113 create_work: the directory leaves the create list. *)
Definition created (x : nat) (s : cst) : cst :=
  let d := cs_db s in
  with_db s ({| nodes := nodes d; normal := normal d; sticky := sticky d; modify := modify d; create := remove_id x (create d); config := config d |}, cs_queue s).

(** parser.c:161-395 parse: a directory, the commands that its rules keep, and the outputs of
    its rules. A directory without a Tupfile has none. *)
Record tupfile := { tf_dir : nat; tf_keep : list nat; tf_outs : list (nat * bytes) }.
Definition parse (t : tupfile) (s : cst) : outcome cst :=
  let cmds := commands_of (cs_db s) (tf_dir t) in
  let s := with_roots s (gen_del s) (saved s) (cmds ++ cmd_del s) in
  obind (each split_root (made_by (cs_db s) (tf_dir t)) s) (fun s =>
    obind (each (declare (tf_dir t)) (tf_outs t) s) (fun s =>
      Ok (created (tf_dir t) (with_roots s (gen_del s) (saved s) (filter (fun c => negb (mem c (tf_keep t))) (cmd_del s)))))).
(** updater.c:1403-1425 process_create_nodes: what a removed directory made elsewhere *)
Definition orphans (x : nat) (s : cst) : outcome cst :=
  if has_kind (cs_db s) [TGhost] x then
    obind (each (fun y s => if has_kind (cs_db s) [TGenerated] y && negb (match lookup (cs_db s) y with Some n => dir n =? x | None => false end)
                     then obind (tree_add y (gen_del s)) (fun g => Ok (with_roots s g (saved s) (cmd_del s))) else Ok s)
         (made_by (cs_db s) x) s) (fun s => Ok (created x s))
  else Ok s.

(** entry.c:240-300 tup_entry_open: the path from the top of the tree *)
Fixpoint entry_path (fuel : nat) (d : db) (x : nat) : list bytes :=
  match fuel with
  | 0 => []
  | S fuel => if x =? top then [] else match lookup d x with Some n => nname n :: entry_path fuel d (dir n) | None => [] end
  end.
(** delete_name_file.c:48-83 delete_file, then tup_del_id_force *)
Definition delete_gen (y : nat) (s : cst) : outcome cst :=
  let r := entry_path (S y) (cs_db s) y in
  obind (of_option (file_del y true (cs_db s) (cs_queue s))) (fun p =>
    Ok {| cs_db := fst p; cs_queue := snd p; gen_del := gen_del s; saved := saved s; cmd_del := cmd_del s; unlinked := r :: unlinked s |}).
Definition delete_cmd (c : nat) (s : cst) : outcome cst :=
  obind (of_option (delete_name_file (cs_db s) c (cs_queue s))) (fun p => Ok (with_db s p)).
(** updater.c:725-748: a generated file becomes a normal one *)
Definition save_file (y : nat) (s : cst) : outcome cst :=
  match lookup (cs_db s) y with
  | None => Bad
  | Some n =>
      if ntype_eqb (kind n) TGenerated then
        obind (of_option (delete_links (modify_cmds_by_input y (cs_db s)) y (cs_queue s))) (fun '(d, q) =>
          obind (make_dirs_normal (S (dir n)) (dir n) (update_node y (set_kind TFile) d, q)) (fun p => Ok (with_db s p)))
      else Bad
  end.
(** updater.c:679-753 delete_files; the code takes the root of each tree until it is empty,
    here the order is that of the lists. *)
Definition delete_files (s : cst) : outcome cst :=
  obind (each delete_gen (gen_del s) s) (fun s' =>
    obind (each delete_cmd (cmd_del s) s') (each save_file (saved s))).

(** updater.c:1383-1637 process_create_nodes. The directories are parsed in some order, and
    they must be those of the create list; nothing is deleted before all of them are parsed. An id
    is only once in the create table. *)
Definition process_create (excl : nat) (rmdir : nat -> bool) (rounds : nat) (tups : list tupfile) (d : db) : outcome (db * list (list bytes)) :=
  obind (each orphans (nodup Nat.eq_dec (create d)) {| cs_db := d; cs_queue := []; gen_del := []; saved := []; cmd_del := []; unlinked := [] |}) (fun s =>
    obind (each parse tups s) (fun s =>
      obind (delete_files s) (fun s =>
        obind (reclaim excl rmdir rounds (cs_db s) (cs_queue s) []) (fun d => Ok (d, rev (unlinked s)))))).
