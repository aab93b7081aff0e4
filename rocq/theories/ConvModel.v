(** Model of the change of normal directories to generated ones after the Tupfiles were parsed
    (src/tup/updater.c:1551-1593 and the parts of db.c and parser.c it calls). Errors of SQL
    and of the file system are left out, and so are variants: the directories that are looked at
    are those of the tree itself (parser.c:195). *)
From Verif Require Import Base ConfigModel ParseModel PathModel DbModel ScanModel CleanModel.

(** db.c:3942-4005 is_generated_dir1: "select exists(select 1 from node where dir=? and
    (type=? or type=?))" with a file and a directory, negated. *)
Definition is_generated_dir1 (d : db) (x : nat) : bool :=
  negb (existsb (fun p => (dir (snd p) =? x) && (ntype_eqb (kind (snd p)) TFile || ntype_eqb (kind (snd p)) TDir)) (nodes d)).
(** db.c:4007-4067 is_generated_dir2: "select exists(select 1 from node where dir=? and
    srcid!=dir and (type=? or type=?))" with a generated file and a generated directory. *)
Definition is_generated_dir2 (d : db) (x : nat) : bool :=
  existsb (fun p => (dir (snd p) =? x) && negb (src_is (dir (snd p)) (snd p))
                    && (ntype_eqb (kind (snd p)) TGenerated || ntype_eqb (kind (snd p)) TGeneratedDir)) (nodes d).
(** db.c:4070-4093 tup_db_is_generated_dir *)
Definition is_generated_dir (d : db) (x : nat) : bool := is_generated_dir1 d x && is_generated_dir2 d x.

(** db.c:3712-3721 tup_db_normal_dir_to_generated: add_ghost_checks (7049-7054), delete_normal_links
    (3488-3525), tup_db_set_type (2187-2227) *)
Definition normal_dir_to_generated (x : nat) (d : db) (q : list nat) : option (db * list nat) :=
  match queue_all d (froms (normal d) x) q with
  | Some q => Some (update_node x (set_kind TGeneratedDir) (with_links d (drop_links x (normal d)) (sticky d)), q)
  | None => None
  end.

(** The database and the queue of ghosts; gen_delete_root and save_root; the
    directories added to parse_gitignore_root. *)
Record conv := { cv_db : db; cv_queue : list nat; cv_del : list nat; cv_save : list nat; cv_git : list nat }.

Section Conv.
  (** Whether the .gitignore file has lines before the ones that tup wrote. *)
  Variable own : nat -> bool.

  (** tent_tree.c:40-59 tent_tree_add: nothing happens if it is there already (the error is not
      looked at in updater.c:1587). *)
  Definition add_once (x : nat) (l : list nat) : list nat := if mem x l then l else x :: l.

  (** parser.c:1139-1248 remove_tup_gitignore as far as the database goes: what the user wrote
      is kept, as a normal file, otherwise the file is left to be deleted. *)
  Definition remove_tup_gitignore (g : nat) (s : conv) : conv :=
    if own g then {| cv_db := update_node g (fun n => set_src None (set_kind TFile n)) (cv_db s); cv_queue := cv_queue s;
                     cv_del := remove_id g (cv_del s); cv_save := remove_id g (cv_save s); cv_git := cv_git s |}
    else s.

  (** updater.c:1562-1591: one directory. [Bad] is also the NULL parent of the top directory
      (1573). *)
  Definition convert_one (x : nat) (s : conv) : outcome (conv * option nat) :=
    let d := cv_db s in
    match lookup d x with
    | None => Bad
    | Some n =>
        if is_generated_dir d x then
          match normal_dir_to_generated x d (cv_queue s), lookup d (dir n) with
          | Some (d, q), Some _ =>
              let s := {| cv_db := d; cv_queue := q; cv_del := cv_del s; cv_save := cv_save s; cv_git := insert (dir n) (cv_git s) |} in
              Ok (match child d x (B ".gitignore") with
                  | Some g => if has_kind d [TGenerated] g
                              then remove_tup_gitignore g {| cv_db := d; cv_queue := q; cv_del := add_once g (cv_del s); cv_save := cv_save s; cv_git := cv_git s |}
                              else s
                  | None => s
                  end, Some (dir n))
          | _, _ => Bad
          end
        else Ok (s, None)
    end.

  (** updater.c:1553-1592: the directory with the lowest id first. *)
  Fixpoint convert (fuel : nat) (todo : list nat) (s : conv) : outcome conv :=
    match todo with
    | [] => Ok s
    | x :: todo =>
        match fuel with
        | 0 => NoFuel
        | S fuel => obind (convert_one x s) (fun '(s, up) => convert fuel (match up with Some p => insert p todo | None => todo end) s)
        end
    end.
  (** normal_dir_root: parser.c:195-198 *)
  Definition normal_dirs (l : list nat) : list nat := fold_right insert [] l.
  (** The ids grow from a directory to what is in it, so this many rounds are enough. *)
  Definition rounds_of (l : list nat) : nat := fold_right (fun x a => S x + a) 0 l.
  Definition convert_dirs (parsed : list nat) (s : conv) : outcome conv :=
    let l := normal_dirs parsed in convert (rounds_of l) l s.

  (** updater.c:1383-1637 process_create_nodes with the conversion: CleanModel has the other
      parts. *)
  Definition create_phase (excl : nat) (rmdir : nat -> bool) (rounds : nat) (tups : list tupfile) (d : db) : outcome (db * list (list bytes)) :=
    obind (each orphans (nodup Nat.eq_dec (create d)) {| cs_db := d; cs_queue := []; gen_del := []; saved := []; cmd_del := []; unlinked := [] |}) (fun s =>
      obind (each parse tups s) (fun s =>
        obind (convert_dirs (map tf_dir tups) {| cv_db := cs_db s; cv_queue := cs_queue s; cv_del := gen_del s; cv_save := saved s; cv_git := [] |}) (fun c =>
          obind (delete_files (with_roots (with_db s (cv_db c, cv_queue c)) (cv_del c) (cv_save c) (cmd_del s))) (fun s =>
            obind (reclaim excl rmdir rounds (cs_db s) (cs_queue s) []) (fun d => Ok (d, rev (unlinked s))))))).
End Conv.

(** parser.c:2598-2604: inputs in a generated directory are only for the Tupfiles that write
    there ([writes], tf->directory_root). *)
Definition may_read (d : db) (writes : list nat) (x : nat) : bool :=
  match lookup d x with Some n => negb (ntype_eqb (kind n) TGeneratedDir) || mem x writes | None => false end.
