(** Model of the scan of the directory tree (src/tup/path.c, create_name_file.c and the
    parts of db.c they call). Variants are left out: the only variant is the one of the
    tree itself. Errors of SQL and of the file system are left out, and so are files that
    come or go during the scan. *)
From Verif Require Import Base ConfigModel ParseModel PathModel DbModel.

(** What is on the disk. Regular files and symbolic links come with their time (MTIME,
    compat.h:57-62); [FOther] is a device, a fifo or a socket. *)
Inductive tree := FFile (t : Z) | FDir (l : list (bytes * tree)) | FOther.

(** db.h: DOT_DT *)
Definition top : nat := 1.
(** db.h:36 INVALID_MTIME *)
Definition no_time : Z := (-1)%Z.

(** The database and the queue of ghosts to look at (ghost_root, db.c:157). *)
Definition st : Type := (db * list nat)%type.

(** db.c:6512-6580 node_select: "select ... from node where dir=? and name=?" *)
Definition child (d : db) (x : nat) (nm : bytes) : option nat :=
  option_map fst (find (fun p => (dir (snd p) =? x) && bytes_eqb (nname (snd p)) nm) (nodes d)).
(** db.c:3204-3252 get_dir_entries: "select id, type from node where dir=?"; each row is put
    at the head of the list. *)
Definition dir_entries (d : db) (x : nat) : list (nat * ntype) :=
  rev (map (fun p => (fst p, kind (snd p))) (filter (fun p => dir (snd p) =? x) (nodes d))).
(** The id that sqlite gives a new row. *)
Definition fresh (d : db) : nat := S (fold_right Nat.max 0 (map fst (nodes d))).
Definition insert_node (n : node) (d : db) : db := with_nodes d (nodes d ++ [(fresh d, n)]).

(** db.c:5349-5360 is_virtual_tent *)
Definition virtual (dt : nat) (nm : bytes) : bool :=
  (dt =? top) && (bytes_eqb nm (B "$") || bytes_eqb nm (B "/") || bytes_eqb nm (B "^")).

Definition of_option {A} (o : option A) : outcome A := match o with Some a => Ok a | None => Bad end.
Fixpoint each {A S} (f : A -> S -> outcome S) (l : list A) (s : S) : outcome S :=
  match l with [] => Ok s | a :: t => obind (f a s) (each f t) end.

(** db.c:4200-4240 tup_db_set_dependent_dir_flags *)
Definition set_dependent_dir_flags (x : nat) (d : db) : db := add_create (filter (has_kind d [TDir]) (tos (normal d) x)) d.
(** db.c:4242-4317 tup_db_set_srcid_dir_flags *)
Definition set_srcid_dir_flags (x : nat) (d : db) : outcome db :=
  each (fun p d =>
          match src (snd p) with
          | Some s => if s =? x then Ok d
                      else match lookup d s with
                           | Some n => Ok (if ntype_eqb (kind n) TDir then add_create [s] d else d)
                           | None => Bad
                           end
          | None => Bad
          end)
       (filter (fun p => (dir (snd p) =? x) && ntype_eqb (kind (snd p)) TGenerated) (nodes d)) d.

(** create_name_file.c:319-500 tup_del_id_type, with tup_db_delete_dir (db.c:1622-1656) and
    tup_db_flag_generated_dir (db.c:1658-1700). The type that the callers give is that of the
    node. rmdir_callback is only set by the monitor. *)
Fixpoint del_id (fuel : nat) (x : nat) (force : bool) (s : st) : outcome st :=
  match fuel with
  | 0 => NoFuel
  | S fuel =>
      let '(d, q) := s in
      match lookup d x with
      | None => Bad
      | Some n =>
          (* 214-230 check_rm_tup_config *)
          if bytes_eqb (nname n) (B "tup.config") then Ok (add_config [x] (update_node x (set_kind TGhost) d), q)
          else match kind n with
               | TGhost | TGroup => Ok s
               | TFile | TGenerated => of_option (file_del x force d q)
               | TGeneratedDir =>
                   obind
                     (if force then
                        obind (set_srcid_dir_flags x d) (fun d =>
                          let d := update_node x (set_kind TGhost) d in
                          of_option (option_map (pair d) (queue_add d x q)))
                      else Ok s)
                     (fun s => each (fun e => del_id fuel (fst e) force) (dir_entries (fst s) x) s)
               | TDir =>
                   obind (set_srcid_dir_flags x d) (fun d =>
                     obind (each (fun e => del_id fuel (fst e) (if ntype_eqb (snd e) TDir then force else true)) (dir_entries d x) (d, q)) (fun '(d, q) =>
                       let d := match child d x (B "Tupfile") with Some t => set_dependent_dir_flags t d | None => d end in
                       match lookup d (dir n) with
                       | None => Bad
                       | Some p =>
                           let d := if ntype_eqb (kind p) TDir then add_create [dir n] d else d in
                           of_option (delete_name_file (set_dependent_flags x d) x q)
                       end))
               | TCmd | TVar | TRoot => of_option (delete_name_file d x q)
               end
      end
  end.
(** Ids grow from a directory to what is in it, so this is deep enough. *)
Definition del_node (x : nat) (force : bool) (s : st) : outcome st := del_id (fresh (fst s)) x force s.

(** create_name_file.c:262-285 tup_file_missing *)
Definition missing (x : nat) (s : st) : outcome st := del_node x false s.

(** create_name_file.c:72-96 make_dirs_normal *)
Fixpoint make_dirs_normal (fuel : nat) (x : nat) (s : st) : outcome st :=
  match fuel with
  | 0 => NoFuel
  | S fuel =>
      let '(d, q) := s in
      match lookup d x with
      | None => Bad
      | Some n =>
          if ntype_eqb (kind n) TGeneratedDir then make_dirs_normal fuel (dir n) (update_node x (set_kind TDir) d, remove_id x q)
          else Ok (match child d x (B ".gitignore") with
                   | Some g => if has_kind d [TGenerated] g then add_create [x] d else d
                   | None => d
                   end, q)
      end
  end.
(** create_name_file.c:44-58 create_name_file *)
Definition create_name_file (dt : nat) (nm : bytes) (m : Z) (s : st) : outcome (nat * st) :=
  let '(d, q) := s in
  let y := fresh d in
  let d := insert_node {| dir := dt; kind := TFile; src := None; nname := nm; time := m |} d in
  obind (make_dirs_normal (S dt) dt (add_create [dt] d, q)) (fun s => Ok (y, s)).

(** create_name_file.c:118-212 tup_file_mod_mtime with force = ignore_generated = 0. *)
Definition config_flag (b : bool) (nm : bytes) (y : nat) (d : db) : db :=
  if b && bytes_eqb nm (B "tup.config") then add_config [y] d else d.
(* 176-198 for a file that is not generated *)
Definition changed_file (y : nat) (m : Z) (d : db) : db := update_node y (set_time m) (set_dependent_flags y (add_modify [y] d)).
Definition file_mtime (dt : nat) (nm : bytes) (m : Z) (s : st) : outcome st :=
  let '(d, q) := s in
  match child d dt nm with
  | None => obind (create_name_file dt nm m s) (fun '(y, (d, q)) => Ok (config_flag true nm y d, q))
  | Some x =>
      match lookup d x with
      | None => Bad
      | Some n =>
          match kind n with
          | TFile | TGenerated | TGhost =>
              of_option (option_map (fun d => (d, if ntype_eqb (kind n) TGhost then remove_id x q else q)) (file_mod x m false false d))
          | _ =>
              let changed := negb (Z.eqb (time n) m) in
              obind (del_node x true s) (fun s =>
                let '(d, q) := s in
                match child d dt nm with
                | None => obind (create_name_file dt nm m s) (fun '(y, (d, q)) =>
                            Ok (config_flag true nm y (if changed then changed_file y m d else d), q))
                | Some y =>
                    match lookup d y with
                    | None => Bad
                    | Some n' =>
                        if ntype_eqb (kind n') TGhost then
                          let d := ghost_to_file y n' d in
                          Ok (config_flag changed nm y (if changed then changed_file y m d else d), remove_id y q)
                        else Bad
                    end
                end)
          end
      end
  end.

(** db.c:999-1121 tup_db_create_node_part_display for a directory, called with no srcid;
    node_insert (6500-6511) puts a new one in the create list. The call to itself has no
    bound. *)
Fixpoint create_dir (fuel : nat) (dt : nat) (nm : bytes) (s : st) : outcome (nat * st) :=
  match fuel with
  | 0 => NoFuel
  | S fuel =>
      let '(d, q) := s in
      match child d dt nm with
      | None =>
          let y := fresh d in
          let d := insert_node {| dir := dt; kind := TDir; src := None; nname := nm; time := no_time |} d in
          Ok (y, (if virtual dt nm then d else add_create [y] d, q))
      | Some x =>
          match lookup d x with
          | None => Bad
          | Some n =>
              match kind n with
              | TGhost => Ok (x, (update_node x (fun n => set_src None (set_kind TDir n)) (add_modify [x] d), q))
              | TDir | TGeneratedDir => Ok (x, s)
              | _ => obind (del_node x true s) (create_dir fuel dt nm)
              end
          end
      end
  end.

(** entry.c:655-668 tup_entry_get_dir_tree; only these types were loaded (db.c:5388-5460
    load_existing_nodes). *)
Definition dir_tree (d : db) (x : nat) : list nat :=
  map fst (filter (fun p => (dir (snd p) =? x) && negb (virtual x (nname (snd p)))
                            && existsb (ntype_eqb (kind (snd p))) [TFile; TDir; TGenerated; TGeneratedDir]) (nodes d)).

(** path.c:113-116: names that are not looked at *)
Definition ignored (nm : bytes) : bool :=
  match nm with c :: _ => (c =?c "."%char) && pel_ignored nm | [] => false end.

Section Scan.
  Variable fuel : nat.              (* of create_dir *)
  Variable ord : list nat -> list nat. (* the order in which the missing nodes are taken (path.c:129-140) *)

  (** path.c:42-157 watch_path_internal without a callback; the order of the entries of a
      directory is that of readdir. *)
  Fixpoint watch (t : tree) (dt : nat) (nm : bytes) (s : st) : outcome st :=
    match t with
    | FOther => Ok s
    | FFile m => file_mtime dt nm m s
    | FDir l =>
        obind (if dt =? 0 then Ok (top, s) else create_dir fuel dt nm s) (fun '(x, s) =>
          obind ((fix go l root s :=
                    match l with
                    | [] => Ok (root, s)
                    | (nm, t) :: l =>
                        let root := match child (fst s) x nm with Some y => remove_id y root | None => root end in
                        if ignored nm then go l root s else obind (watch t x nm s) (go l root)
                    end) l (dir_tree (fst s) x) s) (fun '(root, s) =>
            each missing (ord root) s))
    end.
  Definition watch_entries (x : nat) := fix go (l : list (bytes * tree)) (root : list nat) (s : st) : outcome (list nat * st) :=
    match l with
    | [] => Ok (root, s)
    | (nm, t) :: l =>
        let root := match child (fst s) x nm with Some y => remove_id y root | None => root end in
        if ignored nm then go l root s else obind (watch t x nm s) (go l root)
    end.

  (** path.c:316-328 tup_scan with no external dependencies: the ghosts are looked at when the
      transaction ends (db.c:772-779). *)
  Definition tup_scan (excl : nat) (rmdir : nat -> bool) (rounds : nat) (files : list (bytes * tree)) (d : db) : outcome db :=
    obind (watch (FDir files) 0 (B ".") (d, [])) (fun '(d, q) => reclaim excl rmdir rounds d q []).
End Scan.
