(** Model of the comparison and restoration of outputs with ^o
    (src/tup/updater.c:2279-2536). *)
From Verif Require Import Base.

(** What lstat(), open() and readlink() show of a file: symbolic link or not
    (S_ISLNK), the other bits of st_mode, and the bytes or the link target.
    Outputs that are directories or devices are not modelled. *)
Record inode := { i_link : bool; i_perm : N; i_data : bytes }.

(** Size of the buffers b1 and b2 (2382, 2436). *)
Definition bufsize : nat := N.to_nat 4096.

(** read(2) of a regular file: at the end it returns nothing, otherwise at
    least one byte, at most the size of the buffer. [wish i] is how much the
    system returns if it can, in the i-th call. *)
Definition read_count (wish : nat) (data : bytes) : nat := Nat.min (Nat.max 1 wish) (Nat.min bufsize (length data)).

(** updater.c:2378-2430 compare_files without the error returns. *)
Fixpoint compare_files (fuel i : nat) (w1 w2 : nat -> nat) (d1 d2 : bytes) : option bool :=
  match fuel with
  | 0 => None
  | S fuel =>
      let rc1 := read_count (w1 i) d1 in
      let rc2 := read_count (w2 i) d2 in
      if negb (rc1 =? rc2) then Some false
      else if rc1 =? 0 then Some true
      else if negb (bytes_eqb (firstn rc1 d1) (firstn rc1 d2)) then Some false
      else compare_files fuel (S i) w1 w2 (skipn rc1 d1) (skipn rc1 d2)
  end.

(** updater.c:2432-2458 compare_links: readlinkat truncates to the buffer. *)
Definition compare_links (t1 t2 : bytes) : bool :=
  let b1 := firstn bufsize t1 in
  let b2 := firstn bufsize t2 in
  (length b1 =? length b2) && bytes_eqb b1 b2.

(** updater.c:2460-2490 compare_paths; a missing file is [None]. st_size is the
    length of the data, also for a link. *)
Definition compare_paths (w1 w2 : nat -> nat) (f1 f2 : option inode) : option bool :=
  match f1, f2 with
  | Some a, Some b =>
      if negb (length (i_data a) =? length (i_data b)) then Some false
      else if negb (Bool.eqb (i_link a) (i_link b) && (i_perm a =? i_perm b)%N) then Some false
      else if i_link a then Some (compare_links (i_data a) (i_data b))
      else compare_files (S (length (i_data a))) 0 w1 w2 (i_data a) (i_data b)
  | _, _ => Some false
  end.

(** The outputs of a command in the order of its edges, with the two skipped
    kinds (groups, virtual directories; 2270-2277) left out. The file system
    has the outputs under their names and under .tup/tmp/backup-<id>. *)
Section outputs.
Variable id : Type.
Variable id_eqb : id -> id -> bool.
Record files := { cur : id -> option inode; backup : id -> option inode; recorded : id -> option inode; skip : id -> bool }.
Definition iupd {A} (f : id -> A) (x : id) (v : A) : id -> A := fun y => if id_eqb y x then v else f y.

(** 2279-2328 move_outputs: rename, ENOENT is ignored. *)
Definition move_one (s : files) (x : id) : files :=
  match cur s x with
  | Some f => {| cur := iupd (cur s) x None; backup := iupd (backup s) x (Some f); recorded := recorded s; skip := skip s |}
  | None => s
  end.
Definition move_outputs (outs : list id) (s : files) : files := fold_left move_one outs s.

(** 2330-2376 restore_outputs; [recorded] stands for the time stored in the
    database: the file that it belongs to. *)
Definition restore_one (s : files) (x : id) : files :=
  let s1 := match backup s x with
            | Some f => {| cur := iupd (cur s) x (Some f); backup := iupd (backup s) x None; recorded := recorded s; skip := skip s |}
            | None => s
            end in
  match cur s1 x with
  | Some f => {| cur := cur s1; backup := backup s1; recorded := iupd (recorded s1) x (Some f); skip := skip s1 |}
  | None => s1
  end.
Definition restore_outputs (outs : list id) (s : files) : files := fold_left restore_one outs s.

(** 2504-2536 check_outputs. *)
Definition check_one (w1 w2 : nat -> nat) (s : option files) (x : id) : option files :=
  match s with
  | None => None
  | Some s =>
      match compare_paths w1 w2 (backup s x) (cur s x) with
      | None => None
      | Some true => Some s
      | Some false => Some {| cur := cur s; backup := backup s; recorded := recorded s; skip := iupd (skip s) x false |}
      end
  end.
Definition check_outputs (w1 w2 : nat -> nat) (outs : list id) (s : files) : option files := fold_left (check_one w1 w2) outs (Some s).
End outputs.
Arguments cur {id}. Arguments backup {id}. Arguments recorded {id}. Arguments skip {id}.
