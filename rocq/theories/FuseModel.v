(** The file system that a command sees (server/fuse_fs.c, built for FUSE 3). *)
From Verif Require Import Base ExecModel GraphModel TentModel FileModel.

(** What a name stands for. *)
Inductive node := NDir | NFile (d : bytes) | NLink (target : bytes).

(** errno values of the handlers and of the kernel. *)
Inductive errno := EPERM | ENOENT | EEXIST | ENOTDIR | EISDIR | EINVAL | ENOTEMPTY | EACCES.

(** file.h:46-72 struct file_info: the mappings, the temporary directories and
    the accesses; the accesses are kept as the calls of handle_open_file() and
    handle_rename(), see FileModel.v for what these do. *)
Record job := { jmaps : list mapping; jdirs : list bytes; jevs : list event }.

(** The real files (absolute name, contents), the files in .tup/tmp, the counter
    of fuse_fs.c:167 and the running jobs (fuse_fs.c:45 [troot]). *)
Record state := { disk : list (bytes * node); tmp : list (bytes * node); filenum : nat; jobs : nat -> option job }.

Fixpoint get {A} (x : bytes) (l : list (bytes * A)) : option A :=
  match l with [] => None | (y, v) :: r => if bytes_eqb y x then Some v else get x r end.
Definition del {A} (x : bytes) (l : list (bytes * A)) : list (bytes * A) := filter (fun e => negb (bytes_eqb (fst e) x)) l.
Definition put {A} (x : bytes) (v : A) (l : list (bytes * A)) : list (bytes * A) := (x, v) :: del x l.

Definition slash : ascii := "/"%char.

(** strstr(s, m) != NULL *)
Fixpoint strstr (m s : bytes) : bool := prefixb m s || match s with [] => false | _ :: r => strstr m r end.
(** strchr(s, '/') with what follows; [None] if there is none. *)
Fixpoint from_slash (s : bytes) : option bytes :=
  match s with [] => None | c :: r => if c =?c slash then Some s else from_slash r end.
(** dirname(3) for names without a trailing slash. *)
Fixpoint dirname_rev (s : bytes) : bytes := match s with [] => [] | c :: r => if c =?c slash then r else dirname_rev r end.
Definition dirname (s : bytes) : bytes := match rev (dirname_rev (rev s)) with [] => [slash] | d => d end.

(** ccache.c:23-43 is_ccache_path. *)
Definition is_ccache_path (p : bytes) : bool :=
  strstr (B "/.ccache") p || strstr (B "/.cache/ccache") p || strstr (B "/ccache-tmp/") p || prefixb (B "/tmp/.icecream-") p.
(** fuse_fs.c:90-105 is_hidden. *)
Definition is_hidden (p : bytes) : bool :=
  strstr (B "/.git") p || strstr (B "/.tup") p || strstr (B "/.hg") p || strstr (B "/.svn") p || strstr (B "/.bzr") p || is_ccache_path p.
(** fuse_fs.c:284-295 ignore_file. *)
Definition ignore_file (p : bytes) : bool :=
  prefixb (B "/dev") p || prefixb (B "/sys") p || prefixb (B "/proc") p || is_ccache_path p.

(** tup_fuse_fs.h:36 TUP_JOB, 35 TUP_TMP. *)
Definition tup_job : bytes := B "@tupjob-".
Definition tup_tmp : bytes := B ".tup/tmp".

(** fuse_fs.c:125 strtol(path, NULL, 0) for names without leading white space
    and sign: octal after a 0, hexadecimal after 0x, else decimal. *)
Definition digit_of (c : ascii) : option nat :=
  let n := nat_of_ascii c in
  if (48 <=? n) && (n <=? 57) then Some (n - 48)
  else if (97 <=? n) && (n <=? 102) then Some (n - 87)
  else if (65 <=? n) && (n <=? 70) then Some (n - 55) else None.
Fixpoint num (base acc : nat) (s : bytes) : nat :=
  match s with
  | [] => acc
  | c :: r => match digit_of c with Some d => if d <? base then num base (acc * base + d) r else acc | None => acc end
  end.
Definition strtol (s : bytes) : nat :=
  match s with
  | c :: r =>
    if c =?c "0"%char then
      match r with
      | x :: r' => if (x =?c "x"%char) || (x =?c "X"%char) then num 16 0 r' else num 8 0 r
      | [] => 0
      end
    else num 10 0 s
  | [] => 0
  end.

(** fuse_fs.c:107-136 get_finfo: the number of the job that a path belongs to. *)
Definition job_number (path : bytes) : option nat :=
  match path with
  | c :: r => if c =?c slash then if prefixb tup_job r then Some (strtol (skipn (length tup_job) r)) else None else None
  | [] => None
  end.
Definition get_finfo (s : state) (path : bytes) : option (nat * job) :=
  match job_number path with
  | Some n => match jobs s n with Some j => Some (n, j) | None => None end
  | None => None
  end.
(** fuse_fs.c:143-163 peel; the paths of libfuse begin with a slash. *)
Definition peel (path : bytes) : bytes :=
  match path with
  | c :: r =>
    if (c =?c slash) && prefixb tup_job r then
      match from_slash (skipn (length tup_job) r) with Some p => p | None => [slash] end
    else path
  | [] => []
  end.

(** snprintf of %x and %i. *)
Definition digit_char (d : nat) : ascii := ascii_of_nat (if d <? 10 then 48 + d else 87 + d).
Fixpoint digits_rev (fuel base n : nat) : bytes :=
  match fuel with
  | O => []
  | S f => digit_char (n mod base) :: (if n <? base then [] else digits_rev f base (n / base))
  end.
Definition print (base n : nat) : bytes := rev (digits_rev (S n) base n).
(** fuse_fs.c:205: the name of the temporary file. The counter is an int in the
    code: this model is for fewer than 2^32 created files. *)
Definition tmp_name (n : nat) : bytes := tup_tmp ++ slash :: print 16 n.

Section Server.
(** get_tup_top(), fuse_fs.c:322. *)
Variable tup_top : bytes.
(** exclusion_match(), fuse_fs.c:1287; it is given the path with the job. *)
Variable excluded : bytes -> bool.
(** faccessat(.., W_OK) on a real directory, fuse_fs.c:493, and on the top
    directory, fuse_fs.c:472. *)
Variable writable : bytes -> bool.
Variable top_writable : bool.

(** fuse_fs.c:318-340 get_virtual_var: what follows the first "@tup@" in a name
    in the tup hierarchy. *)
Definition virtual_dir : bytes := B "@tup@".
Fixpoint after (m s : bytes) : option bytes :=
  if prefixb m s then Some (skipn (length m) s) else match s with [] => None | _ :: r => after m r end.
Definition virtual_var (p : bytes) : option bytes :=
  if prefixb tup_top p then
    match skipn (length tup_top) p with
    | c :: r => if c =?c slash then after virtual_dir r else None
    | [] => None
    end
  else None.

(** *** Access records *)
Definition set_job (s : state) (n : nat) (j : job) : state :=
  {| disk := disk s; tmp := tmp s; filenum := filenum s; jobs := fun m => if Nat.eqb m n then Some j else jobs s m |}.
Definition set_tmp (s : state) (t : list (bytes * node)) : state :=
  {| disk := disk s; tmp := t; filenum := filenum s; jobs := jobs s |}.
Definition record (e : event) (j : job) : job := {| jmaps := jmaps j; jdirs := jdirs j; jevs := jevs j ++ [e] |}.
(** fuse_fs.c:297-316 tup_fuse_handle_file; [stripped] is always NULL. *)
Definition handle_file (path : bytes) (e : event) (s : state) : state :=
  if ignore_file (peel path) then s
  else match get_finfo s path with Some (n, j) => set_job s n (record e j) | None => s end.

(** *** Mappings *)
(** fuse_fs.c:228-240 find_mapping. *)
Definition find_mapping (j : job) (path : bytes) : option mapping :=
  find (fun m => bytes_eqb (peel path) (realname m)) (jmaps j).
(** fuse_fs.c:165-214 add_mapping_internal. Memory is never exhausted. *)
Definition add_mapping_internal (s : state) (n : nat) (j : job) (path : bytes) : state * mapping :=
  let p := peel path in
  let j1 := if is_hidden p then j else record (EWrite p) j in
  let m := {| realname := p; tmpname := tmp_name (filenum s); mtent := None |} in
  ({| disk := disk s; tmp := tmp s; filenum := S (filenum s);
      jobs := fun k => if Nat.eqb k n then Some {| jmaps := jmaps j1 ++ [m]; jdirs := jdirs j1; jevs := jevs j1 |} else jobs s k |}, m).
(** fuse_fs.c:216-227 add_mapping. *)
Definition add_mapping (s : state) (path : bytes) : option (state * mapping) :=
  match get_finfo s path with Some (n, j) => Some (add_mapping_internal s n j path) | None => None end.
(** file.c:604-610 del_map: TAILQ_REMOVE of one element. *)
Fixpoint del_map (m : mapping) (l : list mapping) : list mapping :=
  match l with [] => [] | x :: r => if bytes_eqb (tmpname x) (tmpname m) then r else x :: del_map m r end.

Definition is_tmpdir (j : job) (p : bytes) : bool := existsb (fun d => bytes_eqb d p) (jdirs j).
(** The file that a name refers to: fstatat/openat with the name of the temporary
    file or the real name. *)
Definition stat (s : state) (j : job) (path : bytes) : option node :=
  match find_mapping j path with Some m => get (tmpname m) (tmp s) | None => get (peel path) (disk s) end.

(** *** Handlers; [inl] is 0 or data, [inr] a negative errno. *)

(** fuse_fs.c:344-435 tup_fs_getattr; the error of an @-variable is -1, EPERM. *)
Definition tup_fs_getattr (s : state) (path : bytes) : state * (node + errno) :=
  let p := peel path in
  match get_finfo s path with
  | None => (s, match virtual_var p with
                | Some [] => inl NDir
                | Some _ => inr EPERM
                | None => match get p (disk s) with Some x => inl x | None => inr ENOENT end
                end)
  | Some (n, j) =>
    if bytes_eqb p (B ".tup/mnt") || strstr (B "/.tup/mnt") p then (s, inr EPERM)
    else if is_tmpdir j p then (s, inl NDir)
    else
      match (match find_mapping j path with Some _ => None | None => virtual_var p end) with
      | Some [] => (s, inl NDir)
      | Some (_ :: v) => (set_job s n (record (EVar v) j), inr EPERM)
      | None => (handle_file path (ERead p) s,
                 match stat s j path with Some x => inl x | None => inr ENOENT end)
      end
  end.

(** fuse_fs.c:437-498 tup_fs_access with W_OK. *)
Definition tup_fs_access (s : state) (path : bytes) : option errno :=
  let real (p : bytes) :=
    match virtual_var p with
    | Some [] => None
    | _ => match get p (disk s) with Some _ => if writable p then None else Some EACCES | None => Some ENOENT end
    end in
  match get_finfo s path with
  | None => real (peel path)
  | Some (_, j) =>
    match find_mapping j path with
    | Some m => (* a temporary file, created by this job *)
      match get (tmpname m) (tmp s) with Some _ => None | None => Some ENOENT end
    | None => if is_tmpdir j (peel path) then (if top_writable then None else Some EACCES) else real (peel path)
    end
  end.

(** fuse_fs.c:724-802 mknod_internal for a regular file, and with it tup_fs_create
    and tup_fs_mknod. The file that is opened is a new one in .tup/tmp. *)
Definition tup_fs_create (s : state) (path : bytes) : state * (unit + errno) :=
  match tup_fs_access s (dirname path) with
  | Some e => (s, inr e)
  | None =>
    match add_mapping s path with
    | None => (s, inr EPERM)   (* -ENOMEM *)
    | Some (s1, m) =>
      let s2 := handle_file path (EWrite (peel path)) s1 in
      (set_tmp s2 (put (tmpname m) (NFile []) (tmp s2)), inl tt)
    end
  end.
(** fuse_fs.c:935-954 tup_fs_symlink. *)
Definition tup_fs_symlink (s : state) (target path : bytes) : state * (unit + errno) :=
  match add_mapping s path with
  | None => (s, inr EPERM)   (* -ENOMEM *)
  | Some (s1, m) => (set_tmp s1 (put (tmpname m) (NLink target) (tmp s1)), inl tt)
  end.
(** fuse_fs.c:810-852 tup_fs_mkdir. *)
Definition tup_fs_mkdir (s : state) (path : bytes) : state * (unit + errno) :=
  let p := peel path in
  if ignore_file p then
    match get p (disk s) with
    | Some _ => (s, inr EEXIST)
    | None => ({| disk := put p NDir (disk s); tmp := tmp s; filenum := filenum s; jobs := jobs s |}, inl tt)
    end
  else
    match get_finfo s path with
    | Some (n, j) => (set_job s n {| jmaps := jmaps j; jdirs := jdirs j ++ [p]; jevs := jevs j |}, inl tt)
    | None => (s, inr EPERM)
    end.
(** fuse_fs.c:854-889 tup_fs_unlink. *)
Definition fuse_hidden : bytes := B ".fuse_hidden".
Definition tup_fs_unlink (s : state) (path : bytes) : state * (unit + errno) :=
  let other :=
    if strstr fuse_hidden path then
      match get (peel path) (disk s) with
      | Some _ => ({| disk := del (peel path) (disk s); tmp := tmp s; filenum := filenum s; jobs := jobs s |}, inl tt)
      | None => (s, inr ENOENT)
      end
    else (s, inr EPERM) in
  match get_finfo s path with
  | Some (n, j) =>
    match find_mapping j path with
    | Some m =>
      let s1 := set_job (set_tmp s (del (tmpname m) (tmp s))) n
                  {| jmaps := del_map m (jmaps j); jdirs := jdirs j; jevs := jevs j |} in
      (handle_file path (EUnlink (peel path)) s1, inl tt)
    | None => other
    end
  | None => other
  end.
(** fuse_fs.c:891-933 tup_fs_rmdir; [inside p x]: the strncmp and '/' test of 906, 913. *)
Definition inside (p x : bytes) : bool :=
  prefixb p x && match skipn (length p) x with c :: _ => c =?c slash | [] => false end.
Fixpoint del_first (p : bytes) (l : list bytes) : list bytes :=
  match l with [] => [] | d :: r => if bytes_eqb d p then r else d :: del_first p r end.
Definition tup_fs_rmdir (s : state) (path : bytes) : state * (unit + errno) :=
  let p := peel path in
  match get_finfo s path with
  | Some (n, j) =>
    if existsb (inside p) (jdirs j) then (s, inr ENOTEMPTY)
    else if existsb (fun m => inside p (realname m)) (jmaps j) then (s, inr ENOTEMPTY)
    else if is_tmpdir j p then (set_job s n {| jmaps := jmaps j; jdirs := del_first p (jdirs j); jevs := jevs j |}, inl tt)
    else (s, inr EPERM)
  | None => (s, inr EPERM)
  end.
(** fuse_fs.c:957-1040 tup_fs_rename. The unlink() of 1003 takes a relative name
    and works because tup's working directory is the top directory. *)
Fixpoint rename_first (p q : bytes) (l : list bytes) : list bytes :=
  match l with [] => [] | d :: r => if bytes_eqb d p then q :: r else d :: rename_first p q r end.
Fixpoint rename_map (m : mapping) (q : bytes) (l : list mapping) : list mapping :=
  match l with
  | [] => []
  | x :: r => if bytes_eqb (tmpname x) (tmpname m) then {| realname := q; tmpname := tmpname x; mtent := mtent x |} :: r
              else x :: rename_map m q r
  end.
Definition tup_fs_rename (s : state) (from to : bytes) : state * (unit + errno) :=
  let p := peel from in
  let q := peel to in
  match get_finfo s to with
  | None => (s, inl tt)
  | Some (n, j) =>
    if is_tmpdir j p then
      (set_job s n {| jmaps := jmaps j; jdirs := rename_first p q (jdirs j); jevs := jevs j |}, inl tt)
    else
      let '(t1, j1) :=
        match find_mapping j to with
        | Some m => (del (tmpname m) (tmp s), {| jmaps := del_map m (jmaps j); jdirs := jdirs j; jevs := jevs j |})
        | None => (tmp s, j)
        end in
      match find_mapping j1 from with
      | None => (set_job (set_tmp s t1) n j1, inr ENOENT)
      | Some m =>
        if strstr fuse_hidden q then
          (handle_file from (EUnlink p)
             (set_job (set_tmp s (del (tmpname m) t1)) n {| jmaps := del_map m (jmaps j1); jdirs := jdirs j1; jevs := jevs j1 |}), inl tt)
        else
          (set_job (set_tmp s t1) n
             {| jmaps := rename_map m q (jmaps j1); jdirs := jdirs j1; jevs := jevs j1 ++ [ERename p q] |}, inl tt)
      end
  end.
(** fuse_fs.c:1261-1330 tup_fs_open; [wr]: O_WRONLY or O_RDWR. The kernel has
    removed O_CREAT. Writing to a real file (a hidden or excluded one) is not
    modelled, only the result of the open. *)
Definition tup_fs_open (s : state) (path : bytes) (wr : bool) : state * (unit + errno) :=
  match get_finfo s path with
  | None => (s, inr EPERM)
  | Some (n, j) =>
    let e := if wr then EWrite (peel path) else ERead (peel path) in
    match find_mapping j path with
    | Some m => (handle_file path e s, match get (tmpname m) (tmp s) with Some _ => inl tt | None => inr ENOENT end)
    | None =>
      if wr && negb (is_hidden path) && negb (excluded path) then
        let '(s1, m) := add_mapping_internal s n j path in
        (handle_file path e s1, match get (tmpname m) (tmp s1) with Some _ => inl tt | None => inr ENOENT end)
      else (handle_file path e s, match get (peel path) (disk s) with Some _ => inl tt | None => inr ENOENT end)
    end
  end.
(** fuse_fs.c:1332-1372 tup_fs_read of the whole file; the file is found by its
    name as in 1340-1352. (With an open descriptor it is the file that the name
    had at tup_fs_open.) *)
Definition tup_fs_read (s : state) (path : bytes) : bytes + errno :=
  let r := match get_finfo s path with Some (_, j) => stat s j path | None => get (peel path) (disk s) end in
  match r with Some (NFile d) => inl d | Some _ => inr EISDIR | None => inr ENOENT end.
(** fuse_fs.c:1374-1415 tup_fs_write, found by its name as in 1382-1399. *)
Definition pwrite (old : bytes) (off : nat) (d : bytes) : bytes :=
  firstn off old ++ repeat (ascii_of_nat 0) (off - length old) ++ d ++ skipn (off + length d) old.
Definition tup_fs_write (s : state) (path : bytes) (off : nat) (d : bytes) : state * (unit + errno) :=
  match get_finfo s path with
  | None => (s, inr EPERM)
  | Some (_, j) =>
    match find_mapping j path with
    | None => (s, inr EPERM)
    | Some m =>
      match get (tmpname m) (tmp s) with
      | Some (NFile old) => (set_tmp s (put (tmpname m) (NFile (pwrite old off d)) (tmp s)), inl tt)
      | Some _ => (s, inr EISDIR)
      | None => (s, inr ENOENT)
      end
    end
  end.
(** fuse_fs.c:1141-1190 tup_fs_truncate. Truncating real files (hidden or
    excluded ones) is not modelled. *)
Definition ftruncate (old : bytes) (n : nat) : bytes := firstn n old ++ repeat (ascii_of_nat 0) (n - length old).
Definition tup_fs_truncate (s0 : state) (path : bytes) (size : nat) : state * (unit + errno) :=
  let s := handle_file path (EWrite (peel path)) s0 in
  match get_finfo s path with
  | None => (s, inr EPERM)
  | Some (_, j) =>
    match find_mapping j path with
    | None => (s, inr EPERM)
    | Some m =>
      match get (tmpname m) (tmp s) with
      | Some (NFile old) => (set_tmp s (put (tmpname m) (NFile (ftruncate old size)) (tmp s)), inl tt)
      | Some _ => (s, inr EISDIR)
      | None => (s, inr ENOENT)
      end
    end
  end.
(** fuse_fs.c:600-722 tup_fs_readdir, not in the parser. *)
Definition entry_in (p x : bytes) : option bytes :=
  if inside p x then
    let r := skipn (S (length p)) x in
    match from_slash r with Some _ => None | None => Some r end
  else None.
Fixpoint entries {A} (f : A -> option bytes) (l : list A) : list bytes :=
  match l with [] => [] | x :: r => match f x with Some n => n :: entries f r | None => entries f r end end.
(** The real directory; the disk of this model has no trailing slashes but "/". *)
Definition disk_entry (p x : bytes) : option bytes :=
  if bytes_eqb x [slash] then None else entry_in (if bytes_eqb p [slash] then [] else p) x.
Definition disk_entries (d : list (bytes * node)) (p : bytes) : list bytes :=
  filter (fun n => negb (bytes_eqb n (B ".tup"))) (entries (fun e => disk_entry p (fst e)) d).
Definition tup_fs_readdir (s : state) (path : bytes) : state * (list bytes + errno) :=
  let p := peel path in
  match get_finfo s path with
  | None => (s, inl (entries (fun e => disk_entry p (fst e)) (disk s)))
  | Some (n, j) =>
    if existsb (fun m => match entry_in p (realname m) with Some _ => match get (tmpname m) (tmp s) with Some _ => false | None => true end | None => false end) (jmaps j)
    then (s, inr EPERM)
    else
      let own := entries (fun m => entry_in p (realname m)) (jmaps j) ++ entries (entry_in p) (jdirs j) in
      if is_tmpdir j p then (s, inl own)
      else (handle_file path (ERead p) s, inl (own ++ disk_entries (disk s) p))
  end.

(** *** The kernel
    What the processes of a job ask for, by components of the path below the job
    directory .tup/mnt/@tupjob-N, and what the kernel checks with getattr before
    it calls a handler (Linux: may_create, may_delete, vfs_rename,
    lock_rename). Lookups that a program makes are requests of their own; the
    ones made here leave no record, since the kernel may have them in its cache. *)
Inductive op :=
| OLook (p : list bytes)
| OCreate (p : list bytes)
| OSymlink (target : bytes) (p : list bytes)
| OMkdir (p : list bytes)
| ORmdir (p : list bytes)
| OUnlink (p : list bytes)
| ORename (p q : list bytes)
| OOpen (p : list bytes) (wr : bool)
| ORead (p : list bytes)
| OWrite (p : list bytes) (off : nat) (d : bytes)
| OTruncate (p : list bytes) (size : nat)
| OList (p : list bytes).

(** The name that libfuse gives to a path of job [n]. *)
Definition below (p : list bytes) : bytes := concat (map (fun c => slash :: c) p).
Definition job_path (n : nat) (p : list bytes) : bytes := slash :: tup_job ++ print 10 n ++ below p.

Definition look (s : state) (n : nat) (p : list bytes) : option node :=
  match snd (tup_fs_getattr s (job_path n p)) with inl x => Some x | inr _ => None end.
Definition is_dir (x : option node) : bool := match x with Some NDir => true | _ => false end.
(** All directories on the way to [p] exist. *)
Fixpoint proper_prefixes (p : list bytes) : list (list bytes) :=
  match p with [] => [] | c :: r => [] :: map (cons c) (proper_prefixes r) end.
Definition reach (s : state) (n : nat) (p : list bytes) : bool := forallb (fun d => is_dir (look s n d)) (proper_prefixes p).
Fixpoint list_prefixb (p q : list bytes) : bool :=
  match p, q with [] , _ => true | a :: p', b :: q' => bytes_eqb a b && list_prefixb p' q' | _, _ => false end.

Inductive reply := ROk | RErr (e : errno) | RNode (x : node) | RData (d : bytes) | RNames (l : list bytes).
Definition unit_reply (r : state * (unit + errno)) : state * reply :=
  (fst r, match snd r with inl _ => ROk | inr e => RErr e end).

Definition request (s : state) (n : nat) (o : op) : state * reply :=
  match o with
  | OLook p =>
    if reach s n p then
      let r := tup_fs_getattr s (job_path n p) in (fst r, match snd r with inl x => RNode x | inr e => RErr e end)
    else (s, RErr ENOENT)
  | OCreate p =>
    if reach s n p then match look s n p with Some _ => (s, RErr EEXIST) | None => unit_reply (tup_fs_create s (job_path n p)) end
    else (s, RErr ENOENT)
  | OSymlink t p =>
    if reach s n p then match look s n p with Some _ => (s, RErr EEXIST) | None => unit_reply (tup_fs_symlink s t (job_path n p)) end
    else (s, RErr ENOENT)
  | OMkdir p =>
    if reach s n p then match look s n p with Some _ => (s, RErr EEXIST) | None => unit_reply (tup_fs_mkdir s (job_path n p)) end
    else (s, RErr ENOENT)
  | ORmdir p =>
    if reach s n p then
      match look s n p with
      | Some NDir => unit_reply (tup_fs_rmdir s (job_path n p))
      | Some _ => (s, RErr ENOTDIR)
      | None => (s, RErr ENOENT)
      end
    else (s, RErr ENOENT)
  | OUnlink p =>
    if reach s n p then
      match look s n p with
      | Some NDir => (s, RErr EISDIR)
      | Some _ => unit_reply (tup_fs_unlink s (job_path n p))
      | None => (s, RErr ENOENT)
      end
    else (s, RErr ENOENT)
  | ORename p q =>
    if reach s n p && reach s n q then
      if list_prefixb p q && list_prefixb q p then match look s n p with Some _ => (s, ROk) | None => (s, RErr ENOENT) end
      else if list_prefixb p q then (s, RErr EINVAL)
      else if list_prefixb q p then (s, RErr ENOTEMPTY)
      else
        match look s n p, look s n q with
        | None, _ => (s, RErr ENOENT)
        | Some NDir, Some NDir => unit_reply (tup_fs_rename s (job_path n p) (job_path n q))
        | Some NDir, Some _ => (s, RErr ENOTDIR)
        | Some _, Some NDir => (s, RErr EISDIR)
        | Some _, _ => unit_reply (tup_fs_rename s (job_path n p) (job_path n q))
        end
    else (s, RErr ENOENT)
  | OOpen p wr =>
    if reach s n p then
      match look s n p with
      | Some (NFile _) => unit_reply (tup_fs_open s (job_path n p) wr)
      | Some _ => (s, RErr EISDIR)
      | None => (s, RErr ENOENT)
      end
    else (s, RErr ENOENT)
  | ORead p =>
    if reach s n p then
      match look s n p with
      | Some (NFile _) => (s, match tup_fs_read s (job_path n p) with inl d => RData d | inr e => RErr e end)
      | Some _ => (s, RErr EISDIR)
      | None => (s, RErr ENOENT)
      end
    else (s, RErr ENOENT)
  | OWrite p off d =>
    if reach s n p then
      match look s n p with
      | Some (NFile _) => unit_reply (tup_fs_write s (job_path n p) off d)
      | Some _ => (s, RErr EISDIR)
      | None => (s, RErr ENOENT)
      end
    else (s, RErr ENOENT)
  | OTruncate p size =>
    if reach s n p then
      match look s n p with
      | Some (NFile _) => unit_reply (tup_fs_truncate s (job_path n p) size)
      | Some _ => (s, RErr EISDIR)
      | None => (s, RErr ENOENT)
      end
    else (s, RErr ENOENT)
  | OList p =>
    if reach s n p then
      match look s n p with
      | Some NDir => let r := tup_fs_readdir s (job_path n p) in (fst r, match snd r with inl l => RNames l | inr e => RErr e end)
      | Some _ => (s, RErr ENOTDIR)
      | None => (s, RErr ENOENT)
      end
    else (s, RErr ENOENT)
  end.
(** Any interleaving of the requests of the jobs. *)
Fixpoint requests (s : state) (l : list (nat * op)) : state :=
  match l with [] => s | (n, o) :: r => requests (fst (request s n o)) r end.
End Server.

(** file.c:814-833, on the files: each mapping is moved to its name; renameat
    works if the directory exists. *)
Definition move_ok (d : list (bytes * node)) (m : mapping) : bool := is_dir (get (dirname (realname m)) d).
Definition move_one (t d : list (bytes * node)) (m : mapping) : list (bytes * node) :=
  match get (tmpname m) t with
  | Some x => if move_ok d m then put (realname m) x d else d
  | None => d
  end.
Definition move_out (t d : list (bytes * node)) (ms : list mapping) : list (bytes * node) := fold_left (move_one t) ms d.

(** fuse_fs.c:71-79 tup_fuse_add_group with file.c's init_file_info(): a job
    starts with no files. *)
Definition start_job (s : state) (n : nat) : state := set_job s n {| jmaps := []; jdirs := []; jevs := [] |}.
(** fuse_fs.c:81-85 tup_fuse_rm_group, after write_files(): the files that the
    check of the outputs kept (file.c:700-812 and db.c's check_actual_outputs, see
    FileModel.v and TentModel.v; here [keep]) are moved to their names
    (file.c:814-833), the others are removed (file.c:604-610 del_map after an
    unlink). *)
Definition drop_tmp (ms : list mapping) (t : list (bytes * node)) : list (bytes * node) := fold_left (fun t m => del (tmpname m) t) ms t.
Definition end_job (s : state) (n : nat) (keep : bytes -> bool) : state :=
  match jobs s n with
  | None => s
  | Some j => {| disk := move_out (tmp s) (disk s) (filter (fun m => keep (realname m)) (jmaps j)); tmp := drop_tmp (jmaps j) (tmp s);
                 filenum := filenum s; jobs := fun m => if Nat.eqb m n then None else jobs s m |}
  end.
