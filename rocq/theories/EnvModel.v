(** The environment of commands: src/tup/db.c 5074-5290, src/tup/environ.c,
    src/tup/server/master_fork.c 700-722. *)
From Verif Require Import Base.
From Verif Require ConfigModel.

Definition eq_sign : ascii := "="%char.
Notation nul := ConfigModel.nul.
(** getenv over the strings of environ: the value of the first for the name. *)
Fixpoint getenv (environ : list bytes) (name : bytes) : option bytes :=
  match environ with
  | [] => None
  | s :: r => if prefixb (name ++ [eq_sign]) s then Some (skipn (S (length name)) s) else getenv r name
  end.

(** vardb.c 58-118 vardb_set2, 175-185 vardb_get, with NULL for a value, and the var table with
    "insert or replace". Both are by name: the nodes of the variables are the children of one
    directory. The order is not modelled. *)
Definition table := list (bytes * option bytes).
Fixpoint put (t : table) (n : bytes) (v : option bytes) : table :=
  match t with
  | [] => [(n, v)]
  | (m, w) :: r => if bytes_eqb m n then (n, v) :: r else (m, w) :: put r n v
  end.
Fixpoint get (t : table) (n : bytes) : option (option bytes) :=
  match t with [] => None | (m, w) :: r => if bytes_eqb m n then Some w else get r n end.

(** envdb, the var table, and the two lists of flags. *)
Record st := { envdb : table; var : table; create_list : list bytes; modify_list : list bytes }.
Definition add (n : bytes) (l : list bytes) : list bytes := if existsb (bytes_eqb n) l then l else n :: l.

(** db.c 5074-5097 envdb_set *)
Definition fullenv (n e : bytes) : bytes := n ++ eq_sign :: e.
Definition envdb_set (s : st) (n : bytes) (newenv : option bytes) (write_db : bool) : st :=
  let v := option_map (fullenv n) newenv in
  {| envdb := put (envdb s) n v; var := if write_db then put (var s) n v else var s; create_list := create_list s; modify_list := modify_list s |}.

(** db.c 5099-5165 env_cb *)
Definition env_match (n : bytes) (stored env : option bytes) : bool :=
  match env, stored with
  | Some e, Some s =>
      (length s =? length n + 1 + length e) && bytes_eqb (firstn (length n) s) n &&
      match nth_error s (length n) with Some c => c =?c eq_sign | None => false end && bytes_eqb (skipn (S (length n)) s) e
  | None, None => true
  | _, _ => false
  end.
Definition env_cb (check : bool) (environ : list bytes) (s : st) (n : bytes) (stored : option bytes) : st :=
  if check then
    let env := getenv environ n in
    if env_match n stored env then envdb_set s n env false
    else envdb_set {| envdb := envdb s; var := var s; create_list := add n (create_list s); modify_list := add n (modify_list s) |} n env true
  else envdb_set s n (option_map (skipn (S (length n))) stored) false.
(** db.c 5167-5186 tup_db_check_env: over the table as it is at the start. *)
Definition check_env (check : bool) (environ : list bytes) (s : st) : st :=
  fold_left (fun s e => env_cb check environ s (fst e) (snd e)) (var s) s.

(** db.c 5188-5221 tup_db_findenv *)
Definition findenv (environ : list bytes) (s : st) (n : bytes) : st :=
  match get (envdb s) n with
  | Some _ => s
  | None => envdb_set s n (getenv environ n) true
  end.
(** environ.c 27-50 (not on Windows), 52-62; parser.c 1068-1085 export, 1087-1115 import: the
    variables a run of the parser asks for. A new process begins with an empty envdb. *)
Definition default_env : list bytes := [B "PATH"; B "HOME"].
Record run := { checks : bool; env_of : list bytes; asked : list bytes }.
Definition tup_run (s : st) (r : run) : st :=
  let s := check_env (checks r) (env_of r) {| envdb := []; var := var s; create_list := create_list s; modify_list := modify_list s |} in
  fold_left (findenv (env_of r)) (asked r) s.

(** db.c 5223-5287 tup_db_get_environ, for the variables among the command's sticky inputs, in the
    order of their ids. *)
Definition ccache_nodirect : bytes := B "CCACHE_NODIRECT=1".
Record tup_env := { envblock : bytes; block_size : nat; num_entries : nat }.
Fixpoint sizes (s : st) (root : list bytes) (size num : nat) : option (nat * nat) :=
  match root with
  | [] => Some (size, num)
  | n :: r => match get (envdb s) n with
              | None => None
              | Some (Some v) => sizes s r (size + (length v + 1)) (S num)
              | Some None => sizes s r size num
              end
  end.
Fixpoint block (s : st) (root : list bytes) : option bytes :=
  match root with
  | [] => Some []
  | n :: r => match get (envdb s) n, block s r with
              | Some (Some v), Some b => Some (v ++ nul :: b)
              | Some None, Some b => Some b
              | _, _ => None
              end
  end.
Definition get_environ (s : st) (root : list bytes) : option tup_env :=
  match sizes s root 1 0, block s root with
  | Some (size, num), Some b =>
      Some {| envblock := b ++ ccache_nodirect ++ [nul] ++ [nul]; block_size := size + (length ccache_nodirect + 1); num_entries := num + 1 |}
  | _, _ => None
  end.

(** master_fork.c 704-721: the strings found in the block, which the array for num_entries of them
    and two pointers takes, and the variable for the vardict file. None is reading past the block or
    writing past the array. *)
Fixpoint strings (fuel : nat) (b : bytes) : option (list bytes) :=
  match fuel with
  | 0 => None
  | S fuel =>
      match b with
      | [] => None
      | c :: _ => if c =?c nul then Some []
                  else match ConfigModel.cut nul b with
                       | Some (s, r) => match strings fuel r with Some l => Some (s :: l) | None => None end
                       | None => None
                       end
      end
  end.
Definition envp (te : tup_env) (vardict : bytes) : option (list bytes) :=
  match strings (S (block_size te)) (firstn (block_size te) (envblock te)) with
  | Some l => if length l + 2 <=? num_entries te + 2 then Some (l ++ [B "tup_vardict=" ++ vardict]) else None
  | None => None
  end.
