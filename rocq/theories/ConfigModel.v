(** tup.config, the stored variables, the vardict file and varsed:
    fslurp.c, vardb.c, string_tree.c, vardict.c, varsed.c and parts of db.c. *)
From Verif Require Import Base.

Definition newline : ascii := "010"%char.
Definition nul : ascii := "000"%char.
Definition dquote : ascii := """"%char.

(** fslurp.c:48-102 do_slurp, for reads that succeed: the file without a leading
    UTF-8 byte-order mark. Without [extra] the buffer has no terminating NUL. *)
Definition bom : bytes := ["239"; "187"; "191"]%char.
Definition slurp (file : bytes) : bytes := if prefixb bom file then skipn 3 file else file.

(** isspace() in the C locale. *)
Definition isspace (c : ascii) : bool := let n := nat_of_ascii c in (n =? 32) || ((9 <=? n) && (n <=? 13)).

(** strchr() in a buffer that need not end with a NUL: the text before the
    character, or the NUL comes first, or it reads past the end of the buffer. *)
Inductive chr_res := Chr (before : bytes) | ChrNul | ChrOver.
Fixpoint strchr (c : ascii) (s : bytes) : chr_res :=
  match s with
  | [] => ChrOver
  | x :: t =>
    if x =?c c then Chr []
    else if x =?c nul then ChrNul
    else match strchr c t with Chr b => Chr (x :: b) | r => r end
  end.

(** strchr() in a string that was terminated before: what is before and after
    the character. *)
Fixpoint cut (c : ascii) (s : bytes) : option (bytes * bytes) :=
  match s with
  | [] => None
  | x :: t => if x =?c c then Some ([], t)
              else match cut c t with Some (a, b) => Some (x :: a, b) | None => None end
  end.

(** db.c:7689-7692: trailing white space is cut off. *)
Fixpoint lstrip (s : bytes) : bytes := match s with c :: t => if isspace c then lstrip t else s | [] => [] end.
Definition rstrip (s : bytes) : bytes := rev (lstrip (rev s)).

(** compat.h:48 name_cmp = strcmp on strings without NUL: bytes compare as
    unsigned char. *)
Fixpoint strcmp (a b : bytes) : comparison :=
  match a, b with
  | [], [] => Eq
  | [], _ => Lt
  | _, [] => Gt
  | x :: a', y :: b' =>
    match Nat.compare (nat_of_ascii x) (nat_of_ascii y) with Eq => strcmp a' b' | r => r end
  end.

(** vardb.c: the tree as the list of its entries in order (RB_MIN, RB_NEXT).
    58-128 vardb_set2 replaces the value or inserts. *)
Definition vardb := list (bytes * bytes).
Fixpoint vardb_set (v : vardb) (var value : bytes) : vardb :=
  match v with
  | [] => [(var, value)]
  | (k, w) :: v' =>
    match strcmp var k with
    | Lt => (var, value) :: v
    | Eq => (var, value) :: v'
    | Gt => (k, w) :: vardb_set v' var value
    end
  end.

(** db.c:7694-7741, one line with the trailing white space cut off. *)
Definition set_line (p : bytes) (v : vardb) : option vardb :=
  match p with
  | [] => Some v
  | c :: _ =>
    if c =?c "#"%char then
      if prefixb (B "# CONFIG_") p then
        match cut " "%char (skipn 9 p) with
        | None => None
        | Some (name, _) => Some (vardb_set v name (B "n"))
        end
      else Some v
    else if prefixb (B "CONFIG_") p then
      match cut "="%char p with
      | None => None
      | Some (pre, post) =>
        match post with
        | q :: rest =>
          if q =?c dquote then
            match cut dquote rest with
            | None => None
            | Some (value, _) => Some (vardb_set v (skipn 7 pre) value)
            end
          else Some (vardb_set v (skipn 7 pre) post)
        | [] => Some (vardb_set v (skipn 7 pre) [])
        end
      end
    else None
  end.

(** db.c:7672-7748 get_file_var_tree. After a line [p] goes on right behind the
    place where the line was cut. [Over] is a read past the end of the buffer,
    which is undefined. *)
Inductive outcome (A : Type) := Ok (a : A) | Bad | Over | NoFuel.
Arguments Ok {A}. Arguments Bad {A}. Arguments Over {A}. Arguments NoFuel {A}.
Fixpoint var_tree (fuel : nat) (p : bytes) (v : vardb) : outcome vardb :=
  match p with
  | [] => Ok v
  | _ =>
    match fuel with
    | O => NoFuel
    | S fuel' =>
      match strchr newline p with
      | ChrOver => Over
      | ChrNul => Bad
      | Chr line =>
        let l := rstrip line in
        match set_line l v with
        | None => Bad
        | Some v' => var_tree fuel' (skipn (S (length l)) p) v'
        end
      end
    end
  end.
Definition get_file_var_tree (file : bytes) : outcome vardb := let b := slurp file in var_tree (length b) b [].

(** vardb.c:187-237 vardb_compare: the calls that it makes, in order. *)
Inductive call := RemoveVar (n : bytes) | AddVar (n v : bytes) | SameVar (n old v : bytes) (kind : bool).
(** An entry of the database: name, value, and whether its node has type
    TUP_NODE_VAR (db.c:7655 tup_db_get_vardb). *)
Definition dbvars := list (bytes * (bytes * bool)).
Fixpoint vardb_compare (a : dbvars) : vardb -> list call :=
  fix compare_b (b : vardb) : list call :=
    match a, b with
    | [], [] => []
    | [], (n, v) :: b' => AddVar n v :: compare_b b'
    | (n, _) :: a', [] => RemoveVar n :: vardb_compare a' []
    | (na, (va, k)) :: a', (nb, vb) :: b' =>
      match strcmp na nb with
      | Eq => SameVar na va vb k :: vardb_compare a' b'
      | Lt => RemoveVar na :: vardb_compare a' b
      | Gt => AddVar nb vb :: compare_b b'
      end
    end.

(** What the calls do: the stored values, the variables in create_list and
    modify_list, the variables whose directories and commands were flagged, and
    tup_db_var_changed. *)
Record vstate := { stored : bytes -> option bytes; vflag : bytes -> bool; users_flag : bytes -> bool; changed : nat }.
Definition bupd {A} (f : bytes -> A) (n : bytes) (v : A) : bytes -> A := fun m => if bytes_eqb m n then v else f m.
Definition do_call (s : vstate) (c : call) : vstate :=
  match c with
  (* db.c:4948-4971 remove_var: var_flag_dirs, tup_db_modify_cmds_by_input,
     delete_var_entry, delete_name_file *)
  | RemoveVar n => {| stored := bupd (stored s) n None; vflag := bupd (vflag s) n false; users_flag := bupd (users_flag s) n true; changed := S (changed s) |}
  (* db.c:4973-4983 add_var: tup_db_create_node flags the node (1010-1048) *)
  | AddVar n v => {| stored := bupd (stored s) n (Some v); vflag := bupd (vflag s) n true; users_flag := users_flag s; changed := S (changed s) |}
  (* db.c:4985-5001 compare_vars *)
  | SameVar n old v k =>
    if k && (length old =? length v) && bytes_eqb old v then s
    else {| stored := bupd (stored s) n (Some v); vflag := bupd (vflag s) n true; users_flag := users_flag s; changed := S (changed s) |}
  end.
Definition apply_config (old : dbvars) (new : vardb) (s : vstate) : vstate := fold_left do_call (vardb_compare old new) s.

(** db.c:4882-4946 save_vardict_file: the number of entries, the offsets, and
    "name=value\0" for each; unsigned int is 32 bits, little endian. *)
Definition le32 (n : N) : bytes :=
  map (fun i => ascii_of_N (N.modulo (N.div n (N.pow 256 i)) 256)) [0%N; 1%N; 2%N; 3%N].
Definition entry_text (e : bytes * bytes) : bytes := fst e ++ "="%char :: snd e ++ [nul].
Fixpoint offsets (x : N) (v : vardb) : bytes :=
  match v with
  | [] => []
  | (n, w) :: v' => le32 x ++ offsets (x + N.of_nat (length n + 1 + length w + 1)) v'
  end.
Definition vardict_bytes (v : vardb) : bytes := le32 (N.of_nat (length v)) ++ offsets 0 v ++ concat (map entry_text v).

(** vardict.c:42-108 tup_vardict_init and 110-161 tup_config_var on the bytes of
    the file. [char] is signed. *)
Inductive found := Hit (value : bytes) | Miss | Broken.
Definition le32_read (s : bytes) : option N :=
  match s with
  | a :: b :: c :: d :: _ => Some (N_of_ascii a + 256 * (N_of_ascii b + 256 * (N_of_ascii c + 256 * N_of_ascii d)))%N
  | _ => None
  end.
Definition schar (c : ascii) : Z := let z := Z.of_N (N_of_ascii c) in if (z <? 128)%Z then z else (z - 256)%Z.
Fixpoint c_string (s : bytes) : option bytes :=
  match s with
  | [] => None
  | c :: t => if c =?c nul then Some [] else option_map (cons c) (c_string t)
  end.
(** 136-160: comparing the key with an entry. *)
Inductive probe_res := Left | Right | Value (rest : bytes) | Off.
Fixpoint probe (p k : bytes) : probe_res :=
  match k with
  | [] => match p with [] => Off | c :: p' => if c =?c "="%char then Value p' else Right end
  | y :: k' =>
    match p with
    | [] => Off
    | x :: p' =>
      if x =?c "="%char then Left
      else if (schar x <? schar y)%Z then Left
      else if (schar y <? schar x)%Z then Right
      else probe p' k'
    end
  end.
(** 123-162: [len] is the length of the file, [index] its offsets, [entries] the
    rest. *)
Fixpoint search (fuel : nat) (len num : N) (index entries key : bytes) (left right : Z) : found :=
  match fuel with
  | O => Broken
  | S fuel' =>
    let half := Z.div (right - left) 2 in
    if (half <=? 0)%Z then Miss
    else
      let cur := (half + left)%Z in
      if (Z.of_N num <=? cur)%Z then Miss
      else
        match le32_read (skipn (4 * Z.to_nat cur) index) with
        | None => Broken
        | Some off =>
          if (len <=? off)%N then Miss
          else
            match probe (skipn (N.to_nat off) entries) key with
            | Left => search fuel' len num index entries key cur right
            | Right => search fuel' len num index entries key left cur
            | Value rest => match c_string rest with Some v => Hit v | None => Broken end
            | Off => Broken
            end
        end
  end.
Definition config_var (file key : bytes) : found :=
  match file with
  | [] => Miss
  | _ =>
    match le32_read file with
    | None => Broken
    | Some num =>
      let index := skipn 4 file in
      if (N.of_nat (length file) <? 4 + 4 * num)%N then Broken
      else search (S (N.to_nat num)) (N.of_nat (length file)) num index (skipn (4 * N.to_nat num) index) key (-1) (Z.of_N num)
    end
  end.

(** varsed.c:76-138 var_replace: the bytes that it writes. [lookup] is
    tup_config_var. *)
Definition isname (c : ascii) : bool :=
  let n := nat_of_ascii c in
  ((48 <=? n) && (n <=? 57)) || ((65 <=? n) && (n <=? 90)) || ((97 <=? n) && (n <=? 122)) || (n =? 95).
Definition at_sign : ascii := "@"%char.
Fixpoint span (f : ascii -> bool) (s : bytes) : bytes * bytes :=
  match s with
  | c :: t => if f c then let (a, b) := span f t in (c :: a, b) else ([], s)
  | [] => ([], [])
  end.
Definition bin_value (binmode : bool) (v : bytes) : bytes :=
  if binmode && (length v =? 1) then
    if bytes_eqb v (B "y") then B "1" else if bytes_eqb v (B "n") then B "0" else v
  else v.
Fixpoint replace (fuel : nat) (lookup : bytes -> option bytes) (binmode : bool) (p : bytes) : option bytes :=
  match fuel with
  | O => None
  | S fuel' =>
    let (text, rest) := span (fun c => negb (c =?c at_sign)) p in
    match rest with
    | [] => Some text
    | _ :: after =>
      let (name, rat) := span isname after in
      let go out p' := match p' with [] => Some (text ++ out) | _ => option_map (fun o => text ++ out ++ o) (replace fuel' lookup binmode p') end in
      match rat with
      | c :: rest' =>
        if c =?c at_sign then go (match lookup name with Some v => bin_value binmode v | None => [] end) rest'
        else go (at_sign :: name) rat
      | [] => go (at_sign :: name) []
      end
    end
  end.
Definition var_replace (lookup : bytes -> option bytes) (binmode : bool) (file : bytes) : option bytes :=
  let b := slurp file in replace (S (length b)) lookup binmode b.

(** The steps of updater.c:1000-1156 process_config_nodes that concern one
    configuration: tup_db_read_vars (db.c:5003) and then commit or rollback. The
    vardict file is written before the commit. *)
Record cworld := { config : vardb; committed : vardb; dict : vardb }.
Definition plain_db (v : vardb) : dbvars := map (fun e => (fst e, (snd e, true))) v.
Definition vars_changed (w : cworld) : bool :=
  negb (changed (apply_config (plain_db (committed w)) (config w) {| stored := fun _ => None; vflag := fun _ => false; users_flag := fun _ => false; changed := 0 |}) =? 0).
(** db.c:5046 and 4889: the file is written if something changed. *)
Definition read_config (w : cworld) : cworld :=
  {| config := config w; committed := config w; dict := if vars_changed w then config w else dict w |}.
(** The process dies, or another configuration has an error, after db.c:5047 and
    before the commit (updater.c:1145). *)
Definition read_aborted (w : cworld) : cworld :=
  {| config := config w; committed := committed w; dict := if vars_changed w then config w else dict w |}.
(** [aborts] says whether updates can fail or be killed. *)
Inductive chistory (aborts : bool) : cworld -> Prop :=
| ch_init : chistory aborts {| config := []; committed := []; dict := [] |}
| ch_edit w file v : chistory aborts w -> get_file_var_tree file = Ok v -> chistory aborts {| config := v; committed := committed w; dict := dict w |}
| ch_read w : chistory aborts w -> chistory aborts (read_config w)
| ch_abort w : aborts = true -> chistory aborts w -> chistory aborts (read_aborted w).
