(** include and include_rules (parser.c). *)
From Verif Require Import Base ConfigModel ParseModel PathModel IfModel TextModel.

(** A directory is the list of names that leads to it from the top of the
    project. *)
Definition dir : Type := list bytes.

Section include.
Variable St : Type.
(** The state of the parser: tf->curtent (and tf->cur_dfd), tf->including_rules
    and everything else; [stuck] is that the model ran out of fuel. *)
Record pstate := { cur : dir; incl : bool; stuck : bool; user : St }.
Definition set_cur s c := {| cur := c; incl := incl s; stuck := stuck s; user := user s |}.
Definition set_incl s b := {| cur := cur s; incl := b; stuck := stuck s; user := user s |}.
Definition set_user s u := {| cur := cur s; incl := incl s; stuck := stuck s; user := u |}.
Definition set_stuck s := {| cur := cur s; incl := incl s; stuck := true; user := user s |}.

(** get_tup_top(); ifeq, ifdef (parser.c:705-770), eval of the name of an
    included file, and all other directives, which may depend on the current
    directory but do not change it; the Lua parser. *)
Variable top : bytes.
Variable eval_eq : dir -> St -> bytes -> St * option bool.
Variable var_ifdef : dir -> St -> bytes -> St * option bool.
Variable eval_name : dir -> St -> bytes -> St * option bytes.
Variable rest : dir -> St -> bytes -> St * bool.
Variable lua : dir -> St -> bytes -> St * bool.
(** Whether the database has an entry with this path; whether there is a file
    with this path; handle_file_dtent (file.c:197-230), which notes that the path
    was read; parser_entry_open (parser.c:373-424) with fslurp_null, which notes
    the read and gives the contents. *)
Variable is_node : dir -> bool.
Variable on_disk : dir -> bool.
Variable note_read : St -> dir -> St * bool.
Variable open_file : St -> dir -> St * option bytes.

(** create_name_file.c:592-667, the loop of find_dir_tupid_dt_pg without ghosts
    (SOTGV_NO_GHOST). At the top, '..' gives up. *)
Fixpoint walk (c : dir) (es : list bytes) : option dir :=
  match es with
  | [] => Some c
  | e :: es =>
      if bytes_eqb e (B "..") then match c with [] => None | _ => walk (removelast c) es end
      else if is_node (c ++ [e]) then walk (c ++ [e]) es else None
  end.
(** parser.c:1386-1404 with create_name_file.c:561-667: the directory and the
    last element of the path. The check of the variant is left out (there is
    only one). *)
Definition include_target (c : dir) (file : bytes) : option (dir * bytes) :=
  match get_path_elements top file with
  | None => None
  | Some pg =>
      if pg_hidden pg || pg_outside pg then None
      else match path_list pg with
           | [] => None
           | _ :: _ =>
               match walk (if pg_root pg then [] else c) (removelast (path_list pg)) with
               | None => None
               | Some d => Some (d, last (path_list pg) [])
               end
           end
  end.
(** parser.c:1431-1433: the first ".lua" in the path as it is written must be
    its end. *)
Definition is_lua (file : bytes) : bool := match strstr (B ".lua") file with Some (_, []) => true | _ => false end.

Section directives.
Variable directive : pstate -> bytes -> pstate * bool.
(** parser.c:554-703 parse_tupfile with the conditions of this parser. *)
Definition parse_text (s : pstate) (text : bytes) : pstate * bool :=
  match parse_tupfile pstate
          (fun s e => let '(u, r) := eval_eq (cur s) (user s) e in (set_user s u, r))
          (fun s e => let '(u, r) := var_ifdef (cur s) (user s) e in (set_user s u, r)) directive s text with
  | (s, Parsed) => (s, true)
  | (s, _) => (s, false)
  end.
(** parser.c:1370-1466 parser_include_file. *)
Definition include_file (s : pstate) (file : bytes) : pstate * bool :=
  match include_target (cur s) file with
  | None => (s, false)
  | Some (d, name) =>
      if is_node (d ++ [name]) then
        match open_file (user s) (d ++ [name]) with
        | (u, None) => (set_user s u, false)
        | (u, Some text) =>
            let s1 := set_cur (set_user s u) d in
            let '(s2, ok) := if is_lua file then let '(u, ok) := lua d u text in (set_user s1 u, ok) else parse_text s1 text in
            (set_cur s2 (cur s), ok)
        end
      else (s, false)
  end.
(** Where the kernel finds a relative path (fstatat from tf->cur_dfd; the
    directories of the database are not symbolic links), which is also where
    handle_file_dtent puts the note (file.c:197-230). *)
Fixpoint lexical (c : dir) (es : list bytes) : dir :=
  match es with
  | [] => c
  | e :: es => if bytes_eqb e (B "..") then lexical (removelast c) es else lexical (c ++ [e]) es
  end.
Definition found_at (c : dir) (p : bytes) : dir := match split_path_elements p with Some st => lexical c (pl st) | None => [] end.
(** parser.c:792-845 parser_include_rules; [tuprules] is "Tuprules.tup". The
    flag stays
    set when the note fails, which is an error anyway. *)
Fixpoint dotdots (n : nat) : bytes := match n with 0 => [] | S n => B "../" ++ dotdots n end.
Fixpoint rules_loop (n : nat) (s : pstate) (p : bytes) : pstate * bool :=
  let found := found_at (cur s) p in
  match note_read (user s) found with
  | (u, false) => (set_user s u, false)
  | (u, true) =>
      let s := set_user s u in
      let '(s, ok) := if on_disk found then include_file s p else (s, true) in
      if ok then match n with 0 => (s, true) | S n => rules_loop n s (skipn 3 p) end
      else (s, false)
  end.
Definition include_rules (s : pstate) : pstate * bool :=
  if incl s then (s, false)
  else
    let s := set_incl s true in
    let n := length (cur s) in
    let '(s, ok) := rules_loop n s (dotdots n ++ B "Tuprules.tup") in
    (set_incl s false, ok).
End directives.

(** parser.c:649-687, the directives that end in this file. [fuel] bounds the
    depth of includes. *)
Fixpoint directive (fuel : nat) (s : pstate) (line : bytes) : pstate * bool :=
  if prefixb (B "error ") line then (s, false)
  else if prefixb (B "include ") line then
    match eval_name (cur s) (user s) (skipn 8 line) with
    | (u, None) => (set_user s u, false)
    | (u, Some file) =>
        match fuel with
        | 0 => (set_stuck s, false)
        | S f => include_file (directive f) (set_user s u) file
        end
    end
  else if bytes_eqb line (B "include_rules") then
    match fuel with
    | 0 => (set_stuck s, false)
    | S f => include_rules (directive f) s
    end
  else let '(u, ok) := rest (cur s) (user s) line in (set_user s u, ok).
End include.
