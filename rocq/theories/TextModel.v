(** Reading a Tupfile: logical lines, assignments and conditions
    (src/tup/parser.c:543-771, 1068-1136, 1736-1831; src/tup/fslurp.c;
    src/tup/vardb.c; src/tup/luaparser.c:895-978 and luabuiltin/builtin.lua). *)
From Verif Require Import Base ConfigModel ParseModel IfModel.
From Coq Require Import ZArith.

Definition cr : ascii := ascii_of_nat 13.

(** ** Lines *)

(** parser.c:543-552 get_newline: what precedes the first newline or NUL and what
    follows it; nothing follows the NUL that fslurp_null() put at the end. *)
Fixpoint get_newline (r : bytes) : bytes * option bytes :=
  match r with
  | [] => ([], None)
  | c :: t =>
      if (c =?c newline) || (c =?c nul) then ([], Some t)
      else let '(a, b) := get_newline t in (c :: a, b)
  end.
Definition ends_with (m s : bytes) : bool := prefixb (rev m) (rev s).
Definition chop (n : nat) (s : bytes) : bytes := firstn (length s - n) s.
(** parser.c:589 the test for a line that is continued. newline[-2] is the byte
    before the line if the line has one byte; then newline[-1] is that byte, which
    is not a space, so the test fails whatever the byte before is. *)
Definition continued (line : bytes) : bool := ends_with [backslash] line || ends_with [backslash; cr] line.
(** parser.c:590-594: the backslash, the carriage return and the newline become
    spaces. *)
Definition blank_out (line : bytes) : bytes :=
  if ends_with [backslash] line then chop 1 line ++ [space; space] else chop 2 line ++ [space; space; space].

(** parser.c:580-602, with [acc] the part of the line that has been joined. A
    backslash at the very end of the file overwrites the NUL, and get_newline() then
    reads past the buffer: [Overrun]. *)
Inductive got := Overrun | Stuck | Got (lno : nat) (line : bytes) (rest : option bytes).
Fixpoint take_line (fuel : nat) (lno : nat) (acc r : bytes) : got :=
  match fuel with
  | 0 => Stuck
  | S fuel =>
      let '(b, a) := get_newline r in
      let line := acc ++ b in
      if continued line then
        match a with
        | None => Overrun
        | Some a' => take_line fuel (S lno) (blank_out line) a'
        end
      else Got (S lno) line a
  end.
(** parser.c:569-574: blank lines and indentation. *)
Fixpoint skip_blank (lno : nat) (r : bytes) : nat * bytes :=
  match r with
  | c :: t => if isspace c then skip_blank (if c =?c newline then S lno else lno) t else (lno, r)
  | [] => (lno, [])
  end.
(** parser.c:566-614: the next line that is no comment. [Ended] is the end of the
    file. *)
Inductive next := Ended | Broken | Next (lno : nat) (line rest : bytes).
Fixpoint next_line (fuel : nat) (lno : nat) (r : bytes) : next :=
  match fuel with
  | 0 => Broken
  | S fuel =>
      let '(n, r1) := skip_blank lno r in
      match r1 with
      | [] => Ended
      | c :: _ =>
          match take_line (S (length r1)) n [] r1 with
          | Got n1 line rest =>
              let rest := match rest with Some x => x | None => [] end in
              if c =?c "#"%char then next_line fuel n1 rest else Next n1 (rstrip line) rest
          | _ => Broken
          end
      end
  end.

(** parser.c:589 reads the byte before the buffer if the first line of the file
    has one byte. *)
Definition reads_before (f : bytes) : bool :=
  match fst (get_newline f) with [c] => negb (isspace c) && negb (c =?c backslash) | _ => false end.

(** parser.c:554-703 parse_tupfile. The directives are [do_line] of IfModel.v;
    [OutOfBounds] is the read past the buffer. [slurp] of ConfigModel.v is
    fslurp_null(), which drops a byte order mark; the file does not change while it
    is read. *)
Section Parse.
Variable St : Type.
Variable eval_eq : St -> bytes -> St * option bool.
Variable var_ifdef : St -> bytes -> St * option bool.
Variable other : St -> bytes -> St * bool.
Inductive verdict := Parsed | ErrorAt (lno : nat) | MissingEndif | OutOfBounds.
Fixpoint parse_loop (fuel : nat) (s : St) (i : if_stmt) (lno : nat) (r : bytes) : St * verdict :=
  match fuel with
  | 0 => (s, OutOfBounds)
  | S fuel =>
      match next_line (S (length r)) lno r with
      | Ended => (s, if if_check i then Parsed else MissingEndif)
      | Broken => (s, OutOfBounds)
      | Next n l rest =>
          match do_line St eval_eq var_ifdef other s i l with
          | (s1, None) => (s1, ErrorAt n)
          | (s1, Some i1) => parse_loop fuel s1 i1 n rest
          end
      end
  end.
Definition parse_tupfile (s : St) (file : bytes) : St * verdict :=
  let r := slurp file in parse_loop (S (length r)) s if_init 0 r.
End Parse.

(** ** Variables *)

(** builtin.lua:188-211: the variables of the Tupfile that is being read, each a
    table of strings. *)
Definition vars := list (bytes * list bytes).
Fixpoint find_var {A} (x : bytes) (l : list (bytes * A)) : option A :=
  match l with [] => None | (y, v) :: r => if bytes_eqb y x then Some v else find_var x r end.
Definition put_var {A} (x : bytes) (v : A) (l : list (bytes * A)) : list (bytes * A) :=
  (x, v) :: filter (fun e => negb (bytes_eqb (fst e) x)) l.

(** luaparser.c:895-927 tup_string_to_lua: cut at a space, then skip all white
    space. *)
Fixpoint to_table (fuel : nat) (s : bytes) : list bytes :=
  match fuel with
  | 0 => []
  | S fuel =>
      match cut space s with
      | None => [s]
      | Some (a, b) => a :: to_table fuel (lstrip b)
      end
  end.
Definition string_to_lua (s : bytes) : list bytes := to_table (S (length s)) s.
(** luaparser.c:190-222 tuplua_table_tostring. lua_next() goes through the table
    in the order of its indices. *)
Fixpoint table_to_string (l : list bytes) : bytes :=
  match l with [] => [] | [x] => x | x :: r => x ++ space :: table_to_string r end.

(** luaparser.c:929-950 luadb_set and luadb_append with builtin.lua:169-192
    tup_append_assignment. *)
Definition luadb_set (x : bytes) (v : bytes) (l : vars) : vars := put_var x (string_to_lua v) l.
Definition luadb_append (x : bytes) (v : bytes) (l : vars) : vars :=
  put_var x (match find_var x l with Some t => t | None => [] end ++ string_to_lua v) l.
(** luaparser.c:952-978 luadb_copy; a variable that is not set is empty. *)
Definition luadb_copy (l : vars) (x : bytes) : option bytes :=
  if (4095 <=? Z.of_nat (length x))%Z then None
  else Some (match find_var x l with Some t => table_to_string t | None => [] end).

(** vardb.c:52-151 vardb_set, vardb_append and vardb_copy, for &-variables. *)
Definition vardb_append (x v : bytes) (l : list (bytes * bytes)) : list (bytes * bytes) :=
  put_var x (match find_var x l with Some o => o ++ space :: v | None => v end) l.
Definition vardb_copy (l : list (bytes * bytes)) (x : bytes) : option bytes :=
  Some (match find_var x l with Some v => v | None => [] end).

(** parser.c:1744-1778: the name, whether to append, and the value. The first byte
    of the line is never taken off the name. *)
Definition keep_first (a : bytes) : bytes := match a with [] => [] | c :: t => c :: rstrip t end.
Definition split_assignment (line : bytes) : option (bytes * bool * bytes) :=
  match strstr (B "+=") line with
  | Some (a, b) => Some (keep_first a, true, lstrip b)
  | None =>
      match strstr (B ":=") line with
      | Some (a, b) => Some (keep_first a, false, lstrip b)
      | None =>
          match cut "="%char line with
          | Some (a, b) => Some (keep_first a, false, lstrip b)
          | None => None
          end
      end
  end.

Record env := { e_vars : vars; e_nodes : list (bytes * bytes); e_done : list bytes }.

Section Directives.
(** The directory names and configuration variables that eval() finds
    (parser.c:4243-4330), the reference that a file name has for a &-variable
    (parser.c:1792-1812, None: not found or of the wrong type), the environment
    (tup_db_findenv), whether a configuration variable is defined (None: error), and
    whatever the other directives do. [e_done] stands for all they change besides
    the variables. *)
Variable cwd variantdir outputdir : bytes.
Variable config : bytes -> option bytes.
Variable node_ref : bytes -> option bytes.
Variable node_path : Z -> option bytes.
Variable getenv : bytes -> option bytes.
Variable defined : bytes -> option bool.
Variable others : env -> bytes -> env * bool.

(** parser.c:4211 eval with KEEP_NODES in the current state; None is the error. *)
Definition eval_text (s : env) (t : bytes) : option bytes :=
  match eval (dollar_lookup cwd variantdir outputdir config (luadb_copy (e_vars s))) config (vardb_copy (e_nodes s)) node_path true t with
  | Ok o => Some o
  | _ => None
  end.
Definition config_prefix : bytes := B "CONFIG_".

(** parser.c:1818-1822: a variable of the Tupfile is set. *)
Definition set_plain (s : env) (x : bytes) (app : bool) (v : bytes) : env :=
  {| e_vars := if app then luadb_append x v (e_vars s) else luadb_set x v (e_vars s); e_nodes := e_nodes s; e_done := e_done s |}.
(** parser.c:1736-1831 set_variable. Evaluating notes the configuration variables
    that are read (C19), which is not part of this state. *)
Definition set_variable (s : env) (line : bytes) : env * bool :=
  match split_assignment line with
  | None => (s, false)
  | Some (name, app, value) =>
      match eval_text s name with
      | None => (s, false)
      | Some x =>
          match eval_text s value with
          | None => (s, false)
          | Some v =>
              if prefixb config_prefix x then (s, false)
              else
                match x with
                | c :: y =>
                    if c =?c "&"%char then
                      match node_ref v with
                      | None => (s, false)
                      | Some r => ({| e_vars := e_vars s;
                                      e_nodes := if app then vardb_append y r (e_nodes s) else put_var y r (e_nodes s);
                                      e_done := e_done s |}, true)
                      end
                    else (set_plain s x app v, true)
                | [] => (set_plain s x app v, true)
                end
          end
      end
  end.

(** parser.c:1087-1141 import: the value from the environment, or the default, or
    no value. *)
Definition import (s : env) (arg : bytes) : env * bool :=
  match arg with
  | [] => (s, false)
  | _ =>
      let '(x, d) := match cut "="%char arg with Some (a, b) => (a, Some b) | None => (arg, None) end in
      match (match getenv x with Some v => Some v | None => d end) with
      | Some v => ({| e_vars := luadb_set x v (e_vars s); e_nodes := e_nodes s; e_done := e_done s |}, true)
      | None => ({| e_vars := filter (fun e => negb (bytes_eqb (fst e) x)) (e_vars s); e_nodes := e_nodes s; e_done := e_done s |}, true)
      end
  end.

(** parser.c:705-750 eval_eq: the first parenthesis, the first comma after it and
    the last closing parenthesis after the first byte; these two end the texts,
    wherever they are. *)
Fixpoint last_index (c : ascii) (s : bytes) : option nat :=
  match s with
  | [] => None
  | x :: t => match last_index c t with Some n => Some (S n) | None => if x =?c c then Some 0 else None end
  end.
Definition eq_parts (expr : bytes) : option (bytes * bytes) :=
  match cut "("%char expr with
  | None => None
  | Some (a, r) =>
      match cut ","%char r with
      | None => None
      | Some (l, v) =>
          match last_index ")"%char expr with
          | None | Some 0 => None
          | Some n =>
              let i := S (length a) in
              let k := i + S (length l) in
              Some (if (i <=? n) && (n <? k) then firstn (n - i) l else l, if k <=? n then firstn (n - k) v else v)
          end
      end
  end.
Definition eval_eq (s : env) (expr : bytes) : env * option bool :=
  match eq_parts expr with
  | None => (s, None)
  | Some (l, r) =>
      match eval_text s l, eval_text s r with
      | Some x, Some y => (s, Some (bytes_eqb x y))
      | _, _ => (s, None)
      end
  end.
(** parser.c:752-770 var_ifdef. *)
Definition var_ifdef (s : env) (arg : bytes) : env * option bool :=
  (s, defined (if prefixb config_prefix arg then skipn 7 arg else arg)).

(** parser.c:649-687: the other directives. *)
Definition directive (s : env) (line : bytes) : env * bool :=
  if prefixb (B "error ") line then (s, false)
  else if prefixb (B "include ") line then others s line
  else if bytes_eqb line (B "include_rules") then others s line
  else if prefixb (B "preload ") line then others s line
  else if prefixb (B "run ") line then others s line
  else if prefixb (B "export ") line then others s line
  else if prefixb (B "import ") line then import s (skipn 7 line)
  else if bytes_eqb line (B ".gitignore") then others s line
  else
    match line with
    | c :: _ => if (c =?c ":"%char) || (c =?c "!"%char) then others s line else set_variable s line
    | [] => set_variable s line
    end.
Definition run_tupfile (s : env) (file : bytes) : env * verdict := parse_tupfile env eval_eq var_ifdef directive s file.
End Directives.
