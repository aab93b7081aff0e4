(** Tupfiles in Lua: the functions that tup adds to the language
    (src/luabuiltin/builtin.lua, src/tup/luaparser.c). *)
From Verif Require Import Base ConfigModel ParseModel TextModel MacroModel.
From Verif Require FuseModel.

(** The values that Tupfiles work with; numbers are natural numbers, and functions
    and node variables are left out. A table is known by its address. *)
Inductive val := Nil | Bool (b : bool) | Num (n : nat) | Str (s : bytes) | Tab (a : nat).

(** A table: the values at 1, 2, ... (none of them nil), the other fields, all
    with strings as keys, and whether its metatable is tup_table_meta
    (builtin.lua:157-164). *)
Record table := { t_arr : list val; t_named : list (bytes * val); t_meta : bool }.

(** A Lua error ends the parse. [Unknown] is what the model does not follow:
    the text of a table without tup_table_meta (its address), the order in
    which lua_next visits fields with names, nil within a constructor, and the
    outcomes of the rest of the parser that are undefined. *)
Inductive res (A : Type) := Ret (a : A) | Error | Unknown.
Arguments Ret {A} a. Arguments Error {A}. Arguments Unknown {A}.
Definition rbind {A C} (r : res A) (f : A -> res C) : res C :=
  match r with Ret a => f a | Error => Error | Unknown => Unknown end.
Definition of_outcome {A} (o : outcome A) : res A := match o with Ok a => Ret a | Bad => Error | Over | NoFuel => Unknown end.
Definition of_option {A} (o : option A) : res A := match o with Some a => Ret a | None => Error end.
Fixpoint rmap {A C} (f : A -> res C) (l : list A) : res (list C) :=
  match l with [] => Ret [] | a :: l => rbind (f a) (fun c => rbind (rmap f l) (fun cs => Ret (c :: cs))) end.

(** ** Tables *)
Definition mem := list table.
Fixpoint upd (m : mem) (a : nat) (t : table) : mem :=
  match m, a with [], _ => [] | _ :: m, 0 => t :: m | x :: m, S a => x :: upd m a t end.
Definition new (m : mem) (t : table) : mem * val := (m ++ [t], Tab (length m)).
Definition plain_table (l : list val) : table := {| t_arr := l; t_named := []; t_meta := false |}.
Definition drop {A} (k : bytes) (l : list (bytes * A)) : list (bytes * A) := filter (fun e => negb (bytes_eqb (fst e) k)) l.
(** A field of a table or a variable; nil takes it away. *)
Definition put (k : bytes) (v : val) (l : list (bytes * val)) : list (bytes * val) :=
  match v with Nil => drop k l | _ => (k, v) :: drop k l end.
Definition got (k : bytes) (l : list (bytes * val)) : val := match find_var k l with Some v => v | None => Nil end.
Definition field (m : mem) (a : nat) (k : bytes) : val := match nth_error m a with Some t => got k (t_named t) | None => Nil end.
Definition set_field (m : mem) (a : nat) (k : bytes) (v : val) : mem :=
  match nth_error m a with
  | Some t => upd m a {| t_arr := t_arr t; t_named := put k v (t_named t); t_meta := t_meta t |}
  | None => m
  end.

(** table.concat takes strings and numbers. *)
Definition scalar (v : val) : res bytes := match v with Str s => Ret s | Num n => Ret (FuseModel.print 10 n) | _ => Error end.
(** luaL_tolstring, with tup_table_meta.__tostring (builtin.lua:158-160); for
    nil tuplua_tostring (luaparser.c:78-87) gives NULL, which its callers report. *)
Definition tostr (m : mem) (v : val) : res bytes :=
  match v with
  | Nil => Error
  | Bool b => Ret (if b then B "true" else B "false")
  | Num _ | Str _ => scalar v
  | Tab a =>
      match nth_error m a with
      | Some t => if t_meta t then rbind (rmap scalar (t_arr t)) (fun l => Ret (table_to_string l)) else Unknown
      | None => Unknown
      end
  end.
(** The values that lua_next gives, in order. *)
Definition items (t : table) : res (list val) := match t_named t with [] => Ret (t_arr t) | _ => Unknown end.
Definition truthy (v : val) : bool := match v with Nil | Bool false => false | _ => true end.

(** builtin.lua:169-192 tup_append_assignment with luaparser.c:296-310
    append_table: what [a += b] puts in [a]. The lengths are taken before
    anything is copied. *)
Definition append_assignment (m : mem) (a b : val) : res (mem * val) :=
  match match a with
        | Str _ => Some (new m (plain_table [a]))
        | Tab _ => Some (m, a)
        | Nil => Some (new m (plain_table []))
        | _ => None
        end with
  | Some (m, Tab x) =>
      match nth_error m x with
      | None => Unknown
      | Some t =>
          match match b with
                | Str _ => Some [b]
                | Tab y => match nth_error m y with Some u => Some (t_arr u) | None => None end
                | Nil => Some []
                | _ => None
                end with
          | Some l => Ret (upd m x {| t_arr := t_arr t ++ l; t_named := t_named t; t_meta := true |}, Tab x)
          | None => Error
          end
      end
  | _ => Error
  end.

(** ** Rules *)
(** The table that tup.frule gets and hands to tup.definerule; the fields that
    are not set are nil. *)
Record args := { a_inputs : val; a_extra_inputs : val; a_command : val; a_outputs : val; a_extra_outputs : val; a_bin : val; a_foreach : val }.

(** builtin.lua:65-70 tableize *)
Definition tableize (m : mem) (v : val) : mem * val := match v with Tab _ => (m, v) | _ => new m (plain_table [v]) end.
(** [:gsub('[{}]', '')] *)
Definition strip_braces (s : bytes) : bytes := filter (fun c => negb ((c =?c "{"%char) || (c =?c "}"%char))) s.

(** builtin.lua:73-82 and 83-88: a field of the list is taken out of the list
    and becomes an argument of its own, [old] if there is none. *)
Definition take_extra (k : bytes) (m : mem) (v old : val) : mem * val :=
  match v with
  | Tab a =>
      let e := field m a k in
      if truthy e then let '(m, e) := tableize m e in (set_field m a k Nil, e) else (m, old)
  | _ => (m, old)
  end.
(** builtin.lua:89-92; only strings have a method gsub. *)
Definition take_bin (m : mem) (v old : val) : res (mem * val) :=
  match v with
  | Tab a =>
      let b := field m a (B "bin") in
      if truthy b then match b with Str s => Ret (set_field m a (B "bin") Nil, Str (strip_braces s)) | _ => Error end else Ret (m, old)
  | _ => Ret (m, old)
  end.
(** builtin.lua:72-98 tup.frule, up to the call of tup.definerule. *)
Definition frule (m : mem) (a : args) : res (mem * args) :=
  let '(m, i, ei) :=
    if truthy (a_inputs a) then
      let '(m, ei) := take_extra (B "extra_inputs") m (a_inputs a) (a_extra_inputs a) in
      let '(m, i) := tableize m (a_inputs a) in (m, i, ei)
    else (m, a_inputs a, a_extra_inputs a) in
  rbind (if truthy (a_outputs a) then
           let '(m, eo) := take_extra (B "extra_outputs") m (a_outputs a) (a_extra_outputs a) in
           rbind (take_bin m (a_outputs a) (a_bin a)) (fun x =>
           let '(m, b) := x in
           let '(m, o) := tableize m (a_outputs a) in Ret (m, o, eo, b))
         else Ret (m, a_outputs a, a_extra_outputs a, a_bin a)) (fun x =>
  let '(m, o, eo, b) := x in
  Ret (m, {| a_inputs := i; a_extra_inputs := ei; a_command := a_command a; a_outputs := o; a_extra_outputs := eo; a_bin := b; a_foreach := a_foreach a |})).

(** builtin.lua:100-145: set_command, set_list, set_string_or_table, get_abc. *)
Definition set_command (v : val) : res val := match v with Str _ => Ret v | _ => Error end.
Definition set_list (v : val) : res val := match v with Tab _ => Ret v | _ => Error end.
Definition set_string_or_table (m : mem) (v : val) : mem * val := match v with Str _ => new m (plain_table [v]) | _ => (m, v) end.
Definition is_nil (v : val) : bool := match v with Nil => true | _ => false end.
Definition is_str (v : val) : bool := match v with Str _ => true | _ => false end.
Definition get_abc (m : mem) (a b c : val) : res (mem * (val * val * val)) :=
  if is_nil c then
    if is_nil b then rbind (set_command a) (fun cmd => Ret (m, (Nil, cmd, Nil)))
    else if is_str a && is_str b then Error
    else if is_str a then
      rbind (set_command a) (fun cmd => rbind (set_list b) (fun o => Ret (m, (Nil, cmd, o))))
    else
      rbind (set_list a) (fun i => rbind (set_command b) (fun cmd => Ret (m, (i, cmd, Nil))))
  else
    let '(m, i) := set_string_or_table m a in
    rbind (set_command b) (fun cmd =>
    let '(m, o) := set_string_or_table m c in Ret (m, (i, cmd, o))).
(** builtin.lua:147-155 tup.rule and tup.foreach_rule, the table for tup.frule. *)
Definition rule_args (m : mem) (each : bool) (a b c : val) : res (mem * args) :=
  rbind (get_abc m a b c) (fun x =>
  let '(m, (i, cmd, o)) := x in
  Ret (m, {| a_inputs := i; a_extra_inputs := Nil; a_command := cmd; a_outputs := o; a_extra_outputs := Nil; a_bin := Nil;
             a_foreach := if each then Num 1 else Nil |})).

(** ** Names *)
Definition is_sep (c : ascii) : bool := (c =?c "/"%char) || (c =?c "\"%char).
(** A match of '[^/\\]*[/\\]' at the start of the text: the rest. *)
Fixpoint past_sep (s : bytes) : option bytes :=
  match s with [] => None | c :: t => if is_sep c then Some t else past_sep t end.
(** builtin.lua:47-50 tup.file: string.gsub takes away each match, and copies a
    byte where there is none. *)
Fixpoint file_loop (fuel : nat) (s : bytes) : bytes :=
  match fuel with
  | 0 => s
  | S fuel => match s with [] => [] | c :: t => match past_sep s with Some r => file_loop fuel r | None => c :: file_loop fuel t end end
  end.
Definition tup_file (s : bytes) : bytes := file_loop (S (length s)) s.
(** isalnum in the C locale. *)
Definition is_alnum (c : ascii) : bool :=
  let n := nat_of_ascii c in ((48 <=? n) && (n <=? 57)) || ((65 <=? n) && (n <=? 90)) || ((97 <=? n) && (n <=? 122)).
(** The first match of '%.%w*$': what is before the dot, and what follows it. *)
Fixpoint dot_end (s : bytes) : option (bytes * bytes) :=
  match s with
  | [] => None
  | c :: t =>
      if (c =?c "."%char) && forallb is_alnum t then Some ([], t)
      else match dot_end t with Some (a, b) => Some (c :: a, b) | None => None end
  end.
(** builtin.lua:52-55 tup.base *)
Definition tup_base (s : bytes) : bytes := match dot_end (tup_file s) with Some (a, _) => a | None => tup_file s end.

(** ** Tupfiles *)
(** What a Tupfile has of its own: its variables (builtin.lua:199-218, a table of
    tupvars) and the environment variables that it depends on (tf->input_root). *)
Record frame := { f_vars : list (bytes * val); f_env : list bytes }.
Definition no_frame : frame := {| f_vars := []; f_env := [] |}.

Section Parser.
(** The rest of the parser, as in MacroModel.v: its state, do_rule, bin_add and
    new_pl with and without the list of bins, and the !-macros. [resolve] is
    parse_dependent_tupfiles with get_name_list, [flags] is tup_printf, [ev] is
    eval() with EXPAND_NODES_SRC (C29), which sees the texts of the
    variables; [returned] are the outputs of the commands that were made
    between two states; [getenv] is the environment. *)
Variable St : Type.
Variable do_rule : St -> request -> outcome St.
Variable resolve : St -> plist -> bool -> outcome (St * list nle).
Variable flags : list nle -> bytes -> option bytes.
Variable ev : St -> list (bytes * res bytes) -> bytes -> option bytes.
Variable add_bin : St -> bytes -> outcome St.
Variable accepts : St -> bytes -> bool.
Variable plain : bytes -> bool.
Variable d : macros.
Variable returned : St -> St -> list bytes.
Variable getenv : bytes -> option bytes.

(** parser.c:2427-2475 eval_path_list: a path that evaluates to something else
    is cut at blanks. *)
Fixpoint words (s : bytes) : list bytes :=
  match s with
  | [] => []
  | c :: t =>
      if (c =?c " "%char) || (c =?c "009"%char) then words t
      else match t with
           | [] => [[c]]
           | x :: _ => if (x =?c " "%char) || (x =?c "009"%char) then [c] :: words t
                       else match words t with w :: ws => (c :: w) :: ws | [] => [[c]] end
           end
  end.
Definition eval_path (vs : list (bytes * res bytes)) (s : St) (nl : option (list nle)) (p : bytes * nat) : outcome plist :=
  match match nl with None => Some (fst p) | Some n => flags n (fst p) end with
  | None => Bad
  | Some t =>
      match ev s vs t with
      | None => Bad
      | Some e =>
          if bytes_eqb e (fst p) then Ok [p]
          else if forallb plain (words e) then Ok (map (fun w => (w, snd p)) (words e)) else Bad
      end
  end.
Fixpoint eval_path_list (vs : list (bytes * res bytes)) (s : St) (nl : option (list nle)) (l : plist) : outcome plist :=
  match l with
  | [] => Ok []
  | p :: l => obind (eval_path vs s nl p) (fun q => obind (eval_path_list vs s nl l) (fun r => Ok (q ++ r)))
  end.
(** parser.c:2276-2287 path_list_to_nl *)
Definition path_list_to_nl (vs : list (bytes * res bytes)) (s : St) (l : plist) (nl : option (list nle)) (copy : bool) : outcome (St * list nle) :=
  obind (eval_path_list vs s nl l) (fun l => resolve s l copy).

(** The state of the parser with Lua in it: the tables, what was put in _G after
    the start (strings only: see import and tup.ext), and the Tupfiles that are
    being parsed, the innermost first (tupvars, tupfile_list). *)
Record lua := { tabs : mem; globs : list (bytes * bytes); frames : list frame; st : St }.
Definition set_tabs (l : lua) (m : mem) : lua := {| tabs := m; globs := globs l; frames := frames l; st := st l |}.
Definition set_st (l : lua) (s : St) : lua := {| tabs := tabs l; globs := globs l; frames := frames l; st := s |}.
Definition set_globs (l : lua) (g : list (bytes * bytes)) : lua := {| tabs := tabs l; globs := g; frames := frames l; st := st l |}.
Definition top (l : lua) : frame := match frames l with f :: _ => f | [] => no_frame end.
Definition set_top (l : lua) (f : frame) : lua :=
  {| tabs := tabs l; globs := globs l; frames := match frames l with _ :: r => f :: r | [] => [] end; st := st l |}.

(** builtin.lua:226-241: tup_environ. Names that are in _G from the start are not
    used as variables here. *)
Definition get_var (l : lua) (x : bytes) : val :=
  match find_var x (f_vars (top l)) with
  | Some v => v
  | None => match find_var x (globs l) with Some s => Str s | None => Nil end
  end.
Definition set_var (l : lua) (x : bytes) (v : val) : lua := set_top l {| f_vars := put x v (f_vars (top l)); f_env := f_env (top l) |}.

(** luaparser.c:952-978 luadb_copy for each variable of the Tupfile. *)
Definition copy (m : mem) (v : val) : res bytes :=
  match v with
  | Tab a => match nth_error m a with
             | Some t => rbind (items t) (fun l => rbind (rmap (tostr m) l) (fun l => Ret (table_to_string l)))
             | None => Unknown
             end
  | Nil => Ret []
  | _ => tostr m v
  end.
Definition texts (l : lua) : list (bytes * res bytes) := map (fun e => (fst e, copy (tabs l) (snd e))) (f_vars (top l)).

(** luaparser.c:160-188 tuplua_table_to_path_list; anything but a table
    is passed over. *)
Definition path_of (l : lua) (v : val) : res bytes :=
  rbind (tostr (tabs l) v) (fun p =>
  rbind (of_option (ev (st l) (texts l) p)) (fun e => if accepts (st l) e then Ret e else Error)).
Definition numbers {A} (l : list A) : list (A * nat) := combine l (seq 1 (length l)).
Definition table_to_path_list (l : lua) (v : val) : res plist :=
  match v with
  | Tab a => match nth_error (tabs l) a with
             | Some t => rbind (items t) (fun i => rbind (rmap (path_of l) i) (fun p => Ret (numbers p)))
             | None => Unknown
             end
  | _ => Ret []
  end.

(** luaparser.c:217-294 tup.definerule. The paths of the outputs are given
    relative to the Tupfile. *)
Definition definerule (l : lua) (a : args) : res (lua * val) :=
  rbind (table_to_path_list l (a_inputs a)) (fun ins =>
  rbind (table_to_path_list l (a_extra_inputs a)) (fun oo =>
  rbind (table_to_path_list l (a_outputs a)) (fun outs =>
  rbind (table_to_path_list l (a_extra_outputs a)) (fun extra =>
  rbind (match a_bin a with Nil => Ret None | v => rbind (tostr (tabs l) v) (fun b => Ret (Some b)) end) (fun bin =>
  rbind (of_outcome (match bin with None => Ok (st l) | Some b => add_bin (st l) b end)) (fun s0 =>
  rbind (tostr (tabs l) (a_command a)) (fun cmd =>
  rbind (of_outcome (resolve s0 ins (bytes_eqb cmd (B "!tup_preserve")))) (fun x =>
  let '(s1, nl) := x in
  rbind (of_outcome (execute_rule St do_rule (path_list_to_nl (texts l)) plain d s1
    {| r_foreach := truthy (a_foreach a); r_bin := bin; r_command := cmd; r_extra_command := None; r_inputs := add_all nl;
       r_oo_paths := oo; r_oo := []; r_outputs := outs; r_extra := extra; r_bang_extra := []; r_bang_oo := [];
       r_empty_input := match ins with [] => true | _ => false end |})) (fun s2 =>
  let '(m, v) := new (tabs l) (plain_table (map Str (returned s1 s2))) in
  Ret (set_st (set_tabs l m) s2, v)))))))))).

(** luaparser.c:565-585 with import (parser.c: import) and luadb_set: the name
    up to an '=', and a default after it. *)
Definition import_parts (n : bytes) : bytes * option bytes := match cut "="%char n with Some (x, v) => (x, Some v) | None => (n, None) end.
Definition import (l : lua) (n : bytes) : res lua :=
  match n with
  | [] => Error
  | _ =>
      let '(x, dflt) := import_parts n in
      let value := match getenv x with Some v => Some v | None => dflt end in
      let l := set_top l {| f_vars := f_vars (top l); f_env := x :: f_env (top l) |} in
      let l := match value with
               | Some v =>
                   let '(m, t) := new (tabs l) {| t_arr := map Str (string_to_lua v); t_named := []; t_meta := true |} in
                   set_var (set_tabs l m) x t
               | None => set_var l x Nil
               end in
      Ret (set_globs l (match value with Some v => (x, v) :: drop x (globs l) | None => drop x (globs l) end))
  end.

(** The Tupfiles that are looked at: in each expression the operands are
    constants or variables, which is no restriction as a Tupfile can put the
    parts of larger expressions in variables first. [EFrule] is tup.frule with
    a table that is written in place. *)
Inductive atom := AStr (s : bytes) | ANum (n : nat) | ANil | ABool (b : bool) | AVar (x : bytes).
Inductive expr :=
| EAtom (a : atom)
| ETab (l : list atom) (f : list (bytes * atom))
| EField (a : atom) (k : bytes)
| EFile (a : atom) | EBase (a : atom) | EExt (a : atom)
| ERule (each : bool) (a b c : atom)
| EFrule (i ei c o eo b f : atom).
Definition atom_val (l : lua) (a : atom) : val :=
  match a with AStr s => Str s | ANum n => Num n | ANil => Nil | ABool b => Bool b | AVar x => get_var l x end.
Definition non_nil (v : val) : bool := negb (is_nil v).
Definition rule (l : lua) (each : bool) (a b c : val) : res (lua * val) :=
  rbind (rule_args (tabs l) each a b c) (fun x =>
  rbind (frule (fst x) (snd x)) (fun y => definerule (set_tabs l (fst y)) (snd y))).
Definition eval_expr (l : lua) (e : expr) : res (lua * val) :=
  match e with
  | EAtom a => Ret (l, atom_val l a)
  | ETab items fields =>
      let vs := map (atom_val l) items in
      if forallb non_nil vs then
        let '(m, v) := new (tabs l) {| t_arr := vs; t_named := fold_left (fun n f => put (fst f) (atom_val l (snd f)) n) fields []; t_meta := false |} in
        Ret (set_tabs l m, v)
      else Unknown
  | EField a k => match atom_val l a with Tab x => Ret (l, field (tabs l) x k) | Str _ => Unknown | _ => Error end
  | EFile a => rbind (scalar (atom_val l a)) (fun s => Ret (l, Str (tup_file s)))
  | EBase a => rbind (scalar (atom_val l a)) (fun s => Ret (l, Str (tup_base s)))
  (* builtin.lua:57-61 tup.ext: its variable match is not local *)
  | EExt a => rbind (scalar (atom_val l a)) (fun s =>
      match dot_end s with
      | Some (_, x) => Ret (set_globs l ((B "match", x) :: drop (B "match") (globs l)), Str x)
      | None => Ret (set_globs l (drop (B "match") (globs l)), Str [])
      end)
  | ERule each a b c => rule l each (atom_val l a) (atom_val l b) (atom_val l c)
  | EFrule i ei c o eo b f =>
      rbind (frule (tabs l) {| a_inputs := atom_val l i; a_extra_inputs := atom_val l ei; a_command := atom_val l c; a_outputs := atom_val l o;
                               a_extra_outputs := atom_val l eo; a_bin := atom_val l b; a_foreach := atom_val l f |}) (fun y =>
      definerule (set_tabs l (fst y)) (snd y))
  end.

(** Statements. [SOther] is another Tupfile that is parsed at this point,
    either after this one or in the middle of it because a rule needs the
    outputs of its directory (parse_dependent_tupfiles); push_tupfile and
    pop_tupfile (luaparser.c:880-895) and the parser's calls (parser.c:277-297).
    A += in Lua is compiled to a call (lua/lparser.c:1378-1427) that reads the
    variable before the operand. *)
Inductive stmt :=
| SSet (x : bytes) (e : expr)
| SAppend (x : bytes) (e : expr)
| SIndex (x k : bytes) (a : atom)
| SImport (n : bytes)
| SOther (body : list stmt).
Definition push (l : lua) : lua := {| tabs := tabs l; globs := globs l; frames := no_frame :: frames l; st := st l |}.
Definition pop (l : lua) : lua := {| tabs := tabs l; globs := globs l; frames := tl (frames l); st := st l |}.
Fixpoint exec (l : lua) (s : stmt) {struct s} : res lua :=
  match s with
  | SSet x e => rbind (eval_expr l e) (fun r => Ret (set_var (fst r) x (snd r)))
  | SAppend x e =>
      let v := get_var l x in
      rbind (eval_expr l e) (fun r =>
      rbind (append_assignment (tabs (fst r)) v (snd r)) (fun q => Ret (set_var (set_tabs (fst r) (fst q)) x (snd q))))
  | SIndex x k a =>
      match get_var l x with Tab y => Ret (set_tabs l (set_field (tabs l) y k (atom_val l a))) | _ => Error end
  | SImport n => import l n
  | SOther body =>
      rbind ((fix go (l : lua) (b : list stmt) : res lua := match b with [] => Ret l | s :: b => rbind (exec l s) (fun l => go l b) end) (push l) body)
            (fun l => Ret (pop l))
  end.
Fixpoint exec_all (l : lua) (b : list stmt) : res lua := match b with [] => Ret l | s :: b => rbind (exec l s) (fun l => exec_all l b) end.
(** A Tupfile as the first one. *)
Definition start (g : list (bytes * bytes)) (s : St) : lua := {| tabs := []; globs := g; frames := [no_frame]; st := s |}.
End Parser.
