(** !-macros: their definition, and the rules that use them (parser.c). *)
From Verif Require Import Base ConfigModel ParseModel.

(** get_path_list's result: names with their order ids. *)
Definition plist : Type := list (bytes * nat).

(** parser.c:57-66 struct bang_rule without its tree node and the buffer its
    strings point into; [m_input] is the order-only text. *)
Record macro := { m_foreach : bool; m_input : option bytes; m_command : bytes; m_outputs : plist; m_extra : plist }.

(** tf->bang_root: the tree, keyed by the name with its '!', as a list.
    string_tree_search, string_tree_add and string_tree_rm (string_tree.c). *)
Definition macros : Type := list (bytes * macro).
Fixpoint find_macro (n : bytes) (d : macros) : option macro :=
  match d with [] => None | (k, m) :: t => if bytes_eqb k n then Some m else find_macro n t end.
Definition drop_macro (n : bytes) (d : macros) : macros := filter (fun e : bytes * macro => negb (bytes_eqb (fst e) n)) d.
Definition put_macro (n : bytes) (m : macro) (d : macros) : macros := (n, m) :: drop_macro n d.

(** parser.c:1556-1573 split_eq. The loop that drops blanks before the '=' has
    no lower bound; the line starts with '!', so it is [rstrip]. *)
Definition split_eq (p : bytes) : option (bytes * bytes) :=
  match cut "="%char p with
  | None => None
  | Some (name, value) => Some (rstrip name, lstrip value)
  end.

(** The test for "foreach" (parser.c:1510-1514 and 1676-1680): whether it is
    there, and the text that follows. Only the seven bytes are compared. *)
Definition take_foreach (i : bytes) : bool * bytes :=
  if prefixb (B "foreach") i then (true, lstrip (skipn 7 i)) else (false, i).

(** parser.c:2068-2096 parse_output_pattern: outputs and extra outputs, divided
    at the first '|'; the loop at 2081 does nothing (as the one at 2042). *)
Definition parse_output_pattern (plain : bytes -> bool) (o : bytes) : outcome (plist * plist) :=
  match cut "|"%char o with
  | Some (o1, ex) =>
      obind (get_path_list plain (lstrip ex)) (fun le => obind (get_path_list plain o1) (fun lo => Ok (lo, le)))
  | None => obind (get_path_list plain o) (fun lo => Ok (lo, []))
  end.

(** parser.c:1591-1734 parse_bang_definition. [plain] is new_pl without a list
    of bins. Every error makes the Tupfile fail, so the half-done changes that
    the error returns leave behind are not kept. *)
Definition parse_bang_definition (plain : bytes -> bool) (d : macros) (p : bytes) : outcome macros :=
  match split_eq p with
  | None => Bad
  | Some (name, value) =>
      match value with
      | c :: _ =>
          if c =?c "!"%char then
            let d' := drop_macro name d in
            match find_macro value d' with
            | None => Bad
            | Some m => Ok (put_macro name m d')
            end
          else
            match split_input_pattern value with
            | None => Bad
            | Some (_, _, _, Some _) => Bad
            | Some (input, command, output, None) =>
                let '(fe, rest) := match input with None => (false, None) | Some i => let '(f, r) := take_foreach i in (f, Some r) end in
                match rest with
                | Some (c :: r) =>
                    if c =?c "|"%char then
                      obind (parse_output_pattern plain output) (fun o =>
                        Ok (put_macro name {| m_foreach := fe; m_input := Some (lstrip r); m_command := command; m_outputs := fst o; m_extra := snd o |} d))
                    else Bad
                | _ =>
                    obind (parse_output_pattern plain output) (fun o =>
                      Ok (put_macro name {| m_foreach := fe; m_input := rest; m_command := command; m_outputs := fst o; m_extra := snd o |} d))
                end
            end
      | [] => Bad
      end
  end.

(** parser.h struct rule with init_rule (parser.c:1467-1485), without the line
    number. [r_oo] and [r_bang_oo] are the entries of the name lists. *)
Record rule := {
  r_foreach : bool; r_bin : option bytes; r_command : bytes; r_extra_command : option bytes;
  r_inputs : name_list; r_oo_paths : plist; r_oo : list nle; r_outputs : plist; r_extra : plist;
  r_bang_extra : plist; r_bang_oo : list nle; r_empty_input : bool }.
Definition set_command r c := {| r_foreach := r_foreach r; r_bin := r_bin r; r_command := c; r_extra_command := r_extra_command r; r_inputs := r_inputs r; r_oo_paths := r_oo_paths r; r_oo := r_oo r; r_outputs := r_outputs r; r_extra := r_extra r; r_bang_extra := r_bang_extra r; r_bang_oo := r_bang_oo r; r_empty_input := r_empty_input r |}.
Definition set_inputs r i := {| r_foreach := r_foreach r; r_bin := r_bin r; r_command := r_command r; r_extra_command := r_extra_command r; r_inputs := i; r_oo_paths := r_oo_paths r; r_oo := r_oo r; r_outputs := r_outputs r; r_extra := r_extra r; r_bang_extra := r_bang_extra r; r_bang_oo := r_bang_oo r; r_empty_input := r_empty_input r |}.
Definition set_oo r l := {| r_foreach := r_foreach r; r_bin := r_bin r; r_command := r_command r; r_extra_command := r_extra_command r; r_inputs := r_inputs r; r_oo_paths := r_oo_paths r; r_oo := l; r_outputs := r_outputs r; r_extra := r_extra r; r_bang_extra := r_bang_extra r; r_bang_oo := r_bang_oo r; r_empty_input := r_empty_input r |}.
Definition set_outputs r l := {| r_foreach := r_foreach r; r_bin := r_bin r; r_command := r_command r; r_extra_command := r_extra_command r; r_inputs := r_inputs r; r_oo_paths := r_oo_paths r; r_oo := r_oo r; r_outputs := l; r_extra := r_extra r; r_bang_extra := r_bang_extra r; r_bang_oo := r_bang_oo r; r_empty_input := r_empty_input r |}.
Definition set_bang_extra r l := {| r_foreach := r_foreach r; r_bin := r_bin r; r_command := r_command r; r_extra_command := r_extra_command r; r_inputs := r_inputs r; r_oo_paths := r_oo_paths r; r_oo := r_oo r; r_outputs := r_outputs r; r_extra := r_extra r; r_bang_extra := l; r_bang_oo := r_bang_oo r; r_empty_input := r_empty_input r |}.
Definition set_bang_oo r l := {| r_foreach := r_foreach r; r_bin := r_bin r; r_command := r_command r; r_extra_command := r_extra_command r; r_inputs := r_inputs r; r_oo_paths := r_oo_paths r; r_oo := r_oo r; r_outputs := r_outputs r; r_extra := r_extra r; r_bang_extra := r_bang_extra r; r_bang_oo := l; r_empty_input := r_empty_input r |}.

(** What do_rule (parser.c:3475-3730) is given: the rule it reads, the name
    list of the inputs and the extension. It changes none of them. *)
Record request := {
  q_command : bytes; q_extra_command : option bytes; q_bin : option bytes; q_inputs : list nle; q_ext : option bytes;
  q_outputs : plist; q_extra : plist; q_macro_extra : plist; q_oo : list nle; q_macro_oo : list nle }.
Definition request_of (r : rule) (ins : list nle) (ext : option bytes) : request :=
  {| q_command := r_command r; q_extra_command := r_extra_command r; q_bin := r_bin r; q_inputs := ins; q_ext := ext;
     q_outputs := r_outputs r; q_extra := r_extra r; q_macro_extra := r_bang_extra r; q_oo := r_oo r; q_macro_oo := r_bang_oo r |}.

Section rules.
(** The rest of the parser: its state, do_rule, path_list_to_nl
    (parser.c:2276-2287: the names in a list of paths, which may contain
    %-flags for the inputs given; the boolean is is_variant_copy), bin_add,
    and new_pl with and without the list of bins. *)
Variable St : Type.
Variable do_rule : St -> request -> outcome St.
Variable expand : St -> plist -> option (list nle) -> bool -> outcome (St * list nle).
Variable add_bin : St -> bytes -> outcome St.
Variable accepts : St -> bytes -> bool.
Variable plain : bytes -> bool.
Variable d : macros.

(** parser.c:1833-1869 parse_bang_rule_internal. copy_path_list appends copies
    of the paths (new_pl accepted them when the macro was defined). *)
Definition use_macro (s : St) (r : rule) (m : macro) (nl : option (list nle)) : outcome (St * rule) :=
  obind (match m_input m with
         | None => Ok (s, r)
         | Some text =>
             obind (get_path_list plain text) (fun l =>
             obind (expand s l nl false) (fun e => Ok (fst e, set_bang_oo r (r_bang_oo r ++ snd e))))
         end) (fun sr =>
  let '(s, r) := sr in
  let r := set_command r (m_command m) in
  let r := match r_outputs r with [] => set_outputs r (m_outputs m) | _ => r end in
  Ok (s, set_bang_extra r (r_bang_extra r ++ m_extra m))).

(** parser.c:1886-1909 parse_bang_rule. *)
Definition parse_bang_rule (s : St) (r : rule) (nl : option (list nle)) (ext : option bytes) : outcome (St * rule) :=
  let specific := match ext with None => None | Some e => find_macro (r_command r ++ B "." ++ e) d end in
  match specific with
  | Some m => use_macro s r m nl
  | None => match find_macro (r_command r) d with
            | Some m => use_macro s r m nl
            | None => Bad
            end
  end.
(** parser.c:1871-1884 parse_empty_bang_rule; [None]: there is no such macro. *)
Definition parse_empty_bang_rule (s : St) (r : rule) : outcome (option (St * rule)) :=
  match find_macro (r_command r ++ B ".EMPTY") d with
  | None => Ok None
  | Some m => obind (use_macro s r m None) (fun sr => Ok (Some sr))
  end.

(** parser.c:2169-2226: the loop over the inputs of a foreach rule. [is_bang]
    and [outputs_empty] are set before it. tmp_nl holds the one input. *)
Fixpoint foreach_loop (is_bang outputs_empty : bool) (l : list nle) (s : St) (r : rule) : outcome St :=
  match l with
  | [] => Ok s
  | e :: rest =>
      let ext := foreach_ext e in
      let old_command := r_command r in
      obind (if is_bang then parse_bang_rule s r (Some [e]) ext else Ok (s, r)) (fun sr =>
      let '(s, r) := sr in
      obind (expand s (r_oo_paths r) (Some [e]) false) (fun x =>
      let '(s, oo) := x in
      let r := set_oo r (r_oo r ++ oo) in
      obind (do_rule s (request_of r [e] ext)) (fun s =>
      let r := if is_bang then
                 let r := set_command r old_command in
                 let r := if outputs_empty then set_outputs r [] else r in
                 set_bang_oo (set_bang_extra r []) []
               else r in
      let r := set_oo r [] in
      foreach_loop is_bang outputs_empty rest s r)))
  end.

(** parser.c:2124-2274 execute_rule. *)
Definition starts_bang (c : bytes) : bool := match c with x :: _ => x =?c "!"%char | [] => false end.
Definition execute_rule (s : St) (r : rule) : outcome St :=
  let r := set_inputs r (make_name_list_unique (r_inputs r)) in
  let is_bang := starts_bang (r_command r) in
  let macro_each := if is_bang then match find_macro (r_command r) d with Some m => m_foreach m | None => false end else false in
  let foreach := if r_foreach r then true else macro_each in
  let ins := nl_entries (r_inputs r) in
  if foreach then
    foreach_loop is_bang (match r_outputs r with [] => true | _ => false end) ins s r
  else
    obind (expand s (r_oo_paths r) (Some ins) false) (fun x =>
    let '(s, oo) := x in
    let r := set_oo r (r_oo r ++ oo) in
    if (match ins with [] => false | _ => true end) || r_empty_input r then
      obind (if is_bang then parse_bang_rule s r None None else Ok (s, r)) (fun sr =>
      let '(s, r) := sr in do_rule s (request_of r ins None))
    else if is_bang then
      obind (parse_empty_bang_rule s r) (fun o =>
      match o with
      | Some (s, r) => do_rule s (request_of r ins None)
      | None => Ok s
      end)
    else Ok s).

(** parser.c:1487-1554 parse_rule, from the text after the ':'. The inputs are
    expanded in parse_input_pattern (2026-2066). *)
Definition parse_rule (s : St) (p : bytes) : outcome St :=
  match split_input_pattern p with
  | None => Bad
  | Some (input, cmd, output, bin) =>
      obind (match bin with None => Ok s | Some b => add_bin s b end) (fun s =>
      let '(fe, input) := match input with None => (false, None) | Some i => let '(f, r) := take_foreach i in (f, Some r) end in
      let empty := match input with Some (c :: _) => c =?c "|"%char | Some [] => false | None => true end in
      obind (match input with None => Ok ([], []) | Some i => parse_input_pattern (accepts s) i end) (fun io =>
      let '(li, loo) := io in
      obind (match input with None => Ok (s, []) | Some _ => expand s li None (bytes_eqb cmd (B "!tup_preserve")) end) (fun x =>
      let '(s, ins) := x in
      obind (parse_output_pattern plain output) (fun o =>
      let '(cmd, extra) := if starts_bang cmd then match cut " "%char cmd with Some (c, e) => (c, Some e) | None => (cmd, None) end else (cmd, None) in
      execute_rule s
        {| r_foreach := fe; r_bin := bin; r_command := cmd; r_extra_command := extra; r_inputs := add_all ins;
           r_oo_paths := loo; r_oo := []; r_outputs := fst o; r_extra := snd o; r_bang_extra := []; r_bang_oo := []; r_empty_input := empty |}))))
  end.
End rules.
