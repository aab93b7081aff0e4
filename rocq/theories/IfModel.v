(** Model of src/tup/if_stmt.c and of the line dispatch in parse_tupfile
    (src/tup/parser.c:554-703). *)
From Verif Require Import Base.
Local Open Scope N_scope.

(** if_stmt.h:24-27: two unsigned chars, i.e. values below 256. *)
Record if_stmt := { ifness : N; level : N }.

Definition u8 (x : N) : N := x mod 256.

(** if_stmt.c:25-29 *)
Definition if_init : if_stmt := {| ifness := 0; level := 0 |}.

(** if_stmt.c:31-44 [if_add]; [None] is the error return. *)
Definition if_add (i : if_stmt) (is_true : bool) : option if_stmt :=
  if 128 <=? level i then None
  else
    let l := if level i =? 0 then 1 else u8 (N.shiftl (level i) 1) in
    Some {| ifness := if is_true then ifness i else u8 (N.lor (ifness i) l); level := l |}.

(** if_stmt.c:46-54 [if_else] *)
Definition if_else (i : if_stmt) : option if_stmt :=
  if level i =? 0 then None
  else Some {| ifness := u8 (N.lxor (ifness i) (level i)); level := level i |}.

(** if_stmt.c:56-65 [if_endif]; [~level] on unsigned char promoted to int and
    masked back is [ldiff]. *)
Definition if_endif (i : if_stmt) : option if_stmt :=
  if level i =? 0 then None
  else Some {| ifness := u8 (N.ldiff (ifness i) (level i));
               level := N.shiftr (level i) 1 |}.

(** if_stmt.c:67-72 *)
Definition if_true (i : if_stmt) : bool := ifness i =? 0.

(** if_stmt.c:74-79; true means no error *)
Definition if_check (i : if_stmt) : bool := level i =? 0.

(** The order of the tests in parser.c:619-648: exact "else" and "endif", then
    the four prefixes with the argument text after them, then everything else.
    [strncmp(line, kw, n) == 0] is the prefix test. *)
Inductive line_class :=
| LElse | LEndif
| LIfeq (arg : bytes) | LIfneq (arg : bytes) | LIfdef (arg : bytes) | LIfndef (arg : bytes)
| LOther.

Definition classify (l : bytes) : line_class :=
  if bytes_eqb l (B "else") then LElse
  else if bytes_eqb l (B "endif") then LEndif
  else if prefixb (B "ifeq ") l then LIfeq (skipn 5 l)
  else if prefixb (B "ifneq ") l then LIfneq (skipn 6 l)
  else if prefixb (B "ifdef ") l then LIfdef (skipn 6 l)
  else if prefixb (B "ifndef ") l then LIfndef (skipn 7 l)
  else LOther.

Section Parse.
(** Everything the other directives change (variables, rules, included files)
    is the abstract state [St].  [eval_eq] (parser.c:705-750) and [var_ifdef]
    (parser.c:752-771) return -1/negative on error ([None]) or a truth value;
    [other] is any remaining directive of parser.c:649-687, [false] = rc < 0.
    [EXPAND]ing can change the state (recorded dependencies), hence the state
    in their results. *)
Variable St : Type.
Variable eval_eq : St -> bytes -> St * option bool.
Variable var_ifdef : St -> bytes -> St * option bool.
Variable other : St -> bytes -> St * bool.

(** parser.c:626-648: in an active part the condition is evaluated, otherwise
    rc is 0; then [if_add] with rc or [!rc]. *)
Definition do_if (ev : St -> bytes -> St * option bool) (neg : bool)
    (s : St) (i : if_stmt) (arg : bytes) : St * option if_stmt :=
  let (s1, rc) := if if_true i then ev s arg else (s, Some false) in
  match rc with
  | None => (s1, None)
  | Some r => (s1, if_add i (xorb neg r))
  end.

(** One round of the loop on a logical line (already stripped, not a
    comment). *)
Definition do_line (s : St) (i : if_stmt) (l : bytes) : St * option if_stmt :=
  match classify l with
  | LElse => (s, if_else i)
  | LEndif => (s, if_endif i)
  | LIfeq a => do_if eval_eq false s i a
  | LIfneq a => do_if eval_eq true s i a
  | LIfdef a => do_if var_ifdef false s i a
  | LIfndef a => do_if var_ifdef true s i a
  | LOther =>
    if if_true i then
      let (s1, ok) := other s l in (s1, if ok then Some i else None)
    else (s, Some i)
  end.

(** The loop over the logical lines and the final [if_check]
    (parser.c:697-700). The boolean is the success of the whole parse. *)
Fixpoint parse_lines (s : St) (i : if_stmt) (ls : list bytes) : St * bool :=
  match ls with
  | [] => (s, if_check i)
  | l :: ls' =>
    match do_line s i l with
    | (s1, None) => (s1, false)
    | (s1, Some i1) => parse_lines s1 i1 ls'
    end
  end.
End Parse.
