(** How a POSIX shell splits a simple command into words (XCU 2.2, 2.3):
    single quotes, double quotes, backslash and blanks. Text that uses
    expansions or operators is outside of this fragment: [None]. *)
From Verif Require Import Base.

Inductive mode := Unquoted | Single | Double.

Definition blank (c : ascii) : bool := (c =?c " "%char) || (c =?c "009"%char) || (c =?c "010"%char).

(** Characters with a special meaning outside of quotes, other than quotes,
    backslash and blanks. *)
Definition special (c : ascii) : bool :=
  existsb (Ascii.eqb c)
    (B "|&;<>()$`*?[#~=%{}!").

Definition add (w : option bytes) (c : ascii) : option bytes :=
  Some (match w with None => [c] | Some x => x ++ [c] end).
Definition start (w : option bytes) : option bytes :=
  Some (match w with None => [] | Some x => x end).
Definition fin (w : option bytes) : list bytes :=
  match w with None => [] | Some x => [x] end.

(** [w]: the word being read, if any. *)
Fixpoint sh (m : mode) (w : option bytes) (s : bytes) : option (list bytes) :=
  match m, s with
  | Unquoted, [] => Some (fin w)
  | _, [] => None
  | Unquoted, c :: s' =>
    if c =?c "'"%char then sh Single (start w) s'
    else if c =?c """"%char then sh Double (start w) s'
    else if c =?c "\"%char then
      match s' with [] => None | d :: s'' => sh Unquoted (add w d) s'' end
    else if blank c then option_map (app (fin w)) (sh Unquoted None s')
    else if special c then None
    else sh Unquoted (add w c) s'
  | Single, c :: s' =>
    if c =?c "'"%char then sh Unquoted w s' else sh Single (add w c) s'
  | Double, c :: s' =>
    if c =?c """"%char then sh Unquoted w s'
    else if (c =?c "$"%char) || (c =?c "`"%char) then None
    else if c =?c "\"%char then
      match s' with
      | [] => None
      | d :: s'' =>
        if existsb (Ascii.eqb d) (B "$`""\") then sh Double (add w d) s''
        else sh Double (add (add w c) d) s''
      end
    else sh Double (add w c) s'
  end.

Definition sh_words (s : bytes) : option (list bytes) := sh Unquoted None s.
