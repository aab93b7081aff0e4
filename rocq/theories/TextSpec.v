(** What a Tupfile says. *)
From Verif Require Import Base ConfigSpec ParseSpec.
From Coq Require Import ZArith.

(** ** Lines *)

(** A Tupfile is a sequence of items, one after the other. A statement may go on
    in further lines, if each line but the last ends in a backslash. *)
Inductive item :=
| Blank (ws : bytes)
| Statement (indent : bytes) (pieces : list (bytes * bool)) (last trail : bytes).

(** No newline and no NUL. *)
Definition one_line (s : bytes) : Prop := ~ In "010"%char s /\ ~ In "000"%char s.
(** A piece ends in a backslash and a newline, possibly with a carriage return
    between the two. *)
Definition piece_text (p : bytes * bool) : bytes := fst p ++ (if snd p then ["\"; "013"; "010"]%char else ["\"; "010"]%char).
Definition item_text (i : item) : bytes :=
  match i with
  | Blank ws => ws
  | Statement indent pieces last trail => indent ++ concat (map piece_text pieces) ++ last ++ trail
  end.
Definition item_ok (i : item) : Prop :=
  match i with
  | Blank ws => Forall white ws /\ one_line ws
  | Statement indent pieces last trail =>
      Forall white indent /\ one_line indent /\ Forall (fun p => one_line (fst p)) pieces /\
      one_line last /\ ~ ends_white last /\ Forall white trail /\ one_line trail /\
      concat (map piece_text pieces) ++ last <> [] /\ ~ starts_white (concat (map piece_text pieces) ++ last) /\
      (forall t, last = t ++ ["\"%char] -> trail <> [] /\ trail <> ["013"%char])
  end.
(** The text of a file: its items, separated by newlines. *)
Fixpoint file_text (l : list item) : bytes :=
  match l with
  | [] => []
  | [i] => item_text i
  | i :: r => item_text i ++ "010"%char :: file_text r
  end.

(** A line break after a backslash counts as spaces. *)
Definition said (pieces : list (bytes * bool)) (last : bytes) : bytes :=
  concat (map (fun p : bytes * bool => fst p ++ (if snd p then [" "; " "; " "]%char else [" "; " "]%char)) pieces) ++ last.
(** [trimmed_end s t]: [t] is [s] without the white space at its end. *)
Definition trimmed_end (s t : bytes) : Prop := exists a, s = t ++ a /\ Forall white a /\ ~ ends_white t.

(** [statements n l r]: the items [l], the first of which begins in line [n], make
    the statements [r], each with the number of its last line. Comments do not
    count. *)
Definition comment (s : bytes) : Prop := exists t, s = "#"%char :: t.
Inductive statements : nat -> list item -> list (nat * bytes) -> Prop :=
| st_nil n : statements n [] []
| st_blank n ws l r : statements (S n) l r -> statements n (Blank ws :: l) r
| st_comment n indent pieces last trail l r : comment (said pieces last) ->
    statements (S (n + length pieces)) l r -> statements n (Statement indent pieces last trail :: l) r
| st_statement n indent pieces last trail t l r : ~ comment (said pieces last) -> trimmed_end (said pieces last) t ->
    statements (S (n + length pieces)) l r ->
    statements n (Statement indent pieces last trail :: l) ((n + length pieces, t) :: r).

(** A file that ends in the middle of a statement. *)
Definition unfinished (f : bytes) : Prop := exists t, f = t ++ ["\"%char] \/ f = t ++ ["\"; "013"]%char.

(** [through do s i l]: the lines [l] are obeyed one after the other from [s] and
    [i], or one of them fails. *)
Section through.
Variables St I : Type.
Variable obey : St -> I -> bytes -> St * option I.
Inductive through : St -> I -> list bytes -> St -> I -> Prop :=
| th_nil s i : through s i [] s i
| th_cons s i l ls s1 i1 s2 i2 : obey s i l = (s1, Some i1) -> through s1 i1 ls s2 i2 -> through s i (l :: ls) s2 i2.
End through.

(** ** Variables *)

(** In a value all white space that follows a space is lost. *)
Inductive squeezed : bytes -> bytes -> Prop :=
| sq_end : squeezed [] []
| sq_char c s o : c <> " "%char -> squeezed s o -> squeezed (c :: s) (c :: o)
| sq_space ws s o : Forall white ws -> ~ starts_white s -> squeezed s o -> squeezed (" "%char :: ws ++ s) (" "%char :: o).

Inductive operator := Assign | AssignNow | Extend.
Definition operator_text (o : operator) : bytes := match o with Assign => B "=" | AssignNow => B ":=" | Extend => B "+=" end.
Record assignment := { a_name : bytes; a_before : bytes; a_op : operator; a_after : bytes; a_value : bytes }.
Definition assignment_text (a : assignment) : bytes := a_name a ++ a_before a ++ operator_text (a_op a) ++ a_after a ++ a_value a.
Definition keywords : list bytes := map B ["ifeq"; "ifneq"; "ifdef"; "ifndef"; "error"; "include"; "preload"; "run"; "export"; "import"]%string.
Definition contains (m s : bytes) : Prop := exists a b, s = a ++ m ++ b.
Definition assignment_ok (a : assignment) : Prop :=
  (forall c, In c (a_name a) -> ~ white c /\ ~ In c ["="; "+"; ":"]%char) /\
  a_name a <> [] /\ (forall t, a_name a <> "!"%char :: t) /\ ~ In (a_name a) keywords /\
  Forall white (a_before a) /\ Forall white (a_after a) /\ ~ starts_white (a_value a) /\
  (contains (B "+=") (a_value a) -> a_op a = Extend) /\ (contains (B ":=") (a_value a) -> a_op a <> Assign).

(** What the variables of a Tupfile hold. *)
Definition store := bytes -> option bytes.
Definition update (st : store) (x v : bytes) : store := fun y => if bytes_eq_dec y x then Some v else st y.
(** The value of a name; one of 4095 bytes or more is an error. *)
Definition value_in (st : store) (x : bytes) : option bytes :=
  if (4095 <=? Z.of_nat (length x))%Z then None else Some (match st x with Some v => v | None => [] end).
Definition starts_with (m s : bytes) : Prop := exists t, s = m ++ t.

(** [assigned st l st']: the assignments [l], in this order, change [st] to [st'].
    [text st s o] says what the text [s] becomes when the variables are [st]. *)
Section assigned.
Variable text : store -> bytes -> bytes -> Prop.
Inductive assigned : store -> list assignment -> store -> Prop :=
| as_nil st : assigned st [] st
| as_cons st a l x v w st' :
    text st (a_name a) x -> ~ starts_with (B "CONFIG_") x -> ~ starts_with (B "&") x ->
    text st (a_value a) v -> squeezed v w ->
    assigned (update st x (match a_op a, st x with Extend, Some o => o ++ " "%char :: w | _, _ => w end)) l st' ->
    assigned st (a :: l) st'.
End assigned.
