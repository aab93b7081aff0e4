(** What a run script says. *)
From Verif Require Import Base ConfigSpec ParseSpec TextSpec.

(** Lines that each end in a newline. *)
Definition text (ls : list bytes) : bytes := concat (map (fun l => l ++ ["010"%char]) ls).
Section Obeys.
Variable St : Type.
Variable parse_rule : St -> bytes -> St * bool.
(** The rules are obeyed in their order; blank lines and comments do not count. *)
Inductive obeys : St -> list bytes -> St -> Prop :=
| o_nil s : obeys s [] s
| o_blank s ls s' : obeys s ls s' -> obeys s ([] :: ls) s'
| o_comment s t ls s' : obeys s ls s' -> obeys s (("#"%char :: t) :: ls) s'
| o_rule s t s1 ls s' : parse_rule s t = (s1, true) -> obeys s1 ls s' -> obeys s ((":"%char :: t) :: ls) s'.
End Obeys.
(** A byte order mark at the start does not count. *)
Definition body (output r : bytes) : Prop :=
  let mark := ["239"; "187"; "191"]%char in output = mark ++ r \/ (output = r /\ forall t, output <> mark ++ t).
(** Neither blank nor a comment nor a rule. *)
Definition other_line (l : bytes) : Prop := exists c t, l = c :: t /\ c <> "#"%char /\ c <> ":"%char.
(** A line with no white space around it that does not go on in the next one. *)
Definition plain (l : bytes) : Prop := one_line l /\ ~ ends_white l /\ ~ starts_white l /\ forall t, l <> t ++ ["\"%char].
