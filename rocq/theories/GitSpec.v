(** What a .gitignore file is to hold. *)
From Verif Require Import Base.

Definition nl : ascii := "010"%char.
(** A text of whole lines. *)
Definition whole (s : bytes) : Prop := s = [] \/ exists t, s = t ++ [nl].
Definition occurs (m s : bytes) : Prop := exists a b, s = a ++ m ++ b.
(** The line tup's section begins with. *)
Definition marker : bytes := B "##### TUP GITIGNORE #####" ++ [nl].
(** What is ours in a file, from the marker on. *)
Inductive users_part : option bytes -> bytes -> Prop :=
| u_none : users_part None []
| u_plain s : whole s -> ~ occurs marker s -> users_part (Some s) s
| u_marked u s : whole u -> ~ occurs marker u -> users_part (Some (u ++ marker ++ s)) u.

(** gitignore(5), as far as it goes for a pattern beginning with a slash: the names in the
    directory that it matches. *)
Inductive matches : bytes -> bytes -> Prop :=
| m_end : matches [] []
| m_char c p n : ~ In c (B "*?[\") -> matches p n -> matches (c :: p) (c :: n)
| m_escaped c p n : matches p n -> matches ("\"%char :: c :: p) (c :: n)
| m_one c p n : matches p n -> matches ("?"%char :: p) (c :: n)
| m_none p n : matches p n -> matches ("*"%char :: p) n
| m_more c p n : matches ("*"%char :: p) n -> matches ("*"%char :: p) (c :: n).
Definition no_blank_end (s : bytes) : Prop := ~ exists t, s = t ++ [" "%char].
(** The lines of a text, without their ends. *)
Inductive lines : bytes -> list bytes -> Prop :=
| ls_nil : lines [] []
| ls_cons l s r : ~ In nl l -> lines s r -> lines (l ++ nl :: s) (l :: r).
(** A name in the directory of the .gitignore is ignored by one of some lines. (Patterns not
    beginning with a slash are looked at only where they are in the user's part.) *)
Definition ignored_by (ls : list bytes) (name : bytes) : Prop := exists p, In ("/"%char :: p) ls /\ no_blank_end p /\ matches p name.
(** A name that is no pattern. *)
Definition plain (name : bytes) : Prop := (forall c, In c name -> ~ In c (B "*?\") /\ c <> nl) /\ no_blank_end name.
