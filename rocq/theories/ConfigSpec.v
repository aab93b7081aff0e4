(** What tup.config, the variable dictionary and varsed mean. *)
From Verif Require Import Base.

(** A configuration file is a sequence of lines; each line is an assignment or
    nothing. *)
Definition white (c : ascii) : Prop := In c [" "; "009"; "010"; "011"; "012"; "013"]%char.
Definition ends_white (s : bytes) : Prop := exists t c, s = t ++ [c] /\ white c.
Definition assignment := option (bytes * bytes).

Inductive says : bytes -> assignment -> Prop :=
| says_blank l : Forall white l -> says l None
| says_comment l : prefixb (B "# CONFIG_") ("#"%char :: l) = false -> says ("#"%char :: l) None
| says_unset n text : ~ In " "%char n -> ~ Forall white text -> says (B "# CONFIG_" ++ n ++ " "%char :: text) (Some (n, B "n"))
| says_quoted n v junk : ~ In "="%char n -> ~ In """"%char v ->
    says (B "CONFIG_" ++ n ++ "="%char :: """"%char :: v ++ """"%char :: junk) (Some (n, v))
| says_plain n v trail : ~ In "="%char n -> Forall white trail -> ~ ends_white v -> prefixb [""""%char] v = false ->
    says (B "CONFIG_" ++ n ++ "="%char :: v ++ trail) (Some (n, v)).

Definition a_line (l : bytes) : Prop := ~ In "010"%char l /\ ~ In "000"%char l.
Definition file_of (lines : list bytes) : bytes := concat (map (fun l => l ++ ["010"%char]) lines).

(** The last assignment of a name counts. *)
Fixpoint value_of (asg : list assignment) (n : bytes) : option bytes :=
  match asg with
  | [] => None
  | a :: rest =>
    match value_of rest n with
    | Some v => Some v
    | None => match a with Some (m, v) => if bytes_eqb m n then Some v else None | None => None end
    end
  end.
(** The value in a list of entries. *)
Fixpoint assoc {A} (v : list (bytes * A)) (n : bytes) : option A :=
  match v with
  | [] => None
  | (m, w) :: v' => if bytes_eqb m n then Some w else assoc v' n
  end.

(** A writer of configuration files: values are quoted if they can be. *)
Definition has_quote (v : bytes) : bool := existsb (Ascii.eqb """"%char) v.
Definition config_line (e : bytes * bytes) : bytes :=
  B "CONFIG_" ++ fst e ++ "="%char :: (if has_quote (snd e) then snd e else """"%char :: snd e ++ [""""%char]).
Definition writable (e : bytes * bytes) : Prop :=
  a_line (fst e) /\ a_line (snd e) /\ ~ In "="%char (fst e) /\
  (In """"%char (snd e) -> ~ ends_white (snd e) /\ prefixb [""""%char] (snd e) = false).

(** Entries are in the order of their names, without duplicates. *)
Inductive before : bytes -> bytes -> Prop :=
| before_end c s : before [] (c :: s)
| before_head a b s t : nat_of_ascii a < nat_of_ascii b -> before (a :: s) (b :: t)
| before_tail a s t : before s t -> before (a :: s) (a :: t).
Inductive ordered {A} : list (bytes * A) -> Prop :=
| ord_nil : ordered []
| ord_cons n w v : Forall (fun e => before n (fst e)) v -> ordered v -> ordered ((n, w) :: v).

(** varsed: what replacing the references in a text gives. *)
Definition name_char (c : ascii) : Prop :=
  In c (B "0123456789abcdefghijklmnopqrstuvwxyzABCDEFGHIJKLMNOPQRSTUVWXYZ_").
Inductive substituted (value : bytes -> bytes) : bytes -> bytes -> Prop :=
| sub_end : substituted value [] []
| sub_char c t o : c <> "@"%char -> substituted value t o -> substituted value (c :: t) (c :: o)
| sub_ref n t o : Forall name_char n -> substituted value t o ->
    substituted value ("@"%char :: n ++ "@"%char :: t) (value n ++ o)
| sub_lone t o : (forall n u, Forall name_char n -> t <> n ++ "@"%char :: u) -> substituted value t o ->
    substituted value ("@"%char :: t) ("@"%char :: o).
(** What @NAME@ becomes: the value, or nothing if there is none; in binary mode y is 1 and n is 0. *)
Definition shown (lookup : bytes -> option bytes) (binmode : bool) (n : bytes) : bytes :=
  match lookup n with
  | None => []
  | Some v => if binmode then if bytes_eqb v (B "y") then B "1" else if bytes_eqb v (B "n") then B "0" else v else v
  end.
