(** What a command's environment is to be. *)
From Verif Require Import Base ConfigSpec EnvModel.

(** A user's environment: names and values. *)
Definition environment := list (bytes * bytes).
Definition c_text (s : bytes) : Prop := ~ In "000"%char s.
Definition name_ok (n : bytes) : Prop := ~ In "="%char n /\ c_text n.
Definition env_ok (e : environment) : Prop := forall n v, In (n, v) e -> name_ok n /\ c_text v.
Definition environ_of (e : environment) : list bytes := map (fun p => fst p ++ "="%char :: snd p) e.

(** The runs of tup: whether the environment is looked at, the environment, the names asked for
    by Tupfiles. *)
Definition history := list (bool * environment * list bytes).
Definition run_of (r : bool * environment * list bytes) : run :=
  {| checks := fst (fst r); env_of := environ_of (snd (fst r)); asked := snd r |}.
Definition run_ok (r : bool * environment * list bytes) : Prop := env_ok (snd (fst r)) /\ forall n, In n (snd r) -> name_ok n.

(** What is known of a variable after some runs (the last one first): nothing, or its value. A value
    is taken from the environment of the first run that asks for the variable, and then of
    every run that checks. *)
Fixpoint known (h : history) (n : bytes) : option (option bytes) :=
  match h with
  | [] => None
  | (check, e, asked) :: h' =>
      match known h' n with
      | Some v => if check then Some (assoc e n) else Some v
      | None => if existsb (bytes_eqb n) asked then Some (assoc e n) else None
      end
  end.
(** The variable has changed for this run. *)
Definition changed (h : history) (e : environment) (n : bytes) : Prop := exists v, known h n = Some v /\ v <> assoc e n.

(** The settings of the variables in a list that have a value. *)
Fixpoint set_among (value : bytes -> option bytes) (l : list bytes) : list bytes :=
  match l with
  | [] => []
  | n :: r => match value n with Some v => (n ++ "="%char :: v) :: set_among value r | None => set_among value r end
  end.
