(** What the progress bar should say. *)
From Verif Require Import ProgressModel.
Require Import ZArith List Permutation.
Import ListNotations.
Open Scope Z_scope.

Definition time_of (e : event) : Z := match e with Ran t | Skipped t => t end.
Definition add (l : list Z) : Z := fold_right Z.add 0 l.
(** The time of the commands that ran, and of those that were skipped. *)
Definition ran (h : list event) : Z := add (map (fun e => match e with Ran t => t | Skipped _ => 0 end) h).
Definition skipped (h : list event) : Z := add (map (fun e => match e with Ran _ => 0 | Skipped t => t end) h).
(** [h] is what has happened so far to some of the commands with times [js]; [rest] are the others. *)
Definition so_far (js : list Z) (h : list event) (rest : list Z) : Prop := Permutation (map time_of h ++ rest) js.
Definition known (js : list Z) : Prop := Forall (fun t => 0 <= t) js.
(** A hundred times the number of commands, and of their times in ms, fit into an int. *)
Definition fits (js : list Z) : Prop := 100 * Z.of_nat (length js) < 2147483648 /\ 100 * add js < 2147483648.
(** Microseconds since some moment. *)
Definition normal (t : timeval) : Prop := 0 <= tv_usec t < 1000000.
Definition us (t : timeval) : Z := tv_sec t * 1000000 + tv_usec t.
Definition elapsed (ts : timespan) : Z := us (end_ ts) - us (start ts).
