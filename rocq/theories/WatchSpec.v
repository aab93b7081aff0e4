(** What the table of watches is meant to be. *)
Require Import ZArith List.
Import ListNotations.
From Verif Require Import WatchModel.
Open Scope Z_scope.

(** The directories that are watched: the watch and the id of each. *)
Definition table := list (Z * Z).
Definition meant_step (o : op) (m : table) : table :=
  match o with
  | Watch wd dt => (wd, dt) :: filter (fun p => negb (fst p =? wd)) m
  | Rmdir dt => filter (fun p => negb (snd p =? dt)) m
  | QueueIgnored wd => m
  | HandleIgnored wd => filter (fun p => negb (fst p =? wd)) m
  end.
Fixpoint meant (os : list op) (m : table) : table := match os with [] => m | o :: os => meant os (meant_step o m) end.
(** No directory is watched with two watches, when a watch is added. *)
Definition one_watch (o : op) (m : table) : Prop :=
  match o with Watch wd dt => 0 <= dt /\ forall wd', In (wd', dt) m -> wd' = wd | _ => True end.
(** The kernel does not drop a watch that is in the table (that is: directories are deleted one by
    one, each with an event for its parent that comes first). *)
Definition no_drop (o : op) (m : table) : Prop :=
  match o with QueueIgnored wd | HandleIgnored wd => forall dt, ~ In (wd, dt) m | _ => True end.
Fixpoint holds (P : op -> table -> Prop) (os : list op) (m : table) : Prop :=
  match os with [] => True | o :: os => P o m /\ holds P os (meant_step o m) end.
