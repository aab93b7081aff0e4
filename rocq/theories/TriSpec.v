(** What the users of tup rely on when several of them run it in the same
    project, perhaps with a monitor. *)
From Coq Require Import List Bool Arith.
From Verif Require Import TriModel.
Import ListNotations.

(** The process of that number is using the database. *)
Definition works (s : st) (i : nat) : Prop := exists k, nth_error (cls s) i = Some (Work k).

(** The monitor may be using the database: it is waiting for events with
    [locked] set, it is flushing its events or it has just come back. *)
Definition monitor_on (m : mpc) : bool :=
  match m with
  | MIdle true | MOpen1 | MOpen2 | MClose2 | MRetry1 | MRetry5 | MStart | MQuit1 true => true
  | _ => false
  end.

(** The monitor is in charge: updates trust it and do not scan the
    directory tree themselves. *)
Definition in_charge (m : mpc) : bool :=
  match m with
  | MIdle _ | MOpen1 | MOpen2 | MClose1 | MClose2 => true
  | _ => false
  end.

(** Nothing goes on by itself any more. *)
Definition at_rest (f : faults) (s : st) : Prop := forall s', ~ step f Run s s'.

(** There is a process that has not finished. *)
Definition unfinished (s : st) : Prop := exists p, In p (cls s) /\ p <> Done.

Definition all_finished (s : st) : Prop := forall p, In p (cls s) -> p = Done.

(** Steps of the kind [Run] only, so many. *)
Inductive runs (f : faults) : nat -> st -> st -> Prop :=
| runs_0 s : runs f 0 s s
| runs_S n s s' s'' : step f Run s s' -> runs f n s' s'' -> runs f (S n) s s''.

(** Any steps; the list has the states on the way, the last one included. *)
Inductive path (f : faults) : st -> list st -> st -> Prop :=
| path_nil s : path f s [] s
| path_cons l s s' t s'' : step f l s s' -> path f s' t s'' -> path f s (s' :: t) s''.

(** Nothing goes wrong: no process of the kind that is not the monitor is
    killed, no notification about the lock file is lost, and a monitor in the
    background keeps the lock until its parent has seen it. (The monitor may
    be stopped or killed, and notifications about other files may be
    lost.) *)
Definition no_faults (n : nat) : faults := Faults false false false n.
