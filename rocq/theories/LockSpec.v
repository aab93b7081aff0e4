(** What the hand-over of the database is for. *)
From Verif Require Import Base LockModel.

(** Who may read or write the database: a process between tup_lock_init and
    tup_lock_exit; the monitor while it handles file events, flushes its queue or reloads. *)
Definition in_db (s : st) (w : who) : Prop :=
  match w with
  | C i => nth_error (procs s) i = Some Working
  | M => mon s = MOn \/ mon s = MFlush \/ mon s = MHaveObj
  end.
(** Process i has announced itself and waits for the database. *)
Definition waits (s : st) (i : nat) : Prop := nth_error (procs s) i = Some Opened.
(** Steps that the processes take on their own. *)
Definition own (a : action) : bool := match a with Run _ _ | Monitor => true | _ => false end.
Definition all_done (s : st) : Prop := forall i p, nth_error (procs s) i = Some p -> p = Done.
(** Nobody can go on, whatever else happens apart from kills. *)
Definition stuck (s : st) : Prop := forall a, own a = true -> act a s = None.
Definition no_arrival (l : list action) : bool := forallb (fun a => match a with Arrive => false | _ => true end) l.
Definition no_slow_kill (l : list action) : bool := forallb (fun a => match a with KillSlow _ => false | _ => true end) l.
Definition no_kill (l : list action) : bool := forallb (fun a => match a with KillSlow _ | Kill _ _ => false | _ => true end) l.
