(** The three locks of the database and the hand-over between tup processes and the
    file monitor: src/tup/lock.c, src/tup/flock/fcntl.c, src/tup/monitor/inotify.c. *)
From Verif Require Import Base.

(** fcntl.c 47-106: a write lock on a whole file, held by one process at a time. *)
Inductive who := C (i : nat) | M.
Definition who_eqb (a b : who) : bool := match a, b with C i, C j => Nat.eqb i j | M, M => true | _, _ => false end.
(** F_SETLKW: enabled when the lock is free (a holder never asks again in the code). *)
Definition acquire (l : option who) (w : who) : option (option who) := match l with None => Some (Some w) | Some _ => None end.
(** F_UNLCK, and the closing of the descriptor by the kernel: no effect on another's lock. *)
Definition release (l : option who) (w : who) : option who :=
  match l with Some x => if who_eqb x w then None else l | None => None end.

(** Where a tup process is: lock.c 82-118. Opening and closing the shared and tri
    lock files has no effect on anyone else and is left out.
    - Start: before tup_flock(sh_lock), 87-95;
    - HaveSh: it returned; next is the open of the object lock file, 97;
    - Opened: before tup_flock(obj_lock), 99;
    - Working: tup_lock_init is done;
    - Released: after tup_unflock(obj_lock), 109;
    - Closed: after tup_lock_close(obj_lock), 110, before tup_flock(tri_lock), 112;
    - HaveTri: before tup_unflock(tri_lock), 113;
    - TriDone: before tup_unflock(sh_lock), 115;
    - Done: out.
    D0..D3 are a process that was killed, while the kernel closes its files in the order
    they were opened (sh, obj, tri; each close drops the lock, and the close events
    come last, when the files are put); the flag says if the object lock file was open. *)
Inductive cpc := Start | HaveSh | Opened | Working | Released | Closed | HaveTri | TriDone | Done
  | D0 (o : bool) | D1 (o : bool) | D2 (o : bool) | D3 (o : bool).

(** The inotify events on the object lock file: inotify.c 231. *)
Inductive ev := EOpen | EClose.
Definition ev_eqb (a b : ev) : bool := match a, b with EOpen, EOpen | EClose, EClose => true | _, _ => false end.

(** Where the monitor is: inotify.c 523-675.
    - MOff: no monitor runs;
    - MOn: in select/read or handling file events, locked = 1;
    - MFlush: 607-624, it has seen an open while locked, and flushes its queue;
    - MWantTri: 625-626, locked = 0, before tup_flock(tri);
    - MHaveTri: before tup_unflock(obj), 629;
    - MAway: in select/read with locked = 0;
    - MWantObj: 634-635, it has seen a close while not locked; before tup_flock(obj);
    - MHaveObj: before tup_unflock(tri), 638; then it reloads (650-665) and is MOn. *)
Inductive mpc := MOff | MOn | MFlush | MWantTri | MHaveTri | MAway | MWantObj | MHaveObj.

Record st := { procs : list cpc; sh : option who; obj : option who; tri : option who; mon : mpc; evs : list ev }.
Definition init : st := {| procs := []; sh := None; obj := None; tri := None; mon := MOff; evs := [] |}.

Fixpoint upd (l : list cpc) (i : nat) (p : cpc) : list cpc :=
  match l, i with [], _ => [] | _ :: r, 0 => p :: r | x :: r, S j => x :: upd r j p end.

(** An event goes to the end of the monitor's inotify queue; the kernel may drop it when
    it equals the last one (whether it does depends on unrelated events in
    between, hence the flag). An overflow of the queue is not modelled. *)
Definition emit (merge : bool) (m : mpc) (e : ev) (q : list ev) : list ev :=
  match m with
  | MOff => []
  | _ => match rev q with
         | x :: _ => if merge && ev_eqb x e then q else q ++ [e]
         | [] => [e]
         end
  end.

Inductive action :=
| Arrive                          (* a tup process starts *)
| Run (i : nat) (merge : bool)    (* process i takes its next step *)
| Monitor                         (* the monitor takes its next step *)
| Become (i : nat)                (* process i is 'tup monitor' and becomes the monitor *)
| StopMonitor                     (* the monitor exits or is killed *)
| Kill (i : nat) (merge : bool)   (* process i is killed, and the kernel cleans up at once *)
| KillSlow (i : nat).             (* process i is killed; the kernel cleans up in steps *)

(** lock.c 82-118. *)
Definition client (i : nat) (merge : bool) (s : st) : option st :=
  let pc p := upd (procs s) i p in
  match nth_error (procs s) i with
  | Some Start => match acquire (sh s) (C i) with
                  | Some l => Some {| procs := pc HaveSh; sh := l; obj := obj s; tri := tri s; mon := mon s; evs := evs s |}
                  | None => None
                  end
  | Some HaveSh => Some {| procs := pc Opened; sh := sh s; obj := obj s; tri := tri s; mon := mon s; evs := emit merge (mon s) EOpen (evs s) |}
  | Some Opened => match acquire (obj s) (C i) with
                   | Some l => Some {| procs := pc Working; sh := sh s; obj := l; tri := tri s; mon := mon s; evs := evs s |}
                   | None => None
                   end
  | Some Working => Some {| procs := pc Released; sh := sh s; obj := release (obj s) (C i); tri := tri s; mon := mon s; evs := evs s |}
  | Some Released => Some {| procs := pc Closed; sh := sh s; obj := obj s; tri := tri s; mon := mon s; evs := emit merge (mon s) EClose (evs s) |}
  | Some Closed => match acquire (tri s) (C i) with
                   | Some l => Some {| procs := pc HaveTri; sh := sh s; obj := obj s; tri := l; mon := mon s; evs := evs s |}
                   | None => None
                   end
  | Some HaveTri => Some {| procs := pc TriDone; sh := sh s; obj := obj s; tri := release (tri s) (C i); mon := mon s; evs := evs s |}
  | Some TriDone => Some {| procs := pc Done; sh := release (sh s) (C i); obj := obj s; tri := tri s; mon := mon s; evs := evs s |}
  | Some (D0 o) => Some {| procs := pc (D1 o); sh := release (sh s) (C i); obj := obj s; tri := tri s; mon := mon s; evs := evs s |}
  | Some (D1 o) => Some {| procs := pc (D2 o); sh := sh s; obj := release (obj s) (C i); tri := tri s; mon := mon s; evs := evs s |}
  | Some (D2 o) => Some {| procs := pc (D3 o); sh := sh s; obj := obj s; tri := release (tri s) (C i); mon := mon s; evs := evs s |}
  | Some (D3 o) => Some {| procs := pc Done; sh := sh s; obj := obj s; tri := tri s; mon := mon s;
                           evs := if o then emit merge (mon s) EClose (evs s) else evs s |}
  | Some Done | None => None
  end.

(** inotify.c 606-668. *)
Definition monitor (s : st) : option st :=
  let to m q := {| procs := procs s; sh := sh s; obj := obj s; tri := tri s; mon := m; evs := q |} in
  match mon s, evs s with
  | MOff, _ => None
  | MOn, [] => None
  | MOn, EOpen :: q => Some (to MFlush q)
  | MOn, EClose :: q => Some (to MOn q)
  | MFlush, q => Some (to MWantTri q)
  | MWantTri, q => match acquire (tri s) M with
                   | Some l => Some {| procs := procs s; sh := sh s; obj := obj s; tri := l; mon := MHaveTri; evs := q |}
                   | None => None
                   end
  | MHaveTri, q => Some {| procs := procs s; sh := sh s; obj := release (obj s) M; tri := tri s; mon := MAway; evs := q |}
  | MAway, [] => None
  | MAway, EOpen :: q => Some (to MAway q)
  | MAway, EClose :: q => Some (to MWantObj q)
  | MWantObj, q => match acquire (obj s) M with
                   | Some l => Some {| procs := procs s; sh := sh s; obj := l; tri := tri s; mon := MHaveObj; evs := q |}
                   | None => None
                   end
  | MHaveObj, q => Some {| procs := procs s; sh := sh s; obj := obj s; tri := release (tri s) M; mon := MOn; evs := q |}
  end.

(** inotify.c 206-243, foreground: the process holds the shared and the object lock,
    watches the object lock file and drops the shared lock. In the background case the child
    takes the object lock over while the parent still has the shared one. A monitor
    that restarts (280-334) closes its locks, goes through tup_lock_init and empties its
    event queue before it drops the shared lock: StopMonitor, Arrive, Become. *)
Definition become (i : nat) (s : st) : option st :=
  match nth_error (procs s) i, mon s with
  | Some Working, MOff => Some {| procs := upd (procs s) i Done; sh := release (sh s) (C i); obj := Some M; tri := tri s; mon := MOn; evs := [] |}
  | _, _ => None
  end.

(** The locks and the watch of the monitor go away with it. *)
Definition stop_monitor (s : st) : option st :=
  match mon s with
  | MOff => None
  | _ => Some {| procs := procs s; sh := release (sh s) M; obj := release (obj s) M; tri := release (tri s) M; mon := MOff; evs := [] |}
  end.

Definition has_open (p : cpc) : bool := match p with Opened | Working | Released => true | _ => false end.
Definition alive (p : cpc) : bool := match p with Start | HaveSh | Opened | Working | Released | Closed | HaveTri | TriDone => true | _ => false end.
Definition kill (i : nat) (merge : bool) (s : st) : option st :=
  match nth_error (procs s) i with
  | Some p => if alive p then
      Some {| procs := upd (procs s) i Done; sh := release (sh s) (C i); obj := release (obj s) (C i); tri := release (tri s) (C i); mon := mon s;
              evs := if has_open p then emit merge (mon s) EClose (evs s) else evs s |}
    else None
  | None => None
  end.
Definition kill_slow (i : nat) (s : st) : option st :=
  match nth_error (procs s) i with
  | Some p => if alive p then Some {| procs := upd (procs s) i (D0 (has_open p)); sh := sh s; obj := obj s; tri := tri s; mon := mon s; evs := evs s |} else None
  | None => None
  end.

Definition act (a : action) (s : st) : option st :=
  match a with
  | Arrive => Some {| procs := procs s ++ [Start]; sh := sh s; obj := obj s; tri := tri s; mon := mon s; evs := evs s |}
  | Run i merge => client i merge s
  | Monitor => monitor s
  | Become i => become i s
  | StopMonitor => stop_monitor s
  | Kill i merge => kill i merge s
  | KillSlow i => kill_slow i s
  end.
Fixpoint run (l : list action) (s : st) : option st :=
  match l with [] => Some s | a :: r => match act a s with Some s' => run r s' | None => None end end.
