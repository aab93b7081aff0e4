(** The three locks that protect the database, and the file monitor that
    shares them (src/tup/lock.c, src/tup/flock/fcntl.c and the locking part of
    src/tup/monitor/inotify.c).

    Any number of tup processes come and go; at most one of them is a monitor.
    Each step of the model is one system call on a lock or on the lock file.

    Not modelled: errors of the system calls; a second monitor that starts
    while an old one is still shutting down (monitor/inotify.c:208-211 sends
    a signal to the old one but does not wait for it); what the monitor does
    with an event on a file (it is a number here). *)
From Coq Require Import List Bool Arith.
Import ListNotations.

(** Who owns a lock. A lock of flock/fcntl.c:49-63 belongs to a process, so
    a process that asks for a lock it owns gets it again. *)
Inductive who := Cl (i : nat) | Mo.

Definition who_eqb (a b : who) : bool :=
  match a, b with
  | Mo, Mo => true
  | Cl i, Cl j => Nat.eqb i j
  | _, _ => false
  end.

(** flock/fcntl.c:84-98, tup_unflock: no effect on a lock that another process
    owns. Also close() of the lock file (flock/fcntl.c:42-47), which drops the
    locks that the process has on that file. *)
Definition unlock (w : who) (l : option who) : option who :=
  match l with
  | Some o => if who_eqb o w then None else l
  | None => None
  end.

(** What the kernel puts into the monitor's inotify queue: someone opened the
    object lock file, someone closed it (monitor/inotify.c:231), an event on
    a watched file, or the note that the queue was full. *)
Inductive ev := EvOpen | EvClose | EvFile (n : nat) | EvOver.

Definition is_lock (e : ev) : bool :=
  match e with EvOpen | EvClose => true | _ => false end.

(** Where a process stands that is not the monitor. The number in the first
    states is how many file events the process is going to cause.

    lock.c:82-105, tup_lock_init: [WaitSh] at :88-91, [Open] at :97,
    [WaitObj] at :99.
    [Work]: between tup_lock_init and tup_lock_exit; the database is in use.
    lock.c:107-117, tup_lock_exit: the end of [Work] is :109, [CloseObj] is
    at :110, [WaitTri] at :112, [UnTri] at :113, [UnSh] at :115.
    [PUnlock], [PWait]: the process that forked a monitor into the background
    (monitor/inotify.c:244-253), before tup_unflock and in tup_wait_flock.
    [Die1] to [Die4]: the process was killed and the kernel closes its files in
    the order of their numbers, which is the order of lock.c:86, :97 and :102:
    the shared lock, the object lock and the tri lock are dropped as each
    file is closed, and the notification of the close comes when the process
    runs its deferred work. The flag tells if the object lock file was open. *)
Inductive pc :=
| WaitSh (k : nat) | Open (k : nat) | WaitObj (k : nat) | Work (k : nat)
| CloseObj | WaitTri | UnTri | UnSh | Done
| PUnlock | PWait
| Die1 (b : bool) | Die2 (b : bool) | Die3 (b : bool) | Die4 (b : bool).

(** Where the monitor stands.
    [MChild]: the forked child before monitor/inotify.c:259.
    [MStart]: it owns the shared and the object lock and is about to drop the
    shared one (:239 and :331).
    [MIdle locked]: in select, :540, or between two events, with the variable
    [locked] of :485.
    [MOpen1]: in the branch of :607 before the flush of :622; [MOpen2]: after
    tup_flock(tri), :626.
    [MClose1]: in the branch of :634 before tup_flock(obj), :635; [MClose2]:
    before tup_unflock(tri), :638.
    [MRetry1]: flush_queue returned MONITOR_LOOP_RETRY (:842), before
    tup_lock_closeall (:304). [MRetry2], [MRetry3], [MRetry4]: in the
    tup_lock_init of :310 before its three calls. [MRetry5]: before the flush
    of the inotify queue, :313-329.
    [MQuit1], [MQuit2], [MQuit3]: the loop ended (:674), the inotify
    descriptor is closed (:347), and tup_lock_exit is before its
    tup_unflock(obj), tup_flock(tri), tup_unflock(tri). The flag is the
    value of [locked]. *)
Inductive mpc :=
| MNone | MChild | MStart | MIdle (locked : bool)
| MOpen1 | MOpen2 | MClose1 | MClose2
| MRetry1 | MRetry2 | MRetry3 | MRetry4 | MRetry5
| MQuit1 (locked : bool) | MQuit2 (locked : bool) | MQuit3.

(** [sh], [obj], [tri]: the owners of the locks. [cls]: the processes.
    [queue]: the inotify queue together with the part of it that
    monitor/inotify.c:556 has read but not looked at. [lost]: there is an
    overflow event among the monitor's own queued events. [pend]: the monitor's
    own queued file events (event_list). [handled]: the edits that the monitor
    has entered in the database, by flush_queue or by its scan. [log]: all
    edits made so far. The last two are only recorded. *)
Record st := St {
  sh : option who; obj : option who; tri : option who;
  cls : list pc; mon : mpc; queue : list ev;
  lost : bool; pend : list nat; handled : list nat; log : list nat }.

Definition init : st := St None None None [] MNone [] false [] [] [].

Fixpoint put (i : nat) (p : pc) (l : list pc) : list pc :=
  match l, i with
  | [], _ => []
  | _ :: l', 0 => p :: l'
  | x :: l', S i' => x :: put i' p l'
  end.

(** Is there an inotify watch on the object lock file whose events someone
    is going to read? From monitor/inotify.c:231 until :347. *)
Definition watching (m : mpc) : bool :=
  match m with MNone | MQuit1 _ | MQuit2 _ | MQuit3 => false | _ => true end.

(** What can go wrong. [f_crash]: a process can be killed. [f_over]: the
    notification that the lock file was opened or closed can be lost to a full
    inotify queue. [f_early]: a monitor in the background can give up the
    object lock before the process that forked it has seen that it owns it.
    [f_qmax]: the limit of the inotify queue. *)
Record faults := Faults { f_crash : bool; f_over : bool; f_early : bool; f_qmax : nat }.

(** The kernel's inotify queue: an event that equals the last one that is not
    read is merged with it; when the queue is full an overflow event is queued
    in place of the event, unless there is one. (Whether the last event is read
    or not is left open, so both outcomes are allowed; the same holds for
    the overflow event.) *)
Inductive emit (f : faults) (m : mpc) (e : ev) (q : list ev) : list ev -> Prop :=
| em_off : watching m = false -> emit f m e q q
| em_add : watching m = true -> emit f m e q (q ++ [e])
| em_merge q0 : watching m = true -> q = q0 ++ [e] -> emit f m e q q
| em_over : watching m = true -> f_qmax f <= length q -> (is_lock e = true -> f_over f = true) ->
    emit f m e q (q ++ [EvOver])
| em_over_again : watching m = true -> f_qmax f <= length q -> (is_lock e = true -> f_over f = true) ->
    In EvOver q -> emit f m e q q.

(** Is the object lock file open in a process that stands there? *)
Definition obj_open (p : pc) : bool :=
  match p with WaitObj _ | Work _ | CloseObj => true | _ => false end.

(** Is a process waiting in tup_wait_flock, or going to? *)
Definition waits_child (p : pc) : bool := match p with PUnlock | PWait => true | _ => false end.

Definition may_leave (f : faults) (s : st) : Prop :=
  f_early f = true \/ forall p, In p (cls s) -> waits_child p = false.

Definition dead (p : pc) : bool :=
  match p with Done | Die1 _ | Die2 _ | Die3 _ | Die4 _ => true | _ => false end.

(** [Run]: a process goes on with what it has begun. [Env]: a new process, an
    edit, a decision to start or stop the monitor, a process is killed. *)
Inductive label := Run | Env.

Inductive step (f : faults) : label -> st -> st -> Prop :=
(* a new process calls tup_lock_init; lock.c:86 *)
| s_arrive a b c cs m q l p h g k :
    step f Env (St a b c cs m q l p h g) (St a b c (cs ++ [WaitSh k]) m q l p h g)
(* a user edits a file *)
| s_edit a b c cs m q q' l p h g n : emit f m (EvFile n) q q' ->
    step f Env (St a b c cs m q l p h g) (St a b c cs m q' l p h (n :: g))
(* lock.c:88-91, tup_try_flock and tup_flock *)
| s_sh b c cs m q l p h g i k : nth_error cs i = Some (WaitSh k) ->
    step f Run (St None b c cs m q l p h g)
               (St (Some (Cl i)) b c (put i (Open k) cs) m q l p h g)
(* lock.c:97 *)
| s_open a b c cs m q q' l p h g i k : nth_error cs i = Some (Open k) -> emit f m EvOpen q q' ->
    step f Run (St a b c cs m q l p h g) (St a b c (put i (WaitObj k) cs) m q' l p h g)
(* lock.c:99 *)
| s_obj a c cs m q l p h g i k : nth_error cs i = Some (WaitObj k) ->
    step f Run (St a None c cs m q l p h g)
               (St a (Some (Cl i)) c (put i (Work k) cs) m q l p h g)
(* the work that the locks protect *)
| s_work a b c cs m q q' l p h g i k n : nth_error cs i = Some (Work (S k)) ->
    emit f m (EvFile n) q q' ->
    step f Run (St a b c cs m q l p h g) (St a b c (put i (Work k) cs) m q' l p h g)
(* lock.c:109 *)
| s_unobj a b c cs m q l p h g i : nth_error cs i = Some (Work 0) ->
    step f Run (St a b c cs m q l p h g)
               (St a (unlock (Cl i) b) c (put i CloseObj cs) m q l p h g)
(* lock.c:110 *)
| s_close a b c cs m q q' l p h g i : nth_error cs i = Some CloseObj -> emit f m EvClose q q' ->
    step f Run (St a b c cs m q l p h g) (St a b c (put i WaitTri cs) m q' l p h g)
(* lock.c:112 *)
| s_tri a b cs m q l p h g i : nth_error cs i = Some WaitTri ->
    step f Run (St a b None cs m q l p h g)
               (St a b (Some (Cl i)) (put i UnTri cs) m q l p h g)
(* lock.c:113-114 *)
| s_untri a b c cs m q l p h g i : nth_error cs i = Some UnTri ->
    step f Run (St a b c cs m q l p h g)
               (St a b (unlock (Cl i) c) (put i UnSh cs) m q l p h g)
(* lock.c:115-116 *)
| s_unsh a b c cs m q l p h g i : nth_error cs i = Some UnSh ->
    step f Run (St a b c cs m q l p h g)
               (St (unlock (Cl i) a) b c (put i Done cs) m q l p h g)
(* monitor/inotify.c:214-236: the process becomes a monitor in the foreground;
   its locks are now the monitor's *)
| s_fore cs q l p h g i k : nth_error cs i = Some (Work k) -> forall c,
    step f Env (St (Some (Cl i)) (Some (Cl i)) c cs MNone q l p h g)
               (St (Some Mo) (Some Mo) c (put i Done cs) MStart [] false [] [] g)
(* monitor/inotify.c:214-236, :243: the process forks a monitor; the child
   has no locks *)
| s_fork a b c cs q l p h g i k : nth_error cs i = Some (Work k) ->
    step f Env (St a b c cs MNone q l p h g)
               (St a b c (put i PUnlock cs) MChild [] false [] [] g)
(* monitor/inotify.c:247 *)
| s_punlock a b c cs m q l p h g i : nth_error cs i = Some PUnlock ->
    step f Run (St a b c cs m q l p h g)
               (St a (unlock (Cl i) b) c (put i PWait cs) m q l p h g)
(* flock/fcntl.c:100-120: someone else owns the lock; then tup_cleanup,
   monitor/inotify.c:250. The close of lock.c:110 is not the last close of
   that open file, which the child shares, so there is no notification *)
| s_pwait a c cs m q l p h g i o : nth_error cs i = Some PWait -> who_eqb o (Cl i) = false ->
    step f Run (St a (Some o) c cs m q l p h g)
               (St a (Some o) c (put i WaitTri cs) m q l p h g)
(* monitor/inotify.c:259, and the scan at the start of monitor_loop, :489-494 *)
| m_child a c cs q l p h g :
    step f Run (St a None c cs MChild q l p h g)
               (St a (Some Mo) c cs (MIdle true) q l p g g)
(* monitor/inotify.c:239, :331, and the scan at the start of monitor_loop *)
| m_start a b c cs q l p h g :
    step f Run (St a b c cs MStart q l p h g)
               (St (unlock Mo a) b c cs (MIdle true) q l p g g)
(* monitor/inotify.c:607: someone opened the lock file, and we are locked *)
| m_open a b c cs q l p h g :
    step f Run (St a b c cs (MIdle true) (EvOpen :: q) l p h g)
               (St a b c cs MOpen1 q l p h g)
(* monitor/inotify.c:607, :634: nothing to do *)
| m_open_off a b c cs q l p h g :
    step f Run (St a b c cs (MIdle false) (EvOpen :: q) l p h g)
               (St a b c cs (MIdle false) q l p h g)
| m_close_on a b c cs q l p h g :
    step f Run (St a b c cs (MIdle true) (EvClose :: q) l p h g)
               (St a b c cs (MIdle true) q l p h g)
(* monitor/inotify.c:634: someone closed the lock file, and we are not locked *)
| m_close a b c cs q l p h g :
    step f Run (St a b c cs (MIdle false) (EvClose :: q) l p h g)
               (St a b c cs MClose1 q l p h g)
(* monitor/inotify.c:669, queue_event *)
| m_file a b c cs q l p h g k n :
    step f Run (St a b c cs (MIdle k) (EvFile n :: q) l p h g)
               (St a b c cs (MIdle k) q l (n :: p) h g)
| m_over a b c cs q l p h g k :
    step f Run (St a b c cs (MIdle k) (EvOver :: q) l p h g)
               (St a b c cs (MIdle k) q true p h g)
(* monitor/inotify.c:547-553: a timeout, flush_queue *)
| m_flush a b c cs q p h g : p <> [] ->
    step f Run (St a b c cs (MIdle true) q false p h g)
               (St a b c cs (MIdle true) q false [] (p ++ h) g)
(* the same, with an overflow event in the queue, :813 and :840-843 *)
| m_flush_retry a b c cs q p h g : may_leave f (St a b c cs (MIdle true) q true p h g) ->
    step f Run (St a b c cs (MIdle true) q true p h g)
               (St a b c cs MRetry1 q true [] (p ++ h) g)
(* monitor/inotify.c:622-626: flush_queue, locked = 0, tup_flock(tri) *)
| m_tri a b cs q p h g :
    step f Run (St a b None cs MOpen1 q false p h g)
               (St a b (Some Mo) cs MOpen2 q false [] (p ++ h) g)
(* monitor/inotify.c:622-624: flush_queue returned MONITOR_LOOP_RETRY *)
| m_open_retry a b c cs q p h g :
    step f Run (St a b c cs MOpen1 q true p h g)
               (St a b c cs MRetry1 q true [] (p ++ h) g)
(* monitor/inotify.c:629 *)
| m_unobj a b c cs q l p h g :
    step f Run (St a b c cs MOpen2 q l p h g)
               (St a (unlock Mo b) c cs (MIdle false) q l p h g)
(* monitor/inotify.c:635 *)
| m_obj a c cs q l p h g :
    step f Run (St a None c cs MClose1 q l p h g)
               (St a (Some Mo) c cs MClose2 q l p h g)
(* monitor/inotify.c:638-665: tup_unflock(tri), locked = 1 *)
| m_untri a b c cs q l p h g :
    step f Run (St a b c cs MClose2 q l p h g)
               (St a b (unlock Mo c) cs (MIdle true) q l p h g)
(* monitor/inotify.c:304, tup_lock_closeall *)
| m_closeall a b c cs q q' l p h g : emit f MRetry1 EvClose q q' ->
    step f Run (St a b c cs MRetry1 q l p h g)
               (St (unlock Mo a) (unlock Mo b) (unlock Mo c) cs MRetry2 q' l p h g)
(* monitor/inotify.c:310, tup_lock_init *)
| m_retry_sh b c cs q l p h g :
    step f Run (St None b c cs MRetry2 q l p h g)
               (St (Some Mo) b c cs MRetry3 q l p h g)
| m_retry_open a b c cs q q' l p h g : emit f MRetry3 EvOpen q q' ->
    step f Run (St a b c cs MRetry3 q l p h g)
               (St a b c cs MRetry4 q' l p h g)
| m_retry_obj a c cs q l p h g :
    step f Run (St a None c cs MRetry4 q l p h g)
               (St a (Some Mo) c cs MRetry5 q l p h g)
(* monitor/inotify.c:313-329: flush the inotify queue *)
| m_drain a b c cs q l p h g :
    step f Run (St a b c cs MRetry5 q l p h g)
               (St a b c cs MStart [] false [] h g)
(* monitor/inotify.c:674, monitor_quit *)
| m_quit a b c cs q l p h g k : may_leave f (St a b c cs (MIdle k) q l p h g) ->
    step f Env (St a b c cs (MIdle k) q l p h g)
               (St a b c cs (MQuit1 k) [] false [] h g)
(* lock.c:109-110 *)
| m_quit_obj a b c cs q l p h g k :
    step f Run (St a b c cs (MQuit1 k) q l p h g)
               (St a (unlock Mo b) c cs (MQuit2 k) q l p h g)
(* lock.c:112: it may own the lock already *)
| m_quit_tri a b cs q l p h g :
    step f Run (St a b None cs (MQuit2 true) q l p h g)
               (St a b (Some Mo) cs MQuit3 q l p h g)
| m_quit_tri_own a b c cs q l p h g :
    step f Run (St a b c cs (MQuit2 false) q l p h g)
               (St a b c cs MQuit3 q l p h g)
(* lock.c:113-116 *)
| m_quit_done a b c cs q l p h g :
    step f Run (St a b c cs MQuit3 q l p h g)
               (St (unlock Mo a) b (unlock Mo c) cs MNone q l p h g)
(* the monitor is killed; the kernel drops its locks (at once: a simplification) *)
| m_kill a b c cs m q l p h g : may_leave f (St a b c cs m q l p h g) ->
    step f Env (St a b c cs m q l p h g)
               (St (unlock Mo a) (unlock Mo b) (unlock Mo c) cs MNone [] false [] h g)
(* a process is killed *)
| s_kill a b c cs m q l p h g i x : f_crash f = true -> nth_error cs i = Some x -> dead x = false ->
    step f Env (St a b c cs m q l p h g) (St a b c (put i (Die1 (obj_open x)) cs) m q l p h g)
| s_die1 a b c cs m q l p h g i x : nth_error cs i = Some (Die1 x) ->
    step f Run (St a b c cs m q l p h g)
               (St (unlock (Cl i) a) b c (put i (Die2 x) cs) m q l p h g)
| s_die2 a b c cs m q l p h g i x : nth_error cs i = Some (Die2 x) ->
    step f Run (St a b c cs m q l p h g)
               (St a (unlock (Cl i) b) c (put i (Die3 x) cs) m q l p h g)
| s_die3 a b c cs m q l p h g i x : nth_error cs i = Some (Die3 x) ->
    step f Run (St a b c cs m q l p h g)
               (St a b (unlock (Cl i) c) (put i (Die4 x) cs) m q l p h g)
| s_die4_open a b c cs m q q' l p h g i : nth_error cs i = Some (Die4 true) -> emit f m EvClose q q' ->
    step f Run (St a b c cs m q l p h g) (St a b c (put i Done cs) m q' l p h g)
| s_die4 a b c cs m q l p h g i : nth_error cs i = Some (Die4 false) ->
    step f Run (St a b c cs m q l p h g) (St a b c (put i Done cs) m q l p h g).

Inductive reach (f : faults) : st -> Prop :=
| r_init : reach f init
| r_step l s s' : reach f s -> step f l s s' -> reach f s'.
