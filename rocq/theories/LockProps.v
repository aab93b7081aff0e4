(** Properties of the hand-over of the database: C31. *)
From Verif Require Import Base LockModel LockSpec LockProofs LockProofs2.

(** Never are two in the database, however many processes and monitors come, go and
    are killed, in any order. *)
Theorem C31_exclusive : forall l s a b, run l init = Some s -> in_db s a -> in_db s b -> a = b.
Proof.
  intros l s a b R A B. destruct (ex_run _ _ R) as [E1 E2].
  assert (H : forall w, in_db s w -> obj s = Some w).
  { intros [i|] W; [auto|]. apply E2. destruct W as [W|[W|W]]; rewrite W; reflexivity. }
  pose proof (H _ A). pose proof (H _ B). congruence.
Qed.
Print Assumptions C31_exclusive.

(** What is missing: kills in which another process runs while the kernel still
    closes the files of the killed one (see the refutation below).
    The monitor does not miss a process that waits: the event that makes it
    give way is in its queue. *)
Theorem C31_never_missed_partial : forall l s i,
  no_slow_kill l = true -> run l init = Some s -> waits s i -> obj s = Some M -> mon s = MOn -> exists q, evs s = EOpen :: q.
Proof.
  intros l s i O R W _ Em. pose proof (inv_run _ _ O R) as I. destruct (active_sh _ _ _ I W eq_refl) as [Sh K]. pose proof (i_sync _ I) as Y. rewrite K, Em in Y.
  destruct Y as [Y|Y]; [discriminate|]. cbn in Y. destruct (evs s) as [|[|] q]; cbn in Y; [discriminate|eauto|destruct Y; discriminate].
Qed.
Print Assumptions C31_never_missed_partial.

(** Nor is there a deadlock: when nobody can go on, all processes are done. *)
Theorem C31_no_deadlock_partial : forall l s, no_slow_kill l = true -> run l init = Some s -> stuck s -> all_done s.
Proof. intros l s O R U. exact (not_stuck s (inv_run _ _ O R) U). Qed.
Print Assumptions C31_no_deadlock_partial.

(** And nobody goes round in circles: once no more processes arrive, the number of steps
    is bounded, whatever the schedule. With the previous theorem, every process
    comes to its end. *)
Theorem C31_bounded : forall s, exists n, forall l s', no_arrival l = true -> run l s = Some s' -> length l <= n.
Proof. intros s. exists (effort s). intros l s' O R. pose proof (run_effort _ _ _ O R). lia. Qed.
Print Assumptions C31_bounded.

(** When a process leaves, the monitor (if there is one) has the database back and has
    read all events. What is missing: kills. *)
Theorem C31_handed_back_partial : forall l s i p,
  no_kill l = true -> run l init = Some s -> nth_error (procs s) i = Some p -> p = HaveTri \/ p = TriDone -> mon s <> MOff ->
  in_db s M /\ obj s = Some M /\ evs s = [].
Proof.
  intros l s i p O R P D N. destruct (calm_run _ _ O R) as [I Y]. assert (Ac : active p = true) by (destruct D as [->| ->]; reflexivity).
  destruct (active_sh _ _ _ I P Ac) as [_ K]. rewrite K in Y. pose proof (i_obj _ I) as Ho.
  assert (mon s = MOn) as E by (destruct D as [->| ->]; destruct (mon s); cbn in Y; congruence || contradiction). rewrite E in *.
  split; [left; exact E|]. split; [exact Ho|]. destruct D as [->| ->]; exact Y.
Qed.
Print Assumptions C31_handed_back_partial.

(** Process 0 becomes the monitor. Process 1 works while 2 waits; then 2 works. *)
Definition ex_monitor : list action := [Arrive; Run 0 true; Run 0 true; Run 0 true; Become 0].
Definition ex_two : list action := ex_monitor ++ [Arrive; Arrive; Run 1 true; Run 1 true; Monitor; Monitor; Monitor; Monitor; Run 1 true].
Example C31_case :
  match run ex_monitor init with Some s => in_db s M | None => False end /\
  match run ex_two init with Some s => in_db s (C 1) /\ mon s = MAway /\ tri s = Some M | None => False end /\
  match run (ex_two ++ [Run 1 true; Run 1 true; Monitor; Monitor; Monitor; Run 1 true; Run 1 true]) init with
  | Some s => nth_error (procs s) 1 = Some TriDone /\ mon s = MOn
  | None => False
  end /\
  match run (ex_two ++ [Run 1 true; Run 1 true; Monitor; Monitor; Monitor; Run 1 true; Run 1 true; Run 1 true; Run 2 true; Run 2 true]) init with
  | Some s => waits s 2 /\ mon s = MOn /\ evs s = [EOpen]
  | None => False
  end.
Proof. vm_compute. repeat split; auto. Qed.

(** Process 1 is killed while it works and 2 waits for the shared lock. The kernel closes 1's
    shared lock first, so 2 opens the object lock file before 1's is closed. The
    monitor, which is away, skips the open, sees the close, and takes the object lock
    before 2 does. Nothing tells it about 2 any more: 2 waits for the monitor, the monitor for an
    event, and everybody else for 2. *)
Theorem C31_killed_no_deadlock_refuted : exists l s,
  run l init = Some s /\ waits s 2 /\ in_db s M /\ evs s = [] /\ stuck s /\ ~ all_done s.
Proof.
  exists (ex_two ++ [KillSlow 1; Run 1 true; Run 2 true; Run 2 true; Run 1 true; Run 1 true; Run 1 true; Monitor; Monitor; Monitor; Monitor]).
  match goal with |- exists s, run ?l init = _ /\ _ => let v := eval vm_compute in (run l init) in match v with Some ?x => exists x end end.
  split; [vm_compute; reflexivity|]. split; [reflexivity|]. split; [left; reflexivity|]. split; [reflexivity|]. split.
  - intros [|i g| |i| |i g|i] H; try discriminate; [|reflexivity]. destruct i as [|[|[|[|i]]]]; reflexivity.
  - intros D. specialize (D 2 Opened eq_refl). discriminate.
Qed.
Print Assumptions C31_killed_no_deadlock_refuted.

(** A kill also undoes the hand-back: 1 is killed while it waits; 2 works on the strength of
    1's open, and leaves while the monitor gives way to 2 a second time. *)
Theorem C31_killed_handed_back_refuted : exists l s,
  no_slow_kill l = true /\ run l init = Some s /\ nth_error (procs s) 2 = Some TriDone /\ mon s <> MOff /\ ~ in_db s M /\ obj s <> Some M.
Proof.
  exists (ex_monitor ++ [Arrive; Arrive; Run 1 true; Run 1 true; Kill 1 true; Run 2 true; Run 2 true; Monitor; Monitor; Monitor; Monitor; Run 2 true; Run 2 true; Run 2 true;
                         Monitor; Monitor; Monitor; Run 2 true; Run 2 true; Monitor; Monitor; Monitor; Monitor]).
  match goal with |- exists s, _ /\ run ?l init = _ /\ _ => let v := eval vm_compute in (run l init) in match v with Some ?x => exists x end end.
  split; [reflexivity|]. split; [vm_compute; reflexivity|]. split; [reflexivity|]. split; [discriminate|]. split; [intros [H|[H|H]]; discriminate|discriminate].
Qed.
Print Assumptions C31_killed_handed_back_refuted.
