(** C57: one process at a time uses the database, also with a monitor, and
    every process finishes. *)
From Coq Require Import List Bool Arith Lia.
From Verif Require Import TriModel TriSpec TriProofs TriProofs2 TriProofs3 TriProofs4.
Import ListNotations.

(** ** One user of the database at a time *)

(** Whatever happens, crashes and lost notifications included: two processes
    that use the database are the same, and the monitor does not use it while
    a process does. *)
Theorem C57_one_user_partial : forall f s, reach f s ->
  (forall i j, works s i -> works s j -> i = j) /\
  (forall i, works s i -> monitor_on (mon s) = false).
Proof.
  intros f s R. pose proof (reach_owned f s R) as (_ & (A & B) & _). split.
  - intros i j [k Hi] [k' Hj]. pose proof (A _ _ Hi eq_refl). pose proof (A _ _ Hj eq_refl). congruence.
  - intros i [k Hi]. pose proof (A _ _ Hi eq_refl) as O. destruct (monitor_on (mon s)) eqn:M; [|reflexivity].
    specialize (B M). congruence.
Qed.
Print Assumptions C57_one_user_partial.

(** ** Every process finishes *)

(** When nothing goes wrong: as long as some process has not finished, some
    process can go on by itself. *)
Theorem C57_no_deadlock_partial : forall n s, reach (no_faults n) s -> unfinished s ->
  exists s', step (no_faults n) Run s s'.
Proof.
  intros n s R. apply progress. apply (reach_good (no_faults n)); auto.
Qed.
Print Assumptions C57_no_deadlock_partial.

(** And if no new process starts this ends, in whatever order the processes
    go on, and then all have finished. *)
Theorem C57_all_finish_partial : forall n s, reach (no_faults n) s ->
  (exists N, forall k s', runs (no_faults n) k s s' -> k <= N) /\
  (forall k s', runs (no_faults n) k s s' -> at_rest (no_faults n) s' -> all_finished s') /\
  (exists k s', runs (no_faults n) k s s' /\ all_finished s').
Proof.
  intros n s R. split; [|split].
  - exists (left s). intros k s' H. pose proof (runs_left (no_faults n) _ _ _ eq_refl H). lia.
  - intros k s' H Q. assert (R' : reach (no_faults n) s').
    { clear Q. induction H as [| k s s' s'' S H IH]; [exact R|]. apply IH. eapply r_step; eassumption. }
    destruct (finished_dec s') as [D | D]; [exact D|]. exfalso.
    destruct (C57_no_deadlock_partial n s' R' D) as [s'' S]. exact (Q s'' S).
  - remember (left s) as N eqn:E. revert s R E. induction N as [N IH] using lt_wf_ind. intros s R E.
    destruct (finished_dec s) as [D | D]; [exists 0, s; split; [constructor | exact D]|].
    destruct (C57_no_deadlock_partial n s R D) as [s1 St1].
    pose proof (run_left (no_faults n) _ _ eq_refl St1) as L.
    destruct (IH (left s1)) with (s := s1) as (k & s' & H & F); [lia | eapply r_step; eassumption | reflexivity|].
    exists (S k), s'. split; [econstructor; eassumption | exact F].
Qed.
Print Assumptions C57_all_finish_partial.

(** ** The monitor runs between two updates *)

(** A process has released the database to a monitor; before any process
    uses it again, the monitor has had it (unless it was stopped). *)
Theorem C57_monitor_between_partial : forall n s i j t s', reach (no_faults n) s ->
  in_charge (mon s) = true -> nth_error (cls s) i = Some CloseObj ->
  path (no_faults n) s t s' -> works s' j ->
  exists x, In x t /\ (monitor_on (mon x) = true \/ watching (mon x) = false).
Proof.
  intros n s i j t s' R C E H W. pose proof (reach_good (no_faults n) eq_refl eq_refl eq_refl s R) as G.
  apply (between (no_faults n)) with (s := s) (s' := s') (i := i) (j := j); auto.
  split; [auto|]. destruct G as (_ & _ & (_ & P & _)). specialize (P _ _ E eq_refl).
  destruct (mon s) as [ | | |[|]| | | | | | | | | |b0|b0|]; cbn in *; try discriminate; try contradiction; auto.
Qed.
Print Assumptions C57_monitor_between_partial.

(** ** An edit made before tup starts is known to the update *)

(** An edit was made before a process opened the lock file. When the process
    uses the database and the monitor is in charge, so that the process does
    not look for edits itself, the monitor has handled the edit. *)
Theorem C57_edits_seen_partial : forall n s e j t s', reach (no_faults n) s ->
  In e (log s) ->
  (exists k, nth_error (cls s) j = Some (WaitSh k) \/ nth_error (cls s) j = Some (Open k)) ->
  path (no_faults n) s t s' -> works s' j -> in_charge (mon s') = true -> In e (handled s').
Proof.
  intros n s e j t s' R I [k J] H [k' W] C.
  pose proof (reach_good (no_faults n) eq_refl eq_refl eq_refl s R) as G.
  pose proof (reach_known (no_faults n) s R) as K.
  assert (K' : kept e j s).
  { split; [exact I|]. intro D. destruct (K D e I) as [X | X]; [auto|]. right.
    destruct J as [-> | ->]; exact X. }
  destruct (kept_path (no_faults n) eq_refl eq_refl eq_refl _ _ _ _ _ G K' H) as [_ X].
  destruct (X C) as [Y | Y]; [exact Y|]. rewrite W in Y. destruct Y.
Qed.
Print Assumptions C57_edits_seen_partial.

(** ** What can go wrong *)

Ltac fwd R tac :=
  match type of R with
  | reach ?f ?s => let R' := fresh "R" in
      eassert (R' : reach f _) by (eapply r_step; [exact R | tac]); clear R; rename R' into R; cbn in R
  end.

Ltac emits := apply em_add; reflexivity.

(** A monitor in the foreground. *)
Lemma monitor_started : forall f, reach f (St None (Some Mo) None [Done] (MIdle true) [] false [] [] []).
Proof.
  intro f. pose proof (r_init f) as R. unfold init in R.
  fwd R ltac:(apply s_arrive with (k := 0)).
  fwd R ltac:(eapply s_sh with (i := 0); reflexivity).
  fwd R ltac:(eapply s_open with (i := 0); [reflexivity | apply em_off; reflexivity]).
  fwd R ltac:(eapply s_obj with (i := 0); reflexivity).
  fwd R ltac:(eapply s_fore with (i := 0); reflexivity).
  fwd R ltac:(eapply m_start).
  exact R.
Qed.

(** A process works, with the monitor off. *)
Lemma process_works : forall f,
  reach f (St (Some (Cl 1)) (Some (Cl 1)) (Some Mo) [Done; Work 0] (MIdle false) [] false [] [] []).
Proof.
  intro f. pose proof (monitor_started f) as R.
  fwd R ltac:(apply s_arrive with (k := 0)).
  fwd R ltac:(eapply s_sh with (i := 1); reflexivity).
  fwd R ltac:(eapply s_open with (i := 1); [reflexivity | emits]).
  fwd R ltac:(eapply m_open).
  fwd R ltac:(eapply TriModel.m_tri).
  fwd R ltac:(eapply m_unobj).
  fwd R ltac:(eapply s_obj with (i := 1); reflexivity).
  exact R.
Qed.

Ltac stuck := let s' := fresh in let H := fresh in intros s' H; inversion H; subst;
  repeat match goal with
  | E : nth_error _ ?i = Some _ |- _ => is_var i; destruct i as [|i]; cbn in E; try discriminate
  end.

(** A process is killed while it uses the database. The kernel drops its
    locks before the monitor knows, the next process opens the lock file while
    the monitor is off, and the monitor then takes the lock: it does not know
    that the next process waits for it, and nobody goes on. *)
Theorem C57_killed_refuted : forall n, exists s, reach (Faults true false false n) s /\
  unfinished s /\ at_rest (Faults true false false n) s.
Proof.
  intro n. pose proof (process_works (Faults true false false n)) as R.
  fwd R ltac:(eapply s_kill with (i := 1); reflexivity).
  fwd R ltac:(eapply s_die1 with (i := 1); reflexivity).
  fwd R ltac:(apply s_arrive with (k := 0)).
  fwd R ltac:(eapply s_sh with (i := 2); reflexivity).
  fwd R ltac:(eapply s_open with (i := 2); [reflexivity | emits]).
  fwd R ltac:(eapply s_die2 with (i := 1); reflexivity).
  fwd R ltac:(eapply s_die3 with (i := 1); reflexivity).
  fwd R ltac:(eapply s_die4_open with (i := 1); [reflexivity | emits]).
  fwd R ltac:(eapply m_open_off).
  fwd R ltac:(eapply m_close).
  fwd R ltac:(eapply TriModel.m_obj).
  fwd R ltac:(eapply m_untri).
  eexists. split; [exact R|]. split.
  - exists (WaitObj 0). cbn. split; [auto | discriminate].
  - stuck. congruence.
Qed.
Print Assumptions C57_killed_refuted.

Lemma fill : forall f k a b c cs m q l p h g, watching m = true -> reach f (St a b c cs m q l p h g) ->
  exists g', reach f (St a b c cs m (q ++ repeat (EvFile 0) k) l p h g').
Proof.
  intros f. induction k as [|k IH]; intros a b c cs m q l p h g W R; cbn.
  - exists g. rewrite app_nil_r. exact R.
  - assert (R' : reach f (St a b c cs m (q ++ [EvFile 0]) l p h (0 :: g))).
    { eapply r_step; [exact R|]. apply s_edit with (n := 0). apply em_add. exact W. }
    destruct (IH _ _ _ _ _ _ _ _ _ _ W R') as [g' X]. exists g'. rewrite <- app_assoc in X. exact X.
Qed.

Lemma read_all : forall f k a b c cs q l p h g, reach f (St a b c cs (MIdle false) (repeat (EvFile 0) k ++ q) l p h g) ->
  exists p', reach f (St a b c cs (MIdle false) q l p' h g).
Proof.
  intros f. induction k as [|k IH]; intros a b c cs q l p h g R; cbn in *.
  - exists p. exact R.
  - apply (IH _ _ _ _ _ _ (0 :: p) _ _). eapply r_step; [exact R | apply m_file].
Qed.

(** The inotify queue is full when a process closes the lock file, so that
    the monitor only gets the overflow event. It deals with it when it has the
    lock, and takes the lock when it sees the close; so the process waits
    for ever for the monitor, whatever the size of the queue. *)
Theorem C57_overflow_refuted : forall n, exists s, reach (Faults false true false n) s /\
  unfinished s /\ at_rest (Faults false true false n) s.
Proof.
  intro n. pose proof (process_works (Faults false true false n)) as R.
  destruct (fill _ n _ _ _ _ (MIdle false) _ _ _ _ _ eq_refl R) as [g X]. clear R. rename X into R. cbn [app] in R.
  fwd R ltac:(eapply s_unobj with (i := 1); reflexivity).
  fwd R ltac:(eapply s_close with (i := 1); [reflexivity | apply em_over; [reflexivity | rewrite repeat_length; apply le_n | reflexivity]]).
  destruct (read_all _ n _ _ _ _ _ _ _ _ _ R) as [p X]. clear R. rename X into R.
  fwd R ltac:(eapply m_over).
  eexists. split; [exact R|]. split.
  - exists WaitTri. cbn. split; [auto | discriminate].
  - stuck.
Qed.
Print Assumptions C57_overflow_refuted.

(** A monitor in the background takes the lock and gives it up again (it has
    failed, or was stopped) before its parent looks: the parent waits for
    ever for someone to take the lock, and keeps all others out. *)
Theorem C57_early_exit_refuted : forall n, exists s, reach (Faults false false true n) s /\
  unfinished s /\ at_rest (Faults false false true n) s.
Proof.
  intro n. pose proof (r_init (Faults false false true n)) as R. unfold init in R.
  fwd R ltac:(apply s_arrive with (k := 0)).
  fwd R ltac:(eapply s_sh with (i := 0); reflexivity).
  fwd R ltac:(eapply s_open with (i := 0); [reflexivity | apply em_off; reflexivity]).
  fwd R ltac:(eapply s_obj with (i := 0); reflexivity).
  fwd R ltac:(eapply s_fork with (i := 0); reflexivity).
  fwd R ltac:(eapply s_punlock with (i := 0); reflexivity).
  fwd R ltac:(eapply m_child).
  fwd R ltac:(eapply m_quit; left; reflexivity).
  fwd R ltac:(eapply m_quit_obj).
  fwd R ltac:(eapply m_quit_tri).
  fwd R ltac:(eapply m_quit_done).
  fwd R ltac:(apply s_arrive with (k := 0)).
  eexists. split; [exact R|]. split.
  - exists PWait. cbn. split; [auto | discriminate].
  - stuck.
Qed.
Print Assumptions C57_early_exit_refuted.

(** ** The hypotheses can be met *)

(** A monitor is in charge, an edit has been made and not been looked at, one
    process is about to open the lock file and another one waits behind it. *)
Definition crowd : st :=
  St (Some (Cl 1)) (Some Mo) None [Done; Open 2; WaitSh 0] (MIdle true) [EvFile 7] false [] [] [7].

Example C57_crowd_reached : forall n, reach (no_faults n) crowd.
Proof.
  intro n. pose proof (monitor_started (no_faults n)) as R.
  fwd R ltac:(apply s_arrive with (k := 2)).
  fwd R ltac:(apply s_arrive with (k := 0)).
  fwd R ltac:(apply s_edit with (n := 7); emits).
  fwd R ltac:(eapply s_sh with (i := 1); reflexivity).
  exact R.
Qed.

Example C57_crowd_finishes : forall n, exists k s', runs (no_faults n) k crowd s' /\ all_finished s'.
Proof. intro n. exact (proj2 (proj2 (C57_all_finish_partial n crowd (C57_crowd_reached n)))). Qed.

Lemma path_snoc : forall f l s t s' s'', path f s t s' -> step f l s' s'' -> path f s (t ++ [s'']) s''.
Proof.
  intros f l s t s' s'' H S. induction H as [| l' s s' t s1 S' P IH]; cbn.
  - econstructor; [exact S | constructor].
  - econstructor; [exact S' | auto].
Qed.

Ltac pfwd R tac :=
  match type of R with
  | path ?f ?s ?t ?s' => let R' := fresh "R" in
      eassert (R' : path f s _ _) by (eapply path_snoc; [exact R | tac]); clear R; rename R' into R; cbn in R
  end.

(** The first one then works, with the monitor off, and the edit is handled. *)
Example C57_crowd_edit_seen : forall n, exists t s', path (no_faults n) crowd t s' /\
  works s' 1 /\ mon s' = MIdle false /\ handled s' = [7].
Proof.
  intro n. pose proof (path_nil (no_faults n) crowd) as R. unfold crowd in R at 2.
  pfwd R ltac:(eapply s_open with (i := 1); [reflexivity | emits]).
  pfwd R ltac:(eapply m_file).
  pfwd R ltac:(eapply m_open).
  pfwd R ltac:(eapply TriModel.m_tri).
  pfwd R ltac:(eapply m_unobj).
  pfwd R ltac:(eapply s_obj with (i := 1); reflexivity).
  eexists _, _. split; [exact R|]. split; [exists 2; reflexivity|]. split; reflexivity.
Qed.

(** The one that leaves and the one that comes: the monitor runs in between. *)
Definition change : st :=
  St (Some (Cl 1)) None (Some Mo) [Done; CloseObj] (MIdle false) [] false [] [] [].

Example C57_change_reached : forall n, reach (no_faults n) change.
Proof.
  intro n. pose proof (process_works (no_faults n)) as R.
  fwd R ltac:(eapply s_unobj with (i := 1); reflexivity).
  exact R.
Qed.

Example C57_change_path : forall n, exists t s', path (no_faults n) change t s' /\ works s' 2.
Proof.
  intro n. pose proof (path_nil (no_faults n) change) as R. unfold change in R at 2.
  pfwd R ltac:(apply s_arrive with (k := 5)).
  pfwd R ltac:(eapply s_close with (i := 1); [reflexivity | emits]).
  pfwd R ltac:(eapply m_close).
  pfwd R ltac:(eapply TriModel.m_obj).
  pfwd R ltac:(eapply m_untri).
  pfwd R ltac:(eapply s_tri with (i := 1); reflexivity).
  pfwd R ltac:(eapply s_untri with (i := 1); reflexivity).
  pfwd R ltac:(eapply s_unsh with (i := 1); reflexivity).
  pfwd R ltac:(eapply s_sh with (i := 2); reflexivity).
  pfwd R ltac:(eapply s_open with (i := 2); [reflexivity | emits]).
  pfwd R ltac:(eapply m_open).
  pfwd R ltac:(eapply TriModel.m_tri).
  pfwd R ltac:(eapply m_unobj).
  pfwd R ltac:(eapply s_obj with (i := 2); reflexivity).
  eexists _, _. split; [exact R|]. exists 5; reflexivity.
Qed.
