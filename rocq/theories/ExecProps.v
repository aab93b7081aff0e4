(** C01-C04, C06: the update phase, for every prepared update graph, every
    number of jobs, every schedule of the workers and every outcome of the
    commands. [work] is an arbitrary relation: a command may do anything and
    succeed or fail. *)
From Verif Require Import Base ExecModel ExecSpec ExecProofs2 ExecProofs3 ExecProofs4 ExecExamples.

Section Props.
Context {WS : Type}.
Variable work : graph -> id -> WS -> WS -> bool -> Prop.
Variable keep_going : bool.
Variable g : graph.
Variable root : id.
Variable nodes : list id.
Hypothesis Prep : prepared g root nodes.
Variable jobs : nat.
Hypothesis Jobs : 0 < jobs.
Variable w : WS.

(** A state of one update. *)
Definition reachable (s : exec) : Prop := steps work keep_going (start jobs g w) s.

(** A node is started only when everything it depends on, directly or not, has
    finished successfully before. *)
Theorem C01_start_after_dependencies s a b h1 h2 :
  reachable s -> depends g root a b -> hist s = h1 ++ Start b :: h2 -> In (Finish a true) h2.
Proof. exact (start_after work keep_going g root nodes Prep jobs Jobs w s a b h1 h2). Qed.

(** At most once. A transient file's node is visited a second time, to delete
    the file ([C02_transient_deleted_after_users]). *)
Theorem C02_at_most_once s n : reachable s ->
  starts n (hist s) <= (match trans g n with TProcessing => 2 | _ => 1 end).
Proof. exact (starts_bound work keep_going g root nodes Prep jobs Jobs w s n). Qed.

Theorem C02_all_on_success s n : reachable s -> at_ s = Returned 0 -> In n nodes ->
  In (Finish n true) (hist s) /\ starts n (hist s) = (match trans g n with TProcessing => 2 | _ => 1 end).
Proof. intros R A. exact (rc0_all work keep_going g root nodes Prep jobs Jobs w s R A n). Qed.

Theorem C02_success_means_no_failure s n : reachable s -> at_ s = Returned 0 -> ~ In (Finish n false) (hist s).
Proof. intros R A. exact (rc0_no_failure work keep_going g root nodes Prep jobs Jobs w s R A n). Qed.

(** The second visit of a transient file comes after all its users. *)
Theorem C02_transient_deleted_after_users s n h1 h2 : reachable s ->
  hist s = h1 ++ Start n :: h2 -> In (Start n) h2 ->
  forall c, direct g n c -> In (Finish c true) h2.
Proof. exact (delete_after_users work keep_going g root nodes Prep jobs Jobs w s n h1 h2). Qed.

(** Success is reported whenever nothing fails and nobody interrupts. *)
Theorem C02_reports_success s rc : reachable s -> at_ s = Returned rc -> dead s = false -> acyclic g ->
  (forall n, ~ In (Finish n false) (hist s)) -> rc = 0%Z.
Proof. exact (success work keep_going g root nodes Prep jobs Jobs w s rc). Qed.

(** The update never gets stuck: it has returned, or a worker is running, or
    the main thread can move ... *)
Theorem C02_progress s : reachable s ->
  (exists rc, at_ s = Returned rc) \/ running s <> [] \/
  exists s', step work keep_going s s' /\ at_ s' <> at_ s \/
             step work keep_going s s' /\ length (fin s') < length (fin s).
Proof. exact (progress work keep_going g root nodes Prep jobs Jobs w s). Qed.

(** ... and it has no infinite execution. *)
Theorem C02_terminates : exists bound, forall k s,
  nsteps work keep_going k (start jobs g w) s -> k <= bound.
Proof. exact (finite work keep_going g root nodes Prep jobs Jobs w). Qed.

(** No "tup internal error" and no use of an empty list. *)
Theorem C02_no_internal_error s : reachable s -> at_ s <> Crashed /\ at_ s <> Returned (-2).
Proof. exact (no_internal_error work keep_going g root nodes Prep jobs Jobs w s). Qed.

Theorem C03_parallel_bound s : reachable s -> length (running s) <= jobs.
Proof. exact (parallel_bound work keep_going g root nodes Prep jobs Jobs w s). Qed.

(** Nothing that depends on a failed command is started, before or after. *)
Theorem C04_failure_blocks_dependents s a b : reachable s -> trans g a = TNone ->
  In (Finish a false) (hist s) -> depends g root a b -> ~ In (Start b) (hist s).
Proof. exact (failed_blocks work keep_going g root nodes Prep jobs Jobs w s a b). Qed.

Theorem C04_failure_reported s a rc : reachable s -> at_ s = Returned rc ->
  In (Finish a false) (hist s) -> rc = (-1)%Z.
Proof. exact (failure_reported work keep_going g root nodes Prep jobs Jobs w s a rc). Qed.

(** Without keep-going nothing is started once a failure was collected. *)
Theorem C04_stops_after_failure s s' : keep_going = false -> failed s <> 0 ->
  steps work keep_going s s' -> forall n, starts n (hist s') = starts n (hist s).
Proof. exact (no_starts_ever_after work keep_going s s'). Qed.

(** With keep-going everything that does not depend on a failed command was
    started by the time the update returns. *)
Theorem C04_keep_going_runs_the_rest s rc n : reachable s -> at_ s = Returned rc -> dead s = false ->
  keep_going = true -> acyclic g -> In n nodes ->
  In (Start n) (hist s) \/ exists a, In (Finish a false) (hist s) /\ depends g root a n.
Proof. intros R A D K Ac. exact (keep_going_complete work keep_going g root nodes Prep jobs Jobs w s rc R A D K Ac n). Qed.

(** A node on a cycle is never started and success is never reported. *)
Theorem C06_cycle_never_starts s n : reachable s -> depends g root n n -> ~ In (Start n) (hist s).
Proof. exact (cycle_never_starts work keep_going g root nodes Prep jobs Jobs w s n). Qed.
Theorem C06_cycle_never_succeeds s n : reachable s -> In n nodes -> depends g root n n -> at_ s <> Returned 0.
Proof. exact (cycle_no_success work keep_going g root nodes Prep jobs Jobs w s n). Qed.
End Props.
Print Assumptions C01_start_after_dependencies.
Print Assumptions C02_at_most_once.
Print Assumptions C02_all_on_success.
Print Assumptions C02_success_means_no_failure.
Print Assumptions C02_transient_deleted_after_users.
Print Assumptions C02_reports_success.
Print Assumptions C02_progress.
Print Assumptions C02_terminates.
Print Assumptions C02_no_internal_error.
Print Assumptions C03_parallel_bound.
Print Assumptions C04_failure_blocks_dependents.
Print Assumptions C04_failure_reported.
Print Assumptions C04_stops_after_failure.
Print Assumptions C04_keep_going_runs_the_rest.
Print Assumptions C06_cycle_never_starts.
Print Assumptions C06_cycle_never_succeeds.

(** -j0 is accepted by the command line and leaves no worker: the list of free
    workers is empty when the first command is handed over. *)
Theorem C03_zero_jobs_refuted : exists s,
  steps (fails []) false (start 0 g1 tt) s /\ at_ s = Crashed.
Proof. exact zero_jobs. Qed.
Print Assumptions C03_zero_jobs_refuted.

(** "Stops after a failure" is only true from the moment the failure is
    collected: workers that finished are collected newest first, so with two
    jobs a failed command can wait while any number of further ones are
    started (here all eight that remained). *)
Theorem C04_failure_noticed_promptly_refuted : exists s h1 h2,
  steps (fails [10]) false (start 2 g3 tt) s /\
  hist s = h1 ++ Finish 10 false :: h2 /\ failed s = 0 /\
  length (filter (fun ev => match ev with Start _ => true | _ => false end) h1) = 8.
Proof. exact late_failure. Qed.
Print Assumptions C04_failure_noticed_promptly_refuted.

(** The hypotheses are met: a diamond with a transient file, one schedule. *)
Example prepared_somewhere : prepared g1 0 [1; 2; 3; 4; 5] /\ acyclic g1 /\ depends g1 0 1 3 /\ 0 < 2.
Proof. split; [exact g1_prepared|]. split; [exact g1_acyclic|]. split; [exact g1_depends|lia]. Qed.
Example success_somewhere : exists s, steps (fails []) false (start 2 g1 tt) s /\
  at_ s = Returned 0 /\ starts 5 (hist s) = 2 /\ starts 3 (hist s) = 1 /\ dead s = false.
Proof. exact success_run. Qed.
Example failure_somewhere : exists s, steps (fails [4]) true (start 2 g1 tt) s /\
  at_ s = Returned (-1) /\ In (Finish 4 false) (hist s) /\ In (Start 2) (hist s) /\ failed s = 1.
Proof. exact failure_run. Qed.
Example cycle_somewhere : prepared g2 0 [1; 2; 3; 4] /\ depends g2 0 1 1.
Proof. split; [exact g2_prepared|exact g2_cycle]. Qed.
