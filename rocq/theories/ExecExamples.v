(** Concrete graphs and runs, used to show that the theorems of ExecProps.v
    are not vacuous and for the refutations. *)
From Verif Require Import Base ExecModel ExecSpec ExecProofs4.

(** root 0, commands 1 and 4, file 2 written by 1, command 3 reads 2 and
    depends on 4; file 5 (transient) written by 4 and read by 3. *)
Definition e (a b : id) : edge := {| src := a; dst := b; normal := true |}.
Definition g1 : graph :=
  {| plist := []; node_list := [0; 1; 2; 3; 4; 5];
     edges := [e 0 1; e 0 4; e 1 2; e 2 3; e 4 5; e 5 3];
     state := fun _ => Initialized;
     trans := fun n => if n =? 5 then TProcessing else TNone;
     expanded := fun _ => true |}.

Lemma g1_prepared : prepared g1 0 [1; 2; 3; 4; 5].
Proof.
  split; cbn; try reflexivity.
  - repeat (constructor; [cbn; lia|]); constructor.
  - intros x H; repeat (destruct H as [<-|H]; [cbn; tauto|]); destruct H.
  - intros x H; repeat (destruct H as [<-|H]; [cbn; tauto|]); destruct H.
  - intros n. intuition; subst.
    + exists (e 0 1); cbn; auto.
    + exists (e 1 2); cbn; auto.
    + exists (e 2 3); cbn; auto 6.
    + exists (e 0 4); cbn; auto.
    + exists (e 4 5); cbn; auto 8.
  - discriminate.
  - intros n. destruct (n =? 5); discriminate.
  - intros x. intuition; subst; cbn in *; try discriminate; reflexivity.
Qed.

Lemma g1_acyclic : acyclic g1.
Proof.
  exists (fun n => match n with 0 => 0 | 1 => 1 | 2 => 2 | 3 => 9 | 4 => 1 | _ => 2 end).
  intros x. cbn. intuition; subst; cbn; lia.
Qed.

(** The same with a cycle 1 -> 2 -> 3 -> 1 (3 is also what 4 produces for). *)
Definition g2 : graph :=
  {| plist := []; node_list := [0; 1; 2; 3; 4];
     edges := [e 0 1; e 0 4; e 1 2; e 2 3; e 3 1];
     state := fun _ => Initialized; trans := fun _ => TNone; expanded := fun _ => true |}.
Lemma g2_prepared : prepared g2 0 [1; 2; 3; 4].
Proof.
  split; cbn; try reflexivity.
  - repeat (constructor; [cbn; lia|]); constructor.
  - intros x H; repeat (destruct H as [<-|H]; [cbn; tauto|]); destruct H.
  - intros x H; repeat (destruct H as [<-|H]; [cbn; tauto|]); destruct H.
  - intros n. intuition; subst.
    + exists (e 0 1); cbn; auto.
    + exists (e 1 2); cbn; auto.
    + exists (e 2 3); cbn; auto 6.
    + exists (e 0 4); cbn; auto.
  - discriminate.
  - discriminate.
Qed.

(** A work function in which the commands of [bad] fail. *)
Definition fails (bad : list id) (_ : graph) (n : id) (_ _ : unit) (ok : bool) : Prop :=
  ok = negb (inb n bad).

(** One schedule: the main thread goes first and waits only when it must. *)
Section Run.
Variable kg : bool.
Variable bad : list id.
Definition main_step (s : @exec unit) : option exec :=
  match at_ s with
  | Loop => if loop_cond kg s then
              match plist (gr s) with [] => None | n :: _ => Some (loop_body s n) end
            else Some (set_pc s (Returned (final_rc s)))
  | Check => if check_cond kg s then
               match fin s with [] => None | (n, ok) :: r => Some (reap s n ok r) end
             else Some (set_pc s Loop)
  | _ => None
  end.
Definition worker_step (s : @exec unit) : option exec :=
  match running s with
  | [] => None
  | n :: r => Some {| gr := gr s; free := free s; running := r;
                      fin := (n, negb (inb n bad)) :: fin s; active := active s; failed := failed s;
                      dead := dead s; at_ := at_ s; ws := tt;
                      hist := Finish n (negb (inb n bad)) :: hist s |}
  end.
Fixpoint run (fuel : nat) (s : exec) : exec :=
  match fuel with
  | O => s
  | S k => match main_step s with
           | Some s' => run k s'
           | None => match worker_step s with Some s' => run k s' | None => s end
           end
  end.
Lemma main_step_ok s s' : main_step s = Some s' -> step (fails bad) kg s s'.
Proof.
  unfold main_step. destruct (at_ s) eqn:A; try discriminate.
  - destruct (loop_cond kg s) eqn:C.
    + destruct (plist (gr s)) as [|n p] eqn:P; [discriminate|]. intros H. injection H as <-.
      exact (S_loop _ _ s n p A C P).
    + intros H. injection H as <-. exact (S_return _ _ s A C).
  - destruct (check_cond kg s) eqn:C.
    + destruct (fin s) as [|[n ok] r] eqn:P; [discriminate|]. intros H. injection H as <-.
      exact (S_reap _ _ s n ok r A C P).
    + intros H. injection H as <-. exact (S_check _ _ s A C).
Qed.
Lemma worker_step_ok s s' : worker_step s = Some s' -> step (fails bad) kg s s'.
Proof.
  unfold worker_step. destruct (running s) as [|n r] eqn:R; [discriminate|]. intros H. injection H as <-.
  exact (S_worker _ _ s n [] r tt (negb (inb n bad)) R eq_refl).
Qed.
Lemma run_ok fuel : forall s0 s, steps (fails bad) kg s0 s -> steps (fails bad) kg s0 (run fuel s).
Proof.
  induction fuel as [|k IH]; intros s0 s H; [exact H|]. cbn [run].
  destruct (main_step s) as [s'|] eqn:M.
  - apply IH. exact (steps_step _ _ _ _ _ H (main_step_ok _ _ M)).
  - destruct (worker_step s) as [s'|] eqn:W; [|exact H].
    apply IH. exact (steps_step _ _ _ _ _ H (worker_step_ok _ _ W)).
Qed.
End Run.
Lemma run_reach kg bad jobs g fuel :
  steps (fails bad) kg (start jobs g tt) (run kg bad fuel (start jobs g tt)).
Proof. apply run_ok. apply steps_refl. Qed.

(** A schedule given step by step: [0] the main thread, [S i] the worker with
    the i-th newest command; a step that is not possible is skipped. *)
Section Sched.
Variable kg : bool.
Variable bad : list id.
Definition worker_at (i : nat) (s : @exec unit) : option exec :=
  match nth_error (running s) i with
  | None => None
  | Some n => Some {| gr := gr s; free := free s;
                      running := firstn i (running s) ++ skipn (S i) (running s);
                      fin := (n, negb (inb n bad)) :: fin s; active := active s; failed := failed s;
                      dead := dead s; at_ := at_ s; ws := tt;
                      hist := Finish n (negb (inb n bad)) :: hist s |}
  end.
Definition sched_step (s : exec) (k : nat) : exec :=
  match (match k with O => main_step kg s | S i => worker_at i s end) with Some s' => s' | None => s end.
Lemma worker_at_ok i s s' : worker_at i s = Some s' -> step (fails bad) kg s s'.
Proof.
  unfold worker_at. destruct (nth_error (running s) i) as [n|] eqn:R; [|discriminate].
  intros H. injection H as <-.
  apply (S_worker _ _ s n (firstn i (running s)) (skipn (S i) (running s)) tt (negb (inb n bad))); [|reflexivity].
  rewrite <- (firstn_skipn i (running s)) at 1. f_equal.
  clear -R. revert i R. induction (running s) as [|x l IH]; intros [|i] R; try discriminate.
  - injection R as ->. reflexivity.
  - cbn [skipn]. rewrite (IH _ R). reflexivity.
Qed.
Lemma sched_ok l : forall s0 s, steps (fails bad) kg s0 s -> steps (fails bad) kg s0 (fold_left sched_step l s).
Proof.
  induction l as [|k l IH]; intros s0 s H; [exact H|]. cbn [fold_left]. apply IH. unfold sched_step.
  destruct k as [|i].
  - destruct (main_step kg s) as [s'|] eqn:M; [|exact H].
    exact (steps_step _ _ _ _ _ H (main_step_ok kg bad _ _ M)).
  - destruct (worker_at i s) as [s'|] eqn:M; [|exact H].
    exact (steps_step _ _ _ _ _ H (worker_at_ok _ _ _ M)).
Qed.
End Sched.

(** Ten independent commands. *)
Definition g3 : graph :=
  {| plist := []; node_list := seq 0 11; edges := map (e 0) (seq 1 10);
     state := fun _ => Initialized; trans := fun _ => TNone; expanded := fun _ => true |}.
Lemma g3_prepared : prepared g3 0 (seq 1 10).
Proof.
  split; try reflexivity.
  - exact (seq_NoDup 11 0).
  - intros x H. apply in_map_iff in H. destruct H as [y [<- _]]. left. reflexivity.
  - intros x H. apply in_map_iff in H. destruct H as [y [<- H]]. exact H.
  - intros n H. exists (e 0 n). split; [apply in_map; exact H|reflexivity].
  - discriminate.
  - discriminate.
Qed.
Definition late : @exec unit :=
  fold_left (sched_step false [10]) ([0;0;0;2;1] ++ concat (repeat [0;0;0;1] 8)) (start 2 g3 tt).

Lemma zero_jobs : exists s, steps (fails []) false (start 0 g1 tt) s /\ at_ s = Crashed.
Proof.
  exists (run false [] 100 (start 0 g1 tt)). split; [apply run_reach|]. vm_compute. reflexivity.
Qed.
Lemma late_failure : exists s h1 h2,
  steps (fails [10]) false (start 2 g3 tt) s /\
  hist s = h1 ++ Finish 10 false :: h2 /\ failed s = 0 /\
  length (filter (fun ev => match ev with Start _ => true | _ => false end) h1) = 8.
Proof.
  exists late, (firstn 17 (hist late)), (skipn 18 (hist late)).
  split; [apply sched_ok, steps_refl|]. vm_compute. auto.
Qed.
Lemma g1_depends : depends g1 0 1 3.
Proof.
  apply dep_trans with 2; [apply dep_direct|exists (e 2 3)|]; try discriminate.
  - exists (e 1 2). cbn. auto.
  - cbn. auto 10.
Qed.
Lemma g2_cycle : depends g2 0 1 1.
Proof.
  apply dep_trans with 3; [apply dep_trans with 2; [apply dep_direct|exists (e 2 3)|]|exists (e 3 1)|]; try discriminate.
  - exists (e 1 2). cbn. auto 10.
  - cbn. auto 10.
  - cbn. auto 10.
Qed.
Lemma success_run : exists s, steps (fails []) false (start 2 g1 tt) s /\
  at_ s = Returned 0 /\ starts 5 (hist s) = 2 /\ starts 3 (hist s) = 1 /\ dead s = false.
Proof.
  exists (run false [] 100 (start 2 g1 tt)). split; [apply run_reach|]. vm_compute. auto.
Qed.
Lemma failure_run : exists s, steps (fails [4]) true (start 2 g1 tt) s /\
  at_ s = Returned (-1) /\ In (Finish 4 false) (hist s) /\ In (Start 2) (hist s) /\ failed s = 1.
Proof.
  exists (run true [4] 100 (start 2 g1 tt)). split; [apply run_reach|]. vm_compute. auto 20.
Qed.
