(** Proofs about the locks. *)
From Verif Require Import Base LockModel LockSpec.

Lemma nth_upd_eq l i p q : nth_error l i = Some q -> nth_error (upd l i p) i = Some p.
Proof. revert i. induction l as [|x l IH]; intros [|i] H; cbn in *; try discriminate; [reflexivity|eauto]. Qed.
Lemma nth_upd_ne l i j p : i <> j -> nth_error (upd l i p) j = nth_error l j.
Proof. revert i j. induction l as [|x l IH]; intros [|i] [|j] H; cbn; try reflexivity; [congruence|]. apply IH. congruence. Qed.
Lemma who_eqb_refl w : who_eqb w w = true. Proof. destruct w; cbn; [apply Nat.eqb_refl|reflexivity]. Qed.
Lemma who_eqb_eq a b : who_eqb a b = true -> a = b.
Proof. destruct a, b; cbn; try discriminate; [|reflexivity]. intros H. apply Nat.eqb_eq in H. congruence. Qed.
Lemma release_own w : release (Some w) w = None. Proof. cbn. rewrite who_eqb_refl. reflexivity. Qed.
Lemma release_other l w x : l = Some x -> x <> w -> release l w = l.
Proof. intros -> N. cbn. destruct (who_eqb x w) eqn:E; [|reflexivity]. apply who_eqb_eq in E. congruence. Qed.
Lemma acquire_some l w l' : acquire l w = Some l' -> l = None /\ l' = Some w.
Proof. destruct l; cbn; [discriminate|]. intros H. injection H as <-. auto. Qed.
Lemma nth_app_start (l : list cpc) j p : nth_error (l ++ [Start]) j = Some p -> nth_error l j = Some p \/ (j = length l /\ p = Start).
Proof.
  intros H. destruct (Nat.lt_ge_cases j (length l)) as [L|L]; [left; rewrite nth_error_app1 in H; auto|]. right. rewrite nth_error_app2 in H by lia.
  destruct (j - length l) as [|k] eqn:E; cbn in H; [|destruct k; discriminate]. injection H as <-. split; [lia|reflexivity].
Qed.

Definition mobj (m : mpc) : bool := match m with MOn | MFlush | MWantTri | MHaveTri | MHaveObj => true | _ => false end.
Definition mtri (m : mpc) : bool := match m with MHaveTri | MAway | MWantObj | MHaveObj => true | _ => false end.

(** Whoever works holds the object lock. *)
Definition ex (s : st) : Prop := (forall i, nth_error (procs s) i = Some Working -> obj s = Some (C i)) /\ (mobj (mon s) = true -> obj s = Some M).

Lemma ex_upd s i p q (o : option who) (m : mpc) : nth_error (procs s) i = Some q ->
  (p = Working -> o = Some (C i)) ->
  (forall j, j <> i -> nth_error (procs s) j = Some Working -> o = Some (C j)) ->
  forall j, nth_error (upd (procs s) i p) j = Some Working -> o = Some (C j).
Proof.
  intros Q P1 P2 j H. destruct (Nat.eq_dec j i) as [->|N]; [rewrite (nth_upd_eq _ _ _ _ Q) in H; apply P1; congruence|].
  apply P2; [exact N|]. rewrite nth_upd_ne in H; auto.
Qed.

Lemma ex_release s i : ex s -> nth_error (procs s) i <> None ->
  (forall j, j <> i -> nth_error (procs s) j = Some Working -> release (obj s) (C i) = Some (C j)) /\ (mobj (mon s) = true -> release (obj s) (C i) = Some M).
Proof.
  intros [E1 E2] _. split.
  - intros j N H. rewrite (E1 j H). rewrite (release_other _ _ (C j)); [reflexivity|reflexivity|congruence].
  - intros H. rewrite (E2 H). reflexivity.
Qed.

Lemma ex_act a s s' : act a s = Some s' -> ex s -> ex s'.
Proof.
  intros A X. pose proof X as [E1 E2]. destruct a as [|i g| |i| |i g|i]; cbn [act] in A.
  - injection A as <-. split; cbn; [|exact E2]. intros j H. destruct (nth_app_start _ _ _ H) as [K|[_ K]]; [auto|discriminate].
  - unfold client in A. destruct (nth_error (procs s) i) as [p|] eqn:P; [|discriminate].
    assert (Q : nth_error (procs s) i <> None) by congruence. destruct (ex_release s i X Q) as [R1 R2].
    destruct p; try discriminate;
    try (match type of A with match acquire ?l ?w with _ => _ end = _ => destruct (acquire l w) as [l'|] eqn:Q'; [|discriminate]; apply acquire_some in Q'; destruct Q' as [Q1 ->] end);
    injection A as <-; (split; cbn [procs obj mon]; [apply (ex_upd _ _ _ _ _ (mon s) P); [congruence|auto]|auto]).
    + intros j N H. rewrite (E1 j H) in Q1. discriminate.
    + intros H. rewrite (E2 H) in Q1. discriminate.
  - unfold monitor in A. destruct (mon s) eqn:Em; try discriminate;
      try (match type of A with match acquire ?l ?w with _ => _ end = _ => destruct (acquire l w) as [l'|] eqn:Q'; [|discriminate]; apply acquire_some in Q'; destruct Q' as [Q1 ->] end);
      try (destruct (evs s) as [|[|] q]; try discriminate); injection A as <-; split; cbn in *; auto; try discriminate.
    all: try (intros i H; rewrite (E1 i H) in *; try discriminate; specialize (E2 eq_refl); discriminate).
  - unfold become in A. destruct (nth_error (procs s) i) as [[]|] eqn:P; try discriminate. destruct (mon s); try discriminate. injection A as <-. split; cbn; [|reflexivity].
    intros j H. exfalso. destruct (Nat.eq_dec j i) as [->|N]; [rewrite (nth_upd_eq _ _ _ _ P) in H; discriminate|]. rewrite nth_upd_ne in H by auto. pose proof (E1 _ P) as K1. pose proof (E1 _ H). congruence.
  - unfold stop_monitor in A. destruct (mon s); try discriminate; injection A as <-; split; cbn; try discriminate; intros j H; rewrite (E1 j H); reflexivity.
  - unfold kill in A. destruct (nth_error (procs s) i) as [p|] eqn:P; [|discriminate]. destruct (alive p); [|discriminate]. injection A as <-.
    assert (Q : nth_error (procs s) i <> None) by congruence. destruct (ex_release s i X Q) as [R1 R2]. split; cbn [procs obj mon]; [|exact R2].
    apply (ex_upd _ _ _ _ _ (mon s) P); [discriminate|exact R1].
  - unfold kill_slow in A. destruct (nth_error (procs s) i) as [p|] eqn:P; [|discriminate]. destruct (alive p); [|discriminate]. injection A as <-.
    split; cbn [procs obj mon]; [|exact E2]. apply (ex_upd _ _ _ _ _ (mon s) P); [discriminate|auto].
Qed.

Lemma run_inv (P : st -> Prop) (ok : action -> bool) : (forall a s s', ok a = true -> act a s = Some s' -> P s -> P s') ->
  forall l s s', forallb ok l = true -> run l s = Some s' -> P s -> P s'.
Proof.
  intros H. induction l as [|a l IH]; cbn; intros s s' O R X; [congruence|]. apply andb_prop in O. destruct O as [O1 O2].
  destruct (act a s) as [s1|] eqn:A; [|discriminate]. eauto.
Qed.
Lemma ex_run l s : run l init = Some s -> ex s.
Proof.
  intros R. apply (run_inv ex (fun _ => true) (fun a s s' _ A => ex_act a s s' A) l init s); [|exact R|].
  - clear. induction l; auto.
  - split; cbn; [|discriminate]. intros [|i]; discriminate.
Qed.

(** Every step but an arrival uses something up. *)
Definition rank (p : cpc) : nat :=
  match p with Start => 22 | HaveSh => 21 | Opened => 15 | Working => 14 | Released => 13 | Closed => 7 | HaveTri => 6 | TriDone => 5 | Done => 0
  | D0 o => if o then 9 else 4 | D1 o => if o then 8 else 3 | D2 o => if o then 7 else 2 | D3 o => if o then 6 else 1 end.
Definition mrank (m : mpc) : nat :=
  match m with MOff => 0 | MOn | MAway => 1 | MFlush => 4 | MWantTri | MWantObj => 3 | MHaveTri | MHaveObj => 2 end.
Fixpoint total (l : list cpc) : nat := match l with [] => 0 | p :: r => rank p + total r end.
Definition effort (s : st) : nat := total (procs s) + mrank (mon s) + 5 * length (evs s).

Lemma total_upd l i p q : nth_error l i = Some q -> total (upd l i p) + rank q = total l + rank p.
Proof. revert i. induction l as [|x l IH]; intros [|i] H; cbn in *; try discriminate; [injection H as ->; lia|]. specialize (IH _ H). lia. Qed.
Lemma emit_len g m e q : length (emit g m e q) <= S (length q).
Proof. unfold emit. destruct m; cbn; try lia; destruct (rev q) eqn:E; cbn; try lia; destruct (g && ev_eqb e0 e); rewrite ?app_length; cbn; lia. Qed.

Lemma act_effort a s s' : act a s = Some s' -> a <> Arrive -> effort s' < effort s.
Proof.
  intros A N. unfold effort. destruct a as [|i g| |i| |i g|i]; [congruence| | | | | |]; cbn [act] in A.
  - unfold client in A. destruct (nth_error (procs s) i) as [p|] eqn:P; [|discriminate].
    pose proof (fun e => emit_len g (mon s) e (evs s)) as L. pose proof (L EOpen) as LO. pose proof (L EClose) as LC. clear L.
    destruct p; try discriminate;
    try (match type of A with match acquire ?l ?w with _ => _ end = _ => destruct (acquire l w) as [l'|] eqn:Q'; [|discriminate] end);
    injection A as <-; cbn [procs evs mon].
    all: match goal with |- context [upd _ _ ?x] => pose proof (total_upd _ _ x _ P) as T end; cbn [rank] in T; try (destruct o; lia). all: lia.
  - unfold monitor in A. destruct (mon s) eqn:Em; try discriminate;
      try (match type of A with match acquire ?l ?w with _ => _ end = _ => destruct (acquire l w) as [l'|] eqn:Q'; [|discriminate] end);
      try (destruct (evs s) as [|[|] q]; try discriminate); injection A as <-; cbn [procs evs mon mrank length]; lia.
  - unfold become in A. destruct (nth_error (procs s) i) as [[]|] eqn:P; try discriminate. destruct (mon s); try discriminate. injection A as <-. cbn [procs evs mon mrank length].
    pose proof (total_upd _ _ Done _ P) as T. cbn [rank] in T. lia.
  - unfold stop_monitor in A. destruct (mon s); try discriminate; injection A as <-; cbn [procs evs mon mrank length]; lia.
  - unfold kill in A. destruct (nth_error (procs s) i) as [p|] eqn:P; [|discriminate]. destruct (alive p) eqn:Al; [|discriminate]. injection A as <-. cbn [procs evs mon].
    pose proof (total_upd _ _ Done _ P) as T. cbn [rank] in T. pose proof (emit_len g (mon s) EClose (evs s)). destruct p; try discriminate; cbn [rank has_open] in *; lia.
  - unfold kill_slow in A. destruct (nth_error (procs s) i) as [p|] eqn:P; [|discriminate]. destruct (alive p) eqn:Al; [|discriminate]. injection A as <-. cbn [procs evs mon].
    pose proof (total_upd _ _ (D0 (has_open p)) _ P) as T. destruct p; try discriminate; cbn [rank has_open] in *; lia.
Qed.
Lemma run_effort l s s' : no_arrival l = true -> run l s = Some s' -> length l + effort s' <= effort s.
Proof.
  revert s. induction l as [|a l IH]; cbn [run length no_arrival forallb]; intros s O R; [injection R as ->; lia|]. apply andb_prop in O. destruct O as [O1 O2].
  destruct (act a s) as [s1|] eqn:A; [|discriminate]. pose proof (IH _ O2 R). assert (effort s1 < effort s) by (apply (act_effort a); [exact A|destruct a; congruence]). lia.
Qed.

(** The process that has the shared lock. *)
Definition cur (s : st) : cpc := match sh s with Some (C i) => match nth_error (procs s) i with Some p => p | None => Done end | _ => Done end.
Definition works (p : cpc) : bool := match p with Working => true | _ => false end.
Definition hastri (p : cpc) : bool := match p with HaveTri => true | _ => false end.
Definition active (p : cpc) : bool := match p with HaveSh | Opened | Working | Released | Closed | HaveTri | TriDone => true | _ => false end.
Definition home (m : mpc) : bool := match m with MOn | MWantObj | MHaveObj => true | _ => false end.
(** The events still to be read lead from where the monitor is to where the file is. *)
Fixpoint sync (h : bool) (q : list ev) (o : bool) : Prop :=
  match q with
  | [] => o = negb h
  | EOpen :: r => h = true /\ sync false r o
  | EClose :: r => h = false /\ sync true r o
  end.
Record inv (s : st) : Prop := {
  i_idle : forall i p, nth_error (procs s) i = Some p -> p = Start \/ p = Done \/ sh s = Some (C i);
  i_sh : forall w, sh s = Some w -> exists i p, w = C i /\ nth_error (procs s) i = Some p /\ active p = true;
  i_obj : obj s = if mobj (mon s) then Some M else if works (cur s) then sh s else None;
  i_obj1 : mobj (mon s) && works (cur s) = false;
  i_tri : tri s = if mtri (mon s) then Some M else if hastri (cur s) then sh s else None;
  i_tri1 : mtri (mon s) && hastri (cur s) = false;
  i_sync : mon s = MOff \/ sync (home (mon s)) (evs s) (has_open (cur s))
}.
