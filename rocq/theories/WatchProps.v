(** C72: the monitor knows which directory each watch is for. *)
Require Import ZArith List Bool Lia.
Import ListNotations.
From Verif Require Import WatchModel WatchSpec WatchProofs.
Open Scope Z_scope.

Lemma event_entry s wd dt : J s -> (event_dir s wd = Some dt <-> entry s wd dt).
Proof.
  intros Js. unfold event_dir. split.
  - destruct (lookup_wd s wd) as [i|] eqn:L; [|discriminate]. cbn. intros H. injection H as <-. apply (find_wd s wd i Js) in L as [Li Lw]. exists i. auto.
  - intros [i [Hi [Wi Di]]]. apply (conj Hi) in Wi. apply (find_wd s wd i Js) in Wi. rewrite Wi. cbn. congruence.
Qed.
Lemma watch_entry s wd dt : J s -> WatchProofs.inc (dt_of s) (inorder (dt_root s)) -> (dir_watch s dt = Some wd <-> entry s wd dt).
Proof.
  intros Js S. unfold dir_watch. split.
  - destruct (lookup_dt s dt) as [i|] eqn:L; [|discriminate]. cbn. intros H. injection H as <-. apply (find_dt s dt i S) in L as [Li Ld]. exists i. split; [apply Js; exact Li|auto].
  - intros [i [Hi [Wi Di]]]. assert (lookup_dt s dt = Some i) as -> by (apply (find_dt s dt i S); split; [apply Js; exact Hi|exact Di]). cbn. congruence.
Qed.

(** If no directory is watched twice, and the kernel drops no watch that is in the table, the
    table is what it is meant to be, both ways: events are taken for the directory that the watch was
    added for, and the watch of a directory that goes is found. *)
Theorem C72_table os : holds one_watch os [] -> holds no_drop os [] ->
  exists s, run os empty = Some s /\ (forall wd dt, event_dir s wd = Some dt <-> In (wd, dt) (meant os [])) /\ (forall wd dt, dir_watch s dt = Some wd <-> In (wd, dt) (meant os [])).
Proof.
  intros O D. destruct (run_ok os empty [] j_empty) as [s [R [Js [S A]]]]; auto.
  - constructor.
  - intros wd dt. split; [intros [i [[] _]]|intros []].
  - exists s. split; [exact R|]. split; intros wd dt; [rewrite (event_entry s wd dt Js)|rewrite (watch_entry s wd dt Js S)]; apply A.
Qed.
Print Assumptions C72_table.

(** For all histories, with dropped watches too, as long as no directory gets a second watch: the
    table is not broken, and events go where they should. Only for a directory that goes it is open
    whether its watch is found. *)
Inductive history : st -> Prop :=
| h_empty : history empty
| h_step s o s' : history s -> (forall wd dt, o = Watch wd dt -> forall wd', event_dir s wd' = Some dt -> wd' = wd) -> step o s = Some s' -> history s'.
Lemma opt_ext (a b : option Z) : (forall d, a = Some d <-> b = Some d) -> a = b.
Proof. intros H. destruct a as [x|]; [symmetry; apply H; reflexivity|]. destruct b as [y|]; [apply H; reflexivity|reflexivity]. Qed.
Lemma step_events s o : J s -> (forall wd dt, o = Watch wd dt -> forall wd', event_dir s wd' = Some dt -> wd' = wd) ->
  exists s', step o s = Some s' /\ J s' /\ forall w, match o with
    | Watch wd dt => event_dir s' w = if w =? wd then Some dt else event_dir s w
    | Rmdir dt => event_dir s' w = event_dir s w \/ event_dir s w = Some dt /\ event_dir s' w = None
    | QueueIgnored wd => event_dir s' w = if w =? wd then option_map (fun _ => -1) (event_dir s w) else event_dir s w
    | HandleIgnored wd => event_dir s' w = if w =? wd then None else event_dir s w
    end.
Proof.
  intros Js O. assert (forall i, In i (inorder (wd_root s)) -> exists s', dircache_del s i = Some s' /\ J s' /\ forall w, event_dir s' w = if w =? wd_of s i then None else event_dir s w) as Del.
  { intros i Hi. destruct (del_ok s i Js Hi) as [s' [E1 [J' [Ew [Ed [_ [In1 _]]]]]]]. exists s'. split; [exact E1|]. split; [exact J'|]. intros w. apply opt_ext. intros d. rewrite (event_entry s' w d J'), (del_entry s s' i w d Js Hi Ew Ed In1). destruct (w =? wd_of s i) eqn:Q.
    - apply Z.eqb_eq in Q. split; [tauto|discriminate].
    - apply Z.eqb_neq in Q. rewrite (event_entry s w d Js). tauto. }
  destruct o as [wd dt|dt|wd|wd]; cbn [step].
  - destruct (add_ok s wd dt Js) as [s' [E1 [J' [En _]]]]; [intros wd' X; apply (O wd dt eq_refl), event_entry; assumption|]. exists s'. split; [exact E1|]. split; [exact J'|]. intros w. apply opt_ext. intros d. rewrite (event_entry s' w d J'), En. destruct (w =? wd) eqn:Q.
    + apply Z.eqb_eq in Q. split; [intros [[_ ->]|[_ X]]; [reflexivity|contradiction]|intros X; injection X as ->; auto].
    + apply Z.eqb_neq in Q. rewrite (event_entry s w d Js). tauto.
  - destruct (lookup_dt s dt) as [i|] eqn:L; [|exists s; auto]. apply search_some in L as [Li Ld]. apply (j_same _ Js) in Li. destruct (Del i Li) as [s' [E1 [J' H]]]. exists s'. split; [exact E1|]. split; [exact J'|]. intros w. rewrite H. destruct (w =? wd_of s i) eqn:Q; [|auto]. apply Z.eqb_eq in Q. right. split; [|reflexivity]. apply (event_entry s w dt Js). exists i. auto.
  - destruct (lookup_wd s wd) as [i|] eqn:L.
    + pose proof L as L'. apply (find_wd s wd i Js) in L as [Li Lw]. eexists. split; [reflexivity|]. assert (J {| wd_root := wd_root s; dt_root := dt_root s; wd_of := wd_of s; dt_of := set (dt_of s) i (-1); next := next s |}) as J' by (split; cbn; apply Js). split; [exact J'|].
      intros w. unfold event_dir at 1. unfold lookup_wd. cbn [wd_root wd_of dt_of]. fold (lookup_wd s w). unfold event_dir. destruct (w =? wd) eqn:Q.
      * apply Z.eqb_eq in Q. subst w. rewrite L'. cbn. rewrite set_same. reflexivity.
      * apply Z.eqb_neq in Q. destruct (lookup_wd s w) as [j|] eqn:Lj; [|reflexivity]. apply (find_wd s w j Js) in Lj as [Hj Wj]. cbn. rewrite set_other by congruence. reflexivity.
    + exists s. split; [reflexivity|]. split; [exact Js|]. intros w. destruct (w =? wd) eqn:Q; [|reflexivity]. apply Z.eqb_eq in Q. subst w. unfold event_dir. rewrite L. reflexivity.
  - destruct (lookup_wd s wd) as [i|] eqn:L.
    + apply (find_wd s wd i Js) in L as [Li Lw]. destruct (Del i Li) as [s' [E1 [J' H]]]. exists s'. split; [exact E1|]. split; [exact J'|]. intros w. rewrite H, Lw. reflexivity.
    + exists s. split; [reflexivity|]. split; [exact Js|]. intros w. destruct (w =? wd) eqn:Q; [|reflexivity]. apply Z.eqb_eq in Q. subst w. unfold event_dir. rewrite L. reflexivity.
Qed.
Lemma history_j s : history s -> J s.
Proof. induction 1 as [|s o s' H IH O E]; [exact j_empty|]. destruct (step_events s o IH O) as [s2 [E2 [J2 _]]]. congruence. Qed.
Theorem C72_events s o : history s -> (forall wd dt, o = Watch wd dt -> forall wd', event_dir s wd' = Some dt -> wd' = wd) ->
  exists s', step o s = Some s' /\ forall w, match o with
    | Watch wd dt => event_dir s' w = if w =? wd then Some dt else event_dir s w
    | Rmdir dt => event_dir s' w = event_dir s w \/ event_dir s w = Some dt /\ event_dir s' w = None
    | QueueIgnored wd => event_dir s' w = if w =? wd then option_map (fun _ => -1) (event_dir s w) else event_dir s w
    | HandleIgnored wd => event_dir s' w = if w =? wd then None else event_dir s w
    end.
Proof. intros H O. destruct (step_events s o (history_j s H) O) as [s' [E1 [_ E2]]]. exists s'. auto. Qed.
Print Assumptions C72_events.

(** Examples: directories are added, moved (watched again with the same or another id) and deleted. *)
Definition ex_ops : list op := [Watch 1 5; Watch 2 3; Watch 3 8; Watch 2 3; Rmdir 5; QueueIgnored 1; Watch 3 9; HandleIgnored 1; Watch 4 5].
Ltac conds := cbn; repeat split; try lia; intros; repeat match goal with H : _ \/ _ |- _ => destruct H | H : False |- _ => destruct H | H : (_, _) = (_, _) |- _ => injection H; clear H; intros | |- ~ _ => intro end; try lia; try congruence.
Example ex_ok : holds one_watch ex_ops [] /\ holds no_drop ex_ops [].
Proof. split; conds. Qed.
Example ex_run : exists s, run ex_ops empty = Some s /\ event_dir s 2 = Some 3 /\ dir_watch s 9 = Some 3 /\ dir_watch s 5 = Some 4 /\ event_dir s 1 = None.
Proof. destruct (run ex_ops empty) as [s|] eqn:R; [|vm_compute in R; discriminate]. exists s. split; [reflexivity|]. vm_compute in R. injection R as <-. vm_compute. auto. Qed.

(** A dropped watch is marked in the tree with the id -1, which puts the tree out of order: the watch of
    another directory is not found, also after all events were handled. *)
Definition miss_ops : list op := [Watch 1 5; Watch 2 4; QueueIgnored 1; Watch 3 3; HandleIgnored 1].
Theorem C72_miss_refuted :
  ~ forall os s, holds one_watch os [] -> run os empty = Some s -> (forall wd, event_dir s wd <> Some (-1)) -> forall wd dt, event_dir s wd = Some dt -> dir_watch s dt = Some wd.
Proof.
  intros H. assert (holds one_watch miss_ops []) as O by conds. destruct (run miss_ops empty) as [s|] eqn:R; [|vm_compute in R; discriminate]. specialize (H miss_ops s O R).
  assert (forall wd, event_dir s wd = if wd =? 2 then Some 4 else if wd =? 3 then Some 3 else None) as Ev.
  { vm_compute in R. injection R as <-. intros wd. unfold event_dir, lookup_wd. cbn [search wd_root wd_of dt_of]. destruct (wd =? 2) eqn:Q2; [apply Z.eqb_eq in Q2; subst; reflexivity|]. destruct (wd =? 3) eqn:Q3; [apply Z.eqb_eq in Q3; subst; reflexivity|]. apply Z.eqb_neq in Q2, Q3.
    repeat match goal with |- context[wd <? ?a] => let q := fresh in destruct (wd <? a) eqn:q | |- context[?a <? wd] => let q := fresh in destruct (a <? wd) eqn:q end; cbn; try reflexivity; repeat match goal with H : (_ <? _) = _ |- _ => first [apply Z.ltb_lt in H | apply Z.ltb_ge in H] end; exfalso; lia. }
  assert (dir_watch s 4 = Some 2) as D. { apply H; [|rewrite Ev; reflexivity]. intros wd. rewrite Ev. destruct (wd =? 2); [discriminate|]. destruct (wd =? 3); discriminate. }
  vm_compute in R. injection R as <-. vm_compute in D. discriminate.
Qed.
Print Assumptions C72_miss_refuted.

(** So a directory that was moved out of the project can stay in the table: events in it are
    still taken for those of the directory that it was. *)
Theorem C72_stale_refuted :
  ~ forall os s, holds one_watch os [] -> run os empty = Some s -> forall wd dt, event_dir s wd = Some dt -> dt <> -1 -> In (wd, dt) (meant os []).
Proof.
  intros H. set (os := [Watch 1 5; Watch 2 3; Watch 3 8; QueueIgnored 1; Rmdir 3; HandleIgnored 1]). assert (holds one_watch os []) as O by conds. destruct (run os empty) as [s|] eqn:R; [|vm_compute in R; discriminate].
  assert (event_dir s 2 = Some 3) as Ev by (vm_compute in R; injection R as <-; reflexivity). specialize (H os s O R 2 3 Ev ltac:(lia)). vm_compute in H. destruct H as [H|[]]; discriminate.
Qed.
Print Assumptions C72_stale_refuted.
(** And if a directory gets the id again, the table is broken: a node is removed from a tree that it
    is not in. *)
Theorem C72_crash_refuted : ~ forall os, holds one_watch os [] -> run os empty <> None.
Proof.
  intros H. apply (H [Watch 1 5; Watch 2 3; Watch 3 8; QueueIgnored 1; Rmdir 3; HandleIgnored 1; Watch 4 3; QueueIgnored 4; HandleIgnored 4]); [conds|]. vm_compute. reflexivity.
Qed.
Print Assumptions C72_crash_refuted.
(** The same happens, with no dropped watch, if a directory is moved away and made anew before the
    event of its creation is handled: the new one is watched with the id of the old one, the old one
    with the same id, and then the new one with its own. *)
Theorem C72_twice_refuted : ~ forall os, (forall o, In o os -> match o with Watch _ dt => 0 <= dt | _ => True end) -> holds no_drop os [] -> run os empty <> None.
Proof.
  intros H. apply (H [Watch 1 5; Watch 2 5; Watch 1 6; Watch 2 7]).
  - intros o X. cbn in X. repeat destruct X as [<-|X]; try lia; destruct X.
  - conds.
  - vm_compute. reflexivity.
Qed.
Print Assumptions C72_twice_refuted.
