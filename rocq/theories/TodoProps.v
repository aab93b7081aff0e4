(** C68: tup todo shows what an update executes. *)
From Verif Require Import Base ExecModel ExecSpec ExecProofs ExecProofs3 GraphModel GraphSpec GraphProofs GraphProps TransModel TransSpec TransProofs2 TransProofs3 TransProps TransExamples
  TodoModel TodoSpec TodoProofs TodoProofs2 TodoProofs3.

Section Props.
(** Any database; [flags]: what changed (modify_list), [rows]: what updates with
    ^t commands left (transient_list). *)
Variable kind_of : id -> kind.
Variable links glinks inputs users : id -> list id.
Variable transient_ exclusion : id -> bool.
Variable root : id.
Variable universe rows flags : list id.
Variable fuel : nat.
Hypothesis SO : store_ok kind_of links glinks inputs rows flags users root universe.
Hypothesis Fuel : 2 * length universe < fuel.
Notation todo := (todo_graph kind_of links glinks inputs transient_ exclusion root fuel flags).
Notation affected := (affected kind_of links glinks flags).
Notation path := (path kind_of links glinks).
Notation waiting := (waiting kind_of transient_ flags).
Notation changed := (changed kind_of links glinks transient_ rows flags exclusion).

Lemma flags_db : db_ok kind_of links glinks root universe flags.
Proof. destruct (so_db _ _ _ _ _ _ _ _ _ SO) as [U1 U2 U3]. split; [exact U1| |exact U3]. intros x H. apply U2, in_or_app. left. exact H. Qed.
Lemma spec targets b m : todo targets = Done (b, m) -> exists b0 nodes, listed_graph kind_of links glinks inputs transient_ exclusion root flags fuel targets b0 b m nodes.
Proof. exact (todo_spec kind_of links glinks inputs transient_ exclusion root universe flags flags_db (so_kinds _ _ _ _ _ _ _ _ _ SO) fuel Fuel targets b m). Qed.

(** C68. What is shown: each command that is affected by a change and wanted,
    once, after those it depends on; the number in the message is theirs. The
    commands that are affected and not wanted are recorded as changed. *)
Theorem C68_shows targets b m s : todo targets = Done (b, m) -> shows kind_of b s -> at_ s = Returned 0 ->
  exists whole, todo None = Done (whole, []) /\
  NoDup (ws s) /\
  (forall n, In n (ws s) <-> kind_of n = KCmd /\ affected n /\ wanted kind_of exclusion (gr_ whole) targets n) /\
  (forall a c, In a (ws s) -> In c (ws s) -> path a c -> ahead (ws s) a c) /\
  number b = length (ws s) /\
  (forall n, In n m <-> kind_of n = KCmd /\ affected n /\ ~ wanted kind_of exclusion (gr_ whole) targets n).
Proof.
  intros E R A. destruct (spec _ _ _ E) as [b0 [nodes L]]. exists b0. split; [unfold todo_graph; rewrite (lg_whole _ _ _ _ _ _ _ _ _ _ _ _ _ _ L); reflexivity|].
  destruct (shows_all kind_of b root nodes s (lg_prep _ _ _ _ _ _ _ _ _ _ _ _ _ _ L) (lg_trans _ _ _ _ _ _ _ _ _ _ _ _ _ _ L) R A) as [N [I O]].
  assert (forall n, In n (ws s) <-> kind_of n = KCmd /\ affected n /\ wanted kind_of exclusion (gr_ b0) targets n) as IW.
  { intros n. rewrite I. split; [intros [H K]; split; [exact K|apply (lg_nodes _ _ _ _ _ _ _ _ _ _ _ _ _ _ L n K); exact H]|intros [K H]; split; [|exact K]; apply (lg_nodes _ _ _ _ _ _ _ _ _ _ _ _ _ _ L n K); exact H]. }
  split; [exact N|]. split; [exact IW|]. split; [|split].
  - intros a c Ha Hc P. apply IW in Ha. destruct Ha as [Ka [Aa _]]. pose proof (proj1 (IW c) Hc) as [_ [_ Wc]].
    apply (O a c Ka); [|exact Hc]. apply (lg_dep _ _ _ _ _ _ _ _ _ _ _ _ _ _ L a c Aa P); [apply I; exact Hc|exact Wc].
  - rewrite (lg_number _ _ _ _ _ _ _ _ _ _ _ _ _ _ L). apply same_length; [exact N| |exact I].
    pose proof (p_nodup _ _ _ (lg_prep _ _ _ _ _ _ _ _ _ _ _ _ _ _ L)) as X. inversion X. assumption.
  - intros n. rewrite (lg_modify _ _ _ _ _ _ _ _ _ _ _ _ _ _ L n). tauto.
Qed.

(** Without cycles it gets there: some execution shows everything, and every
    one that ends without being interrupted does. *)
Theorem C68_completes targets : no_cycles kind_of links glinks inputs ->
  exists b m, todo targets = Done (b, m) /\
  (exists s, shows kind_of b s /\ at_ s = Returned 0) /\
  (forall s rc, shows kind_of b s -> at_ s = Returned rc -> dead s = false -> rc = 0%Z).
Proof.
  intros NC. assert (exists b m, todo targets = Done (b, m)) as [b [m E]].
  { pose proof (update_spec kind_of links glinks inputs transient_ exclusion root universe flags flags_db (so_kinds _ _ _ _ _ _ _ _ _ SO) fuel Fuel) as Q.
    unfold todo_graph. destruct (update_graph _ _ _ _ _ _ _ _ _) as [b0| | |] eqn:E.
    - cbn [then_]. destruct targets as [ts|]; [|eauto].
      destruct (C07_keeps_exactly_what_is_needed kind_of links glinks inputs transient_ exclusion root universe flags flags_db (so_kinds _ _ _ _ _ _ _ _ _ SO) fuel b0 [] ts Fuel E) as [b' [m' [ns [X _]]]].
      rewrite X. cbn [of_option]. eauto.
    - exfalso. destruct Q as [n [_ P]]. destruct NC as [rank [R _]].
      assert (forall a c, path a c -> rank a < rank c) as U. { intros a c X. induction X as [a c X|a c d X IH Y]; [exact (R _ _ X)|specialize (R _ _ Y); lia]. }
      specialize (U n n P). lia.
    - destruct Q.
    - destruct Q. }
  exists b, m. split; [exact E|]. destruct (spec _ _ _ E) as [b0 [nodes L]].
  pose proof (lg_prep _ _ _ _ _ _ _ _ _ _ _ _ _ _ L) as P.
  pose proof (todo_acyclic kind_of links glinks inputs transient_ exclusion root universe flags flags_db (so_kinds _ _ _ _ _ _ _ _ _ SO) fuel Fuel _ _ _ _ _ L NC) as Ac.
  assert (forall s rc, shows kind_of b s -> at_ s = Returned rc -> dead s = false -> rc = 0%Z) as F by (intros s rc; exact (shows_success kind_of b root nodes s rc P Ac)).
  split; [|exact F]. destruct (shows_completes kind_of b root nodes P) as [s [rc [R [A D]]]]. exists s. split; [exact R|]. rewrite (F s rc R A D) in A. exact A.
Qed.

(** ** Against the update *)
Variable caret_o : id -> bool.
Variable keep_going : bool.
Variable maker : id -> id.
Variable disk : id -> bool.
Variable jobs : nat.
Hypothesis PL : plain kind_of links glinks inputs transient_ flags.
Hypothesis MK : makers kind_of links glinks transient_ exclusion maker.
Hypothesis Jpos : 0 < jobs.
Hypothesis Known : forall f, temporary kind_of transient_ f -> disk f = true -> In f rows.
(** A ^t command that is new is recorded as changed, too. *)
Hypothesis Both : forall c, In c rows -> kind_of c = KCmd -> In c flags.
(** [u] is a state of the update. *)
Notation updates := (reaches kind_of links glinks inputs users transient_ exclusion caret_o keep_going root rows flags disk jobs fuel).

(** Whatever command the update starts was shown. *)
Theorem C68_covers b s g u c : todo None = Done (b, []) -> shows kind_of b s -> at_ s = Returned 0 ->
  updates g u -> In (Start c) (hist u) -> kind_of c = KCmd -> In c (ws s).
Proof.
  intros E R A U St K. destruct (C68_shows None b [] s E R A) as [whole [_ [_ [I _]]]]. apply I. split; [exact K|]. split; [|exact Logic.I].
  destruct (reaches_built kind_of links glinks inputs users transient_ exclusion caret_o keep_going root universe rows flags disk jobs fuel SO PL Fuel g u U) as [nodes [T Ru]].
  pose proof (started_in kind_of transient_ exclusion caret_o keep_going (gr_ g) root nodes (tb_prepared _ _ _ _ _ _ _ _ _ _ _ T) jobs Jpos _ u c Ru St) as Hn.
  apply (tb_exact _ _ _ _ _ _ _ _ _ _ _ T) in Hn. exact (joins_affected kind_of links glinks inputs transient_ rows flags Both c Hn K).
Qed.

(** "Everything is up-to-date": the update starts no command. *)
Theorem C68_up_to_date b g u c : no_cycles kind_of links glinks inputs -> todo None = Done (b, []) -> number b = 0 ->
  updates g u -> In (Start c) (hist u) -> kind_of c <> KCmd.
Proof.
  intros NC E Z U St K. destruct (C68_completes None NC) as [b' [m [E' [[s [R A]] _]]]]. rewrite E in E'. injection E' as <- <-.
  pose proof (C68_covers b s g u c E R A U St K) as I. destruct (C68_shows None b [] s E R A) as [_ [_ [_ [_ [_ [N _]]]]]]. rewrite Z in N. destruct (ws s); [destruct I|discriminate N].
Qed.

(** C68, full statement: the commands that are shown are those that the update
    executes. What is missing: ^t commands (C68_transient_refuted), what
    depends on the outputs of ^o commands that do not change, and what is
    ordered after a change by a group only. *)
Theorem C68_exact_partial b s g u c : rows = [] -> (forall c, ~ waiting c) -> (forall n, caret_o n = false) ->
  todo None = Done (b, []) -> shows kind_of b s -> at_ s = Returned 0 -> updates g u -> at_ u = Returned 0 ->
  (In c (ws s) <-> In (Start c) (hist u) /\ kind_of c = KCmd) /\ (In c (ws s) -> changed c -> In c (ran (ws u))).
Proof.
  intros Er NW NO E R A U Au. destruct (C68_shows None b [] s E R A) as [whole [_ [_ [I _]]]].
  destruct (reaches_built kind_of links glinks inputs users transient_ exclusion caret_o keep_going root universe rows flags disk jobs fuel SO PL Fuel g u U) as [nodes [T Ru]].
  pose proof (tb_prepared _ _ _ _ _ _ _ _ _ _ _ T) as PG. split; [split|].
  - intros H. apply I in H. destruct H as [K [Af _]]. split; [|exact K].
    assert (In c nodes) as Hn by (apply (tb_exact _ _ _ _ _ _ _ _ _ _ _ T), join_due, affected_due; auto).
    destruct (rc0_all _ _ _ _ _ PG _ Jpos _ u Ru Au c Hn) as [_ X]. apply starts_pos. destruct (trans (gr_ g) c); lia.
  - intros [St K]. exact (C68_covers b s g u c E R A U St K).
  - intros H Ch. apply I in H. destruct H as [K _].
    exact (C59_changes_run kind_of links glinks inputs users transient_ exclusion caret_o keep_going root universe rows flags maker disk jobs fuel SO PL MK Jpos Fuel Known g u c NO U Au Ch K).
Qed.
End Props.
Print Assumptions C68_shows.
Print Assumptions C68_completes.
Print Assumptions C68_covers.
Print Assumptions C68_up_to_date.
Print Assumptions C68_exact_partial.

(** tup todo on the database [d]. *)
Definition todo_of (d : db) (flags : list id) (targets : option (list id)) : outcome (bgraph * list id) :=
  todo_graph (kd d) (lk d) none (ip d) (tr d) no 0 100 flags targets.
Lemma cycles_by d (rank : id -> nat) : (forall a b, In (a, b) (pairs (d_links d)) -> rank a < rank b) -> (forall n i, In (n, i) (pairs (d_inputs d)) -> rank i < rank n) ->
  no_cycles (kd d) (lk d) none (ip d).
Proof. intros H1 H2. exists rank. split; [intros a n N; exact (H1 _ _ (next_pairs _ _ _ N))|intros n i N; exact (H2 _ _ (assoc_pairs _ _ _ N))]. Qed.
(** A complete list, with what is on it. *)
Lemma shown_by d flags universe targets : store_ok (kd d) (lk d) none (ip d) [] flags (us d) 0 universe -> 2 * length universe < 100 ->
  no_cycles (kd d) (lk d) none (ip d) ->
  exists b m s whole, todo_of d flags targets = Done (b, m) /\ todo_of d flags None = Done (whole, []) /\ shows (kd d) b s /\ at_ s = Returned 0 /\
    forall n, In n (ws s) <-> kd d n = KCmd /\ affected (kd d) (lk d) none flags n /\ wanted (kd d) no (gr_ whole) targets n.
Proof.
  intros SO F NC. destruct (C68_completes (kd d) (lk d) none (ip d) (us d) (tr d) no 0 universe [] flags 100 SO F targets NC) as [b [m [E [[s [R A]] _]]]].
  destruct (C68_shows (kd d) (lk d) none (ip d) (us d) (tr d) no 0 universe [] flags 100 SO F targets b m s E R A) as [whole [W [_ [I _]]]].
  exists b, m, s, whole. auto.
Qed.
Ltac up := intros ? ? H; each_pair H; cbn; lia.

(** in.txt (1) -> command (2) -> mid (3) -> command (4) -> out (5); 4 also reads in2.txt (6). *)
Definition d2 : db := {|
  d_kind := [(0, KRoot); (1, KFile); (2, KCmd); (3, KGenerated); (4, KCmd); (5, KGenerated); (6, KFile)];
  d_links := [(1, [2]); (2, [3]); (3, [4]); (4, [5]); (6, [4])];
  d_inputs := [(2, [1]); (4, [3; 6])];
  d_t := []; d_o := [] |}.
Definition rank2 (n : id) : nat := match n with 6 => 1 | _ => n end.

(** The hypotheses are met: in.txt changed; both commands are shown, and the
    update runs both. *)
Example C68_case : good d2 [] [1] [1; 3; 5; 6] all1 (fun _ => 2) /\ plain (kd d2) (lk d2) none (ip d2) (tr d2) [1] /\ no_cycles (kd d2) (lk d2) none (ip d2) /\
  (forall c, ~ waiting (kd d2) (tr d2) [1] c) /\ (forall n, co d2 n = false) /\
  (exists b s, todo_of d2 [1] None = Done (b, []) /\ shows (kd d2) b s /\ at_ s = Returned 0 /\ In 2 (ws s) /\ In 4 (ws s) /\ number b = 2) /\
  (exists g u, runs d2 [] [1] [1; 3; 5; 6] g u /\ at_ u = Returned 0 /\ ran (ws u) = [4; 2]) /\
  changed (kd d2) (lk d2) none (tr d2) [] [1] no 4.
Proof.
  assert (no_cycles (kd d2) (lk d2) none (ip d2)) as NC by (apply (cycles_by d2 rank2); up).
  assert (affected (kd d2) (lk d2) none [1] 1) as A1 by (apply aff_flag; left; reflexivity).
  assert (affected (kd d2) (lk d2) none [1] 2) as A2 by (apply aff_next with 1; [exact A1|left; cbn; auto]).
  assert (affected (kd d2) (lk d2) none [1] 4) as A4 by (apply aff_next with 3; [apply aff_next with 2; [exact A2|left; cbn; auto]|left; cbn; auto]).
  split; [good|]. split; [plain|]. split; [exact NC|]. split; [intros c [_ [_ X]]; discriminate X|]. split; [reflexivity|]. split; [|split].
  - destruct (shown_by d2 [1] all1 None) as [b [m [s [whole [E [W [R [A I]]]]]]]]; [store|cbn; lia|exact NC|].
    assert (m = []) as -> by (vm_compute in E; injection E as _ <-; reflexivity).
    exists b, s. split; [exact E|]. split; [exact R|]. split; [exact A|].
    split; [apply I; split; [reflexivity|split; [exact A2|exact Logic.I]]|]. split; [apply I; split; [reflexivity|split; [exact A4|exact Logic.I]]|].
    vm_compute in E. injection E as <-. reflexivity.
  - destruct (witness d2 [] [] [1] [1; 3; 5; 6] 99 (fun s => returned0 s && list_eqb (ran (ws s)) [4; 2])) as (b & s & R & P); [vm_compute; reflexivity|].
    apply andb_true_iff in P. destruct P as [P1 P2]. exists b, s. split; [exact R|]. split; [apply returned0_ok; exact P1|apply list_eqb_eq; exact P2].
  - assert (forall n, ~ leftover (kd d2) [] [1] n) as NL by (intros n [[] _]).
    apply (chg_next _ _ _ _ _ _ _ 3); [|apply NL|left; cbn; auto|discriminate].
    apply (chg_next _ _ _ _ _ _ _ 2); [|apply NL|left; cbn; auto|intros _; split; [discriminate|reflexivity]].
    apply (chg_next _ _ _ _ _ _ _ 1); [|apply NL|left; cbn; auto|discriminate].
    apply chg_flag; [cbn; auto|intros (_ & K & _); discriminate].
Qed.
(** Only in2.txt changed: what makes it is not shown; without changes nothing
    is. *)
Example C68_fewer : (exists b, todo_of d2 [6] None = Done (b, []) /\ number b = 1) /\ (exists b, todo_of d2 [] None = Done (b, []) /\ number b = 0).
Proof. split; eexists; (split; [vm_compute; reflexivity|reflexivity]). Qed.

(** C68, full statement: what is shown is executed. Refuted for ^t commands:
    after an update their outputs are gone, the scan records the command as
    changed for that (create_name_file.c:440), and tup todo shows it and all that depends on it,
    while tup has nothing to do, and so for ever. *)
Theorem C68_transient_refuted : exists d flags disk universe maker,
  good d [] flags disk universe maker /\ plain (kd d) (lk d) none (ip d) (tr d) flags /\ no_cycles (kd d) (lk d) none (ip d) /\
  (exists b s c, todo_of d flags None = Done (b, []) /\ shows (kd d) b s /\ at_ s = Returned 0 /\ In c (ws s) /\ tr d c = false /\ number b = 2) /\
  (exists g u, runs d [] flags disk g u /\ at_ u = Returned 0 /\ hist u = []).
Proof.
  exists d1, [2], [1; 5; 6], all1, (fun _ => 2).
  assert (no_cycles (kd d1) (lk d1) none (ip d1)) as NC by (apply (cycles_by d1 rank2); up).
  split; [good|]. split; [plain|]. split; [exact NC|]. split.
  - destruct (shown_by d1 [2] all1 None) as [b [m [s [whole [E [W [R [A I]]]]]]]]; [store|cbn; lia|exact NC|].
    assert (m = []) as -> by (vm_compute in E; injection E as _ <-; reflexivity).
    exists b, s, 4. split; [exact E|]. split; [exact R|]. split; [exact A|]. split; [|split; [reflexivity|vm_compute in E; injection E as <-; reflexivity]].
    apply I. split; [reflexivity|]. split; [|exact Logic.I]. apply aff_next with 3; [apply aff_next with 2; [apply aff_flag; left; reflexivity|left; cbn; auto]|left; cbn; auto].
  - destruct (witness d1 [] [] [2] [1; 5; 6] 99 (fun s => returned0 s && match hist s with [] => true | _ => false end)) as (b & s & R & P); [vm_compute; reflexivity|].
    apply andb_true_iff in P. destruct P as [P1 P2]. exists b, s. split; [exact R|]. split; [apply returned0_ok; exact P1|destruct (hist s); [reflexivity|discriminate]].
Qed.
Print Assumptions C68_transient_refuted.

(** As d2; the command 2 has ^o. *)
Definition d3 : db := {| d_kind := d_kind d2; d_links := d_links d2; d_inputs := d_inputs d2; d_t := []; d_o := [2] |}.

(** C68, full statement: tup todo changes nothing. Refuted when it is given
    targets: the commands that these do not need are recorded as changed and
    the record is kept (updater.c:583 commits). Here in.txt changed and the ^o
    command makes the same file as before: the update runs that command alone; after
    tup todo for a file that has nothing to do with it, both. *)
Theorem C68_changes_nothing_refuted : exists d flags disk universe maker targets b m,
  good d [] flags disk universe maker /\ plain (kd d) (lk d) none (ip d) (tr d) flags /\ todo_of d flags (Some targets) = Done (b, m) /\
  good d [] (flags ++ m) disk universe maker /\ plain (kd d) (lk d) none (ip d) (tr d) (flags ++ m) /\
  (exists g u, runs d [] flags disk g u /\ at_ u = Returned 0 /\ ran (ws u) = [2]) /\
  (exists c, ~ In c flags /\ In c m /\ forall g u, runs d [] (flags ++ m) disk g u -> at_ u = Returned 0 -> In c (ran (ws u))).
Proof.
  exists d3, [1], [1; 3; 5; 6], all1, (fun _ => 2), [6].
  eexists _, [2; 4]. split; [good|]. split; [plain|]. split; [vm_compute; reflexivity|]. split; [good|]. split; [plain|]. split.
  - destruct (witness d3 [3] [] [1] [1; 3; 5; 6] 99 (fun s => returned0 s && list_eqb (ran (ws s)) [2])) as (b & s & R & P); [vm_compute; reflexivity|].
    apply andb_true_iff in P. destruct P as [P1 P2]. exists b, s. split; [exact R|]. split; [apply returned0_ok; exact P1|apply list_eqb_eq; exact P2].
  - exists 4. split; [intros [X|[]]; discriminate|]. split; [cbn; auto|]. intros g u R A.
    assert (store_ok (kd d3) (lk d3) none (ip d3) [] [1; 2; 4] (us d3) 0 all1) as SO by store.
    assert (plain (kd d3) (lk d3) none (ip d3) (tr d3) [1; 2; 4]) as PL by plain.
    assert (makers (kd d3) (lk d3) none (tr d3) no (fun _ => 2)) as MK by makers.
    assert (2 * length all1 < 100) as F by (cbn; lia).
    destruct (reaches_built (kd d3) (lk d3) none (ip d3) (us d3) (tr d3) no (co d3) false 0 all1 [] [1; 2; 4] (fun x => inb x [1; 3; 5; 6]) 2 100 SO PL F g u R) as [nodes [T Ru]].
    assert (J (kd d3) (gr_ g) nodes (begins g (fun x => inb x [1; 3; 5; 6]) (fun x => inb x [])) (fun _ => 2) u) as j.
    { apply (reaches_J (kd d3) (lk d3) none (ip d3) (us d3) (tr d3) no (co d3) false 0 all1 [] [1; 2; 4] (fun _ => 2) (fun x => inb x [1; 3; 5; 6]) 2 100 SO MK); [lia| |exact T|exact R].
      intros f [_ X] _. discriminate X. }
    assert (In 4 nodes) as Hn by (apply (tb_exact _ _ _ _ _ _ _ _ _ _ _ T), join_due, due_flag; [cbn; auto|intros (_ & _ & X); discriminate X]).
    apply (j_fin _ _ _ _ _ _ j 4); [reflexivity| |].
    + change (skip g 4 = false). apply (tb_skip _ _ _ _ _ _ _ _ _ _ _ T 4 Hn). left. split; [cbn; auto|intros (_ & _ & X); discriminate X].
    + exact (proj1 (rc0_all _ _ _ _ _ (tb_prepared _ _ _ _ _ _ _ _ _ _ _ T) 2 Nat.lt_0_2 _ u Ru A 4 Hn)).
Qed.
Print Assumptions C68_changes_nothing_refuted.
