(** C59: temporary files are there for the commands that read them and gone
    afterwards. *)
From Verif Require Import Base ExecModel ExecSpec GraphModel GraphSpec TransModel TransSpec ExecProofs ExecProofs2 ExecProofs3
  TransProofs TransProofs2 TransProofs3 TransExamples.

Section Props.
(** Any database, any flags [flags] and [rows] left by earlier updates, any
    files [disk]; any number of jobs. *)
Variable kind_of : id -> kind.
Variable links glinks inputs users : id -> list id.
Variable transient_ exclusion caret_o : id -> bool.
Variable keep_going : bool.
Variable root : id.
Variable universe rows flags : list id.
Variable maker : id -> id.
Variable disk : id -> bool.
Variable jobs fuel : nat.
Hypothesis SO : store_ok kind_of links glinks inputs rows flags users root universe.
Hypothesis PL : plain kind_of links glinks inputs transient_ flags.
Hypothesis MK : makers kind_of links glinks transient_ exclusion maker.
Hypothesis Jpos : 0 < jobs.
Hypothesis Fuel : 2 * length universe < fuel.
(** A temporary file that is there is recorded (C59_never_lost: every update
    leaves it so, if its command did not fail). *)
Hypothesis Known : forall f, temporary kind_of transient_ f -> disk f = true -> In f rows.

Notation build := (tgraph kind_of links glinks inputs users transient_ root (Some KCmd) rows fuel flags).
Notation due := (due kind_of links glinks transient_ rows flags).
Notation changed := (changed kind_of links glinks transient_ rows flags exclusion).
Notation joins := (joins kind_of links glinks inputs transient_ rows flags).
Notation leftover := (leftover kind_of rows flags).
Notation waiting := (waiting kind_of transient_ flags).
Notation temporary := (temporary kind_of transient_).
Notation torn := (torn kind_of links glinks inputs transient_ rows flags).
Notation next := (next kind_of links glinks).
Notation path := (path kind_of links glinks).

(** [s] is a state of the update with the graph [b]. *)
Definition reaches (b : bgraph) (s : exec) : Prop :=
  build = Done b /\
  steps (work kind_of transient_ exclusion caret_o) keep_going (start jobs (gr_ b) (begins b disk (fun x => inb x rows))) s.

Lemma spec : match build with
  | Done b => exists nodes, tbuilt kind_of links glinks inputs transient_ root (Some KCmd) rows flags b nodes
  | Circular => exists n, due n /\ path n n
  | Internal => exists c, torn c
  | Timeout => False
  end.
Proof.
  destruct SO as [DB KO US UC].
  apply (tgraph_spec kind_of links glinks inputs users transient_ root (Some KCmd) rows flags universe DB (k_root _ _ _ _ _ KO) US UC PL);
    [|exact (k_inputs _ _ _ _ _ KO)|exact (k_generated _ _ _ _ _ KO)|exact Fuel].
  intros a n H. rewrite (k_glinks _ _ _ _ _ KO a n H). reflexivity.
Qed.

(** Exactly what is due or demanded takes part; building the graph fails only
    for a cycle or a torn command. *)
Theorem C59_graph :
  match build with
  | Done b =>
    (forall n, In n (node_list (gr_ b)) <-> n = root \/ joins n) /\
    (forall a n, direct (gr_ b) a n <->
       (a = root /\ ((In n flags /\ ~ waiting n) \/ In n rows \/ (waiting n /\ joins n /\ ~ due n))) \/
       (due a /\ ~ leftover a /\ next a n) \/
       (waiting a /\ joins a /\ In n (links a)) \/
       (joins n /\ joins a /\ In a (inputs n))) /\
    (forall n, joins n -> (skip b n = false <-> (In n flags /\ ~ waiting n) \/ In n rows \/ (waiting n /\ ~ due n)))
  | Circular => exists n, due n /\ path n n
  | Internal => exists c, torn c
  | Timeout => False
  end.
Proof.
  pose proof spec as S. destruct build as [b| | |]; try exact S. destruct S as [nodes T]. split; [|split].
  - intros n. rewrite (p_lists _ _ _ (tb_prepared _ _ _ _ _ _ _ _ _ _ _ T)). cbn [In]. rewrite (tb_exact _ _ _ _ _ _ _ _ _ _ _ T).
    split; intros [H|H]; auto.
  - exact (tb_direct _ _ _ _ _ _ _ _ _ _ _ T).
  - intros n H. apply (tb_skip _ _ _ _ _ _ _ _ _ _ _ T). apply (tb_exact _ _ _ _ _ _ _ _ _ _ _ T). exact H.
Qed.

Section Built.
Variable b : bgraph.
Variable nodes : list id.
Hypothesis T : tbuilt kind_of links glinks inputs transient_ root (Some KCmd) rows flags b nodes.
Notation EX := (tb_exact _ _ _ _ _ _ _ _ _ _ _ T).
Notation DIR := (tb_direct _ _ _ _ _ _ _ _ _ _ _ T).
Notation PG := (tb_prepared _ _ _ _ _ _ _ _ _ _ _ T).
Notation w0 := (begins b disk (fun x => inb x rows)).

Lemma temp_iff f : temp (gr_ b) nodes f <-> temporary f /\ joins f.
Proof.
  unfold temp, TransSpec.temporary. rewrite <- EX. split.
  - intros [Hn Ht]. rewrite (tb_trans _ _ _ _ _ _ _ _ _ _ _ T f Hn) in Ht. split; [|exact Hn].
    destruct (kind_of f); try discriminate Ht. cbn in Ht. destruct (transient_ f); [auto|discriminate].
  - intros [[K Tr] Hn]. split; [exact Hn|]. rewrite (tb_trans _ _ _ _ _ _ _ _ _ _ _ T f Hn), K, Tr. reflexivity.
Qed.
Lemma not_root n : In n nodes -> n <> root.
Proof. intros H ->. pose proof (p_nodup _ _ _ PG) as ND. apply NoDup_cons_iff in ND. tauto. Qed.
Lemma cmd_not_left c : kind_of c = KCmd -> ~ leftover c.
Proof. intros K [_ [H _]]. contradiction. Qed.
Lemma maker_next f : temporary f -> next (maker f) f.
Proof. intros H. left. exact (mk_link _ _ _ _ _ _ MK f H). Qed.
Lemma cmd_none c : kind_of c = KCmd -> In c nodes -> trans (gr_ b) c = TNone.
Proof. intros K H. rewrite (tb_trans _ _ _ _ _ _ _ _ _ _ _ T c H), K. reflexivity. Qed.
Lemma Mk f : temp (gr_ b) nodes f -> kind_of f <> KCmd /\ real kind_of exclusion f = true /\
  kind_of (maker f) = KCmd /\ transient_ (maker f) = true /\ (In (maker f) nodes -> trans (gr_ b) (maker f) = TNone) /\
  (In (maker f) nodes -> direct (gr_ b) (maker f) f) /\ (forall n, direct (gr_ b) n f -> n = root \/ n = maker f).
Proof.
  intros H. apply temp_iff in H. destruct H as [Hf Hj]. destruct (mk_cmd _ _ _ _ _ _ MK f Hf) as [K Tr].
  pose proof Hf as [Kf _]. split; [congruence|]. split; [unfold real; rewrite Kf, (mk_real _ _ _ _ _ _ MK f Hf); reflexivity|].
  split; [exact K|]. split; [exact Tr|]. split; [|split].
  - exact (cmd_none _ K).
  - intros Hn. apply DIR. destruct (tb_cmd _ _ _ _ _ _ _ _ _ _ _ T _ Hn K) as [D|[W _]].
    + right. left. split; [exact D|]. split; [exact (cmd_not_left _ K)|exact (maker_next f Hf)].
    + right. right. left. split; [exact W|]. split; [apply EX; exact Hn|exact (mk_link _ _ _ _ _ _ MK f Hf)].
  - intros n D. apply DIR in D. destruct D as [[D _]|[[_ [_ D]]|[[_ [_ D]]|[_ [_ D]]]]].
    + auto.
    + right. exact (mk_only _ _ _ _ _ _ MK f n Hf D).
    + right. apply (mk_only _ _ _ _ _ _ MK f n Hf). left. exact D.
    + exfalso. pose proof (so_cmds _ _ _ _ _ _ _ _ _ SO _ _ D). congruence.
Qed.

Lemma Rows f : temp (gr_ b) nodes f -> there w0 f = true -> row w0 f = true.
Proof. intros H. apply temp_iff in H. cbn. intros D. apply inb_In. exact (Known f (proj1 H) D). Qed.

Lemma user_edge u f : In u nodes -> temporary f -> In f (inputs u) -> joins f -> direct (gr_ b) f u.
Proof. intros Hu Hf Hi Hj. apply DIR. right. right. right. rewrite <- EX. auto. Qed.

Lemma chg_due n : changed n -> due n.
Proof. intros H. induction H; [apply due_flag; assumption|apply due_row; assumption|eapply due_next; eassumption]. Qed.
Lemma chg_carry n : changed n -> skp w0 n = false \/ exists a, changed a /\ carry kind_of exclusion (gr_ b) root a n.
Proof.
  intros H. pose proof (chg_due n H) as D. assert (In n nodes) as Hn by (apply EX, join_due; exact D).
  destruct H as [n H1 H2|n H|a n H1 H2 H3 H4].
  - left. apply (tb_skip _ _ _ _ _ _ _ _ _ _ _ T n Hn). auto.
  - left. apply (tb_skip _ _ _ _ _ _ _ _ _ _ _ T n Hn). auto.
  - right. exists a. split; [exact H1|]. pose proof (chg_due a H1) as Da.
    assert (In a nodes) as Ha by (apply EX, join_due; exact Da). split; [|split].
    + exact (tb_normal _ _ _ _ _ _ _ _ _ _ _ T a n Da H2 H3).
    + exact (not_root a Ha).
    + intros K. destruct (H4 K) as [G E]. split; [unfold real; rewrite E; destruct (kind_of n); try reflexivity; contradiction|exact (cmd_none a K Ha)].
Qed.
End Built.

Lemma fresh_start b : ran (begins b disk (fun x => inb x rows)) = [] /\ broke (begins b disk (fun x => inb x rows)) = [].
Proof. split; reflexivity. Qed.
Lemma reaches_built b s : reaches b s -> exists nodes,
  tbuilt kind_of links glinks inputs transient_ root (Some KCmd) rows flags b nodes /\
  steps (work kind_of transient_ exclusion caret_o) keep_going (start jobs (gr_ b) (begins b disk (fun x => inb x rows))) s.
Proof. intros [E R]. pose proof spec as S. rewrite E in S. destruct S as [nodes T]. exists nodes. auto. Qed.
Lemma reaches_J b s nodes : tbuilt kind_of links glinks inputs transient_ root (Some KCmd) rows flags b nodes -> reaches b s ->
  J kind_of (gr_ b) nodes (begins b disk (fun x => inb x rows)) maker s.
Proof.
  intros T [_ R].
  exact (reach_J kind_of transient_ exclusion caret_o keep_going (gr_ b) root nodes (tb_prepared _ _ _ _ _ _ _ _ _ _ _ T) jobs Jpos
           _ (fresh_start b) maker (Mk b nodes T) (Rows b nodes T) s R).
Qed.
Lemma running_in b s nodes u : tbuilt kind_of links glinks inputs transient_ root (Some KCmd) rows flags b nodes -> reaches b s ->
  In u (running s) -> In u nodes.
Proof.
  intros T [_ R] Hu. pose proof (reach_Inv _ _ _ _ _ (tb_prepared _ _ _ _ _ _ _ _ _ _ _ T) _ Jpos _ _ R) as I.
  apply (i_sub _ _ _ _ _ _ I), run_live. exact Hu.
Qed.

(** While a command runs, its temporary input [f] is there: if it was there
    before, or its command is new, or its command waits for demand, nothing was
    left behind and nothing else makes it take part. *)
Theorem C59_inputs_there_partial b s u f : reaches b s -> In u (running s) -> temporary f -> In f (inputs u) ->
  disk f = true \/ In (maker f) rows \/ (waiting (maker f) /\ ~ due (maker f) /\ ~ In f rows) ->
  there (ws s) f = true.
Proof.
  intros Re Hu Hf Hi Hs. destruct (reaches_built b s Re) as [nodes [T R]].
  pose proof (running_in b s nodes u T Re Hu) as Hn.
  pose proof (mk_cmd _ _ _ _ _ _ MK f Hf) as [Kc _].
  assert (joins u) as Ju by (apply (tb_exact _ _ _ _ _ _ _ _ _ _ _ T); exact Hn).
  assert (joins f /\ (disk f = true \/ (In (maker f) nodes /\ skip b (maker f) = false))) as [Jf Hd].
  { destruct Hs as [D|[D|(W & N & Fr)]].
    - split; [|auto]. apply join_due, due_row. exact (Known f Hf D).
    - assert (due (maker f)) as Dc by (apply due_row; exact D).
      assert (In (maker f) nodes) as Hc by (apply (tb_exact _ _ _ _ _ _ _ _ _ _ _ T), join_due; exact Dc).
      split; [apply join_due; apply (due_next _ _ _ _ _ _ _ _ Dc (cmd_not_left _ Kc) (maker_next f Hf))|].
      right. split; [exact Hc|]. apply (tb_skip _ _ _ _ _ _ _ _ _ _ _ T _ Hc). auto.
    - assert (joins (maker f)) as Jc by (apply (join_cmd _ _ _ _ _ _ _ _ f u W (mk_link _ _ _ _ _ _ MK f Hf) Fr Ju Hi)).
      assert (In (maker f) nodes) as Hc by (apply (tb_exact _ _ _ _ _ _ _ _ _ _ _ T); exact Jc).
      split; [exact (join_out _ _ _ _ _ _ _ _ f W Jc (mk_link _ _ _ _ _ _ MK f Hf))|].
      right. split; [exact Hc|]. apply (tb_skip _ _ _ _ _ _ _ _ _ _ _ T _ Hc). auto. }
  assert (temp (gr_ b) nodes f) as Tf by (apply (temp_iff b nodes T); auto).
  pose proof (user_edge b nodes T u f Hn Hf Hi Jf) as D.
  apply (user_finds kind_of transient_ exclusion caret_o keep_going (gr_ b) root nodes (tb_prepared _ _ _ _ _ _ _ _ _ _ _ T) jobs Jpos
           _ (fresh_start b) maker (Mk b nodes T) (Rows b nodes T) s f u R Tf D Hu).
  destruct Hd as [Hd|[Hc Sk]]; [left; exact Hd|right].
  exact (maker_ran kind_of transient_ exclusion caret_o keep_going (gr_ b) root nodes (tb_prepared _ _ _ _ _ _ _ _ _ _ _ T) jobs Jpos
           _ (fresh_start b) maker (Mk b nodes T) (Rows b nodes T) s f u R Tf D Hu Hc Sk).
Qed.

(** Without ^o commands: if nothing was left behind and the command of [f]
    waits for demand, it does not matter what else makes it take part. *)
Theorem C59_inputs_there b s u f : (forall n, caret_o n = false) -> reaches b s -> In u (running s) -> temporary f -> In f (inputs u) ->
  disk f = true \/ (waiting (maker f) /\ ~ In f rows /\ (due (maker f) -> changed (maker f))) ->
  there (ws s) f = true.
Proof.
  intros No Re Hu Hf Hi Hs. destruct Hs as [Hs|(W & Fr & Ch)]; [apply (C59_inputs_there_partial b s u f Re Hu Hf Hi); auto|].
  destruct (reaches_built b s Re) as [nodes [T R]].
  pose proof (running_in b s nodes u T Re Hu) as Hn.
  pose proof (mk_cmd _ _ _ _ _ _ MK f Hf) as [Kc _].
  assert (joins u) as Ju by (apply (tb_exact _ _ _ _ _ _ _ _ _ _ _ T); exact Hn).
  assert (joins (maker f)) as Jc by (apply (join_cmd _ _ _ _ _ _ _ _ f u W (mk_link _ _ _ _ _ _ MK f Hf) Fr Ju Hi)).
  assert (In (maker f) nodes) as Hc by (apply (tb_exact _ _ _ _ _ _ _ _ _ _ _ T); exact Jc).
  destruct (tb_cmd _ _ _ _ _ _ _ _ _ _ _ T _ Hc Kc) as [Dc|[_ Nd]]; [|apply (C59_inputs_there_partial b s u f Re Hu Hf Hi); auto].
  assert (joins f) as Jf by exact (join_out _ _ _ _ _ _ _ _ f W Jc (mk_link _ _ _ _ _ _ MK f Hf)).
  assert (temp (gr_ b) nodes f) as Tf by (apply (temp_iff b nodes T); auto).
  pose proof (user_edge b nodes T u f Hn Hf Hi Jf) as D.
  pose proof (tb_prepared _ _ _ _ _ _ _ _ _ _ _ T) as PG.
  apply (user_finds kind_of transient_ exclusion caret_o keep_going (gr_ b) root nodes PG jobs Jpos
           _ (fresh_start b) maker (Mk b nodes T) (Rows b nodes T) s f u R Tf D Hu). right.
  pose proof (reach_Inv _ _ _ _ _ PG _ Jpos _ _ R) as I.
  apply (changed_ran kind_of transient_ exclusion caret_o keep_going (gr_ b) root nodes PG jobs Jpos
           _ (fresh_start b) maker (Mk b nodes T) (Rows b nodes T) No changed (chg_carry b nodes T) s _ R (Ch Dc) Kc).
  destruct (Mk b nodes T f Tf) as [_ [_ [_ [_ [_ [M5 _]]]]]].
  apply (ordered_started kind_of transient_ exclusion caret_o keep_going (gr_ b) root nodes jobs (begins b disk (fun x => inb x rows)) s f (maker f) I); [|exact (M5 Hc)|exact (not_root b nodes T _ Hc)].
  apply starts_pos.
  rewrite (user_running kind_of transient_ exclusion caret_o keep_going (gr_ b) root nodes PG jobs Jpos _ (fresh_start b) s f u R Tf D Hu). auto.
Qed.

(** Without ^o commands, after an update without errors everything that
    depends on a change was run. *)
Theorem C59_changes_run b s n : (forall n, caret_o n = false) -> reaches b s -> at_ s = Returned 0 -> changed n -> kind_of n = KCmd ->
  In n (ran (ws s)).
Proof.
  intros No Re A Cn Kn. destruct (reaches_built b s Re) as [nodes [T R]].
  pose proof (tb_prepared _ _ _ _ _ _ _ _ _ _ _ T) as PG.
  apply (changed_ran kind_of transient_ exclusion caret_o keep_going (gr_ b) root nodes PG jobs Jpos
           _ (fresh_start b) maker (Mk b nodes T) (Rows b nodes T) No changed (chg_carry b nodes T) s _ R Cn Kn).
  assert (In n nodes) as Hn by (apply (tb_exact _ _ _ _ _ _ _ _ _ _ _ T), join_due, (chg_due n Cn)).
  exact (proj1 (rc0_all _ _ _ _ _ PG _ Jpos _ s R A n Hn)).
Qed.

(** After an update without errors, all the temporary files that took part are
    gone, and so is the record of them. *)
Theorem C59_deleted_at_end b s f : reaches b s -> at_ s = Returned 0 -> temporary f -> joins f ->
  there (ws s) f = false /\ row (ws s) f = false.
Proof.
  intros Re A Hf Jf. destruct (reaches_built b s Re) as [nodes [T R]].
  apply (gone_at_end kind_of transient_ exclusion caret_o keep_going (gr_ b) root nodes (tb_prepared _ _ _ _ _ _ _ _ _ _ _ T) jobs Jpos
           _ (fresh_start b) maker (Mk b nodes T) (Rows b nodes T) s f R A). apply (temp_iff b nodes T). auto.
Qed.

(** At any point of an update, a temporary file that took part and is there is
    recorded, so that the next update deletes it, or its command failed. *)
Theorem C59_never_lost b s f : reaches b s -> temporary f -> joins f -> there (ws s) f = true ->
  row (ws s) f = true \/ In (Finish (maker f) false) (hist s).
Proof.
  intros Re Hf Jf Th. destruct (reaches_built b s Re) as [nodes [T R]].
  pose proof (reaches_J b s nodes T Re) as j.
  destruct (j_row _ _ _ _ _ _ j f (proj2 (temp_iff b nodes T f) (conj Hf Jf)) Th) as [H|H]; [auto|right].
  exact (j_broke _ _ _ _ _ _ j _ H).
Qed.

(** Nothing but temporary files is deleted, except what a failing command was
    to make. *)
Theorem C59_nothing_else_deleted b s x : reaches b s -> disk x = true -> ~ temporary x ->
  there (ws s) x = true \/ exists n, In (Finish n false) (hist s) /\ direct (gr_ b) n x.
Proof.
  intros Re D Nx. destruct (reaches_built b s Re) as [nodes [T R]].
  pose proof (reaches_J b s nodes T Re) as j.
  destruct (j_safe _ _ _ _ _ _ j x) as [H|[n [H1 H2]]]; [|exact D|auto|right].
  - intros C. apply (temp_iff b nodes T) in C. tauto.
  - exists n. split; [exact (j_broke _ _ _ _ _ _ j _ H1)|exact H2].
Qed.

(** A ^t command runs only if it depends on a change, or is new, or something
    that takes part has one of its missing outputs as input. *)
Theorem C59_only_on_demand b s c : reaches b s -> In (Start c) (hist s) -> waiting c ->
  due c \/ exists f u, In f (links c) /\ ~ In f rows /\ joins u /\ In f (inputs u).
Proof.
  intros Re St W. destruct (reaches_built b s Re) as [nodes [T R]].
  pose proof (started_in kind_of transient_ exclusion caret_o keep_going (gr_ b) root nodes (tb_prepared _ _ _ _ _ _ _ _ _ _ _ T) jobs Jpos
                _ s c R St) as Hn.
  apply (tb_exact _ _ _ _ _ _ _ _ _ _ _ T) in Hn.
  destruct Hn as [n H|c' f u Hc Hl Hr Hj Hi|c' f Hc Hj Hl]; [auto|right; exists f, u; auto|].
  exfalso. pose proof (pl_kind _ _ _ _ _ _ PL _ _ Hc Hl). destruct W as [_ [K _]]. congruence.
Qed.
End Props.
Print Assumptions C59_graph.
Print Assumptions C59_inputs_there_partial.
Print Assumptions C59_inputs_there.
Print Assumptions C59_changes_run.
Print Assumptions C59_deleted_at_end.
Print Assumptions C59_never_lost.
Print Assumptions C59_nothing_else_deleted.
Print Assumptions C59_only_on_demand.

(** The state [s] of an update of the database [d] with two jobs. *)
Definition runs (d : db) (rows flags disk : list id) (b : bgraph) (s : exec) : Prop :=
  reaches (kd d) (lk d) none (ip d) (us d) (tr d) no (co d) false 0 rows flags (fun x => inb x disk) 2 100 b s.
Definition good (d : db) (rows flags disk universe : list id) (maker : id -> id) : Prop :=
  store_ok (kd d) (lk d) none (ip d) rows flags (us d) 0 universe /\ makers (kd d) (lk d) none (tr d) no maker /\
  2 * length universe < 100 /\ (forall f, temporary (kd d) (tr d) f -> In f disk -> In f rows).
Lemma witness d same rows flags disk stop (p : exec -> bool) :
  peek (update d same rows flags disk stop) p false = true -> exists b s, runs d rows flags disk b s /\ p s = true.
Proof.
  unfold peek. destruct (update _ _ _ _ _ _) as [s|] eqn:U; [|discriminate]. intros H.
  destruct (update_reach _ _ _ _ _ _ _ U) as [b [G R]]. exists b, s. split; [exact (conj G R)|exact H].
Qed.
Definition list_eqb (a b : list id) : bool := if list_eq_dec Nat.eq_dec a b then true else false.
Lemma list_eqb_eq a b : list_eqb a b = true -> a = b.
Proof. unfold list_eqb. destruct (list_eq_dec Nat.eq_dec a b); [auto|discriminate]. Qed.
Definition returned0 (s : @exec files) : bool := match at_ s with Returned 0 => true | _ => false end.
Definition no_failure (s : @exec files) : bool := forallb (fun e => match e with Finish _ false => false | _ => true end) (hist s).
Lemma no_failure_ok s : no_failure s = true -> forall n, ~ In (Finish n false) (hist s).
Proof. intros H n C. unfold no_failure in H. rewrite forallb_forall in H. specialize (H _ C). discriminate. Qed.
Lemma returned0_ok s : returned0 s = true -> at_ s = Returned 0.
Proof. unfold returned0. destruct (at_ s) as [| |[]|]; try discriminate. reflexivity. Qed.
Ltac good :=
  split; [store|split; [makers|split; [cbn; repeat constructor|]]];
  let f := fresh "f" in let T := fresh "T" in let D := fresh "D" in
  intros f [_ T] D; each_in D; try discriminate T; cbn; auto.

(** Non-vacuity: in2.txt changed. The ^t command joins, the command that reads
    in2.txt and tmp finds tmp, and at the end tmp is gone. *)
Definition all1 : list id := [1; 2; 3; 4; 5; 6].
Example C59_case : good d1 [] [6; 2] [1; 5; 6] all1 (fun _ => 2) /\
  plain (kd d1) (lk d1) none (ip d1) (tr d1) [6; 2] /\ temporary (kd d1) (tr d1) 3 /\ waiting (kd d1) (tr d1) [6; 2] 2 /\
  (forall n, co d1 n = false) /\
  (exists b s, runs d1 [] [6; 2] [1; 5; 6] b s /\ In 4 (running s) /\ In 3 (ip d1 4) /\ there (ws s) 3 = true) /\
  (exists b s, runs d1 [] [6; 2] [1; 5; 6] b s /\ at_ s = Returned 0 /\ ran (ws s) = [4; 2] /\ there (ws s) 3 = false).
Proof.
  split; [good|]. split; [plain|]. split; [split; reflexivity|]. split; [split; [cbn; auto|split; reflexivity]|]. split; [reflexivity|]. split.
  - destruct (witness d1 [] [] [6; 2] [1; 5; 6] 4 (fun s => inb 4 (running s) && there (ws s) 3)) as (b & s & R & P); [vm_compute; reflexivity|].
    apply andb_true_iff in P. destruct P as [P1 P2]. apply inb_In in P1. exists b, s. split; [exact R|]. split; [exact P1|]. split; [cbn; auto|exact P2].
  - destruct (witness d1 [] [] [6; 2] [1; 5; 6] 99 (fun s => returned0 s && (list_eqb (ran (ws s)) [4; 2]) && negb (there (ws s) 3))) as (b & s & R & P);
      [vm_compute; reflexivity|].
    apply andb_true_iff in P. destruct P as [P P3]. apply andb_true_iff in P. destruct P as [P1 P2]. apply returned0_ok in P1. apply list_eqb_eq in P2.
    apply negb_true_iff in P3. exists b, s. auto.
Qed.

(** With in.txt changed, the ^t command and what follows depend on the change. *)
Example C59_changed_case : good d1 [] [1; 2] [1; 5; 6] all1 (fun _ => 2) /\ plain (kd d1) (lk d1) none (ip d1) (tr d1) [1; 2] /\
  changed (kd d1) (lk d1) none (tr d1) [] [1; 2] no 4 /\ due (kd d1) (lk d1) none (tr d1) [] [1; 2] 2.
Proof.
  assert (forall n, ~ leftover (kd d1) [] [1; 2] n) as NL by (intros n [[] _]).
  assert (~ waiting (kd d1) (tr d1) [1; 2] 1) as NW by (intros (_ & K & _); discriminate).
  split; [good|]. split; [plain|]. split.
  - apply (chg_next _ _ _ _ _ _ _ 3); [|apply NL|left; cbn; auto|discriminate].
    apply (chg_next _ _ _ _ _ _ _ 2); [|apply NL|left; cbn; auto|intros _; split; [discriminate|reflexivity]].
    apply (chg_next _ _ _ _ _ _ _ 1); [|apply NL|left; cbn; auto|discriminate].
    apply chg_flag; [cbn; auto|exact NW].
  - apply (due_next _ _ _ _ _ _ 1); [|apply NL|left; cbn; auto]. apply due_flag; [cbn; auto|exact NW].
Qed.

(** A ^t command that takes part because of a change before it, which a ^o
    command does not pass on, is skipped though its output is missing: the
    command that needs the output runs without it. *)
Theorem C59_inputs_there_refuted : exists d rows flags disk universe maker b s u f,
  good d rows flags disk universe maker /\ plain (kd d) (lk d) none (ip d) (tr d) flags /\ runs d rows flags disk b s /\
  In u (running s) /\ temporary (kd d) (tr d) f /\ In f (ip d u) /\ waiting (kd d) (tr d) flags (maker f) /\ ~ In f rows /\
  there (ws s) f = false /\ (forall n, ~ In (Finish n false) (hist s)).
Proof.
  exists d_caret_o, [], [1; 8; 4], [1; 3; 7; 8], [1; 2; 3; 4; 5; 6; 7; 8], (fun _ => 4).
  destruct (witness d_caret_o [3] [] [1; 8; 4] [1; 3; 7; 8] 6 (fun s => inb 6 (running s) && negb (there (ws s) 5) && no_failure s)) as (b & s & R & P);
    [vm_compute; reflexivity|].
  apply andb_true_iff in P. destruct P as [P P3]. apply andb_true_iff in P. destruct P as [P1 P2]. apply inb_In in P1. apply negb_true_iff in P2.
  exists b, s, 6, 5. split; [good|]. split; [plain|]. split; [exact R|]. split; [exact P1|]. split; [split; reflexivity|]. split; [cbn; auto|].
  split; [split; [cbn; auto|split; reflexivity]|]. split; [intros []|]. split; [exact P2|exact (no_failure_ok s P3)].
Qed.
(** Without the other change the update fails although no command does: the
    missing file cannot be deleted. *)
Theorem C59_missing_delete_refuted : exists d rows flags disk universe maker b s f,
  good d rows flags disk universe maker /\ plain (kd d) (lk d) none (ip d) (tr d) flags /\ runs d rows flags disk b s /\
  temporary (kd d) (tr d) f /\ In (Finish f false) (hist s) /\ broke (ws s) = [].
Proof.
  exists d_caret_o, [], [1; 4], [1; 3; 7; 8], [1; 2; 3; 4; 5; 6; 7; 8], (fun _ => 4).
  destruct (witness d_caret_o [3] [] [1; 4] [1; 3; 7; 8] 99
    (fun s => existsb (fun e => match e with Finish 5 false => true | _ => false end) (hist s) && match broke (ws s) with [] => true | _ => false end))
    as (b & s & R & P); [vm_compute; reflexivity|].
  apply andb_true_iff in P. destruct P as [P1 P2]. apply existsb_exists in P1. destruct P1 as [e [E1 E2]].
  exists b, s, 5. split; [good|]. split; [plain|]. split; [exact R|]. split; [split; reflexivity|]. split.
  - destruct e as [n|[|[|[|[|[|[|n]]]]]] [|]]; try discriminate E2. exact E1.
  - destruct (broke (ws s)); [reflexivity|discriminate].
Qed.

(** A leftover temporary file that was removed by hand is not made again. *)
Theorem C59_removed_refuted : exists d rows flags disk universe maker b s u f,
  good d rows flags disk universe maker /\ plain (kd d) (lk d) none (ip d) (tr d) flags /\ runs d rows flags disk b s /\
  In u (running s) /\ temporary (kd d) (tr d) f /\ In f (ip d u) /\ waiting (kd d) (tr d) flags (maker f) /\ (forall n, co d n = false) /\
  there (ws s) f = false /\ (forall n, ~ In (Finish n false) (hist s)).
Proof.
  exists d1, [3], [2; 6], [1; 5; 6], all1, (fun _ => 2).
  destruct (witness d1 [] [3] [2; 6] [1; 5; 6] 4 (fun s => inb 4 (running s) && negb (there (ws s) 3) && no_failure s)) as (b & s & R & P);
    [vm_compute; reflexivity|].
  apply andb_true_iff in P. destruct P as [P P3]. apply andb_true_iff in P. destruct P as [P1 P2]. apply inb_In in P1. apply negb_true_iff in P2.
  exists b, s, 4, 3. split; [good|]. split; [plain|]. split; [exact R|]. split; [exact P1|]. split; [split; reflexivity|]. split; [cbn; auto|].
  split; [split; [cbn; auto|split; reflexivity]|]. split; [reflexivity|]. split; [exact P2|exact (no_failure_ok s P3)].
Qed.

Definition level (n : id) : nat := match n with 1 | 6 => 1 | 2 => 2 | 3 | 7 => 3 | 4 | 8 => 4 | _ => 5 end.
Definition level_g (n : id) : nat := match n with 1 | 6 => 1 | 2 => 2 | 3 => 3 | 4 => 4 | 5 | 7 => 5 | 8 => 6 | _ => 7 end.
(** One output of a ^t command left behind, the other demanded: the graph
    cannot be built. *)
Theorem C59_torn_refuted : exists d rows flags disk universe maker,
  good d rows flags disk universe maker /\ plain (kd d) (lk d) none (ip d) (tr d) flags /\
  (forall n, ~ path (kd d) (lk d) none n n) /\ graph_of d rows flags = Internal.
Proof.
  exists d_torn, [3], [2; 6], [1; 3; 5; 6; 9], [1; 2; 3; 4; 5; 6; 7; 8; 9], (fun _ => 2).
  split; [good|]. split; [plain|]. split; [|vm_compute; reflexivity].
  assert (forall a b, path (kd d_torn) (lk d_torn) none a b -> level a < level b) as L.
  { intros a b H. induction H as [a b H|a b c _ IH H]; [|eapply Nat.lt_trans; [exact IH|]]; apply next_pairs in H; each_pair H; cbn; lia. }
  intros n H. apply L in H. lia.
Qed.

(** A ^t command with a group among its outputs. *)
Theorem C59_group_refuted : exists d rows flags disk universe maker,
  good d rows flags disk universe maker /\ (forall n, ~ path (kd d) (lk d) none n n) /\
  ~ (exists c, torn (kd d) (lk d) none (ip d) (tr d) rows flags c) /\ graph_of d rows flags = Internal.
Proof.
  exists d_group, [], [2; 6], [1; 5; 6; 9], [1; 2; 3; 4; 5; 6; 7; 8; 9], (fun _ => 2).
  split; [good|]. split; [|split; [|vm_compute; reflexivity]].
  - assert (forall a b, path (kd d_group) (lk d_group) none a b -> level_g a < level_g b) as L.
    { intros a b H. induction H as [a b H|a b c _ IH H]; [|eapply Nat.lt_trans; [exact IH|]]; apply next_pairs in H; each_pair H; cbn; lia. }
    intros n H. apply L in H. lia.
  - intros (c & _ & _ & _ & f & _ & [] & _).
Qed.

(** A temporary file that was made by hand. *)
Theorem C59_touched_refuted : exists d rows flags disk universe maker,
  good d rows flags disk universe maker /\ graph_of d rows flags = Internal /\
  exists f, temporary (kd d) (tr d) f /\ In f flags /\ ~ In f rows.
Proof.
  exists d1, [], [3; 2], [1; 5; 6], all1, (fun _ => 2). split; [good|]. split; [vm_compute; reflexivity|].
  exists 3. split; [split; reflexivity|]. split; [cbn; auto|intros []].
Qed.

(** A temporary file left behind by an update that was interrupted: its command
    runs again for a change, but of the commands that read the file only those
    that changed for another reason do. *)
Theorem C59_stale_refuted : exists d rows flags disk universe maker b s u f,
  good d rows flags disk universe maker /\ plain (kd d) (lk d) none (ip d) (tr d) flags /\ runs d rows flags disk b s /\
  (forall n, co d n = false) /\ at_ s = Returned 0 /\
  temporary (kd d) (tr d) f /\ In (maker f) (ran (ws s)) /\ In f (ip d u) /\ In u (lk d f) /\ ~ In (Start u) (hist s).
Proof.
  exists d_two, [3], [1; 8], [1; 3; 6; 7; 8], [1; 2; 3; 4; 5; 6; 7; 8], (fun _ => 2).
  destruct (witness d_two [] [3] [1; 8] [1; 3; 6; 7; 8] 99
    (fun s => returned0 s && inb 2 (ran (ws s)) && forallb (fun e => match e with Start 4 => false | _ => true end) (hist s)))
    as (b & s & R & P); [vm_compute; reflexivity|].
  apply andb_true_iff in P. destruct P as [P P3]. apply andb_true_iff in P. destruct P as [P1 P2]. apply inb_In in P2. apply returned0_ok in P1.
  exists b, s, 4, 3. split; [good|]. split; [plain|]. split; [exact R|]. split; [reflexivity|]. split; [exact P1|]. split; [split; reflexivity|].
  split; [exact P2|]. split; [cbn; auto|]. split; [cbn; auto|]. intros C. rewrite forallb_forall in P3. specialize (P3 _ C). discriminate.
Qed.
Print Assumptions C59_inputs_there_refuted.
Print Assumptions C59_missing_delete_refuted.
Print Assumptions C59_removed_refuted.
Print Assumptions C59_torn_refuted.
Print Assumptions C59_group_refuted.
Print Assumptions C59_touched_refuted.
Print Assumptions C59_stale_refuted.
