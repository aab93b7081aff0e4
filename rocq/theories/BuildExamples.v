(** Concrete histories: a normal one, and one in which an output goes stale. *)
From Verif Require Import Base ExecModel ExecProofs BuildModel BuildSpec BuildProofs BuildProofs2 BuildProofs3.

Lemma reparse_refl {V} caret_o (w : world V) : rules_ok (rls w) ->
  (forall c x, In c (commands (rls w)) -> In x (links w c) -> ~ In x (commands (rls w))) -> reparse caret_o w w.
Proof.
  intros R L. constructor; auto.
  - intros x H1 H2. contradiction.
  - intros x c c' H1 H2 H3 H4. left. exact (ro_unique _ R c c' x H1 H2 H3 H4).
Qed.

(** Decidable versions, for concrete worlds with ids below a bound. *)
Fixpoint rooted {V} (w : world V) (seen todo : list id) : bool :=
  match todo with
  | [] => true
  | n :: t => (modify w n || existsb (fun a => inb n (succ w a)) seen) && rooted w (n :: seen) t
  end.
Lemma rooted_affected {V} (w : world V) todo : forall seen, (forall a, In a seen -> affected w a) ->
  rooted w seen todo = true -> forall n, In n todo -> affected w n.
Proof.
  induction todo as [|n t IH]; intros seen Hs H m M; [destruct M|]. cbn in H. apply andb_true_iff in H as [H1 H2].
  assert (A : affected w n).
  { apply orb_true_iff in H1 as [H1|H1]; [apply aff_flag, H1|]. apply existsb_exists in H1 as [a [A S]].
    eapply aff_link; [apply Hs, A|apply inb_In, S]. }
  destruct M as [<-|M]; [exact A|]. apply (IH (n :: seen)); auto. intros a [<-|X]; auto.
Qed.
Lemma graph_check {V} (w : world V) nodes bound :
  (forall n, modify w (bound + n) = false) ->
  forallb (fun n => negb (modify w n) || inb n nodes) (seq 0 bound) = true ->
  rooted w [] nodes = true ->
  forallb (fun a => forallb (fun b => inb b nodes) (succ w a)) nodes = true ->
  graph_of w nodes.
Proof.
  intros H1 H2 H3 H4 n. split; intros H.
  - eapply rooted_affected; eauto. intros a [].
  - induction H as [n M|a b A IH S].
    + destruct (Nat.lt_ge_cases n bound) as [L|L].
      * rewrite forallb_forall in H2. specialize (H2 n (proj2 (in_seq _ _ _) (conj (Nat.le_0_l n) L))). rewrite M in H2. apply inb_In, H2.
      * replace n with (bound + (n - bound)) in M by lia. rewrite H1 in M. discriminate.
    + rewrite forallb_forall in H4. specialize (H4 a IH). rewrite forallb_forall in H4. apply inb_In, H4, S.
Qed.
Definition ready_b {V} (w0 : world V) nodes (s : run V) n : bool :=
  inb n nodes && negb (inb n (done s)) && negb (inb n (failed s)) &&
  forallb (fun a => negb (inb n (succ w0 a)) || inb a (done s)) nodes.
Lemma ready_check {V} (w0 : world V) nodes s n : ready_b w0 nodes s n = true -> ready w0 nodes all_nodes s n.
Proof.
  unfold ready_b. rewrite !andb_true_iff, !negb_true_iff, !inb_nIn, inb_In, forallb_forall. intros [[[A B] C] D].
  repeat split; auto. intros a Ha _ S. specialize (D a Ha). apply orb_true_iff in D as [D|D]; [|apply inb_In, D].
  apply negb_true_iff, inb_nIn in D. contradiction.
Qed.

(** Command 1, with ^o, writes file 4 from file 3; command 2 copies file 4 to
    file 5. *)
Definition ex_rules : rules :=
  {| commands := [1; 2]; outs := fun c => if c =? 1 then [4] else if c =? 2 then [5] else [];
     decl := fun c => if c =? 1 then [3] else if c =? 2 then [4] else []; member := fun _ => [] |}.
Definition ex_behave (c : id) (v : id -> option nat) : result nat :=
  if c =? 1 then
    {| r_ok := match v 3 with Some 0 | Some 2 => true | _ => false end; r_reads := [3];
       r_out := fun x => match v 3 with Some 0 => Some 5 | _ => Some 7 end |}
  else {| r_ok := match v 4 with Some _ => true | None => false end; r_reads := [4]; r_out := fun x => v 4 |}.
Definition ex_caret (c : id) : bool := c =? 1.

Lemma ex_deterministic : deterministic ex_behave.
Proof.
  intros c v v' H. unfold ex_behave in *. destruct (c =? 1); cbn [r_reads] in H.
  - pose proof (H 3 (or_introl eq_refl)) as E. cbn [r_ok r_reads r_out]. rewrite E. auto.
  - pose proof (H 4 (or_introl eq_refl)) as E. cbn [r_ok r_reads r_out]. rewrite E. auto.
Qed.
Lemma ex_rules_ok : rules_ok ex_rules.
Proof.
  assert (C : forall c, In c [1; 2] -> c = 1 \/ c = 2) by (intros c [<-|[<-|[]]]; auto).
  constructor; cbn [ex_rules commands outs decl member].
  - intros c c' x H H'. destruct (C c H) as [->| ->], (C c' H') as [->| ->]; cbn; intros [<-|[]] [E|[]]; congruence.
  - intros c x H. destruct (C c H) as [->| ->]; cbn; intros [<-|[]]; lia.
  - intros c x H. destruct (C c H) as [->| ->]; cbn; intros [<-|[]]; lia.
  - intros x g [].
Qed.

Definition e0 : world nat := edit 3 (Some 0) (empty_world nat).
(** The Tupfile is parsed for the first time. *)
Definition p0 : world nat :=
  {| rls := ex_rules; fs := fs e0; clock := clock e0; modify := fun n => (n =? 1) || (n =? 2) || modify (scan e0) n;
     links := links (scan e0); mtime := mtime (scan e0) |}.
Definition ex_nodes : list id := [3; 1; 4; 2; 5].
Definition go_file (w0 : world nat) n (s : run nat) := finish_file w0 n s.
Definition go_cmd (w0 : world nat) n (s : run nat) :=
  finish_command w0 n (accept Nat.eqb ex_caret n (ex_behave n (hide (outs (rls w0) n) (content (cur s)))) s).
Definition full (w : world nat) := prune all_nodes ex_nodes w.
Definition s0 : run nat :=
  let w := full p0 in go_file w 5 (go_cmd w 2 (go_file w 4 (go_cmd w 1 (go_file w 3 (start w))))).
(** File 4 is deleted and file 3 changed so that command 1 fails. *)
Definition e1 : world nat := edit 4 None (edit 3 (Some 1) (cur s0)).
Definition p1 : world nat := scan e1.
Definition s1a : run nat := go_file (full p1) 3 (start (full p1)).
Definition junk : world nat :=
  let w := cur s1a in
  {| rls := rls w; fs := fun x => if x =? 4 then Some (7, clock w) else fs w x; clock := S (clock w);
     modify := modify w; links := links w; mtime := fun x => if x =? 4 then Some (clock w) else mtime w x |}.
Definition s1 : run nat := {| cur := junk; skip := skip s1a; done := done s1a; failed := [1] |}.
(** File 3 is changed so that command 1 succeeds and writes the same. *)
Definition e2 : world nat := edit 3 (Some 2) (cur s1).
Definition p2 : world nat := scan e2.
Definition s2 : run nat :=
  let w := full p2 in go_file w 5 (finish_command w 2 (go_file w 4 (go_cmd w 1 (go_file w 3 (start w))))).
(** Without the failed update in between. *)
Definition e1' : world nat := edit 3 (Some 2) (cur s0).
Definition p1' : world nat := scan e1'.
Definition s1' : run nat :=
  let w := full p1' in go_file w 5 (go_cmd w 2 (go_file w 4 (go_cmd w 1 (go_file w 3 (start w))))).

Lemma sel_all (w : world nat) nodes : selection w nodes all_nodes.
Proof. split; reflexivity. Qed.
Lemma see_all (s : run nat) nodes n : visible s nodes n (content (cur s)).
Proof. intros x. left. reflexivity. Qed.
Lemma acc (w : world nat) n r : (n = 1 /\ r_reads r = [3]) \/ (n = 2 /\ r_reads r = [4]) -> rls w = ex_rules ->
  r_ok r = true -> forallb (fun x => match r_out r x with Some _ => true | None => false end) (outs ex_rules n) = true -> acceptable w n r.
Proof.
  intros Hn E Ok Ou. unfold acceptable. rewrite E. split; [exact Ok|]. split; [|split].
  - intros x X. rewrite forallb_forall in Ou. specialize (Ou x X). destruct (r_out r x); congruence.
  - destruct Hn as [[-> ->]|[-> ->]]; intros x [<-|[]]; cbn; lia.
  - destruct Hn as [[-> ->]|[-> ->]]; intros x [<-|[]] _ _; eexists; (split; [left; reflexivity|auto]).
Qed.

Section Run.
Variable garbage : bool.
Notation US w := (usteps Nat.eqb ex_behave ex_caret garbage w ex_nodes all_nodes).
Lemma us_file w0 a s n : US w0 a s -> ready_b w0 ex_nodes s n = true -> is_command w0 n = false -> US w0 a (go_file w0 n s).
Proof. intros U R C. eapply us_step; [exact U|]. apply step_file; [apply ready_check, R|exact C]. Qed.
Lemma us_skip w0 a s n : US w0 a s -> ready_b w0 ex_nodes s n = true -> is_command w0 n = true -> skip s n = true -> US w0 a (finish_command w0 n s).
Proof. intros U R C S. eapply us_step; [exact U|]. apply step_skip; [apply ready_check, R|exact C|exact S]. Qed.
Lemma us_cmd w0 a s n : US w0 a s -> ready_b w0 ex_nodes s n = true -> is_command w0 n = true -> skip s n = false ->
  acceptable (cur s) n (ex_behave n (hide (outs (rls w0) n) (content (cur s)))) -> US w0 a (go_cmd w0 n s).
Proof.
  intros U R C S A. eapply us_step; [exact U|]. apply step_ok; [apply ready_check, R|exact C|exact S|apply see_all|exact A].
Qed.
Ltac cmd1 := apply us_cmd; [|reflexivity|reflexivity|reflexivity|apply acc; [left; split; reflexivity|reflexivity|reflexivity|reflexivity]].
Ltac cmd2 := apply us_cmd; [|reflexivity|reflexivity|reflexivity|apply acc; [right; split; reflexivity|reflexivity|reflexivity|reflexivity]].
Ltac file := apply us_file; [|reflexivity|reflexivity].

Lemma run0 : updating Nat.eqb ex_behave ex_caret garbage p0 ex_nodes all_nodes s0.
Proof.
  split; [|split; [apply sel_all|]].
  - apply (graph_check p0 ex_nodes 6); [|reflexivity|reflexivity|reflexivity]. intros n. vm_compute. reflexivity.
  - unfold s0. cbv zeta. file. cmd2. file. cmd1. file. apply us_refl.
Qed.
Lemma run1' : updating Nat.eqb ex_behave ex_caret garbage p1' ex_nodes all_nodes s1'.
Proof.
  split; [|split; [apply sel_all|]].
  - apply (graph_check p1' ex_nodes 6); [|reflexivity|reflexivity|reflexivity]. intros n. vm_compute. reflexivity.
  - unfold s1'. cbv zeta. file. cmd2. file. cmd1. file. apply us_refl.
Qed.
Lemma run1 : garbage = true -> updating Nat.eqb ex_behave ex_caret garbage p1 ex_nodes all_nodes s1.
Proof.
  intros G. split; [|split; [apply sel_all|]].
  - apply (graph_check p1 ex_nodes 6); [|reflexivity|reflexivity|reflexivity]. intros n. vm_compute. reflexivity.
  - eapply us_step; [|apply step_fail with (s := s1a) (n := 1) (w' := junk)].
    + unfold s1a. file. apply us_refl.
    + apply ready_check. reflexivity.
    + reflexivity.
    + reflexivity.
    + split; [reflexivity|split; [cbn; lia|split; [reflexivity|split; [reflexivity|split]]]].
      * intros x [<-|[]]. cbn. lia.
      * intros x. destruct (Nat.eq_dec x 4) as [->|N].
        -- right. split; [left; reflexivity|]. split; [right; reflexivity|]. right. right. split; [right; split; [exact G|reflexivity]|].
           eexists _, _. split; [reflexivity|]. cbn; lia.
        -- left. unfold junk. cbn [fs mtime]. apply Nat.eqb_neq in N as N'. rewrite N'. split; [|auto]. intros [E|[]]. congruence.
Qed.
Lemma run2 : updating Nat.eqb ex_behave ex_caret garbage p2 ex_nodes all_nodes s2.
Proof.
  split; [|split; [apply sel_all|]].
  - apply (graph_check p2 ex_nodes 6); [|reflexivity|reflexivity|reflexivity]. intros n. vm_compute. reflexivity.
  - unfold s2. cbv zeta. file. apply us_skip; [|reflexivity|reflexivity|reflexivity]. file. cmd1. file. apply us_refl.
Qed.

Lemma parse0 : reparse ex_caret (scan e0) p0.
Proof.
  constructor.
  - exact ex_rules_ok.
  - intros c x H L. destruct L.
  - reflexivity.
  - intros c [<-|[<-|[]]]; left; reflexivity.
  - intros n M. left. cbn [p0 modify]. rewrite M. apply orb_true_r.
  - intros x [c [[] _]].
  - intros x. right. split; reflexivity.
  - intros x g [].
  - intros x c c' [].
Qed.
Lemma parse_same (w : world nat) : rls w = ex_rules -> links w 1 = [3] -> links w 2 = [4] -> reparse ex_caret (scan w) (scan w).
Proof.
  intros E L1 L2. apply reparse_refl; cbn [scan rls links]; rewrite E; [exact ex_rules_ok|].
  intros c x [<-|[<-|[]]]; [rewrite L1|rewrite L2]; intros [<-|[]]; cbn; lia.
Qed.

Notation H := (history Nat.eqb ex_behave ex_caret garbage).
Lemma hist0 : H (cur s0).
Proof.
  eapply h_step; [eapply h_step; [apply h_init|]|].
  - exact (do_edit nat Nat.eqb ex_behave ex_caret garbage (empty_world nat) 3 (Some 0)).
  - eapply do_update; [exact parse0|exact run0].
Qed.
Lemma hist_edits (w : world nat) : H w -> forall x v, H (edit x v w).
Proof. intros Hw x v. eapply h_step; [exact Hw|apply do_edit]. Qed.
Lemma hist1' : H e1'.
Proof. apply hist_edits, hist0. Qed.
Lemma hist2 : garbage = true -> H e2.
Proof.
  intros G. apply hist_edits. eapply h_step; [|eapply do_update; [|exact (run1 G)]].
  - apply hist_edits, hist_edits, hist0.
  - apply parse_same; reflexivity.
Qed.
End Run.
