(** The graph of tup todo and what an update with temporary files starts. *)
From Verif Require Import Base ExecModel ExecSpec ExecProps ExecProofs ExecProofs2 ExecProofs3 GraphModel GraphSpec GraphProofs GraphProofs2 GraphProps
  TransModel TransSpec TodoModel TodoSpec TodoProofs TodoProofs2.
From Coq Require Import Permutation.

Section graph.
Variable kind_of : id -> kind.
Variable links glinks inputs : id -> list id.
Variable transient_ exclusion : id -> bool.
Variable root : id.
Variable universe flags : list id.
Hypothesis DB : db_ok kind_of links glinks root universe flags.
Hypothesis KO : kinds_ok kind_of links glinks inputs root.
Variable fuel : nat.
Hypothesis Fuel : 2 * length universe < fuel.
Notation update := (update_graph kind_of links glinks inputs transient_ root (Some KCmd) fuel flags).
Notation todo := (todo_graph kind_of links glinks inputs transient_ exclusion root fuel flags).
Notation affected := (affected kind_of links glinks flags).
Notation path := (path kind_of links glinks).

Record listed_graph (targets : option (list id)) (b0 b : bgraph) (m nodes : list id) : Prop := {
  lg_whole : update = Done b0;
  lg_prep : prepared (gr_ b) root nodes;
  lg_nodes : forall n, kind_of n = KCmd -> (In n nodes <-> affected n /\ wanted kind_of exclusion (gr_ b0) targets n);
  lg_trans : forall n, In n nodes -> kind_of n = KCmd -> trans (gr_ b) n = TNone;
  lg_edges : forall e, In e (edges (gr_ b)) -> In e (edges (gr_ b0));
  lg_dep : forall a c, affected a -> path a c -> In c nodes -> wanted kind_of exclusion (gr_ b0) targets c -> depends (gr_ b) root a c;
  lg_number : number b = length (filter (fun n => is_cmd (kind_of n)) nodes);
  lg_modify : forall n, In n m <-> affected n /\ kind_of n = KCmd /\ ~ wanted kind_of exclusion (gr_ b0) targets n;
}.

Lemma cmd_tnone b nodes : built kind_of links glinks inputs transient_ root (Some KCmd) flags b nodes -> forall n, In n nodes -> kind_of n = KCmd -> trans (gr_ b) n = TNone.
Proof. intros B n H K. rewrite (b_trans _ _ _ _ _ _ _ _ _ _ B n H), K. reflexivity. Qed.

Lemma todo_spec targets b m : todo targets = Done (b, m) -> exists b0 nodes, listed_graph targets b0 b m nodes.
Proof.
  unfold todo_graph. pose proof (update_spec kind_of links glinks inputs transient_ exclusion root universe flags DB KO fuel Fuel) as Q.
  destruct update as [b0| | |] eqn:E; try discriminate. cbn [then_]. destruct Q as [nodes B].
  pose proof (built_prepared kind_of links glinks inputs transient_ root (Some KCmd) flags universe DB
    (k_root _ _ _ _ _ KO) (k_inputs _ _ _ _ _ KO) (k_generated _ _ _ _ _ KO) b0 nodes B) as Pr.
  pose proof (number_update kind_of links glinks inputs transient_ root (k_glinks _ _ _ _ _ KO) fuel flags b0 nodes (k_root _ _ _ _ _ KO) B E) as N.
  destruct targets as [ts|].
  - destruct (prune_graph_spec kind_of exclusion root b0 nodes [] ts Pr) as [b' [m' [nodes' [E' [P' [K1 [K2 [K3 [K4 K5]]]]]]]]].
    { intros n Hn. rewrite (b_counted _ _ _ _ _ _ _ _ _ _ B n Hn). destruct (kind_of n); cbn; congruence. }
    { intros e He Kd. apply (b_edges _ _ _ _ _ _ _ _ _ _ B) in He. destruct He as [[_ [He _]]|[[_ [_ He]]|[_ [_ [He _]]]]]; [exact He| |congruence].
      exfalso. exact (k_file _ _ _ _ _ KO _ _ He Kd). }
    rewrite E'. cbn [of_option]. intros H. injection H as <- <-. exists b0, nodes'. split.
    + exact E.
    + exact P'.
    + intros n K. rewrite K1, (b_exact _ _ _ _ _ _ _ _ _ _ B n). cbn [wanted]. split; [intros [A [H|H]]; [auto|congruence]|intros [A H]; auto].
    + intros n I K. assert (trans (gr_ b0) n = TNone) as T by (apply (cmd_tnone b0 nodes B); [exact (proj1 (proj1 (K1 n) I))|exact K]).
      destruct (trans (gr_ b') n) eqn:X; [reflexivity| |].
      * destruct (K5 n I) as [H1 H2]. exfalso.
        assert (~ (exists e, In e (edges (gr_ b0)) /\ src e = n /\ ~ needed kind_of exclusion (gr_ b0) ts (dst e))) as Z by (intros Z; specialize (H2 Z); congruence).
        specialize (H1 Z). congruence.
      * exfalso. exact (p_trans _ _ _ P' n X).
    + intros e I. apply K2 in I. tauto.
    + intros a c A P I W. cbn [wanted] in W. pose proof (path_depends kind_of links glinks inputs transient_ exclusion root universe flags DB KO fuel b0 Fuel E a c A P) as D.
      clear P. assert (~ In root nodes) as Rn by (pose proof (p_nodup _ _ _ Pr) as X; inversion X; assumption).
      revert I W. induction D as [a c [e [He [Es Ed]]] Nr|a c c' D IH [e [He [Es Ed]]] Nr]; intros I W; subst.
      * assert (In (src e) nodes') as Is. { apply K1. split; [apply (b_exact _ _ _ _ _ _ _ _ _ _ B); exact A|left]. exact (need_upstream _ _ _ _ e He W). }
        apply dep_direct; [|exact Nr]. exists e. split; [apply K2; auto|auto].
      * assert (In (src e) nodes) as Is0. { pose proof (p_src _ _ _ Pr e He) as X. destruct X as [X|X]; [congruence|exact X]. }
        assert (needed kind_of exclusion (gr_ b0) ts (src e)) as Ws by exact (need_upstream _ _ _ _ e He W).
        assert (In (src e) nodes') as Is by (apply K1; auto).
        apply dep_trans with (src e); [exact (IH A Is Ws)| |exact Nr]. exists e. split; [apply K2; auto|auto].
    + unfold number. unfold prune_graph in E'. destruct (fold_left _ ts (Some [])) as [marked|]; [|discriminate E']. cbn [obind] in E'.
      assert (num_nodes b' = length (filter (fun n => is_cmd (kind_of n)) (node_list (gr_ b')))) as C.
      { apply (prune_count kind_of root marked (node_list (gr_ b0)) b0 [] b' m'); [|intros x Hx; exact Hx| | | |exact E'].
        - rewrite (p_lists _ _ _ Pr). exact (p_nodup _ _ _ Pr).
        - rewrite (p_lists _ _ _ Pr). exact (p_nodup _ _ _ Pr).
        - intros n I Nr. rewrite (p_lists _ _ _ Pr) in I. destruct I as [I|I]; [congruence|]. rewrite (b_counted _ _ _ _ _ _ _ _ _ _ B n I). reflexivity.
        - rewrite (p_lists _ _ _ Pr). cbn [filter]. rewrite (k_root _ _ _ _ _ KO). exact N. }
      rewrite C, (p_lists _ _ _ P'). cbn [filter]. rewrite (k_root _ _ _ _ _ KO). reflexivity.
    + intros n. rewrite K3. cbn [wanted]. pose proof (b_exact _ _ _ _ _ _ _ _ _ _ B n) as X. split.
      * intros [[]|[H1 [H2 H3]]]. rewrite (b_counted _ _ _ _ _ _ _ _ _ _ B n H1) in H2. split; [apply X; exact H1|]. split; [|exact H3]. destruct (kind_of n); cbn in H2; congruence.
      * intros [H1 [H2 H3]]. right. apply X in H1. split; [exact H1|]. split; [|exact H3]. rewrite (b_counted _ _ _ _ _ _ _ _ _ _ B n H1), H2. reflexivity.
  - intros H. injection H as <- <-. exists b0, nodes. split.
    + exact E.
    + exact Pr.
    + intros n K. rewrite (b_exact _ _ _ _ _ _ _ _ _ _ B n). cbn [wanted]. tauto.
    + exact (cmd_tnone b0 nodes B).
    + auto.
    + intros a c A P _ _. exact (path_depends kind_of links glinks inputs transient_ exclusion root universe flags DB KO fuel b0 Fuel E a c A P).
    + exact N.
    + intros n. cbn [wanted In]. tauto.
Qed.

Lemma todo_acyclic targets b0 b m nodes : listed_graph targets b0 b m nodes -> no_cycles kind_of links glinks inputs -> acyclic (gr_ b).
Proof.
  intros L [rank [R1 R2]]. exists (fun n => if n =? root then 0 else S (rank n)). intros e I. apply (lg_edges _ _ _ _ _ L) in I.
  assert (dst e <> root) as Nr.
  { destruct (C05_ready_to_execute kind_of links glinks inputs transient_ exclusion root universe flags DB KO fuel b0 Fuel (lg_whole _ _ _ _ _ L)) as [ns [P _]].
    intros X. pose proof (p_dst _ _ _ P e I) as Y. rewrite X in Y. pose proof (p_nodup _ _ _ P) as Z. inversion Z. contradiction. }
  rewrite (proj2 (Nat.eqb_neq _ _) Nr). destruct (Nat.eqb_spec (src e) root); [lia|].
  assert (direct (gr_ b0) (src e) (dst e)) as D by (exists e; auto).
  apply (C05_exactly_links kind_of links glinks inputs transient_ exclusion root universe flags DB KO fuel b0 Fuel (lg_whole _ _ _ _ _ L)) in D.
  destruct D as [[D _]|[[_ D]|[_ [_ [_ D]]]]]; [contradiction|specialize (R1 _ _ D); lia|specialize (R2 _ _ D); lia].
Qed.

Lemma same_length (l nodes : list id) : NoDup l -> NoDup nodes -> (forall n, In n l <-> In n nodes /\ kind_of n = KCmd) -> length (filter (fun n => is_cmd (kind_of n)) nodes) = length l.
Proof.
  intros N1 N2 H. apply Permutation_length. apply NoDup_Permutation; [apply NoDup_filter; exact N2|exact N1|]. intros n. rewrite filter_In, H.
  split; intros [A K]; (split; [exact A|]); [destruct (kind_of n); try discriminate K; reflexivity|rewrite K; reflexivity].
Qed.
End graph.

(** ** Against the update *)
Section cover.
Variable kind_of : id -> kind.
Variable links glinks inputs : id -> list id.
Variable transient_ : id -> bool.
Variable rows flags : list id.
Hypothesis Both : forall c, In c rows -> kind_of c = KCmd -> In c flags.
Notation affected := (affected kind_of links glinks flags).
Lemma due_affected n : due kind_of links glinks transient_ rows flags n -> affected n \/ leftover kind_of rows flags n.
Proof.
  intros H. induction H as [n F W|n R|a n D IH L X].
  - left. apply aff_flag. exact F.
  - destruct (in_dec Nat.eq_dec n flags) as [F|F]; [left; apply aff_flag; exact F|right]. split; [exact R|]. split; [|exact F]. intros K. exact (F (Both n R K)).
  - destruct IH as [IH|IH]; [|contradiction]. left. exact (aff_next _ _ _ _ _ _ IH X).
Qed.
Lemma joins_affected n : joins kind_of links glinks inputs transient_ rows flags n -> kind_of n = KCmd -> affected n.
Proof.
  intros H. destruct H as [n D|c f u W _ _ _ _|c f W J L]; intros K.
  - destruct (due_affected n D) as [H|[_ [H _]]]; [exact H|contradiction].
  - apply aff_flag. exact (proj1 W).
  - apply aff_next with c; [apply aff_flag; exact (proj1 W)|left; exact L].
Qed.
Lemma affected_due n : rows = [] -> (forall c, ~ waiting kind_of transient_ flags c) -> affected n -> due kind_of links glinks transient_ rows flags n.
Proof.
  intros R W A. induction A as [n F|a n A IH X]; [apply due_flag; [exact F|apply W]|]. apply due_next with a; [exact IH| |exact X]. intros [L _]. rewrite R in L. destruct L.
Qed.
End cover.
