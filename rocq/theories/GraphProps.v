(** C05-C07: building and pruning the graph of an update. *)
From Verif Require Import Base ExecModel ExecSpec ExecProps ExecProofs3 GraphModel GraphSpec GraphProofs GraphProofs2 GraphExamples.

Section Props.
(** Any database whose links stay in a finite set of nodes. *)
Variable kind_of : id -> kind.
Variable links glinks inputs : id -> list id.
Variable transient_ exclusion : id -> bool.
Variable root : id.
Variable universe flags : list id.
Hypothesis DB : db_ok kind_of links glinks root universe flags.
Hypothesis KO : kinds_ok kind_of links glinks inputs root.

(** The update graph for the flagged nodes, with enough fuel. *)
Notation update fuel := (update_graph kind_of links glinks inputs transient_ root (Some KCmd) fuel flags).
Notation affected := (affected kind_of links glinks flags).
Notation next := (next kind_of links glinks).
Notation path := (path kind_of links glinks).

Lemma count_groups : forall a n, In n (glinks a) -> counts (Some KCmd) (kind_of n) = false.
Proof. intros a n H. rewrite (k_glinks _ _ _ _ _ KO a n H). reflexivity. Qed.
Lemma update_spec fuel : 2 * length universe < fuel ->
  match update fuel with
  | Done b => exists nodes, built kind_of links glinks inputs transient_ root (Some KCmd) flags b nodes
  | Circular => exists n, affected n /\ path n n
  | Internal | Timeout => False
  end.
Proof.
  exact (update_graph_spec kind_of links glinks inputs transient_ exclusion root (Some KCmd) flags universe DB count_groups
           (k_root _ _ _ _ _ KO) (k_inputs _ _ _ _ _ KO) fuel).
Qed.

(** The construction terminates, without internal errors: it gives a graph or
    reports a circular dependency. *)
Theorem C05_terminates fuel : 2 * length universe < fuel ->
  (exists b, update fuel = Done b) \/ update fuel = Circular.
Proof.
  intros H. pose proof (update_spec fuel H) as Q. destruct (update fuel) as [b| | |]; [left; exists b; reflexivity|auto|destruct Q|destruct Q].
Qed.

(** The graph has exactly the affected nodes, each once, next to the root ... *)
Theorem C05_exactly_affected fuel b : 2 * length universe < fuel -> update fuel = Done b ->
  exists nodes, node_list (gr_ b) = root :: nodes /\ plist (gr_ b) = [] /\ NoDup (root :: nodes) /\
    forall n, In n nodes <-> affected n.
Proof.
  intros H E. pose proof (update_spec fuel H) as Q. rewrite E in Q. destruct Q as [nodes B]. exists nodes.
  split; [exact (b_nodes _ _ _ _ _ _ _ _ _ _ B)|]. split; [exact (b_plist _ _ _ _ _ _ _ _ _ _ B)|].
  split; [exact (b_nodup _ _ _ _ _ _ _ _ _ _ B)|exact (b_exact _ _ _ _ _ _ _ _ _ _ B)].
Qed.

(** ... and exactly the stored links between them, the declared inputs of the
    commands among them, and an edge from the root to each flagged node. *)
Theorem C05_exactly_links fuel b : 2 * length universe < fuel -> update fuel = Done b -> forall x y,
  (direct (gr_ b) x y <->
    (x = root /\ In y flags) \/ (affected x /\ next x y) \/
    (affected x /\ affected y /\ kind_of y = KCmd /\ In x (inputs y))).
Proof.
  intros H E x y. pose proof (update_spec fuel H) as Q. rewrite E in Q. destruct Q as [nodes B].
  pose proof (b_edges _ _ _ _ _ _ _ _ _ _ B) as X. unfold direct. split.
  - intros [e [He [<- <-]]]. apply X in He. tauto.
  - intros [[-> H2]|[[H1 H2]|[H1 [H2 [H3 H4]]]]].
    + exists {| src := root; dst := y; normal := true |}. split; [apply X; cbn; auto|auto].
    + exists {| src := x; dst := y; normal := true |}. split; [apply X; cbn; auto|auto].
    + exists {| src := x; dst := y; normal := false |}. split; [apply X; cbn; auto 10|auto].
Qed.

(** A node is skippable unless it was flagged itself. *)
Theorem C05_flagged_not_skipped fuel b n : 2 * length universe < fuel -> update fuel = Done b ->
  affected n -> (skip b n = false <-> In n flags).
Proof.
  intros H E A. pose proof (update_spec fuel H) as Q. rewrite E in Q. destruct Q as [nodes B].
  rewrite (b_skip _ _ _ _ _ _ _ _ _ _ B n) by (apply (b_exact _ _ _ _ _ _ _ _ _ _ B); exact A).
  rewrite negb_false_iff. apply ExecProofs.inb_In.
Qed.

(** What is built is what the scheduler's theorems (C01-C04) need. *)
Theorem C05_ready_to_execute fuel b : 2 * length universe < fuel -> update fuel = Done b ->
  exists nodes, prepared (gr_ b) root nodes /\ forall n, In n nodes <-> affected n.
Proof.
  intros H E. pose proof (update_spec fuel H) as Q. rewrite E in Q. destruct Q as [nodes B]. exists nodes.
  split; [|exact (b_exact _ _ _ _ _ _ _ _ _ _ B)].
  exact (built_prepared kind_of links glinks inputs transient_ root (Some KCmd) flags universe DB
    (k_root _ _ _ _ _ KO) (k_inputs _ _ _ _ _ KO) (k_generated _ _ _ _ _ KO) b nodes B).
Qed.

(** A reported circular dependency is one. *)
Theorem C06_reported_is_real fuel : 2 * length universe < fuel -> update fuel = Circular ->
  exists n, affected n /\ path n n.
Proof. intros H E. pose proof (update_spec fuel H) as Q. rewrite E in Q. exact Q. Qed.

Lemma path_depends fuel b : 2 * length universe < fuel -> update fuel = Done b ->
  forall x y, affected x -> path x y -> depends (gr_ b) root x y.
Proof.
  intros H E x y A P.
  assert (forall z, affected z -> z <> root) as Nr.
  { intros z Az. exact (affected_not_root kind_of links glinks root flags universe DB z Az). }
  induction P as [x y Hn|x y z P IH Hn].
  - apply dep_direct; [|exact (Nr x A)]. apply (C05_exactly_links fuel b H E). auto.
  - assert (affected y) as Ay by exact (affected_path kind_of links glinks flags x y A P).
    apply dep_trans with y; [exact (IH A)| |exact (Nr y Ay)]. apply (C05_exactly_links fuel b H E). auto.
Qed.

(** With a cycle among the affected nodes, the update does not succeed: either
    the construction reports it or no execution of the graph succeeds. *)
Theorem C06_cycle_is_always_noticed {WS} (work : graph -> id -> WS -> WS -> bool -> Prop) keep_going jobs w fuel b n :
  2 * length universe < fuel -> affected n -> path n n ->
  update fuel = Done b -> 0 < jobs ->
  forall s, reachable work keep_going (gr_ b) jobs w s -> at_ s <> Returned 0.
Proof.
  intros H A P E J s R. destruct (C05_ready_to_execute fuel b H E) as [nodes [Pr X]].
  apply (C06_cycle_never_succeeds work keep_going (gr_ b) root nodes Pr jobs J w s n R).
  - apply X. exact A.
  - exact (path_depends fuel b H E n n A P).
Qed.

(** Pruning for targets: what is needed is kept, files are kept, everything
    else goes, and the edges between what is kept stay. *)
Theorem C07_keeps_exactly_what_is_needed fuel b modify targets : 2 * length universe < fuel -> update fuel = Done b ->
  exists b' modify' nodes', prune_graph kind_of exclusion root b modify targets = Some (b', modify') /\
    node_list (gr_ b') = root :: nodes' /\
    (forall n, In n nodes' <-> affected n /\ (needed kind_of exclusion (gr_ b) targets n \/ kind_of n = KFile)) /\
    (forall x y, In y nodes' -> x = root \/ In x nodes' -> (direct (gr_ b') x y <-> direct (gr_ b) x y)).
Proof.
  intros H E. pose proof (update_spec fuel H) as Q. rewrite E in Q. destruct Q as [nodes B].
  pose proof (built_prepared kind_of links glinks inputs transient_ root (Some KCmd) flags universe DB
    (k_root _ _ _ _ _ KO) (k_inputs _ _ _ _ _ KO) (k_generated _ _ _ _ _ KO) b nodes B) as Pr.
  destruct (prune_graph_spec kind_of exclusion root b nodes modify targets Pr) as [b' [m' [nodes' [E' [P' [K1 [K2 [K3 [K4 K5]]]]]]]]].
  - intros n Hn. rewrite (b_counted _ _ _ _ _ _ _ _ _ _ B n Hn). destruct (kind_of n); cbn; congruence.
  - intros e He Kd. apply (b_edges _ _ _ _ _ _ _ _ _ _ B) in He. destruct He as [[_ [He _]]|[[_ [_ He]]|[_ [_ [He _]]]]]; [exact He| |congruence].
    exfalso. exact (k_file _ _ _ _ _ KO _ _ He Kd).
  - exists b', m', nodes'. split; [exact E'|]. split; [exact (p_lists _ _ _ P')|]. split.
    + intros n. rewrite K1, (b_exact _ _ _ _ _ _ _ _ _ _ B). reflexivity.
    + intros x y Hy Hx. unfold direct. split; intros [e [He [<- <-]]]; exists e; split; auto; apply K2 in He || apply K2; tauto.
Qed.

(** Every command that goes stays flagged, nothing else is flagged, and a
    temporary file that such a command uses is not deleted. *)
Theorem C07_rest_stays_flagged fuel b modify targets : 2 * length universe < fuel -> update fuel = Done b ->
  exists b' modify', prune_graph kind_of exclusion root b modify targets = Some (b', modify') /\
    (forall n, In n modify' <->
       In n modify \/ (affected n /\ kind_of n = KCmd /\ ~ needed kind_of exclusion (gr_ b) targets n)) /\
    (forall t c, affected t -> needed kind_of exclusion (gr_ b) targets t -> direct (gr_ b) t c ->
       ~ needed kind_of exclusion (gr_ b) targets c -> trans (gr_ b') t = TNone).
Proof.
  intros H E. pose proof (update_spec fuel H) as Q. rewrite E in Q. destruct Q as [nodes B].
  pose proof (built_prepared kind_of links glinks inputs transient_ root (Some KCmd) flags universe DB
    (k_root _ _ _ _ _ KO) (k_inputs _ _ _ _ _ KO) (k_generated _ _ _ _ _ KO) b nodes B) as Pr.
  destruct (prune_graph_spec kind_of exclusion root b nodes modify targets Pr) as [b' [m' [nodes' [E' [P' [K1 [K2 [K3 [K4 K5]]]]]]]]].
  - intros n Hn. rewrite (b_counted _ _ _ _ _ _ _ _ _ _ B n Hn). destruct (kind_of n); cbn; congruence.
  - intros e He Kd. apply (b_edges _ _ _ _ _ _ _ _ _ _ B) in He. destruct He as [[_ [He _]]|[[_ [_ He]]|[_ [_ [He _]]]]]; [exact He| |congruence].
    exfalso. exact (k_file _ _ _ _ _ KO _ _ He Kd).
  - exists b', m'. split; [exact E'|]. split.
    + intros n. rewrite K3. pose proof (b_exact _ _ _ _ _ _ _ _ _ _ B n) as X. split.
      * intros [Hm|[H1 [H2 H3]]]; [auto|]. right. rewrite (b_counted _ _ _ _ _ _ _ _ _ _ B n H1) in H2.
        split; [apply X; exact H1|]. split; [|exact H3]. destruct (kind_of n); cbn in H2; congruence.
      * intros [Hm|[H1 [H2 H3]]]; [auto|]. right. apply X in H1. split; [exact H1|]. split; [|exact H3].
        rewrite (b_counted _ _ _ _ _ _ _ _ _ _ B n H1), H2. reflexivity.
    + intros t c At Nt [e [He [Es Ed]]] Nc. apply (K5 t).
      * apply K1. split; [apply (b_exact _ _ _ _ _ _ _ _ _ _ B); exact At|auto].
      * exists e. split; [exact He|]. split; [exact Es|]. rewrite Ed. exact Nc.
Qed.

(** The pruned graph is again what the scheduler needs. *)
Theorem C07_ready_to_execute fuel b modify targets b' modify' : 2 * length universe < fuel -> update fuel = Done b ->
  prune_graph kind_of exclusion root b modify targets = Some (b', modify') ->
  exists nodes', prepared (gr_ b') root nodes'.
Proof.
  intros H E E2. pose proof (update_spec fuel H) as Q. rewrite E in Q. destruct Q as [nodes B].
  pose proof (built_prepared kind_of links glinks inputs transient_ root (Some KCmd) flags universe DB
    (k_root _ _ _ _ _ KO) (k_inputs _ _ _ _ _ KO) (k_generated _ _ _ _ _ KO) b nodes B) as Pr.
  destruct (prune_graph_spec kind_of exclusion root b nodes modify targets Pr) as [b1 [m1 [nodes' [E' [P' _]]]]].
  - intros n Hn. rewrite (b_counted _ _ _ _ _ _ _ _ _ _ B n Hn). destruct (kind_of n); cbn; congruence.
  - intros e He Kd. apply (b_edges _ _ _ _ _ _ _ _ _ _ B) in He. destruct He as [[_ [He _]]|[[_ [_ He]]|[_ [_ [He _]]]]]; [exact He| |congruence].
    exfalso. exact (k_file _ _ _ _ _ KO _ _ He Kd).
  - rewrite E2 in E'. injection E' as <- <-. exists nodes'. exact P'.
Qed.
End Props.

(** Cycles between groups are searched by removing sources and sinks: nothing
    remains exactly if there is no cycle, and what is on a cycle remains. *)
Theorem C06_group_check_exact g : NoDup (node_list g) ->
  (forall e, In e (edges g) -> In (src e) (node_list g) /\ In (dst e) (node_list g)) ->
  exists g', trim_graph (length (node_list g)) g = Some g' /\
    (node_list g' = [] <-> ~ exists n, gpath g n n) /\ (forall n, gpath g n n -> In n (node_list g')).
Proof.
  intros N E. apply trim_exact. split; [exact N| |]; intros e He; apply E; exact He.
Qed.

(** Not every cycle is found while the graph is built. *)
Theorem C06_build_detects_refuted : exists kind_of links inputs universe flags fuel b n,
  db_ok kind_of links none 0 universe flags /\ kinds_ok kind_of links none inputs 0 /\
  2 * length universe < fuel /\
  affected kind_of links none flags n /\ path kind_of links none n n /\
  update_graph kind_of links none inputs no 0 (Some KCmd) fuel flags = Done b.
Proof.
  destruct c_undetected as [b E]. exists ckind, clinks, cinputs, [1; 2; 3; 4; 5], [1], 19, b, 2.
  destruct c_ok as [H1 [H2 H3]]. destruct c_path as [H4 H5].
  split; [exact H2|]. split; [exact H3|]. split; [cbn; lia|]. auto.
Qed.

Print Assumptions C05_terminates.
Print Assumptions C05_exactly_affected.
Print Assumptions C05_exactly_links.
Print Assumptions C05_flagged_not_skipped.
Print Assumptions C05_ready_to_execute.
Print Assumptions C06_reported_is_real.
Print Assumptions C06_cycle_is_always_noticed.
Print Assumptions C06_group_check_exact.
Print Assumptions C06_build_detects_refuted.
Print Assumptions C07_keeps_exactly_what_is_needed.
Print Assumptions C07_rest_stays_flagged.
Print Assumptions C07_ready_to_execute.

(** The hypotheses are met. *)
Example database_somewhere : db_ok xkind xlinks none 0 xuniverse [1; 7] /\
  kinds_ok xkind xlinks none xinputs 0 /\ 2 * length xuniverse < 19 /\
  xgraph = Done xb /\ node_list (gr_ xb) = [0; 9; 8; 7; 4; 6; 5; 3; 2; 1].
Proof.
  destruct x_ok as [H1 [H2 H3]]. destruct x_builds as [H4 [H5 _]].
  split; [exact H2|]. split; [exact H3|]. split; [cbn; lia|]. auto.
Qed.
Example pruned_somewhere : exists b, prune_graph xkind no 0 xb [1; 7] [6] = Some (b, [8; 1; 7]) /\
  node_list (gr_ b) = [0; 7; 4; 6; 5; 3; 2; 1].
Proof. exact x_prunes. Qed.
Example circular_somewhere : update_graph ckind clinks1 none cinputs no 0 (Some KCmd) 19 [1] = Circular.
Proof. exact c_detected. Qed.
Example group_cycle_somewhere : gpath tg 2 2 /\
  exists g', trim_graph 5 tg = Some g' /\ node_list g' = [2; 3].
Proof. split; [exact tg_cycle|]. eexists. vm_compute. split; reflexivity. Qed.
