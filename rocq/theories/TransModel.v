(** Temporary files (outputs of ^t commands): which of their commands join an
    update (graph.c [build_graph_non_transient_cb], [build_graph_transient_cb],
    [attach_transient_nodes]) and what happens to the files while it runs
    (updater.c [update_work] with [update], [unlink_node] and
    [mark_transient_outputs]). The graph and the scheduler are those of
    GraphModel.v and ExecModel.v. *)
From Verif Require Import Base ExecModel GraphModel.

Section Build.
(** The database as in GraphModel.v. [users]: rows of sticky_link from a file
    (db.c:5650-5711 get_sticky_outputs). [rows]: transient_list. *)
Variable kind_of : id -> kind.
Variable links glinks inputs users : id -> list id.
Variable transient_ : id -> bool.
Variable root : id.
Variable count_flags : option kind.
Variable rows : list id.

Notation cb := (build_graph_cb kind_of transient_ root count_flags).
Notation mk := (make_edge kind_of root count_flags).

(** node_remove_list(&g->plist, n), node_insert_tail(&g->node_list, n). *)
Definition settle_list (b : bgraph) (n : id) : outcome bgraph :=
  then_ (of_option (obind (off_plist (gr_ b) n) (fun g => to_nodes_tail g n))) (fun g => Done (with_gr b g)).
(** ... and n->state = STATE_FINISHED. *)
Definition settle (b : bgraph) (n : id) : outcome bgraph :=
  then_ (settle_list b n) (fun b1 => Done (with_gr b1 (set_state (gr_ b1) n Finished))).

(** graph.c:338-361 build_graph_transient_cb; g->cur is the root. *)
Definition transient_cb (b : bgraph) (n : id) : outcome bgraph :=
  if is_cmd (kind_of n) then cb b root n
  else if found b n then Done b
  else then_ (mk (create_node kind_of transient_ b n) root n) (fun b1 => settle b1 n).

(** graph.c:363-376 build_graph_non_transient_cb: what goes into
    g->transient_root, and what goes into the graph. The tree is ordered by id;
    here it has the order of the list, which is arbitrary. *)
Definition held (n : id) : bool := is_cmd (kind_of n) && transient_ n.

(** graph.c:324-336 attach_transient_cb for the users of the file [f]. *)
Definition attach_users (b : bgraph) (f : id) : outcome bgraph :=
  each (fun b u => if found b u then mk b f u else Done b) b (users f).

(** graph.c:489-505: the outputs in turn, up to the first that is not in the
    transient list and has an edge. *)
Fixpoint attach_outputs (b : bgraph) (os : list id) : outcome (bgraph * bool) :=
  match os with
  | [] => Done (b, false)
  | f :: r =>
    then_ (attach_users b f) (fun b1 =>
    if negb (inb f rows) && negb (no_out (gr_ b1) f) then Done (b1, true) else attach_outputs b1 r)
  end.

Definition drop (b : bgraph) (n : id) : bgraph := with_gr b (drop_node (gr_ b) n).

(** graph.c:473-533: one command of transient_root. The result says whether it
    was kept. *)
Definition attach_one (b : bgraph) (c : id) : outcome (bgraph * bool) :=
  if found b c then Done (b, false)
  else
    then_ (each (fun b n => cb b c n) (create_node kind_of transient_ b c) (links c)) (fun b1 =>
    let os := map dst (out_edges (gr_ b1) c) in
    then_ (attach_outputs b1 os) (fun r =>
    let b2 := fst r in
    if snd r then
      then_ (each settle b2 os) (fun b3 =>
      then_ (mk b3 root c) (fun b4 =>
      then_ (settle_list b4 c) (fun b5 => Done (b5, true))))
    else
      Done (drop (fold_left drop (filter (fun f => negb (inb f rows)) os) b2) c, false))).

(** graph.c:468-535 attach_transient_nodes: what remains of transient_root, and
    whether something was kept. *)
Fixpoint attach_pass (b : bgraph) (troot : list id) : outcome (bgraph * list id * bool) :=
  match troot with
  | [] => Done (b, [], false)
  | c :: r =>
    then_ (attach_one b c) (fun p =>
    then_ (attach_pass (fst p) r) (fun q =>
    Done (fst (fst q), if snd p then snd (fst q) else c :: snd (fst q), snd p || snd q)))
  end.

(** graph.c:583-590: until nothing is kept. *)
Fixpoint attach_all (fuel : nat) (b : bgraph) (troot : list id) : outcome bgraph :=
  match fuel with
  | O => Timeout
  | S f =>
    then_ (attach_pass b troot) (fun p =>
    if snd p then attach_all f (fst (fst p)) (snd (fst p)) else Done (fst (fst p)))
  end.

(** graph.c:537-610 build_graph with updater.c:1643-1658: the graph of an update
    for the nodes [flags] of modify_list. *)
Definition tgraph (fuel : nat) (flags : list id) : outcome bgraph :=
  then_ (each (fun b n => cb b root n) (create_graph kind_of transient_ root)
           (filter (fun n => negb (held n)) flags)) (fun b1 =>
  then_ (each transient_cb b1 rows) (fun b2 =>
  then_ (build_loop kind_of links glinks transient_ root count_flags fuel b2) (fun b3 =>
  then_ (attach_all fuel b3 (filter held flags)) (fun b4 =>
  Done (add_graph_stickies kind_of inputs b4))))).
End Build.

(** The files, transient_list and the skip flags during an update. [ran] and
    [broke] record the commands that were executed and how they ended. *)
Record files := {
  there : id -> bool;
  row : id -> bool;
  skp : id -> bool;
  ran : list id;
  broke : list id;
}.

Section Work.
Variable kind_of : id -> kind.
Variable transient_ : id -> bool.
Variable exclusion : id -> bool.
(** The flag ^o. *)
Variable caret_o : id -> bool.

(** updater.c:2266-2273 skip_output. *)
Definition real (x : id) : bool := negb (is_group (kind_of x)) && negb (exclusion x).
Definition targets (g : graph) (n : id) : list id := map dst (out_edges g n).
Definition is_tdel (t : transient) : bool := match t with TDelete => true | _ => false end.
(** updater.c:2544 and 2288: what the command makes; its edges to temporary
    inputs that wait to be deleted are not outputs. *)
Definition outputs (g : graph) (n : id) : list id :=
  filter (fun x => real x && negb (is_tdel (trans g x))) (targets g n).
(** updater.c:2588 does not look at the second condition. *)
Definition marked (g : graph) (n : id) : list id := filter real (targets g n).

(** updater.c:2114-2129 modify_outputs, the skip flags. *)
Definition clear_skips (g : graph) (n : id) (sk : id -> bool) : id -> bool :=
  fun d => sk d && negb (existsb (fun e => normal e && (dst e =? d)) (out_edges g n)).
(** updater.c:2163-2172. *)
Definition done_skips (g : graph) (n : id) (sk : id -> bool) : id -> bool :=
  fold_left (fun (sk : id -> bool) o => if sk o then sk else clear_skips g o sk) (targets g n) sk.
(** The outputs whose skip flag is cleared by running the command: all of them
    (updater.c:2540-2546 unlink_outputs), or with ^o those that differ
    (2505-2532 check_outputs) or all (2493-2503 unskip_outputs); which of these
    is arbitrary. *)
Definition run_skips (g : graph) (n : id) (same : id -> bool) (sk : id -> bool) : id -> bool :=
  fun x => sk x && negb (if caret_o n then inb x (targets g n) && negb (same x) else inb x (outputs g n)).
(** updater.c:2577-2594 mark_transient_outputs, for a ^t command (3055);
    2178-2180 tup_db_unflag_transient. *)
Definition done_rows (n : id) (os : list id) (r : id -> bool) : id -> bool :=
  if transient_ n then fun x => (inb x os || r x) && negb (x =? n) else r.
Definition skip_rows (n : id) (r : id -> bool) : id -> bool :=
  if transient_ n then upd r n false else r.

(** updater.c:2131-2218 update_work. A command changes no files but its outputs
    (C15); if it succeeds they are there (C11); if it fails, any of them may be.
    Reasons for unlinkat to fail other than a missing file are left out. *)
Inductive work (g : graph) (n : id) (w : files) : files -> bool -> Prop :=
| W_skip : kind_of n = KCmd -> skp w n = true ->
    work g n w {| there := there w; row := skip_rows n (row w); skp := done_skips g n (skp w);
                  ran := ran w; broke := broke w |} true
| W_ran (same : id -> bool) : kind_of n = KCmd -> skp w n = false ->
    work g n w {| there := fun x => inb x (outputs g n) || there w x;
                  row := done_rows n (marked g n) (row w);
                  skp := done_skips g n (run_skips g n same (skp w));
                  ran := n :: ran w; broke := broke w |} true
| W_broke (same left : id -> bool) : kind_of n = KCmd -> skp w n = false ->
    work g n w {| there := fun x => if inb x (outputs g n) then left x else there w x;
                  row := row w; skp := run_skips g n same (skp w);
                  ran := ran w; broke := n :: broke w |} false
| W_file : kind_of n <> KCmd -> trans g n <> TDelete ->
    work g n w {| there := there w; row := row w;
                  skp := if skp w n then skp w else clear_skips g n (skp w);
                  ran := ran w; broke := broke w |} true
(* updater.c:1790-1809 unlink_node *)
| W_unlink : kind_of n <> KCmd -> trans g n = TDelete -> there w n = true ->
    work g n w {| there := upd (there w) n false; row := upd (row w) n false;
                  skp := if skp w n then skp w else clear_skips g n (skp w);
                  ran := ran w; broke := broke w |} true
| W_missing : kind_of n <> KCmd -> trans g n = TDelete -> there w n = false ->
    work g n w {| there := there w; row := row w;
                  skp := if skp w n then skp w else clear_skips g n (skp w);
                  ran := ran w; broke := broke w |} false.

(** The state when the graph has been built: nothing was executed. *)
Definition begins (b : bgraph) (disk rows : id -> bool) : files :=
  {| there := disk; row := rows; skp := GraphModel.skip b; ran := []; broke := [] |}.
End Work.
