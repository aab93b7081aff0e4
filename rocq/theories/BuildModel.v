(** The database and the file system over a history of edits, updates and
    crashes (updater.c, path.c, create_name_file.c). The order in which nodes are
    processed is that of C01, C02 and C05; the checks of a finished command are
    those of C11-C13. *)
From Verif Require Import Base ExecModel GraphModel.

Section Build.
(** What compare_paths() compares: the contents and mode of a file. *)
Variable V : Type.
Variable V_eqb : V -> V -> bool.

(** What the parsed Tupfiles say: the commands, the outputs and declared inputs
    of each (sticky_link, including groups), and the groups of each output. *)
Record rules := { commands : list id; outs : id -> list id; decl : id -> list id; member : id -> list id }.

(** How a command ends when it sees the given file contents: its success, the
    files that it read and what it left in its outputs. *)
Record result := { r_ok : bool; r_reads : list id; r_out : id -> option V }.
Variable behave : id -> (id -> option V) -> result.

(** The flag ^o (updater.c:2952); a property of the command. *)
Variable caret_o : id -> bool.

(** The files with their modification times, and the parts of the database:
    modify_list, normal_link to commands, and the recorded times. Times come from
    a clock that advances whenever a file is written. *)
Record world := {
  rls : rules;
  fs : id -> option (V * nat);
  clock : nat;
  modify : id -> bool;
  links : id -> list id;
  mtime : id -> option nat
}.
Definition content (w : world) (x : id) : option V := option_map fst (fs w x).
Definition stamp (w : world) (x : id) : option nat := option_map snd (fs w x).
Definition ot_eqb (a b : option nat) : bool :=
  match a, b with None, None => true | Some x, Some y => x =? y | _, _ => false end.

Definition is_command (w : world) (n : id) : bool := inb n (commands (rls w)).
(** TUP_NODE_GENERATED: some command has it as output. *)
Definition generated (w : world) (x : id) : bool := existsb (fun c => inb x (outs (rls w) c)) (commands (rls w)).
Definition exists_now (w : world) (x : id) : bool := match fs w x with Some _ => true | None => false end.

(** path.c:42-136 watch_path_internal with tup_file_mod_mtime
    (create_name_file.c:118-212) for files that are there, and tup_file_missing /
    tup_del_id_type (319-499) for those that are not. *)
(** The file is there with another time (168, 176-197). *)
Definition touched (w : world) (x : id) : bool := exists_now w x && negb (ot_eqb (stamp w x) (mtime w x)).
(** The file is gone and the database has it (path.c:119-130). *)
Definition gone (w : world) (x : id) : bool :=
  negb (exists_now w x) && (generated w x || match mtime w x with Some _ => true | None => false end).
Definition scan (w : world) : world :=
  {| rls := rls w; fs := fs w; clock := clock w; links := links w;
     modify := fun n =>
       (* create_name_file.c:187 and 746; 444: a missing generated file is
          unflagged, and a deleted node has no flags *)
       (modify w n && negb (negb (is_command w n) && gone w n)) ||
       touched w n ||
       (is_command w n &&
         (* 179 and 440: tup_db_modify_cmds_by_output *)
         (existsb (fun x => touched w x || gone w x) (outs (rls w) n) ||
         (* 486: tup_db_modify_cmds_by_input for a normal file that is gone *)
          existsb (fun x => negb (generated w x) && gone w x) (links w n)));
     mtime := fun x =>
       if touched w x then stamp w x                        (* 193-195 *)
       else if gone w x && negb (generated w x) then None   (* 492: delete_name_file *)
       else mtime w x |}.

(** The links in the database (normal_link and sticky_link): a command to its
    outputs, a file to the commands that use it and to its groups, a group to
    the commands that use it. *)
Definition succ (w : world) (n : id) : list id :=
  if is_command w n then outs (rls w) n
  else filter (fun c => inb n (links w c) || inb n (decl (rls w) c)) (commands (rls w)) ++ member (rls w) n.
(** Those with TUP_LINK_NORMAL. *)
Definition normal_succ (w : world) (n : id) : list id :=
  if is_command w n then outs (rls w) n
  else filter (fun c => inb n (links w c)) (commands (rls w)) ++ member (rls w) n.

(** Nodes that an update has to look at (C05). *)
Inductive affected (w : world) : id -> Prop :=
| aff_flag n : modify w n = true -> affected w n
| aff_link a b : affected w a -> In b (succ w a) -> affected w b.
Inductive leads (w : world) : id -> id -> Prop :=
| leads_step a b : In b (succ w a) -> leads w a b
| leads_trans a b c : leads w a b -> In c (succ w b) -> leads w a c.

(** graph.c:772-812 prune_node: commands that a partial update leaves out are
    flagged. *)
Definition prune (keep : id -> bool) (nodes : list id) (w : world) : world :=
  {| rls := rls w; fs := fs w; clock := clock w; links := links w; mtime := mtime w;
     modify := fun n => modify w n || (is_command w n && inb n nodes && negb (keep n)) |}.

(** An update: the current state, the skip flags of the nodes, the nodes that
    were processed and the commands that failed. *)
Record run := { cur : world; skip : id -> bool; done : list id; failed : list id }.

(** graph.c:69,317: flagged nodes have skip = 0, all others 1. *)
Definition start (w : world) : run := {| cur := w; skip := fun n => negb (modify w n); done := []; failed := [] |}.

(** updater.c:2114-2129 modify_outputs, on the links at the time when the graph
    was built ([w0]). *)
Definition modify_outputs (w0 : world) (n : id) (ms : (id -> bool) * (id -> bool)) : (id -> bool) * (id -> bool) :=
  (fun d => fst ms d || (inb d (normal_succ w0 n) && is_command w0 d),
   fun d => snd ms d && negb (inb d (normal_succ w0 n))).
Definition upd {A} (f : id -> A) (x : id) (v : A) : id -> A := fun y => if y =? x then v else f y.

Definition set_modify (w : world) (m : id -> bool) : world :=
  {| rls := rls w; fs := fs w; clock := clock w; links := links w; mtime := mtime w; modify := m |}.

(** updater.c:2183-2193: a node that is not a command. Transient files and
    unused environment variables are not modelled. *)
Definition finish_file (w0 : world) (n : id) (s : run) : run :=
  let ms := (modify (cur s), skip s) in
  let ms' := if skip s n then ms else modify_outputs w0 n ms in
  {| cur := set_modify (cur s) (upd (fst ms') n false); skip := snd ms'; done := n :: done s; failed := failed s |}.

(** updater.c:2163-2177: a command that was skipped or succeeded. *)
Definition finish_command (w0 : world) (n : id) (s : run) : run :=
  let ms' := fold_left (fun (ms : (id -> bool) * (id -> bool)) o => if snd ms o then ms else modify_outputs w0 o ms) (outs (rls w0) n) (modify (cur s), skip s) in
  {| cur := set_modify (cur s) (upd (fst ms') n false); skip := snd ms'; done := n :: done s; failed := failed s |}.

(** What a command can see: its old outputs are out of the way
    (updater.c:2985-2991). *)
Definition hide (os : list id) (v : id -> option V) : id -> option V := fun x => if inb x os then None else v x.
Definition oV_eqb (a b : option V) : bool :=
  match a, b with Some x, Some y => V_eqb x y | _, _ => false end.

(** updater.c:2596-2733 process_output for a command that succeeded and was
    accepted: its outputs are in place with a new time, its links are what it
    read (C13), and the outputs that count as changed are not skipped:
    unlink_outputs (2546), unskip_outputs (2500), check_outputs (2531). *)
Definition important_removed (w : world) (n : id) (r : result) : bool :=
  existsb (fun x => negb (inb x (r_reads r) && negb (inb x (outs (rls w) n))) && generated w x) (links w n).
Definition accept (n : id) (r : result) (s : run) : run :=
  let w := cur s in
  let os := outs (rls w) n in
  {| cur := {| rls := rls w;
               fs := fun x => if inb x os then option_map (fun v => (v, clock w)) (r_out r x) else fs w x;
               clock := S (clock w);
               modify := modify w;
               links := upd (links w) n (filter (fun x => negb (inb x os)) (r_reads r));
               mtime := fun x => if inb x os then Some (clock w) else mtime w x |};
     skip := fun x => skip s x &&
               negb (inb x os && negb (caret_o n && negb (important_removed w n r) && oV_eqb (content w x) (r_out r x)));
     done := done s; failed := failed s |}.

(** The conditions under which the command is accepted: C11 and C12. A file that
    is derived must be ordered before the command through its declared inputs. *)
Definition derived (w : world) (x : id) : Prop :=
  (exists c, In c (commands (rls w)) /\ In x (outs (rls w) c)) \/ exists y, In x (member (rls w) y).
Definition acceptable (w : world) (n : id) (r : result) : Prop :=
  r_ok r = true /\
  (forall x, In x (outs (rls w) n) -> r_out r x <> None) /\
  (forall x, In x (r_reads r) -> ~ In x (commands (rls w))) /\
  (forall x, In x (r_reads r) -> ~ In x (outs (rls w) n) -> derived w x ->
     exists v, In v (decl (rls w) n) /\ (x = v \/ leads w x v)).

(** Commands run in parallel: what [n] sees is the current state, except that
    outputs of commands that have not finished yet may be anything. *)
Definition visible (s : run) (nodes : list id) (n : id) (view : id -> option V) : Prop :=
  forall x, view x = content (cur s) x \/
    exists c, c <> n /\ In c nodes /\ In c (commands (rls (cur s))) /\ ~ In c (done s) /\ In x (outs (rls (cur s)) c).

(** What a command that failed, was killed or was rejected leaves behind. Without
    ^o its outputs may be gone, have new contents or be untouched. With ^o they
    are put back (restore_outputs, updater.c:2329) or stay in .tup/tmp; if an
    output was not there before, and if [garbage] is true, it may have been
    created. The links may have changed. *)
Variable garbage : bool.
Definition left_behind (n : id) (w w' : world) : Prop :=
  rls w' = rls w /\ clock w <= clock w' /\ modify w' = modify w /\
  (forall c, c <> n -> links w' c = links w c) /\ (forall x, In x (links w' n) -> ~ In x (commands (rls w))) /\
  forall x, ~ In x (outs (rls w) n) /\ fs w' x = fs w x /\ mtime w' x = mtime w x \/
    In x (outs (rls w) n) /\ (mtime w' x = mtime w x \/ mtime w' x = stamp w' x) /\
    (fs w' x = fs w x \/ fs w' x = None \/
     ((caret_o n = false \/ (garbage = true /\ fs w x = None)) /\
      exists v t, fs w' x = Some (v, t) /\ clock w <= t < clock w')).

(** A node is ready if everything before it in the graph was processed (C01);
    what a partial update leaves out is no longer in the graph. *)
Definition ready (w0 : world) (nodes : list id) (keep : id -> bool) (s : run) (n : id) : Prop :=
  In n nodes /\ keep n = true /\ ~ In n (done s) /\ ~ In n (failed s) /\
  forall a, In a nodes -> keep a = true -> In n (succ w0 a) -> In a (done s).

Inductive ustep (w0 : world) (nodes : list id) (keep : id -> bool) : run -> run -> Prop :=
| step_file s n : ready w0 nodes keep s n -> is_command w0 n = false -> ustep w0 nodes keep s (finish_file w0 n s)
| step_skip s n : ready w0 nodes keep s n -> is_command w0 n = true -> skip s n = true ->
    ustep w0 nodes keep s (finish_command w0 n s)
| step_ok s n view : ready w0 nodes keep s n -> is_command w0 n = true -> skip s n = false ->
    visible s nodes n view ->
    acceptable (cur s) n (behave n (hide (outs (rls w0) n) view)) ->
    ustep w0 nodes keep s (finish_command w0 n (accept n (behave n (hide (outs (rls w0) n) view)) s))
| step_fail s n w' : ready w0 nodes keep s n -> is_command w0 n = true -> skip s n = false ->
    left_behind n (cur s) w' ->
    ustep w0 nodes keep s {| cur := w'; skip := skip s; done := done s; failed := n :: failed s |}.
Inductive usteps (w0 : world) (nodes : list id) (keep : id -> bool) : run -> run -> Prop :=
| us_refl s : usteps w0 nodes keep s s
| us_step s1 s2 s3 : usteps w0 nodes keep s1 s2 -> ustep w0 nodes keep s2 s3 -> usteps w0 nodes keep s1 s3.

(** updater.c:1638-1692 process_update_nodes: the graph has the affected nodes
    (C05); a partial update keeps everything before a node that it keeps, and
    the outputs of a command that it keeps (C07). *)
Definition graph_of (w : world) (nodes : list id) : Prop := forall n, In n nodes <-> affected w n.
Definition selection (w : world) (nodes : list id) (keep : id -> bool) : Prop :=
  (forall a b, In a nodes -> In b (succ w a) -> keep b = true -> keep a = true) /\
  (forall c o, is_command w c = true -> keep c = true -> In o (outs (rls w) c) -> keep o = true).
Definition updating (w : world) (nodes : list id) (keep : id -> bool) (s : run) : Prop :=
  graph_of w nodes /\ selection w nodes keep /\
  usteps (prune keep nodes w) nodes keep (start (prune keep nodes w)) s.

(** The effect of parsing (phases 1 and 2 of an update) on what is modelled:
    a command that is new or has different outputs or inputs is flagged
    (db.c:5938, 5972, 6031, 6417), a file that is no longer an output is removed
    and its users are flagged (tup_del_id_type with force,
    create_name_file.c:486), flags and links of everything else stay. *)
Definition gen_of (r : rules) (x : id) : Prop := exists c, In c (commands r) /\ In x (outs r c).
Record rules_ok (r : rules) : Prop := {
  ro_unique : forall c c' x, In c (commands r) -> In c' (commands r) -> In x (outs r c) -> In x (outs r c') -> c = c';
  ro_files : forall c x, In c (commands r) -> In x (outs r c) -> ~ In x (commands r);
  ro_inputs : forall c x, In c (commands r) -> In x (decl r c) -> ~ In x (commands r);
  ro_groups : forall x g, In g (member r x) -> ~ In x (commands r) /\ ~ In g (commands r) /\ ~ gen_of r g
}.
Record reparse (w w' : world) : Prop := {
  rp_rules : rules_ok (rls w');
  rp_inputs : forall c x, In c (commands (rls w')) -> In x (links w' c) -> ~ In x (commands (rls w'));
  rp_clock : clock w' = clock w;
  rp_command : forall c, In c (commands (rls w')) -> modify w' c = true \/
    (In c (commands (rls w)) /\ outs (rls w') c = outs (rls w) c /\ decl (rls w') c = decl (rls w) c /\ links w' c = links w c);
  rp_flags : forall n, modify w n = true ->
    modify w' n = true \/
    (* the node was removed *)
    forall c, In c (commands (rls w')) -> c <> n /\ (In n (links w c) -> modify w' c = true);
  rp_removed : forall x, gen_of (rls w) x -> ~ gen_of (rls w') x ->
    fs w' x = None /\ mtime w' x = None /\ forall c, In c (commands (rls w')) -> In x (links w c) -> modify w' c = true;
  rp_kept : forall x, (gen_of (rls w) x /\ ~ gen_of (rls w') x) \/ (fs w' x = fs w x /\ mtime w' x = mtime w x);
  rp_group : forall x g, In g (member (rls w') x) ->
    In g (member (rls w) x) \/ exists c, In c (commands (rls w')) /\ In x (outs (rls w') c) /\ modify w' c = true;
  (* not covered: a flagged command without ^o is replaced by one with ^o *)
  rp_owner : forall x c c', In c (commands (rls w)) -> In c' (commands (rls w')) -> In x (outs (rls w) c) -> In x (outs (rls w') c') ->
    c = c' \/ caret_o c = true \/ caret_o c' = false \/ modify w c = false \/ fs w x = None
}.

(** What a process that dies leaves behind: the database is as it was at the
    last commit, and outputs may have been removed or written. *)
Definition crashed (w : world) (s : run) (w' : world) : Prop :=
  rls w' = rls w /\ modify w' = modify w /\ links w' = links w /\ mtime w' = mtime w /\ clock (cur s) <= clock w' /\
  forall x, fs w' x = fs (cur s) x \/
    (generated w x = true /\ (fs w' x = None \/ exists v t, fs w' x = Some (v, t) /\ clock (cur s) <= t < clock w')).

(** Histories. *)
Definition edit (x : id) (v : option V) (w : world) : world :=
  {| rls := rls w; fs := upd (fs w) x (option_map (fun v => (v, clock w)) v); clock := S (clock w);
     modify := modify w; links := links w; mtime := mtime w |}.
Inductive step : world -> world -> Prop :=
| do_edit w x v : step w (edit x v w)
| do_parse w w1 : reparse (scan w) w1 -> step w w1
| do_update w w1 nodes keep s : reparse (scan w) w1 -> updating w1 nodes keep s -> step w (cur s)
| do_crash w w1 nodes keep s w' : reparse (scan w) w1 -> updating w1 nodes keep s -> crashed w1 s w' -> step w w'.
Definition empty_world : world :=
  {| rls := {| commands := []; outs := fun _ => []; decl := fun _ => []; member := fun _ => [] |};
     fs := fun _ => None; clock := 0; modify := fun _ => false; links := fun _ => []; mtime := fun _ => None |}.
Inductive history : world -> Prop :=
| h_init : history empty_world
| h_step w w' : history w -> step w w' -> history w'.
End Build.

Arguments r_ok {V}. Arguments r_reads {V}. Arguments r_out {V}.
Arguments rls {V}. Arguments fs {V}. Arguments clock {V}. Arguments modify {V}. Arguments links {V}. Arguments mtime {V}.
Arguments content {V}. Arguments stamp {V}. Arguments is_command {V}. Arguments generated {V}. Arguments exists_now {V}.
Arguments touched {V}. Arguments gone {V}. Arguments scan {V}. Arguments succ {V}. Arguments normal_succ {V}.
Arguments affected {V}. Arguments leads {V}. Arguments prune {V}. Arguments cur {V}. Arguments skip {V}. Arguments done {V}.
Arguments failed {V}. Arguments start {V}. Arguments modify_outputs {V}. Arguments set_modify {V}. Arguments finish_file {V}.
Arguments finish_command {V}. Arguments hide {V}. Arguments oV_eqb {V}. Arguments important_removed {V}. Arguments accept {V}.
Arguments derived {V}. Arguments acceptable {V}. Arguments visible {V}. Arguments left_behind {V}. Arguments ready {V}.
Arguments ustep {V}. Arguments usteps {V}. Arguments graph_of {V}. Arguments selection {V}. Arguments updating {V}.
Arguments reparse {V}. Arguments crashed {V}. Arguments edit {V}. Arguments step {V}. Arguments history {V}.
