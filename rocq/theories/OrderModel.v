(** The order in which the Tupfiles of a project are parsed: parse() and
    parse_dependent_tupfiles() of src/tup/parser.c, create_work() and
    process_create_nodes() of src/tup/updater.c.

    A Tupfile is a list of rules. A rule names directories whose files it
    matches, and from the names it finds there it computes the files it
    generates, each in some directory. Files and directories are numbers.

    Not modelled: what is inside a rule (RuleModel, RulesModel), so that a rule
    never fails here; variants; generated directories; explicit names as
    opposed to wildcards; two Tupfiles that generate the same file (C16);
    included files; source directories that disappear. *)
From Coq Require Import List Bool Arith.
Import ListNotations.

(** A rule: the directories its input patterns look into, and the files it
    generates given the names that are found in each of them
    (parser.c:2260-2300, eval of the inputs, then do_rule). *)
Record rule := Rule {
  r_uses : list nat;
  r_make : list (list nat) -> list (nat * nat) }.

(** What the user puts into a directory: ordinary files, and a Tupfile. *)
Record tupfile := Tupfile {
  t_sources : list nat;
  t_rules : list rule }.

(** All directories of the project. *)
Definition project := nat -> tupfile.

(** A generated file in the database: the directory whose Tupfile generates it
    (the srcid of the node), the directory it is in, and its name. *)
Definition gen := (nat * (nat * nat))%type.

Definition gen_eqb (a b : gen) : bool :=
  Nat.eqb (fst a) (fst b) && Nat.eqb (fst (snd a)) (fst (snd b)) && Nat.eqb (snd (snd a)) (snd (snd b)).

Definition has (g : gen) (l : list gen) : bool := existsb (gen_eqb g) l.

Definition mem (n : nat) (l : list nat) : bool := existsb (Nat.eqb n) l.

(** The database: the generated files; the links from a directory to the
    directories whose Tupfiles match files of it; the directories that are to
    be parsed; and the generated files that someone changed since the last
    update (those in the modify list). *)
Record db := Db {
  d_files : list gen;
  d_links : list (nat * nat);
  d_flags : list nat;
  d_touched : list gen }.

(** The state while Tupfiles are parsed. [p_graph] are the nodes that are
    still in the graph (find_node finds them); [p_parsing] and [p_used] are
    the flags n->parsing and n->already_used; [p_delete] is
    g->gen_delete_root; [p_log] lists the Tupfiles whose parsing began, the
    last one first. *)
Record pst := Pst {
  p_files : list gen;
  p_links : list (nat * nat);
  p_delete : list gen;
  p_graph : list nat;
  p_parsing : list nat;
  p_used : list nat;
  p_log : list nat }.

(** How a call ends. [Circular] is CIRCULAR_DEPENDENCY_ERROR; no error leaves
    anything behind, because the transaction is rolled back
    (updater.c:1614-1619). *)
Inductive result (A : Type) := Done (a : A) | Circular | NoFuel.
Arguments Done {A} a.
Arguments Circular {A}.
Arguments NoFuel {A}.

Definition rbind {A B} (r : result A) (f : A -> result B) : result B :=
  match r with Done a => f a | Circular => Circular | NoFuel => NoFuel end.

(** Names in increasing order, each once. The database hands out the names of
    a directory from an index on (dir, name), where a name occurs once
    (db.c:1387-1490); a file that is both a source and generated is one
    node. *)
Fixpoint insert (n : nat) (l : list nat) : list nat :=
  match l with
  | [] => [n]
  | m :: l' => if Nat.ltb n m then n :: l else if Nat.eqb n m then l else m :: insert n l'
  end.

Definition canon (l : list nat) : list nat := fold_right insert [] l.

(** db.c:1387-1490, tup_db_select_node_dir_glob, with build_name_list_cb
    (parser.c:2898-2930): the names that the Tupfile of [t] finds in [u]: the
    ordinary files, and the generated files that are not about to be deleted
    and were generated by [u]'s own Tupfile or by [t]'s. Which of them match
    the pattern is left to [r_make]. *)
Definition found (P : project) (t u : nat) (st : pst) : list nat :=
  canon (t_sources (P u) ++
         map (fun g => snd (snd g))
             (filter (fun g => Nat.eqb (fst (snd g)) u && negb (has g (p_delete st)) &&
                               (Nat.eqb (fst g) t || Nat.eqb (fst g) u))
                     (p_files st))).

(** do_rule (parser.c:3400-3680) for one output: the node is created if it is
    not there, and it is not to be deleted any more (parser.c:3658). *)
Definition emit (t : nat) (st : pst) (f : nat * nat) : pst :=
  let g := (t, f) in
  Pst (if has g (p_files st) then p_files st else g :: p_files st)
      (p_links st)
      (filter (fun x => negb (gen_eqb x g)) (p_delete st))
      (p_graph st) (p_parsing st) (p_used st) (p_log st).

(** n->already_used = 1 (parser.c:2614). *)
Definition set_used (u : nat) (st : pst) : pst :=
  Pst (p_files st) (p_links st) (p_delete st) (p_graph st) (p_parsing st) (u :: p_used st) (p_log st).

(** parser.c:2576-2636, parse_dependent_tupfiles. [pd] is parse(). The list
    [ins] is tf->input_root. *)
Fixpoint dependents (pd : nat -> pst -> result pst) (t : nat) (us ins : list nat) (st : pst)
  : result (list nat * pst) :=
  match us with
  | [] => Done (ins, st)
  | u :: us' =>
      if Nat.eqb u t then dependents pd t us' ins st
      else
        rbind (if mem u (p_graph st) && negb (mem u (p_used st))
               then pd u (set_used u st) else Done st)
              (fun st' => dependents pd t us' (u :: ins) st')
  end.

(** The rules of one Tupfile in turn: first the Tupfiles of all the
    directories that the inputs name (parser.c:2282), then the names are
    matched (get_name_list, parser.c:2638), then the outputs are made. *)
Fixpoint rules (pd : nat -> pst -> result pst) (P : project) (t : nat) (rs : list rule) (ins : list nat)
  (st : pst) : result (list nat * pst) :=
  match rs with
  | [] => Done (ins, st)
  | r :: rs' =>
      rbind (dependents pd t (r_uses r) ins st) (fun x =>
      let st1 := snd x in
      let outs := r_make r (map (fun u => found P t u st1) (r_uses r)) in
      rules pd P t rs' (fst x) (fold_left (emit t) outs st1))
  end.

(** parser.c:179 and :234-246: the flag is set, and what the Tupfile generated
    before is to be deleted unless a rule makes it again. split_roots
    (parser.c:501-519) leaves out the files that are in the modify list. *)
Definition begin (touched : list gen) (t : nat) (st : pst) : pst :=
  Pst (p_files st) (p_links st)
      (filter (fun g => Nat.eqb (fst g) t && negb (has g touched)) (p_files st) ++ p_delete st)
      (p_graph st) (t :: p_parsing st) (p_used st) (t :: p_log st).

(** db.c:6476-6500, tup_db_write_dir_inputs: the links to [t] become those
    from the directories in tf->input_root. *)
Definition write_inputs (t : nat) (ins : list nat) (st : pst) : pst :=
  Pst (p_files st)
      (map (fun u => (u, t)) ins ++ filter (fun l => negb (Nat.eqb (snd l) t)) (p_links st))
      (p_delete st) (p_graph st) (p_parsing st) (p_used st) (p_log st).

(** parser.c:158-393, parse. *)
Fixpoint parse (fuel : nat) (P : project) (touched : list gen) (t : nat) (st : pst) : result pst :=
  match fuel with
  | O => NoFuel
  | S fuel' =>
      if mem t (p_parsing st) then Circular
      else
        rbind (rules (parse fuel' P touched) P t (t_rules (P t)) [] (begin touched t st))
              (fun x => Done (write_inputs t (fst x) (snd x)))
  end.

(** updater.c:2084-2115, create_work, and the removal of the node from the
    graph afterwards (pop_node, updater.c:1812-1864). *)
Definition create_work (fuel : nat) (P : project) (touched : list gen) (t : nat) (st : pst) : result pst :=
  rbind (if mem t (p_used st) then Done st else parse fuel P touched t st) (fun st' =>
  Done (Pst (p_files st') (p_links st') (p_delete st')
            (filter (fun x => negb (Nat.eqb x t)) (p_graph st'))
            (p_parsing st') (p_used st') (p_log st'))).

(** updater.c:1867-2010, execute_graph with one job, for the nodes in the order
    in which they are popped. *)
Fixpoint pops (fuel : nat) (P : project) (touched : list gen) (order : list nat) (st : pst) : result pst :=
  match order with
  | [] => Done st
  | t :: order' => rbind (create_work fuel P touched t st) (pops fuel P touched order')
  end.

(** updater.c:1404-1497: the graph starts with the flagged directories and
    follows the recorded links (build_graph, GraphModel). *)
Inductive in_graph (d : db) : nat -> Prop :=
| ig_flag : forall t, In t (d_flags d) -> in_graph d t
| ig_link : forall u t, in_graph d u -> In (u, t) (d_links d) -> in_graph d t.

(** The orders in which execute_graph can pop the nodes: each node once, and a
    node only after the nodes that have a recorded link to it. When the links
    in the graph form a cycle there is no such order and the update fails
    (graph.c:288-301, updater.c:1986-1993). *)
Definition valid_order (d : db) (order : list nat) : Prop :=
  NoDup order /\ (forall t, In t order <-> in_graph d t) /\
  (forall a t b, order = a ++ t :: b -> forall u, In u b -> In (u, t) (d_links d) -> False) /\
  (forall t, In t order -> In (t, t) (d_links d) -> False).

(** The graph when the first node is popped. *)
Definition start (d : db) (order : list nat) : pst :=
  Pst (d_files d) (d_links d) [] order [] [] [].

(** updater.c:1384-1640, process_create_nodes, for one order of the nodes.
    The depth of nested calls is bounded by the number of nodes, which
    [OrderProofs] shows. *)
Definition run (P : project) (d : db) (order : list nat) : result pst :=
  pops (2 + length order) P (d_touched d) order (start d order).

(** delete_files (updater.c:1599) and the end of the update: all flags that
    were set are cleared (tup_db_unflag_create, updater.c:2108), and the
    commands whose outputs were changed have run again. A changed file that no
    rule makes any more stays (C56 says what becomes of it). *)
Definition finish (st : pst) : db :=
  Db (filter (fun g => negb (has g (p_delete st))) (p_files st)) (p_links st) [] [].

(** One update that succeeds. One that fails leaves the database as it was. *)
Inductive update (P : project) (d : db) : db -> Prop :=
| u_done : forall order st, valid_order d order -> run P d order = Done st -> update P d (finish st).

(** What the user does to a directory: any change to its files or to its
    Tupfile. The next scan flags the directory (C55). *)
Definition edit (P : project) (t : nat) (tf : tupfile) : project :=
  fun x => if Nat.eqb x t then tf else P x.

Definition flag (t : nat) (d : db) : db := Db (d_files d) (d_links d) (t :: d_flags d) (d_touched d).

Definition touch (g : gen) (d : db) : db := Db (d_files d) (d_links d) (d_flags d) (g :: d_touched d).

Definition empty_project : project := fun _ => Tupfile [] [].
Definition empty_db : db := Db [] [] [] [].

(** Histories of a project: edits, updates that succeed, and, if [tch], changes
    to generated files that did not come from tup. *)
Inductive reach (tch : bool) : project -> db -> Prop :=
| r_init : reach tch empty_project empty_db
| r_edit : forall P d t tf, reach tch P d -> reach tch (edit P t tf) (flag t d)
| r_touch : forall P d g, reach tch P d -> tch = true -> In g (d_files d) -> reach tch P (touch g d)
| r_update : forall P d d', reach tch P d -> update P d d' -> reach tch P d'.
