(** What the names in a Tupfile mean in a build inside the source tree and in a
    variant: nl_add_path(), build_name_list_cb(), make_name_list_unique(),
    execute_rule(), do_rule_outputs() and validate_output() of
    src/tup/parser.c, with tup_db_select_node_dir_glob() of src/tup/db.c.

    A directory of a variant and the source directory it mirrors (C64) have the
    same number here, so a file is a directory number and a name. A build has
    two tables of files: [s_here], the directories tup writes into (the source
    tree itself, or the variant), and [s_source], the source tree as a variant
    sees it, which is empty for a build in the source tree.

    Not modelled: the text of commands, groups, bins, exclusions, extra and
    order-only inputs, macros other than !tup_preserve, ghost directories, full
    dependencies (where a missing input becomes a ghost), generated
    directories, nested Tupfile parsing (C58), the save list (C56), two
    commands with the same text (C16). *)
From Verif Require Import Base.

(** A file: the directory it is in, and its name. *)
Definition loc := (nat * bytes)%type.

Definition loc_eqb (a b : loc) : bool := Nat.eqb (fst a) (fst b) && bytes_eqb (snd a) (snd b).

(** The types of nodes that matter here (db_types.h): an ordinary file, a
    generated file with its srcid (the directory whose Tupfile generates it),
    a ghost. *)
Inductive kind := KFile | KGen (owner : nat) | KGhost.

Definition table := list (loc * kind).

(** tup_db_select_tent_part (db.c): the node with this directory and name. *)
Fixpoint get (t : table) (l : loc) : option kind :=
  match t with
  | [] => None
  | (l', k) :: t' => if loc_eqb l l' then Some k else get t' l
  end.

Definition erase (t : table) (l : loc) : table := filter (fun e => negb (loc_eqb l (fst e))) t.

Definition put (t : table) (l : loc) (k : kind) : table := (l, k) :: erase t l.

(** The state of a build. [s_delete] is g->gen_delete_root. *)
Record state := State { s_here : table; s_source : table; s_delete : list loc }.

Definition memb (l : loc) (ls : list loc) : bool := existsb (loc_eqb l) ls.

(** An input of a command: whether it was found in the source tree of a
    variant, whether it is a generated file, and which file it is. *)
Record item := Item { i_source : bool; i_gen : bool; i_loc : loc }.

Definition item_eqb (a b : item) : bool :=
  Bool.eqb (i_source a) (i_source b) && Bool.eqb (i_gen a) (i_gen b) && loc_eqb (i_loc a) (i_loc b).

Definition is_live (k : kind) : bool := match k with KGhost => false | _ => true end.

Definition is_gen (k : kind) : bool := match k with KGen _ => true | _ => false end.

(** parser.c:2906-2915, build_name_list_cb: a file generated from another
    directory's Tupfile cannot be an input, unless that is the Tupfile of the
    directory it is in. *)
Definition usable (own : nat) (l : loc) (k : kind) : bool :=
  match k with KGen o => Nat.eqb o own || Nat.eqb o (fst l) | _ => true end.

(** The order of names in the index of the node table (strings are compared
    as bytes). *)
Fixpoint bytes_leb (a b : bytes) : bool :=
  match a, b with
  | [], _ => true
  | _ :: _, [] => false
  | x :: a', y :: b' =>
      if x =?c y then bytes_leb a' b' else Nat.leb (nat_of_ascii x) (nat_of_ascii y)
  end.

Fixpoint insert (e : loc * kind) (t : table) : table :=
  match t with
  | [] => [e]
  | f :: t' => if bytes_leb (snd (fst e)) (snd (fst f)) then e :: t else f :: insert e t'
  end.

Definition sort (t : table) : table := fold_right insert [] t.

(** parser.c:2694: char_find(path, len, "*?["). *)
Definition is_glob (p : bytes) : bool :=
  existsb (fun c => (c =?c "*") || (c =?c "?") || (c =?c "["))%char p.

(** parser.c:3360-3364: the names reserved by tup. *)
Definition reserved (n : bytes) : bool :=
  existsb (bytes_eqb n)
    [B "Tupfile"; B "Tuprules.tup"; B "Tupfile.lua"; B "Tuprules.lua"; B "tup.config"].

(** A rule: its input patterns, each in a directory; whether it says foreach;
    whether its command is !tup_preserve; and the outputs it names, given its
    inputs (%f, %B and so on are expanded from them). *)
Record rule := Rule {
  r_pats : list loc;
  r_each : bool;
  r_preserve : bool;
  r_outs : list loc -> list loc }.

(** A command: the directory of its Tupfile, its inputs and its outputs. *)
Record cmd := Cmd { c_dir : nat; c_ins : list item; c_outs : list loc }.

Section Names.

(** sqlite's glob: [glob pattern name]. *)
Variable glob : bytes -> bytes -> bool.

(** Whether something still needs the node of a file that is gone: then it
    becomes a ghost, and otherwise it is removed (C17). *)
Variable needed : loc -> bool.

(** Whether this is a variant: !tf->variant->root_variant. *)
Variable variant : bool.

(** db.c:1387-1490, tup_db_select_node_dir_glob, with build_name_list_cb for a
    wildcard: the ordinary and generated files of the directory that match,
    by name; those in [del] (delete_root) and those generated from elsewhere
    are left out. *)
Definition glob_dir (own : nat) (src : bool) (t : table) (del : list loc) (d : nat) (p : bytes)
  : list item :=
  map (fun e => Item src (is_gen (snd e)) (fst e))
    (sort (filter (fun e => Nat.eqb (fst (fst e)) d && is_live (snd e) && glob p (snd (fst e)) &&
                            negb (memb (fst e) del) && usable own (fst e) (snd e)) t)).

(** parser.c:2684-2793, nl_add_path for a name without wildcards. [copy] is
    is_variant_copy. The node found in the build's own directories counts
    unless it is a ghost; otherwise the one in the source tree does. A node in
    gen_delete_root is replaced by the one in the source tree. *)
Definition explicit (own : nat) (copy : bool) (st : state) (l : loc) : option (list item) :=
  let here := if copy && variant then None else get (s_here st) l in
  let found :=
    match here with
    | Some KFile | Some (KGen _) => option_map (fun k => (false, k)) here
    | _ => if variant then option_map (fun k => (true, k)) (get (s_source st) l)
           else option_map (fun k => (false, k)) here
    end in
  match found with
  | None => None
  | Some (src, KGhost) => None
  | Some (src, k) =>
      let chosen :=
        if negb src && memb l (s_delete st) then
          match (if variant then get (s_source st) l else None) with
          | None | Some KGhost => None
          | Some k' => Some (true, k')
          end
        else Some (src, k) in
      match chosen with
      | None => None
      | Some (src', k') => if usable own l k' then Some [Item src' (is_gen k') l] else None
      end
  end.

(** parser.c:2674-2807, nl_add_path: a wildcard is matched in the build's own
    directory and then in the source directory (2794-2805). *)
Definition add_path (own : nat) (copy : bool) (st : state) (p : loc) : option (list item) :=
  if is_glob (snd p) then
    Some (glob_dir own false (s_here st) (s_delete st) (fst p) (snd p) ++
          (if variant then glob_dir own true (s_source st) [] (fst p) (snd p) else []))
  else explicit own copy st p.

(** parser.c:2638-2672, get_name_list: the patterns in turn. *)
Fixpoint name_list (own : nat) (copy : bool) (st : state) (ps : list loc) : option (list item) :=
  match ps with
  | [] => Some []
  | p :: ps' =>
      match add_path own copy st p, name_list own copy st ps' with
      | Some a, Some b => Some (a ++ b)
      | _, _ => None
      end
  end.

(** parser.c:2098-2122, make_name_list_unique: later duplicates go. *)
Fixpoint unique_from (seen : list item) (l : list item) : list item :=
  match l with
  | [] => []
  | i :: l' => if existsb (item_eqb i) seen then unique_from seen l'
               else i :: unique_from (i :: seen) l'
  end.

Definition unique (l : list item) : list item := unique_from [] l.

(** parser.c:3308-3400, one output in do_rule_outputs, with validate_output
    (3160-3204). In a variant the source tree is searched for the path as it
    is written, with its directory, so an output in another directory is never
    found there (3342); the path then gets the variant's prefix (3351), so
    that the test for reserved names (3360) only sees a bare name in the
    source tree, for an output in the Tupfile's own directory. A generated
    file may be taken over if its command is to be deleted or if the Tupfile
    that made it is still to be parsed, which this one is not (3179-3186);
    [waiting] are the Tupfiles still to come. The node is created (3393) and, once the command exists, is not
    to be deleted any more (3658). *)
Definition output (own : nat) (waiting : list nat) (copy : bool) (st : state) (l : loc)
  : option state :=
  let bare := Nat.eqb (fst l) own in
  let in_source :=
    variant && negb copy && bare &&
    match get (s_source st) l with None | Some KGhost => false | _ => true end in
  let bad_name := negb variant && bare && reserved (snd l) in
  let free :=
    match get (s_here st) l with
    | None | Some KGhost => true
    | Some KFile => false
    | Some (KGen o) => memb l (s_delete st) || (existsb (Nat.eqb o) waiting && negb (Nat.eqb o own))
    end in
  if negb in_source && negb bad_name && free
  then Some (State (put (s_here st) l (KGen own)) (s_source st)
                   (filter (fun x => negb (loc_eqb l x)) (s_delete st)))
  else None.

Fixpoint outputs (own : nat) (waiting : list nat) (copy : bool) (ls : list loc) (st : state)
  : option state :=
  match ls with
  | [] => Some st
  | l :: ls' =>
      match output own waiting copy st l with
      | Some st' => outputs own waiting copy ls' st'
      | None => None
      end
  end.

(** The outputs of a command. !tup_preserve has the output %b, in the
    directory of the Tupfile (parser.c:536). *)
Definition outs_of (own : nat) (r : rule) (ins : list item) : list loc :=
  if r_preserve r then map (fun i => (own, snd (i_loc i))) ins
  else r_outs r (map i_loc ins).

(** parser.c:3480-3690, do_rule. In the source tree !tup_preserve has an empty
    command and nothing happens (533, 3504-3512); in a variant it must have
    one input (3548-3553). *)
Definition do_rule (own : nat) (waiting : list nat) (r : rule) (ins : list item) (st : state)
  : option (state * list cmd) :=
  if r_preserve r && negb variant then Some (st, [])
  else if r_preserve r && negb (Nat.eqb (length ins) 1) then None
  else match outputs own waiting (r_preserve r) (outs_of own r ins) st with
       | Some st' => Some (st', [Cmd own ins (outs_of own r ins)])
       | None => None
       end.

(** parser.c:2172-2221: foreach. *)
Fixpoint each (own : nat) (waiting : list nat) (r : rule) (ins : list item) (st : state)
  : option (state * list cmd) :=
  match ins with
  | [] => Some (st, [])
  | i :: ins' =>
      match do_rule own waiting r [i] st with
      | Some (st', c) =>
          match each own waiting r ins' st' with
          | Some (st'', cs) => Some (st'', c ++ cs)
          | None => None
          end
      | None => None
      end
  end.

(** parser.c:1487-1560, parse_rule, and 2124-2272, execute_rule: a rule whose
    patterns match nothing makes no command (2223-2240). *)
Definition run_rule (own : nat) (waiting : list nat) (r : rule) (st : state)
  : option (state * list cmd) :=
  match name_list own (r_preserve r) st (r_pats r) with
  | None => None
  | Some l =>
      let ins := unique l in
      if r_each r then each own waiting r ins st
      else match r_pats r, ins with
           | _ :: _, [] => Some (st, [])
           | _, _ => do_rule own waiting r ins st
           end
  end.

Fixpoint run_rules (own : nat) (waiting : list nat) (rs : list rule) (st : state)
  : option (state * list cmd) :=
  match rs with
  | [] => Some (st, [])
  | r :: rs' =>
      match run_rule own waiting r st with
      | Some (st', c) =>
          match run_rules own waiting rs' st' with
          | Some (st'', cs) => Some (st'', c ++ cs)
          | None => None
          end
      | None => None
      end
  end.

(** parser.c:230-246, parse: the files that this Tupfile generated before are
    to be deleted, unless a rule makes them again. (The files in the modify
    list go to g->save_root instead, C56; they are not modelled.) *)
Definition generated_by (own : nat) (t : table) : list loc :=
  map fst (filter (fun e => match snd e with KGen o => Nat.eqb o own | _ => false end) t).

Definition begin (own : nat) (st : state) : state :=
  State (s_here st) (s_source st) (generated_by own (s_here st) ++ s_delete st).

(** Tupfiles in turn; [later] are the Tupfiles that are parsed after these. *)
Fixpoint parse_all (later : list nat) (tfs : list (nat * list rule)) (st : state)
  : option (state * list cmd) :=
  match tfs with
  | [] => Some (st, [])
  | (own, rs) :: tfs' =>
      match run_rules own (map fst tfs' ++ later) rs (begin own st) with
      | Some (st', c) =>
          match parse_all later tfs' st' with
          | Some (st'', cs) => Some (st'', c ++ cs)
          | None => None
          end
      | None => None
      end
  end.

(** A file is gone: its node becomes a ghost or is removed. *)
Definition gone (t : table) (l : loc) : table :=
  if needed l then put t l KGhost else erase t l.

(** updater.c:680-720, delete_files: what is left in gen_delete_root goes. *)
Definition finish (st : state) : state :=
  State (fold_left gone (s_delete st) (s_here st)) (s_source st) [].

(** What happens to a project: the user writes an ordinary file, or removes
    one, in the source tree; or an update parses some Tupfiles, in this order
    (C58). *)
Inductive event :=
  | Write (l : loc)
  | Remove (l : loc)
  | Update (tfs : list (nat * list rule)).

(** The table in which the source tree is: scan and monitor only add ordinary
    files, a file tup generated stays generated (C06). *)
Definition write (t : table) (l : loc) : table :=
  match get t l with Some (KGen _) => t | _ => put t l KFile end.

Definition remove (t : table) (l : loc) : table :=
  match get t l with Some KFile => gone t l | _ => t end.

Definition in_tree (f : table -> table) (st : state) : state :=
  if variant then State (s_here st) (f (s_source st)) (s_delete st)
  else State (f (s_here st)) (s_source st) (s_delete st).

(** updater.c:1540-1640, process_create_nodes: if a Tupfile fails everything
    is rolled back (1612-1617). The second part is what the update says: the
    commands, or nothing if it failed; [None] for the user's events. *)
Definition happen (e : event) (st : state) : state * option (option (list cmd)) :=
  match e with
  | Write l => (in_tree (fun t => write t l) st, None)
  | Remove l => (in_tree (fun t => remove t l) st, None)
  | Update tfs =>
      match parse_all [] tfs st with
      | Some (st', cs) => (finish st', Some (Some cs))
      | None => (st, Some None)
      end
  end.

Fixpoint history (h : list event) (st : state) : state * list (option (list cmd)) :=
  match h with
  | [] => (st, [])
  | e :: h' =>
      let '(st', o) := happen e st in
      let '(st'', os) := history h' st' in
      (st'', match o with Some x => x :: os | None => os end)
  end.

End Names.

Definition empty : state := State [] [] [].
