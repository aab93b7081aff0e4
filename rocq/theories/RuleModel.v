(** Model of how a rule's command and outputs are recorded (src/tup/parser.c:3105-3122,
    3160-3210, 3380-3410, 3577-3665; src/tup/db.c:999-1100, 3270-3383, 3450-3486,
    6266-6450). Output exclusions, variants, the refactoring mode, display strings and
    flags of commands are not modelled; neither are inputs, which do not touch outputs. *)
From Verif Require Import Base ConfigModel DbModel.

(** The parser's state: the database, the cached producer of entries (tent->incoming),
    cmd_delete_root, the directories in the graph that are not parsed yet, the commands of the
    Tupfile that is being parsed (tf->cmd_root) and the queue of ghosts. *)
Record pst := { pdb : db; cache : nat -> option nat; pdel : list nat; pwait : list nat; pcmds : list nat; pq : list nat }.
Definition with_db (p : pst) (d : db) : pst := {| pdb := d; cache := cache p; pdel := pdel p; pwait := pwait p; pcmds := pcmds p; pq := pq p |}.
Definition with_q (p : pst) (q : list nat) : pst := {| pdb := pdb p; cache := cache p; pdel := pdel p; pwait := pwait p; pcmds := pcmds p; pq := q |}.
Definition with_cache (p : pst) (x : nat) (c : option nat) : pst :=
  {| pdb := pdb p; cache := fun y => if y =? x then c else cache p y; pdel := pdel p; pwait := pwait p; pcmds := pcmds p; pq := pq p |}.

(** db.c:6691-6860 link_insert and link_remove for normal links. A link that exists
    already is an error in the code; here it is not. *)
Definition link_insert (a b : nat) (d : db) : db := with_links d ((a, b) :: normal d) (sticky d).
Definition link_remove (a b : nat) (d : db) : db :=
  with_links d (filter (fun p => negb ((fst p =? a) && (snd p =? b))) (normal d)) (sticky d).

(** tup_db_select_tent: the entry of a directory with a name. *)
Definition find_in (d : db) (dt : nat) (name : bytes) : option nat :=
  match find (fun p => (dir (snd p) =? dt) && bytes_eqb (nname (snd p)) name) (nodes d) with
  | Some (x, _) => Some x
  | None => None
  end.
(** db.c:6520-6612: a new row gets an unused id; a new command is flagged. *)
Definition fresh (d : db) : nat := S (fold_right Nat.max 0 (map fst (nodes d))).
Definition insert_node (n : node) (d : db) : db :=
  let d' := with_nodes d ((fresh d, n) :: nodes d) in if ntype_eqb (kind n) TCmd then add_modify [fresh d] d' else d'.

(** db.c:3450-3486 tup_db_get_incoming_link. [None]: more than one was found. *)
Definition get_incoming (x : nat) (p : pst) : option (option nat * pst) :=
  match cache p x with
  | Some c => Some (Some c, p)
  | None =>
      match froms (normal (pdb p)) x with
      | [] => Some (None, p)
      | c :: t => if forallb (Nat.eqb c) t then Some (Some c, with_cache p x (Some c)) else None
      end
  end.

(** db.c:3270-3337 get_output_group. [None]: more than one was found. *)
Definition get_output_group (x : nat) (d : db) : option (option nat) :=
  match filter (has_kind d [TGroup]) (tos (normal d) x) with
  | [] => Some None
  | g :: t => if forallb (Nat.eqb g) t then Some (Some g) else None
  end.

Definition queue_one (x : nat) (p : pst) : option pst :=
  match queue_add (pdb p) x (pq p) with Some q => Some (with_q p q) | None => None end.

(** db.c:3339-3383 tup_db_create_unique_link *)
Definition create_unique_link (a b : nat) (p : pst) : option pst :=
  match get_incoming b p with
  | None => None
  | Some (Some i, p) =>
      if i =? a then Some p
      else
        match get_output_group i (pdb p) with
        | None => None
        | Some og =>
            match match og with
                  | Some g => queue_one g (with_db p (link_remove b g (pdb p)))
                  | None => Some p
                  end with
            | None => None
            | Some p => Some (with_cache (with_db p (link_remove i b (pdb p))) b None)
            end
        end
  | Some (None, p) =>
      match get_output_group b (pdb p) with
      | None => None
      | Some (Some g) => queue_one g (with_db p (link_remove b g (pdb p)))
      | Some None => Some p
      end
  end.
Fixpoint create_unique_links (a : nat) (bs : list nat) (p : pst) : option pst :=
  match bs with
  | [] => Some p
  | b :: bs => match create_unique_link a b p with Some p => create_unique_links a bs p | None => None end
  end.

(** parser.c:3160-3210 validate_output *)
Definition validate_output (dt : nat) (name : bytes) (p : pst) : option pst :=
  match find_in (pdb p) dt name with
  | None => Some p
  | Some x =>
      match lookup (pdb p) x with
      | None => None
      | Some n =>
          match kind n with
          | TGhost | TGenerated =>
              match get_incoming x p with
              | None => None
              | Some (None, p) => Some p
              | Some (Some c, p) =>
                  if existsb (Nat.eqb c) (pdel p) || match src n with Some s => existsb (Nat.eqb s) (pwait p) | None => false end
                  then Some p else None
              end
          | _ => None
          end
      end
  end.

(** db.c:999-1100 tup_db_create_node_part_display for a generated file; the
    other types were rejected by validate_output. The result says whether the entry changed. *)
Definition create_output (dt : nat) (name : bytes) (tf : nat) (p : pst) : option (nat * bool * pst) :=
  match find_in (pdb p) dt name with
  | Some x =>
      match lookup (pdb p) x with
      | None => None
      | Some n =>
          match kind n with
          | TGhost =>
              let d1 := add_create (filter (has_kind (pdb p) [TDir]) (tos (normal (pdb p)) x)) (pdb p) in
              match delete_links (modify_cmds_by_input x d1) x (pq p) with
              | None => None
              | Some (d2, q) => Some (x, true, with_q (with_db p (update_node x (fun n => set_src (Some tf) (set_kind TGenerated n)) (add_modify [x] d2))) q)
              end
          | TGenerated => Some (x, false, with_db p (update_node x (set_src (Some tf)) (pdb p)))
          | _ => None
          end
      end
  | None => Some (fresh (pdb p), true, with_db p (insert_node {| dir := dt; kind := TGenerated; src := Some tf; nname := name; time := (-1)%Z |} (pdb p)))
  end.

(** parser.c:3380-3410: the outputs of a rule, each once. An error ends the
    parse and with it the transaction. *)
Fixpoint rule_outputs (tf : nat) (outs : list (nat * bytes)) (p : pst) : option (list nat * bool * pst) :=
  match outs with
  | [] => Some ([], false, p)
  | (dt, name) :: outs =>
      match validate_output dt name p with
      | None => None
      | Some p =>
          match create_output dt name tf p with
          | None => None
          | Some (x, b, p) =>
              match rule_outputs tf outs p with
              | None => None
              | Some (xs, b', p) => if existsb (Nat.eqb x) xs then None else Some (x :: xs, b || b', p)
              end
          end
      end
  end.

(** parser.c:3105-3122 find_existing_command *)
Fixpoint find_existing (xs : list nat) (p : pst) : option (option nat * pst) :=
  match xs with
  | [] => Some (None, p)
  | x :: xs =>
      match get_incoming x p with
      | None => None
      | Some (Some c, p) => Some (Some c, p)
      | Some (None, p) => find_existing xs p
      end
  end.

(** parser.c:3582-3640: the command of the rule. A command that is taken over is
    renamed and belongs to this Tupfile then (tup_db_set_name); it has to run
    again then. *)
Definition set_name (name : bytes) (dt : nat) (n : node) : node := {| dir := dt; kind := kind n; src := src n; nname := name; time := time n |}.
Definition rule_command (tf : nat) (cmd : bytes) (xs : list nat) (p : pst) : option (nat * bool * pst) :=
  match find_in (pdb p) tf cmd with
  | Some c => if has_kind (pdb p) [TCmd] c then Some (c, false, p) else None
  | None =>
      match find_existing xs p with
      | None => None
      | Some (Some c, p) => Some (c, true, with_db p (update_node c (set_name cmd tf) (pdb p)))
      | Some (None, p) => Some (fresh (pdb p), false, with_db p (insert_node {| dir := tf; kind := TCmd; src := None; nname := cmd; time := (-1)%Z |} (pdb p)))
      end
  end.

(** parser.c:3298-3310: the group of a rule. *)
Definition rule_group (grp : option (nat * bytes)) (p : pst) : option (option nat * pst) :=
  match grp with
  | None => Some (None, p)
  | Some (dt, name) =>
      match find_in (pdb p) dt name with
      | Some g => if has_kind (pdb p) [TGroup] g then Some (Some g, p) else None
      | None => Some (Some (fresh (pdb p)), with_db p (insert_node {| dir := dt; kind := TGroup; src := None; nname := name; time := (-1)%Z |} (pdb p)))
      end
  end.

(** db.c:6266-6330 add_output, rm_output; 6332-6450 tup_db_write_outputs. *)
Definition add_output (c : nat) (group : option nat) (x : nat) (d : db) : db :=
  let d := link_insert c x d in match group with Some g => link_insert x g d | None => d end.
Definition rm_output (c : nat) (group : option nat) (x : nat) (d : db) : db :=
  let d := link_remove c x d in match group with Some g => link_remove x g d | None => d end.
Definition opt_eqb (a b : option nat) : bool :=
  match a, b with Some x, Some y => x =? y | None, None => true | _, _ => false end.
Definition fold_db (f : nat -> db -> db) (l : list nat) (d : db) : db := fold_left (fun d x => f x d) l d.
Definition mem (x : nat) (l : list nat) : bool := existsb (Nat.eqb x) l.
Definition write_outputs (c : nat) (xs : list nat) (group : option nat) (modified : bool) (p : pst) : option pst :=
  let d := pdb p in
  let all := tos (normal d) c in
  let old := filter (fun x => negb (has_kind d [TGroup] x)) all in
  match get_output_group c d with
  | None => None
  | Some old_group =>
      let same := opt_eqb old_group group in
      let d1 :=
        if same then d
        else
          let d := match group with
                   | Some g => link_insert c g (fold_db (fun x => link_insert x g) xs d)
                   | None => d
                   end in
          match old_group with
          | Some og => add_modify [og] (link_remove c og (fold_db (fun x d => modify_cmds_by_input x (link_remove x og d)) old d))
          | None => d
          end in
      let pod := if same then group else None in
      let removed := filter (fun x => negb (mem x xs)) old in
      let added := filter (fun x => negb (mem x old)) xs in
      let d2 := fold_db (add_output c pod) added (fold_db (rm_output c pod) removed d1) in
      let differ := modified || negb same || negb (match removed ++ added with [] => true | _ => false end) in
      let d3 := if differ then add_modify (c :: match group with Some g => [g] | None => [] end) d2 else d2 in
      match old_group with
      | Some og => if same then Some (with_db p d3) else queue_one og (with_db p d3)
      | None => Some (with_db p d3)
      end
  end.

(** A rule: command, outputs and extra outputs by directory and name, output
    group. parser.c:3490-3720 do_rule; only the outputs, not the extra ones,
    lead to a command to take over. *)
Record rule := { r_cmd : bytes; r_outs : list (nat * bytes); r_extra : list (nat * bytes); r_group : option (nat * bytes) }.
Definition declare (tf : nat) (r : rule) (p : pst) : option pst :=
  match rule_outputs tf (r_outs r ++ r_extra r) p with
  | None => None
  | Some (xs, m1, p) =>
      match rule_group (r_group r) p with
      | None => None
      | Some (g, p) =>
          match rule_command tf (r_cmd r) (firstn (length (r_outs r)) xs) p with
          | None => None
          | Some (c, m2, p) =>
              if mem c (pcmds p) then None
              else
                let p := {| pdb := pdb p; cache := cache p; pdel := remove_id c (pdel p); pwait := pwait p; pcmds := c :: pcmds p; pq := pq p |} in
                match create_unique_links c xs p with
                | None => None
                | Some p => write_outputs c xs g (m1 || m2) p
                end
          end
      end
  end.

(** parser.c:180-240: the parse of a directory begins. *)
Definition begin_dir (tf : nat) (p : pst) : pst :=
  {| pdb := pdb p; cache := cache p;
     pdel := map fst (filter (fun q => (dir (snd q) =? tf) && ntype_eqb (kind (snd q)) TCmd) (nodes (pdb p))) ++ pdel p;
     pwait := remove_id tf (pwait p); pcmds := []; pq := pq p |}.
