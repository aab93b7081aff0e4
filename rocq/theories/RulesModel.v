(** From a rule to its command: the ^-flags of a command string, the choice of the
    command in the database, and the rules of a directory together (parser.c). *)
From Verif Require Import Base ExecModel GraphModel TentModel LinkModel.

(** ** parser.c:3423-3473 split_command_string *)
(** isspace() in the C locale. *)
Definition isspace (c : ascii) : bool := let n := nat_of_ascii c in (n =? 32) || ((9 <=? n) && (n <=? 13)).
Fixpoint skip_space (s : bytes) : bytes := match s with c :: r => if isspace c then skip_space r else s | [] => [] end.
(** 3436-3446: up to a space or ^; None if the string ends before. *)
Fixpoint take_flags (s : bytes) : option (bytes * bytes) :=
  match s with
  | [] => None
  | c :: r => if (c =?c " "%char) || (c =?c "^"%char) then Some ([], s) else obind (take_flags r) (fun p => Some (c :: fst p, snd p))
  end.
(** 3458-3467: up to ^. *)
Fixpoint take_display (s : bytes) : option (bytes * bytes) :=
  match s with
  | [] => None
  | c :: r => if c =?c "^"%char then Some ([], s) else obind (take_display r) (fun p => Some (c :: fst p, snd p))
  end.
(** struct command_split; [None] for a NULL display. *)
Record split := { s_flags : bytes; s_display : option bytes; s_cmd : bytes }.
Definition split_command (cmd : bytes) : option split :=
  match cmd with
  | c :: s =>
      if c =?c "^"%char then
        obind (match s with
               | b :: _ => if b =?c " "%char then Some ([], s) else take_flags s
               | [] => take_flags s
               end) (fun p =>
        let '(flags, s) := p in
        if match s with h :: _ => h =?c "^"%char | [] => false end then Some {| s_flags := flags; s_display := None; s_cmd := skip_space (skipn 1 s) |}
        else
          obind (take_display (skip_space s)) (fun q =>
          Some {| s_flags := flags; s_display := Some (fst q); s_cmd := skip_space (skipn 1 (snd q)) |}))
      else Some {| s_flags := []; s_display := None; s_cmd := skip_space cmd |}
  | [] => Some {| s_flags := []; s_display := None; s_cmd := [] |}
  end.

(** ** Commands in the database *)
(** A row of node with type TUP_NODE_CMD; a NULL display has length 0 and counts
    as an empty one (parser.c:3601). *)
Record command := { cm_id : id; cm_dir : id; cm_text : bytes; cm_flags : bytes; cm_display : bytes }.
(** normal_link, sticky_link and group_link by command. *)
Record links := { l_nin : list id; l_stk : list id; l_outs : list id; l_glinks : list (id * id) }.
Definition no_links : links := {| l_nin := []; l_stk := []; l_outs := []; l_glinks := [] |}.
(** [next]: the next node id. *)
Record db := { cmds : list command; links_of : id -> links; db_member : list (id * id); db_mod : list id; db_trans : list id; db_ghost : list id; db_poked : list id; next : id }.
(** The rows about one command, and back. *)
Definition view (D : db) (c : id) : rows :=
  {| nin := l_nin (links_of D c); stk := l_stk (links_of D c); outs := l_outs (links_of D c); member := db_member D; glinks := l_glinks (links_of D c);
     modlist := db_mod D; translist := db_trans D; ghostq := db_ghost D; poked := db_poked D |}.
Definition links_in (r : rows) : links := {| l_nin := nin r; l_stk := stk r; l_outs := outs r; l_glinks := glinks r |}.
Definition store (c : id) (r : rows) (D : db) : db :=
  {| cmds := cmds D; links_of := fun b => if b =? c then links_in r else links_of D b; db_member := member r; db_mod := modlist r; db_trans := translist r;
     db_ghost := ghostq r; db_poked := poked r; next := next D |}.
Definition set_cmds (D : db) (l : list command) : db :=
  {| cmds := l; links_of := links_of D; db_member := db_member D; db_mod := db_mod D; db_trans := db_trans D; db_ghost := db_ghost D; db_poked := db_poked D; next := next D |}.

(** What do_rule() knows of a rule once paths, flags and variables are expanded:
    the command without its ^-flags, the flags and the display text, the outputs that
    were listed first (onl), everything declared, and command_modified after
    do_rule_outputs() (an output's node is new or was a ghost). *)
Record rule := { r_text : bytes; r_flags : bytes; r_display : bytes; r_main : list id; r_decl : declared; r_new : bool }.

Section rules.
Variable kind_of : id -> kind.
Variable excl : id -> bool.
(** The directory whose Tupfile is parsed, the directories that are to be parsed
    but were not started yet (find_node(tf->g, ...) and !n->parsing; the directory of
    the command stands for the srcid of its output), and the commands that no rule
    kept in the directories parsed before (they are in cmd_delete_root). *)
Variable dir : id.
Variable waiting : id -> bool.
Variable leftover : id -> bool.

(** db.c:3450-3483 tup_db_get_incoming_link ([None]: several); the cached result
    is left out. *)
Definition incoming (D : db) (x : id) : option (option id) :=
  match filter (fun m => inb x (l_outs (links_of D (cm_id m)))) (cmds D) with
  | [] => Some None
  | [m] => Some (Some (cm_id m))
  | _ => None
  end.
(** db.c:3270-3337 get_output_group, of a command or a file (the rows of normal_link
    are distinct). *)
Definition one_group (l : list id) : option (option id) :=
  match filter (fun g => is_group (kind_of g)) l with [] => Some None | [g] => Some (Some g) | _ => None end.
Definition groups_of_file (D : db) (x : id) : list id := nodup Nat.eq_dec (map snd (filter (fun p => fst p =? x) (db_member D))).

Definition drop_member (x : id) (g : option id) (D : db) : db :=
  match g with
  | Some g => {| cmds := cmds D; links_of := links_of D; db_member := pair_remove (x, g) (db_member D); db_mod := db_mod D; db_trans := db_trans D;
                 db_ghost := put g (db_ghost D); db_poked := db_poked D; next := next D |}
  | None => D
  end.
Definition drop_out (b x : id) (D : db) : db :=
  let l := links_of D b in
  {| cmds := cmds D; links_of := fun i => if i =? b then {| l_nin := l_nin l; l_stk := l_stk l; l_outs := del x (l_outs l); l_glinks := l_glinks l |} else links_of D i;
     db_member := db_member D; db_mod := db_mod D; db_trans := db_trans D; db_ghost := db_ghost D; db_poked := db_poked D; next := next D |}.
(** db.c:3339-3385 tup_db_create_unique_link: an output is taken from its old
    command and group. *)
Definition unique_link (a x : id) (D : db) : option db :=
  obind (incoming D x) (fun i =>
  match i with
  | Some b =>
      if b =? a then Some D
      else obind (one_group (l_outs (links_of D b))) (fun g => Some (drop_out b x (drop_member x g D)))
  | None => obind (one_group (groups_of_file D x)) (fun g => Some (drop_member x g D))
  end).

(** parser.c:3160-3203 validate_output, for the owner of the output; cmd_delete_root
    has [todo] and the leftover commands that are not [used]. *)
Definition available (todo used : list id) (D : db) (x : id) : option bool :=
  obind (incoming D x) (fun i =>
  match i with
  | Some b => Some (inb b todo || (leftover b && negb (inb b used)) || existsb (fun m => (cm_id m =? b) && negb (cm_dir m =? dir) && waiting (cm_dir m)) (cmds D))
  | None => Some true
  end).
Fixpoint all_available (todo used : list id) (D : db) (l : list id) : option bool :=
  match l with [] => Some true | x :: l => obind (available todo used D x) (fun b => if b then all_available todo used D l else Some false) end.

(** parser.c:3105-3120 find_existing_command. *)
Fixpoint existing (D : db) (l : list id) : option (option id) :=
  match l with [] => Some None | x :: l => obind (incoming D x) (fun i => match i with Some c => Some (Some c) | None => existing D l end) end.

(** The row of one command is changed. *)
Definition change (c : id) (f : command -> command) (l : list command) : list command := map (fun m => if cm_id m =? c then f m else m) l.
Definition get (c : id) (l : list command) : option command := find (fun m => cm_id m =? c) l.

(** parser.c:3565-3632 the choice of the command: its id, command_modified, whether
    tup_db_set_display was called, and the database. The node of this name is taken to be a command. *)
Definition choose (refac : bool) (r : rule) (D : db) : option (id * bool * bool * db) :=
  obind (match find (fun m => (cm_dir m =? dir) && bytes_eqb (cm_text m) (r_text r)) (cmds D) with
         | Some m => Some (cm_id m, r_new r, D, true)
         | None =>
             obind (existing D (r_main r)) (fun e =>
             match e with
             | None =>
                 if refac then None
                 else Some (next D, r_new r,
                        {| cmds := cmds D ++ [{| cm_id := next D; cm_dir := dir; cm_text := r_text r; cm_flags := r_flags r; cm_display := r_display r |}];
                           links_of := links_of D; db_member := db_member D; db_mod := put (next D) (db_mod D); db_trans := db_trans D;
                           db_ghost := db_ghost D; db_poked := db_poked D; next := S (next D) |}, false)
             | Some c =>
                 if refac then None
                 else Some (c, true, set_cmds D (change c (fun m => {| cm_id := cm_id m; cm_dir := dir; cm_text := r_text r; cm_flags := cm_flags m; cm_display := cm_display m |}) (cmds D)), true)
             end)
         end) (fun s =>
  let '(c, modified, D, compare) := s in
  if compare then
    obind (get c (cmds D)) (fun m =>
    let D := if bytes_eqb (cm_display m) (r_display r) then D
             else set_cmds D (change c (fun m => {| cm_id := cm_id m; cm_dir := cm_dir m; cm_text := cm_text m; cm_flags := cm_flags m; cm_display := r_display r |}) (cmds D)) in
    let shown := negb (bytes_eqb (cm_display m) (r_display r)) in
    if bytes_eqb (cm_flags m) (r_flags r) then Some (c, modified, shown, D)
    else if refac then None
    else Some (c, true, shown, set_cmds D (change c (fun m => {| cm_id := cm_id m; cm_dir := cm_dir m; cm_text := cm_text m; cm_flags := r_flags r; cm_display := cm_display m |}) (cmds D))))
  else Some (c, modified, false, D)).

(** The state of a directory's parsing: the database, tf->cmd_root (newest first),
    the commands of the directory in cmd_delete_root (and, for a refactoring, in
    refactoring_cmd_delete_root), and the number of calls of tup_db_set_display. *)
Record pstate := { p_db : db; used : list id; todo : list id; shows : nat }.
(** parser.c:3475-3725 do_rule, from the checks of the outputs on. *)
Definition do_rule (refac : bool) (r : rule) (s : pstate) : option pstate :=
  obind (all_available (todo s) (used s) (p_db s) (d_outs (r_decl r))) (fun ok =>
  if negb ok then None
  else
  obind (choose refac r (p_db s)) (fun ch =>
  let '(c, modified, shown, D) := ch in
  if inb c (used s) then None
  else
    obind (each_entry (unique_link c) (d_outs (r_decl r)) D) (fun D =>
    obind (record_rule kind_of excl c (r_decl r) refac modified (existsb (fun h => h =?c "t"%char) (r_flags r)) (view D c)) (fun w =>
    Some {| p_db := store c (fst w) D; used := c :: used s; todo := del c (todo s); shows := (if shown then 1 else 0) + shows s |})))).

Fixpoint do_rules (refac : bool) (l : list rule) (s : pstate) : option pstate :=
  match l with [] => Some s | r :: l => obind (do_rule refac r s) (do_rules refac l) end.

(** parser.c:158-370 parse(), for the commands: the old ones of the directory are
    to be deleted unless a rule keeps them; when refactoring, none may be left. *)
Definition parse_dir (refac : bool) (l : list rule) (D : db) : option pstate :=
  obind (do_rules refac l {| p_db := D; used := []; todo := map cm_id (filter (fun m => cm_dir m =? dir) (cmds D)); shows := 0 |}) (fun s =>
  if refac && negb (match todo s with [] => true | _ => false end) then None else Some s).

(** updater.c:1384-1636 process_create_nodes for `tup refactor' with one directory:
    after parsing, sqlite3_total_changes() must not have grown by more than the
    expected changes (db.c:809-813). Of the writes that a successful refactoring can
    do, those of tup_db_set_display are not expected ones. *)
Definition refactor_dir (l : list rule) (D : db) : option pstate :=
  obind (parse_dir true l D) (fun s => if shows s =? 0 then Some s else None).
End rules.
