(** The file accesses of a command (file.c). *)
From Verif Require Import Base ExecModel GraphModel TentModel.

(** Access events (access_event.h:27-34); names as the server delivers them. *)
Inductive event :=
| ERead (f : bytes) | EWrite (f : bytes) | EUnlink (f : bytes) | EVar (f : bytes) | ERename (from to : bytes).

(** file.h:46-64 struct file_info, the lists of names. *)
Record finfo := { reads : list bytes; writes : list bytes; unlinks : list bytes; vars : list bytes }.
Definition finfo0 : finfo := {| reads := []; writes := []; unlinks := []; vars := [] |}.

(** The TAILQ_FOREACH_SAFE loops that delete the entries called [f]
    (file.c:616-624, 634-638, 639-643). *)
Definition drop (f : bytes) (l : list bytes) : list bytes := filter (fun g => negb (bytes_eqb g f)) l.
Definition renamed (a b : bytes) (l : list bytes) : list bytes := map (fun f => if bytes_eqb f a then b else f) l.

(** file.c:174-230 handle_file, handle_open_file and 573-607 handle_rename.
    add_symlinks(), which adds further reads, is part of the events here. *)
Definition handle_event (e : event) (i : finfo) : finfo :=
  match e with
  | ERead f => {| reads := reads i ++ [f]; writes := writes i; unlinks := unlinks i; vars := vars i |}
  | EWrite f => {| reads := reads i; writes := writes i ++ [f]; unlinks := drop f (unlinks i); vars := vars i |}
  | EUnlink f => {| reads := reads i; writes := writes i; unlinks := unlinks i ++ [f]; vars := vars i |}
  | EVar f => {| reads := reads i; writes := writes i; unlinks := unlinks i; vars := vars i ++ [f] |}
  | ERename a b => {| reads := renamed a b (reads i); writes := renamed a b (writes i); unlinks := drop b (unlinks i); vars := vars i |}
  end.
Fixpoint handle_events (l : list event) (i : finfo) : finfo :=
  match l with [] => i | e :: r => handle_events r (handle_event e i) end.

(** file.c:629-649 handle_unlink. *)
Definition handle_unlink (i : finfo) : finfo :=
  fold_left (fun i u => {| reads := drop u (reads i); writes := drop u (writes i); unlinks := tl (unlinks i); vars := vars i |})
    (unlinks i) i.

(** file.c:693-840 update_write_info. *)
Section Write.
Variable kind_of : id -> kind.
Variable hidden : bytes -> bool.       (* PG_HIDDEN, file.c:714 *)
Variable excluded : bytes -> bool.     (* exclusion_match, file.c:723 *)
Variable ignorable : bytes -> bool.    (* create_ignored_file succeeds, file.c:726 *)
Variable lookup : bytes -> option id.  (* the entry of the file, if any, file.c:744-757 *)
Variable do_unlink : bool.

Record wstate := { wtree : list id; wbork : bool; wmaps : list mapping; wdeleted : list bytes; wignored : list bytes; wwarn : nat }.

(** file.c:768-773: the first mapping with this name goes. *)
Fixpoint del_map_name (f : bytes) (l : list mapping) : list mapping :=
  match l with [] => [] | m :: r => if bytes_eqb (realname m) f then r else m :: del_map_name f r end.
(** file.c:781-808: set the entry of all mappings with this name, or add one. *)
Definition set_map (f : bytes) (x : id) (l : list mapping) : list mapping :=
  let l' := map (fun m => if bytes_eqb (realname m) f then {| realname := realname m; tmpname := tmpname m; mtent := Some x |} else m) l in
  if existsb (fun m => bytes_eqb (realname m) f) l then l' else l' ++ [{| realname := f; tmpname := f; mtent := Some x |}].

(** file.c:702-812: one written file after the other; [None] is an error
    return. [n] is at least the length of the list. *)
Fixpoint write_loop (n : nat) (ws : list bytes) (s : wstate) : option wstate :=
  match ws with
  | [] => Some s
  | w :: r =>
    match n with
    | O => None
    | S n' =>
      if hidden w then
        write_loop n' r {| wtree := wtree s; wbork := wbork s; wmaps := wmaps s; wdeleted := wdeleted s;
                           wignored := wignored s; wwarn := S (wwarn s) |}
      else if excluded w then
        if ignorable w then
          write_loop n' r {| wtree := wtree s; wbork := wbork s; wmaps := wmaps s; wdeleted := wdeleted s;
                             wignored := wignored s ++ [w]; wwarn := wwarn s |}
        else None
      else
        write_loop n' (drop w r)
          match lookup w with
          | None => {| wtree := wtree s; wbork := true; wmaps := del_map_name w (wmaps s);
                       wdeleted := if do_unlink then wdeleted s ++ [w] else wdeleted s;
                       wignored := wignored s; wwarn := wwarn s |}
          | Some x => {| wtree := tree_add_dup (wtree s) x; wbork := wbork s; wmaps := set_map w x (wmaps s);
                         wdeleted := wdeleted s; wignored := wignored s; wwarn := wwarn s |}
          end
    end
  end.

(** file.c:818-832: moving the files out of the temporary directory.
    [rename_ok]: renameat succeeds; [mtime_ok]: file_set_mtime succeeds. *)
Variable rename_ok : mapping -> bool.
Variable mtime_ok : mapping -> bool.
Fixpoint publish (l : list mapping) (bork : bool) : option bool :=
  match l with
  | [] => Some bork
  | m :: r =>
    let bork' := if bytes_eqb (tmpname m) (realname m) then bork else bork || negb (rename_ok m) in
    match mtent m with
    | Some _ => if mtime_ok m then publish r bork' else None
    | None => publish r bork'
    end
  end.

(** The whole function: [None] is an error return before the files are moved;
    otherwise the reports, the mappings that were published, the state of the
    loop, and whether it returns 0. *)
Definition update_write_info (output_root : list id) (success : bool) (ws : list bytes) (ms : list mapping)
    : option (aod * wstate * bool) :=
  obind (write_loop (length ws) ws {| wtree := []; wbork := false; wmaps := ms; wdeleted := []; wignored := []; wwarn := 0 |}) (fun s =>
  obind (check_actual_outputs kind_of (wtree s) output_root (wmaps s) (wbork s) do_unlink success) (fun bd =>
  Some (snd bd, s, match publish (maps (snd bd)) (fst bd) with Some b => negb b | None => false end))).

(** file.c:842-876 update_read_info: the set of entries that is checked.
    [node_of]: the entry that add_node_to_tree() finds or creates, [None] for
    directories and other names that are not tracked. *)
Variable node_of var_of : bytes -> option id.
Definition add_nodes (f : bytes -> option id) (l : list bytes) (t : list id) : list id :=
  fold_left (fun t n => match f n with Some x => tree_add_dup t x | None => t end) l t.
(** tent_tree.c:95-104 tent_tree_copy; the caller ignores its result. *)
Fixpoint tree_copy (t src : list id) : list id :=
  match src with [] => t | x :: r => match tree_add t x with Some t' => tree_copy t' r | None => t end end.
Definition read_tree (i : finfo) (used_groups : list id) : list id :=
  (fun t => tree_copy t used_groups)
    (add_nodes var_of (vars i) (add_nodes node_of (filter (fun n => negb (excluded n)) (reads i)) [])).
End Write.

(** file.c:232-311 write_files: is the command accepted? [tmpdirs] are the
    directories that it created and did not remove; [input_check] is the verdict
    of update_read_info() on the set of entries read. *)
Inductive check_type := CheckSuccess | CheckCmdFail | CheckSignalled.
Definition write_files (kind_of : id -> kind) (hidden excluded ignorable : bytes -> bool) (lookup : bytes -> option id)
    (do_unlink : bool) (rename_ok mtime_ok : mapping -> bool) (node_of var_of : bytes -> option id)
    (input_check : list id -> bool)
    (output_root used_groups : list id) (tmpdirs : list bytes) (ms : list mapping) (ty : check_type) (i0 : finfo) : bool :=
  let i := handle_unlink i0 in
  let success := match ty with CheckSuccess => true | _ => false end in
  if success && existsb (fun d => negb (excluded d)) tmpdirs then false
  else
    let w := match update_write_info kind_of hidden excluded ignorable lookup do_unlink rename_ok mtime_ok output_root success (writes i) ms with
             | Some (_, _, ok) => ok | None => false end in
    let r := match ty with
             | CheckSignalled => true
             | _ => input_check (read_tree excluded node_of var_of i used_groups)
             end in
    w && r.
