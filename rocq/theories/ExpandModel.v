(** Model of %<group> in commands: updater.c:2712-2888 expand_group,
    expand_group_inline, expand_res_file, expand_command. *)
From Verif Require Import Base EntryModel FuseModel.

(** A group among the inputs of a command (the sticky inputs of type
    TUP_NODE_GROUP, in the order of the tree): its id, its name in the
    database and its inputs (tup_db_get_inputs, in the order of the tree), each
    with "type == TUP_NODE_GENERATED". *)
Record group := { g_id : nat; g_name : bytes; g_inputs : list (nat * bool) }.

(** What a call does: it returns 0 with a value, or -1. [NoFuel] is no outcome
    of the code (EntryModel's fuel for walking up, the loops' fuel). *)
Inductive res (A : Type) := Good (a : A) | Fail | NoFuel.
Arguments Good {A} a. Arguments Fail {A}. Arguments NoFuel {A}.

(** The counter [resfile] of updater.c:2783 (an int, here without a limit), and
    the resource files, newest first: name and content. *)
Record world := { resno : nat; files : list (bytes * bytes) }.

Definition nul : ascii := "000"%char.
Definition newline : ascii := "010"%char.

(** updater.c:2729: memcmp(group_tent->name.s, groupname, grouplen) == 0. The
    name ends with a NUL and [groupname] has none, so bytes after the NUL do
    not change the result (that memcmp may read them is not modelled). *)
Definition same_name (name groupname : bytes) : bool :=
  bytes_eqb (firstn (length groupname) (name ++ [nul])) groupname.

Section Expand.
Variable T : tree.
Variable fuel : nat.                 (* for get_relative_dir *)
Variable srcdir : nat -> nat.        (* variant_tent_to_srctent *)
Variable tmp_ok : bool.              (* fopen(".tup/tmp/res-...") works *)

(** updater.c:2738-2750: the loop over the inputs of one group. [inl]: the
    text goes to the command ([e]), otherwise to the file ([f]). *)
Fixpoint put_inputs (inl : bool) (dir : nat) (ins : list (nat * bool)) (first : bool) : res (bytes * bool) :=
  match ins with
  | [] => Good ([], first)
  | (i, generated) :: r =>
      if generated then
        match get_relative_dir T fuel dir i with
        | None => NoFuel
        | Some p =>
            match put_inputs inl dir r false with
            | Good (t, f) => Good ((if inl && negb first then B " " else []) ++ p ++ (if inl then [] else [newline]) ++ t, f)
            | o => o
            end
        end
      else put_inputs inl dir r first
  end.

(** updater.c:2726-2755: the loop over the groups. The result has the text,
    [group_found] and what is added to used_groups_root. *)
Fixpoint put_groups (inl : bool) (dir : nat) (groupname : bytes) (gs : list group) (first : bool) : res (bytes * bool * list nat) :=
  match gs with
  | [] => Good ([], false, [])
  | g :: r =>
      if same_name (g_name g) groupname then
        match put_inputs inl dir (g_inputs g) first with
        | Good (t, f) =>
            match put_groups inl dir groupname r f with
            | Good (t', _, used) => Good (t ++ t', true, g_id g :: used)
            | o => o
            end
        | Fail => Fail
        | NoFuel => NoFuel
        end
      else put_groups inl dir groupname r first
  end.

(** updater.c:2720-2763 expand_group. *)
Definition expand_group (inl : bool) (dir : nat) (groupname : bytes) (gs : list group) : res (bytes * list nat) :=
  match put_groups inl dir groupname gs true with
  | Good (t, true, used) => Good (t, used)
  | Good (_, false, _) => Fail
  | Fail => Fail
  | NoFuel => NoFuel
  end.

(** updater.c:2784-2788: the number of directories above [tent->parent]. *)
Fixpoint num_dotdots (f : nat) (t : nat) : option nat :=
  match f with
  | 0 => None
  | S f => match parent T t with None => Some 0 | Some p => option_map S (num_dotdots f p) end
  end.

(** updater.c:2789: the name fits TMPFILESIZE, an int has at most 11 characters. *)
Definition tmpfilename (n : nat) : bytes := B ".tup/tmp/res-" ++ print 10 n.

(** updater.c:2772-2814 expand_res_file. The directory of the names in the file
    is the source directory, the dots are for [tent->parent]. A file that is
    left when expand_group fails has what was written, which is not kept here:
    the name is not used again. *)
Definition expand_res_file (par : nat) (groupname : bytes) (gs : list group) (w : world) : res (bytes * list nat) * world :=
  match num_dotdots fuel par with
  | None => (NoFuel, w)
  | Some n =>
      let name := tmpfilename (resno w) in
      let w1 := {| resno := S (resno w); files := files w |} in
      if tmp_ok then
        match expand_group false (srcdir par) groupname gs with
        | Good (content, used) =>
            (Good (concat (repeat (B "../") n) ++ name, used), {| resno := S (resno w); files := (name, content) :: files w |})
        | Fail => (Fail, w1)
        | NoFuel => (NoFuel, w1)
        end
      else (Fail, w1)
  end.

(** strstr(s, "%<"): what is before it and what is after it. *)
Fixpoint open_group (s : bytes) : option (bytes * bytes) :=
  match s with
  | [] => None
  | c :: t =>
      match t with
      | d :: r => if (c =?c "%"%char) && (d =?c "<"%char) then Some ([], r)
                  else option_map (fun p => (c :: fst p, snd p)) (open_group t)
      | [] => None
      end
  end.
(** strchr(s, '>'): what is before it and what is after it. *)
Fixpoint close_group (s : bytes) : option (bytes * bytes) :=
  match s with
  | [] => None
  | c :: t => if c =?c ">"%char then Some ([], t) else option_map (fun p => (c :: fst p, snd p)) (close_group t)
  end.

(** updater.c:2846-2880: the loop, [acc] is expanded_name. *)
Fixpoint expand_loop (lf : nat) (par : nat) (gs : list group) (tcmd acc : bytes) (used : list nat) (w : world)
  : res (bytes * list nat) * world :=
  match lf with
  | 0 => (NoFuel, w)
  | S lf =>
      match open_group tcmd with
      | None => (Good (acc ++ tcmd, used), w)
      | Some (pre, rest) =>
          match close_group rest with
          | None => (Fail, w)
          | Some (n, after) =>
              let groupname := B "<" ++ n ++ B ">" in
              let '(r, w', tcmd') :=
                if prefixb (B ".res") after
                then (expand_res_file par groupname gs w, skipn 4 after)
                else (expand_group true (srcdir par) groupname gs, w, after) in
              match r with
              | Good (t, u) => expand_loop lf par gs tcmd' (acc ++ pre ++ t) (used ++ u) w'
              | Fail => (Fail, w')
              | NoFuel => (NoFuel, w')
              end
          end
      end
  end.

(** updater.c:2816-2888 expand_command. Without "%<" the result is NULL and the
    callers use the command itself (2233-2243, 3017-3020). [par] is
    tent->parent. *)
Definition expand_command (par : nat) (gs : list group) (cmd : bytes) (w : world) : res (bytes * list nat) * world :=
  match open_group cmd with
  | None => (Good (cmd, []), w)
  | Some _ => expand_loop (S (length cmd)) par gs cmd [] [] w
  end.
End Expand.
