(** Model of compile_commands.json: db.c:7472-7572 print_json,
    print_compile_db, tup_db_create_compile_db, main.c:667-696 compiledb,
    entry.c:797-810 has_flag, is_compiledb_tent. *)
From Verif Require Import Base EntryModel GraphModel ExpandModel.

(** [Overrun]: a byte is written behind the end of an allocated buffer. *)
Inductive outcome (A : Type) := Written (a : A) | Overrun | OutOfFuel.
Arguments Written {A} a. Arguments Overrun {A}. Arguments OutOfFuel {A}.
Definition bind {A C} (o : outcome A) (f : A -> outcome C) : outcome C :=
  match o with Written a => f a | Overrun => Overrun | OutOfFuel => OutOfFuel end.

(** db.c:7480-7487: the loop. Strings have no NUL. *)
Definition dquote : ascii := """"%char.
Definition backslash : ascii := "\"%char.
Fixpoint escape (s : bytes) : bytes :=
  match s with
  | [] => []
  | c :: r => (if (c =?c backslash) || (c =?c dquote) then [backslash; c] else [c]) ++ escape r
  end.
(** db.c:7472-7491 print_json: the buffer has 2 * len bytes, buf[offs] = 0 needs
    one more than what was written. *)
Definition print_json (s : bytes) : outcome bytes :=
  if length (escape s) <? 2 * length s then Written (escape s) else Overrun.

Section CompileDb.
Variable T : tree.
Variable fuel top : nat.
Variable top_path : bytes.               (* get_tup_top() *)
Variable kind_of : nat -> kind.
Variable flags : nat -> bytes.           (* tent->flags *)
Variable variant_of : nat -> nat.        (* tup_entry_variant *)
Variable srcdir : nat -> nat.            (* variant_tent_to_srctent *)
Variable commands : list nat.            (* tup_db_type_to_tree(TUP_NODE_CMD), in the order of the tree *)
Variable stickies : nat -> list nat.     (* get_sticky_inputs, in the order of the tree *)

Definition relative (s e : nat) : outcome bytes :=
  match get_relative_dir T fuel s e with Some p => Written p | None => OutOfFuel end.

(** db.c:7493-7527 print_compile_db. [first] is the static first_time; the text
    and its new value. *)
Definition print_compile_db (first : bool) (cmd file : nat) : outcome (bytes * bool) :=
  match parent T cmd with
  | None => OutOfFuel
  | Some par =>
      let src := srcdir par in
      bind (if src =? top then Written [] else relative top src) (fun rel =>
      bind (print_json (top_path ++ B "/" ++ rel)) (fun dir =>
      bind (print_json (name T cmd)) (fun text =>
      bind (relative src file) (fun f =>
      Written ((if first then [] else B "," ++ [newline]) ++
        B "{" ++ [newline] ++
        B "    ""directory"": """ ++ dir ++ B """," ++ [newline] ++
        B "    ""command"": """ ++ text ++ B """," ++ [newline] ++
        B "    ""file"": """ ++ f ++ B """" ++ [newline] ++ B "}", false)))))
  end.

(** db.c:7554-7559: the inputs of one command. *)
Definition is_file (k : kind) : bool := match k with KFile | KGenerated => true | _ => false end.
Fixpoint print_inputs (first : bool) (cmd : nat) (ins : list nat) : outcome (bytes * bool) :=
  match ins with
  | [] => Written ([], first)
  | i :: r =>
      if is_file (kind_of i) then
        bind (print_compile_db first cmd i) (fun p =>
        bind (print_inputs (snd p) cmd r) (fun q => Written (fst p ++ fst q, snd q)))
      else print_inputs first cmd r
  end.

(** entry.c:797-810: memchr(tent->flags, 'j', tent->flagslen). *)
Definition is_compiledb (cmd : nat) : bool := existsb (Ascii.eqb "j"%char) (flags cmd).

(** db.c:7541-7562: the loop over the commands. *)
Fixpoint print_commands (first : bool) (variant : nat) (cmds : list nat) : outcome (bytes * bool) :=
  match cmds with
  | [] => Written ([], first)
  | c :: r =>
      if negb (is_compiledb c) then print_commands first variant r
      else if negb (variant_of c =? variant) then print_commands first variant r
      else
        bind (print_inputs first c (stickies c)) (fun p =>
        bind (print_commands (snd p) variant r) (fun q => Written (fst p ++ fst q, snd q)))
  end.
(** db.c:7529-7572 tup_db_create_compile_db. *)
Definition create_compile_db (first : bool) (variant : nat) : outcome (bytes * bool) :=
  bind (print_commands first variant commands) (fun p =>
  Written (B "[" ++ [newline] ++ fst p ++ [newline] ++ B "]" ++ [newline], snd p)).

(** main.c:674-694: one file for each enabled variant. *)
Fixpoint compiledb (first : bool) (variants : list nat) : outcome (list (nat * bytes)) :=
  match variants with
  | [] => Written []
  | v :: r =>
      bind (create_compile_db first v) (fun p =>
      bind (compiledb (snd p) r) (fun fs => Written ((v, fst p) :: fs)))
  end.
End CompileDb.
