(** .gitignore files: gitignore() in src/tup/updater.c, remove_tup_gitignore() in
    src/tup/parser.c, tup_db_write_gitignore() in src/tup/db.c. *)
From Verif Require Import Base.

(** updater.c 1266-1267, parser.c 1149-1150: tg_str, of 26 bytes. *)
Definition tg_str : bytes := B "##### TUP GITIGNORE #####" ++ ["010"%char].
Definition tg_str_len : nat := 26.

(** updater.c 1308-1312, parser.c 1179-1183: tg_idx after one more byte. *)
Definition advance (tg_idx : nat) (nextchar : ascii) : nat :=
  match nth_error tg_str tg_idx with
  | Some c => if c =?c nextchar then S tg_idx else 0
  | None => 0
  end.
(** updater.c 1297-1323, parser.c 1174-1193: the bytes copied, and whether the copying stopped after
    tg_str. Errors of read and write are not modelled. *)
Fixpoint copy (tg_idx : nat) (s : bytes) : bytes * bool :=
  match s with
  | [] => ([], false)
  | nextchar :: t =>
      let tg_idx := advance tg_idx nextchar in
      if tg_idx =? tg_str_len then ([nextchar], true)
      else let '(a, found) := copy tg_idx t in (nextchar :: a, found)
  end.

(** db.c 2333-2372 write_gitignore_line. The buffer has PATH_MAX + 1 bytes, twice the longest name
    and more. *)
Definition escape1 (c : ascii) : bytes := if (c =?c "["%char) || (c =?c "]"%char) then ["\"%char; c] else [c].
Definition gitignore_line (name : bytes) : bytes := "/"%char :: flat_map escape1 name ++ ["010"%char].
(** db.c 2374-2437 tup_db_write_gitignore: [names] is what the select gives, the generated files and
    directories of the directory. *)
Definition write_gitignore (names : list bytes) (skip_self : bool) : bytes :=
  flat_map (fun name => if negb skip_self || negb (bytes_eqb name (B ".gitignore")) then gitignore_line name else []) names.

(** updater.c 1257-1360 gitignore: the new content, from the old one, if there is a file. [top] is
    tent->tnode.tupid == DOT_DT. *)
Definition header : bytes := B "##### Lines below automatically generated by Tup." ++ ["010"%char] ++ B "##### Do not edit." ++ ["010"%char].
Definition gitignore (top : bool) (names : list bytes) (old : option bytes) : bytes :=
  let '(copied, copied_tg_str) := match old with Some s => copy 0 s | None => ([], false) end in
  let bytes_copied := if copied_tg_str then length copied - tg_str_len else length copied in
  let skip_self := 0 <? bytes_copied in
  copied ++ (if copied_tg_str then [] else tg_str) ++ header ++ (if top then B ".tup" ++ ["010"%char] else []) ++ write_gitignore names skip_self.

(** parser.c 1144-1240 remove_tup_gitignore: the file it leaves, that becomes a normal file; None is
    to be deleted with the node. *)
Definition remove_tup_gitignore (old : bytes) : option bytes :=
  let '(copied, copied_tg_str) := copy 0 old in
  let kept := if copied_tg_str then firstn (length copied - tg_str_len) copied else copied in
  match kept with [] => None | _ => Some kept end.
