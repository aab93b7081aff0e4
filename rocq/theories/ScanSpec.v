(** What a scan has to find. A path is a list of names, the last one first: [[]] is the top
    of the tree. *)
From Verif Require Import Base PathModel DbModel ScanModel.

Definition path := list bytes.

(** What is on the disk at a path. *)
Fixpoint named (nm : bytes) (l : list (bytes * tree)) : option tree :=
  match l with [] => None | (k, t) :: l => if bytes_eqb k nm then Some t else named nm l end.
Fixpoint on_disk (t : tree) (r : path) : option tree :=
  match r with
  | [] => Some t
  | nm :: r => match on_disk t r with Some (FDir l) => named nm l | _ => None end
  end.

(** The entry of the database at a path. *)
Inductive at_path (d : db) : path -> nat -> node -> Prop :=
| ap_top n : lookup d top = Some n -> at_path d [] top n
| ap_in r x n nm y m : at_path d r x n -> In (y, m) (nodes d) -> dir m = x -> nname m = nm -> at_path d (nm :: r) y m.

(** Directories of the version control systems and of tup are not scanned. *)
Definition skipped (nm : bytes) : Prop := In nm [B "."; B ".."; B ".tup"; B ".git"; B ".hg"; B ".bzr"; B ".svn"; B ".ccache"].
Definition visible (r : path) : Prop := forall nm, In nm r -> ~ skipped nm.
(** The top directory of the database also has the environment, the files outside of the tree
    and the exclusions. *)
Definition special (nm : bytes) : Prop := In nm [B "$"; B "/"; B "^"].
Definition inside (r : path) : Prop := forall nm u, r = u ++ [nm] -> ~ special nm.

Definition is_file (k : ntype) : bool := match k with TFile | TGenerated => true | _ => false end.
Definition is_dir (k : ntype) : bool := match k with TDir | TGeneratedDir => true | _ => false end.
(** Entries that stand for something on the disk. *)
Definition real (k : ntype) : bool := is_file k || is_dir k.

(** A database as tup makes it. *)
Record sound (d : db) : Prop := {
  so_ids : NoDup (map fst (nodes d));
  so_names : forall x n y m, In (x, n) (nodes d) -> In (y, m) (nodes d) -> dir n = dir m -> nname n = nname m -> x = y;
  so_top : exists n, lookup d top = Some n /\ kind n = TDir /\ dir n = 0;
  (* a directory is older than what is in it *)
  so_parent : forall x n, In (x, n) (nodes d) -> x <> top -> lookup d (dir n) <> None /\ dir n < x;
  so_links : forall x y, In (x, y) (normal d) -> lookup d x <> None /\ lookup d y <> None;
  so_source : forall x n s, In (x, n) (nodes d) -> src n = Some s -> lookup d s <> None;
  so_generated : forall x n, In (x, n) (nodes d) -> kind n = TGenerated -> src n <> None;
  (* files and directories are in directories *)
  so_home : forall x n, In (x, n) (nodes d) -> real (kind n) = true -> x <> top -> exists m, lookup d (dir n) = Some m /\ is_dir (kind m) = true;
  (* no directory is called tup.config *)
  so_config : forall x n, In (x, n) (nodes d) -> nname n = B "tup.config" -> is_dir (kind n) = false }.

(** A tree that can be scanned: one entry for a name, and no directory called tup.config. *)
Record scannable (t : tree) : Prop := {
  sc_names : forall r l, on_disk t r = Some (FDir l) -> NoDup (map fst l);
  sc_config : forall r l, on_disk t (B "tup.config" :: r) <> Some (FDir l) }.

(** No file or directory has the name of a command, a group or a variable of its directory,
    and no device, fifo or socket took the place of a file or directory. *)
Definition no_clash (d : db) (t : tree) : Prop :=
  forall r x n, visible r -> at_path d r x n ->
    match on_disk t r with
    | Some FOther => real (kind n) = false
    | Some _ => real (kind n) = true \/ kind n = TGhost
    | None => True
    end.

(** The database says what is on the disk. *)
Record agrees (d : db) (t : tree) : Prop := {
  ag_file : forall r m, visible r -> on_disk t r = Some (FFile m) -> exists x n, at_path d r x n /\ is_file (kind n) = true /\ time n = m;
  ag_dir : forall r l, visible r -> on_disk t r = Some (FDir l) -> exists x n, at_path d r x n /\ is_dir (kind n) = true;
  (* generated files and directories stay until they are made again *)
  ag_none : forall r x n, visible r -> inside r -> on_disk t r = None -> at_path d r x n -> kind n <> TFile /\ kind n <> TDir }.

(** The same at the end of the transaction, where tup removes generated directories in which
    nothing is left. *)
Record settled (d d' : db) (t : tree) : Prop := {
  se_file : forall r m, visible r -> on_disk t r = Some (FFile m) -> exists x n, at_path d' r x n /\ is_file (kind n) = true /\ time n = m;
  se_dir : forall r l, visible r -> on_disk t r = Some (FDir l) ->
    (exists x n, at_path d' r x n /\ is_dir (kind n) = true) \/ (exists x n, at_path d r x n /\ kind n = TGeneratedDir);
  se_none : forall r x n, visible r -> inside r -> on_disk t r = None -> at_path d' r x n -> kind n <> TFile /\ kind n <> TDir }.

(** Nothing changed since the database was made: what is on the disk is in the database, with
    its time, and every entry of a directory is on the disk. *)
Record unchanged (d : db) (t : tree) : Prop := {
  un_file : forall r m, visible r -> on_disk t r = Some (FFile m) -> exists x n, at_path d r x n /\ is_file (kind n) = true /\ time n = m;
  un_dir : forall r l, visible r -> on_disk t r = Some (FDir l) -> exists x n, at_path d r x n /\ is_dir (kind n) = true;
  un_entry : forall r l nm x n, on_disk t r = Some (FDir l) -> at_path d (nm :: r) x n -> real (kind n) = true -> (r = [] -> ~ special nm) -> on_disk t (nm :: r) <> None }.
