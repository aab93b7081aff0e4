(** What is to be deleted when Tupfiles were parsed. *)
From Verif Require Import Base DbModel ScanModel ScanSpec CleanModel.

(** Some rule of the Tupfiles has the file [nm] of the directory [dt] as an output. *)
Definition declared (tups : list tupfile) (dt : nat) (nm : bytes) : Prop := exists t, In t tups /\ In (dt, nm) (tf_outs t).
(** The directory is parsed. *)
Definition parsed (tups : list tupfile) (x : nat) : Prop := exists t, In t tups /\ tf_dir t = x.

(** A parse: each directory is parsed once, directories are directories, and outputs are in
    directories that the database has. The commands that are kept are commands of the directory. *)
Record parse_ok (d : db) (tups : list tupfile) : Prop := {
  po_once : NoDup (map tf_dir tups);
  po_dir : forall t, In t tups -> exists n, lookup d (tf_dir t) = Some n /\ kind n = TDir;
  po_outs : forall t dt nm, In t tups -> In (dt, nm) (tf_outs t) -> exists n, lookup d dt = Some n /\ is_dir (kind n) = true;
  po_keep : forall t c, In t tups -> In c (tf_keep t) -> exists n, lookup d c = Some n /\ kind n = TCmd /\ dir n = tf_dir t }.

(** A generated file of the database, made by a rule of the directory [s]. *)
Definition made (d : db) (r : path) (y : nat) (n : node) (s : nat) : Prop :=
  at_path d r y n /\ kind n = TGenerated /\ src n = Some s /\ nname n <> B ".gitignore".
(** The directory it was made from was removed, and it is in another one. *)
Definition orphan (d : db) (n : node) (s : nat) : Prop := In s (create d) /\ (exists m, lookup d s = Some m /\ kind m = TGhost) /\ dir n <> s.
