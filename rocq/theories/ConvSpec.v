(** Which directories become tup's own. *)
From Verif Require Import Base DbModel ScanModel ScanSpec.

Section Spec.
  Variable d : db.
  (** The directories whose Tupfiles were parsed. *)
  Variable parsed : list nat.

  (** [y] is directly in [x]. *)
  Definition within (x y : nat) (m : node) : Prop := lookup d y = Some m /\ dir m = x.
  (** A file or directory that a Tupfile of another directory makes in [x]. *)
  Definition foreign (x : nat) (m : node) : Prop := (kind m = TGenerated \/ kind m = TGeneratedDir) /\ src m <> Some x.

  (** A directory is taken over if it was parsed or one in it is taken over, no file of the user
      is in it, all the user's directories in it are taken over, and something in it is tup's:
      made from another directory, or a directory that is taken over. *)
  Inductive taken (x : nat) : Prop :=
  | taken_intro :
      (In x parsed \/ exists y m, taken y /\ within x y m) ->
      (forall y m, within x y m -> kind m <> TFile) ->
      (forall y m, within x y m -> kind m = TDir -> taken y) ->
      (exists y m, within x y m /\ (foreign x m \/ taken y)) ->
      taken x.

  (** A file of the user is in the directory, or in one of the user's directories in it. *)
  Inductive holds : nat -> Prop :=
  | holds_file x y m : within x y m -> kind m = TFile -> holds x
  | holds_dir x y m : within x y m -> kind m = TDir -> holds y -> holds x.

  (** A tree that is built in place: its directories are not copies of others. *)
  Definition in_place : Prop := forall x n, lookup d x = Some n -> is_dir (kind n) = true -> src n = None.
  (** The directory of the environment variables is a directory at the top, and only variables
      are in it. *)
  Definition has_environment : Prop :=
    exists e n, within top e n /\ nname n = B "$" /\ kind n = TDir /\ forall y m, within e y m -> kind m = TVar.
End Spec.
