(** Which entries nothing refers to. *)
From Verif Require Import Base ConfigModel DbModel.

(** What is removed when nothing needs it: ghosts, groups, generated directories. *)
Definition disposable (k : ntype) : bool := match k with TGhost | TGroup | TGeneratedDir => true | _ => false end.

Section Spec.
  Variable d : db.
  Variable excl : nat. (* the directory of exclusions *)

  (** [keeps y x]: the entry x is still needed because of y.
      - A ghost, or generated directory, is needed by what is in it, by the entries
        made for it, and by the entries that depend on it.
      - A group is needed by its members and producers, and by its users.
      - An exclusion is needed by the commands that declare it. *)
  Inductive keeps (y x : nat) : Prop :=
  | k_child n m : lookup d x = Some n -> dir n <> excl -> (kind n = TGhost \/ kind n = TGeneratedDir) ->
      In (y, m) (nodes d) -> dir m = x -> keeps y x
  | k_variant n m : lookup d x = Some n -> dir n <> excl -> (kind n = TGhost \/ kind n = TGeneratedDir) ->
      In (y, m) (nodes d) -> src m = Some x -> keeps y x
  | k_user n : lookup d x = Some n -> dir n <> excl -> In (x, y) (normal d) -> keeps y x
  | k_member n : lookup d x = Some n -> dir n <> excl -> kind n = TGroup -> In (y, x) (normal d) -> keeps y x
  | k_sticky n : lookup d x = Some n -> dir n <> excl -> kind n = TGroup -> In (x, y) (sticky d) -> keeps y x
  | k_excluded n : lookup d x = Some n -> dir n = excl -> In (y, x) (normal d) -> keeps y x.

  (** Removing y is a reason to look at x. *)
  Definition neighbour (y x : nat) : Prop :=
    (exists m, In (y, m) (nodes d) /\ (dir m = x \/ src m = Some x)) \/ In (x, y) (normal d) \/ In (y, x) (normal d).

  (** [gone queued x]: x is a ghost, a group or a generated directory that was queued, or
      is next to something gone, and all that would keep it is gone. *)
  Inductive gone (queued : list nat) : nat -> Prop :=
  | gone_queued x n : lookup d x = Some n -> disposable (kind n) = true -> nname n <> B "tup.config" -> In x queued ->
      (forall y, keeps y x -> gone queued y) -> gone queued x
  | gone_next x n z : lookup d x = Some n -> disposable (kind n) = true -> nname n <> B "tup.config" -> gone queued z -> neighbour z x ->
      (forall y, keeps y x -> gone queued y) -> gone queued x.

  Definition queueable (z : nat) : Prop := exists m, lookup d z = Some m /\ disposable (kind m) = true.

  (** A consistent database. *)
  Record consistent : Prop := {
    c_unique : NoDup (map fst (nodes d));
    c_parent : forall x n, In (x, n) (nodes d) -> disposable (kind n) = true -> lookup d (dir n) <> None;
    c_source : forall x n s, In (x, n) (nodes d) -> src n = Some s -> lookup d s <> None;
    c_links : forall x y, In (x, y) (normal d) -> lookup d x <> None /\ lookup d y <> None;
    (* groups and exclusions are not directories *)
    c_leaves : forall x n y m, lookup d x = Some n -> kind n = TGroup \/ dir n = excl -> In (y, m) (nodes d) -> dir m <> x /\ src m <> Some x;
    c_excluded : forall x n, lookup d x = Some n -> dir n = excl -> kind n <> TGroup;
    (* declared inputs belong to commands *)
    c_sticky : forall x y m, In (x, y) (sticky d) -> lookup d y = Some m -> kind m = TCmd }.
End Spec.

(** What the next update will run or parse. *)

(** An entry is scheduled if it is flagged, or comes after something flagged. *)
Inductive scheduled (d : db) : nat -> Prop :=
| sch_flag x : In x (modify d) -> scheduled d x
| sch_after x y : scheduled d x -> In (x, y) (normal d) -> scheduled d y.

Definition is_kind (d : db) (k : ntype) (x : nat) : Prop := exists n, lookup d x = Some n /\ kind n = k.
