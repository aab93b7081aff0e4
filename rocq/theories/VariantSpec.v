(** What the directories of variants should be. *)
From Verif Require Import Base DbModel VariantModel.

(** [y] is somewhere in the directory [x]. *)
Inductive below (r : table) (x : nat) : nat -> Prop :=
| below_child y n : get r y = Some n -> up n = Some x -> below r x y
| below_step y n p : get r y = Some n -> up n = Some p -> below r x p -> below r x y.
Definition inside (r : table) (x y : nat) : Prop := y = x \/ below r x y.

(** A table that describes a directory tree. *)
Record tree_ok (r : table) (top : nat) : Prop := {
  t_ids : NoDup (map fst r);
  t_names : forall x y n m, get r x = Some n -> get r y = Some m -> up n = up m -> nm n = nm m -> x = y;
  t_up : forall x n p, get r x = Some n -> up n = Some p -> exists m, get r p = Some m;
  t_top : forall x n, get r x = Some n -> (up n = None <-> x = top);
  t_topin : exists n, get r top = Some n;
  t_rank : exists rank : nat -> nat, forall x n p, get r x = Some n -> up n = Some p -> rank p < rank x }.

(** [y] has the same path below [v] as [x] has below the top. *)
Inductive twin (r : table) (top v : nat) : nat -> nat -> Prop :=
| twin_top : twin r top v top v
| twin_sub p q x y n m : twin r top v p q -> get r x = Some n -> up n = Some p -> get r y = Some m -> up m = Some q -> nm m = nm n -> twin r top v x y.
(** In addition all directories on the way refer to their source directories. *)
Inductive mirrors (r : table) (top v : nat) : nat -> nat -> Prop :=
| mirrors_top : mirrors r top v top v
| mirrors_sub p q x y n m : mirrors r top v p q -> get r x = Some n -> up n = Some p -> get r y = Some m -> up m = Some q -> nm m = nm n ->
    ty m = TDir -> srcid m = Src x -> mirrors r top v x y.

(** In no variant. *)
Definition in_source (r : table) (variants : list nat) (x : nat) : Prop := forall v, In v variants -> ~ inside r v x.
(** A directory of the source tree. *)
Definition source_dir (r : table) (top : nat) (variants : list nat) (x : nat) : Prop :=
  in_source r variants x /\ exists n, get r x = Some n /\ ty n = TDir /\ virtual top n = false.
(** A directory of a variant whose source directory was removed, is no directory
    any more, or has another name. *)
Definition stale (r : table) (top : nat) (variants : list nat) (x : nat) : Prop :=
  (exists v, In v variants /\ inside r v x) /\
  exists n, get r x = Some n /\ ty n = TDir /\ virtual top n = false /\
    (srcid n = SrcRemoved \/ exists y m, srcid n = Src y /\ get r y = Some m /\ (ty m <> TDir \/ y <> top /\ nm m <> nm n)).

Definition isdir (r : table) (x : nat) : Prop := exists n, get r x = Some n /\ ty n = TDir.
(** Variants are directories that are not in each other; what a directory of a
    variant refers to is in the source tree; what a directory is in is a directory;
    directories are on the disk. *)
Record project_ok (r : table) (top : nat) (variants : list nat) (k : list (nat * bytes)) : Prop := {
  p_tree : tree_ok r top;
  p_in : forall v, In v variants -> v <> top /\ isdir r v;
  p_apart : forall v w, In v variants -> In w variants -> ~ below r v w;
  p_refs : forall v x n y, In v variants -> inside r v x -> get r x = Some n -> srcid n = Src y -> in_source r variants y /\ exists m, get r y = Some m;
  p_dirs : forall x n p, get r x = Some n -> ty n = TDir -> up n = Some p -> isdir r p;
  p_disk : forall x n d, get r x = Some n -> up n = Some d -> ty n = TDir \/ ty n = TGeneratedDir -> In (d, nm n) k }.
(** No flagged directory that lost its source directory has the path of another
    directory of the source tree. *)
Definition not_replaced (r : table) (top : nat) (variants flagged : list nat) : Prop :=
  forall x v a, In x flagged -> stale r top variants x -> In v variants -> in_source r variants a -> isdir r a -> ~ twin r top v a x.

(** The directory is gone: a ghost at most, and nothing is on the disk. *)
Definition gone (r : table) (s : state) (x : nat) : Prop :=
  (forall n, get (tbl s) x = Some n -> ty n = TGhost) /\
  (forall b, In b (disk s) -> fst b <> x) /\
  forall n d, get r x = Some n -> up n = Some d -> ~ In (d, nm n) (disk s).
(** So is everything in it. *)
Definition cleared (r : table) (s : state) (x : nat) : Prop :=
  forall q, isdir r q -> inside r x q -> gone r s q /\ forall p m, get r p = Some m -> up m = Some q -> forall n, get (tbl s) p = Some n -> ty n = TGhost.
