(** Specification vocabulary for paths: what a path denotes, independent of
    the model of pel_group.c. *)
From Verif Require Import Base.

(** Splitting at '/': the (possibly empty) pieces between the separators. *)
Fixpoint pieces (p : bytes) : list bytes :=
  match p with
  | [] => [[]]
  | c :: p' =>
    if c =?c "/"%char then [] :: pieces p'
    else match pieces p' with
         | [] => [[c]]
         | x :: xs => (c :: x) :: xs
         end
  end.

Definition nonempty (x : bytes) : bool := match x with [] => false | _ => true end.

(** The components of a path: the non-empty pieces. *)
Definition components (p : bytes) : list bytes := filter nonempty (pieces p).

(** A directory is named by the list of names leading to it from the root.
    One step of a walk, in a tree without symbolic links: "." stays, ".." goes
    to the parent (the root is its own parent), a name descends. *)
Definition step (dir : list bytes) (c : bytes) : list bytes :=
  if bytes_eqb c (B ".") then dir
  else if bytes_eqb c (B "..") then removelast dir
  else dir ++ [c].

Definition walk (dir : list bytes) (cs : list bytes) : list bytes :=
  fold_left step cs dir.

(** What a path denotes when used from the directory [cwd]. *)
Definition absolute (p : bytes) : bool :=
  match p with c :: _ => c =?c "/"%char | [] => false end.
Definition denotes (cwd : list bytes) (p : bytes) : list bytes :=
  walk (if absolute p then [] else cwd) (components p).

(** A normalised component list: no "." and ".." only as a leading run. *)
Definition plain (c : bytes) : Prop := c <> [] /\ c <> B "." /\ c <> B ".." /\ ~ In "/"%char c.
Definition normal (cs : list bytes) : Prop :=
  exists n names, cs = repeat (B "..") n ++ names /\ Forall plain names.

(** The file of absolute path [p] is inside the directory of absolute path
    [top]. *)
Definition inside (top p : bytes) : Prop :=
  exists rest, denotes [] p = denotes [] top ++ rest.

(** How a directory is spelled by getcwd: "/a/b/c". *)
Definition canon (names : list bytes) : bytes := flat_map (fun c => "/"%char :: c) names.

(** One name is a proper prefix of another. *)
Definition proper_prefix (e c : bytes) : Prop := exists r, r <> [] /\ c = e ++ r.

(** A walk along [p] takes the ".." of the root directory. *)
Definition climbs (p : bytes) : Prop :=
  exists l1 l2, components p = l1 ++ B ".." :: l2 /\ walk [] l1 = [].

(** The names that make a file part of no project. *)
Definition ignored_names : list bytes :=
  map B ["."; ".."; ".tup"; ".git"; ".hg"; ".bzr"; ".svn"; ".ccache"]%string.
