(** Walking a path in the tree of entries. *)
From Verif Require Import Base EntryModel.

Definition plain_name (n : bytes) : Prop := n <> [] /\ n <> B "." /\ n <> B ".." /\ ~ In "/"%char n.

(** [walks T s cs e]: following the components [cs] from [s] leads to [e]. *)
Inductive walks (T : tree) : nat -> list bytes -> nat -> Prop :=
| w_here s : walks T s [] s
| w_stay s cs e : walks T s cs e -> walks T s (B "." :: cs) e
| w_up s p cs e : parent T s = Some p -> walks T p cs e -> walks T s (B ".." :: cs) e
| w_down s c cs e : parent T c = Some s -> plain_name (name T c) -> walks T c cs e -> walks T s (name T c :: cs) e.

(** [leads T s path e]: the text [path], divided at the slashes. *)
Fixpoint slashed (cs : list bytes) : bytes :=
  match cs with [] => [] | [c] => c | c :: t => c ++ "/"%char :: slashed t end.
Definition leads (T : tree) (s : nat) (path : bytes) (e : nat) : Prop :=
  exists cs, cs <> [] /\ Forall (fun c => ~ In "/"%char c) cs /\ path = slashed cs /\ walks T s cs e.

(** A tree of directories with one top: no circles, names are usable in paths
    and unique in their directory. *)
Record directory_tree (T : tree) (top : nat) (member : nat -> Prop) : Prop := {
  dt_top : forall t, member t -> (parent T t = None <-> t = top);
  dt_up : forall t p, member t -> parent T t = Some p -> member p;
  dt_rank : exists rank : nat -> nat, forall t p, member t -> parent T t = Some p -> rank p < rank t;
  dt_name : forall t, member t -> t <> top -> plain_name (name T t);
  dt_unique : forall s t p, parent T s = Some p -> parent T t = Some p -> name T s = name T t -> s = t }.
