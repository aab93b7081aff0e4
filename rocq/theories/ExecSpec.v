(** What a prepared update graph is, and what "depends on" means. *)
From Verif Require Import Base ExecModel.

(** [nodes]: all nodes but the root. What graph.c [create_graph],
    [build_graph] and [prune_graph] hand over to [execute_graph]. *)
Record prepared (g : graph) (root : id) (nodes : list id) : Prop := {
  p_lists : node_list g = root :: nodes;
  p_plist : plist g = [];
  p_nodup : NoDup (root :: nodes);
  p_src : forall e, In e (edges g) -> In (src e) (root :: nodes);
  p_dst : forall e, In e (edges g) -> In (dst e) nodes;
  p_incoming : forall n, In n nodes -> exists e, In e (edges g) /\ dst e = n;
  p_state : forall n, In n nodes -> state g n <> Processing;
  p_expanded : forall n, In n nodes -> expanded g n = true;
  p_trans : forall n, trans g n <> TDelete;
  p_root : trans g root = TNone;
  (* transient files are generated files; what they link to are not *)
  p_flip : forall e, In e (edges g) -> trans g (src e) = TProcessing -> trans g (dst e) = TNone
}.

(** [b] depends directly on [a]. *)
Definition direct (g : graph) (a b : id) : Prop :=
  exists e, In e (edges g) /\ src e = a /\ dst e = b.

Inductive depends (g : graph) (root : id) : id -> id -> Prop :=
| dep_direct a b : direct g a b -> a <> root -> depends g root a b
| dep_trans a b c : depends g root a b -> direct g b c -> b <> root -> depends g root a c.

Definition acyclic (g : graph) : Prop :=
  exists rank : id -> nat, forall e, In e (edges g) -> rank (src e) < rank (dst e).

(** [a] happened before [b] in a history that lists the newest event first. *)
Definition before (h : list event) (a b : event) : Prop :=
  exists h1 h2, h = h1 ++ b :: h2 /\ In a h2.

Definition starts (n : id) (h : list event) : nat :=
  length (filter (fun e => match e with Start m => m =? n | _ => false end) h).
