(** What tup todo should show. *)
From Verif Require Import Base ExecModel GraphModel GraphSpec.

(** [a] comes before [c] in the list. *)
Definition ahead (l : list id) (a c : id) : Prop := exists l1 l2, l = l1 ++ c :: l2 /\ In a l1.

(** Needed for the targets, in the graph of all that is affected; without
    targets, anything. *)
Definition wanted (kind_of : id -> kind) (exclusion : id -> bool) (whole : graph) (targets : option (list id)) (n : id) : Prop :=
  match targets with None => True | Some ts => needed kind_of exclusion whole ts n end.

(** No cycles: the stored links and the declared inputs go up. *)
Definition no_cycles (kind_of : id -> kind) (links glinks inputs : id -> list id) : Prop :=
  exists rank : id -> nat, (forall a n, next kind_of links glinks a n -> rank a < rank n) /\ (forall n i, In i (inputs n) -> rank i < rank n).
