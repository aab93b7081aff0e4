(** What happens to the files, which events it causes, and how each change alone is recorded. *)
From Verif Require Import Base MonModel.

Inductive op :=
| Create (k : key) (t : Z) | Write (k : key) (t : Z) | Remove (k : key)
| Rename (a b : key)              (* over b, if it exists *)
| MoveOut (a : key)               (* to a place that is not watched *)
| MoveIn (b : key) (t : Z).       (* from such a place, over b if it exists *)

Definition files := key -> option Z.
(** The files after an operation; None if it cannot take place. *)
Definition apply_op (o : op) (fs : files) : option files :=
  match o with
  | Create k t => match fs k with None => Some (set fs k (Some t)) | Some _ => None end
  | Write k t => match fs k with Some _ => Some (set fs k (Some t)) | None => None end
  | Remove k | MoveOut k => match fs k with Some _ => Some (set fs k None) | None => None end
  | Rename a b => match fs a with Some t => if key_eqb a b then None else Some (set (set fs b (Some t)) a None) | None => None end
  | MoveIn b t => Some (set fs b (Some t))
  end.
Fixpoint apply_ops (l : list op) (fs : files) : option files :=
  match l with [] => Some fs | o :: r => match apply_op o fs with Some fs' => apply_ops r fs' | None => None end end.

(** The kernel's events; the two halves of a rename share a cookie. *)
Definition events_of (c : nat) (o : op) : list event :=
  let ev k m c := {| vkey := k; vmask := m; vcookie := c |} in
  match o with
  | Create k _ => [ev k KCreate 0] | Write k _ => [ev k KModify 0] | Remove k => [ev k KDelete 0]
  | Rename a b => [ev a KFrom c; ev b KTo c] | MoveOut a => [ev a KFrom c] | MoveIn b _ => [ev b KTo c]
  end.
Fixpoint all_events (c : nat) (l : list op) : list event :=
  match l with [] => [] | o :: r => events_of c o ++ all_events (S c) r end.

(** Every change recorded by itself, in order. *)
Definition record (fs : files) (o : op) (d : dbs) : dbs :=
  match o with
  | Create k _ => watch fs k d
  | Write k _ => file_modified fs k d
  | Remove k | MoveOut k => del k d
  | Rename a b => del a (file_modified fs b d)
  | MoveIn b _ => file_modified fs b d
  end.

(** Files whose name came with a rename are not removed or moved again. *)
Fixpoint settled (moved : list key) (l : list op) : Prop :=
  match l with
  | [] => True
  | o :: r =>
      match o with
      | Create _ _ | Write _ _ => settled moved r
      | Remove k | MoveOut k => ~ In k moved /\ settled moved r
      | Rename a b => ~ In a moved /\ settled (b :: moved) r
      | MoveIn b _ => settled (b :: moved) r
      end
  end.
