(** What the result of parsing all Tupfiles should be, whatever the order. *)
From Coq Require Import List Bool Arith Relations.
From Verif Require Import OrderModel.
Import ListNotations.

(** What a rule of [t] should find in [u], when [all u] is everything that the
    Tupfile of [u] generates and [own] is what the Tupfile of [t] generated in
    its earlier lines: the ordinary files of [u], the files that the Tupfile of
    [u] generates in [u], and those that [t] generated there so far. *)
Definition files_in (u : nat) (l : list (nat * nat)) : list nat :=
  map snd (filter (fun f => Nat.eqb (fst f) u) l).

Definition should_find (P : project) (all : nat -> list (nat * nat)) (t : nat) (own : list (nat * nat)) (u : nat)
  : list nat :=
  canon (t_sources (P u) ++ (if Nat.eqb u t then [] else files_in u (all u)) ++ files_in u own).

(** Then this is what the rules of [t] should generate. *)
Fixpoint should_make (P : project) (all : nat -> list (nat * nat)) (t : nat) (rs : list rule)
  (own : list (nat * nat)) : list (nat * nat) :=
  match rs with
  | [] => own
  | r :: rs' => should_make P all t rs' (own ++ r_make r (map (should_find P all t own) (r_uses r)))
  end.

(** What the Tupfile of [t] generates, according to a database. *)
Definition made_by (d : db) (t : nat) : list (nat * nat) :=
  map snd (filter (fun g => Nat.eqb (fst g) t) (d_files d)).

(** The database is right about the Tupfile of [t]: its generated files are
    those that its rules give on complete directories. *)
Definition right (P : project) (d : db) (t : nat) : Prop :=
  forall f, In f (made_by d t) <-> In f (should_make P (made_by d) t (t_rules (P t)) []).

(** The Tupfile of [t] matches files of [u]. *)
Definition matches_in (P : project) (u t : nat) : Prop :=
  u <> t /\ exists r, In r (t_rules (P t)) /\ In u (r_uses r).

(** [t] is on a circle of such directories. *)
Definition on_circle (P : project) (t : nat) : Prop := clos_trans nat (matches_in P) t t.
