(** How pools are used. *)
From Verif Require Import PoolModel.
Require Import ZArith List.
Import ListNotations.
Open Scope Z_scope.

(** Types of C: the alignment is a power of two that divides the size. The items have room for a
    pointer, and fit into the first block after its link. *)
Definition types_ok (size align : nat -> Z) : Prop := forall k,
  (exists e, 0 <= e /\ align k = 2 ^ e) /\ (align k | size k) /\ 8 <= size k /\ mem_offset align k + size k <= 4096.
Definition apart (a n b m : Z) : Prop := a + n <= b \/ b + m <= a.
(** malloc(n) returns memory that is aligned and not in use. *)
Definition malloc_ok (align : nat -> Z) (k : nat) (n : Z) (s : st) (b : Z) : Prop :=
  0 < b /\ (align k | b) /\ forall k' b' n', In (k', b', n') (blocks s) -> apart b n b' n'.
(** What callers do: they allocate, and free items that are in use, in any thread, into a pool
    for the same type. *)
Inductive reach (size align : nat -> Z) : st -> Prop :=
| r_new : reach size align start
| r_alloc s k m : reach size align s -> (forall b, m = Some b -> malloc_ok align k (next_size (pools s k)) s b) -> reach size align (snd (mempool_alloc size align k m s))
| r_free s k k' p : reach size align s -> In (p, k') (live s) -> size k' = size k -> align k' = align k -> reach size align (mempool_free k p s).
(** What a pool has got from malloc. *)
Fixpoint bytes (k : nat) (l : list (nat * Z * Z)) : Z :=
  match l with [] => 0 | (k', _, n) :: l => (if Nat.eqb k' k then n else 0) + bytes k l end.
(** No pool has got as much as 4 GB, less the 4096 bytes of the first block. *)
Definition small (s : st) : Prop := forall k, bytes k (blocks s) < 2 ^ 32 - 4096.
