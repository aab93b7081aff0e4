(** Model of src/tup/mempool.c: the pools that most of tup's records come from. Addresses are
    integers; what malloc returns is given. There is one pool for each thread and type of record
    (_Thread_local), a number here; the locked list of blocks is the only thing that they share. *)
Require Import ZArith List Bool.
Import ListNotations.
Open Scope Z_scope.

(** mempool.h:31-38, without the size and the alignment of the items, which do not change *)
Record pool := Pool { free_list : list Z; next_size : Z; free_count : Z; mem : Z }.
(** The pools, the blocks that malloc gave (the pool, the address, the size; [head] of mempool.c:27 has
    their addresses), and the items that are in use, with the pool that each came from (which
    the program does not record). *)
Record st := { pools : nat -> pool; blocks : list (nat * Z * Z); live : list (Z * nat) }.
Definition addr (x : nat * Z * Z) : Z := snd (fst x).
Definition block_list (s : st) : list Z := map addr (blocks s).

(** sizeof(struct mementry): a pointer *)
Definition entry_size : Z := 8.
(** mempool.h:41 *)
Definition ALLOC_BLOCK_SIZE : Z := 4096.
Definition two32 : Z := 2 ^ 32.
(** unsigned int, size_t, and the conversion of a size_t to int *)
Definition to_uint (z : Z) : Z := z mod two32.
Definition to_size (z : Z) : Z := z mod 2 ^ 64.
Definition to_int (z : Z) : Z := (z + 2 ^ 31) mod two32 - 2 ^ 31.

Definition set_pool (f : nat -> pool) (k : nat) (q : pool) : nat -> pool := fun i => if Nat.eqb i k then q else f i.
(** mempool.h:42 MEMPOOL_INITIALIZER *)
Definition start : st := {| pools := fun _ => Pool [] ALLOC_BLOCK_SIZE 0 0; blocks := []; live := [] |}.

Section Mempool.
Variables size align : nat -> Z.

(** mempool.c:72 mem_offset *)
Definition mem_offset (k : nat) : Z := (entry_size + (align k - 1)) / align k * align k.

(** mempool.c:59-75: a block that malloc gave *)
Definition new_block (k : nat) (b : Z) (s : st) : st :=
  let q := pools s k in
  {| pools := set_pool (pools s) k (Pool (free_list q) (to_uint (next_size q * 2)) (to_int (to_size (next_size q - mem_offset k) / size k)) (b + mem_offset k));
     blocks := (k, b, next_size q) :: blocks s; live := live s |}.
(** mempool.c:81-88. [Z.land] is the & of C. *)
Definition next_item (k : nat) (s : st) : option Z * st :=
  let q := pools s k in
  if Z.land (mem q) (align k - 1) =? 0
  then (Some (mem q), {| pools := set_pool (pools s) k (Pool (free_list q) (next_size q) (free_count q - 1) (mem q + size k)); blocks := blocks s; live := (mem q, k) :: live s |})
  else (None, s).
(** mempool.c:30-89 mempool_alloc. [m] is what malloc returns if it is called. *)
Definition mempool_alloc (k : nat) (m : option Z) (s : st) : option Z * st :=
  let q := pools s k in
  match free_list q with
  | p :: r => (Some p, {| pools := set_pool (pools s) k (Pool r (next_size q) (free_count q) (mem q)); blocks := blocks s; live := (p, k) :: live s |})
  | [] =>
      match (if free_count q =? 0 then if size k <? entry_size then None else option_map (fun b => new_block k b s) m else Some s) with
      | None => (None, s)
      | Some s => next_item k s
      end
  end.
(** mempool.c:91-97 mempool_free of an item that is not NULL *)
Definition mempool_free (k : nat) (p : Z) (s : st) : st :=
  let q := pools s k in
  {| pools := set_pool (pools s) k (Pool (p :: free_list q) (next_size q) (free_count q) (mem q)); blocks := blocks s; live := filter (fun x => negb (fst x =? p)) (live s) |}.
(** mempool.c:99-108 mempool_clear: what is given to free *)
Definition mempool_clear (s : st) : list Z := block_list s.
End Mempool.
