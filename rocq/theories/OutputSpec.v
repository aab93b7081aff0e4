(** When an output counts as unchanged. *)
From Verif Require Import Base OutputModel.

(** Both files exist, have the same type and mode, and the same bytes. *)
Definition unchanged (old new : option inode) : Prop := exists f, old = Some f /\ new = Some f.

(** The system returns as much as fits into the buffer. *)
Definition full_reads (w : nat -> nat) : Prop := forall i, bufsize <= w i.

(** Link targets of Linux are shorter than the buffer. *)
Definition short_link (f : option inode) : Prop := forall n, f = Some n -> i_link n = true -> (N.of_nat (length (i_data n)) <= 4096)%N.
