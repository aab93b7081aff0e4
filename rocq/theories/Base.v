(** Common vocabulary: byte strings and a few list lemmas.
    Nothing in this file models code of /repo. *)
From Coq Require Export String Ascii List Arith NArith ZArith Lia Bool.
Export ListNotations.
#[global] Open Scope list_scope.
#[global] Open Scope nat_scope.

(** A C string without its terminating NUL. *)
Definition bytes := list ascii.

(** Literal byte strings: [B "abc"]. *)
Definition B (s : string) : bytes := list_ascii_of_string s.
Arguments B s%string_scope.

Notation "a =?c b" := (Ascii.eqb a b) (at level 70, no associativity).

Definition bytes_eq_dec (x y : bytes) : {x = y} + {x <> y} :=
  list_eq_dec ascii_dec x y.

Fixpoint bytes_eqb (x y : bytes) : bool :=
  match x, y with
  | [], [] => true
  | a :: x', b :: y' => (a =?c b) && bytes_eqb x' y'
  | _, _ => false
  end.

Lemma bytes_eqb_spec x y : reflect (x = y) (bytes_eqb x y).
Proof.
  revert y; induction x as [|a x IH]; intros [|c y]; cbn;
    try (constructor; congruence).
  destruct (Ascii.eqb_spec a c) as [E|E]; cbn.
  - destruct (IH y) as [E2|E2]; constructor; congruence.
  - constructor; congruence.
Qed.

Lemma bytes_eqb_eq x y : bytes_eqb x y = true <-> x = y.
Proof. destruct (bytes_eqb_spec x y); split; congruence. Qed.

Lemma bytes_eqb_refl x : bytes_eqb x x = true.
Proof. apply bytes_eqb_eq; reflexivity. Qed.

(** [prefixb p s]: [p] is a prefix of [s]. *)
Fixpoint prefixb (p s : bytes) : bool :=
  match p, s with
  | [], _ => true
  | _ :: _, [] => false
  | a :: p', c :: s' => (a =?c c) && prefixb p' s'
  end.

Lemma prefixb_spec p s : prefixb p s = true <-> exists r, s = p ++ r.
Proof.
  revert s; induction p as [|a p IH]; intros [|c s]; cbn.
  - split; [exists []; reflexivity|reflexivity].
  - split; [exists (c :: s); reflexivity|reflexivity].
  - split; [discriminate|intros [r H]; discriminate].
  - rewrite andb_true_iff, Ascii.eqb_eq, IH. split.
    + intros [-> [r ->]]. exists r; reflexivity.
    + intros [r H]. injection H as -> ->. split; [reflexivity|exists r; reflexivity].
Qed.

(** No byte of a C string is NUL. *)
Definition no_nul (s : bytes) : Prop := ~ In "000"%char s.
