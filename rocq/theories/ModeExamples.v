(** Histories of projects with variants. *)
From Verif Require Import Base ModeModel ModeSpec.

Inductive step := Do (o : op) | Scan | Upd.
Definition all_ok (g : file) : bool := true.
(** The world, the database and what the updates said. *)
Fixpoint run (l : list step) (w : world) (b : db) : world * db * list bool :=
  match l with
  | [] => (w, b, [])
  | Do o :: r => run r (act o w) b
  | Scan :: r => run r (scanned w) (scan w b)
  | Upd :: r => let '(w1, b1, x) := update all_ok w b in
                let '(w2, b2, xs) := run r w1 b1 in (w2, b2, x :: xs)
  end.

Definition sub : path := [B "sub"].
Definition builds : path := [B "builds"].
Definition va : path := [B "a"].
Definition vb : path := [B "b"].
Definition outs (p : path) : list bytes :=
  if path_eqb p [] then [B "prog"] else if path_eqb p sub then [B "x.o"] else [].
Definition home : world := start [[]; sub; builds] outs.
Definition result (l : list step) : list file * list bool :=
  let '(w, _, x) := run l home init in (wgen w, x).
