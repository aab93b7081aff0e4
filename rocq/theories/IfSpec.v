(** Block structure of a Tupfile, independent of if_stmt.c. *)
From Verif Require Import Base.

(** A Tupfile seen as a tree: plain lines and conditional blocks with an
    optional else part. *)
Inductive blocks :=
| Done
| Line (l : bytes) (rest : blocks)
| If (l : bytes) (thn rest : blocks)
| IfElse (l : bytes) (thn els rest : blocks).

Fixpoint flatten (b : blocks) : list bytes :=
  match b with
  | Done => []
  | Line l r => l :: flatten r
  | If l t r => l :: flatten t ++ [B "endif"] ++ flatten r
  | IfElse l t e r => l :: flatten t ++ [B "else"] ++ flatten e ++ [B "endif"] ++ flatten r
  end.

Definition starts (kw l : bytes) : Prop := exists arg, l = kw ++ arg.
Definition is_if (l : bytes) : Prop :=
  starts (B "ifeq ") l \/ starts (B "ifneq ") l \/ starts (B "ifdef ") l \/ starts (B "ifndef ") l.
Definition is_plain (l : bytes) : Prop := ~ is_if l /\ l <> B "else" /\ l <> B "endif".

Fixpoint wf (b : blocks) : Prop :=
  match b with
  | Done => True
  | Line l r => is_plain l /\ wf r
  | If l t r => is_if l /\ wf t /\ wf r
  | IfElse l t e r => is_if l /\ wf t /\ wf e /\ wf r
  end.

Fixpoint depth (b : blocks) : nat :=
  match b with
  | Done => 0
  | Line _ r => depth r
  | If _ t r => Nat.max (S (depth t)) (depth r)
  | IfElse _ t e r => Nat.max (S (Nat.max (depth t) (depth e))) (depth r)
  end.

Section Sem.
Variable St : Type.
(** The meaning of an if line in a state: [None] is an error. *)
Variable cond : St -> bytes -> St * option bool.
Variable other : St -> bytes -> St * bool.

(** What the file means: lines in selected branches are executed in order,
    conditions of blocks in selected branches are evaluated when the block is
    reached, everything else is skipped. An error stops. *)
Fixpoint run (active : bool) (b : blocks) (s : St) : St * bool :=
  match b with
  | Done => (s, true)
  | Line l r =>
    if active then
      let (s1, ok) := other s l in if ok then run active r s1 else (s1, false)
    else run active r s
  | If l t r =>
    let (s1, c) := if active then cond s l else (s, Some false) in
    match c with
    | None => (s1, false)
    | Some v =>
      let (s2, ok) := run (active && v) t s1 in
      if ok then run active r s2 else (s2, false)
    end
  | IfElse l t e r =>
    let (s1, c) := if active then cond s l else (s, Some false) in
    match c with
    | None => (s1, false)
    | Some v =>
      let (s2, ok) := run (active && v) t s1 in
      if ok then
        let (s3, ok3) := run (active && negb v) e s2 in
        if ok3 then run active r s3 else (s3, false)
      else (s2, false)
    end
  end.
End Sem.

(** The truth value of an if line, given how "(a,b)" and variable names are
    evaluated. *)
Definition if_meaning {St : Type} (eval_eq var_ifdef : St -> bytes -> St * option bool)
    (s : St) (l : bytes) : St * option bool :=
  let neg (r : St * option bool) := (fst r, option_map negb (snd r)) in
  if prefixb (B "ifeq ") l then eval_eq s (skipn 5 l)
  else if prefixb (B "ifneq ") l then neg (eval_eq s (skipn 6 l))
  else if prefixb (B "ifdef ") l then var_ifdef s (skipn 6 l)
  else if prefixb (B "ifndef ") l then neg (var_ifdef s (skipn 7 l))
  else (s, None).

(** Nesting of arbitrary line sequences: the depth after the lines, [None]
    when an else or endif has no block or more than [limit] blocks are open. *)
Definition if_lineb (l : bytes) : bool :=
  prefixb (B "ifeq ") l || prefixb (B "ifneq ") l || prefixb (B "ifdef ") l || prefixb (B "ifndef ") l.

Fixpoint nesting (limit d : nat) (ls : list bytes) : option nat :=
  match ls with
  | [] => Some d
  | l :: ls' =>
    if bytes_eqb l (B "else") then
      match d with O => None | S _ => nesting limit d ls' end
    else if bytes_eqb l (B "endif") then
      match d with O => None | S d' => nesting limit d' ls' end
    else if if_lineb l then
      if d <? limit then nesting limit (S d) ls' else None
    else nesting limit d ls'
  end.
