(** Who owns an output. *)
From Verif Require Import Base ConfigModel DbModel DbSpec RuleModel.

(** [produces d c x]: the database records c as the producer of x. *)
Definition produces (d : db) (c x : nat) : Prop := In (c, x) (normal d).

(** Each generated file has one producer at most. *)
Definition one_producer (d : db) : Prop := forall x a b, is_kind d TGenerated x -> produces d a x -> produces d b x -> a = b.

(** Rows have distinct ids, links join different rows, and what produces a generated file (or
    an entry for an excluded one) is a command. *)
Record sound (d : db) : Prop := {
  s_ids : NoDup (map fst (nodes d));
  s_rows : forall x y, In (x, y) (normal d) -> lookup d x <> None /\ lookup d y <> None;
  s_self : forall x, ~ In (x, x) (normal d);
  s_commands : forall a x, produces d a x -> is_kind d TGenerated x \/ is_kind d TGhost x -> is_kind d TCmd a }.

(** Everything else that happens to the database between two rules, or two
    updates: entries come and go, but nothing becomes a generated file, and generated
    files get no new producers. *)
Record elsewhere (d d' : db) : Prop := {
  e_sound : sound d';
  e_kind : forall x, is_kind d' TGenerated x -> is_kind d TGenerated x;
  e_links : forall a x, is_kind d' TGenerated x -> produces d' a x -> produces d a x }.

(** A history: Tupfiles are parsed, rules are declared, other things happen, and
    the program ends and starts again. Commands are only removed when all Tupfiles are parsed. *)
Inductive history : pst -> pst -> Prop :=
| h_start p : history p p
| h_begin p p' tf : history p p' -> history p (begin_dir tf p')
| h_declare p p' p'' tf r : history p p' -> declare tf r p' = Some p'' -> history p p''
(* a rule uses a generated file as an input: add_input asks who makes it *)
| h_input p p' p'' x o : history p p' -> is_kind (pdb p') TGenerated x -> get_incoming x p' = Some (o, p'') -> history p p''
| h_else p p' d : history p p' -> elsewhere (pdb p') d -> (forall c, is_kind (pdb p') TCmd c -> is_kind d TCmd c) -> history p (with_db p' d)
| h_restart p p' d waiting : history p p' -> elsewhere (pdb p') d ->
    history p {| pdb := d; cache := fun _ => None; pdel := []; pwait := waiting; pcmds := []; pq := [] |}.
