(** What a command does to files, as a user sees it. *)
From Verif Require Import Base ExecModel TentModel FileModel.

(** The name that file [x] has after the events: renames are followed. *)
Fixpoint current (x : bytes) (l : list event) : bytes :=
  match l with
  | [] => x
  | ERename a b :: r => current (if bytes_eqb x a then b else x) r
  | _ :: r => current x r
  end.

(** [f] was removed and nothing was put there again. *)
Definition removed (l : list event) (f : bytes) : Prop :=
  exists l1 l2, l = l1 ++ EUnlink f :: l2 /\
    forall e, In e l2 -> e <> EWrite f /\ forall a, e <> ERename a f.

(** The files that exist because the command created them. *)
Definition own_step (e : event) (o : list bytes) : list bytes :=
  match e with
  | EWrite f => f :: o
  | EUnlink f => filter (fun g => negb (bytes_eqb g f)) o
  | ERename a b => b :: filter (fun g => negb (bytes_eqb g a)) o
  | _ => o
  end.
Fixpoint own (l : list event) (o : list bytes) : list bytes :=
  match l with [] => o | e :: r => own r (own_step e o) end.

(** Only files that the command itself created are renamed (the FUSE server
    fails other renames, fuse_fs.c:1007-1011). *)
Fixpoint renames_own (l : list event) (o : list bytes) : Prop :=
  match l with
  | [] => True
  | e :: r => match e with ERename a _ => In a o | _ => True end /\ renames_own r (own_step e o)
  end.
