(** What it means that a variant builds what a build in the source tree would
    build, and what a name means in a variant. *)
From Verif Require Import Base NamesModel.
From Coq Require Import Permutation.

(** Two commands, one in the source tree and one in a variant, are alike if
    they come from the same Tupfile, name the same outputs, and have the same
    inputs in some order, each name once: the variant takes what is generated
    from its own directories and what is not from the source tree. *)
Definition alike (a b : cmd) : Prop :=
  c_dir a = c_dir b /\ c_outs a = c_outs b /\
  Permutation (map (fun i => (i_gen i, i_loc i)) (c_ins a))
              (map (fun i => (i_gen i, i_loc i)) (c_ins b)) /\
  NoDup (map i_loc (c_ins b)) /\
  (forall i, In i (c_ins b) -> i_source i = negb (i_gen i)).

(** Two lists of commands are alike if each command of one is like one of the
    other, in some order. *)
Definition alike_all (a b : list cmd) : Prop :=
  exists b', Permutation b b' /\ Forall2 alike a b'.

(** Both updates fail, or both succeed with the same commands. *)
Definition same_outcome (a b : option (list cmd)) : Prop :=
  match a, b with
  | None, None => True
  | Some x, Some y => alike_all x y
  | _, _ => False
  end.

(** [tf] is parsed somewhere in the history. *)
Definition parsed (h : list event) (own : nat) (r : rule) : Prop :=
  exists tfs rs, In (Update tfs) h /\ In (own, rs) tfs /\ In r rs.

(** The rules that are covered: !tup_preserve is not used; the outputs of a
    rule that is not foreach do not depend on the order of its inputs; no
    output in the Tupfile's own directory has a name reserved by tup; and no
    output in another directory has the name of a file the user writes. *)
Record plain (h : list event) (own : nat) (r : rule) : Prop := {
  plain_preserve : r_preserve r = false;
  plain_order : r_each r = false -> forall a b, Permutation a b -> r_outs r a = r_outs r b;
  plain_reserved : forall ins l, In l (r_outs r ins) -> fst l = own -> reserved (snd l) = false;
  plain_far : forall ins l, In l (r_outs r ins) -> fst l <> own -> ~ In (Write l) h }.

(** The user never writes over a file that tup has generated (in the source
    tree). *)
Definition respects glob needed (h : list event) : Prop :=
  forall h1 l h2, h = h1 ++ Write l :: h2 ->
    forall o, get (s_here (fst (history glob needed false h1 empty))) l <> Some (KGen o).

(** What a pattern may stand for in a variant: a file the variant has, that is
    not to be deleted and was generated by this Tupfile or by the Tupfile of
    its directory; or an ordinary file of the source tree. *)
Definition own_file (own : nat) (st : state) (l : loc) : Prop :=
  ~ In l (s_delete st) /\
  (get (s_here st) l = Some (KGen own) \/ get (s_here st) l = Some (KGen (fst l))).

Definition source_file (st : state) (l : loc) : Prop := get (s_source st) l = Some KFile.

(** The states a variant can be in while an update parses a Tupfile of
    directory [own]: after some history, some Tupfiles of the update and some
    rules of the current one. *)
Definition parsing glob needed (own : nat) (st : state) : Prop :=
  exists h before after rs st1 cs cs',
    parse_all glob true (own :: after) before (fst (history glob needed true h empty)) = Some (st1, cs) /\
    run_rules glob true own after rs (begin own st1) = Some (st, cs').

(** A command of [cs] from the Tupfile of [o] makes [l]. *)
Definition makes (cs : list cmd) (o : nat) (l : loc) : Prop :=
  exists c, In c cs /\ c_dir c = o /\ In l (c_outs c).

(** What a successful update leaves: every output was made by one command and
    belongs to the Tupfile of that command; what the parsed Tupfiles made
    before and do not make any more is gone; nothing else changed. *)
Record updated (tfs : list (nat * list rule)) (cs : list cmd) (before after : state) : Prop := {
  up_once : NoDup (flat_map c_outs cs);
  up_from : forall c, In c cs -> In (c_dir c) (map fst tfs);
  up_made : forall o l, makes cs o l -> get (s_here after) l = Some (KGen o);
  up_gone : forall o l, In o (map fst tfs) -> get (s_here before) l = Some (KGen o) ->
              (forall o', ~ makes cs o' l) ->
              get (s_here after) l = None \/ get (s_here after) l = Some KGhost;
  up_kept : forall l, (forall o, In o (map fst tfs) -> get (s_here before) l <> Some (KGen o)) ->
              (forall o', ~ makes cs o' l) -> get (s_here after) l = get (s_here before) l;
  up_source : s_source after = s_source before }.
