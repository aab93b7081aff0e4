(** C65: a variant builds what a build in the source tree builds. *)
From Verif Require Import Base NamesModel NamesSpec NamesProofs NamesProofs2 NamesProofs3 NamesExamples.
From Coq Require Import Permutation.

(** For every history of edits and updates: an update of a variant succeeds
    exactly when the update of a build in the source tree does, and then its
    commands are the same, with the same inputs up to order. Partial: rules
    with !tup_preserve, outputs with reserved names, outputs in other
    directories that are source files there, and files written over generated
    ones are excluded; all four are refuted below or excluded by design. *)
Theorem C65_same_commands_partial glob need1 need2 h :
  (forall own r, parsed h own r -> plain h own r) ->
  respects glob need1 h ->
  Forall2 same_outcome (snd (history glob need1 false h empty))
                       (snd (history glob need2 true h empty)).
Proof.
  intros HP HR. apply (simulation glob need1 need2 (fun l => In (Write l) h)); [tauto| |exact HR].
  intros own r H. destruct (HP own r H) as [P1 P2 P3 P4]. constructor; assumption.
Qed.
Print Assumptions C65_same_commands_partial.

Example C65_same_commands_example :
  (forall own r, parsed project own r -> plain project own r) /\
  respects ends none project /\
  map (option_map (@length cmd)) (snd (history ends none false project empty)) =
    [Some 6; Some 3; None; Some 3; None].
Proof.
  split; [|split; [|vm_compute; reflexivity]].
  - intros own r [tfs [rs [H1 [H2 H3]]]].
    assert (D : (own = 1 /\ r = gen_h) \/ (own = 0 /\ (r = gen_b \/ r = compile \/ r = link))).
    { unfold project in H1. cbn in H1.
      repeat (destruct H1 as [H1|H1]; [first [discriminate H1 | injection H1 as <-; cbn in H2;
        repeat (destruct H2 as [H2|H2]; [injection H2 as <- <-; cbn in H3; intuition auto|]); destruct H2]|]).
      destruct H1. }
    destruct D as [[-> ->]|[-> [-> |[-> | ->]]]]; (constructor; [reflexivity|try discriminate; intros _ ? ? _; reflexivity| |]);
      intros ins l Hl E; cbn in Hl.
    + destruct Hl as [<-|[]]; vm_compute; reflexivity.
    + destruct Hl as [<-|[]]; elim E; reflexivity.
    + destruct Hl as [<-|[]]; vm_compute; reflexivity.
    + destruct Hl as [<-|[]]; elim E; reflexivity.
    + destruct ins as [|[d n] ins]; [destruct Hl|]. cbn in Hl. destruct Hl as [<-|[]]. cbn [snd].
      change (reserved (n ++ B ".o") = false).
      destruct (reserved (n ++ B ".o")) eqn:R; [|reflexivity]. exfalso.
      unfold reserved in R. apply existsb_exists in R. destruct R as [x [Hx Ex]].
      apply bytes_eqb_eq in Ex. apply (f_equal (@rev ascii)) in Ex. rewrite rev_app_distr in Ex.
      cbn in Hx. repeat (destruct Hx as [<-|Hx]; [discriminate Ex|]). destruct Hx.
    + destruct ins as [|[d n] ins]; [destruct Hl|]. cbn in Hl. destruct Hl as [<-|[]]. elim E; reflexivity.
    + destruct Hl as [<-|[]]; vm_compute; reflexivity.
    + destruct Hl as [<-|[]]; elim E; reflexivity.
  - intros h1 l h2 E o. unfold project in E.
    repeat (destruct h1 as [|e h1]; cbn [app] in E;
      [ first [discriminate E | injection E; intros _ <-; vm_compute; discriminate]
      | first [discriminate E | injection E; clear E; intros E <-] ]).
Qed.

(** After any history, in the source tree or in a variant: a successful update
    that parses each of its Tupfiles once has made every output with one
    command, has removed what these Tupfiles made before and do not make any
    more, and has changed nothing else. *)
Theorem C65_update glob needed variant h tfs cs :
  NoDup (map fst tfs) ->
  snd (happen glob needed variant (Update tfs) (fst (history glob needed variant h empty))) = Some (Some cs) ->
  updated tfs cs (fst (history glob needed variant h empty))
                 (fst (history glob needed variant (h ++ [Update tfs]) empty)).
Proof. apply update_history. Qed.
Print Assumptions C65_update.

(** In the example, the second update remakes three files, and b.c, b.c.o and
    c.c.o are gone. *)
Example C65_update_example :
  let h := firstn 5 project in
  let tfs := [(0, [compile; link])] in
  let st := fst (history ends none true (h ++ [Update tfs]) empty) in
  NoDup (map fst tfs) /\
  (exists cs, snd (happen ends none true (Update tfs) (fst (history ends none true h empty))) = Some (Some cs) /\
     flat_map c_outs cs = [at0 "a.c.o"; at0 "z.c.o"; at0 "prog"]) /\
  map (get (s_here (fst (history ends none true h empty)))) [at0 "b.c.o"; at0 "a.c.o"; at1 "lib.h"] =
    [Some (KGen 0); Some (KGen 0); Some (KGen 1)] /\
  map (get (s_here st)) [at0 "b.c.o"; at0 "a.c.o"; at1 "lib.h"] = [None; Some (KGen 0); Some (KGen 1)].
Proof.
  cbv zeta. split; [constructor; [intros []|constructor]|].
  split; [eexists; split; vm_compute; reflexivity|]. split; vm_compute; reflexivity.
Qed.

(** While an update parses the Tupfile of [own], with [before] parsed and
    [after] to come, an output is accepted exactly when: in a variant, the
    source tree does not have it (for an output in the own directory); in the
    source tree, its name is not reserved (same) and it is not an ordinary
    file; no command of this update made it; and if it was generated before,
    then by a Tupfile that this update parses. *)
Theorem C65_output glob needed variant h before own rs after st1 cs1 st cs2 copy l :
  NoDup (map fst before ++ own :: after) ->
  let st0 := fst (history glob needed variant h empty) in
  parse_all glob variant (own :: after) before st0 = Some (st1, cs1) ->
  run_rules glob variant own after rs (begin own st1) = Some (st, cs2) ->
  output variant own after copy st l <> None <->
  (variant = true -> copy = false -> fst l = own ->
     get (s_source st0) l = None \/ get (s_source st0) l = Some KGhost) /\
  (variant = false -> fst l = own -> reserved (snd l) = false) /\
  (forall o, ~ makes (cs1 ++ cs2) o l) /\
  get (s_here st0) l <> Some KFile /\
  (forall o, get (s_here st0) l = Some (KGen o) -> In o (map fst before ++ own :: after)).
Proof. intros N st0 E1 E2. apply (output_history glob variant needed h before own rs after st1 cs1 st cs2 copy l N E1 E2). Qed.
Print Assumptions C65_output.

Example C65_output_example :
  let h := firstn 5 project in
  exists st1 cs1 st cs2,
    parse_all ends true [0] [(1, [])] (fst (history ends none true h empty)) = Some (st1, cs1) /\
    run_rules ends true 0 [] [compile] (begin 0 st1) = Some (st, cs2) /\
    map (fun l => match output true 0 [] false st l with Some _ => true | None => false end)
      [at0 "prog"; at0 "a.c.o"; at0 "a.c"; at0 "new"; at1 "lib.h"] = [true; false; false; true; true].
Proof.
  cbv zeta. do 4 eexists. split; [vm_compute; reflexivity|]. split; [vm_compute; reflexivity|].
  vm_compute; reflexivity.
Qed.

(** A wildcard in a variant stands for exactly the files the variant has that
    match and can be used, and the files of the source tree that match. *)
Theorem C65_wildcard glob needed own copy st d p :
  parsing glob needed own st -> is_glob p = true ->
  exists l, add_path glob true own copy st (d, p) = Some l /\ NoDup l /\
    (forall i, In i l <->
       fst (i_loc i) = d /\ glob p (snd (i_loc i)) = true /\
       ((i = Item false true (i_loc i) /\ own_file own st (i_loc i)) \/
        (i = Item true false (i_loc i) /\ source_file st (i_loc i)))).
Proof. intros H. apply variant_wildcard. eapply parsing_ok, H. Qed.
Print Assumptions C65_wildcard.

(** A name without wildcards stands for the file the variant has (unless for
    !tup_preserve), or for the file of the source tree if the variant has none
    or its own is to be deleted; and otherwise it is an error. *)
Theorem C65_explicit glob needed own copy st l ls :
  parsing glob needed own st -> is_glob (snd l) = false ->
  add_path glob true own copy st l = Some ls <->
  exists i, ls = [i] /\
    ((i = Item false true l /\ copy = false /\ own_file own st l) \/
     (i = Item true false l /\ source_file st l /\
      (copy = true \/ In l (s_delete st) \/ forall o, get (s_here st) l <> Some (KGen o)))).
Proof. intros H Hg. apply variant_explicit; [eapply parsing_ok, H|exact Hg]. Qed.
Print Assumptions C65_explicit.

Definition midway : option (state * list cmd) :=
  run_rules ends true 0 [] [compile]
    (begin 0 (fst (history ends none true (firstn 7 project) empty))).

Example C65_names_example :
  exists st cs, midway = Some (st, cs) /\ parsing ends none 0 st /\
    add_path ends true 0 false st (at0 "*.c") =
      Some [Item true false (at0 "a.c"); Item true false (at0 "b.c"); Item true false (at0 "z.c")] /\
    add_path ends true 0 false st (at0 "*.o") =
      Some [Item false true (at0 "a.c.o"); Item false true (at0 "b.c.o"); Item false true (at0 "z.c.o")] /\
    add_path ends true 0 false st (at0 "prog") = None /\
    add_path ends true 0 false st (at0 "b.c") = Some [Item true false (at0 "b.c")].
Proof.
  destruct midway as [[st cs]|] eqn:E; [|vm_compute in E; discriminate].
  exists st, cs. split; [reflexivity|]. split.
  - exists (firstn 7 project), [], [], [compile]. do 3 eexists. split; [reflexivity|]. exact E.
  - vm_compute in E. injection E as <- <-. repeat split; vm_compute; reflexivity.
Qed.

(** The order of the inputs is not the same: a variant has the generated files
    first. *)
Theorem C65_order_refuted :
  let h := [Write (at0 "a.txt"); Update [(0, [gen_txt; cat_all])];
            Write (at0 "z.txt"); Update [(0, [gen_txt; cat_all])]] in
  (forall own r, parsed h own r -> plain h own r) /\ respects ends none h /\
  exists c1 c2 c3 d1 d2 d3,
    snd (history ends none false h empty) = [Some c1; Some [c2; c3]] /\
    snd (history ends none true h empty) = [Some d1; Some [d2; d3]] /\
    map i_loc (c_ins c3) = [at0 "a.txt"; at0 "g.txt"; at0 "z.txt"] /\
    map i_loc (c_ins d3) = [at0 "g.txt"; at0 "a.txt"; at0 "z.txt"].
Proof.
  cbv zeta. split; [|split].
  - intros own r [tfs [rs [H1 [H2 H3]]]].
    assert (D : own = 0 /\ (r = gen_txt \/ r = cat_all)).
    { cbn in H1.
      repeat (destruct H1 as [H1|H1]; [first [discriminate H1 | injection H1 as <-; cbn in H2;
        repeat (destruct H2 as [H2|H2]; [injection H2 as <- <-; cbn in H3; intuition auto|]); destruct H2]|]).
      destruct H1. }
    destruct D as [-> [-> | ->]]; (constructor; [reflexivity|intros _ ? ? _; reflexivity| |]);
      intros ins l Hl E; cbn in Hl; destruct Hl as [<-|[]]; first [vm_compute; reflexivity|elim E; reflexivity].
  - intros h1 l h2 E o.
    repeat (destruct h1 as [|e h1]; cbn [app] in E;
      [ first [discriminate E | injection E; intros _ <-; vm_compute; discriminate]
      | first [discriminate E | injection E; clear E; intros E <-] ]).
  - do 6 eexists. repeat split; vm_compute; reflexivity.
Qed.
Print Assumptions C65_order_refuted.

(** A rule may generate a file that the source tree already has, if it names it
    with its directory: in the source tree that is an error, in a variant it is
    accepted, and a wildcard then has the same name twice. *)
Theorem C65_far_output_refuted :
  let h := [Write (at1 "x.txt"); Update [(0, [gen_far; cat_far])]] in
  snd (history ends none false h empty) = [None] /\
  exists c1 c2, snd (history ends none true h empty) = [Some [c1; c2]] /\
    map i_loc (c_ins c2) = [at1 "x.txt"; at1 "x.txt"].
Proof. cbv zeta. split; [vm_compute; reflexivity|]. do 2 eexists. split; vm_compute; reflexivity. Qed.
Print Assumptions C65_far_output_refuted.

(** A file called Tupfile may be generated in a variant. *)
Theorem C65_reserved_refuted :
  let h := [Update [(0, [gen_tupfile])]] in
  snd (history ends none false h empty) = [None] /\
  exists c, snd (history ends none true h empty) = [Some [c]] /\ c_outs c = [at0 "Tupfile"].
Proof. cbv zeta. split; [vm_compute; reflexivity|]. eexists. split; vm_compute; reflexivity. Qed.
Print Assumptions C65_reserved_refuted.

(** After !tup_preserve, a wildcard in a variant has the file twice: the copy
    and the source. *)
Theorem C65_preserve_twice_refuted :
  let h := [Write (at0 "x.txt"); Update [(0, [preserve; cat_all])]] in
  (exists c, snd (history ends none false h empty) = [Some [c]] /\
    map i_loc (c_ins c) = [at0 "x.txt"]) /\
  exists c1 c2, snd (history ends none true h empty) = [Some [c1; c2]] /\
    map i_loc (c_ins c2) = [at0 "x.txt"; at0 "x.txt"].
Proof.
  cbv zeta. split; [eexists; split; vm_compute; reflexivity|].
  do 2 eexists. split; vm_compute; reflexivity.
Qed.
Print Assumptions C65_preserve_twice_refuted.

(** !tup_preserve on a wildcard that also matches a generated file is nothing
    in the source tree and an error in a variant. *)
Theorem C65_preserve_fails_refuted :
  let h := [Write (at0 "x.txt"); Update [(0, [gen_txt; preserve])]] in
  (exists c, snd (history ends none false h empty) = [Some [c]]) /\
  snd (history ends none true h empty) = [None].
Proof. cbv zeta. split; [eexists|]; vm_compute; reflexivity. Qed.
Print Assumptions C65_preserve_fails_refuted.
