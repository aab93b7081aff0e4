(** C51 (what a rule leaves in the database, and when its command runs again) and
    C52 (tup refactor changes nothing). *)
From Verif Require Import Base ExecModel GraphModel TentModel TentSpec LinkModel LinkSpec LinkProofs.
From Coq Require Import Sorted ZArith.

Section props.
Variable kind_of : id -> kind.
Variable excl : id -> bool.
Variable is_env : id -> bool.
Variable c : id.
Notation record_rule := (record_rule kind_of excl c).
Notation consistent := (consistent kind_of excl is_env c).
Notation proper := (proper kind_of excl is_env c).

(** ** C51. Recording a rule for a command never fails for a rule that is not
    circular; then the command's outputs, exclusions, group and declared inputs are
    those of the rule, and the rows fit together again. *)
Theorem C51_recorded d modified transient r : consistent r -> proper d -> taken_over d r -> ~ circular d ->
  exists r' checked, record_rule d false modified transient r = Some (r', checked) /\
    same_outputs kind_of excl d r' /\ same_inputs d r' /\ consistent r'.
Proof.
  intros K P T N. destruct (record_ok kind_of excl is_env c d modified transient r K P T N) as [r' [ck [E R]]].
  exists r', ck. split; [exact E|]. split; [exact (rec_outs _ _ _ _ _ _ _ _ _ _ R)|]. split; [exact (rec_ins _ _ _ _ _ _ _ _ _ _ R)|exact (rec_ok _ _ _ _ _ _ _ _ _ _ R)].
Qed.

(** What the command read is kept, except for files that are no longer declared;
    all of it goes when a group is no longer an input, since no one knows which
    files the group had. *)
Theorem C51_reads_kept d modified transient r r' checked : consistent r -> proper d -> taken_over d r ->
  record_rule d false modified transient r = Some (r', checked) ->
  forall x, In x (nin r') <->
    In x (nin r) /\ (In x (stk r) -> In x (d_ins d)) /\ ~ loses_group kind_of d r \/
    In x (d_env d) /\ (~ In x (stk r) \/ loses_group kind_of d r).
Proof.
  intros K P T E. assert (~ circular d) as N by (intros C; rewrite (record_circular kind_of excl is_env c d _ _ _ _ P C) in E; discriminate).
  destruct (record_ok kind_of excl is_env c d modified transient r K P T N) as [r1 [ck [E1 R]]]. rewrite E in E1. injection E1 as <- <-. exact (rec_nin _ _ _ _ _ _ _ _ _ _ R).
Qed.

(** Group members: the outputs of the rule are in its group, the old outputs are
    no longer in the old one, and the other memberships stay. *)
Theorem C51_members d modified transient r r' checked : consistent r -> proper d -> taken_over d r ->
  record_rule d false modified transient r = Some (r', checked) ->
  forall x g, In (x, g) (member r') <->
    In (x, g) (member r) /\ ~ (makes kind_of excl r x /\ writes_group kind_of r g) \/ In x (d_outs d) /\ d_group d = Some g.
Proof.
  intros K P T E. assert (~ circular d) as N by (intros C; rewrite (record_circular kind_of excl is_env c d _ _ _ _ P C) in E; discriminate).
  destruct (record_ok kind_of excl is_env c d modified transient r K P T N) as [r1 [ck [E1 R]]]. rewrite E in E1. injection E1 as <- <-. exact (rec_member _ _ _ _ _ _ _ _ _ _ R).
Qed.

(** What runs again: the command exactly if the rule changed; a group that was left,
    and the group of a rule whose outputs changed. A command with transient outputs
    is put on their list as well, and the readers of files that left a group are
    flagged. *)
Theorem C51_flagged d modified transient r r' checked : consistent r -> proper d -> taken_over d r ->
  record_rule d false modified transient r = Some (r', checked) ->
  (In c (modlist r') <-> In c (modlist r) \/ rule_changed kind_of excl d modified r) /\
  (forall y, y <> c -> In y (modlist r') <-> In y (modlist r) \/ writes_group kind_of r y /\ d_group d <> Some y \/
     d_group d = Some y /\ (modified = true \/ ~ same_outputs kind_of excl d r)) /\
  (forall y, In y (translist r') <-> In y (translist r) \/ y = c /\ transient = true /\ (modified = true \/ ~ same_outputs kind_of excl d r)) /\
  (forall y, In y (poked r') <-> In y (poked r) \/ makes kind_of excl r y /\ exists g, writes_group kind_of r g /\ d_group d <> Some g).
Proof.
  intros K P T E. assert (~ circular d) as N by (intros C; rewrite (record_circular kind_of excl is_env c d _ _ _ _ P C) in E; discriminate).
  destruct (record_ok kind_of excl is_env c d modified transient r K P T N) as [r1 [ck [E1 R]]]. rewrite E in E1. injection E1 as <- <-.
  pose proof (rec_mod _ _ _ _ _ _ _ _ _ _ R) as M.
  split; [|split; [|split; [exact (rec_trans _ _ _ _ _ _ _ _ _ _ R)|exact (rec_poked _ _ _ _ _ _ _ _ _ _ R)]]].
  - rewrite (M c). split; [|intuition]. intros [H|[[_ H]|[[[H _] _]|[H _]]]]; [auto|auto|exfalso; exact (k_self _ _ _ _ _ K H)|].
    exfalso. destruct (p_real _ _ _ _ _ P c) as [X _]; [auto|exact (X eq_refl)].
  - intros y Hy. rewrite (M y). split; [|intuition]. intros [H|[[H _]|H]]; [auto|contradiction|auto].
Qed.

(** The groups are checked for cycles (C06) exactly if an input group or the output
    group is new. *)
Theorem C51_cycle_check d modified transient r r' checked : consistent r -> proper d -> taken_over d r ->
  record_rule d false modified transient r = Some (r', checked) ->
  checked = true <-> exists g, d_group d = Some g /\ (~ writes_group kind_of r g \/ exists x, group_id kind_of x /\ In x (d_ins d) /\ ~ In x (stk r)).
Proof.
  intros K P T E. assert (~ circular d) as N by (intros C; rewrite (record_circular kind_of excl is_env c d _ _ _ _ P C) in E; discriminate).
  destruct (record_ok kind_of excl is_env c d modified transient r K P T N) as [r1 [ck [E1 R]]]. rewrite E in E1. injection E1 as <- <-. exact (rec_checked _ _ _ _ _ _ _ _ _ _ R).
Qed.

Theorem C51_circular_rejected d refac modified transient r : proper d -> circular d -> record_rule d refac modified transient r = None.
Proof. apply record_circular. Qed.

(** Recording the same rule once more changes no row at all. *)
Theorem C51_again d modified transient transient' r r' checked : consistent r -> proper d -> taken_over d r ->
  record_rule d false modified transient r = Some (r', checked) -> record_rule d false false transient' r' = Some (r', false).
Proof.
  intros K P T E. assert (~ circular d) as N by (intros C; rewrite (record_circular kind_of excl is_env c d _ _ _ _ P C) in E; discriminate).
  destruct (record_ok kind_of excl is_env c d modified transient r K P T N) as [r1 [ck [E1 R]]]. rewrite E in E1. injection E1 as <- <-.
  apply (record_same kind_of excl is_env c); [exact (rec_ok _ _ _ _ _ _ _ _ _ _ R)|exact P|exact N|exact (rec_outs _ _ _ _ _ _ _ _ _ _ R)|exact (rec_ins _ _ _ _ _ _ _ _ _ _ R)].
Qed.

(** ** C52. When refactoring, a rule is accepted exactly if the command was not
    modified and the database says what the rule says; then nothing is written. *)
Theorem C52_rule d modified transient r r' checked : consistent r -> proper d ->
  (record_rule d true modified transient r = Some (r', checked) <->
   r' = r /\ checked = false /\ modified = false /\ ~ circular d /\ same_outputs kind_of excl d r /\ same_inputs d r).
Proof.
  intros K P. split.
  - intros E. destruct (record_refac kind_of excl is_env c d modified transient r r' checked K P E) as [-> [N [SO SI]]].
    rewrite (record_same kind_of excl is_env c d true transient r K P N SO SI) in E. injection E as <- <-. repeat (split; [reflexivity|]). auto.
  - intros [-> [-> [-> [N [SO SI]]]]]. apply (record_same kind_of excl is_env c); assumption.
Qed.
End props.
Print Assumptions C51_recorded.
Print Assumptions C51_reads_kept.
Print Assumptions C51_members.
Print Assumptions C51_flagged.
Print Assumptions C51_cycle_check.
Print Assumptions C51_circular_rejected.
Print Assumptions C51_again.
Print Assumptions C52_rule.

(** ** A case: command 9 made 3 and 4 into group 5 from 1, group 6 and the variable
    8, and has read 1 and 7 (a member of 6). Now it makes 4 and 10 into group 5
    from 1 and 8; entry 11 is an exclusion. *)
Definition ex_kind (x : id) : kind := match x with 5 | 6 => KGroup | 3 | 4 | 7 | 10 => KGenerated | 8 => KVar | 9 => KCmd | 11 => KGhost | _ => KFile end.
Definition ex_excl (x : id) : bool := x =? 11.
Definition ex_env (x : id) : bool := x =? 8.
Definition ex_rows : rows := {| nin := [1; 7; 8]; stk := [1; 6; 8]; outs := [5; 3; 4]; member := [(3, 5); (4, 5); (7, 6)]; glinks := [(6, 5)]; modlist := []; translist := []; ghostq := []; poked := [] |}.
Definition ex_new : declared := {| d_outs := [4; 10]; d_excl := [11]; d_group := Some 5; d_ins := [1; 8]; d_env := [8] |}.
Definition ex_old : declared := {| d_outs := [3; 4]; d_excl := []; d_group := Some 5; d_ins := [1; 6; 8]; d_env := [8] |}.
Ltac cases := intros; cbn in *; repeat match goal with H : _ \/ _ |- _ => destruct H | H : False |- _ => destruct H | H : _ /\ _ |- _ => destruct H | H : (_, _) = (_, _) |- _ => injection H as ? ? | H : Some _ = Some _ |- _ => injection H as ? end; subst; try discriminate; try lia; auto 8.
Example ex_consistent : consistent ex_kind ex_excl ex_env 9 ex_rows.
Proof.
  assert (forall l, forallb (fun x => (Z.of_nat x <? 2 ^ 31)%Z) l = true -> small l) as Sm.
  { intros l H x I. rewrite forallb_forall in H. apply Z.ltb_lt, H, I. }
  constructor.
  - repeat constructor; cbn; lia.
  - cbn. lia.
  - split; [|split]; apply Sm; reflexivity.
  - intros g h [G1 G2] [H1 H2]. cases.
  - intros x g [M1 [M2 M3]]. unfold writes_group, group_id. split; [cases|]. intros [W1 W2]. cases; exfalso; apply M2; reflexivity.
  - intros a b. unfold writes_group, group_id. split; [cases|]. intros [[A1 A2] [B1 B2]]. cases.
  - intros x E. apply Nat.eqb_eq in E. subst. cbn. auto.
Qed.
Example ex_proper : proper ex_kind ex_excl ex_env 9 ex_new /\ proper ex_kind ex_excl ex_env 9 ex_old.
Proof.
  assert (forall l, forallb (fun x => (Z.of_nat x <? 2 ^ 31)%Z) l = true -> small l) as Sm.
  { intros l H x I. rewrite forallb_forall in H. apply Z.ltb_lt, H, I. }
  split; constructor.
  1, 8: repeat apply conj; unfold sorted; cbn; repeat first [apply SSorted_nil | apply SSorted_cons | apply Forall_nil | apply Forall_cons | lia].
  1, 7: repeat apply conj; try (apply Sm; reflexivity); intros g G; injection G as <-; apply Sm; reflexivity.
  1, 6: intros x H; cases.
  1, 5: intros x H; unfold group_id; cases; repeat split; try discriminate; reflexivity.
  1, 4: intros x H; unfold group_id; cases; repeat split; try discriminate; reflexivity.
  1, 3: intros g H; injection H as <-; reflexivity.
  all: intros x H; cases.
Qed.
Example ex_taken : taken_over ex_new ex_rows /\ ~ circular ex_new.
Proof.
  split; [intros x g H N; cbn in *; intros I; destruct H as [<-|[<-|[]]]; [apply N; auto|destruct I as [I|[I|[I|[]]]]; discriminate]|].
  intros [[g [G I]]|[x [H I]]]; [injection G as <-; cases|cases].
Qed.
(** The group 6 is no input any more: the read of 7 is forgotten and the command is
    flagged. *)
Example ex_recorded : record_rule ex_kind ex_excl 9 ex_new false false false ex_rows =
  Some ({| nin := [8]; stk := [1; 8]; outs := [11; 10; 5; 4]; member := [(10, 5); (4, 5); (7, 6)]; glinks := []; modlist := [5; 9]; translist := []; ghostq := [6]; poked := [] |}, false).
Proof. vm_compute. reflexivity. Qed.
Example ex_refactor : record_rule ex_kind ex_excl 9 ex_old true false false ex_rows = Some (ex_rows, false) /\
  record_rule ex_kind ex_excl 9 ex_new true false false ex_rows = None.
Proof. vm_compute. split; reflexivity. Qed.
