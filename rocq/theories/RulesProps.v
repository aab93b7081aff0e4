(** C52: what tup refactor accepts in a directory. C53: the commands of a directory
    after its Tupfile was parsed. C54: ^-flags. *)
From Verif Require Import Base ExecModel ExecProofs GraphModel TentModel TentSpec TentProofs LinkModel LinkSpec LinkProofs RulesModel RulesSpec RulesProofs.
From Coq Require Import ZArith Sorted.

(** ** C54 *)
(** A command string is split as it reads; it is rejected exactly if a ^ at its start
    is not closed. *)
Theorem C54_split s p : split_command s = Some p <-> means s p.
Proof. split; [|apply split_means]. intros E. pose proof (split_inv s) as H. rewrite E in H. exact H. Qed.
Theorem C54_unclosed s : split_command s = None <-> unclosed s.
Proof.
  pose proof (split_inv s) as H. destruct (split_command s) as [p|] eqn:E; [|tauto]. split; [discriminate|]. intros [r [-> N]]. exfalso.
  remember ("^"%char :: r) as q eqn:Q. destruct H as [w t W T C|f w t F W T|f v d w t F V C D W T].
  - exact (C _ Q).
  - injection Q as <-. apply N. apply in_or_app. cbn. auto.
  - injection Q as <-. apply N. apply in_or_app. right. right. apply in_or_app. right. apply in_or_app. cbn. auto.
Qed.
(** The reading is unambiguous. *)
Theorem C54_one_meaning s p q : means s p -> means s q -> p = q.
Proof. intros A B. apply split_means in A, B. congruence. Qed.

Section props.
Variable kind_of : id -> kind.
Variable excl : id -> bool.
Variable is_env : id -> bool.
Variable dir : id.
Variable waiting : id -> bool.
Variable leftover : id -> bool.
Notation good := (good kind_of excl is_env).
Notation decent := (decent kind_of excl is_env).
Notation described := (described kind_of excl dir).
Notation parse_dir := (parse_dir kind_of excl dir waiting leftover).
Notation refactor_dir := (refactor_dir kind_of excl dir waiting leftover).

Lemma parse_rules l D s : parse_dir false l D = Some s ->
  do_rules kind_of excl dir waiting leftover false l {| p_db := D; used := []; todo := map cm_id (filter (fun m => cm_dir m =? dir) (cmds D)); shows := 0 |} = Some s.
Proof. unfold RulesModel.parse_dir. destruct (do_rules _ _ _ _ _ _ _ _) as [s'|]; cbn [obind andb]; [intros E; exact E|discriminate]. Qed.
Lemma parse_ok l D s : good D -> Forall decent l -> parse_dir false l D = Some s -> inv kind_of excl is_env dir waiting leftover D l s.
Proof.
  intros G DL E. apply parse_rules in E. exact (proj1 (inv_rules kind_of excl is_env dir waiting leftover D l DL [] _ s (inv_start kind_of excl is_env dir waiting leftover D G) E)).
Qed.

(** ** C53 *)
(** After a Tupfile was parsed, each rule has a command of its own with the rule's
    text, flags, display, outputs and inputs; the other commands that the directory
    had are to be deleted; and the database is still a good one. *)
Theorem C53_directory l D s : good D -> Forall decent l -> parse_dir false l D = Some s ->
  good (p_db s) /\ NoDup (used s) /\ Forall2 (fun r c => described (p_db s) r c /\ shown (p_db s) r c) l (rev (used s)) /\
  (forall c, In c (todo s) <-> in_dir dir D c /\ ~ In c (used s)) /\ (forall c, in_dir dir (p_db s) c <-> In c (used s) \/ In c (todo s)).
Proof.
  intros G DL E. pose proof (parse_ok l D s G DL E) as V. split; [exact (i_good _ _ _ _ _ _ _ _ _ V)|]. split; [exact (i_nodup _ _ _ _ _ _ _ _ _ V)|]. split; [exact (i_rules _ _ _ _ _ _ _ _ _ V)|].
  split; [exact (i_todo _ _ _ _ _ _ _ _ _ V)|]. intros c. rewrite (i_todo _ _ _ _ _ _ _ _ _ V). split.
  - intros [m [I [<- Ed]]]. destruct (inb (cm_id m) (used s)) eqn:U; [apply inb_in in U; auto|apply inb_out in U; right]. split; [|exact U]. exists m. split; [|auto]. apply (i_rows _ _ _ _ _ _ _ _ _ V m U). exact I.
  - intros [U|[[m [I [<- Ed]]] N]].
    + destruct (used_named kind_of excl is_env dir waiting leftover D l s c V U) as [r [_ [[m [I [Em [Ed _]]]] _]]]. exists m. auto.
    + exists m. split; [|auto]. apply (i_rows _ _ _ _ _ _ _ _ _ V m N). exact I.
Qed.
(** Every other command of the database keeps its row, its inputs and all outputs
    that no rule of this Tupfile declares; it is not flagged. *)
Theorem C53_others l D s b : good D -> Forall decent l -> parse_dir false l D = Some s -> has D b -> ~ In b (used s) ->
  (forall m, cm_id m = b -> (In m (cmds (p_db s)) <-> In m (cmds D))) /\
  nin (view (p_db s) b) = nin (view D b) /\ stk (view (p_db s) b) = stk (view D b) /\
  (forall x, In x (outs (view (p_db s) b)) <-> In x (outs (view D b)) /\ ~ declares l x) /\
  (In b (db_mod (p_db s)) <-> In b (db_mod D)).
Proof.
  intros G DL E Hb N. pose proof (parse_ok l D s G DL E) as V. destruct (i_same _ _ _ _ _ _ _ _ _ V b Hb N) as [A [B _]].
  split; [intros m <-; exact (i_rows _ _ _ _ _ _ _ _ _ V m N)|]. split; [exact A|]. split; [exact B|]. split; [intros x; exact (i_outs _ _ _ _ _ _ _ _ _ V b x Hb N)|].
  exact (i_mod _ _ _ _ _ _ _ _ _ V b (proj1 (g_cmds _ _ _ _ G b Hb)) N).
Qed.
(** A Tupfile is accepted exactly if no two rules have the same text or an output in
    common, no rule is circular, and no output belongs to a command of a directory
    that was parsed before (or need not be) and keeps it. *)
Theorem C53_accepted l D : good D -> Forall decent l -> ((exists s, parse_dir false l D = Some s) <-> acceptable kind_of excl dir waiting leftover D l).
Proof.
  intros G DL. pose proof (inv_start kind_of excl is_env dir waiting leftover D G) as V. split.
  - intros [s E]. apply parse_rules in E. destruct (accepted_inv kind_of excl is_env dir waiting leftover D G l DL [] _ s V E) as [A [_ [B C]]]. constructor; assumption.
  - intros [A B C]. destruct (accepted_go kind_of excl is_env dir waiting leftover D G l DL [] _ V A) as [s E]; [intros r r' []|exact B|exact C|].
    exists s. unfold RulesModel.parse_dir. rewrite E. reflexivity.
Qed.
Lemma paired {A B} (P : A -> B -> Prop) l k : Forall2 P l k -> length l = length k.
Proof. induction 1; cbn; congruence. Qed.
Lemma nth_used (k : list id) c u n : length u = n -> nth_error (rev (rev k ++ c :: u)) n = Some c.
Proof.
  intros L. rewrite rev_app_distr, rev_involutive. cbn [rev]. rewrite nth_error_app1 by (rewrite app_length, rev_length; cbn; lia). rewrite nth_error_app2 by (rewrite rev_length; lia).
  rewrite rev_length, L, Nat.sub_diag. reflexivity.
Qed.
Lemma one_of l1 r l2 D s : good D -> Forall decent (l1 ++ r :: l2) -> parse_dir false (l1 ++ r :: l2) D = Some s ->
  exists s1 c, parse_dir false l1 D = Some s1 /\ ~ In c (used s1) /\ becomes kind_of excl dir (p_db s1) r c /\ nth_error (rev (used s)) (length l1) = Some c /\
  (In c (db_mod (p_db s)) <-> In c (db_mod D) \/ ~ has D c \/ ~ named dir D r c \/ rule_changed kind_of excl (r_decl r) (r_new r) (rest l1 D c)).
Proof.
  intros G DL E. apply parse_rules in E. destruct (one_rule kind_of excl is_env dir waiting leftover D l1 r l2 s G DL E) as [s1 [c [k [E1 [V1 [N [B [U [_ M]]]]]]]]].
  exists s1, c. split; [unfold RulesModel.parse_dir; rewrite E1; reflexivity|]. split; [exact N|]. split; [exact B|]. split; [|exact M]. rewrite U. apply nth_used.
  rewrite <- rev_length. symmetry. exact (paired _ _ _ (i_rules _ _ _ _ _ _ _ _ _ V1)).
Qed.
(** Which command a rule gets, in the database as the rules above it left it. *)
Theorem C53_choice l1 r l2 D s : good D -> Forall decent (l1 ++ r :: l2) -> parse_dir false (l1 ++ r :: l2) D = Some s ->
  exists s1 c, parse_dir false l1 D = Some s1 /\ ~ In c (used s1) /\ becomes kind_of excl dir (p_db s1) r c /\ nth_error (rev (used s)) (length l1) = Some c.
Proof. intros G DL E. destruct (one_of l1 r l2 D s G DL E) as [s1 [c [A [B [C [F _]]]]]]. exists s1, c. auto. Qed.
(** A rule's command is flagged to run exactly if it was before, is new, was renamed
    or got other flags, or if what it declares differs (C51) from what it had, where
    the outputs that rules above took do not count. *)
Theorem C53_rerun l1 r l2 D s c : good D -> Forall decent (l1 ++ r :: l2) -> parse_dir false (l1 ++ r :: l2) D = Some s -> nth_error (rev (used s)) (length l1) = Some c ->
  (In c (db_mod (p_db s)) <-> In c (db_mod D) \/ ~ has D c \/ ~ named dir D r c \/ rule_changed kind_of excl (r_decl r) (r_new r) (rest l1 D c)).
Proof. intros G DL E N. destruct (one_of l1 r l2 D s G DL E) as [s1 [c' [_ [_ [_ [N' M]]]]]]. rewrite N in N'. injection N' as <-. exact M. Qed.
(** In particular a rule that describes its command as it is does not run it. *)
Theorem C53_unchanged l1 r l2 D s c : good D -> Forall decent (l1 ++ r :: l2) -> parse_dir false (l1 ++ r :: l2) D = Some s -> nth_error (rev (used s)) (length l1) = Some c ->
  described D r c -> r_new r = false -> ~ In c (db_mod D) -> ~ In c (db_mod (p_db s)).
Proof.
  intros G DL E N [NM [SO SI]] RN NI I. apply (C53_rerun l1 r l2 D s c G DL E N) in I.
  assert (has D c) as Hc by (destruct NM as [m [J [Em _]]]; exists m; auto). pose proof (proj1 (g_cmds _ _ _ _ G c Hc)) as Kc.
  assert (decent r) as DR by (apply Forall_app in DL; destruct DL as [_ DL]; inversion DL; assumption). pose proof (proj1 DR c Kc) as P.
  assert (Forall decent l1) as DL1 by (apply Forall_app in DL; tauto).
  destruct (proj1 (C53_accepted _ D G DL) (ex_intro _ s E)) as [AD _ _].
  assert (forall x, In x (d_outs (r_decl r)) -> ~ declares l1 x) as ND.
  { clear - AD. induction l1 as [|r0 l IH]; cbn [app] in AD; intros x X [r1 [J X1]]; [destruct J|]. inversion AD as [|? ? A1 A2]; subst. destruct J as [<-|J].
    - rewrite Forall_forall in A1. apply (proj2 (A1 r ltac:(apply in_or_app; cbn; auto)) x X1 X).
    - apply (IH A2 x X). exists r1. auto. }
  assert (forall y, In y (outs (view D c)) <-> In y (outs (rest l1 D c))) as EO.
  { intros y. rewrite rest_outs. cbn [outs view]. split; [|tauto]. intros A. split; [exact A|]. intros [r1 [J X1]]. rewrite Forall_forall in DL1.
    pose proof (p_outs _ _ _ _ _ (proj1 (DL1 r1 J) c Kc) y X1) as O. assert (makes kind_of excl (view D c) y) as M by (split; [exact A|exact O]). apply SO in M. apply (ND y M). exists r1. auto. }
  destruct I as [I|[I|[I|I]]]; [exact (NI I)|exact (I Hc)|exact (I NM)|]. destruct I as [I|[I|[[g [_ [I1 I2]]]|[[x [I1 [_ I2]]]|[x [I1 I2]]]]]].
  - congruence.
  - apply I. exact (same_outputs_ext kind_of excl _ _ _ EO SO).
  - apply I2, SI, I1.
  - apply I2, SI, I1.
  - apply I2, SI. exact (proj1 (p_env _ _ _ _ _ P x I1)).
Qed.

(** ** C52 *)
(** tup refactor accepts a Tupfile exactly if its rules are one by one the commands
    of the directory: text, flags, display, outputs and inputs. *)
Theorem C52_directory l D : good D -> Forall decent l ->
  ((exists s, refactor_dir l D = Some s) <->
   exists cs, NoDup cs /\ (forall c, in_dir dir D c <-> In c cs) /\ Forall2 (fun r c => described D r c /\ r_new r = false /\ ~ circular (r_decl r)) l cs /\ Forall2 (shown D) l cs).
Proof.
  intros G DL. split.
  - intros [s E]. unfold RulesModel.refactor_dir, RulesModel.parse_dir in E. destruct (do_rules _ _ _ _ _ _ _ _) as [s'|] eqn:ER; [|discriminate]. cbn [obind] in E.
    pose proof (rinv_rules kind_of excl is_env dir waiting leftover D l G DL [] _ s' (rinv_start kind_of excl dir D) ER) as V. cbn [app] in V.
    destruct (todo s') as [|t ts] eqn:ET; cbn [andb negb obind] in E; [|discriminate]. destruct (shows s' =? 0) eqn:Z; [|discriminate]. apply Nat.eqb_eq in Z. injection E as <-.
    exists (rev (used s')). split; [apply NoDup_rev; exact (q_nodup _ _ _ _ _ _ V)|]. split; [|split; [exact (q_rules _ _ _ _ _ _ V)|exact (proj2 (q_same _ _ _ _ _ _ V Z))]].
    intros c. rewrite <- in_rev. split.
    + intros I. destruct (inb c (used s')) eqn:U; [apply inb_in; exact U|]. apply inb_out in U. exfalso. assert (In c (todo s')) as J by (apply (q_todo _ _ _ _ _ _ V); auto). rewrite ET in J. exact J.
    + intros U. apply in_rev in U. destruct (Forall2_right _ _ _ _ (q_rules _ _ _ _ _ _ V) U) as [r [_ [[[m [I [Em [Ed _]]]] _] _]]]. exists m. auto.
  - intros [cs [ND [IN [F S]]]]. pose proof (rinv_start kind_of excl dir D) as V0.
    destruct (refac_go kind_of excl is_env dir waiting leftover D G l cs F DL [] _ V0 ND) as [s [E [U Z]]].
    { intros c I. split; [apply IN; exact I|]. intros []. }
    pose proof (rinv_rules kind_of excl is_env dir waiting leftover D l G DL [] _ s V0 E) as V. unfold RulesModel.refactor_dir, RulesModel.parse_dir. rewrite E. cbn [obind].
    cbn [used] in U. rewrite app_nil_r in U. destruct (todo s) as [|t ts] eqn:ET.
    + cbn [andb negb obind]. rewrite (Z eq_refl S). exists s. reflexivity.
    + exfalso. assert (In t (todo s)) as J by (rewrite ET; left; reflexivity). apply (q_todo _ _ _ _ _ _ V) in J. destruct J as [J1 J2]. apply J2. rewrite U, <- in_rev. apply IN, J1.
Qed.
(** And then the database is as it was. *)
Theorem C52_harmless l D s : good D -> Forall decent l -> refactor_dir l D = Some s -> same_db D (p_db s).
Proof.
  intros G DL E. unfold RulesModel.refactor_dir, RulesModel.parse_dir in E. destruct (do_rules _ _ _ _ _ _ _ _) as [s'|] eqn:ER; [|discriminate]. cbn [obind] in E.
  destruct (todo s') as [|t ts]; cbn [andb negb obind] in E; [|discriminate]. destruct (shows s' =? 0) eqn:Z; [|discriminate]. apply Nat.eqb_eq in Z. injection E as <-.
  exact (proj1 (q_same _ _ _ _ _ _ (rinv_rules kind_of excl is_env dir waiting leftover D l G DL [] _ s' (rinv_start kind_of excl dir D) ER) Z)).
Qed.
(** Whatever the parser accepts while refactoring, only display texts change. *)
Theorem C52_only_displays l D s : good D -> Forall decent l -> parse_dir true l D = Some s -> quiet D (p_db s).
Proof.
  intros G DL E. unfold RulesModel.parse_dir in E. destruct (do_rules _ _ _ _ _ _ _ _) as [s'|] eqn:ER; [|discriminate]. cbn [obind] in E. destruct (_ && _); [discriminate|]. injection E as <-.
  exact (q_quiet _ _ _ _ _ _ (rinv_rules kind_of excl is_env dir waiting leftover D l G DL [] _ s' (rinv_start kind_of excl dir D) ER)).
Qed.
End props.
Print Assumptions C54_split.
Print Assumptions C54_unclosed.
Print Assumptions C54_one_meaning.
Print Assumptions C53_directory.
Print Assumptions C53_others.
Print Assumptions C53_accepted.
Print Assumptions C53_choice.
Print Assumptions C53_rerun.
Print Assumptions C53_unchanged.
Print Assumptions C52_directory.
Print Assumptions C52_harmless.
Print Assumptions C52_only_displays.

(** ** Cases *)
Example ex_split : split_command (B "^to CC %f^  gcc -c") = Some {| s_flags := B "to"; s_display := Some (B "CC %f"); s_cmd := B "gcc -c" |} /\
  split_command (B "^o^gcc") = Some {| s_flags := B "o"; s_display := None; s_cmd := B "gcc" |} /\ split_command (B "^ CC^ gcc") = Some {| s_flags := []; s_display := Some (B "CC"); s_cmd := B "gcc" |} /\
  split_command (B " ^o^ gcc") = Some {| s_flags := []; s_display := None; s_cmd := B "^o^ gcc" |} /\ split_command (B "^o gcc") = None.
Proof. vm_compute. repeat split. Qed.

(** Directory 100 has command 9 (cc) making 3 and 4 into group 5 from 1, and command
    12 (ld) making 7 from 3; directory 101 has command 13 making 8. *)
Definition ex_kind (x : id) : kind := match x with 5 => KGroup | 3 | 4 | 7 | 8 | 10 => KGenerated | 0 | 1 | 2 | 6 | 11 => KFile | 100 | 101 => KFile | _ => KCmd end.
Definition ex_excl (_ : id) : bool := false.
Definition ex_env (_ : id) : bool := false.
Definition ex_links (c : id) : links :=
  match c with
  | 9 => {| l_nin := [1; 2]; l_stk := [1]; l_outs := [3; 4; 5]; l_glinks := [] |}
  | 12 => {| l_nin := [3]; l_stk := [3]; l_outs := [7]; l_glinks := [] |}
  | 13 => {| l_nin := []; l_stk := []; l_outs := [8]; l_glinks := [] |}
  | _ => no_links
  end.
Definition ex_db : db :=
  {| cmds := [{| cm_id := 9; cm_dir := 100; cm_text := B "cc"; cm_flags := []; cm_display := [] |}; {| cm_id := 12; cm_dir := 100; cm_text := B "ld"; cm_flags := B "t"; cm_display := B "LD" |};
              {| cm_id := 13; cm_dir := 101; cm_text := B "cp"; cm_flags := []; cm_display := [] |}];
     links_of := ex_links; db_member := [(3, 5); (4, 5)]; db_mod := []; db_trans := []; db_ghost := []; db_poked := []; next := 110 |}.
Definition cc (o : list id) : rule := {| r_text := B "cc"; r_flags := []; r_display := []; r_main := o; r_decl := {| d_outs := o; d_excl := []; d_group := Some 5; d_ins := [1]; d_env := [] |}; r_new := false |}.
Definition ld (text : bytes) (o : list id) : rule := {| r_text := text; r_flags := B "t"; r_display := B "LD"; r_main := o; r_decl := {| d_outs := o; d_excl := []; d_group := None; d_ins := [3]; d_env := [] |}; r_new := false |}.
Ltac cases := intros; cbn in *; repeat match goal with H : _ \/ _ |- _ => destruct H | H : False |- _ => destruct H | H : _ /\ _ |- _ => destruct H | H : (_, _) = (_, _) |- _ => injection H as ? ? | H : Some _ = Some _ |- _ => injection H as ? end; subst; try discriminate; try lia; auto 8.
Lemma all_small l : forallb (fun x => (Z.of_nat x <? 2 ^ 31)%Z) l = true -> small l.
Proof. intros H x I. rewrite forallb_forall in H. apply Z.ltb_lt, H, I. Qed.
Example ex_good : good ex_kind ex_excl ex_env ex_db.
Proof.
  assert (forall c, has ex_db c -> c = 9 \/ c = 12 \/ c = 13) as HH by (intros c [m [I <-]]; cases).
  constructor.
  - repeat constructor; cbn; lia.
  - cases.
  - intros c H. destruct (HH c H) as [-> |[-> | ->]]; constructor.
    1, 8, 15: repeat constructor; cbn; lia.
    1, 7, 13: cbn; lia.
    1, 6, 11: split; [|split]; apply all_small; reflexivity.
    1, 5, 9: intros g h [G1 G2] [H1 H2]; unfold group_id in *; cases.
    1, 4, 7: intros x g [M1 [M2 M3]]; unfold writes_group, group_id; split; [cases|]; intros [W1 W2]; cases; exfalso; apply M2; reflexivity.
    1, 3, 5: intros a b; unfold writes_group, group_id; split; [cases|]; intros [[A1 A2] [B1 B2]]; cases.
    all: intros x E; discriminate.
  - intros b c x Hb Hc [M1 _] [M2 _]. destruct (HH b Hb) as [-> |[-> | ->]], (HH c Hc) as [-> |[-> | ->]]; cases.
  - cases.
  - unfold group_id. cases.
  - intros c H. destruct (HH c H) as [-> |[-> | ->]]; cbn; split; try reflexivity; lia.
  - intros i H. cbn [ex_db next] in H. split.
    + assert (~ i < 110) as N by lia. do 110 (destruct i as [|i]; [exfalso; apply N; lia|]). reflexivity.
    + cbn [ex_db links_of]. do 14 (destruct i as [|i]; [lia|]). reflexivity.
Qed.
Lemma decent_if text flags disp o g : (forall x, In x o -> In x [3; 4; 7; 8; 10]) -> sorted o -> (g = None \/ g = Some 5) -> forall i, In i [1; 3] ->
  decent ex_kind ex_excl ex_env {| r_text := text; r_flags := flags; r_display := disp; r_main := o; r_decl := {| d_outs := o; d_excl := []; d_group := g; d_ins := [i]; d_env := [] |}; r_new := false |}.
Proof.
  intros IO S Hg i Hi. split; [|intros x I; exact I]. intros c K. cbn [r_decl]. constructor; cbn [d_outs d_excl d_group d_ins d_env].
  - repeat apply conj; try exact S; unfold sorted; repeat first [apply SSorted_nil | apply SSorted_cons | apply Forall_nil | apply Forall_cons].
  - split; [|split; [|split]].
    + intros x I. apply (all_small [3; 4; 7; 8; 10] eq_refl x (IO x I)).
    + intros x [].
    + destruct Hi as [<-|[<-|[]]]; apply all_small; reflexivity.
    + intros g' E. destruct Hg as [-> | ->]; [discriminate|]. injection E as <-. apply all_small. reflexivity.
  - intros x H. assert (In x [1; 3; 4; 5; 7; 8; 10]) as J.
    { destruct H as [H|[[]|[H|H]]]; [apply IO in H; cbn in *; tauto|cbn in *; destruct Hi as [<-|[<-|[]]]; tauto|destruct Hg as [-> | ->]; [discriminate|injection H as <-; cbn; tauto]]. }
    split; [|intros ->; cbn in J; lia]. intros ->. cbn in J. destruct J as [<-|[<-|[<-|[<-|[<-|[<-|[<-|[]]]]]]]]; discriminate.
  - intros x I. apply IO in I. unfold group_id. split; [|reflexivity]. cbn in I. destruct I as [<-|[<-|[<-|[<-|[<-|[]]]]]]; discriminate.
  - intros x [].
  - intros g' E. destruct Hg as [-> | ->]; [discriminate|]. injection E as <-. reflexivity.
  - intros x [].
Qed.
Ltac dec := apply decent_if; [cbn; tauto|unfold sorted; repeat first [apply SSorted_nil | apply SSorted_cons | apply Forall_nil | apply Forall_cons | lia]|auto|cbn; auto].
Example ex_decent : Forall (decent ex_kind ex_excl ex_env) [cc [3]; ld (B "ld") [4; 7]; cc [3; 4]; ld (B "ld") [7]; ld (B "ld2") [7; 8; 10]].
Proof. repeat (constructor; [dec|]). constructor. Qed.
Definition ex_parse refac l := parse_dir ex_kind ex_excl 100 (fun d => d =? 101) (fun _ => false) refac l ex_db.
(** The rules as they are: nothing runs and a refactoring is accepted. *)
Example ex_same : match ex_parse false [ld (B "ld") [7]; cc [3; 4]] with Some s => rev (used s) = [12; 9] /\ todo s = [] /\ db_mod (p_db s) = [] | None => False end /\
  refactor_dir ex_kind ex_excl 100 (fun _ => false) (fun _ => false) [ld (B "ld") [7]; cc [3; 4]] ex_db <> None.
Proof. vm_compute. repeat split. discriminate. Qed.
(** Another text: the command is found by its output 7, renamed and run; 8 is taken
    from the directory that is yet to be parsed. Without the cc rule, command 9 is to
    be deleted. *)
Example ex_renamed : match ex_parse false [ld (B "ld2") [7; 8; 10]] with Some s => rev (used s) = [12] /\ todo s = [9] /\ db_mod (p_db s) = [12] /\ l_outs (links_of (p_db s) 13) = [] | None => False end /\
  parse_dir ex_kind ex_excl 100 (fun _ => false) (fun _ => false) false [ld (B "ld2") [7; 8; 10]] ex_db = None.
Proof. vm_compute. repeat split. Qed.
(** A command whose output moved to another rule runs again or not depending on the
    order of the two rules. *)
Theorem C53_order_refuted : exists r1 r2 s s', Forall (decent ex_kind ex_excl ex_env) [r1; r2] /\ good ex_kind ex_excl ex_env ex_db /\
  ex_parse false [r1; r2] = Some s /\ ex_parse false [r2; r1] = Some s' /\ In 9 (used s) /\ In 9 (used s') /\ In 9 (db_mod (p_db s)) /\ ~ In 9 (db_mod (p_db s')).
Proof.
  exists (cc [3]), (ld (B "ld") [4; 7]). destruct (ex_parse false [cc [3]; ld (B "ld") [4; 7]]) as [s|] eqn:E1; [|vm_compute in E1; discriminate].
  destruct (ex_parse false [ld (B "ld") [4; 7]; cc [3]]) as [s'|] eqn:E2; [|vm_compute in E2; discriminate]. exists s, s'.
  split; [repeat (constructor; [dec|]); constructor|]. split; [exact ex_good|]. split; [reflexivity|]. split; [reflexivity|].
  vm_compute in E1, E2. injection E1 as <-. injection E2 as <-. cbn. repeat split; auto. intros [H|[]]. discriminate.
Qed.
Print Assumptions C53_order_refuted.
(** A new display text alone: the parser accepts it in a refactoring and changes the
    row, and tup refactor fails with an internal error. *)
Definition ld_display : rule := {| r_text := B "ld"; r_flags := B "t"; r_display := B "LINK"; r_main := [7]; r_decl := r_decl (ld (B "ld") [7]); r_new := false |}.
Theorem C52_display_refuted : exists l s, Forall (decent ex_kind ex_excl ex_env) l /\ good ex_kind ex_excl ex_env ex_db /\
  ex_parse true l = Some s /\ ~ same_db ex_db (p_db s) /\ refactor_dir ex_kind ex_excl 100 (fun d => d =? 101) (fun _ => false) l ex_db = None.
Proof.
  exists [cc [3; 4]; ld_display]. destruct (ex_parse true [cc [3; 4]; ld_display]) as [s|] eqn:E; [|vm_compute in E; discriminate]. exists s.
  split; [repeat (constructor; [dec|]); constructor|]. split; [exact ex_good|]. split; [reflexivity|]. split; [|reflexivity].
  intros [S _]. vm_compute in E. injection E as <-. vm_compute in S. discriminate.
Qed.
Print Assumptions C52_display_refuted.
