(** C58: the Tupfiles of the directories are parsed in an order in which every
    pattern sees all the files it should see. *)
From Coq Require Import List Bool Arith Lia Relations Permutation.
From Verif Require Import OrderModel OrderSpec OrderProofs OrderProofs2.
Import ListNotations.

(** ** Every pattern sees complete directories *)

(** After any history of edits and updates, when nothing is left to parse: the
    generated files of every Tupfile are those that its rules give when all
    other directories are complete; unless the Tupfile is on a circle. *)
Theorem C58_complete_partial : forall P d, reach false P d -> d_flags d = [] ->
  forall t, right P d t \/ on_circle P t.
Proof. exact reach_right. Qed.
Print Assumptions C58_complete_partial.

(** Without circles the result does not depend on the history, on which
    directories were parsed when, or on the order: two histories that end with
    the same Tupfiles and the same files end with the same generated files. *)
Theorem C58_history : forall P1 d1 P2 d2,
  reach false P1 d1 -> reach false P2 d2 -> (forall t, P1 t = P2 t) ->
  d_flags d1 = [] -> d_flags d2 = [] -> (forall t, ~ on_circle P1 t) ->
  forall g, In g (d_files d1) <-> In g (d_files d2).
Proof.
  intros P1 d1 P2 d2 R1 R2 E F1 F2 NC g.
  pose proof (reach_hist P1 d1 R1) as [_ _ _ (l & L)].
  rewrite !made_by_In. apply (right_unique P1 P2 d1 d2 E).
  - apply (feeds_acc P1 l L NC).
  - intros t. destruct (C58_complete_partial P1 d1 R1 F1 t) as [X | X]; [exact X | exfalso; exact (NC t X)].
  - intros t. destruct (C58_complete_partial P2 d2 R2 F2 t) as [X | X]; [exact X | exfalso; apply (NC t)].
    eapply clos_trans_mono; [|exact X]. intros x y [N (r & R & U)]. split; [exact N|]. exists r. rewrite E. auto.
Qed.
Print Assumptions C58_history.

(** ** One pass *)

(** A pass that succeeds parses every Tupfile of the graph once. *)
Theorem C58_once : forall P d order st, NoDup order -> run P d order = Done st ->
  Permutation (p_log st) order.
Proof.
  intros P d order st N R. pose proof (run_good P d order N) as K. rewrite R in K.
  destruct K as (I & E & _). apply NoDup_Permutation; [apply (i_once _ _ _ _ _ _ I) | exact N |].
  intros s. rewrite <- (i_log _ _ _ _ _ _ I). apply E.
Qed.
Print Assumptions C58_once.

(** Without a circle the pass succeeds, in whatever order. *)
Theorem C58_succeeds : forall P d order, NoDup order -> (forall t, ~ on_circle P t) ->
  exists st, run P d order = Done st.
Proof.
  intros P d order N NC. pose proof (run_good P d order N) as K.
  destruct (run P d order) as [st| |]; [eauto | destruct K as (s & K); exfalso; exact (NC s K) | contradiction].
Qed.
Print Assumptions C58_succeeds.

(** A circle that is reported exists. *)
Theorem C58_reported_real : forall P d order, NoDup order -> run P d order = Circular ->
  exists t, on_circle P t.
Proof. intros P d order N R. pose proof (run_good P d order N) as K. rewrite R in K. exact K. Qed.
Print Assumptions C58_reported_real.

(** A circle among the directories that are parsed is reported, if no directory
    that is popped before the first one on it depends on it. *)
Theorem C58_noticed_partial : forall P d a t b,
  NoDup (a ++ t :: b) ->
  clos_trans nat (fun u v => matches_in P u v /\ In u (a ++ t :: b) /\ In v (a ++ t :: b)) t t ->
  (forall s, In s a -> ~ clos_refl_trans nat (matches_in P) t s) ->
  run P d (a ++ t :: b) = Circular.
Proof. exact circle_noticed. Qed.
Print Assumptions C58_noticed_partial.

(** ** Examples *)

Definition copy (u t : nat) : rule := Rule [u] (fun nss => map (fun n => (t, n)) (concat nss)).
Definition makes (t n : nat) : rule := Rule [] (fun _ => [(t, n)]).

(** Directory 1 copies what is in 2; 2 copies what is in 3 and makes 7; 3 makes
    8 and has a file 9. *)
Definition P_line : project :=
  edit (edit (edit empty_project 1 (Tupfile [] [copy 2 1]))
             2 (Tupfile [] [copy 3 2; makes 2 7]))
       3 (Tupfile [9] [makes 3 8]).
Definition d_line : db := flag 3 (flag 2 (flag 1 empty_db)).

Lemma line_feeds : forall u t, matches_in P_line u t -> u = S t.
Proof.
  intros u t [N (r & R & U)]. destruct t as [|[|[|[|t]]]]; cbn in R.
  - destruct R.
  - destruct R as [<- | []]. cbn in U. destruct U as [<- | []]. reflexivity.
  - destruct R as [<- | [<- | []]]; cbn in U; [destruct U as [<- | []]; reflexivity | destruct U].
  - destruct R as [<- | []]. destruct U.
  - destruct R.
Qed.

Lemma no_links_graph : forall d t, d_links d = [] -> in_graph d t -> In t (d_flags d).
Proof.
  intros d t E H. destruct H as [t H | u t _ H]; [exact H|]. rewrite E in H. destruct H.
Qed.

Lemma no_links_order : forall d order, d_links d = [] -> NoDup order ->
  (forall t, In t order <-> In t (d_flags d)) -> valid_order d order.
Proof.
  intros d order E N O. split; [exact N|]. split; [|split].
  - intros t. split; [intros H; apply ig_flag, O, H | intros H; apply O, no_links_graph; assumption].
  - intros a t b _ u _ H. rewrite E in H. destruct H.
  - intros t _ H. rewrite E in H. destruct H.
Qed.

Ltac order3 := apply no_links_order;
  [ reflexivity
  | repeat constructor; cbn; intuition discriminate
  | intros; cbn; intuition ].

Example C58_example :
  exists d, reach false P_line d /\ d_flags d = [] /\
    made_by d 1 = [(1, 9); (1, 8); (1, 7)] /\ made_by d 2 = [(2, 7); (2, 9); (2, 8)] /\ made_by d 3 = [(3, 8)] /\
    (forall t, right P_line d t).
Proof.
  assert (R : reach false P_line d_line) by (unfold P_line, d_line; repeat apply r_edit; apply r_init).
  assert (V : valid_order d_line [1; 2; 3]) by order3.
  eexists. split; [eapply r_update; [exact R | eapply u_done; [exact V | vm_compute; reflexivity]]|].
  split; [reflexivity|]. split; [reflexivity|]. split; [reflexivity|]. split; [reflexivity|].
  intros t. match goal with |- right _ ?d _ => assert (R' : reach false P_line d) end.
  { eapply r_update; [exact R | eapply u_done; [exact V | reflexivity]]. }
  destruct (C58_complete_partial _ _ R' eq_refl t) as [X | X]; [exact X | exfalso].
  assert (K : forall a b, clos_trans nat (matches_in P_line) a b -> b < a).
  { intros a b C. induction C as [a b C | a b c _ IH1 _ IH2]; [|lia]. apply line_feeds in C. lia. }
  apply K in X. lia.
Qed.

(** ** A circle that is not noticed *)

(** Directory 1 copies what is in 2; 2 looks into 3 and then makes 7; 3 copies
    what is in 2. *)
Definition P_circle : project :=
  edit (edit (edit empty_project 1 (Tupfile [] [copy 2 1]))
             2 (Tupfile [] [copy 3 2; makes 2 7]))
       3 (Tupfile [] [copy 2 3]).

(** When 2 or 3 is popped first the circle is reported. *)
Example C58_noticed_example :
  run P_circle d_line [2; 3; 1] = Circular /\ run P_circle d_line [3; 2; 1] = Circular.
Proof. split; reflexivity. Qed.

Example C58_noticed_case :
  NoDup ([] ++ 2 :: [3; 1]) /\
  clos_trans nat (fun u v => matches_in P_circle u v /\ In u ([] ++ 2 :: [3; 1]) /\ In v ([] ++ 2 :: [3; 1])) 2 2 /\
  (forall s, In s [] -> ~ clos_refl_trans nat (matches_in P_circle) 2 s).
Proof.
  split; [repeat constructor; cbn; intuition discriminate|]. split; [|intros s []].
  apply t_trans with 3; apply t_step; (split; [split; [discriminate|] | cbn; auto]).
  - exists (copy 2 3). split; [left; reflexivity | left; reflexivity].
  - exists (copy 3 2). split; [left; reflexivity | left; reflexivity].
Qed.

Definition after (r : result pst) : pst :=
  match r with Done st => st | _ => Pst [] [] [] [] [] [] [] end.

(** When 1 is popped first it is not, and 3 misses the file 7: parsing on behalf
    of another Tupfile sets the flag that stops the second visit, before the
    check for circles is reached. *)
Theorem C58_unnoticed_refuted :
  ~ (forall P d d', reach false P d -> update P d d' -> forall t, right P d' t).
Proof.
  intros H.
  assert (R : reach false P_circle d_line) by (unfold P_circle, d_line; repeat apply r_edit; apply r_init).
  assert (V : valid_order d_line [1; 2; 3]) by order3.
  assert (E : run P_circle d_line [1; 2; 3] = Done (after (run P_circle d_line [1; 2; 3]))) by (vm_compute; reflexivity).
  specialize (H P_circle d_line _ R (u_done P_circle d_line [1; 2; 3] _ V E) 3 (3, 7)).
  assert (A : made_by (finish (after (run P_circle d_line [1; 2; 3]))) 3 = []) by (vm_compute; reflexivity).
  destruct H as [_ H]. rewrite A in H. apply H. vm_compute. left. reflexivity.
Qed.
Print Assumptions C58_unnoticed_refuted.

(** The links of such a circle are recorded, and then no update succeeds any
    more when the user has removed the circle. *)
Definition P_mended : project := edit P_circle 3 (Tupfile [] []).

Lemma mended_feeds : forall u t, matches_in P_mended u t -> u = S t.
Proof.
  intros u t [N (r & R & U)]. destruct t as [|[|[|[|t]]]]; cbn in R.
  - destruct R.
  - destruct R as [<- | []]. cbn in U. destruct U as [<- | []]. reflexivity.
  - destruct R as [<- | [<- | []]]; cbn in U; [destruct U as [<- | []]; reflexivity | destruct U].
  - destruct R.
  - destruct R.
Qed.

Theorem C58_stuck_refuted :
  ~ (forall P d, reach false P d -> (forall t, ~ on_circle P t) -> exists d', update P d d').
Proof.
  intros H.
  assert (R : reach false P_circle d_line) by (unfold P_circle, d_line; repeat apply r_edit; apply r_init).
  assert (V : valid_order d_line [1; 2; 3]) by order3.
  assert (E : run P_circle d_line [1; 2; 3] = Done (after (run P_circle d_line [1; 2; 3]))) by (vm_compute; reflexivity).
  pose proof (r_update false _ _ _ R (u_done P_circle d_line [1; 2; 3] _ V E)) as R1.
  apply (r_edit false _ _ 3 (Tupfile [] [])) in R1. fold P_mended in R1.
  destruct (H _ _ R1) as (d' & U).
  - assert (K : forall a b, clos_trans nat (matches_in P_mended) a b -> b < a).
    { intros a b C. induction C as [a b C | a b c _ IH1 _ IH2]; [|lia]. apply mended_feeds in C. lia. }
    intros t C. apply K in C. lia.
  - destruct U as [order st (N & O & L & _) _].
    assert (I3 : In 3 order) by (apply O, ig_flag; left; reflexivity).
    assert (I2 : In 2 order).
    { apply O. apply ig_link with 3; [apply ig_flag; left; reflexivity | vm_compute; auto]. }
    apply in_split in I2. destruct I2 as (a & b & ->).
    apply in_app_or in I3. destruct I3 as [I3 | [I3 | I3]]; [|discriminate|].
    + apply in_split in I3. destruct I3 as (a1 & a2 & ->).
      apply (L a1 3 (a2 ++ 2 :: b)) with (u := 2).
      * rewrite <- app_assoc. reflexivity.
      * apply in_or_app. right. left. reflexivity.
      * vm_compute. auto.
    + apply (L a 2 b eq_refl 3 I3). vm_compute. auto.
Qed.
Print Assumptions C58_stuck_refuted.

(** ** A generated file that someone changed *)

(** A rule of 1 makes a file from every file of 1, and the next line makes 7.
    The first rule does not see 7, as it comes later. But when someone changes
    the file 7 and the Tupfile is parsed again, it does: split_roots leaves the
    changed file out of the list of files that are hidden until they are made
    again. So the result depends on the history. *)
Definition P_own : project :=
  edit empty_project 1 (Tupfile [] [Rule [1] (fun nss => map (fun n => (1, S n)) (concat nss)); makes 1 7]).

Theorem C58_changed_refuted :
  ~ (forall P d, reach true P d -> d_flags d = [] -> d_touched d = [] -> (forall t, ~ on_circle P t) ->
     forall t, right P d t).
Proof.
  intros H.
  assert (R0 : reach true P_own (flag 1 empty_db)) by (unfold P_own; apply r_edit, r_init).
  assert (V0 : valid_order (flag 1 empty_db) [1]) by order3.
  set (s1 := after (run P_own (flag 1 empty_db) [1])).
  assert (E1 : run P_own (flag 1 empty_db) [1] = Done s1) by (vm_compute; reflexivity).
  pose proof (r_update true _ _ _ R0 (u_done P_own _ [1] _ V0 E1)) as R1.
  apply (r_touch true _ _ (1, (1, 7))) in R1; [|reflexivity|vm_compute; auto].
  apply (r_edit true _ _ 1 (P_own 1)) in R1.
  set (P2 := edit P_own 1 (P_own 1)) in R1.
  set (d2 := flag 1 (touch (1, (1, 7)) (finish s1))) in R1.
  assert (V2 : valid_order d2 [1]) by order3.
  set (s2 := after (run P2 d2 [1])).
  assert (E2 : run P2 d2 [1] = Done s2) by (vm_compute; reflexivity).
  pose proof (r_update true _ _ _ R1 (u_done P2 d2 [1] _ V2 E2)) as R2.
  assert (NC : forall t, ~ on_circle P2 t).
  { assert (K : forall a b, ~ clos_trans nat (matches_in P2) a b).
    { intros a b C. induction C as [a b [N (r & R & U)] | a b c C1 IH1 C2 IH2]; [|auto].
      destruct b as [|[|b]]; cbn in R; [exact R | | exact R].
      destruct R as [<- | [<- | []]]; cbn in U; [|exact U].
      destruct U as [<- | []]. apply N. reflexivity. }
    intros t. apply K. }
  specialize (H _ _ R2 eq_refl eq_refl NC 1 (1, 8)).
  assert (A : made_by (finish s2) 1 = [(1, 8); (1, 7)]) by (vm_compute; reflexivity).
  assert (B : should_make P2 (made_by (finish s2)) 1 (t_rules (P2 1)) [] = [(1, 7)]) by (vm_compute; reflexivity).
  rewrite A, B in H. destruct H as [H _].
  destruct H as [H | []]; [left; reflexivity | discriminate].
Qed.
Print Assumptions C58_changed_refuted.
