(** The monitor runs between two updates, and no edit is missed. *)
From Coq Require Import List Bool Arith Lia.
From Verif Require Import TriModel TriSpec TriProofs TriProofs2 TriProofs3.
Import ListNotations.

Section NoFaults.
Variable f : faults.
Hypothesis NC : f_crash f = false.
Hypothesis NO : f_over f = false.
Hypothesis NE : f_early f = false.

(** ** The monitor comes back before the next update *)

Definition leaving (i : nat) (s : st) : Prop :=
  (nth_error (cls s) i = Some CloseObj \/ nth_error (cls s) i = Some WaitTri) /\
  (mon s = MIdle false \/ mon s = MClose1).

Lemma put_same : forall cs i j x y p, nth_error cs i = Some x -> nth_error cs j = Some y -> x <> y ->
  nth_error (put j p cs) i = Some x.
Proof. intros cs i j x y p Ei Ej N. rewrite put_neq; [exact Ei | congruence]. Qed.

Lemma leaving_step : forall l s s' i, owned s -> leaving i s -> step f l s s' ->
  leaving i s' \/ monitor_on (mon s') = true \/ watching (mon s') = false.
Proof.
  intros l s s' i O [C M] H. pose proof O as (_ & _ & (_ & OT)).
  destruct H; unfold leaving; cbn in *;
    try (destruct M as [M | M]; (discriminate || injection M as ?); fail);
    try (right; left; reflexivity); try (right; right; reflexivity);
    try (left; split; [|exact M]; destruct C as [C | C]; [left | right];
         first [exact C | apply app_keep; exact C | eapply put_same; [eassumption | eassumption | discriminate]]; fail);
    try (left; split; [exact C|]; first [auto; fail | destruct M as [M | M]; [left; congruence | discriminate]]; fail).
  - (* close *) left. split; [|exact M]. destruct (Nat.eq_dec i0 i) as [-> | N].
    + right. eapply put_eq; eassumption.
    + rewrite put_neq by exact N. exact C.
  - (* tri *) exfalso. destruct M as [-> | ->]; specialize (OT eq_refl); discriminate.
  - congruence.
Qed.

Lemma path_good : forall s t s', good s -> path f s t s' -> good s'.
Proof.
  intros s t s' G H. induction H as [| l s s' t s'' S P IH]; [exact G|]. apply IH.
  eapply good_step; eassumption.
Qed.

Lemma between : forall s t s' i j, good s -> leaving i s -> path f s t s' -> works s' j ->
  exists x, In x t /\ (monitor_on (mon x) = true \/ watching (mon x) = false).
Proof.
  intros s t s' i j G L H W. induction H as [| l s s' t s'' S P IH].
  - exfalso. destruct W as [k W]. destruct L as [[E | E] _].
    + assert (i = j) by (eapply (only s); [apply G | exact E | exact W | reflexivity | reflexivity]). congruence.
    + assert (i = j) by (eapply (only s); [apply G | exact E | exact W | reflexivity | reflexivity]). congruence.
  - destruct (leaving_step _ _ _ _ (proj1 G) L S) as [L' | D].
    + destruct (IH (good_step _ NC NO NE _ _ _ G S) L' W) as (x & I & X). exists x. cbn. auto.
    + exists s'. cbn. auto.
Qed.

(** ** No edit is missed *)

Definition waiting (n : nat) (s : st) : Prop :=
  In n (pend s) \/ lost s = true \/ In (EvFile n) (queue s) \/ In EvOver (queue s).

Lemma emit_In : forall m e q q' x, emit f m e q q' -> In x q -> In x q'.
Proof. intros m e q q' x H I. inversion H; subst; auto; apply in_or_app; auto. Qed.

Lemma emit_edit : forall m n q q', emit f m (EvFile n) q q' -> watching m = true ->
  In (EvFile n) q' \/ In EvOver q'.
Proof.
  intros m n q q' H W. inversion H; subst; try congruence; auto.
  - left. apply in_or_app. cbn; auto.
  - left. apply in_or_app. cbn; auto.
  - right. apply in_or_app. cbn; auto.
Qed.

Lemma charge_watching : forall m, in_charge m = true -> watching m = true.
Proof. intros []; cbn; congruence. Qed.

Definition known (s : st) : Prop :=
  in_charge (mon s) = true -> forall n, In n (log s) -> In n (handled s) \/ waiting n s.

Lemma known_step : forall l s s', known s -> step f l s s' -> known s'.
Proof.
  intros l s s' K H. unfold known, waiting in *.
  destruct H; cbn [mon log handled pend lost queue] in *; try exact K; try discriminate;
    try (intros C n' I; specialize (K C n' I); cbn in K; intuition; fail);
    try (intros C n' I; specialize (K C n' I);
         match goal with E : emit _ _ _ _ _ |- _ =>
           pose proof (fun x => emit_In _ _ _ _ x E) as T end; intuition; fail);
    try (intros C n' I; left; exact I);
    try (intros C n' I; specialize (K eq_refl n' I); cbn in K;
         repeat match goal with D : _ \/ _ |- _ => destruct D end; try discriminate; intuition; fail).
  - (* edit *) intros C n' [<- | I].
    + right. right. right. eapply emit_edit; [eassumption | apply charge_watching; exact C].
    + specialize (K C n' I). pose proof (fun x => emit_In _ _ _ _ x H) as T. intuition.
  - (* file *) intros C n' I. specialize (K C n' I). cbn in *.
    destruct K as [K | [K | [K | [[K | K] | [K | K]]]]]; try discriminate; auto.
    right. left. left. congruence.
Qed.

Lemma reach_known : forall s, reach f s -> known s.
Proof. intros s H. induction H as [| l s s' H IH S]; [discriminate | eapply known_step; eassumption]. Qed.

(** Where an edit is that was made before the process opened the lock file. *)
Definition stage (n : nat) (po : option pc) (s : st) : Prop :=
  match po with
  | Some (WaitSh _) | Some (Open _) => waiting n s
  | Some (WaitObj _) =>
      match mon s with
      | MIdle true => In n (pend s) \/ lost s = true \/
          exists q1 q2, queue s = q1 ++ EvOpen :: q2 /\ (In (EvFile n) q1 \/ In EvOver q1)
      | MOpen1 => In n (pend s) \/ lost s = true
      | _ => False
      end
  | Some (Work _) | None => False
  | _ => True
  end.

Definition kept (n j : nat) (s : st) : Prop :=
  In n (log s) /\
  (in_charge (mon s) = true -> In n (handled s) \/ stage n (nth_error (cls s) j) s).

Lemma emit_shape : forall m e q q', emit f m e q q' -> exists z, q' = q ++ z.
Proof.
  intros m e q q' H. inversion H; subst; try (exists []; rewrite app_nil_r; reflexivity); eexists; reflexivity.
Qed.

(** Events that are added behind do not matter. *)
Lemma stage_more : forall n po a b c cs m q z l p h g a' b' c' cs' h' g',
  stage n po (St a b c cs m q l p h g) -> stage n po (St a' b' c' cs' m (q ++ z) l p h' g').
Proof.
  intros. unfold stage, waiting in *. cbn in *. destruct po as [[ | | | | | | | | | | | | | | ]|]; auto.
  - rewrite !in_app_iff. tauto.
  - rewrite !in_app_iff. tauto.
  - destruct m as [ | | |[|]| | | | | | | | | |b0|b0|]; auto.
    destruct H as [H | [H | (q1 & q2 & -> & H)]]; auto. right. right.
    exists q1, (q2 ++ z). split; [|exact H]. rewrite <- app_assoc. reflexivity.
Qed.

Lemma stage_same : forall n po a b c cs m q l p h g a' b' c' cs' h' g',
  stage n po (St a b c cs m q l p h g) -> stage n po (St a' b' c' cs' m q l p h' g').
Proof. intros. rewrite <- (app_nil_r q). eapply stage_more. eassumption. Qed.

(** The process [i] moves, and the monitor does not. *)
Lemma kept_move : forall n j a b c cs m q l p h g i x y a' b' c' q',
  nth_error cs i = Some x -> (exists z, q' = q ++ z) ->
  (in_charge m = true -> stage n (Some x) (St a b c cs m q l p h g) ->
     In n h \/ stage n (Some y) (St a' b' c' (put i y cs) m q' l p h g)) ->
  kept n j (St a b c cs m q l p h g) -> kept n j (St a' b' c' (put i y cs) m q' l p h g).
Proof.
  intros n j a b c cs m q l p h g i x y a' b' c' q' E [z ->] S [I K]. split; [exact I|].
  cbn in *. intro C. destruct (K C) as [K' | K']; [auto|].
  destruct (Nat.eq_dec i j) as [-> | N].
  - rewrite (put_eq _ _ y _ E). rewrite E in K'. auto.
  - rewrite put_neq by exact N. right. eapply stage_more. exact K'.
Qed.

Lemma kept_step : forall l s s' n j, good s -> kept n j s -> step f l s s' -> kept n j s'.
Proof.
  intros l s s' n j G K H. pose proof G as (O & _ & (L & P & P0)).
  assert (Q0 : forall (q : list ev), exists z, q = q ++ z) by (intro q; exists []; rewrite app_nil_r; reflexivity).
  destruct H.
  - (* arrive *) destruct K as [I K]. split; [exact I|]. cbn in *. intro C. destruct (K C) as [K' | K']; [auto|]. right.
    destruct (nth_error cs j) eqn:E; [|contradiction].
    rewrite (app_keep _ _ _ _ E). eapply stage_same; exact K'.
  - (* edit *) destruct K as [I K]. split; [right; exact I|]. cbn in *. intro C. destruct (K C) as [K' | K']; [auto|]. right.
    destruct (emit_shape _ _ _ _ H) as [z ->]. eapply stage_more; exact K'.
  - eapply kept_move; [exact H | apply Q0 | | exact K]. intros C S. right. exact S.
  - (* open *) eapply kept_move; [exact H | eapply emit_shape; exact H0 | | exact K]. intros C S. right.
    specialize (P _ _ H eq_refl). cbn in P.
    destruct m as [ | | |[|]| | | | | | | | | |b0|b0|]; cbn in *; try contradiction; try discriminate.
    unfold waiting in S. cbn in S. inversion H0; subst.
    + discriminate.
    + destruct S as [S | [S | S]]; auto. right. right. exists q, []. auto.
    + rewrite locks_app in P. destruct (locks q0); discriminate.
    + rewrite H3 in NO by reflexivity. discriminate.
    + rewrite H3 in NO by reflexivity. discriminate.
  - (* obj *) eapply kept_move; [exact H | apply Q0 | | exact K]. intros C S. exfalso.
    destruct O as (_ & (_ & O) & _). cbn in *.
    destruct m as [ | | |[|]| | | | | | | | | |b0|b0|]; cbn in *; try contradiction; try discriminate;
      specialize (O eq_refl); discriminate.
  - eapply kept_move; [exact H | eapply emit_shape; exact H0 | | exact K]. intros C S. destruct S.
  - eapply kept_move; [exact H | apply Q0 | | exact K]. intros C S. destruct S.
  - eapply kept_move; [exact H | eapply emit_shape; exact H0 | | exact K]. intros C S. right; exact S.
  - eapply kept_move; [exact H | apply Q0 | | exact K]. intros C S. right; exact S.
  - eapply kept_move; [exact H | apply Q0 | | exact K]. intros C S. right; exact S.
  - eapply kept_move; [exact H | apply Q0 | | exact K]. intros C S. right; exact S.
  - destruct K as [I K]. split; [exact I | discriminate].
  - destruct K as [I K]. split; [exact I | discriminate].
  - eapply kept_move; [exact H | apply Q0 | | exact K]. intros C S. right; exact S.
  - eapply kept_move; [exact H | apply Q0 | | exact K]. intros C S. right; exact S.
  - (* child *) destruct K as [I K]. split; [exact I|]. intros _. left. exact I.
  - (* start *) destruct K as [I K]. split; [exact I|]. intros _. left. exact I.
  - (* open *) destruct K as [I K]. split; [exact I|]. cbn in *. intros _. destruct (K eq_refl) as [K' | K']; [auto|]. right.
    destruct (nth_error cs j) as [y|] eqn:E; [|contradiction]. pose proof (P _ _ E) as C.
    rewrite locks_cons in C. cbn in C.
    unfold stage, waiting in *. destruct y; cbn in *; auto; try (specialize (C eq_refl); try contradiction; try discriminate).
    + intuition; try discriminate.
    + destruct K' as [K' | [K' | (q1 & q2 & Q & K')]]; auto. exfalso.
      destruct q1 as [|e q1]; [cbn in K'; tauto|]. cbn in Q. injection Q as <- ->.
      rewrite locks_app in C. destruct (locks q1); discriminate.
  - (* open, not locked *) destruct K as [I K]. split; [exact I|]. cbn in *. intros _. destruct (K eq_refl) as [K' | K']; [auto|]. right.
    unfold stage, waiting in *. destruct (nth_error cs j) as [[]|]; cbn in *; auto; intuition; discriminate.
  - (* close, locked *) destruct K as [I K]. split; [exact I|]. cbn in *. intros _. destruct (K eq_refl) as [K' | K']; [auto|]. right.
    destruct (nth_error cs j) as [y|] eqn:E; [|contradiction]. pose proof (P _ _ E) as C.
    rewrite locks_cons in C. cbn in C.
    unfold stage, waiting in *. destruct y; cbn in *; auto; try (specialize (C eq_refl); try contradiction; try discriminate);
    intuition; discriminate.
  - (* close *) destruct K as [I K]. split; [exact I|]. cbn in *. intros _. destruct (K eq_refl) as [K' | K']; [auto|]. right.
    unfold stage, waiting in *. destruct (nth_error cs j) as [[]|]; cbn in *; auto; intuition; discriminate.
  - (* file *) destruct K as [I K]. split; [exact I|]. cbn [log mon handled cls in_charge] in *. intros _.
    destruct (K eq_refl) as [K' | K']; [auto|]. right.
    revert K'. unfold stage, waiting. destruct (nth_error cs j) as [y|] eqn:E; [|auto].
    destruct y; cbn; auto.
    + intros [K' | [K' | [[K' | K'] | [K' | K']]]]; try discriminate; auto. left. left. congruence.
    + intros [K' | [K' | [[K' | K'] | [K' | K']]]]; try discriminate; auto. left. left. congruence.
    + destruct k; auto. intros [K' | [K' | (q1 & q2 & Q & K')]]; auto.
      destruct q1 as [|e q1]; cbn in Q; [discriminate|]. injection Q as <- ->.
      destruct K' as [[K' | K'] | [K' | K']]; try discriminate.
      * left. left. congruence.
      * right. right. exists q1, q2. auto.
      * right. right. exists q1, q2. auto.
  - (* overflow *) destruct K as [I K]. split; [exact I|]. cbn [log mon handled cls in_charge] in *. intros _.
    destruct (K eq_refl) as [K' | K']; [auto|]. right.
    revert K'. unfold stage, waiting. destruct (nth_error cs j) as [y|] eqn:E; [|auto].
    destruct y; cbn; auto. destruct k; auto.
  - (* flush *) destruct K as [I K]. split; [exact I|]. cbn [log mon handled cls in_charge] in *. intros _.
    destruct (K eq_refl) as [K' | K']; [left; apply in_or_app; auto|].
    revert K'. unfold stage, waiting. destruct (nth_error cs j) as [y|] eqn:E; [|auto].
    destruct y; cbn; auto.
    + intros [K' | [K' | K']]; [left; apply in_or_app; auto | discriminate | auto].
    + intros [K' | [K' | K']]; [left; apply in_or_app; auto | discriminate | auto].
    + intros [K' | [K' | K']]; [left; apply in_or_app; auto | discriminate | auto].
  - destruct K as [I K]. split; [exact I | discriminate].
  - (* tri *) destruct K as [I K]. split; [exact I|]. cbn [log mon handled cls in_charge] in *. intros _.
    destruct (K eq_refl) as [K' | K']; [left; apply in_or_app; auto|].
    revert K'. unfold stage, waiting. destruct (nth_error cs j) as [y|] eqn:E; [|auto].
    destruct y; cbn; auto.
    + intros [K' | [K' | K']]; [left; apply in_or_app; auto | discriminate | auto].
    + intros [K' | [K' | K']]; [left; apply in_or_app; auto | discriminate | auto].
    + intros [K' | K']; [left; apply in_or_app; auto | discriminate].
  - destruct K as [I K]. split; [exact I | discriminate].
  - (* unobj *) destruct K as [I K]. split; [exact I|]. cbn [log mon handled cls in_charge] in *. intros _.
    destruct (K eq_refl) as [K' | K']; [auto|]. right. revert K'.
    unfold stage, waiting. destruct (nth_error cs j) as [[]|]; cbn; auto.
  - destruct K as [I K]. split; [exact I|]. cbn [log mon handled cls in_charge] in *. intros _.
    destruct (K eq_refl) as [K' | K']; [auto|]. right. revert K'.
    unfold stage, waiting. destruct (nth_error cs j) as [[]|]; cbn; auto.
  - destruct K as [I K]. split; [exact I|]. cbn [log mon handled cls in_charge] in *. intros _.
    destruct (K eq_refl) as [K' | K']; [auto|]. right. revert K'.
    unfold stage, waiting. destruct (nth_error cs j) as [[]|]; cbn; auto.
  - destruct K as [I K]. split; [exact I | discriminate].
  - destruct K as [I K]. split; [exact I | discriminate].
  - destruct K as [I K]. split; [exact I | discriminate].
  - destruct K as [I K]. split; [exact I | discriminate].
  - destruct K as [I K]. split; [exact I | discriminate].
  - destruct K as [I K]. split; [exact I | discriminate].
  - destruct K as [I K]. split; [exact I | discriminate].
  - destruct K as [I K]. split; [exact I | discriminate].
  - destruct K as [I K]. split; [exact I | discriminate].
  - destruct K as [I K]. split; [exact I | discriminate].
  - destruct K as [I K]. split; [exact I | discriminate].
  - congruence.
  - specialize (L _ _ H). discriminate.
  - specialize (L _ _ H). discriminate.
  - specialize (L _ _ H). discriminate.
  - specialize (L _ _ H). discriminate.
  - specialize (L _ _ H). discriminate.
Qed.

Lemma kept_path : forall s t s' n j, good s -> kept n j s -> path f s t s' -> kept n j s'.
Proof.
  intros s t s' n j G K H. induction H as [| l s s' t s'' S P IH]; [exact K|]. apply IH.
  - eapply good_step; eassumption.
  - eapply kept_step; eassumption.
Qed.

End NoFaults.
