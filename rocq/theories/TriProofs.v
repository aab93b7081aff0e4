(** The owners of the locks. *)
From Coq Require Import List Bool Arith Lia.
From Verif Require Import TriModel TriSpec.
Import ListNotations.

Lemma put_eq : forall l i p x, nth_error l i = Some x -> nth_error (put i p l) i = Some p.
Proof.
  induction l as [|y l IH]; intros [|i] p x H; cbn in *; try discriminate; auto.
  eapply IH; eassumption.
Qed.

Lemma put_neq : forall l i j p, i <> j -> nth_error (put i p l) j = nth_error l j.
Proof.
  induction l as [|y l IH]; intros [|i] [|j] p H; cbn; auto; try congruence.
Qed.

Lemma put_inv : forall l i j p x y, nth_error l i = Some x -> nth_error (put i p l) j = Some y ->
  (j = i /\ y = p) \/ (j <> i /\ nth_error l j = Some y).
Proof.
  intros l i j p x y H H1. destruct (Nat.eq_dec i j) as [-> | N].
  - rewrite (put_eq _ _ p _ H) in H1. injection H1 as <-. auto.
  - rewrite put_neq in H1 by exact N. auto.
Qed.

Lemma app_inv1 : forall (l : list pc) z j y, nth_error (l ++ [z]) j = Some y ->
  nth_error l j = Some y \/ (j = length l /\ y = z).
Proof.
  intros l z j y H. destruct (Nat.lt_ge_cases j (length l)) as [L | L].
  - rewrite nth_error_app1 in H by exact L. auto.
  - rewrite nth_error_app2 in H by exact L. destruct (j - length l) as [|n] eqn:E; cbn in H.
    + injection H as <-. right. split; [lia | reflexivity].
    + destruct n; discriminate.
Qed.

Lemma app_keep : forall (l : list pc) z j y, nth_error l j = Some y -> nth_error (l ++ [z]) j = Some y.
Proof. intros l z j y H. rewrite nth_error_app1; [exact H|]. apply nth_error_Some. congruence. Qed.

Lemma who_eqb_eq : forall a b, who_eqb a b = true <-> a = b.
Proof.
  intros [i|] [j|]; cbn; try rewrite Nat.eqb_eq; split; intro H; try congruence; subst; auto.
Qed.

Lemma unlock_other : forall w l o, l = Some o -> o <> w -> unlock w l = Some o.
Proof.
  intros w l o -> N. cbn. destruct (who_eqb o w) eqn:E; [|reflexivity].
  apply who_eqb_eq in E. contradiction.
Qed.

Lemma unlock_some : forall w l o, unlock w l = Some o -> l = Some o /\ o <> w.
Proof.
  intros w [x|] o H; cbn in H; [|discriminate].
  destruct (who_eqb x w) eqn:E; [discriminate|]. injection H as ->. split; auto.
  intros ->. rewrite (proj2 (who_eqb_eq w w) eq_refl) in E. discriminate.
Qed.

(** Whoever stands where it owns a lock, owns it. *)
Definition owns (hc : pc -> bool) (hm : mpc -> bool) (cs : list pc) (m : mpc) (l : option who) : Prop :=
  (forall i p, nth_error cs i = Some p -> hc p = true -> l = Some (Cl i)) /\
  (hm m = true -> l = Some Mo).

(** Who owns a lock stands where it owns it. *)
Definition conv (hc : pc -> bool) (hm : mpc -> bool) (cs : list pc) (m : mpc) (l : option who) : Prop :=
  (forall i, l = Some (Cl i) -> exists p, nth_error cs i = Some p /\ hc p = true) /\
  (l = Some Mo -> hm m = true).

Section Locks.
Variables (hc : pc -> bool) (hm : mpc -> bool).

Lemma owns_put : forall cs m l i x p, owns hc hm cs m l -> nth_error cs i = Some x ->
  implb (hc p) (hc x) = true -> owns hc hm (put i p cs) m l.
Proof.
  intros cs m l i x p [H1 H2] E I. split; [|exact H2]. intros j y Hj Hy.
  destruct (put_inv _ _ _ _ _ _ E Hj) as [[-> ->] | [N Hj']].
  - rewrite Hy in I. cbn in I. exact (H1 i x E I).
  - exact (H1 j y Hj' Hy).
Qed.

Lemma owns_take : forall cs m i x p, owns hc hm cs m None -> nth_error cs i = Some x ->
  owns hc hm (put i p cs) m (Some (Cl i)).
Proof.
  intros cs m i x p [H1 H2] E. split.
  - intros j y Hj Hy. destruct (put_inv _ _ _ _ _ _ E Hj) as [[-> ->] | [N Hj']]; [reflexivity|].
    specialize (H1 _ _ Hj' Hy). discriminate.
  - intro Hm. specialize (H2 Hm). discriminate.
Qed.

Lemma owns_drop : forall cs m l i x p, owns hc hm cs m l -> nth_error cs i = Some x -> hc p = false ->
  owns hc hm (put i p cs) m (unlock (Cl i) l).
Proof.
  intros cs m l i x p [H1 H2] E F. split.
  - intros j y Hj Hy. destruct (put_inv _ _ _ _ _ _ E Hj) as [[-> ->] | [N Hj']]; [congruence|].
    apply unlock_other; [eauto | congruence].
  - intro Hm. apply unlock_other; [auto | congruence].
Qed.

Lemma owns_mon : forall cs m m' l, owns hc hm cs m l -> implb (hm m') (hm m) = true -> owns hc hm cs m' l.
Proof. intros cs m m' l [H1 H2] I. split; auto. intro Hm. rewrite Hm in I. auto. Qed.

Lemma owns_mtake : forall cs m m', owns hc hm cs m None -> owns hc hm cs m' (Some Mo).
Proof.
  intros cs m m' [H1 H2]. split; [|reflexivity]. intros j y Hj Hy. specialize (H1 _ _ Hj Hy). discriminate.
Qed.

Lemma owns_mdrop : forall cs m m' l, owns hc hm cs m l -> hm m' = false -> owns hc hm cs m' (unlock Mo l).
Proof.
  intros cs m m' l [H1 H2] F. split; [|congruence]. intros j y Hj Hy. apply unlock_other; [eauto | congruence].
Qed.

Lemma owns_app : forall cs m l z, owns hc hm cs m l -> hc z = false -> owns hc hm (cs ++ [z]) m l.
Proof.
  intros cs m l z [H1 H2] F. split; [|exact H2]. intros j y Hj Hy.
  destruct (app_inv1 _ _ _ _ Hj) as [Hj' | [_ ->]]; [eauto | congruence].
Qed.

Lemma owns_pass : forall cs m m' i x p, owns hc hm cs m (Some (Cl i)) -> nth_error cs i = Some x ->
  hc p = false -> owns hc hm (put i p cs) m' (Some Mo).
Proof.
  intros cs m m' i x p [H1 H2] E F. split; [|reflexivity]. intros j y Hj Hy.
  destruct (put_inv _ _ _ _ _ _ E Hj) as [[-> ->] | [N Hj']]; [congruence|].
  specialize (H1 _ _ Hj' Hy). congruence.
Qed.

Lemma owns_both : forall cs m m' l i x p, owns hc hm cs m l -> nth_error cs i = Some x ->
  implb (hc p) (hc x) = true -> implb (hm m') (hm m) = true -> owns hc hm (put i p cs) m' l.
Proof. intros cs m m' l i x p H E I J. eapply owns_mon; [|exact J]. eapply owns_put; eassumption. Qed.

Lemma conv_put : forall cs m l i x p, conv hc hm cs m l -> nth_error cs i = Some x ->
  implb (hc x) (hc p) = true -> conv hc hm (put i p cs) m l.
Proof.
  intros cs m l i x p [H1 H2] E I. split; [|exact H2]. intros j Hj.
  destruct (H1 j Hj) as (y & Hy & Fy). destruct (Nat.eq_dec i j) as [-> | N].
  - exists p. rewrite (put_eq _ _ p _ Hy). split; [reflexivity|].
    assert (y = x) by congruence. subst y. rewrite Fy in I. exact I.
  - exists y. rewrite put_neq by exact N. auto.
Qed.

Lemma conv_take : forall cs m i x p, conv hc hm cs m None -> nth_error cs i = Some x -> hc p = true ->
  conv hc hm (put i p cs) m (Some (Cl i)).
Proof.
  intros cs m i x p _ E F. split; [|congruence]. intros j Hj. injection Hj as <-.
  exists p. rewrite (put_eq _ _ p _ E). auto.
Qed.

Lemma conv_drop : forall cs m l i x p, conv hc hm cs m l -> nth_error cs i = Some x ->
  conv hc hm (put i p cs) m (unlock (Cl i) l).
Proof.
  intros cs m l i x p [H1 H2] E. split.
  - intros j Hj. apply unlock_some in Hj. destruct Hj as [Hj N]. destruct (H1 j Hj) as (y & Hy & Fy).
    exists y. rewrite put_neq by congruence. auto.
  - intro Hm. apply unlock_some in Hm. tauto.
Qed.

Lemma conv_mon : forall cs m m' l, conv hc hm cs m l -> implb (hm m) (hm m') = true -> conv hc hm cs m' l.
Proof. intros cs m m' l [H1 H2] I. split; auto. intro Hm. rewrite (H2 Hm) in I. exact I. Qed.

Lemma conv_mtake : forall cs m', hm m' = true -> conv hc hm cs m' (Some Mo).
Proof. intros cs m' F. split; congruence. Qed.

Lemma conv_mdrop : forall cs m m' l, conv hc hm cs m l -> conv hc hm cs m' (unlock Mo l).
Proof.
  intros cs m m' l [H1 H2]. split.
  - intros j Hj. apply unlock_some in Hj. destruct Hj as [Hj N]. eauto.
  - intro Hm. apply unlock_some in Hm. tauto.
Qed.

Lemma conv_app : forall cs m l z, conv hc hm cs m l -> conv hc hm (cs ++ [z]) m l.
Proof.
  intros cs m l z [H1 H2]. split; [|exact H2]. intros j Hj. destruct (H1 j Hj) as (y & Hy & Fy).
  exists y. split; [apply app_keep; exact Hy | exact Fy].
Qed.

Lemma conv_both : forall cs m m' l i x p, conv hc hm cs m l -> nth_error cs i = Some x ->
  implb (hc x) (hc p) = true -> implb (hm m) (hm m') = true -> conv hc hm (put i p cs) m' l.
Proof. intros cs m m' l i x p H E I J. eapply conv_mon; [|exact J]. eapply conv_put; eassumption. Qed.

End Locks.

(** Where the locks are owned. *)
Definition c_sh (p : pc) : bool :=
  match p with
  | Open _ | WaitObj _ | Work _ | CloseObj | WaitTri | UnTri | UnSh | PUnlock | PWait => true
  | _ => false
  end.
Definition c_obj (p : pc) : bool := match p with Work _ | PUnlock => true | _ => false end.
Definition c_tri (p : pc) : bool := match p with UnTri => true | _ => false end.
Definition m_sh (m : mpc) : bool :=
  match m with MStart | MRetry3 | MRetry4 | MRetry5 => true | _ => false end.
Definition m_obj (m : mpc) : bool := monitor_on m.
Definition m_tri (m : mpc) : bool :=
  match m with MOpen2 | MIdle false | MClose1 | MClose2 | MQuit1 false | MQuit2 false | MQuit3 => true
             | _ => false end.

Definition owned (s : st) : Prop :=
  owns c_sh m_sh (cls s) (mon s) (sh s) /\ owns c_obj m_obj (cls s) (mon s) (obj s) /\
  owns c_tri m_tri (cls s) (mon s) (tri s).

Ltac own1 :=
  first [ assumption
        | eapply owns_put; [eassumption | eassumption | reflexivity]
        | eapply owns_take; [eassumption | eassumption]
        | eapply owns_drop; [eassumption | eassumption | reflexivity]
        | eapply owns_mon; [eassumption | reflexivity]
        | eapply owns_mtake; eassumption
        | eapply owns_mdrop; [eassumption | reflexivity]
        | eapply owns_app; [eassumption | reflexivity]
        | eapply owns_pass; [eassumption | eassumption | reflexivity]
        | eapply owns_both; [eassumption | eassumption | reflexivity | reflexivity] ].

Lemma owned_step : forall f l s s', owned s -> step f l s s' -> owned s'.
Proof.
  intros f l s s' (A & B & C) H. destruct H; cbn in A, B, C; unfold owned; cbn;
    try (split; [own1 | split; own1]; fail);
    try (destruct k; (split; [own1 | split; own1]); fail).
Qed.

Lemma reach_owned : forall f s, reach f s -> owned s.
Proof.
  intros f s H. induction H as [| l s s' H IH S].
  - split; [|split]; (split; [intros [|i] p E; discriminate | discriminate]).
  - eapply owned_step; eassumption.
Qed.
