(** When nothing goes wrong every process finishes. *)
From Coq Require Import List Bool Arith Lia.
From Verif Require Import TriModel TriSpec TriProofs TriProofs2.
Import ListNotations.

Lemma emit_ex : forall f m e q, exists q', emit f m e q q'.
Proof. intros f m e q. destruct (watching m) eqn:W; [exists (q ++ [e]) | exists q]; constructor; exact W. Qed.

Lemma obj_sh : forall p, c_obj p = true -> c_sh p = true.
Proof. intros []; cbn; congruence. Qed.
Lemma tri_sh : forall p, c_tri p = true -> c_sh p = true.
Proof. intros []; cbn; congruence. Qed.

Lemma read_ex : forall f s b e q, mon s = MIdle b -> queue s = e :: q -> exists s', step f Run s s'.
Proof.
  intros f [a b c cs m q0 l p h g] k e q M Q. cbn in M, Q. subst m q0.
  destruct e, k; eexists; first [apply m_open | apply m_open_off | apply m_close_on | apply m_close | apply m_file | apply m_over].
Qed.

(** The process that owns the shared lock, or the monitor, can go on. *)
Lemma holder_steps : forall f s i p, good s -> nth_error (cls s) i = Some p -> c_sh p = true ->
  exists s', step f Run s s'.
Proof.
  intros f s i p (O & K & (L & P & P0)) E F. pose proof (P _ _ E F) as C.
  pose proof (own_sh _ _ _ O E F) as SH. pose proof O as (_ & OO & OT). destruct K as (_ & KO & KT).
  assert (noC : forall j, obj s = Some (Cl j) -> c_obj p = true).
  { intros j Hj. destruct (proj1 KO j Hj) as (y & Hy & Fy).
    rewrite (only s i j p y O E Hy F (obj_sh _ Fy)) in E. congruence. }
  assert (noT : forall j, tri s = Some (Cl j) -> c_tri p = true).
  { intros j Hj. destruct (proj1 KT j Hj) as (y & Hy & Fy).
    rewrite (only s i j p y O E Hy F (tri_sh _ Fy)) in E. congruence. }
  pose proof (proj2 KO) as mO. pose proof (proj2 KT) as mT. pose proof (proj2 OO) as oO.
  pose proof (fun b e q => read_ex f s b e q) as RD.
  destruct s as [a b c cs m q l pe h g]. cbn in *.
  destruct p as [k|k|k|k| | | | | | | |x|x|x|x]; try discriminate.
  - destruct (emit_ex f m EvOpen q) as [q' Q]. eexists; eapply s_open; eassumption.
  - (* WaitObj *) destruct b as [[j|]|].
    + specialize (noC j eq_refl). discriminate.
    + specialize (mO eq_refl). destruct m as [ | | |[|]| | | | | | | | | |[|]|b0|]; cbn in *; try discriminate; try contradiction.
      * destruct q as [|e q]; [discriminate|]. eapply (RD true e q); reflexivity.
      * destruct l; [eexists; eapply m_open_retry|]. destruct c as [[j|]|].
        -- specialize (noT j eq_refl). discriminate.
        -- specialize (mT eq_refl). discriminate.
        -- eexists; eapply TriModel.m_tri.
      * eexists; eapply m_unobj.
      * destruct (emit_ex f MRetry1 EvClose q) as [q' Q]. eexists; eapply m_closeall; eassumption.
      * eexists; eapply m_quit_obj.
    + eexists; eapply s_obj; eassumption.
  - destruct k as [|k]; [eexists; eapply s_unobj; eassumption|].
    destruct (emit_ex f m (EvFile 0) q) as [q' Q]. eexists; eapply s_work; eassumption.
  - destruct (emit_ex f m EvClose q) as [q' Q]. eexists; eapply s_close; eassumption.
  - (* WaitTri *) destruct c as [[j|]|].
    + specialize (noT j eq_refl). discriminate.
    + specialize (mT eq_refl). destruct m as [ | | |[|]| | | | | | | | | |[|]|[|]|]; cbn in *; try discriminate; try contradiction.
      * destruct q as [|e q]; [discriminate|]. eapply (RD false e q); reflexivity.
      * destruct b as [[j|]|].
        -- specialize (noC j eq_refl). discriminate.
        -- specialize (mO eq_refl). discriminate.
        -- eexists; eapply TriModel.m_obj.
      * eexists; eapply m_untri.
      * eexists; eapply m_quit_obj.
      * eexists; eapply m_quit_tri_own.
      * eexists; eapply m_quit_done.
    + eexists; eapply s_tri; eassumption.
  - eexists; eapply s_untri; eassumption.
  - eexists; eapply s_unsh; eassumption.
  - eexists; eapply s_punlock; eassumption.
  - (* PWait *) destruct m as [ | | |[|]| | | | | | | | | |b0|b0|]; cbn in *; try discriminate; try contradiction.
    + destruct b as [[j|]|].
      * specialize (noC j eq_refl). discriminate.
      * specialize (mO eq_refl). discriminate.
      * eexists; eapply m_child.
    + specialize (oO eq_refl). subst b. eexists; eapply (s_pwait f a c cs _ q l pe h g i Mo); [eassumption | reflexivity].
Qed.

Lemma monitor_steps : forall f s, good s -> sh s = Some Mo -> exists s', step f Run s s'.
Proof.
  intros f s (O & K & _) SH. destruct K as (KS & KO & _). pose proof (proj2 KS SH) as M.
  pose proof (proj1 KO) as cO. pose proof (proj2 KO) as mO. pose proof O as ((OS & _) & _).
  destruct s as [a b c cs m q l pe h g]. cbn in *. subst a.
  destruct m as [ | | |[|]| | | | | | | | | |b0|b0|]; try discriminate.
  - eexists; eapply m_start.
  - destruct (emit_ex f MRetry3 EvOpen q) as [q' Q]. eexists; eapply m_retry_open; eassumption.
  - destruct b as [[j|]|].
    + destruct (cO j eq_refl) as (y & Hy & Fy). specialize (OS _ _ Hy (obj_sh _ Fy)). discriminate.
    + specialize (mO eq_refl). discriminate.
    + eexists; eapply m_retry_obj.
  - eexists; eapply m_drain.
Qed.

Lemma progress : forall f s, good s -> unfinished s -> exists s', step f Run s s'.
Proof.
  intros f s G (p & I & N). apply In_nth_error in I. destruct I as [i E].
  destruct (c_sh p) eqn:F; [eapply holder_steps; eassumption|].
  pose proof G as (_ & K & (L & _)). specialize (L _ _ E).
  assert (exists k, p = WaitSh k) as [k ->] by (destruct p; try discriminate; try congruence; eauto).
  destruct (sh s) as [[j|]|] eqn:SH.
  - destruct K as (KS & _). destruct (proj1 KS j SH) as (y & Hy & Fy). eapply holder_steps; eassumption.
  - eapply monitor_steps; eassumption.
  - destruct s as [a b c cs m q l pe h g]. cbn in *. subst a. eexists; eapply s_sh; eassumption.
Qed.

(** ** Every run of this kind ends *)

Definition w (p : pc) : nat :=
  match p with
  | Done => 0 | UnSh => 1 | UnTri => 2 | WaitTri => 3 | CloseObj => 7
  | PWait => 4 | PUnlock => 5
  | Work k => 8 + 61 * k | WaitObj k => 9 + 61 * k | Open k => 13 + 61 * k | WaitSh k => 14 + 61 * k
  | Die4 _ => 4 | Die3 _ => 5 | Die2 _ => 6 | Die1 _ => 7
  end.
Definition we (e : ev) : nat := match e with EvOver => 60 | _ => 3 end.
Definition wm (m : mpc) : nat :=
  match m with
  | MNone => 0 | MQuit3 => 1 | MQuit2 _ => 2 | MQuit1 _ => 3
  | MIdle _ => 0 | MOpen2 => 1 | MOpen1 => 2 | MClose2 => 1 | MClose1 => 2 | MChild => 1
  | MStart => 1 | MRetry5 => 2 | MRetry4 => 3 | MRetry3 => 7 | MRetry2 => 8 | MRetry1 => 12
  end.
Definition wl (m : mpc) (l : bool) : nat :=
  if l then match m with MRetry1 | MRetry2 | MRetry3 | MRetry4 | MRetry5 => 0 | _ => 50 end else 0.

Fixpoint total (wt : pc -> nat) (cs : list pc) : nat :=
  match cs with [] => 0 | p :: cs' => wt p + total wt cs' end.
Fixpoint qtotal (q : list ev) : nat := match q with [] => 0 | e :: q' => we e + qtotal q' end.

Definition left (s : st) : nat :=
  total w (cls s) + qtotal (queue s) + wm (mon s) + wl (mon s) (lost s) + length (pend s).

Lemma total_put : forall wt cs i x p, nth_error cs i = Some x ->
  total wt (put i p cs) + wt x = total wt cs + wt p.
Proof.
  intros wt. induction cs as [|y cs IH]; intros [|i] x p H; cbn in *; try discriminate.
  - injection H as ->. lia.
  - specialize (IH i x p H). lia.
Qed.

Lemma qtotal_app : forall a b, qtotal (a ++ b) = qtotal a + qtotal b.
Proof. induction a as [|e a IH]; intro b; cbn; [reflexivity|]. rewrite IH. lia. Qed.

Lemma emit_left : forall f m e q q', emit f m e q q' -> f_over f = false ->
  qtotal q' <= qtotal q + (if is_lock e then 3 else 60).
Proof.
  intros f m e q q' H F. inversion H; subst; try lia; rewrite qtotal_app; cbn.
  - destruct e; cbn; lia.
  - destruct (is_lock e); [rewrite H2 in F by reflexivity; discriminate | lia].
Qed.

Lemma run_left : forall f s s', f_over f = false -> step f Run s s' -> left s' < left s.
Proof.
  intros f s s' F H. remember Run as r eqn:R. destruct H; try discriminate; unfold left; cbn [cls queue mon lost pend].
  all: try (match goal with E : nth_error _ _ = Some _ |- context[put ?i ?p ?cs] =>
         pose proof (total_put w _ _ _ p E) as T; cbn [w] in T end).
  all: try (match goal with E : emit _ _ _ _ _ |- _ =>
         pose proof (emit_left _ _ _ _ _ E F) as Q; cbn [is_lock] in Q end).
  all: cbn [wm wl qtotal we length]; rewrite ?app_length; try lia.
  all: try (destruct l; cbn; lia).
  destruct p as [|x p]; [congruence | cbn; lia].
Qed.

Lemma runs_left : forall f n s s', f_over f = false -> runs f n s s' -> n + left s' <= left s.
Proof.
  intros f n s s' F H. induction H as [| n s s' s'' S R IH]; [lia|].
  pose proof (run_left _ _ _ F S). lia.
Qed.

Lemma finished_dec : forall s, all_finished s \/ unfinished s.
Proof.
  intro s. unfold all_finished, unfinished. induction (cls s) as [|p cs IH].
  - left. intros p [].
  - assert (D : p = Done \/ p <> Done) by (destruct p; auto; right; discriminate).
    destruct D as [-> | N]; [|right; exists p; cbn; auto].
    destruct IH as [IH | (y & I & N)]; [left | right; exists y; cbn; auto].
    intros y [<- | I]; auto.
Qed.
