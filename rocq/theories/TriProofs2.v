(** What the owners of the locks and the monitor's queue look like together
    when nothing goes wrong. *)
From Coq Require Import List Bool Arith Lia.
From Verif Require Import TriModel TriSpec TriProofs.
Import ListNotations.

Definition locks (q : list ev) : list ev := filter is_lock q.

Arguments locks : simpl never.

Lemma locks_cons : forall e q, locks (e :: q) = if is_lock e then e :: locks q else locks q.
Proof. reflexivity. Qed.

Lemma locks_app : forall a b, locks (a ++ b) = locks a ++ locks b.
Proof. intros; apply filter_app. Qed.

Definition compat (p : pc) (m : mpc) (le : list ev) : Prop :=
  match m with
  | MNone | MQuit1 _ | MQuit2 _ | MQuit3 | MRetry2 => waits_child p = false
  | MChild => waits_child p = true /\ le = []
  | MStart | MRetry3 | MRetry4 | MRetry5 => False
  | MIdle true =>
      match p with
      | WaitObj _ => le = [EvOpen]
      | Open _ | PWait | WaitTri | UnTri | UnSh => le = []
      | _ => False
      end
  | MOpen1 | MOpen2 => match p with WaitObj _ => le = [] | _ => False end
  | MIdle false =>
      match p with
      | WaitObj _ | Work _ | CloseObj => le = []
      | WaitTri => le = [EvClose]
      | _ => False
      end
  | MClose1 | MClose2 => match p with WaitTri => le = [] | _ => False end
  | MRetry1 => match p with WaitObj _ | Open _ | WaitTri | UnTri | UnSh => True | _ => False end
  end.

Definition compat0 (m : mpc) (le : list ev) : Prop :=
  match m with
  | MIdle true | MStart => le = []
  | MIdle false | MOpen1 | MOpen2 | MClose1 | MClose2 | MChild => False
  | _ => True
  end.

Definition live (p : pc) : bool :=
  match p with Die1 _ | Die2 _ | Die3 _ | Die4 _ => false | _ => true end.

Definition phase (s : st) : Prop :=
  (forall i p, nth_error (cls s) i = Some p -> live p = true) /\
  (forall i p, nth_error (cls s) i = Some p -> c_sh p = true -> compat p (mon s) (locks (queue s))) /\
  (sh s = None \/ sh s = Some Mo -> compat0 (mon s) (locks (queue s))).

Definition convs (s : st) : Prop :=
  conv c_sh m_sh (cls s) (mon s) (sh s) /\ conv c_obj m_obj (cls s) (mon s) (obj s) /\
  conv c_tri m_tri (cls s) (mon s) (tri s).

Definition good (s : st) : Prop := owned s /\ convs s /\ phase s.

Lemma emit_file : forall f m n q q', emit f m (EvFile n) q q' -> locks q' = locks q.
Proof. intros f m n q q' H. inversion H; subst; try reflexivity; rewrite locks_app; cbn; apply app_nil_r. Qed.

Lemma emit_lock : forall f m e q q', f_over f = false -> is_lock e = true -> emit f m e q q' ->
  (watching m = false /\ locks q' = locks q) \/
  (watching m = true /\ locks q' = locks q ++ [e]) \/
  (watching m = true /\ (exists l0, locks q = l0 ++ [e]) /\ locks q' = locks q).
Proof.
  intros f m e q q' F L H. inversion H; subst.
  - left. auto.
  - right; left. split; [assumption|]. rewrite locks_app, (locks_cons e []), L. reflexivity.
  - right; right. split; [assumption|]. split; [|reflexivity]. exists (locks q0).
    rewrite locks_app, (locks_cons e []), L. reflexivity.
  - rewrite H2 in F by exact L. discriminate.
  - rewrite H2 in F by exact L. discriminate.
Qed.

Ltac conv1 :=
  first [ assumption
        | eapply conv_put; [eassumption | eassumption | reflexivity]
        | eapply conv_take; [eassumption | eassumption | reflexivity]
        | eapply conv_drop; [eassumption | eassumption]
        | eapply conv_mon; [eassumption | reflexivity]
        | eapply conv_mtake; reflexivity
        | eapply conv_mdrop; eassumption
        | eapply conv_app; eassumption
        | eapply conv_both; [eassumption | eassumption | reflexivity | reflexivity] ].

Section NoFaults.
Variable f : faults.
Hypothesis NC : f_crash f = false.
Hypothesis NO : f_over f = false.
Hypothesis NE : f_early f = false.

(** A process that owns the shared lock is the only one. *)
Lemma only : forall s i j p x, owned s -> nth_error (cls s) i = Some p -> nth_error (cls s) j = Some x ->
  c_sh p = true -> c_sh x = true -> i = j.
Proof.
  intros s i j p x ((A & _) & _) Ei Ej Fp Fx. pose proof (A _ _ Ei Fp). pose proof (A _ _ Ej Fx). congruence.
Qed.

Lemma convs_step : forall l s s', good s -> step f l s s' -> convs s'.
Proof.
  intros l s s' (O & (A & B & C) & (L & P & P0)) H. destruct H; cbn in *; unfold convs; cbn;
    try (split; [conv1 | split; conv1]; fail);
    try (destruct k; (split; [conv1 | split; conv1]); fail).
  all: try congruence; try (specialize (L _ _ H); discriminate).
Qed.

Lemma live_step : forall l s s', good s -> step f l s s' ->
  forall i p, nth_error (cls s') i = Some p -> live p = true.
Proof.
  intros l s s' (_ & _ & (L & _)) H.
  destruct H; cbn in *; intros j z Hj; eauto;
    try (destruct (put_inv _ _ _ _ _ _ H Hj) as [[-> ->] | [N Hj']]; [reflexivity | eauto]; fail).
  all: try (destruct (app_inv1 _ _ _ _ Hj) as [Hj' | [_ ->]]; eauto; fail).
  all: try congruence; try (specialize (L _ _ H); discriminate).
Qed.

(** The two halves of the statement for a step that moves the process [i]. *)
Lemma phase_move : forall s i x y a m q,
  good s -> nth_error (cls s) i = Some x -> c_sh x = true \/ sh s = None ->
  (c_sh y = true -> compat y m (locks q)) ->
  (a = None \/ a = Some Mo -> compat0 m (locks q)) ->
  (forall j p, nth_error (put i y (cls s)) j = Some p -> c_sh p = true -> compat p m (locks q)) /\
  (a = None \/ a = Some Mo -> compat0 m (locks q)).
Proof.
  intros s i x y a m q (O & _ & _) E X C C0. split; [|exact C0].
  intros j p Hj Hp. destruct (put_inv _ _ _ _ _ _ E Hj) as [[-> ->] | [N Hj']]; [auto|].
  exfalso. destruct X as [X | X].
  - apply N. eapply only; eassumption.
  - destruct O as ((A & _) & _). rewrite (A _ _ Hj' Hp) in X. discriminate.
Qed.

Lemma own_sh : forall s i x, owned s -> nth_error (cls s) i = Some x -> c_sh x = true -> sh s = Some (Cl i).
Proof. intros s i x ((A & _) & _) E F. eauto. Qed.

Ltac lk H := let T := fresh in pose proof (fun E => emit_lock _ _ _ _ _ NO E H) as T;
  specialize (T eq_refl); destruct T as [[?W ->] | [[?W ->] | [?W [[?l0 ?M] ->]]]].

Lemma phase_step : forall l s s', good s -> step f l s s' ->
  (forall i p, nth_error (cls s') i = Some p -> c_sh p = true -> compat p (mon s') (locks (queue s'))) /\
  (sh s' = None \/ sh s' = Some Mo -> compat0 (mon s') (locks (queue s'))).
Proof.
  intros l s s' G H. pose proof G as (O & K & (L & P & P0)).
  destruct H; cbn [cls mon queue sh].
  - (* arrive *) cbn in *. split; [|exact P0]. intros j y Hj Hy.
    destruct (app_inv1 _ _ _ _ Hj) as [Hj' | [_ ->]]; [eauto | discriminate].
  - (* edit *) cbn in *. rewrite (emit_file _ _ _ _ _ H). auto.
  - (* sh *) apply (phase_move _ _ _ _ _ _ _ G H); cbn; [auto | | ]; [|intros [D|D]; discriminate].
    intros _. specialize (P0 (or_introl eq_refl)). cbn in P0.
    destruct m as [ | | |[|]| | | | | | | | | |b0|b0|]; cbn in *; auto; try contradiction;
      destruct K as ((_ & K) & _), O as ((_ & O) & _); cbn in K, O; specialize (O eq_refl); discriminate.
  - (* open *) apply (phase_move _ _ _ _ _ _ _ G H); cbn; [auto | | ];
      [|intros D; pose proof (own_sh _ _ _ O H eq_refl) as E; cbn in E; rewrite E in D; destruct D; discriminate].
    intros _. specialize (P _ _ H eq_refl). cbn in P. lk H0;
    destruct m as [ | | |[|]| | | | | | | | | |b0|b0|]; cbn in *; auto; try contradiction; try discriminate;
      try (destruct P; discriminate); try (rewrite P in *; auto; try (destruct l0; discriminate)).
  - (* obj *) apply (phase_move _ _ _ _ _ _ _ G H); cbn; [auto | | ];
      [|intros D; pose proof (own_sh _ _ _ O H eq_refl) as E; cbn in E; rewrite E in D; destruct D; discriminate].
    intros _. specialize (P _ _ H eq_refl). cbn in P. destruct O as (_ & (_ & O) & _). cbn in O.
    destruct m as [ | | |[|]| | | | | | | | | |b0|b0|]; cbn in *; auto; try contradiction; try discriminate;
      try (specialize (O eq_refl); discriminate); try (destruct P; discriminate).
  - (* work *) apply (phase_move _ _ _ _ _ _ _ G H); cbn; [auto | | ];
      [|intros D; pose proof (own_sh _ _ _ O H eq_refl) as E; cbn in E; rewrite E in D; destruct D; discriminate].
    intros _. specialize (P _ _ H eq_refl). cbn in P. rewrite (emit_file _ _ _ _ _ H0).
    destruct m as [ | | |[|]| | | | | | | | | |b0|b0|]; cbn in *; auto.
  - (* unobj *) apply (phase_move _ _ _ _ _ _ _ G H); cbn; [auto | | ];
      [|intros D; pose proof (own_sh _ _ _ O H eq_refl) as E; cbn in E; rewrite E in D; destruct D; discriminate].
    intros _. specialize (P _ _ H eq_refl). cbn in P.
    destruct m as [ | | |[|]| | | | | | | | | |b0|b0|]; cbn in *; auto.
  - (* close *) apply (phase_move _ _ _ _ _ _ _ G H); cbn; [auto | | ];
      [|intros D; pose proof (own_sh _ _ _ O H eq_refl) as E; cbn in E; rewrite E in D; destruct D; discriminate].
    intros _. specialize (P _ _ H eq_refl). cbn in P. lk H0;
    destruct m as [ | | |[|]| | | | | | | | | |b0|b0|]; cbn in *; auto; try contradiction; try discriminate;
      try (destruct P; discriminate); try (rewrite P in *; auto; try (destruct l0; discriminate)).
  - (* tri *) apply (phase_move _ _ _ _ _ _ _ G H); cbn; [auto | | ];
      [|intros D; pose proof (own_sh _ _ _ O H eq_refl) as E; cbn in E; rewrite E in D; destruct D; discriminate].
    intros _. specialize (P _ _ H eq_refl). cbn in P. destruct O as (_ & _ & (_ & O)). cbn in O.
    destruct m as [ | | |[|]| | | | | | | | | |b0|b0|]; cbn in *; auto; try contradiction; try discriminate;
      try (specialize (O eq_refl); discriminate); try (destruct P; discriminate).
  - (* untri *) apply (phase_move _ _ _ _ _ _ _ G H); cbn; [auto | | ];
      [|intros D; pose proof (own_sh _ _ _ O H eq_refl) as E; cbn in E; rewrite E in D; destruct D; discriminate].
    intros _. specialize (P _ _ H eq_refl). cbn in P.
    destruct m as [ | | |[|]| | | | | | | | | |b0|b0|]; cbn in *; auto; try contradiction.
  - (* unsh *) apply (phase_move _ _ _ _ _ _ _ G H); cbn; [auto | discriminate |].
    intros _. specialize (P _ _ H eq_refl). cbn in P.
    destruct m as [ | | |[|]| | | | | | | | | |b0|b0|]; cbn in *; auto; try contradiction;
      destruct P; discriminate.
  - (* fore *) apply (phase_move _ _ _ _ _ _ _ G H); cbn; auto. discriminate.
  - (* fork *) apply (phase_move _ _ _ _ _ _ _ G H); cbn; [auto | auto | ];
      intros D; pose proof (own_sh _ _ _ O H eq_refl) as E; cbn in E; rewrite E in D; destruct D; discriminate.
  - (* punlock *) apply (phase_move _ _ _ _ _ _ _ G H); cbn; [auto | | ];
      [|intros D; pose proof (own_sh _ _ _ O H eq_refl) as E; cbn in E; rewrite E in D; destruct D; discriminate].
    intros _. specialize (P _ _ H eq_refl). cbn in P.
    destruct m as [ | | |[|]| | | | | | | | | |b0|b0|]; cbn in *; auto; try contradiction; discriminate.
  - (* pwait *) apply (phase_move _ _ _ _ _ _ _ G H); cbn; [auto | | ];
      [|intros D; pose proof (own_sh _ _ _ O H eq_refl) as E; cbn in E; rewrite E in D; destruct D; discriminate].
    intros _. specialize (P _ _ H eq_refl). cbn in P.
    destruct m as [ | | |[|]| | | | | | | | | |b0|b0|]; cbn in *; auto; try contradiction; try discriminate.
    exfalso. destruct K as (_ & (K1 & K2) & _). cbn in K1, K2. destruct o as [j|].
    + destruct (K1 j eq_refl) as (y & Hy & Fy). assert (i = j).
      { eapply (only _ i j); [exact O | exact H | exact Hy | reflexivity |]. destruct y; cbn in *; congruence. }
      subst j. cbn in H0. rewrite Nat.eqb_refl in H0. discriminate.
    + specialize (K2 eq_refl). discriminate.
  - (* child *) cbn in *. split; [|tauto].
    intros j y Hj Hy. specialize (P _ _ Hj Hy). destruct P as [P1 P2]. destruct O as (_ & (O & _) & _).
    destruct y; try discriminate; auto. specialize (O _ _ Hj eq_refl). discriminate.
  - (* start *) cbn in *. split.
    + intros j y Hj Hy. destruct (P _ _ Hj Hy).
    + intros _. apply P0. right. destruct O as ((_ & O) & _). exact (O eq_refl).
  - (* open *) cbn in *. rewrite locks_cons in *; cbn in *. split.
    + intros j y Hj Hy. specialize (P _ _ Hj Hy). destruct y; try contradiction; try discriminate. congruence.
    + intro D. specialize (P0 D). discriminate.
  - cbn in *. rewrite locks_cons in *; cbn in *. split.
    + intros j y Hj Hy. specialize (P _ _ Hj Hy). destruct y; try contradiction; try discriminate.
    + intro D. specialize (P0 D). contradiction.
  - cbn in *. rewrite locks_cons in *; cbn in *. split.
    + intros j y Hj Hy. specialize (P _ _ Hj Hy). destruct y; try contradiction; try discriminate.
    + intro D. specialize (P0 D). discriminate.
  - cbn in *. rewrite locks_cons in *; cbn in *. split.
    + intros j y Hj Hy. specialize (P _ _ Hj Hy). destruct y; try contradiction; try discriminate. congruence.
    + intro D. specialize (P0 D). contradiction.
  - auto.
  - auto.
  - auto.
  - (* flush, retry *) cbn in *. split; [|auto]. intros j y Hj Hy. specialize (P _ _ Hj Hy).
    destruct H as [H | H]; [congruence|]. specialize (H y (nth_error_In _ _ Hj)).
    destruct y; cbn in *; auto; try contradiction; try discriminate.
  - auto.
  - (* open, retry *) cbn in *. split; [|auto]. intros j y Hj Hy. specialize (P _ _ Hj Hy).
    destruct y; cbn in *; auto; try contradiction; try discriminate.
  - (* unobj *) cbn in *. split; [|tauto]. intros j y Hj Hy. specialize (P _ _ Hj Hy).
    destruct y; cbn in *; auto; try contradiction; try discriminate.
  - auto.
  - (* untri *) cbn in *. split; [|tauto]. intros j y Hj Hy. specialize (P _ _ Hj Hy).
    destruct y; cbn in *; auto; try contradiction; try discriminate.
  - (* closeall *) cbn in *. split; [|auto]. intros j y Hj Hy. specialize (P _ _ Hj Hy).
    destruct y; cbn in *; auto; contradiction.
  - (* retry sh *) cbn in *. split; [|auto]. intros j y Hj Hy. exfalso.
    destruct O as ((O & _) & _). specialize (O _ _ Hj Hy). discriminate.
  - cbn in *. split; [|auto]. intros j y Hj Hy. exact (P _ _ Hj Hy).
  - auto.
  - cbn in *. auto.
  - (* quit *) cbn in *. split; [|auto]. intros j y Hj Hy.
    destruct H as [H | H]; [congruence|]. exact (H y (nth_error_In _ _ Hj)).
  - auto.
  - auto.
  - auto.
  - cbn in *. split; auto.
  - (* kill *) cbn in *. split; [|auto]. intros j y Hj Hy.
    destruct H as [H | H]; [congruence|]. exact (H y (nth_error_In _ _ Hj)).
  - congruence.
  - specialize (L _ _ H). discriminate.
  - specialize (L _ _ H). discriminate.
  - specialize (L _ _ H). discriminate.
  - specialize (L _ _ H). discriminate.
  - specialize (L _ _ H). discriminate.
Qed.

Lemma good_step : forall l s s', good s -> step f l s s' -> good s'.
Proof.
  intros l s s' G H. split; [|split].
  - eapply owned_step; [apply G | exact H].
  - eapply convs_step; eassumption.
  - destruct (phase_step _ _ _ G H) as [A B]. split; [|auto]. eapply live_step; eassumption.
Qed.

Lemma reach_good : forall s, reach f s -> good s.
Proof.
  intros s H. induction H as [| l s s' H IH S].
  - split; [|split].
    + eapply (reach_owned f). constructor.
    + split; [|split]; (split; [discriminate | discriminate]).
    + split; [|split]; cbn; auto; intros [|i] p E; discriminate.
  - eapply good_step; eassumption.
Qed.

End NoFaults.
