(** A batch of operations against recording each of them. *)
From Verif Require Import Base MonModel MonSpec MonProofs MonProofs2 MonProofs3 MonProofs4.

Definition inv2 (fs r : files) (mv : list key) (s : mst) (pl : list op) : Prop :=
  forall x, i2 (fs x) (r x) (In x mv) (eff x (q s)) (flat_map (peff x) pl).
Definition mv_after (o : op) (mv : list key) : list key :=
  match o with Rename _ b | MoveIn b _ => b :: mv | _ => mv end.
Definition allowed (o : op) (mv : list key) : Prop :=
  match o with Remove k | MoveOut k | Rename k _ => ~ In k mv | _ => True end.

Lemma peff_snoc x pl o : flat_map (peff x) (pl ++ [o]) = flat_map (peff x) pl ++ peff x o.
Proof. rewrite flat_map_app. cbn. rewrite app_nil_r. reflexivity. Qed.

(** An event about one name leaves the other names alone, unless it wipes the arrival of a rename. *)
Lemma post_same e s s' x : x <> vkey e -> apart (q s) -> ~ In (Own KTo) (eff (vkey e) (q s)) \/ is_del (vmask e) = false /\ (forall y, In (Own y) (eff (vkey e) (q s)) -> is_del y = false) ->
  post e s s' -> eff x (q s') = eff x (q s).
Proof.
  intros N A T [[_ [-> _]]|[ke [rc [l [P Q]]]]]; [reflexivity|].
  assert (D : eff x l = eff x (q s)).
  { unfold ephemeral in P. destruct (is_new (vmask e) || is_del (vmask e)); [|injection P as _ _ <-; reflexivity].
    destruct T as [T|[T1 T2]].
    - pose proof (eph_same (vkey e) x (vmask e) false false (q s) N A T) as D. rewrite P in D. exact D.
    - rewrite (eph_quiet (vkey e) (vmask e) (q s) A) in P; [injection P as _ _ <-; reflexivity|]. intros y Y. rewrite T1, (T2 y Y). rewrite andb_false_r. auto. }
  destruct Q as [[_ ->]|[_ [i ->]]]; [exact D|]. rewrite eff_app, D, eff_one. unfold eff1. cbn [ent emask ekey efrom]. rewrite key_eqb_ne by auto. destruct ke; apply app_nil_r.
Qed.
Lemma post_own e s s' : apart (q s) -> same_as_last e (q s) = false -> is_new (vmask e) || is_del (vmask e) = true -> post e s s' ->
  exists k1 rc l1, cut (vmask e) false false (eff (vkey e) (q s)) = (k1, rc, l1) /\ eff (vkey e) (q s') = if rc then l1 else l1 ++ [Own k1].
Proof.
  intros A S M [[X _]|[ke [rc [l [P Q]]]]]; [congruence|]. unfold ephemeral in P. rewrite M in P. pose proof (eph_cut (vkey e) (vmask e) false false (q s) A) as C. rewrite P in C.
  exists ke, rc, (eff (vkey e) l). split; [exact C|]. destruct Q as [[-> ->]|[-> [i ->]]]; [reflexivity|]. rewrite eff_app, eff_one. f_equal. unfold eff1. cbn [ent emask ekey efrom]. rewrite key_eqb_refl. destruct ke; reflexivity.
Qed.

(** The names without removals in the queue, or without arrivals. *)
Lemma i2_quiet f r mv l p : i2 f r mv l p -> ~ In (Own KTo) l \/ (forall y, In (Own y) l -> is_del y = false).
Proof.
  intros H. destruct (no_del l) as [ND|[x [I D]]]; [auto|]. left. intros J. destruct (e_x _ _ _ _ _ H) as [_ [X1 X2]]; [auto|]. destruct x; try discriminate; auto.
Qed.

Lemma op_inv2 o c fs fs' r mv s pl : 1 <= c -> ok c s -> inv2 fs r mv s pl -> apply_op o fs = Some fs' -> allowed o mv ->
  forall s', queue_events (events_of c o) s = Some s' -> inv2 fs' r (mv_after o mv) s' (pl ++ [o]).
Proof.
  intros C O I2 A W s' Qs. pose proof O as [Ap _].
  assert (One : forall e, vcookie e <= c -> (vmask e = KTo -> vcookie e = c) -> queue_event e s = Some s' ->
     (forall x, x <> vkey e -> fs' x = fs x) -> (forall x, x <> vkey e -> peff x o = []) -> (forall x, x <> vkey e -> In x mv -> In x (mv_after o mv)) ->
     (is_del (vmask e) = true -> ~ In (vkey e) mv) ->
     post e s s' /\ (i2 (fs' (vkey e)) (r (vkey e)) (In (vkey e) (mv_after o mv)) (eff (vkey e) (q s')) (flat_map (peff (vkey e)) pl ++ peff (vkey e) o) -> inv2 fs' r (mv_after o mv) s' (pl ++ [o]))).
  { intros e V T Q E P M D. destruct (queue_first e s c O V T) as [s1 [Q1 [_ Po]]]. assert (s1 = s') as -> by congruence. split; [exact Po|]. intros H x. rewrite peff_snoc.
    destruct (key_dec x (vkey e)) as [->|N]; [exact H|]. rewrite (P x N), app_nil_r, (E x N). rewrite (post_same e s s' x N Ap); [|clear H|exact Po].
    - eapply i2_weaken; [apply (M x N)|apply I2].
    - destruct (i2_quiet _ _ _ _ _ (I2 (vkey e))) as [X|X]; [auto|]. destruct (is_del (vmask e)) eqn:De; [|auto]. left. intros J. apply (D eq_refl). eapply e_mv; [apply I2|exact J]. }
  destruct o as [k t|k t|k|a b|k|k t]; cbn [apply_op] in A; cbn [events_of] in Qs; cbn [mv_after allowed] in *; try rewrite (single _ _ 0) in Qs.
  - destruct (fs k) eqn:Fk; [discriminate|]. injection A as <-.
    destruct (One {| vkey := k; vmask := KCreate; vcookie := 0 |}) as [Po K]; cbn [vkey vmask vcookie is_del]; try lia; try discriminate; auto.
    { intros x N. apply set_ne, N. } { intros x N. cbn. rewrite key_eqb_ne by auto. reflexivity. }
    apply K. cbn [vkey peff]. rewrite key_eqb_refl, set_eq. pose proof (I2 k) as H. rewrite Fk in H.
    destruct (same_as_last {| vkey := k; vmask := KCreate; vcookie := 0 |} (q s)) eqn:S.
    { exfalso. destruct (same_last _ _ Ap S) as [l0 L]. cbn [vkey vmask] in L. destruct (e_x _ _ _ _ _ H) as [X _]; [left; rewrite L; apply in_elt|auto]. }
    destruct (post_own _ s s' Ap S eq_refl Po) as [k1 [rc [l1 [Cu Re]]]]. cbn [vkey vmask] in Cu, Re. rewrite Re. clear Re. destruct (cut_new_mask KCreate _ _ _ eq_refl _ _ _ Cu) as [_ ->].
    apply (i2_new _ _ _ _ _ H KCreate); auto; discriminate.
  - destruct (fs k) eqn:Fk; [|discriminate]. injection A as <-.
    destruct (One {| vkey := k; vmask := KModify; vcookie := 0 |}) as [Po K]; cbn [vkey vmask vcookie is_del]; try lia; try discriminate; auto.
    { intros x N. apply set_ne, N. } { intros x N. cbn. rewrite key_eqb_ne by auto. reflexivity. }
    apply K. cbn [vkey peff]. rewrite key_eqb_refl, set_eq. pose proof (I2 k) as H.
    destruct Po as [[_ [-> [l0 L]]]|[ke [rc [l [P Q]]]]].
    + eapply i2_write_same; [exact H|congruence|discriminate|exact L].
    + cbn in P. injection P as <- <- <-. destruct Q as [[X _]|[_ [i ->]]]; [discriminate|]. rewrite eff_app, eff_one. unfold eff1. cbn [ent emask ekey efrom vkey]. rewrite key_eqb_refl. eapply i2_write; [exact H|congruence|discriminate].
  - destruct (fs k) eqn:Fk; [|discriminate]. injection A as <-.
    destruct (One {| vkey := k; vmask := KDelete; vcookie := 0 |}) as [Po K]; cbn [vkey vmask vcookie is_del]; try lia; try discriminate; auto.
    { intros x N. apply set_ne, N. } { intros x N. cbn. rewrite key_eqb_ne by auto. reflexivity. }
    apply K. cbn [vkey peff]. rewrite key_eqb_refl, set_eq. pose proof (I2 k) as H.
    destruct (same_as_last {| vkey := k; vmask := KDelete; vcookie := 0 |} (q s)) eqn:S.
    { exfalso. destruct (same_last _ _ Ap S) as [l0 L]. cbn [vkey vmask] in L. pose proof (e_end _ _ _ _ _ H) as X. rewrite L in X. apply ends_snoc in X. congruence. }
    destruct (post_own _ s s' Ap S eq_refl Po) as [k1 [rc [l1 [Cu Re]]]]. cbn [vkey vmask] in Cu, Re. rewrite Re. clear Re. pose proof (cut_del_mask KDelete _ _ _ eq_refl _ _ _ Cu) as ->.
    assert (Tk : ~ In (Own KTo) (eff k (q s))) by (intros J; apply W; eapply e_mv; eauto). eapply i2_remove; [exact H| |exact Tk|congruence|exact Cu|auto|reflexivity]; reflexivity.
  - destruct (fs a) as [t|] eqn:Fa; [|discriminate]. destruct (key_eqb a b) eqn:Eab; [discriminate|]. injection A as <-.
    assert (N : a <> b) by (intros ->; rewrite key_eqb_refl in Eab; discriminate).
    destruct (queue_rename a b c s O N) as [s1 [ka [rca [la [kb [lb [Q [_ [Ea [Eb [Kb E]]]]]]]]]]]. assert (s1 = s') as -> by (cbn [events_of] in Q; congruence). clear Q Qs One.
    pose proof (I2 a) as Ha. pose proof (I2 b) as Hb.
    assert (Ta : ~ In (Own KTo) (eff a (q s))) by (intros J; apply W; eapply e_mv; eauto).
    assert (La : forall x, x <> a -> eff x la = eff x (q s)) by (intros x Nx; pose proof (eph_same a x KFrom false false (q s) Nx Ap Ta) as D; rewrite Ea in D; exact D).
    pose proof (eph_apart a KFrom false false (q s) Ap) as Apa. rewrite Ea in Apa. cbn [snd] in Apa.
    pose proof (eph_cut a KFrom false false (q s) Ap) as Ca. rewrite Ea in Ca.
    pose proof (eph_cut b KTo false false la Apa) as Cb. rewrite Eb in Cb. rewrite (La b) in Cb by auto.
    assert (Lb : forall x, x <> b -> eff x lb = eff x la).
    { intros x Nx. destruct (i2_quiet _ _ _ _ _ Hb) as [X|X].
      - pose proof (eph_same b x KTo false false la Nx Apa ltac:(rewrite La by auto; exact X)) as D. rewrite Eb in D. exact D.
      - rewrite (eph_quiet b KTo la Apa) in Eb; [injection Eb as _ <-; reflexivity|]. rewrite La by auto. intros y Y. rewrite (X y Y), andb_false_r. auto. }
    intros x. rewrite peff_snoc, E. cbn [peff]. destruct (key_dec x a) as [->|Na].
    + rewrite key_eqb_refl, !(key_eqb_ne b a) by auto. cbn [app]. rewrite app_nil_r, set_eq, Lb by auto.
      apply (i2_weaken _ _ (In a mv)); [cbn; auto|]. replace (eff a la ++ (if rca then [] else [match kb with KTo => Gone | _ => Own KFrom end])) with (if rca then eff a la else eff a la ++ [match kb with KTo => Gone | _ => Own KFrom end]) by (destruct rca; [rewrite app_nil_r|]; reflexivity).
      eapply i2_remove; [exact Ha| |exact Ta|congruence|exact Ca|destruct kb; auto|reflexivity]; reflexivity.
    + rewrite !(key_eqb_ne a x) by auto. cbn [app]. rewrite app_nil_r, set_ne by auto. destruct (key_dec x b) as [->|Nb].
      * rewrite key_eqb_refl, set_eq. apply (i2_new _ _ _ _ _ Hb KTo); cbn; auto; discriminate.
      * rewrite !(key_eqb_ne b x) by auto. rewrite !app_nil_r, set_ne by auto. rewrite Lb, La by auto. eapply i2_weaken; [|apply I2]. cbn; auto.
  - destruct (fs k) eqn:Fk; [|discriminate]. injection A as <-.
    destruct (One {| vkey := k; vmask := KFrom; vcookie := c |}) as [Po K]; cbn [vkey vmask vcookie is_del]; try lia; try discriminate; auto.
    { intros x N. apply set_ne, N. } { intros x N. cbn. rewrite key_eqb_ne by auto. reflexivity. }
    apply K. cbn [vkey peff]. rewrite key_eqb_refl, set_eq. pose proof (I2 k) as H.
    pose proof (same_cookie {| vkey := k; vmask := KFrom; vcookie := c |} (q s) c (ok_forall2 _ _ O) eq_refl) as S.
    destruct (post_own _ s s' Ap S eq_refl Po) as [k1 [rc [l1 [Cu Re]]]]. cbn [vkey vmask] in Cu, Re. rewrite Re. clear Re. pose proof (cut_del_mask KFrom _ _ _ eq_refl _ _ _ Cu) as ->.
    assert (Tk : ~ In (Own KTo) (eff k (q s))) by (intros J; apply W; eapply e_mv; eauto). eapply i2_remove; [exact H| |exact Tk|congruence|exact Cu|auto|reflexivity]; reflexivity.
  - injection A as <-.
    destruct (One {| vkey := k; vmask := KTo; vcookie := c |}) as [Po K]; cbn [vkey vmask vcookie is_del]; try lia; try discriminate; auto.
    { intros x N. apply set_ne, N. } { intros x N. cbn. rewrite key_eqb_ne by auto. reflexivity. } { cbn; auto. }
    apply K. cbn [vkey peff]. rewrite key_eqb_refl, set_eq. pose proof (I2 k) as H.
    pose proof (same_cookie {| vkey := k; vmask := KTo; vcookie := c |} (q s) c (ok_forall2 _ _ O) eq_refl) as S.
    destruct (post_own _ s s' Ap S eq_refl Po) as [k1 [rc [l1 [Cu Re]]]]. cbn [vkey vmask] in Cu, Re. rewrite Re. clear Re. destruct (cut_new_mask KTo _ _ _ eq_refl _ _ _ Cu) as [_ ->].
    apply (i2_new _ _ _ _ _ H KTo); cbn; auto; discriminate.
Qed.

Lemma settled_cons mv o l : settled mv (o :: l) -> allowed o mv /\ settled (mv_after o mv) l.
Proof. destruct o; cbn; tauto. Qed.
Lemma ops_inv2 l : forall c fs fs' r mv s pl, 1 <= c -> ok c s -> inv1 fs r s -> inv2 fs r mv s pl -> settled mv l -> apply_ops l fs = Some fs' ->
  exists s' mv', queue_events (all_events c l) s = Some s' /\ inv2 fs' r mv' s' (pl ++ l).
Proof.
  induction l as [|o l IH]; cbn [apply_ops all_events]; intros c fs fs' r mv s pl C O J1 J2 St A; [injection A as <-; exists s, mv; rewrite app_nil_r; auto|].
  destruct (apply_op o fs) as [f1|] eqn:A1; [|discriminate]. apply settled_cons in St. destruct St as [Al St].
  destruct (op_inv1 o c fs f1 r s C O J1 A1) as [s1 [Q1 [O1 K1]]]. pose proof (op_inv2 o c fs f1 r mv s pl C O J2 A1 Al s1 Q1) as K2.
  destruct (IH (S c) f1 fs' r _ s1 _ ltac:(lia) O1 K1 K2 St A) as [s' [mv' [Q' J']]]. exists s', mv'. rewrite (queue_app _ _ _ _ Q1). rewrite <- app_assoc in J'. auto.
Qed.

Definition clean (n : nat) : mst := {| q := []; mfl := []; nid := n |}.
Lemma clean_ok n : ok 1 (clean n).
Proof. split; [intros m a []|]. split; [constructor|intros i []]. Qed.
Lemma clean_inv1 fs n : inv1 fs fs (clean n). Proof. intros x _. reflexivity. Qed.
Lemma clean_inv2 fs n : inv2 fs fs [] (clean n) [].
Proof.
  intros x. split; cbn; auto; try (intros [[]|[]]; fail); try tauto; try discriminate.
  intros pre post E. destruct pre; discriminate.
Qed.

Lemma batch_exists n fs fs' l d : rec d = fs -> apply_ops l fs = Some fs' ->
  exists s', queue_events (all_events 1 l) (clean n) = Some s' /\
    forall k t, fs' k = Some t -> rec (snd (flush fs' s' d)) k = Some t /\ (fs k <> Some t -> touched (snd (flush fs' s' d)) k = true).
Proof.
  intros R A. destruct (ops_inv1 l 1 fs fs' fs (clean n) ltac:(lia) (clean_ok n) (clean_inv1 fs n) A) as [s' [Q [_ J]]]. exists s'. split; [exact Q|]. intros k t F.
  pose proof (flush_eff fs' (q s') d k) as E. cbn [flush snd]. unfold pv at 1 in E.
  assert (V : fst (fold_left (effect (fs' k)) (eff k (q s')) (pv d k)) = fs' k) by (apply ends_value; cbn [pv fst]; rewrite R; apply i1_ends; [congruence|apply J]).
  split; [rewrite <- F, <- V, <- E; reflexivity|]. intros N. pose proof (fold_change (fs' k) (eff k (q s')) (pv d k)) as T. rewrite V in T. rewrite <- E in T. apply T. cbn [pv fst]. rewrite R. congruence.
Qed.
Lemma batch_plain n fs fs' l d : rec d = fs -> settled [] l -> apply_ops l fs = Some fs' ->
  exists s', queue_events (all_events 1 l) (clean n) = Some s' /\
    forall k, rec (snd (flush fs' s' d)) k = fs' k /\ pv (snd (flush fs' s' d)) k = pv (fold_left (fun d o => record fs' o d) l d) k.
Proof.
  intros R St A. destruct (ops_inv2 l 1 fs fs' fs [] (clean n) [] ltac:(lia) (clean_ok n) (clean_inv1 fs n) (clean_inv2 fs n) St A) as [s' [mv' [Q J]]]. exists s'. split; [exact Q|]. intros k. cbn [app] in J.
  pose proof (flush_eff fs' (q s') d k) as E. cbn [flush snd]. destruct (J k) as [A1 A2 A3 A4 A5 A6 A7]. split.
  - change (rec ?x k) with (fst (pv x k)). rewrite E. apply ends_value. cbn. rewrite R. exact A1.
  - rewrite E, plain_eff. apply same_outcome; cbn [pv fst]; rewrite ?R; auto.
    intros Nr H. destruct (eff k (q s')) as [|e t] eqn:L; [discriminate|]. cbn in H. injection H as ->. destruct (A2 [] t eq_refl) as [B _]. cbn in B. contradiction.
Qed.
