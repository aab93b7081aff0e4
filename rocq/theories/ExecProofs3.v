From Verif Require Import Base ExecModel ExecSpec ExecProofs ExecProofs2.
From Coq Require Import Permutation.

Lemma starts_pos n h : 0 < starts n h <-> In (Start n) h.
Proof.
  unfold starts. split.
  - destruct (filter _ h) as [|e l] eqn:F; cbn [length]; [lia|]. intros _.
    assert (In e (filter (fun e => match e with Start m => m =? n | _ => false end) h)) as H
      by (rewrite F; left; reflexivity).
    apply filter_In in H. destruct H as [H1 H2]. destruct e as [m|]; [|discriminate].
    apply Nat.eqb_eq in H2. subst. exact H1.
  - intros H. assert (In (Start n) (filter (fun e => match e with Start m => m =? n | _ => false end) h)) as F.
    { apply filter_In. split; [exact H|apply Nat.eqb_refl]. }
    destruct (filter _ h); [destruct F|cbn; lia].
Qed.

Lemma starts_app n a b : starts n (a ++ b) = starts n a + starts n b.
Proof. unfold starts. rewrite filter_app, app_length. reflexivity. Qed.

Section Reach.
Context {WS : Type}.
Variable work : graph -> id -> WS -> WS -> bool -> Prop.
Variable keep_going : bool.
Variable g0 : graph.
Variable root : id.
Variable nodes : list id.
Hypothesis P0 : prepared g0 root nodes.
Variable jobs : nat.
Hypothesis Jpos : 0 < jobs.
Variable w : WS.
Notation reach := (steps work keep_going (start jobs g0 w)).
Notation Inv := (Inv keep_going g0 root nodes jobs).

Lemma reach_Inv s : reach s -> Inv s.
Proof. apply reach_inv; assumption. Qed.

(** Every Finish has an earlier Start. *)
Definition fs_ok (h : list event) : Prop :=
  forall h1 n ok h2, h = h1 ++ Finish n ok :: h2 -> In (Start n) h2.

Lemma fs_ok_start n h : fs_ok h -> fs_ok (Start n :: h).
Proof.
  intros F h1 m ok h2 E. destruct h1 as [|x h1]; [discriminate|]. injection E as _ E. exact (F _ _ _ _ E).
Qed.

Lemma start_hist : hist (start jobs g0 w) = [].
Proof.
  unfold start. destruct (node_list g0) as [|r l]; [reflexivity|].
  destruct (obind _ _); reflexivity.
Qed.

Lemma step_hist s s' : step work keep_going s s' ->
  hist s' = hist s \/ (exists n, hist s' = Start n :: hist s /\ loop_cond keep_going s = true) \/
  (exists n ok, hist s' = Finish n ok :: hist s /\ In n (running s)).
Proof.
  intros H. destruct H as [s n p At C Pl|s At C|s n ok r At C Fi|s At C|s n l r ws' ok Ru W|s De]; auto.
  - unfold loop_body. destruct (has_incoming (gr s) n).
    + left. destruct (obind _ _); reflexivity.
    + destruct (negb (expanded (gr s) n)).
      * left. destruct (obind _ _); reflexivity.
      * destruct (off_plist (gr s) n); [|auto]. destruct (free s); [auto|]. right. left. exists n. auto.
  - left. unfold reap. destruct ok; [destruct (pop_node (gr s) n)|destruct (to_nodes_tail (gr s) n)]; reflexivity.
  - right. right. exists n, ok. split; [reflexivity|]. rewrite Ru. apply in_elt.
Qed.


Lemma reach_fs_gen s0 s : steps work keep_going s0 s -> Inv s0 -> fs_ok (hist s0) -> fs_ok (hist s).
Proof.
  intros H. induction H as [|a b c H IH S]; intros I F; [exact F|].
  specialize (IH I F).
  pose proof (steps_inv work keep_going g0 root nodes P0 jobs Jpos _ _ I H) as Ib.
  destruct (step_hist _ _ S) as [->|[[n [-> _]]|[n [ok [-> Hr]]]]]; [exact IH|apply fs_ok_start; exact IH|].
  intros h1 m ok' h2 E. destruct h1 as [|x h1]; injection E as E1 E2.
  - subst. apply starts_pos. rewrite (i_run _ _ _ _ _ _ Ib) by auto. lia.
  - exact (IH _ _ _ _ E2).
Qed.

Lemma reach_fs s : reach s -> fs_ok (hist s).
Proof.
  intros H. apply (reach_fs_gen _ _ H); [apply start_inv; assumption|].
  rewrite start_hist. intros h1 n ok h2 E. destruct h1; discriminate.
Qed.

Lemma ordered_split h h1 b h2 : ordered g0 root h -> h = h1 ++ Start b :: h2 ->
  (forall a, direct g0 a b -> a <> root -> In (Finish a true) h2) /\
  (0 < starts b h2 -> forall c, direct g0 b c -> In (Finish c true) h2).
Proof.
  revert h1. induction h as [|e h IH]; intros h1 O E; [destruct h1; discriminate|].
  destruct h1 as [|x h1]; injection E as E1 E2.
  - subst. cbn [ordered] in O. tauto.
  - subst e. apply (IH h1); [|exact E2]. destruct x; cbn [ordered] in O; tauto.
Qed.

Lemma start_after s a b h1 h2 : reach s -> depends g0 root a b ->
  hist s = h1 ++ Start b :: h2 -> In (Finish a true) h2.
Proof.
  intros R D. revert h1 h2. induction D as [a b D Na|a b c D IH Dc Nb]; intros h1 h2 E.
  - exact (proj1 (ordered_split _ _ _ _ (i_hist _ _ _ _ _ _ (reach_Inv s R)) E) a D Na).
  - pose proof (proj1 (ordered_split _ _ _ _ (i_hist _ _ _ _ _ _ (reach_Inv s R)) E) b Dc Nb) as Fb.
    apply in_split in Fb. destruct Fb as [h3 [h4 E2]].
    assert (In (Start b) h4) as Sb.
    { apply (reach_fs s R (h1 ++ Start c :: h3) b true h4). rewrite E, E2, <- app_assoc. reflexivity. }
    apply in_split in Sb. destruct Sb as [h5 [h6 E3]].
    assert (In (Finish a true) h6) as Fa.
    { apply (IH (h1 ++ Start c :: h3 ++ Finish b true :: h5) h6).
      rewrite E, E2, E3, <- !app_assoc. cbn [app]. rewrite <- !app_assoc. reflexivity. }
    rewrite E2, E3. apply in_or_app. right. right. apply in_or_app. right. right. exact Fa.
Qed.

Lemma not_both s a : reach s -> trans g0 a = TNone ->
  In (Finish a true) (hist s) -> In (Finish a false) (hist s) -> False.
Proof.
  intros R T H1 H2. pose proof (reach_Inv s R) as I.
  destruct (i_failed _ _ _ _ _ _ I a H2) as [L _].
  assert (In a (live s)) as La by (apply live_in; destruct L; eauto).
  destruct (i_dup _ _ _ _ _ _ I a H1 La) as [D|D].
  - destruct (i_trans _ _ _ _ _ _ I a) as [[_ [Q _]]|Q]; congruence.
  - destruct L as [L|L].
    + pose proof (i_nodup _ _ _ _ _ _ I) as ND. unfold live in ND. apply NoDup_app_r, NoDup_app_r in ND.
      clear - ND D L. induction (fin s) as [|[y ok] l IH]; [destruct D|].
      cbn [map fst] in ND. apply NoDup_cons_iff in ND. destruct ND as [N1 N2].
      assert (forall ok', In (a, ok') l -> In a (map fst l)) as IM.
      { intros ok' Hi. apply in_map_iff. exists (a, ok'). auto. }
      destruct D as [D|D], L as [L|L]; [congruence| | |exact (IH L D N2)].
      * injection D as -> ->. exact (N1 (IM _ L)).
      * injection L as -> ->. exact (N1 (IM _ D)).
    + refine (proj2 (in_lists_not_busy s a (i_nodup _ _ _ _ _ _ I) _) true D). apply lists_in. auto.
Qed.

Lemma failed_blocks s a b : reach s -> trans g0 a = TNone -> In (Finish a false) (hist s) ->
  depends g0 root a b -> ~ In (Start b) (hist s).
Proof.
  intros R T F D S. apply in_split in S. destruct S as [h1 [h2 E]].
  apply (not_both s a R T); [|exact F]. rewrite E. apply in_or_app. right. right.
  exact (start_after s a b h1 h2 R D E).
Qed.

Lemma no_starts_after_failure s s' : keep_going = false -> failed s <> 0 ->
  step work keep_going s s' -> forall n, starts n (hist s') = starts n (hist s).
Proof.
  intros K F S n. destruct (step_hist _ _ S) as [->|[[m [-> C]]|[m [ok [-> _]]]]]; [reflexivity| |].
  - unfold loop_cond in C. rewrite K in C. destruct (Nat.eqb_spec (failed s) 0); [contradiction|].
    rewrite andb_false_r in C. discriminate.
  - apply starts_cons.
Qed.

Lemma failed_mono s s' : step work keep_going s s' -> failed s <> 0 -> failed s' <> 0.
Proof.
  intros S F. destruct S as [s n p At C Pl|s At C|s n ok r At C Fi|s At C|s n l r ws' ok Ru W|s De]; try exact F.
  - unfold loop_body. destruct (has_incoming (gr s) n); [destruct (obind _ _); exact F|].
    destruct (negb (expanded (gr s) n)); [destruct (obind _ _); exact F|].
    destruct (off_plist (gr s) n); [|exact F]. destruct (free s); exact F.
  - unfold reap. destruct ok.
    + destruct (pop_node (gr s) n); exact F.
    + destruct (to_nodes_tail (gr s) n); cbn; discriminate.
Qed.
Lemma no_starts_ever_after s s' : keep_going = false -> failed s <> 0 ->
  steps work keep_going s s' -> forall n, starts n (hist s') = starts n (hist s).
Proof.
  intros K F H n. assert (failed s' <> 0 /\ starts n (hist s') = starts n (hist s)) as Q; [|exact (proj2 Q)].
  induction H as [|a b c H IH S]; [split; [exact F|reflexivity]|].
  destruct (IH F) as [Fb Eb]. split; [exact (failed_mono _ _ S Fb)|].
  rewrite (no_starts_after_failure _ _ K Fb S n). exact Eb.
Qed.

Lemma cycle_never_starts s n : reach s -> depends g0 root n n -> ~ In (Start n) (hist s).
Proof.
  intros R D S. apply in_split in S. destruct S as [h1 [h2 E]].
  assert (forall k h1 h2, length h2 <= k -> hist s = h1 ++ Start n :: h2 -> False) as Q.
  { induction k as [|k IH]; intros a b L Eq.
    - pose proof (start_after s n n a b R D Eq) as F. destruct b; [destruct F|cbn in L; lia].
    - pose proof (start_after s n n a b R D Eq) as F. apply in_split in F. destruct F as [b1 [b2 Eb]].
      assert (In (Start n) b2) as Sb.
      { apply (reach_fs s R (a ++ Start n :: b1) n true b2). rewrite Eq, Eb, <- app_assoc. reflexivity. }
      apply in_split in Sb. destruct Sb as [b3 [b4 Eb2]].
      apply (IH (a ++ Start n :: b1 ++ Finish n true :: b3) b4).
      + rewrite Eb, Eb2 in L. rewrite !app_length in L. cbn [length] in L. rewrite app_length in L. cbn [length] in L. lia.
      + rewrite Eq, Eb, Eb2, <- !app_assoc. cbn [app]. rewrite <- !app_assoc. reflexivity. }
  exact (Q _ _ _ (le_n _) E).
Qed.

Lemma rc0_all s : reach s -> at_ s = Returned 0 ->
  forall n, In n nodes -> In (Finish n true) (hist s) /\
    starts n (hist s) = (match trans g0 n with TProcessing => 2 | _ => 1 end).
Proof.
  intros R A n Hn. pose proof (reach_Inv s R) as I.
  destruct (i_ret _ _ _ _ _ _ I _ A) as [_ [Z _]]. destruct (Z eq_refl) as [F [L Ac]].
  pose proof (i_active _ _ _ _ _ _ I) as IA.
  assert (live s = []) as Lv.
  { unfold live. rewrite L. destruct (running s); [|cbn in IA; lia]. destruct (fin s); [reflexivity|cbn in IA; lia]. }
  assert (In (Finish n true) (hist s)) as Fn.
  { destruct (i_gone _ _ _ _ _ _ I n Hn) as [G|G]; [rewrite Lv in G; destruct G|exact G]. }
  split; [exact Fn|].
  pose proof (i_ran _ _ _ _ _ _ I n Fn) as S1. pose proof (i_starts_le _ _ _ _ _ _ I n) as S2.
  unfold base in S2. destruct (i_trans _ _ _ _ _ _ I n) as [[T1 [T2 _]]|T].
  - rewrite T2. destruct (i_tdel _ _ _ _ _ _ I n Hn T2) as [G|G]; [rewrite Lv in G; destruct G|exact G].
  - rewrite <- T. pose proof (p_trans _ _ _ P0 n) as TD. rewrite <- T in TD.
    destruct (trans (gr s) n) eqn:E; [lia| |congruence].
    destruct (i_tdel _ _ _ _ _ _ I n Hn ltac:(congruence)) as [G|G]; [rewrite Lv in G; destruct G|exact G].
Qed.

Lemma rc0_no_failure s : reach s -> at_ s = Returned 0 -> forall n, ~ In (Finish n false) (hist s).
Proof.
  intros R A n F. pose proof (reach_Inv s R) as I.
  destruct (i_ret _ _ _ _ _ _ I _ A) as [_ [Z _]]. destruct (Z eq_refl) as [F0 [L Ac]].
  pose proof (i_active _ _ _ _ _ _ I) as IA.
  destruct (i_failed _ _ _ _ _ _ I n F) as [[D|D] _].
  - destruct (fin s); [destruct D|cbn in IA; lia].
  - assert (In n (lists (gr s))) as C by (apply lists_in; auto). rewrite L in C. exact C.
Qed.

(** At the end of a run that was not killed: whatever never ran is downstream
    of a failure. *)
Lemma stuck_failed s rc : reach s -> at_ s = Returned rc -> dead s = false ->
  (keep_going = true \/ failed s = 0) -> acyclic g0 ->
  forall n, In n nodes -> In n (live s) -> trans (gr s) n <> TDelete ->
    In (Finish n false) (hist s) \/ exists a, In (Finish a false) (hist s) /\ depends g0 root a n.
Proof.
  intros R A D K [rank Hr] n. pose proof (reach_Inv s R) as I.
  destruct (i_ret _ _ _ _ _ _ I _ A) as [_ [_ [Z _]]].
  assert (plist (gr s) = [] /\ active s = 0) as [Pn Ac].
  { destruct (Z D) as [[F Kf]|Q]; [|exact Q]. destruct K as [K|K]; congruence. }
  pose proof (i_active _ _ _ _ _ _ I) as IA.
  assert (forall x, In x (live s) -> In x (node_list (gr s))) as LN.
  { intros x Hx. apply live_in in Hx. rewrite Pn in Hx. destruct Hx as [[]|[Hx|[Hx|[ok Hx]]]]; [exact Hx| |].
    - destruct (running s); [destruct Hx|cbn in IA; lia].
    - destruct (fin s); [destruct Hx|cbn in IA; lia]. }
  induction n as [n IH] using (well_founded_ind (Wf_nat.well_founded_ltof _ rank)).
  intros Hn Ln Tn. unfold Wf_nat.ltof in IH.
  destruct (i_wait _ _ _ _ _ _ I n (LN n Ln)) as [[e [He Hd]]|F]; [|auto].
  destruct (i_edge _ _ _ _ _ _ I e He) as [[E0 Ts]|[Td _]]; [|rewrite Hd in Td; contradiction].
  pose proof (i_src _ _ _ _ _ _ I e He) as Ls.
  assert (In (src e) nodes) as Hs by (apply (i_sub _ _ _ _ _ _ I); exact Ls).
  assert (src e <> root) as Nr.
  { intros E. pose proof (p_nodup _ _ _ P0) as ND. apply NoDup_cons_iff in ND. apply (proj1 ND). rewrite <- E. exact Hs. }
  assert (direct g0 (src e) n) as Dn by (exists e; auto).
  right. destruct (IH (src e)) as [F|[a [F Da]]]; auto.
  - rewrite <- Hd. apply Hr. exact E0.
  - exists (src e). split; [exact F|]. apply dep_direct; assumption.
  - exists a. split; [exact F|]. exact (dep_trans _ _ _ _ _ Da Dn Nr).
Qed.

Lemma keep_going_complete s rc : reach s -> at_ s = Returned rc -> dead s = false ->
  keep_going = true -> acyclic g0 ->
  forall n, In n nodes -> In (Start n) (hist s) \/
    exists a, In (Finish a false) (hist s) /\ depends g0 root a n.
Proof.
  intros R A D K Ac n Hn. pose proof (reach_Inv s R) as I.
  destruct (i_gone _ _ _ _ _ _ I n Hn) as [G|G].
  2:{ left. apply starts_pos. exact (i_ran _ _ _ _ _ _ I n G). }
  destruct (trans (gr s) n) eqn:T.
  3:{ destruct (i_trans _ _ _ _ _ _ I n) as [[_ [_ Q]]|Q].
      - left. apply starts_pos. exact (i_ran _ _ _ _ _ _ I n Q).
      - exfalso. apply (p_trans _ _ _ P0 n). congruence. }
  all: destruct (stuck_failed s rc R A D (or_introl K) Ac n Hn G ltac:(congruence)) as [F|F]; [|auto];
    left; apply in_split in F; destruct F as [h1 [h2 E]];
    pose proof (reach_fs s R _ _ _ _ E) as S; rewrite E; apply in_or_app; right; right; exact S.
Qed.

Lemma success s rc : reach s -> at_ s = Returned rc -> dead s = false -> acyclic g0 ->
  (forall n, ~ In (Finish n false) (hist s)) -> rc = 0%Z.
Proof.
  intros R A D Ac NF. pose proof (reach_Inv s R) as I.
  destruct (i_ret _ _ _ _ _ _ I _ A) as [Q [_ [Z M]]]. destruct Q as [Q|Q]; [exact Q|].
  assert (failed s = 0) as F0.
  { destruct (Nat.eq_dec (failed s) 0) as [E|E]; [exact E|]. exfalso.
    apply (i_count _ _ _ _ _ _ I) in E. destruct E as [x [_ Hx]]. exact (NF x Hx). }
  destruct (Z D) as [[F _]|[Pn Acn]]; [contradiction|].
  destruct (M Q) as [F|[F|F]]; [congruence|contradiction|].
  exfalso. (* a remaining node: take one; if it is a transient file waiting to be
     deleted, take a user of it *)
  assert (forall x, In x (live s) -> trans (gr s) x <> TDelete -> False) as Dead.
  { intros x Lx Tx. destruct (stuck_failed s rc R A D (or_intror F0) Ac x (i_sub _ _ _ _ _ _ I x Lx) Lx Tx) as [B|[a [B _]]];
    exact (NF _ B). }
  unfold lists in F. rewrite Pn in F. cbn [app] in F.
  destruct (node_list (gr s)) as [|x nl] eqn:En; [congruence|].
  assert (In x (node_list (gr s))) as Hx by (rewrite En; left; reflexivity).
  assert (In x (live s)) as Lx by (apply live_in; auto).
  destruct (i_wait _ _ _ _ _ _ I x Hx) as [[e [He Hd]]|B]; [|exact (NF _ B)].
  pose proof (i_src _ _ _ _ _ _ I e He) as Ls.
  destruct (i_edge _ _ _ _ _ _ I e He) as [[_ T]|[_ T]]; [exact (Dead _ Ls T)|].
  apply (Dead _ Ls). intros C. destruct (i_trans _ _ _ _ _ _ I (src e)) as [[_ [Q1 _]]|Q1]; congruence.
Qed.

Lemma progress s : reach s ->
  (exists rc, at_ s = Returned rc) \/ running s <> [] \/
  exists s', step work keep_going s s' /\ at_ s' <> at_ s \/
             step work keep_going s s' /\ length (fin s') < length (fin s).
Proof.
  intros R. pose proof (reach_Inv s R) as I. destruct (i_pc _ _ _ _ _ _ I) as [P1 P2].
  destruct (at_ s) as [| |rc|] eqn:A; [| |eauto|congruence].
  - right. destruct (running s) eqn:Er; [|left; discriminate]. right.
    destruct (loop_cond keep_going s) eqn:C.
    + destruct (plist (gr s)) as [|n p] eqn:Pl; [unfold loop_cond in C; rewrite Pl in C; discriminate|].
      exists (loop_body s n). left. split; [eapply S_loop; eauto|].
      pose proof (i_pc _ _ _ _ _ _ (steps_inv work keep_going g0 root nodes P0 jobs Jpos s (loop_body s n) I
         (steps_step _ _ _ _ _ (steps_refl _ _ _) (S_loop _ _ s n p A C Pl)))) as [Q1 Q2].
      unfold loop_body in *. destruct (has_incoming (gr s) n).
      * destruct (obind _ _); cbn; discriminate.
      * destruct (negb (expanded (gr s) n)); [destruct (obind _ _); cbn; discriminate|].
        destruct (off_plist (gr s) n); [|cbn; discriminate]. destruct (free s); cbn; discriminate.
    + exists (set_pc s (Returned (final_rc s))). left. split; [apply S_return; assumption|cbn; discriminate].
  - right. destruct (running s) eqn:Er; [|left; discriminate]. right.
    destruct (check_cond keep_going s) eqn:C.
    + pose proof (i_free _ _ _ _ _ _ I) as F. pose proof (i_active _ _ _ _ _ _ I) as Ia.
      rewrite Er in *. cbn [length] in *.
      destruct (fin s) as [|[n ok] r] eqn:Ef.
      * exfalso. cbn [length] in *. unfold check_cond in C. destruct (Nat.eqb_spec (free s) 0) as [Z|Z]; [lia|].
        cbn [orb] in C. replace (active s) with 0 in C by lia. cbn in C. rewrite andb_false_r in C. discriminate.
      * exists (reap s n ok r). right. split; [apply S_reap; assumption|].
        unfold reap. destruct ok; [destruct (pop_node (gr s) n)|destruct (to_nodes_tail (gr s) n)]; cbn; lia.
    + exists (set_pc s Loop). left. split; [apply S_check; assumption|cbn; discriminate].
Qed.

Lemma parallel_bound s : reach s -> length (running s) <= jobs.
Proof. intros R. pose proof (i_free _ _ _ _ _ _ (reach_Inv s R)). lia. Qed.

Lemma starts_bound s n : reach s ->
  starts n (hist s) <= (match trans g0 n with TProcessing => 2 | _ => 1 end).
Proof.
  intros R. pose proof (reach_Inv s R) as I. pose proof (i_starts_le _ _ _ _ _ _ I n) as S. unfold base in S.
  destruct (i_trans _ _ _ _ _ _ I n) as [[T1 [T2 _]]|T].
  - rewrite T1 in S. rewrite T2. exact S.
  - rewrite <- T. pose proof (p_trans _ _ _ P0 n). destruct (trans (gr s) n) eqn:E; [lia|lia|congruence].
Qed.

Lemma delete_after_users s n h1 h2 : reach s -> hist s = h1 ++ Start n :: h2 -> In (Start n) h2 ->
  forall c, direct g0 n c -> In (Finish c true) h2.
Proof.
  intros R E S. apply (ordered_split _ _ _ _ (i_hist _ _ _ _ _ _ (reach_Inv s R)) E). apply starts_pos. exact S.
Qed.

Lemma no_internal_error s : reach s -> at_ s <> Crashed /\ at_ s <> Returned (-2).
Proof. intros R. exact (i_pc _ _ _ _ _ _ (reach_Inv s R)). Qed.

Lemma rc_values s rc : reach s -> at_ s = Returned rc -> rc = 0%Z \/ rc = (-1)%Z.
Proof. intros R A. exact (proj1 (i_ret _ _ _ _ _ _ (reach_Inv s R) _ A)). Qed.

Lemma failure_reported s a rc : reach s -> at_ s = Returned rc -> In (Finish a false) (hist s) -> rc = (-1)%Z.
Proof.
  intros R A F. destruct (rc_values s rc R A) as [E|E]; [|exact E]. exfalso.
  rewrite E in A. exact (rc0_no_failure s R A a F).
Qed.

Lemma cycle_no_success s n : reach s -> In n nodes -> depends g0 root n n -> at_ s <> Returned 0.
Proof.
  intros R Hn D A. destruct (rc0_all s R A n Hn) as [F _]. apply in_split in F. destruct F as [h1 [h2 E]].
  apply (cycle_never_starts s n R D). rewrite E. apply in_or_app. right. right.
  exact (reach_fs s R h1 n true h2 E).
Qed.

End Reach.
