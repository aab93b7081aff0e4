(** All of process_create_nodes before the parsing. *)
From Verif Require Import Base DbModel VariantModel VariantSpec VariantProofs VariantProofs2 VariantProofs3 VariantProofs4.

Section All.
Variables (r0 : table) (top : nat) (variants : list nat) (k0 : list (nat * bytes)) (flagged : list nat) (fuel n : nat) (s : state).
Hypothesis (Pr : project_ok r0 top variants k0).
Hypothesis (Nr : not_replaced r0 top variants flagged).
Hypothesis (H : create_dirs top variants fuel n flagged r0 k0 = Some s).

Lemma stages : exists s1, inv r0 top variants k0 flagged (fun y _ => In y flagged) (fun y => In y flagged) s1 /\ rinv (tbl s1) (removing s1) (disk s1) (plist s1) s /\ good (tbl s1) s /\ removing s = [].
Proof.
  unfold create_dirs in H. destruct (visit_all top variants fuel flagged _) as [s1|] eqn:V; [|discriminate]. pose proof (visited r0 top variants k0 flagged fuel Pr Nr s1 V) as I. exists s1. split; [exact I|].
  assert (good (tbl s1) s) as Gd.
  { apply (remove_all_dead (tbl s1) fuel n s1 s); [|exact H]. split; [exact (t_ids _ _ (i_tree _ _ _ _ _ _ _ _ I))|apply places_refl|auto|]. intros q [m [G T]] Dd. specialize (Dd m G). congruence. }
  destruct (rinv_all (tbl s1) fuel (removing s1) (disk s1) (plist s1) n s1 s) as [V1 V2]; [|exact H|auto]. split; auto.
  - exact (t_ids _ _ (i_tree _ _ _ _ _ _ _ _ I)).
  - apply places_refl.
  - exact (i_sep _ _ _ _ _ _ _ _ I).
Qed.

Section Stage.
Variable (s1 : state).
Hypothesis (I : inv r0 top variants k0 flagged (fun y _ => In y flagged) (fun y => In y flagged) s1).
Hypothesis (V : rinv (tbl s1) (removing s1) (disk s1) (plist s1) s).
Let K0 := p_tree _ _ _ _ Pr.
Let D0 := dirs0 r0 top variants k0 Pr.
Let P := i_kept _ _ _ _ _ _ _ _ I.
Let K1 := i_tree _ _ _ _ _ _ _ _ I.

Lemma stale_dir z : stale r0 top variants z -> isdir r0 z.
Proof. intros [_ [m [G [T _]]]]. exists m. auto. Qed.
(** What is removed is not above the source tree, nor above a mirror. *)
Lemma source_safe y m : get r0 y = Some m -> in_source r0 variants y -> forall z, In z (removing s1) -> ~ inside (tbl s1) z y.
Proof.
  intros G Sy z Iz Ins. destruct (i_rem _ _ _ _ _ _ _ _ I z Iz) as [_ St]. pose proof (stale_dir z St) as Dz. destruct St as [[w [Iw Inw]] _].
  apply (src_out r0 top variants k0 flagged Pr _ _ s1 y m I G Sy w Iw). apply (inside_trans _ w z y); [|exact Ins]. destruct Inw as [-> |Bl]; [left; reflexivity|right]. exact (below_fwd r0 (tbl s1) top w z K0 D0 P Bl Dz).
Qed.
Lemma mirrors_above v x m z : mirrors (tbl s1) top v x m -> inside (tbl s1) z m -> (exists a, inside (tbl s1) a x /\ mirrors (tbl s1) top v a z) \/ below (tbl s1) z v.
Proof.
  induction 1 as [|p q x y nx m Hm IH Gx Ux Gy Uy E Ty Sy]; intros Ins.
  - destruct Ins as [Ez|Bl]; [|right; exact Bl]. left. exists top. split; [left; reflexivity|]. rewrite <- Ez. constructor.
  - destruct Ins as [Ez|Bl].
    + left. exists x. split; [left; reflexivity|]. rewrite <- Ez. eapply mirrors_sub; eauto.
    + destruct (IH (below_up _ z y m q Gy Uy Bl)) as [[a [Ia Ma]]|Bz]; [left|right; exact Bz]. exists a. split; [|exact Ma]. right. destruct Ia as [Ea|Ba]; [rewrite Ea in Ux; eapply below_child; eauto|eapply below_step; eauto].
Qed.
Lemma mirror_safe v x m : In v variants -> isdir r0 x -> in_source r0 variants x -> mirrors (tbl s1) top v x m -> forall z, In z (removing s1) -> ~ inside (tbl s1) z m.
Proof.
  intros Iv Dx Sx M z Iz Ins. destruct (i_rem _ _ _ _ _ _ _ _ I z Iz) as [Fz St]. pose proof (stale_dir z St) as Dz.
  destruct (mirrors_above v x m z M Ins) as [[a [Ia Ma]]|Bl].
  - apply (inside_back r0 (tbl s1) top a x K0 D0 P) in Ia; [|exact Dx]. assert (isdir r0 a) as Da by (destruct Ia as [Ea|Ba]; [rewrite <- Ea; exact Dx|exact (anc_dir r0 top a x K0 D0 Ba Dx)]).
    apply (Nr z v a Fz St Iv (src_up r0 variants a x Sx Ia) Da). exact (twin_back r0 (tbl s1) top v a z K0 D0 P (mirrors_twin _ _ _ _ _ Ma) Da Dz).
  - destruct (p_in _ _ _ _ Pr v Iv) as [_ Dv]. apply (below_back r0 (tbl s1) top z v K0 D0 P) in Bl; [|exact Dv]. destruct St as [[w [Iw [Ew|Bw]]] _]; apply (p_apart _ _ _ _ Pr w v Iw Iv); [rewrite <- Ew; exact Bl|exact (below_trans _ _ _ _ Bw Bl)].
Qed.
Lemma mirrors_final v x m : In v variants -> isdir r0 x -> in_source r0 variants x -> mirrors (tbl s1) top v x m -> mirrors (tbl s) top v x m.
Proof.
  intros Iv Dx Sx M. induction M as [|p q x y nx m M IH Gx Ux Gy Uy E Ty Sy]; [constructor|]. pose proof (mirrors_sub _ _ _ _ _ _ _ _ _ M Gx Ux Gy Uy E Ty Sy) as My.
  destruct Dx as [n0 [G0 T0]]. pose proof (i_out _ _ _ _ _ _ _ _ I x n0 G0 Sx) as G1. assert (n0 = nx) as -> by congruence.
  assert (isdir r0 p) as Dp by (exact (dir_up r0 top x nx p K0 D0 G0 T0 Ux)). assert (in_source r0 variants p) as Sp by (apply (src_up r0 variants p x Sx); right; eapply below_child; eauto).
  apply (mirrors_sub (tbl s) top v p q x y nx m); try assumption.
  - exact (IH Dp Sp).
  - apply (v_rows _ _ _ _ _ V x nx Gx). exact (source_safe x nx G0 Sx).
  - apply (v_rows _ _ _ _ _ V y m Gy). apply (mirror_safe v x y Iv); [exists nx; auto|exact Sx|exact My].
Qed.
Lemma mirrors_dir v x m : In v variants -> mirrors (tbl s1) top v x m -> isdir (tbl s1) m.
Proof.
  intros Iv M. inversion M as [E1 E2|p q x1 y1 nx mm Hm Gx Ux Gy Uy E Ty Sy E1 E2]; [rewrite <- E2; destruct (p_in _ _ _ _ Pr v Iv) as [_ Dv]; exact (kept_dir _ _ _ P Dv)|exists mm; auto].
Qed.

Theorem mirrored x : In x flagged -> source_dir r0 top variants x ->
  In x (plist s) /\ forall v, In v variants -> exists m, mirrors (tbl s) top v x m /\ In m (plist s) /\ forall nx d, get (tbl s) m = Some nx -> up nx = Some d -> In (d, nm nx) (disk s).
Proof.
  intros Fx Src. pose proof Src as [Sx [n0 [G0 [T0 V0]]]]. assert (isdir r0 x) as Dx by (exists n0; auto). split.
  - apply (v_plist _ _ _ _ _ V x); [|exact (source_safe x n0 G0 Sx)]. destruct (i_flag _ _ _ _ _ _ _ _ I x Fx) as [L|L]; [exact L|]. exfalso. exact (source_safe x n0 G0 Sx x L (or_introl eq_refl)).
  - intros v Iv. destruct (i_done _ _ _ _ _ _ _ _ I x v Fx Src Iv) as [m [M L]]. pose proof (mirror_safe v x m Iv Dx Sx M) as Safe. exists m. split; [exact (mirrors_final v x m Iv Dx Sx M)|]. split.
    + apply (v_plist _ _ _ _ _ V m); [|exact Safe]. destruct L as [L|L]; [exact L|]. exfalso. exact (Safe m L (or_introl eq_refl)).
    + intros nx d Gm Um. destruct (mirrors_dir v x m Iv M) as [n1 [G1 T1]]. pose proof (v_rows _ _ _ _ _ V m n1 G1 Safe) as G2. assert (n1 = nx) as -> by congruence.
      apply (v_disk _ _ _ _ _ V (d, nm nx)); cbn [fst snd].
      * apply (i_disk _ _ _ _ _ _ _ _ I m nx d G1 Um). left. exact T1.
      * intros z Iz Ins. apply (Safe z Iz). right. destruct Ins as [Ez|Bl]; [rewrite Ez in Um; eapply below_child; eauto|eapply below_step; eauto].
      * intros z nz Iz Gz Uz Ez. assert (z = m) as -> by (apply (t_names _ _ K1 z m nz nx Gz G1); congruence). exact (Safe m Iz (or_introl eq_refl)).
Qed.
(** What was in a directory that is removed is there as it was when the removal
    begins. *)
Lemma stale_rows z y m p : In z flagged -> stale r0 top variants z -> get r0 y = Some m -> up m = Some p -> isdir r0 p -> inside r0 z p -> get (tbl s1) y = Some m.
Proof.
  intros Fz St G U Dp Ins. assert (held r0 y) as Hy by (intros m1 q G1 U1; assert (q = p) as -> by congruence; exact Dp).
  destruct (i_frame _ _ _ _ _ _ _ _ I y m G Hy) as [G1|[v [a [Iv [Sa [Da [Na Tw]]]]]]]; [exact G1|]. exfalso.
  assert (forall q b, twin r0 top v b q -> in_source r0 variants b -> isdir r0 b -> inside r0 z q -> False) as No.
  { clear y m p G U Dp Ins Hy a Sa Da Na Tw. intros q b Tw. induction Tw as [|b' q' b q nb mq Tw IH Gb Ub Gq Uq E]; intros Sb Db Ins.
    - destruct Ins as [Ez|Bl]; [apply (Nr z v top Fz St Iv Sb Db); rewrite <- Ez; constructor|].
      destruct St as [[w [Iw [Ew|Bw]]] _]; apply (p_apart _ _ _ _ Pr w v Iw Iv); [rewrite <- Ew; exact Bl|exact (below_trans _ _ _ _ Bw Bl)].
    - destruct Ins as [Ez|Bl]; [apply (Nr z v b Fz St Iv Sb Db); rewrite <- Ez; eapply twin_sub; eauto|]. destruct Db as [nb' [Gb' Tb']]. assert (nb' = nb) as -> by congruence.
      apply IH; [apply (src_up r0 variants b' b Sb); right; eapply below_child; eauto|exact (dir_up r0 top b nb b' K0 D0 Gb Tb' Ub)|exact (below_up r0 z q mq q' Gq Uq Bl)]. }
  apply (No y a Tw Sa Da). right. destruct Ins as [Ep|Bl]; [rewrite Ep in U; eapply below_child; eauto|eapply below_step; eauto].
Qed.
Theorem removed x : good (tbl s1) s -> removing s = [] -> In x flagged -> stale r0 top variants x -> cleared r0 s x /\ ~ In x (plist s).
Proof.
  intros Gd E Fx St. pose proof (i_stale _ _ _ _ _ _ _ _ I x Fx St) as Iz. split; [|exact (v_pl _ _ _ _ _ V x Iz)].
  assert (dead s x) as Dx by (destruct (v_gone _ _ _ _ _ V x Iz) as [L|[G1 _]]; [rewrite E in L; destruct L|exact G1]).
  assert (forall q, isdir r0 q -> inside r0 x q -> dead s q) as Dq.
  { assert (forall q, below r0 x q -> isdir r0 q -> dead s q) as Bq.
    { induction 1 as [q m G U|q m p G U Bl IH]; intros Dq; pose proof Dq as [m' [Gm' Tm']]; assert (m' = m) as -> by congruence; pose proof (dir_up r0 top q m _ K0 D0 G Tm' U) as Dp.
      - destruct (g_dead _ _ Gd x (kept_dir _ _ _ P (stale_dir x St)) Dx) as [_ Cx]. apply (Cx q m); [|exact U]. apply (stale_rows x q m x Fx St G U Dp). left. reflexivity.
      - destruct (g_dead _ _ Gd p (kept_dir _ _ _ P Dp) (IH Dp)) as [_ Cx]. apply (Cx q m); [|exact U]. apply (stale_rows x q m p Fx St G U Dp). right. exact Bl. }
    intros q Hq [Ex|Bl]; [rewrite Ex; exact Dx|exact (Bq q Bl Hq)]. }
  intros q Hq Ins. destruct (g_dead _ _ Gd q (kept_dir _ _ _ P Hq) (Dq q Hq Ins)) as [[G1 [G2 G3]] Cq]. split.
  - split; [exact G1|]. split; [exact G2|]. intros m d Gm Um. destruct Hq as [m0 [Gm0 Tm]]. assert (m0 = m) as -> by congruence. destruct (P _ _ Gm Tm) as [m1 [Gm1 [Um1 [Nm1 _]]]]. rewrite <- Nm1. apply (G3 m1 d Gm1). congruence.
  - intros p m Gp Up. apply (Cq p m); [|exact Up]. exact (stale_rows x p m q Fx St Gp Up Hq Ins).
Qed.
Theorem source_kept y m : get r0 y = Some m -> in_source r0 variants y -> get (tbl s) y = Some m.
Proof. intros G Sy. apply (v_rows _ _ _ _ _ V y m); [exact (i_out _ _ _ _ _ _ _ _ I y m G Sy)|exact (source_safe y m G Sy)]. Qed.
Theorem rest_kept y m : get r0 y = Some m -> (forall p, up m = Some p -> isdir r0 p) -> (forall z, In z flagged -> stale r0 top variants z -> ~ inside r0 z y) ->
  (forall v a, In v variants -> in_source r0 variants a -> isdir r0 a -> ~ twin r0 top v a y) ->
  get (tbl s) y = Some m /\ forall d, up m = Some d -> In (d, nm m) k0 -> In (d, nm m) (disk s).
Proof.
  intros G Hp Hz Ht. assert (held r0 y) as Hy by (intros m1 p G1 U; assert (m1 = m) as -> by congruence; exact (Hp p U)).
  assert (get (tbl s1) y = Some m) as G1. { destruct (i_frame _ _ _ _ _ _ _ _ I y m G Hy) as [G1|[v [a [Iv [Sa [Da [_ Tw]]]]]]]; [exact G1|]. exfalso. exact (Ht v a Iv Sa Da Tw). }
  assert (forall z p, In z (removing s1) -> up m = Some p -> ~ inside (tbl s1) z p) as Np.
  { intros z p Iz U Ins. destruct (i_rem _ _ _ _ _ _ _ _ I z Iz) as [Fz St]. apply (Hz z Fz St). right. apply (inside_back r0 (tbl s1) top z p K0 D0 P) in Ins; [|exact (Hp p U)].
    destruct Ins as [Ep|Bl]; [rewrite Ep in U; eapply below_child; eauto|eapply below_step; eauto]. }
  assert (forall z, In z (removing s1) -> ~ inside (tbl s1) z y) as Ny.
  { intros z Iz [Ey|Bl]; [destruct (i_rem _ _ _ _ _ _ _ _ I z Iz) as [Fz St]; apply (Hz z Fz St); left; exact Ey|].
    inversion Bl as [y1 m1 Gm1 Um1|y1 m1 p Gm1 Um1 Bp]; assert (m1 = m) as -> by congruence; [exact (Np z z Iz Um1 (or_introl eq_refl))|exact (Np z p Iz Um1 (or_intror Bp))]. }
  split; [exact (v_rows _ _ _ _ _ V y m G1 Ny)|]. intros d U Ik. apply (v_disk _ _ _ _ _ V (d, nm m)); cbn [fst snd].
  - exact (i_grow _ _ _ _ _ _ _ _ I _ Ik).
  - intros z Iz. exact (Np z d Iz U).
  - intros z nz Iz Gz Uz Ez. assert (z = y) as -> by (apply (t_names _ _ K1 z y nz m Gz G1); congruence). exact (Ny y Iz (or_introl eq_refl)).
Qed.
End Stage.
End All.
