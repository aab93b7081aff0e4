(** The loop over the flagged directories. *)
From Verif Require Import Base DbModel VariantModel VariantSpec VariantProofs VariantProofs2.

Lemma existsb_nat x l : existsb (Nat.eqb x) l = true <-> In x l.
Proof. rewrite existsb_exists. split; [intros [y [I E]]; apply Nat.eqb_eq in E; subst; exact I|intros I; exists x; split; [exact I|apply Nat.eqb_refl]]. Qed.
Lemma ntype_iff a b : ntype_eqb a b = true <-> a = b.
Proof. destruct a, b; cbn; split; intros; congruence. Qed.
Lemma below_fwd r r' top x y : tree_ok r top -> dirs_ok r -> kept r r' -> below r x y -> isdir r y -> below r' x y.
Proof.
  intros K Dr P. induction 1 as [y n G U|y n p G U Bl IH]; intros [n0 [G0 T0]]; assert (n0 = n) as -> by congruence; destruct (P _ _ G T0) as [n1 [G1 [U1 _]]].
  - apply (below_child r' x y n1); [exact G1|congruence].
  - apply (below_step r' x y n1 p); [exact G1|congruence|]. apply IH. exact (dir_up r top y n p K Dr G T0 U).
Qed.
Lemma mirrors_row r top v a y n : tree_ok r top -> mirrors r top v a y -> a <> top -> get r y = Some n -> ty n = TDir /\ srcid n = Src a /\ exists m, get r a = Some m /\ nm n = nm m.
Proof.
  intros K M Na G. inversion M as [E1 E2|p0 q0 x0 y0 n0 m0 H0 G0 U0 Gy Uy E Ty Sy E1 E2]; [congruence|]. assert (n = m0) as -> by congruence. eauto.
Qed.

Section Visit.
Variables (r0 : table) (top : nat) (variants : list nat) (k0 : list (nat * bytes)) (flagged : list nat) (fuel : nat).
Hypothesis (Pr : project_ok r0 top variants k0).
Hypothesis (Nr : not_replaced r0 top variants flagged).
Notation src := (in_source r0 variants).

Lemma dirs0 : dirs_ok r0.
Proof. intros x n p m G T U Gp. destruct (p_dirs _ _ _ _ Pr x n p G T U) as [m' [G' T']]. congruence. Qed.
Let K0 := p_tree _ _ _ _ Pr.

Record inv (D : nat -> nat -> Prop) (S : nat -> Prop) (s : state) : Prop := {
  i_tree : tree_ok (tbl s) top;
  i_dirs : dirs_ok (tbl s);
  i_disk : disk_ok (tbl s) (disk s);
  i_grow : forall b, In b k0 -> In b (disk s);
  i_kept : kept r0 (tbl s);
  i_out : forall y n, get r0 y = Some n -> src y -> get (tbl s) y = Some n;
  i_frame : forall y n, get r0 y = Some n -> held r0 y -> get (tbl s) y = Some n \/ exists v a, In v variants /\ src a /\ isdir r0 a /\ a <> top /\ twin r0 top v a y;
  i_new : forall y n, get (tbl s) y = Some n -> get r0 y = Some n \/ exists v a, In v variants /\ src a /\ isdir r0 a /\ a <> top /\ mirrors (tbl s) top v a y;
  i_done : forall x v, D x v -> source_dir r0 top variants x -> In v variants -> exists m, mirrors (tbl s) top v x m /\ (In m (plist s) \/ In m (removing s));
  i_rem : forall x, In x (removing s) -> In x flagged /\ stale r0 top variants x;
  i_stale : forall x, S x -> stale r0 top variants x -> In x (removing s);
  i_flag : forall x, In x flagged -> In x (plist s) \/ In x (removing s);
  i_sep : forall x, In x (removing s) -> ~ In x (plist s) }.

Lemma apart0 v w : In v variants -> In w variants -> w = v \/ apart r0 v w.
Proof. intros Iv Iw. right. split; apply (p_apart _ _ _ _ Pr); assumption. Qed.
Lemma src_up a t : src t -> inside r0 a t -> src a.
Proof. intros St [-> |Bl]; [exact St|]. intros v Iv [-> |Bv]; apply (St v Iv); right; [exact Bl|exact (below_trans _ _ _ _ Bv Bl)]. Qed.
Lemma src_out D S s y n : inv D S s -> get r0 y = Some n -> src y -> in_source (tbl s) variants y.
Proof.
  intros I G Sy v Iv [E|Bl]; [apply (Sy v Iv); left; exact E|]. revert n G Sy. induction Bl as [y m Gm Um|y m p Gm Um Bl IH]; intros n G Sy; pose proof (i_out _ _ _ I _ _ G Sy) as G'; assert (m = n) as -> by congruence.
  - apply (Sy v Iv). right. eapply below_child; eauto.
  - destruct (t_up _ _ K0 _ _ _ G Um) as [k Gk]. apply (IH k Gk). apply (src_up p y Sy). right. eapply below_child; eauto.
Qed.

Lemma inv_get_rel D S s v t m s' : inv D S s -> In v variants -> source_dir r0 top variants t -> get_rel fuel v t s = Some (m, s') ->
  inv D S s' /\ mirrors (tbl s') top v t m /\ plist s' = plist s /\ removing s' = removing s.
Proof.
  intros I Iv [St [nt [Gt [Tt Vt]]]] H. pose proof I as [Kt Dt Dk Gr P O F N Dn Rm Sl Fl Sp]. assert (isdir r0 t) as Dt0 by (exists nt; auto).
  destruct (p_in _ _ _ _ Pr v Iv) as [_ Dv0].
  assert (~ inside (tbl s) v t) as Nv by (apply (src_out D S s t nt I Gt St v Iv)).
  destruct (get_rel_spec top v fuel t s m s' Kt Dt (kept_dir _ _ _ P Dv0) (kept_dir _ _ _ P Dt0) Nv H) as [[R1 R2 R3 Rg R4 R5 R6 R7 R8 R9] [Pl Rv]].
  assert (forall a, inside (tbl s) a t -> src a /\ isdir r0 a) as Anc.
  { intros a Ia. apply (inside_back r0 (tbl s) top a t K0 dirs0 P) in Ia; [|exact Dt0]. split; [exact (src_up a t St Ia)|]. destruct Ia as [-> |Bl]; [exact Dt0|exact (anc_dir r0 top a t K0 dirs0 Bl Dt0)]. }
  assert (forall w a b, In w variants -> src a -> isdir r0 a -> mirrors (tbl s) top w a b -> mirrors (tbl s') top w a b) as Keep.
  { intros w a b Iw Sa Da M. destruct (p_in _ _ _ _ Pr w Iw) as [_ Dw0]. apply R9.
    - destruct (apart0 v w Iv Iw) as [E|A]; [left; exact E|right]. exact (apart_kept r0 (tbl s) top v w K0 dirs0 P Dv0 Dw0 A).
    - exact (kept_dir _ _ _ P Dw0).
    - exact (kept_dir _ _ _ P Da).
    - destruct Da as [na [Ga _]]. exact (src_out D S s a na I Ga Sa v Iv).
    - exact M. }
  split; [|rewrite Pl, Rv; auto]. split; try rewrite Pl; try rewrite Rv; auto.
  - exact (kept_trans _ _ _ P R4).
  - intros y n G Sy. apply R7; [exact (O _ _ G Sy)|exact (src_out D S s y n I G Sy v Iv)].
  - intros y n G Hy. destruct (F _ _ G Hy) as [G1|E]; [|right; exact E].
    assert (held (tbl s) y) as Hy1 by (intros n1 p G2 U; assert (n1 = n) as -> by congruence; exact (kept_dir _ _ _ P (Hy n p G U))).
    destruct (R6 _ _ G1 Hy1) as [G2|[a [Ia [Na [Tw _]]]]]; [left; exact G2|right]. destruct (Anc a Ia) as [Sa Da]. exists v, a. split; [exact Iv|]. split; [exact Sa|]. split; [exact Da|]. split; [exact Na|].
    inversion Tw as [E1 E2|p q x1 y1 n1 m1 Hp Ga Ua Gy Uy E E1 E2]; [congruence|]. assert (m1 = n) as -> by congruence. destruct Da as [na [Ga0 Ta]]. destruct (P _ _ Ga0 Ta) as [na' [Ga' [Ua' [Na' _]]]].
    assert (na' = n1) as -> by congruence. apply (twin_sub r0 top v p q a y na n); try assumption; try congruence.
    apply (twin_back r0 (tbl s) top v p q K0 dirs0 P Hp); [apply (dir_up r0 top a na p K0 dirs0 Ga0 Ta); congruence|exact (Hy n q G Uy)].
  - intros y n G. destruct (R8 _ _ G) as [G1|[a [Ia [Na Ma]]]].
    + destruct (N _ _ G1) as [G2|[w [a [Iw [Sa [Da [Na Ma]]]]]]]; [left; exact G2|right]. exists w, a. split; [exact Iw|]. split; [exact Sa|]. split; [exact Da|]. split; [exact Na|]. apply Keep; assumption.
    + right. destruct (Anc a Ia) as [Sa Da]. exists v, a. auto.
  - intros x w Hd [Sx [nx [Gx [Tx Vx]]]] Iw. destruct (Dn x w Hd (conj Sx (ex_intro _ nx (conj Gx (conj Tx Vx)))) Iw) as [mm [M L]]. exists mm. split; [|exact L]. apply Keep; [exact Iw|exact Sx|exists nx; auto|exact M].
Qed.

Lemma inv_graph D S s m : inv D S s -> inv D S (build_graph_cb m s) /\ tbl (build_graph_cb m s) = tbl s /\ (In m (plist (build_graph_cb m s)) \/ In m (removing (build_graph_cb m s))).
Proof.
  intros I. unfold build_graph_cb. destruct (existsb (Nat.eqb m) (plist s) || existsb (Nat.eqb m) (removing s)) eqn:E.
  - split; [exact I|]. split; [reflexivity|]. apply orb_prop in E as [E|E]; apply existsb_nat in E; auto.
  - apply orb_false_elim in E as [E1 E2]. split; [|split; [reflexivity|left; left; reflexivity]]. destruct I as [Kt Dt Dk Gr P O F N Dn Rm Sl Fl Sp]. split; cbn [tbl disk plist removing In]; auto.
    + intros x v Hd Sx Iv. destruct (Dn x v Hd Sx Iv) as [mm [M [L|L]]]; exists mm; auto.
    + intros x Ix. destruct (Fl x Ix); auto.
    + intros x Ix [<-|L]; [apply existsb_nat in Ix; congruence|exact (Sp x Ix L)].
Qed.

Lemma inv_weaken (D D' : nat -> nat -> Prop) (S S' : nat -> Prop) s : inv D S s -> (forall x v, D' x v -> source_dir r0 top variants x -> In v variants -> D x v) -> (forall x, S' x -> stale r0 top variants x -> S x) -> inv D' S' s.
Proof. intros [Kt Dt Dk Gr P O F N Dn Rm Sl Fl Sp] Hd Hs. split; auto. Qed.
Lemma inv_more (D D' : nat -> nat -> Prop) (S : nat -> Prop) s : inv D S s ->
  (forall x v, D' x v -> source_dir r0 top variants x -> In v variants -> D x v \/ exists m, mirrors (tbl s) top v x m /\ (In m (plist s) \/ In m (removing s))) -> inv D' S s.
Proof. intros [Kt Dt Dk Gr P O F N Dn Rm Sl Fl Sp] Hd. split; auto. intros x v D1 Sx Iv. destruct (Hd x v D1 Sx Iv) as [E|E]; auto. Qed.

Lemma inv_mirror_all S t : source_dir r0 top variants t -> forall vs D s s', (forall v, In v vs -> In v variants) -> inv D S s -> mirror_all fuel vs t s = Some s' ->
  inv (fun x v => D x v \/ x = t /\ In v vs) S s'.
Proof.
  intros St. induction vs as [|v vs IH]; intros D s s' Iv I H; cbn [mirror_all] in H.
  - injection H as <-. apply (inv_weaken D _ S S); auto. intros x v [Hd|[_ []]] _ _. exact Hd.
  - destruct (get_rel fuel v t s) as [[m s1]|] eqn:G; [|discriminate].
    destruct (inv_get_rel D S s v t m s1 I (Iv v (or_introl eq_refl)) St G) as [I1 [M _]]. destruct (inv_graph D S s1 m I1) as [I2 [Et L]].
    assert (inv (fun x w => D x w \/ x = t /\ w = v) S (build_graph_cb m s1)) as I3.
    { apply (inv_more D); [exact I2|]. intros x w [Hd|[-> ->]] _ _; [left; exact Hd|right]. exists m. rewrite Et. auto. }
    assert (forall w, In w vs -> In w variants) as Iv' by (intros w Iw; apply Iv; right; exact Iw).
    apply (inv_weaken _ (fun x v0 => D x v0 \/ x = t /\ In v0 (v :: vs)) S S s' (IH _ _ _ Iv' I3 H)); [|auto]. intros x w [Hd|[-> [<- |Iw]]] _ _; auto.
Qed.

Lemma variant_src r : forall f x, variant_of variants f r x = Some None -> in_source r variants x.
Proof.
  induction f as [|f IH]; intros x H; [discriminate|]. cbn [variant_of] in H. destruct (existsb (Nat.eqb x) variants) eqn:E; [discriminate|]. destruct (get r x) as [n|] eqn:G; [|discriminate].
  intros v Iv [-> |Bl]; [apply existsb_nat in Iv; congruence|]. inversion Bl as [y m Gm Um|y m p Gm Um Bp]; subst; assert (m = n) as -> by congruence; rewrite Um in H.
  - exact (IH v H v Iv (or_introl eq_refl)).
  - exact (IH p H v Iv (or_intror Bp)).
Qed.
Lemma variant_in r : forall f x v, variant_of variants f r x = Some (Some v) -> In v variants /\ inside r v x.
Proof.
  induction f as [|f IH]; intros x v H; [discriminate|]. cbn [variant_of] in H. destruct (existsb (Nat.eqb x) variants) eqn:E; [injection H as <-; apply existsb_nat in E; split; [exact E|left; reflexivity]|].
  destruct (get r x) as [n|] eqn:G; [|discriminate]. destruct (up n) as [p|] eqn:U; [|discriminate]. destruct (IH p v H) as [Iv [-> |Bl]]; (split; [exact Iv|right]); [eapply below_child; eauto|eapply below_step; eauto].
Qed.

Lemma virtual_same n m : up n = up m -> nm n = nm m -> virtual top n = virtual top m.
Proof. intros U N. unfold virtual, up_is. rewrite U, N. reflexivity. Qed.

Lemma inv_mark D S s x : inv D S s -> In x flagged -> stale r0 top variants x -> inv D (fun y => S y \/ y = x) (mark x s).
Proof.
  intros [Kt Dt Dk Gr P O F N Dn Rm Sl Fl Sp] Ix St. assert (forall y, In y (plist s) \/ In y (removing s) -> In y (filter (fun y => negb (y =? x)) (plist s)) \/ In y (removing s ++ [x])) as Cs.
  { intros y [L|L]; [|right; apply in_or_app; auto]. destruct (Nat.eqb_spec y x) as [-> |Ne]; [right; apply in_or_app; right; left; reflexivity|]. left. apply filter_In. split; [exact L|]. apply Nat.eqb_neq in Ne. rewrite Ne. reflexivity. }
  unfold mark. split; cbn [tbl disk plist removing]; auto.
  - intros y v Hd Sy Iv. destruct (Dn y v Hd Sy Iv) as [m [M L]]. exists m. auto.
  - intros y Iy. apply in_app_or in Iy as [Iy|[<-|[]]]; auto.
  - intros y [Hs|Hs] Sy; apply in_or_app; [left; auto|right; left; auto].
  - intros y Iy L. apply filter_In in L as [L E]. apply in_app_or in Iy as [Iy|[<-|[]]]; [exact (Sp y Iy L)|]. rewrite Nat.eqb_refl in E. discriminate.
Qed.

Lemma inv_visit D S s x s' : inv D S s -> In x flagged -> visit top variants fuel x s = Some s' -> inv (fun y v => D y v \/ y = x) (fun y => S y \/ y = x) s'.
Proof.
  intros I Ix H. unfold visit in H. destruct (get (tbl s) x) as [n|] eqn:G; [|discriminate].
  assert (forall s, inv D S s -> ~ source_dir r0 top variants x -> ~ stale r0 top variants x -> inv (fun y v => D y v \/ y = x) (fun y => S y \/ y = x) s) as Skip.
  { intros u Iu N1 N2. apply (inv_weaken D _ S _ u Iu); [intros y v [Hd| ->] Sy _; [exact Hd|contradiction]|intros y [Hs| ->] Sy; [exact Hs|contradiction]]. }
  assert (forall n0, get r0 x = Some n0 -> ty n0 = TDir -> up n = up n0 /\ nm n = nm n0 /\ ty n = TDir) as Same.
  { intros n0 G0 T0. destruct (i_kept _ _ _ I _ _ G0 T0) as [n1 [G1 [U1 [N1 T1]]]]. assert (n1 = n) as -> by congruence. auto. }
  destruct (ntype_eqb (ty n) TDir) eqn:T; cbn [negb] in H.
  2: { assert (ty n <> TDir) as Nt by (intros E; apply ntype_iff in E; congruence). injection H as <-. apply Skip; [exact I| |].
       - intros [_ [n0 [G0 [T0 _]]]]. apply Nt. apply (Same n0 G0 T0).
       - intros [_ [n0 [G0 [T0 _]]]]. apply Nt. apply (Same n0 G0 T0). }
  apply ntype_iff in T. destruct (virtual top n) eqn:V.
  { injection H as <-. apply Skip; [exact I| |]; intros [_ [n0 [G0 [T0 V0]]]].
    - destruct (Same n0 G0 T0) as [U1 [N1 _]]. rewrite (virtual_same n n0 U1 N1) in V. congruence.
    - destruct V0 as [V0 _]. destruct (Same n0 G0 T0) as [U1 [N1 _]]. rewrite (virtual_same n n0 U1 N1) in V. congruence. }
  destruct (variant_of variants fuel (tbl s) x) as [o|] eqn:W; [destruct o as [v|]|discriminate].
  - apply variant_in in W as [Iv In_v].
    assert (~ source_dir r0 top variants x) as Nsrc.
    { intros [Sx [n0 [G0 [T0 _]]]]. apply (Sx v Iv). apply (inside_back r0 (tbl s) top v x K0 dirs0 (i_kept _ _ _ I) In_v). exists n0. auto. }
    assert (get r0 x = Some n \/ (exists a, isdir r0 a /\ src a /\ srcid n = Src a /\ exists m, get (tbl s) a = Some m /\ ty m = TDir /\ nm n = nm m) /\ ~ stale r0 top variants x) as [G0|[[a [Da [Sa [Sn [m [Gm [Tm Nm]]]]]]] Nst]].
    { destruct (i_new _ _ _ I _ _ G) as [G0|[w [a [Iw [Sa [Da [Na M]]]]]]]; [left; exact G0|right]. split.
      - exists a. split; [exact Da|]. split; [exact Sa|]. destruct (mirrors_row _ _ _ _ _ _ (i_tree _ _ _ I) M Na G) as [_ [Sn [m [Gm Nm]]]]. split; [exact Sn|]. exists m. split; [exact Gm|]. split; [|exact Nm].
        destruct (kept_dir _ _ _ (i_kept _ _ _ I) Da) as [m' [Gm' Tm']]. congruence.
      - intros Hs. apply (Nr x w a Ix Hs Iw Sa Da). apply (twin_back r0 (tbl s) top w a x K0 dirs0 (i_kept _ _ _ I) (mirrors_twin _ _ _ _ _ M) Da). destruct Hs as [_ [n0 [G0 [T0 _]]]]. exists n0. auto. }
    + assert (inside r0 v x) as In0 by (apply (inside_back r0 (tbl s) top v x K0 dirs0 (i_kept _ _ _ I) In_v); exists n; auto).
      assert (forall u, inv D (fun y => S y \/ y = x) u -> inv (fun y v => D y v \/ y = x) (fun y => S y \/ y = x) u) as Up.
      { intros u Iu. apply (inv_weaken D _ (fun y => S y \/ y = x) _ u Iu); [intros y w [Hd| ->] Sy _; [exact Hd|contradiction]|auto]. }
      destruct (srcid n) as [| |y] eqn:Sn.
      * injection H as <-. apply Skip; [exact I|exact Nsrc|]. intros [_ [n0 [Gn [_ [_ Hs]]]]]. assert (n0 = n) as -> by congruence. destruct Hs as [Hs|[y [m [Hs _]]]]; congruence.
      * injection H as <-. apply Up, inv_mark; [exact I|exact Ix|]. split; [exists v; auto|]. exists n. auto.
      * destruct (get (tbl s) y) as [m|] eqn:Gy; [|discriminate]. destruct (p_refs _ _ _ _ Pr v x n y Iv In0 G0 Sn) as [Sy [m0 Gm0]].
        pose proof (i_out _ _ _ I _ _ Gm0 Sy) as Gm1. assert (m0 = m) as -> by congruence.
        destruct (negb (ntype_eqb (ty m) TDir) || negb (y =? top) && negb (bytes_eqb (nm m) (nm n))) eqn:C; injection H as <-.
        -- apply Up, inv_mark; [exact I|exact Ix|]. split; [exists v; auto|]. exists n. split; [exact G0|]. split; [exact T|]. split; [exact V|]. right. exists y, m. split; [exact Sn|]. split; [exact Gm0|].
           apply orb_prop in C as [C|C].
           ++ left. intros E. apply ntype_iff in E. rewrite E in C. discriminate.
           ++ right. apply andb_prop in C as [C1 C2]. apply negb_true_iff in C1, C2. apply Nat.eqb_neq in C1. split; [exact C1|]. intros E. apply bytes_eqb_eq in E. congruence.
        -- apply Skip; [exact I|exact Nsrc|]. intros [_ [n0 [Gn [_ [_ Hs]]]]]. assert (n0 = n) as -> by congruence. destruct Hs as [Hs|[y' [m' [Hs [Gy' Hs2]]]]]; [congruence|]. assert (y' = y) as -> by congruence. assert (m' = m) as -> by congruence.
           apply orb_false_elim in C as [C1 C2]. apply negb_false_iff in C1. apply ntype_iff in C1. destruct Hs2 as [Hs2|[Ht Hn]]; [contradiction|]. apply Nat.eqb_neq in Ht. rewrite Ht in C2. cbn [negb andb] in C2.
           apply negb_false_iff, bytes_eqb_eq in C2. contradiction.
    + assert (s' = s) as ->; [|apply Skip; assumption]. rewrite Sn, Gm in H. apply ntype_iff in Tm. rewrite Tm, <- Nm, bytes_eqb_refl in H. cbn [negb orb] in H. rewrite andb_false_r in H. congruence.
  - pose proof (variant_src _ _ _ W) as Ws. assert (get r0 x = Some n) as G0.
    { destruct (i_new _ _ _ I _ _ G) as [G0|[w [a [Iw [_ [_ [Na M]]]]]]]; [exact G0|]. exfalso. exact (Ws w Iw (twin_inside _ _ _ _ _ (mirrors_twin _ _ _ _ _ M))). }
    assert (src x) as Sx.
    { intros v Iv [E|Bl]; apply (Ws v Iv); [left; exact E|right]. apply (below_fwd r0 (tbl s) top v x K0 dirs0 (i_kept _ _ _ I) Bl). exists n. auto. }
    assert (source_dir r0 top variants x) as Src by (split; [exact Sx|exists n; auto]).
    pose proof (inv_mirror_all S x Src variants D s s' (fun v Iv => Iv) I H) as I2.
    apply (inv_weaken _ _ S _ s' I2); [intros y v [Hd| ->] _ Iv; auto|]. intros y [Hs| ->] Sy; [exact Hs|]. exfalso. destruct Sy as [[v [Iv In_v]] _]. exact (Sx v Iv In_v).
Qed.

Lemma inv_visit_all : forall l D S s s', (forall x, In x l -> In x flagged) -> inv D S s -> visit_all top variants fuel l s = Some s' ->
  inv (fun y v => D y v \/ In y l) (fun y => S y \/ In y l) s'.
Proof.
  induction l as [|x l IH]; intros D S s s' Il I H; cbn [visit_all] in H.
  - injection H as <-. apply (inv_weaken D _ S _ s I); [intros y v [Hd|[]] _ _; exact Hd|intros y [Hs|[]] _; exact Hs].
  - destruct (visit top variants fuel x s) as [s1|] eqn:V; [|discriminate]. pose proof (inv_visit D S s x s1 I (Il x (or_introl eq_refl)) V) as I1.
    assert (forall y, In y l -> In y flagged) as Il' by (intros y Iy; apply Il; right; exact Iy).
    pose proof (IH _ _ s1 s' Il' I1 H) as I2. apply (inv_weaken _ _ _ _ s' I2).
    + intros y v [Hd|[<-|Iy]] _ _; auto.
    + intros y [Hs|[<-|Iy]] _; auto.
Qed.
Lemma inv_start : inv (fun _ _ => False) (fun _ => False) {| tbl := r0; disk := k0; plist := flagged; removing := [] |}.
Proof.
  split; cbn [tbl disk plist removing].
  - exact K0.
  - exact dirs0.
  - exact (p_disk _ _ _ _ Pr).
  - auto.
  - intros y n G T. exists n. auto.
  - auto.
  - auto.
  - auto.
  - intros x v [].
  - intros x [].
  - intros x [].
  - auto.
  - intros x [].
Qed.
Theorem visited s : visit_all top variants fuel flagged {| tbl := r0; disk := k0; plist := flagged; removing := [] |} = Some s ->
  inv (fun y _ => In y flagged) (fun y => In y flagged) s.
Proof. intros H. apply (inv_weaken _ _ _ _ s (inv_visit_all _ _ _ _ _ (fun x I => I) inv_start H)); auto. Qed.
End Visit.
