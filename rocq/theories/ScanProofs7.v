(** The whole tree. *)
From Verif Require Import Base ConfigModel ParseModel PathModel DbModel DbSpec DbProofs DbProofs3 ScanModel ScanSpec ScanProofs ScanProofs2 ScanProofs3 ScanProofs4 ScanProofs5 ScanProofs6.
Require Import Lia Permutation.

Definition gone (P : path) (L : list nat) (d : db) (r : path) : Prop := exists y b n, In y L /\ at_path d (b :: P) y n /\ under (b :: P) r.

Lemma missing_ok P : forall L d q, NoDup L -> (forall y, In y L -> exists b n, at_path d (b :: P) y n) -> base d -> home d ->
  exists d' q', each missing L (d, q) = Ok (d', q') /\ base d' /\ home d' /\ effects (gone P L d) (fun _ => False) (fun _ => False) d d' /\
    (forall y b n, In y L -> at_path d (b :: P) y n -> agree_in (fun _ => None) (b :: P) d' /\ noticed (gone P L d) (fun _ => False) (fun _ => None) (b :: P) d d').
Proof.
  induction L as [|y L IH]; intros d q N HL W H.
  - exists d, q. split; [reflexivity|]. split; [exact W|]. split; [exact H|]. split; [|intros y b n []].
    apply (effects_weak (fun _ => False) _ (fun _ => False) _ (fun _ => True) _ d d); [tauto|tauto|tauto|apply effects_flags; auto using flags_refl].
  - inversion N as [|? ? N1 N2]; subst. destruct (HL y (or_introl eq_refl)) as [b [n Ly]].
    assert (y <> top) as T by (apply at_cons in Ly as [_ [_ [_ [_ [_ [_ T]]]]]]; auto).
    destruct (del_path (b :: P) y n false d q W H Ly T) as [d1 [q1 [Eq [W1 [H1 [De [Pu [_ E1]]]]]]]].
    cbn [each]. unfold missing at 1. rewrite Eq. cbn [obind].
    assert (forall z c k, In z L -> at_path d (c :: P) z k -> c <> b) as Nb.
    { intros z c k Hz Lz ->. destruct (at_fun d _ W _ _ _ _ Lz Ly) as [-> _]. contradiction. }
    assert (forall c u, c <> b -> ~ under (b :: P) (u ++ c :: P)) as Out.
    { intros c u X U. apply X. apply (under_apart c b P (u ++ c :: P)); [exists u; reflexivity|exact U]. }
    destruct (IH d1 q1 N2) as [d' [q' [Eq' [W' [H' [E' AN]]]]]]; auto.
    { intros z Hz. destruct (HL z (or_intror Hz)) as [c [k Lz]]. exists c, k. eapply same_path; [exact E1|apply (Out c []); eauto|tauto|exact Lz]. }
    exists d', q'. split; [exact Eq'|]. split; [exact W'|]. split; [exact H'|].
    assert (forall z c k, In z L -> at_path d1 (c :: P) z k -> at_path d (c :: P) z k) as Bk.
    { intros z c k Hz Lz. destruct (back_shrunk d d1 W (de_shrunk _ _ _ _ De) _ _ _ Lz) as [k0 [L0 _]]. eapply same_path_back; [exact W1|exact E1|apply (Out c []); eauto|tauto|exact Lz]. }
    assert (forall r, gone P L d1 r -> gone P (y :: L) d r) as Gsub.
    { intros r [z [c [k [Hz [Lz U]]]]]. exists z, c, k. split; [right; exact Hz|]. split; [apply Bk; auto|exact U]. }
    assert (forall r, gone P L d1 r -> ~ under (b :: P) r) as Gap.
    { intros r [z [c [k [Hz [Lz U]]]]] U'. apply (Nb z c k Hz (Bk z c k Hz Lz)). exact (under_apart c b P r U U'). }
    assert (effects (gone P (y :: L) d) (fun _ => False) (fun _ => False) d d') as E.
    { apply (effects_trans (under (b :: P)) (gone P L d1) _ (fun _ => False) (fun _ => False) _ (fun _ => False) (fun _ => False) _ d d1 d'); auto; try tauto.
      intros r U. exists y, b, n. split; [left; reflexivity|]. auto. }
    split; [exact E|].
    assert (forall r, ~ gone P (y :: L) d r \/ False -> (~ under (b :: P) r \/ False) /\ (~ gone P L d1 r \/ False)) as HK.
    { intros r [C|[]]. split; left; intros X; apply C; [exists y, b, n; split; [left; reflexivity|]; auto|apply Gsub; exact X]. }
    intros z c k [<-|Hz] Lz.
    + pose proof (at_inj d _ W _ _ _ _ Lz Ly) as X. injection X as ->.
      assert (forall u, ~ gone P L d1 (u ++ b :: P) /\ ~ False) as O by (intros u; split; [intros X; apply (Gap _ X); exists u; reflexivity|tauto]).
      split.
      * apply (agree_after _ _ (gone P L d1) (fun _ => False) (fun _ => False) d1 d'); auto. split; [discriminate|discriminate|].
        intros u w m V _ _ Lw. destruct (back_shrunk d d1 W (de_shrunk _ _ _ _ De) _ _ _ Lw) as [m0 [L0 _]].
        assert (below d y w) as Bw by (apply (below_under d (b :: P) y n W Ly _ _ _ L0); exists u; reflexivity).
        apply (Pu w m); [|eapply at_lookup; eauto].
        assert (exists w' m', at_path d1 (b :: P) w' m') as [w' [m' Lw']].
        { clear - Lw W1. revert w m Lw. induction u as [|a u IH]; intros w m Lw; [eauto|]. cbn in Lw. apply at_cons in Lw as [v [p [Lv _]]]; auto. eauto. }
        destruct (back_shrunk d d1 W (de_shrunk _ _ _ _ De) _ _ _ Lw') as [m1 [L1 _]]. destruct (at_fun d _ W _ _ _ _ L1 Ly) as [-> _].
        apply (below_under d1 (b :: P) y m' W1 Lw' _ _ _ Lw). exists u. reflexivity.
      * apply (noticed_after (under (b :: P)) (fun _ => False) (gone P L d1) (fun _ => False) _ _ (fun _ => False) (fun _ => False) _ _ d d1 d'); auto.
        -- cbn [tl]. intros [w [c [m [_ [_ U]]]]]. exact (not_under_self c P U).
        -- apply (deleted_noticed (fun _ => None) (b :: P) y n _ (fun _ => False) (fun _ => False) d d1 W Ly De); [intros w m [_ X]; discriminate|discriminate|tauto].
    + assert (c <> b) as Nc by eauto. assert (at_path d1 (c :: P) z k) as Lz1 by (eapply same_path; [exact E1|apply (Out c []); exact Nc|tauto|exact Lz]).
      destruct (AN z c k Hz Lz1) as [A2 N3]. split; [exact A2|].
      apply (noticed_before (under (b :: P)) (fun _ => False) (gone P L d1) (fun _ => False) _ _ (fun _ => False) (fun _ => False) _ _ d d1 d'); auto.
      cbn [tl]. apply not_under_self.
Qed.

Definition sub (P r : path) : Prop := exists a, under (a :: P) r.
Lemma agree_ext D D' P d : (forall u, D u = D' u) -> agree_in D P d -> agree_in D' P d.
Proof.
  intros E [A1 A2 A3]. split.
  - intros u m V H. rewrite <- E in H. eauto.
  - intros u l V H. rewrite <- E in H. eauto.
  - intros u x n V I H. rewrite <- E in H. eauto.
Qed.
Lemma noticed_ext (Q Q' K K' : path -> Prop) D D' P d d' : (forall u, D u = D' u) -> (forall r, ~ Q' r \/ K' r -> ~ Q r \/ K r) -> noticed Q K D P d d' -> noticed Q' K' D' P d d'.
Proof.
  intros E HK [A1 A2 A3]. split.
  - intros u y n c V I L Kn Nm H. rewrite <- E in H. eauto.
  - intros u y n V I L Kn N1 N2 H1 H2. rewrite <- E in H1. assert (forall l, D u <> Some (FDir l)) as H3 by (intros l; rewrite E; apply H2).
    destruct (A2 u y n V I L Kn N1 N2 H1 H3) as [X|[X Y]]; [auto|right]. split; [exact X|]. intros s rs ns Sn Ls Ks C. apply (Y s rs ns Sn Ls Ks). auto.
  - intros u m V H. rewrite <- E in H. eauto.
Qed.
Lemma snoc_cases (u : path) : u = [] \/ exists v a, u = v ++ [a].
Proof. destruct u as [|a u] using rev_ind; [auto|right; eauto]. Qed.

Section Tree.
  Variable fuel : nat.
  Variable ord : list nat -> list nat.
  Hypothesis ord_perm : forall l, Permutation (ord l) l.

  Lemma dir_ok x P l d q p : (forall a t, In (a, t) l -> ignored a = false -> TreeOK fuel ord t) -> NoDup (map fst l) -> base d -> home d -> at_path d P x p -> is_dir (kind p) = true ->
    (forall a t, In (a, t) l -> ignored a = false -> ok_tree a t /\ clash_free d t (a :: P)) ->
    exists d' q', obind (watch_entries (S (S fuel)) ord x l (dir_tree d x) (d, q)) (fun '(root, s) => each missing (ord root) s) = Ok (d', q') /\ base d' /\ home d' /\
      effects (sub P) (anc P) (keep (FDir l) P) d d' /\
      (forall a, ignored a = false -> agree_in (fun v => on_disk (FDir l) (v ++ [a])) (a :: P) d' /\ noticed (sub P) (keep (FDir l) P) (fun v => on_disk (FDir l) (v ++ [a])) (a :: P) d d').
  Proof.
    intros TO N W H L I OK.
    destruct (entries_ok fuel ord x P l d q (dir_tree d x) p TO N W H L I OK) as [root [d1 [q1 [Eq1 [W1 [H1 [E1 [AN R]]]]]]]].
    rewrite Eq1. cbn [obind].
    assert (forall y, In y (dir_tree d x) <-> exists b n, at_path d (b :: P) y n /\ real (kind n) = true /\ virtual x b = false) as DT.
    { intros y. unfold dir_tree. rewrite in_map_iff. split.
      - intros [[z n] [E F]]. cbn in E. subst z. apply filter_In in F as [F G]. cbn [fst snd] in G. apply andb_true_iff in G as [G G3]. apply andb_true_iff in G as [G1 G2]. apply Nat.eqb_eq in G1. apply negb_true_iff in G2.
        exists (nname n), n. split; [|split; [|exact G2]].
        + eapply at_in; [exact L|apply in_lookup; [apply W|exact F]|exact G1|reflexivity].
        + destruct (kind n); cbn in G3; try discriminate; reflexivity.
      - intros [b [n [G [Re V]]]]. apply at_cons in G as [a [p0 [L0 [Ly [D0 [N0 T]]]]]]; auto. destruct (at_fun d P W _ _ _ _ L L0) as [<- <-]. exists (y, n). split; [reflexivity|]. apply filter_In. split; [apply lookup_in; exact Ly|].
        cbn [fst snd]. rewrite D0, N0, Nat.eqb_refl, V. cbn [andb negb]. destruct (kind n); try discriminate; reflexivity. }
    assert (forall b u, ~ In b (map fst l) -> ~ subl l P (u ++ b :: P) /\ ~ anc P (u ++ b :: P)) as Out.
    { intros b u Nb. assert (under (b :: P) (u ++ b :: P)) as U by (exists u; reflexivity). split.
      - intros [a [t [X [_ Y]]]]. pose proof (under_apart a b P _ Y U) as ->. apply Nb. apply in_map_iff. exists (b, t). auto.
      - intros An. exact (under_not_anc b P _ U An). }
    assert (forall y, In y root -> exists b n, at_path d (b :: P) y n /\ at_path d1 (b :: P) y n /\ ~ In b (map fst l)) as RP.
    { intros y Hy. apply R in Hy as [Hy Ny]. apply DT in Hy as [b [n [G _]]]. exists b, n. assert (~ In b (map fst l)) as Nb by (intros X; exact (Ny b n X G)). split; [exact G|]. split; [|exact Nb]. destruct (Out b [] Nb). eapply same_path; eauto. }
    assert (NoDup root) as NDr.
    { assert (NoDup (dir_tree d x)) as N0 by (unfold dir_tree; apply ids_filter; apply W). clear - Eq1 N0.
      revert Eq1 N0. generalize (dir_tree d x) as r0. generalize d q. clear. induction l as [|[a t] l IH]; intros d q r0 E N0; [cbn in E; injection E as <- _ _; exact N0|].
      cbn [watch_entries fst] in E. set (r1 := match child d x a with Some y => remove_id y r0 | None => r0 end) in E.
      assert (NoDup r1) as N1 by (unfold r1; destruct (child d x a); [apply NoDup_filter; exact N0|exact N0]).
      destruct (ignored a); [exact (IH d q r1 E N1)|]. destruct (watch _ _ t x a (d, q)) as [[d2 q2]| | |]; cbn [obind] in E; try discriminate. exact (IH d2 q2 r1 E N1). }
    assert (forall y, In y (ord root) <-> In y root) as OI by (intros y; split; apply Permutation_in; [|apply Permutation_sym]; apply ord_perm).
    destruct (missing_ok P (ord root) d1 q1) as [d2 [q2 [Eq2 [W2 [H2 [E2 AN2]]]]]]; auto.
    { eapply Permutation_NoDup; [apply Permutation_sym; apply ord_perm|exact NDr]. }
    { intros y Hy. apply OI in Hy. destruct (RP y Hy) as [b [n [_ [G _]]]]. eauto. }
    assert (forall r, gone P (ord root) d1 r -> exists b, under (b :: P) r /\ ~ In b (map fst l)) as GG.
    { intros r [y [b [n [Hy [Ly U]]]]]. apply OI in Hy. destruct (RP y Hy) as [b' [n' [_ [G Nb]]]]. pose proof (at_inj d1 _ W1 _ _ _ _ G Ly) as X. injection X as ->. eauto. }
    exists d2, q2. split; [exact Eq2|]. split; [exact W2|]. split; [exact H2|].
    assert (forall r, ~ sub P r \/ keep (FDir l) P r -> (~ subl l P r \/ keepl l P r) /\ (~ gone P (ord root) d1 r \/ False)) as HK.
    { intros r [C|[u [l' [-> [Du V]]]]].
      - split; left; intros X; apply C; [destruct X as [a [t [_ [_ X]]]]; exists a; exact X|]. apply GG in X as [b [X _]]. exists b. exact X.
      - destruct (snoc_cases u) as [->|[v [a ->]]].
        + cbn [app]. split; left; [intros [a [t [_ [_ X]]]]; exact (not_under_self a P X)|intros X; apply GG in X as [b [X _]]; exact (not_under_self b P X)].
        + rewrite disk_snoc in Du. destruct (named a l) as [t|] eqn:Na; [|discriminate]. apply visible_snoc in V as [V Ia]. apply named_in in Na. split.
          * right. exists a, t. split; [exact Na|]. split; [exact Ia|]. exists v, l'. rewrite <- app_assoc. auto.
          * left. intros X. apply GG in X as [b [X Nb]]. apply Nb. assert (under (a :: P) ((v ++ [a]) ++ P)) as U by (exists v; rewrite <- app_assoc; reflexivity). rewrite (under_apart b a P _ X U). apply in_map_iff. exists (a, t). auto. }
    assert (effects (sub P) (anc P) (keep (FDir l) P) d d2) as E.
    { apply (effects_trans (subl l P) (gone P (ord root) d1) _ (anc P) (fun _ => False) _ (keepl l P) (fun _ => False) _ d d1 d2); auto; try tauto.
      - intros r [a [t [_ [_ X]]]]. exists a. exact X.
      - intros r X. apply GG in X as [b [X _]]. exists b. exact X. }
    split; [exact E|]. intros a Ia. destruct (named a l) as [t|] eqn:Na.
    - pose proof (named_in _ _ _ Na) as Hin. destruct (AN a t Hin Ia) as [A1 N1].
      assert (forall v, on_disk t v = on_disk (FDir l) (v ++ [a])) as De by (intros v; rewrite disk_snoc, Na; reflexivity).
      assert (forall u, ~ gone P (ord root) d1 (u ++ a :: P) /\ ~ False) as O.
      { intros u. split; [|tauto]. intros X. apply GG in X as [b [X Nb]]. assert (under (a :: P) (u ++ a :: P)) as U by (exists u; reflexivity). apply Nb. rewrite (under_apart b a P _ X U). apply in_map_iff. exists (a, t). auto. }
      split.
      + apply (agree_ext (on_disk t)); [exact De|]. apply (agree_after _ _ (gone P (ord root) d1) (fun _ => False) (fun _ => False) d1 d2); auto.
      + apply (noticed_ext (sub P) _ (keep (FDir l) P) _ (on_disk t)); [exact De|auto|].
        apply (noticed_after (subl l P) (keepl l P) (gone P (ord root) d1) (fun _ => False) _ _ (anc P) (fun _ => False) _ _ d d1 d2); auto.
        cbn [tl]. intros X. apply GG in X as [b [X _]]. exact (not_under_self b P X).
    - assert (forall v, None = on_disk (FDir l) (v ++ [a])) as De by (intros v; rewrite disk_snoc, Na; reflexivity). apply named_none in Na.
      assert (~ subl l P P) as NS by (intros [b [s [_ [_ U]]]]; exact (not_under_self b P U)).
      destruct (child d x a) as [y|] eqn:C.
      + apply child_spec in C as C'; [|exact W]. destruct C' as [n [Ly [Dy Ny]]]. assert (at_path d (a :: P) y n) as G by (apply (at_child d P x p a W L); auto).
        destruct (real (kind n) && negb (virtual x a)) eqn:RV.
        * apply andb_true_iff in RV as [Re V]. apply negb_true_iff in V.
          assert (In y root) as Hy.
          { apply R. split; [apply DT; exists a, n; auto|]. intros b k Hb G'. pose proof (at_inj d _ W _ _ _ _ G G') as X. injection X as <-. contradiction. }
          assert (at_path d1 (a :: P) y n) as G1 by (destruct (Out a [] Na); eapply same_path; eauto).
          destruct (AN2 y a n) as [A2 N2]; [apply OI; exact Hy|exact G1|]. split; [apply (agree_ext (fun _ => None)); [exact De|exact A2]|].
          apply (noticed_ext (sub P) _ (keep (FDir l) P) _ (fun _ => None)); [exact De|auto|].
          apply (noticed_before (subl l P) (keepl l P) (gone P (ord root) d1) (fun _ => False) _ _ (anc P) (fun _ => False) _ _ d d1 d2); auto.
        * assert (forall u, inside (u ++ a :: P) -> real (kind n) = false) as NR.
          { intros u Ins. destruct (real (kind n)) eqn:Re; [|reflexivity]. cbn [andb] in RV. apply negb_false_iff in RV. exfalso. unfold virtual in RV. apply andb_true_iff in RV as [X1 X2]. apply Nat.eqb_eq in X1.
            assert (P = []) as -> by (rewrite X1 in L; destruct (b_top _ W) as [tn [Lt _]]; exact (at_inj d P W [] top p tn L (ap_top d tn Lt))).
            apply (Ins a u eq_refl). unfold special. cbn [In]. apply orb_true_iff in X2 as [X2|X2]; [apply orb_true_iff in X2 as [X2|X2]|]; apply bytes_eqb_eq in X2; subst; auto. }
          assert (forall u z k, inside (u ++ a :: P) -> at_path d (u ++ a :: P) z k -> real (kind k) = false) as NR2.
          { intros [|c u] z k Ins Gz; [destruct (at_fun d _ W _ _ _ _ Gz G) as [-> ->]; exact (NR [] Ins)|]. apply (leaf_path d (a :: P) y n (c :: u) z k W H G); auto; [|discriminate].
            pose proof (NR (c :: u) Ins) as X. unfold real in X. destruct (is_dir (kind n)); [rewrite orb_true_r in X; discriminate|reflexivity]. }
          split.
          -- split; [intros u m _ X; rewrite <- De in X; discriminate|intros u m _ X; rewrite <- De in X; discriminate|]. intros u z k V Ins _ Gz.
             assert (real (kind k) = false) as X; [|destruct (kind k); try discriminate; split; discriminate].
             assert (forall u, ~ gone P (ord root) d1 (u ++ a :: P)) as NG.
             { intros u0 [y' [b [n' [Hy [Ly' U]]]]]. assert (under (a :: P) (u0 ++ a :: P)) as U0 by (exists u0; reflexivity). pose proof (under_apart b a P _ U U0) as ->. apply OI in Hy. destruct (RP y' Hy) as [b [k' [G' [G1 Nb]]]].
               pose proof (at_inj d1 _ W1 _ _ _ _ G1 Ly') as Y. injection Y as ->. apply R in Hy as [Hy _]. apply DT in Hy as [b [k2 [G2 [Re V2]]]]. pose proof (at_inj d _ W _ _ _ _ G2 G') as Y. injection Y as ->.
               destruct (at_fun d _ W _ _ _ _ G2 G) as [-> ->]. rewrite Re, V2 in RV. discriminate. }
             destruct (Out a u Na) as [O1 O2]. apply (NR2 u z k Ins). eapply (same_path_back (subl l P) (anc P) _ d d1); eauto. eapply (same_path_back (gone P (ord root) d1) (fun _ => False) _ d1 d2); eauto.
          -- split.
             ++ intros u z k c V Ins Gz Kz. pose proof (NR2 u z k Ins Gz) as X. rewrite Kz in X. discriminate.
             ++ intros u z k V Ins Gz Kz. pose proof (NR2 u z k Ins Gz) as X. rewrite Kz in X. discriminate.
             ++ intros u m V X. rewrite <- De in X. discriminate.
      + pose proof (no_child d P x p a W L C) as NC. split.
        * split; [intros u m _ X; rewrite <- De in X; discriminate|intros u m _ X; rewrite <- De in X; discriminate|]. intros u z k V Ins _ Gz. exfalso.
          assert (forall u, ~ gone P (ord root) d1 (u ++ a :: P)) as NG.
          { intros u0 [y' [b [n' [Hy [Ly' U]]]]]. assert (under (a :: P) (u0 ++ a :: P)) as U0 by (exists u0; reflexivity). pose proof (under_apart b a P _ U U0) as ->. apply OI in Hy. destruct (RP y' Hy) as [b [k' [G' [G1 Nb]]]].
            pose proof (at_inj d1 _ W1 _ _ _ _ G1 Ly') as Y. injection Y as ->. exact (NC [] y' k' G'). }
          destruct (Out a u Na) as [O1 O2]. apply (NC u z k). eapply (same_path_back (subl l P) (anc P) _ d d1); eauto. eapply (same_path_back (gone P (ord root) d1) (fun _ => False) _ d1 d2); eauto.
        * split.
          -- intros u z k c V Ins Gz. destruct (NC u z k Gz).
          -- intros u z k V Ins Gz. destruct (NC u z k Gz).
          -- intros u m V X. rewrite <- De in X. discriminate.
  Qed.
End Tree.

Section Watch.
  Variable fuel : nat.
  Variable ord : list nat -> list nat.
  Hypothesis ord_perm : forall l, Permutation (ord l) l.

  Lemma tree_rect' (Pt : tree -> Prop) : (forall m, Pt (FFile m)) -> Pt FOther -> (forall l, (forall a t, In (a, t) l -> Pt t) -> Pt (FDir l)) -> forall t, Pt t.
  Proof.
    intros F O D. fix go 1. intros [m|l|]; [apply F| |apply O]. apply D. induction l as [|[b s] l IH]; intros a t I; [destruct I|]. destruct I as [E|I]; [injection E as _ <-; apply go|exact (IH a t I)].
  Qed.

  Lemma ok_sub nm l a t : ok_tree nm (FDir l) -> In (a, t) l -> ok_tree a t.
  Proof.
    intros [O1 [O2 O3]] I. assert (NoDup (map fst l)) as N by (apply (O1 [] l); reflexivity). assert (forall u, on_disk (FDir l) (u ++ [a]) = on_disk t u) as E by (intros u; rewrite disk_snoc, (in_named a l t N I); reflexivity).
    split; [|split].
    - intros u l' H. apply (O1 (u ++ [a])). rewrite E. exact H.
    - intros u l' H. apply (O2 (u ++ [a]) l'). rewrite <- E in H. exact H.
    - intros -> l' ->. apply (O2 [] l'). exact (E []).
  Qed.

  Lemma watch_dir_eq t l dt nm s : t = FDir l -> watch (S (S fuel)) ord t dt nm s =
    obind (if dt =? 0 then Ok (top, s) else create_dir (S (S fuel)) dt nm s) (fun '(x, s) =>
      obind (watch_entries (S (S fuel)) ord x l (dir_tree (fst s) x) s) (fun '(root, s) => each missing (ord root) s)).
  Proof. intros ->. reflexivity. Qed.

  Theorem watch_ok : forall t, TreeOK fuel ord t.
  Proof.
    apply tree_rect'.
    - intros m dt nm d q P p W H L I OT CF. apply (scan_file P dt p nm m d q W H L I). intros x n G. exact (CF [] x n visible_nil G).
    - intros dt nm d q P p W H L I OT CF. exists d, q. split; [reflexivity|]. split; [exact W|]. split; [exact H|]. set (R := nm :: P).
      assert (forall x n u y k, at_path d R x n -> at_path d (u ++ R) y k -> real (kind k) = false) as NR.
      { intros x n u y k G Gk. pose proof (CF [] x n visible_nil G) as X. cbn in X. destruct u as [|c u]; [destruct (at_fun d R W _ _ _ _ G Gk) as [_ <-]; exact X|]. apply (leaf_path d R x n (c :: u) y k W H G); auto; [|discriminate].
        unfold real in X. destruct (is_dir (kind n)); [rewrite orb_true_r in X; discriminate|reflexivity]. }
      assert (forall u y k, at_path d (u ++ R) y k -> real (kind k) = false) as NR'.
      { intros u y k Gk. assert (exists x n, at_path d R x n) as [x [n G]]; [|eauto]. revert y k Gk. induction u as [|c u IH]; intros y k Gk; [eauto|]. cbn in Gk. apply at_cons in Gk as [v [m [Gv _]]]; auto. eauto. }
      split; [|split].
      + apply (effects_weak (fun _ => False) (under R) (fun _ => False) (anc (tl R)) (fun _ => True) (keep FOther R) d d); [tauto|tauto|tauto|apply effects_flags; auto using flags_refl].
      + split; [intros [|c u] m V X; rewrite other_disk in X; discriminate|intros [|c u] m V X; rewrite other_disk in X; discriminate|]. intros u y k V _ _ Gk. pose proof (NR' u y k Gk) as X. destruct (kind k); try discriminate; split; discriminate.
      + split.
        * intros u y k c V _ Gk Kk. pose proof (NR' u y k Gk) as X. rewrite Kk in X. discriminate.
        * intros u y k V _ Gk Kk. pose proof (NR' u y k Gk) as X. rewrite Kk in X. discriminate.
        * intros [|c u] m V X; rewrite other_disk in X; discriminate.
    - intros l IH dt nm d q P p W H L I OT CF. rewrite (watch_dir_eq _ l _ _ _ eq_refl). set (R := nm :: P).
      assert (nm <> B "tup.config") as NT by (intros E; destruct OT as [_ [_ O3]]; exact (O3 E l eq_refl)).
      destruct (dt =? 0) eqn:E0; [apply Nat.eqb_eq in E0; subst dt; apply (at_lookup _ _ _ _ W) in L; apply (id_pos _ _ _ W) in L; lia|].
      destruct (create_dir_spec P dt p nm fuel d q W H L I NT) as [x [d0 [q0 [Eq [W0 [H0 [E1 [[n0 [L0 I0]] Fr]]]]]]]].
      { intros x n G. exact (CF [] x n visible_nil G). }
      rewrite Eq. cbn [obind fst].
      assert (NoDup (map fst l)) as N by (destruct OT as [O1 _]; apply (O1 [] l); reflexivity).
      destruct (dir_ok fuel ord ord_perm x R l d0 q0 n0) as [d' [q' [Eq' [W' [H' [E2 AN]]]]]]; auto.
      { intros a t Ht _. exact (IH a t Ht). }
      { intros a t Ht Ia. split; [exact (ok_sub nm l a t OT Ht)|]. intros u y k V G.
        assert (visible (u ++ [a])) as V' by (apply visible_snoc; auto). assert (on_disk (FDir l) (u ++ [a]) = on_disk t u) as Ed by (rewrite disk_snoc, (in_named a l t N Ht); reflexivity).
        assert (forall k0, at_path d (u ++ a :: R) y k0 -> match on_disk t u with Some FOther => real (kind k0) = false | Some _ => real (kind k0) = true \/ kind k0 = TGhost | None => True end) as Cd.
        { intros k0 G0. rewrite <- Ed. apply (CF (u ++ [a]) y k0 V'). rewrite <- app_assoc. exact G0. }
        destruct Fr as [->|[_ [_ Bk]]]; [exact (Cd k G)|]. assert (at_path d0 ((u ++ [a]) ++ R) y k) as G' by (rewrite <- app_assoc; exact G).
        destruct (Bk (u ++ [a]) y k ltac:(destruct u; discriminate) G') as [k0 [G0 [->|Kg]]].
        - apply Cd. rewrite <- app_assoc in G0. exact G0.
        - destruct (on_disk t u) as [[m|l'|]|]; auto. rewrite Kg. reflexivity. }
      exists d', q'. split; [exact Eq'|]. split; [exact W'|]. split; [exact H'|].
      assert (~ sub R R) as NS by (intros [a U]; exact (not_under_self a R U)).
      assert (forall u a, (u ++ [a]) ++ R = u ++ a :: R) as Ea by (intros; rewrite <- app_assoc; reflexivity).
      assert (effects (under R) (anc (tl R)) (keep (FDir l) R) d d') as E.
      { apply (effects_trans (under R) (sub R) (under R) (fun _ => False) (anc R) (anc (tl R)) (fun _ => True) (keep (FDir l) R) (keep (FDir l) R) d d0 d'); auto; try tauto.
        - intros r [a [u ->]]. exists (u ++ [a]). rewrite Ea. reflexivity.
        - intros r Nu [[|c w] Ew]; [exfalso; apply Nu; cbn in Ew; rewrite <- Ew; apply under_refl|]. exists w. injection Ew as _ ->. reflexivity. }
      assert (forall c, flagged_if_cmd d0 c -> flagged_if_cmd d' c) as Fl.
      { intros ce X Kc. apply (ef_modify _ _ _ _ _ E2); [apply X; apply (ef_cmd _ _ _ _ _ E2); exact Kc|auto]. }
      split; [exact E|]. split.
      + split.
        * intros u m V X. destruct (snoc_cases u) as [->|[v [a ->]]]; [discriminate|]. apply visible_snoc in V as [V Ia]. destruct (AN a Ia) as [[A1 _ _] _]. rewrite Ea. exact (A1 v m V X).
        * intros u l' V X. destruct (snoc_cases u) as [->|[v [a ->]]].
          -- cbn [app]. destruct (stays _ _ _ _ _ E2 R x n0 (or_introl NS) L0 I0) as [n' [L' [_ I']]]. eauto.
          -- apply visible_snoc in V as [V Ia]. destruct (AN a Ia) as [[_ A2 _] _]. rewrite Ea. exact (A2 v l' V X).
        * intros u y k V Ins X G. destruct (snoc_cases u) as [->|[v [a ->]]]; [discriminate|]. apply visible_snoc in V as [V Ia]. destruct (AN a Ia) as [[_ _ A3] _]. rewrite Ea in *. exact (A3 v y k V Ins X G).
      + split.
        * intros u y k c V Ins G Kk Nm Hd Hl Kc. destruct (snoc_cases u) as [->|[v [a ->]]].
          -- left. destruct Fr as [->|[ND [Fd _]]].
             ++ exfalso. destruct (at_fun d R W _ _ _ _ G L0) as [_ ->]. rewrite Kk in I0. discriminate.
             ++ apply Fl; [|exact Kc]. exact (Fd y k c G Kk Nm Hl).
          -- apply visible_snoc in V as [V Ia]. destruct (AN a Ia) as [_ [N1 _ _]]. destruct Fr as [->|[ND _]].
             ++ rewrite Ea in *. exact (N1 v y k c V Ins G Kk Nm Hd Hl Kc).
             ++ exfalso. destruct (ND (v ++ [a]) y k G) as [_ X]. assert (real (kind k) = false) as Y by (apply X; destruct v; discriminate). rewrite Kk in Y. discriminate.
        * intros u y k V Ins G Kk N1 N2 Hd Hf. destruct (snoc_cases u) as [->|[v [a ->]]]; [exfalso; exact (Hf l eq_refl)|].
          apply visible_snoc in V as [V Ia]. destruct (AN a Ia) as [_ [_ N3 _]]. destruct Fr as [->|[ND _]].
          -- rewrite Ea in *. destruct (N3 v y k V Ins G Kk N1 N2 Hd Hf) as [X|[X Y]]; [auto|right]. split; [exact X|]. intros s rs ns Sn Ls Ks C. apply (Y s rs ns Sn Ls Ks). destruct C as [C|C]; [|auto].
             left. intros [b [w Ew]]. apply C. exists (w ++ [b]). rewrite Ea. exact Ew.
          -- exfalso. destruct (ND (v ++ [a]) y k G) as [_ X]. assert (real (kind k) = false) as Y by (apply X; destruct v; discriminate). rewrite Kk in Y. discriminate.
        * intros u m V X Hn. destruct (snoc_cases u) as [->|[v [a ->]]]; [discriminate|]. apply visible_snoc in V as [V Ia]. destruct (AN a Ia) as [_ [_ _ N4]]. rewrite Ea in *. apply (N4 v m V X).
          destruct Fr as [->|[ND [_ Bk]]]; [exact Hn|]. left. intros y k G. destruct Hn as [Hn|[[z [pz [Lz Kz]]] _]].
          -- rewrite <- Ea in G. destruct (Bk (v ++ [a]) y k ltac:(destruct v; discriminate) G) as [k0 [G0 _]]. rewrite Ea in G0. exact (Hn y k0 G0).
          -- destruct v as [|b v]; cbn [app tl] in Lz.
             ++ destruct (ND [] z pz Lz) as [X1 _]. rewrite Kz in X1. discriminate.
             ++ rewrite <- Ea in Lz. destruct (ND (v ++ [a]) z pz Lz) as [X1 _]. rewrite Kz in X1. discriminate.
  Qed.

  (** The top of the tree. *)
  Lemma root_ok l d q : ok_tree (B ".") (FDir l) -> base d -> home d -> clash_free d (FDir l) [] ->
    exists d' q', watch (S (S fuel)) ord (FDir l) 0 (B ".") (d, q) = Ok (d', q') /\ base d' /\ home d' /\
      effects (sub []) (fun r => r = []) (keep (FDir l) []) d d' /\ agree_in (on_disk (FDir l)) [] d' /\ noticed (sub []) (keep (FDir l) []) (on_disk (FDir l)) [] d d'.
  Proof.
    intros OT W H CF. destruct (b_top _ W) as [n0 [L0 [K0 _]]]. assert (at_path d [] top n0) as L by (constructor; exact L0).
    assert (NoDup (map fst l)) as N by (destruct OT as [O1 _]; apply (O1 [] l); reflexivity).
    assert (is_dir (kind n0) = true) as I0 by (rewrite K0; reflexivity).
    destruct (dir_ok fuel ord ord_perm top [] l d q n0) as [d' [q' [Eq' [W' [H' [E2 AN]]]]]]; auto.
    { intros a t _ _. apply watch_ok. }
    { intros a t Ht Ia. split; [exact (ok_sub (B ".") l a t OT Ht)|]. intros u y k V G. assert (visible (u ++ [a])) as V' by (apply visible_snoc; auto).
      assert (on_disk (FDir l) (u ++ [a]) = on_disk t u) as Ed by (rewrite disk_snoc, (in_named a l t N Ht); reflexivity). rewrite <- Ed. apply (CF (u ++ [a]) y k V'). rewrite app_nil_r. exact G. }
    exists d', q'. split; [rewrite (watch_dir_eq _ l _ _ _ eq_refl); exact Eq'|]. split; [exact W'|]. split; [exact H'|].
    split; [|split].
    - apply (effects_weak (sub []) (sub []) (anc []) (fun r => r = []) (keep (FDir l) []) (keep (FDir l) []) d d'); auto. intros r _ [w Ew]. symmetry in Ew. apply app_eq_nil in Ew. tauto.
    - split.
      + intros u m V X. destruct (snoc_cases u) as [->|[v [a ->]]]; [discriminate|]. apply visible_snoc in V as [V Ia]. destruct (AN a Ia) as [[A1 _ _] _]. rewrite app_nil_r. exact (A1 v m V X).
      + intros u l' V X. destruct (snoc_cases u) as [->|[v [a ->]]].
        * cbn [app]. destruct (b_top _ W') as [n' [L' [K' _]]]. exists top, n'. split; [constructor; exact L'|rewrite K'; reflexivity].
        * apply visible_snoc in V as [V Ia]. destruct (AN a Ia) as [[_ A2 _] _]. rewrite app_nil_r. exact (A2 v l' V X).
      + intros u y k V Ins X G. destruct (snoc_cases u) as [->|[v [a ->]]]; [discriminate|]. apply visible_snoc in V as [V Ia]. destruct (AN a Ia) as [[_ _ A3] _]. rewrite app_nil_r in *. exact (A3 v y k V Ins X G).
    - split.
      + intros u y k c V Ins G Kk. destruct (snoc_cases u) as [->|[v [a ->]]]; [exfalso; destruct (at_fun d [] W _ _ _ _ G L) as [_ ->]; congruence|].
        apply visible_snoc in V as [V Ia]. destruct (AN a Ia) as [_ [N1 _ _]]. rewrite app_nil_r in *. exact (N1 v y k c V Ins G Kk).
      + intros u y k V Ins G Kk. destruct (snoc_cases u) as [->|[v [a ->]]]; [exfalso; destruct (at_fun d [] W _ _ _ _ G L) as [_ ->]; congruence|].
        apply visible_snoc in V as [V Ia]. destruct (AN a Ia) as [_ [_ N3 _]]. rewrite app_nil_r in *. exact (N3 v y k V Ins G Kk).
      + intros u m V X Hn. destruct (snoc_cases u) as [->|[v [a ->]]]; [discriminate|]. apply visible_snoc in V as [V Ia]. destruct (AN a Ia) as [_ [_ _ N4]]. rewrite app_nil_r in *. exact (N4 v m V X Hn).
  Qed.
End Watch.
