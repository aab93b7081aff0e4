(** Paths, and what a step of the scan leaves as it is. *)
From Verif Require Import Base ConfigModel ParseModel PathModel DbModel DbSpec DbProofs DbProofs3 ScanModel ScanSpec ScanProofs ScanProofs2.
Require Import Lia.

Lemma at_lookup d r x n : base d -> at_path d r x n -> lookup d x = Some n.
Proof. intros W H. destruct H as [n L|r x n nm y m H I D N]; [exact L|]. apply in_lookup; [apply W|exact I]. Qed.
Lemma at_in d r x n nm y m : at_path d r x n -> lookup d y = Some m -> dir m = x -> nname m = nm -> at_path d (nm :: r) y m.
Proof. intros H L D N. econstructor; eauto using lookup_in. Qed.
Lemma at_cons d nm r y m : base d -> at_path d (nm :: r) y m -> exists x n, at_path d r x n /\ lookup d y = Some m /\ dir m = x /\ nname m = nm /\ y <> top.
Proof.
  intros W H. inversion H as [|r' x n nm' y' m' H' I D N]; subst. exists (dir m), n. assert (lookup d y = Some m) as L by (apply in_lookup; [apply W|exact I]). repeat split; auto.
  apply (not_top_dir d y m W L). apply at_lookup in H'; [|exact W]. apply id_pos in H'; [lia|exact W].
Qed.
Lemma at_nil d x n : at_path d [] x n -> x = top /\ lookup d top = Some n.
Proof. intros H. remember [] as r eqn:E. destruct H; [auto|discriminate]. Qed.
Lemma at_fun d r : base d -> forall x n y m, at_path d r x n -> at_path d r y m -> x = y /\ n = m.
Proof.
  intros W. induction r as [|nm r IH]; intros x n y m H G.
  - inversion H as [n' L|]; subst. inversion G as [m' L'|]; subst. split; congruence.
  - apply at_cons in H as [a [p [H1 [L1 [D1 [N1 _]]]]]]; auto. apply at_cons in G as [b [k [H2 [L2 [D2 [N2 _]]]]]]; auto. destruct (IH _ _ _ _ H1 H2) as [-> _].
    assert (x = y) by (apply (b_names _ W x n y m); congruence). subst. split; congruence.
Qed.
Lemma at_inj d r : base d -> forall r' x n m, at_path d r x n -> at_path d r' x m -> r = r'.
Proof.
  intros W. induction r as [|nm r IH]; intros [|nm' r'] x n m H G; auto.
  - inversion H; subst. apply at_cons in G as [_ [_ [_ [_ [_ [_ T]]]]]]; auto. congruence.
  - inversion G; subst. apply at_cons in H as [_ [_ [_ [_ [_ [_ T]]]]]]; auto. congruence.
  - apply at_cons in H as [a [p [H1 [L1 [D1 [N1 _]]]]]]; auto. apply at_cons in G as [b [k [H2 [L2 [D2 [N2 _]]]]]]; auto.
    assert (n = m) by congruence. subst m. subst a b. rewrite (IH _ _ _ _ H1 H2). congruence.
Qed.
Lemma at_exists d : base d -> forall x n, lookup d x = Some n -> exists r, at_path d r x n.
Proof.
  intros W x. induction x as [x IH] using (well_founded_induction lt_wf). intros n L. destruct (Nat.eq_dec x top) as [->|T]; [exists []; constructor; exact L|].
  destruct (b_parent _ W x n L T) as [P Q]. destruct (lookup d (dir n)) as [m|] eqn:Lm; [|congruence]. destruct (IH (dir n) Q m Lm) as [r H].
  exists (nname n :: r). eapply at_in; eauto.
Qed.

Definition under (P r : path) : Prop := exists u, r = u ++ P.
Definition anc (P r : path) : Prop := exists w, P = w ++ r.
Lemma under_cons P nm r : under P r -> under P (nm :: r).
Proof. intros [u ->]. exists (nm :: u). reflexivity. Qed.
Lemma under_refl P : under P P.
Proof. exists []. reflexivity. Qed.
Lemma below_under d P x n : base d -> at_path d P x n -> forall r y m, at_path d r y m -> (below d x y <-> under P r).
Proof.
  intros W H r y m G. split.
  - intros B'. revert r m G. induction B' as [|z y k B' IH L T D]; intros r m G.
    + rewrite (at_inj d r W P x m n G H). apply under_refl.
    + destruct r as [|nm r]; [inversion G; subst; congruence|]. apply at_cons in G as [a [p [H1 [L1 [D1 [N1 _]]]]]]; auto. apply under_cons. rewrite L in L1. injection L1 as <-. rewrite D in D1. subst a. eauto.
  - intros [u ->]. revert y m G. induction u as [|nm u IH]; intros y m G.
    + destruct (at_fun d P W _ _ _ _ G H) as [-> _]. constructor.
    + cbn in G. apply at_cons in G as [a [p [H1 [L1 [D1 [N1 T]]]]]]; auto. econstructor; eauto.
Qed.
Lemma app_cons_inv (u : path) a (v : path) b P : u ++ a :: P = v ++ b :: P -> u = v /\ a = b.
Proof.
  intros E. assert (u ++ [a] = v ++ [b]) as E'.
  { apply (app_inv_tail P). rewrite <- !app_assoc. exact E. }
  apply app_inj_tail in E'. exact E'.
Qed.
Lemma under_apart nm nm' P r : under (nm :: P) r -> under (nm' :: P) r -> nm = nm'.
Proof. intros [u ->] [v E]. apply app_cons_inv in E. tauto. Qed.
Lemma under_not_anc nm P r : under (nm :: P) r -> anc P r -> False.
Proof. intros [u ->] [w E]. apply (f_equal (@length _)) in E. rewrite !app_length in E. cbn in E. lia. Qed.

Record effects (Q A K : path -> Prop) (d d' : db) : Prop := {
  ef_fwd : forall r y n, ~ Q r -> at_path d r y n -> exists n', at_path d' r y n' /\ (n' = n \/ A r /\ kind n = TGeneratedDir /\ n' = set_kind TDir n);
  ef_bwd : forall r y n', ~ Q r -> at_path d' r y n' -> exists n, at_path d r y n;
  ef_stay : forall r y n, K r -> at_path d r y n -> is_dir (kind n) = true -> exists n', at_path d' r y n' /\ (kind n' = TDir \/ kind n' = kind n);
  ef_cmd : forall c, is_kind d' TCmd c -> is_kind d TCmd c;
  ef_gdir : forall r y n', at_path d' r y n' -> kind n' = TGeneratedDir -> exists n, at_path d r y n /\ kind n = TGeneratedDir;
  ef_links : forall a b, In (a, b) (normal d) -> (exists r n, ~ Q r /\ at_path d r a n) \/ is_kind d' TCmd a -> (exists r n, ~ Q r /\ at_path d r b n) \/ is_kind d' TCmd b -> In (a, b) (normal d');
  ef_modify : forall c, In c (modify d) -> (exists r n, ~ Q r /\ at_path d r c n) \/ is_kind d' TCmd c -> In c (modify d');
  ef_create : forall c r n, In c (create d) -> at_path d r c n -> ~ Q r \/ K r /\ is_dir (kind n) = true -> In c (create d') }.

Lemma stays Q A K d d' : effects Q A K d d' -> forall r y n, ~ Q r \/ K r -> at_path d r y n -> is_dir (kind n) = true ->
  exists n', at_path d' r y n' /\ (kind n' = TDir \/ kind n' = kind n) /\ is_dir (kind n') = true.
Proof.
  intros E r y n [H|H] L I.
  - destruct (ef_fwd _ _ _ _ _ E r y n H L) as [n' [L' C]]. exists n'. split; [exact L'|]. destruct C as [->|[_ [Kn ->]]]; cbn; auto.
  - destruct (ef_stay _ _ _ _ _ E r y n H L I) as [n' [L' C]]. exists n'. split; [exact L'|]. split; [exact C|]. destruct C as [C|C]; rewrite C; auto.
Qed.
Lemma same_path Q A K d d' r y n : effects Q A K d d' -> ~ Q r -> ~ A r -> at_path d r y n -> at_path d' r y n.
Proof. intros E H NA L. destruct (ef_fwd _ _ _ _ _ E r y n H L) as [n' [L' [->|[C _]]]]; [exact L'|contradiction]. Qed.
Lemma same_path_back Q A K d d' r y n : base d' -> effects Q A K d d' -> ~ Q r -> ~ A r -> at_path d' r y n -> at_path d r y n.
Proof.
  intros W E H NA L. destruct (ef_bwd _ _ _ _ _ E r y n H L) as [m M]. pose proof (same_path _ _ _ _ _ _ _ _ E H NA M) as M'. destruct (at_fun d' r W _ _ _ _ L M') as [_ ->]. exact M.
Qed.

Lemma effects_trans (Q1 Q2 Q A1 A2 A K1 K2 K : path -> Prop) d e f : (forall r, Q1 r -> Q r) -> (forall r, Q2 r -> Q r) -> (forall r, ~ Q r -> A1 r -> A r) -> (forall r, ~ Q r -> A2 r -> A r) ->
  (forall r, K r -> (~ Q1 r \/ K1 r) /\ (~ Q2 r \/ K2 r)) -> effects Q1 A1 K1 d e -> effects Q2 A2 K2 e f -> effects Q A K d f.
Proof.
  intros I1 I2 J1 J2 HK E F.
  assert (forall a, (exists r n, ~ Q r /\ at_path d r a n) \/ is_kind f TCmd a -> ((exists r n, ~ Q1 r /\ at_path d r a n) \/ is_kind e TCmd a) /\ ((exists r n, ~ Q2 r /\ at_path e r a n) \/ is_kind f TCmd a)) as Ok.
  { intros a [[r [n [H L]]]|H].
    - split; [left; exists r, n; auto|]. left. destruct (ef_fwd _ _ _ _ _ E r a n) as [n' [L' _]]; auto. exists r, n'. auto.
    - split; [right; apply (ef_cmd _ _ _ _ _ F); exact H|right; exact H]. }
  split.
  - intros r y n H L. destruct (ef_fwd _ _ _ _ _ E r y n) as [n1 [L1 C1]]; auto. destruct (ef_fwd _ _ _ _ _ F r y n1) as [n2 [L2 C2]]; auto. exists n2. split; [exact L2|].
    destruct C1 as [->|[A1r [K1r ->]]]; destruct C2 as [->|[A2r [K2r ->]]]; auto; right; repeat split; auto; discriminate.
  - intros r y n H L. destruct (ef_bwd _ _ _ _ _ F r y n) as [n1 L1]; auto. apply (ef_bwd _ _ _ _ _ E r y n1); auto.
  - intros r y n H L I. destruct (HK r H) as [H1 H2]. destruct (stays _ _ _ _ _ E r y n H1 L I) as [n1 [L1 [C1 I1']]]. destruct (stays _ _ _ _ _ F r y n1 H2 L1 I1') as [n2 [L2 [C2 _]]].
    exists n2. split; [exact L2|]. destruct C2 as [C2|C2]; [auto|]. rewrite C2. exact C1.
  - intros c H. apply (ef_cmd _ _ _ _ _ E). apply (ef_cmd _ _ _ _ _ F). exact H.
  - intros r y n L Kn. destruct (ef_gdir _ _ _ _ _ F r y n L Kn) as [n1 [L1 K1']]. exact (ef_gdir _ _ _ _ _ E r y n1 L1 K1').
  - intros a b H Ha Hb. destruct (Ok a Ha), (Ok b Hb). apply (ef_links _ _ _ _ _ F); auto. apply (ef_links _ _ _ _ _ E); auto.
  - intros c H Hc. destruct (Ok c Hc). apply (ef_modify _ _ _ _ _ F); auto. apply (ef_modify _ _ _ _ _ E); auto.
  - intros c r n H L C. assert ((~ Q1 r \/ K1 r /\ is_dir (kind n) = true) /\ (~ Q2 r \/ K2 r /\ is_dir (kind n) = true)) as [C1 C2].
    { destruct C as [C|[C I]]; [split; left; auto|]. destruct (HK r C) as [X Y]. split; [destruct X|destruct Y]; auto. }
    assert (In c (create e)) as H1 by (apply (ef_create _ _ _ _ _ E c r n); auto).
    destruct C2 as [C2|[C2 I]].
    + assert (exists n', at_path e r c n') as [n' L'].
      { destruct C1 as [C1|[C1 I]]; [destruct (ef_fwd _ _ _ _ _ E r c n C1 L) as [n' [L' _]]; eauto|]. destruct (stays _ _ _ _ _ E r c n (or_intror C1) L I) as [n' [L' _]]. eauto. }
      apply (ef_create _ _ _ _ _ F c r n'); auto.
    + assert (~ Q1 r \/ K1 r) as C1' by tauto. destruct (stays _ _ _ _ _ E r c n C1' L I) as [n' [L' [_ I']]]. apply (ef_create _ _ _ _ _ F c r n'); auto.
Qed.
Lemma effects_weak (Q Q' A A' K K' : path -> Prop) d d' : (forall r, Q r -> Q' r) -> (forall r, ~ Q' r -> A r -> A' r) -> (forall r, K' r -> ~ Q r \/ K r) -> effects Q A K d d' -> effects Q' A' K' d d'.
Proof.
  intros HQ HA HK E. split.
  - intros r y n H L. destruct (ef_fwd _ _ _ _ _ E r y n) as [n' [L' C]]; auto. exists n'. split; [exact L'|]. destruct C as [C|[C1 C2]]; auto.
  - intros r y n H L. apply (ef_bwd _ _ _ _ _ E r y n); auto.
  - intros r y n H L I. destruct (stays _ _ _ _ _ E r y n (HK r H) L I) as [n' [L' [C _]]]. eauto.
  - apply (ef_cmd _ _ _ _ _ E).
  - apply (ef_gdir _ _ _ _ _ E).
  - intros a b H Ha Hb. apply (ef_links _ _ _ _ _ E); auto.
    + destruct Ha as [[r [n [X Y]]]|X]; [left; exists r, n; auto|auto].
    + destruct Hb as [[r [n [X Y]]]|X]; [left; exists r, n; auto|auto].
  - intros c H Hc. apply (ef_modify _ _ _ _ _ E); auto. destruct Hc as [[r [n [X Y]]]|X]; [left; exists r, n; auto|auto].
  - intros c r n H L C. apply (ef_create _ _ _ _ _ E c r n); auto. destruct C as [C|[C I]]; [auto|]. destruct (HK r C); auto.
Qed.

(** The steps. *)
Lemma paths_kept (Q : path -> Prop) d d' : base d -> base d' -> (forall nm r, Q r -> Q (nm :: r)) ->
  (forall r y n, ~ Q r -> at_path d r y n -> lookup d' y = Some n) ->
  forall r y n, ~ Q r -> at_path d r y n -> at_path d' r y n.
Proof.
  intros W W' Up H r. induction r as [|nm r IH]; intros y n NQ L.
  - inversion L; subst. constructor. apply (H [] top n); auto.
  - pose proof L as L0. apply at_cons in L as [a [p [H1 [L1 [D1 [N1 _]]]]]]; auto. eapply at_in; [apply (IH a p); auto|apply (H (nm :: r) y n NQ L0)|exact D1|exact N1].
Qed.
Lemma paths_back (Q : path -> Prop) d d' : base d -> base d' -> (forall nm r, Q r -> Q (nm :: r)) ->
  (forall r y n', ~ Q r -> at_path d' r y n' -> exists n, lookup d y = Some n /\ dir n = dir n' /\ nname n = nname n') ->
  forall r y n', ~ Q r -> at_path d' r y n' -> exists n, at_path d r y n.
Proof.
  intros W W' Up H r. induction r as [|nm r IH]; intros y n NQ L.
  - destruct (H [] y n NQ L) as [m [L1 _]]. inversion L; subst. exists m. constructor. exact L1.
  - destruct (H (nm :: r) y n NQ L) as [m [L1 [D1 N1]]]. apply at_cons in L as [a [p [H2 [L2 [D2 [N2 _]]]]]]; auto. destruct (IH a p) as [p' H3]; auto.
    exists m. eapply at_in; eauto; congruence.
Qed.
Lemma under_up P nm r : under P r -> under P (nm :: r).
Proof. apply under_cons. Qed.

(** Going back. *)
Lemma back_shrunk d d' : base d -> shrunk d d' -> forall r y n', at_path d' r y n' -> exists n, at_path d r y n /\ (n' = n \/ kind n' = TGhost).
Proof.
  intros W S r y n' H. pose proof (shrunk_base _ _ W S) as W'. destruct (paths_back (fun _ => False) d d' W W' ltac:(tauto)) with (r := r) (y := y) (n' := n') as [k Lk]; auto.
  - intros r0 z m _ G. apply at_lookup in G; auto. destruct (sh_from _ _ S z m G) as [m0 [L0 [D0 [N0 _]]]]. exists m0. auto.
  - exists k. split; [exact Lk|]. apply at_lookup in H; auto. destruct (sh_from _ _ S y n' H) as [m0 [L0 [_ [_ [_ K]]]]]. rewrite (at_lookup _ _ _ _ W Lk) in L0. injection L0 as <-. destruct K as [K|[K _]]; auto.
Qed.

(** The removal of an entry. *)
Lemma effects_deleted x n P E d d' : base d -> at_path d P x n -> deleted (below d x) E d d' -> effects (under P) (fun _ => False) (fun _ => False) d d'.
Proof.
  intros W L D. pose proof (de_shrunk _ _ _ _ D) as S. pose proof (shrunk_base _ _ W S) as W'.
  assert (forall r y m, ~ under P r -> at_path d r y m -> ~ below d x y) as NB.
  { intros r y m H G B'. apply H. apply (below_under d P x n W L r y m G). exact B'. }
  assert (forall a, (exists r m, ~ under P r /\ at_path d r a m) \/ is_kind d' TCmd a -> ~ below d x a \/ is_kind d' TCmd a) as Ok by (intros a [[r [m [H G]]]|H]; [left; eauto|auto]).
  split.
  - intros r y m H G. exists m. split; [|auto]. apply (paths_kept (under P) d d' W W' (under_up P)); auto.
    intros r' y' m' H' G'. rewrite (de_out _ _ _ _ D); [eapply at_lookup; eauto|eauto].
  - intros r y m H G. revert r y m H G. apply (paths_back (under P) d d' W W' (under_up P)).
    intros r y m H G. apply at_lookup in G; auto. destruct (sh_from _ _ S y m G) as [k [Lk [Dk [Nk _]]]]. exists k. auto.
  - intros r y m [].
  - intros c H. apply (shrunk_kind _ _ _ _ S); [discriminate|exact H].
  - intros r y k G Kk. destruct (back_shrunk d d' W S r y k G) as [k0 [G0 [->|X]]]; [eauto|congruence].
  - intros a b H Ha Hb. apply (de_links _ _ _ _ D); auto.
  - intros c H Hc. apply (de_modify _ _ _ _ D); auto.
  - intros c r m H G [C|[[] _]]. apply (de_create _ _ _ _ D); eauto.
Qed.

(** A change of one entry, which keeps its place. *)
Definition changed_at (x : nat) (d d' : db) : Prop :=
  NoDup (map fst (nodes d')) /\ (forall y, y <> x -> lookup d' y = lookup d y) /\ normal d' = normal d /\
  incl (modify d) (modify d') /\ incl (create d) (create d') /\
  exists n n', lookup d x = Some n /\ lookup d' x = Some n' /\ dir n' = dir n /\ nname n' = nname n /\ (src n' = src n \/ src n' = None /\ kind n' <> TGenerated) /\
    (kind n' = TGenerated -> kind n = TGenerated) /\ (nname n = B "tup.config" -> is_dir (kind n') = false) /\ (kind n' = TCmd -> kind n = TCmd) /\ kind n' <> TGeneratedDir.
Lemma changed_base x d d' : base d -> changed_at x d d' -> x <> top -> base d'.
Proof.
  intros W [I [O [NL [_ [_ [n [n' [L [L' [D [N [S [G [C _]]]]]]]]]]]]]] T.
  assert (forall y, lookup d y <> None -> lookup d' y <> None) as K by (intros y Y; destruct (Nat.eq_dec y x) as [->|Nx]; [congruence|rewrite O; auto]).
  assert (forall y m, lookup d' y = Some m -> exists m0, lookup d y = Some m0 /\ dir m = dir m0 /\ nname m = nname m0 /\ (y = x /\ m = n' /\ m0 = n \/ m = m0)) as B'.
  { intros y m Ly. destruct (Nat.eq_dec y x) as [->|Nx]; [exists n; rewrite L' in Ly; injection Ly as <-; auto 10|]. rewrite O in Ly; auto. exists m. auto 10. }
  split.
  - exact I.
  - intros a p b k La Lb Dd Nn. destruct (B' a p La) as [p0 [La0 [Da [Na _]]]]. destruct (B' b k Lb) as [k0 [Lb0 [Db [Nb _]]]]. apply (b_names _ W a p0 b k0); congruence.
  - rewrite O; auto. apply W.
  - intros a p La Ta. destruct (B' a p La) as [p0 [La0 [Da _]]]. destruct (b_parent _ W a p0 La0 Ta). rewrite Da. auto.
  - intros a b H. rewrite NL in H. destruct (b_links _ W a b H). auto.
  - intros a p s La Sa. destruct (B' a p La) as [p0 [La0 [_ [_ [[-> [-> ->]]| ->]]]]]; apply K; [|eapply (b_source _ W); eauto]. destruct S as [S|[S _]]; [|congruence]. apply (b_source _ W x n s L). congruence.
  - intros a p La Ka. destruct (B' a p La) as [p0 [La0 [_ [_ [[-> [-> ->]]| ->]]]]]; [|apply (b_generated _ W a p0 La0 Ka)]. destruct S as [S|[_ S]]; [|contradiction]. rewrite S. apply (b_generated _ W x n L). auto.
  - intros a p La Ea. destruct (B' a p La) as [p0 [La0 [_ [_ [[-> [-> ->]]| ->]]]]]; [|apply (b_config _ W a p0 La0 Ea)]. apply C. congruence.
Qed.
Lemma back_changed x d d' : base d -> base d' -> changed_at x d d' -> forall r y n', at_path d' r y n' -> exists n, at_path d r y n /\ (y <> x -> n' = n).
Proof.
  intros W W' [_ [O [_ [_ [_ [n [n1 [L [L' [D [N _]]]]]]]]]]] r y n' H. destruct (paths_back (fun _ => False) d d' W W' ltac:(tauto)) with (r := r) (y := y) (n' := n') as [k Lk]; auto.
  - intros r0 z k _ G. apply at_lookup in G; auto. destruct (Nat.eq_dec z x) as [->|Nz]; [rewrite L' in G; injection G as <-; exists n; auto|]. rewrite O in G; auto. eauto.
  - exists k. split; [exact Lk|]. intros Ny. apply at_lookup in H; auto. apply at_lookup in Lk; auto. rewrite O in H; auto. congruence.
Qed.
Lemma effects_changed x n P d d' : base d -> changed_at x d d' -> x <> top -> at_path d P x n -> effects (under P) (fun _ => False) (fun _ => False) d d'.
Proof.
  intros W Ch T L. pose proof (changed_base x d d' W Ch T) as W'. pose proof Ch as [I [O [NL [M [Cr [n0 [n' [L0 [L' [D [N [S [G [C [Cc Cg]]]]]]]]]]]]]]].
  assert (forall r y m, ~ under P r -> at_path d r y m -> y <> x) as NB.
  { intros r y m H K ->. apply H. rewrite (at_inj d r W P x m n K L). apply under_refl. }
  split.
  - intros r y m H K. exists m. split; [|auto]. apply (paths_kept (under P) d d' W W' (under_up P)); auto.
    intros r' y' m' H' K'. rewrite O; [eapply at_lookup; eauto|eauto].
  - apply (paths_back (under P) d d' W W' (under_up P)). intros r y m H K. apply at_lookup in K; auto. destruct (Nat.eq_dec y x) as [->|Nx].
    + exists n0. rewrite L' in K. injection K as <-. auto.
    + rewrite O in K; auto. eauto.
  - intros r y m [].
  - intros c [m [Lc Kc]]. destruct (Nat.eq_dec c x) as [->|Nx].
    + rewrite L' in Lc. injection Lc as <-. exists n0. auto.
    + rewrite O in Lc; auto. exists m. auto.
  - intros r y k K Kk. destruct (back_changed x d d' W W' Ch r y k K) as [k0 [K0 E0]]. destruct (Nat.eq_dec y x) as [->|Nx]; [apply at_lookup in K; auto; congruence|]. rewrite (E0 Nx) in Kk. eauto.
  - intros a b H _ _. rewrite NL. exact H.
  - intros c H _. auto.
  - intros c r m H _ _. auto.
Qed.

(** A new entry. *)
Definition added_at (dt : nat) (k : ntype) (nm : bytes) (d d' : db) : Prop :=
  NoDup (map fst (nodes d')) /\ (forall y, y <> fresh d -> lookup d' y = lookup d y) /\ normal d' = normal d /\
  incl (modify d) (modify d') /\ incl (create d) (create d') /\
  exists n', lookup d' (fresh d) = Some n' /\ dir n' = dt /\ nname n' = nm /\ src n' = None /\ kind n' = k.
Lemma added_base dt k nm d d' p : base d -> added_at dt k nm d d' -> lookup d dt = Some p -> child d dt nm = None -> k <> TGenerated -> (nm = B "tup.config" -> is_dir k = false) -> base d'.
Proof.
  intros W [I [O [NL [_ [_ [n' [L' [D [N [S Kk]]]]]]]]]] Lp Ch KG KC.
  assert (lookup d (fresh d) = None) as Lf by (apply lookup_fresh; lia).
  assert (forall y m, lookup d y = Some m -> lookup d' y = Some m) as K by (intros y m Y; rewrite O; [exact Y|congruence]).
  assert (forall y m, lookup d' y = Some m -> y = fresh d /\ m = n' \/ lookup d y = Some m) as B'.
  { intros y m Ly. destruct (Nat.eq_dec y (fresh d)) as [->|Nx]; [rewrite L' in Ly; injection Ly as <-; auto|]. rewrite O in Ly; auto. }
  assert (forall y, lookup d y <> None -> lookup d' y <> None) as K' by (intros y Y; destruct (lookup d y) as [m|] eqn:E; [rewrite (K y m E); congruence|congruence]).
  assert (forall y m, lookup d y = Some m -> dir m = dir n' -> nname m = nname n' -> False) as Fr.
  { intros y m Ly Dm Nm. apply (proj1 (child_none d dt nm W) Ch y m Ly); congruence. }
  split.
  - exact I.
  - intros a x b y La Lb Dd Nn. destruct (B' a x La) as [[-> ->]|La0]; destruct (B' b y Lb) as [[-> ->]|Lb0]; auto.
    + exfalso. apply (Fr b y Lb0); congruence.
    + exfalso. apply (Fr a x La0); congruence.
    + apply (b_names _ W a x b y); auto.
  - destruct (b_top _ W) as [t [Lt Kt]]. exists t. split; [apply K; exact Lt|exact Kt].
  - intros a x La Ta. destruct (B' a x La) as [[-> ->]|La0].
    + rewrite D. split; [apply K'; congruence|]. eapply lookup_lt; eauto.
    + destruct (b_parent _ W a x La0 Ta). auto.
  - intros a b H. rewrite NL in H. destruct (b_links _ W a b H). auto.
  - intros a x s La Sa. destruct (B' a x La) as [[-> ->]|La0]; [congruence|]. apply K'. eapply (b_source _ W); eauto.
  - intros a x La Ka. destruct (B' a x La) as [[-> ->]|La0]; [congruence|]. eapply (b_generated _ W); eauto.
  - intros a x La Ea. destruct (B' a x La) as [[-> ->]|La0]; [rewrite Kk; apply KC; congruence|]. eapply (b_config _ W); eauto.
Qed.
Lemma back_added dt k nm d d' : base d -> base d' -> added_at dt k nm d d' -> forall r y n', at_path d' r y n' -> y <> fresh d -> at_path d r y n'.
Proof.
  intros W W' [_ [O _]] r. induction r as [|a r IH]; intros y n' H N.
  - apply at_nil in H as [-> H]. constructor. rewrite O in H; auto.
  - apply at_cons in H as [x [p [H1 [L1 [D1 [N1 T]]]]]]; auto. rewrite O in L1; auto. eapply at_in; [apply (IH x p H1)|exact L1|exact D1|exact N1].
    intros ->. destruct (b_parent _ W y n' L1 T) as [X _]. apply X. rewrite D1. apply lookup_fresh. lia.
Qed.
Lemma effects_added dt k nm d d' p P : base d -> base d' -> added_at dt k nm d d' -> at_path d P dt p -> k <> TCmd /\ k <> TGeneratedDir ->
  effects (under (nm :: P)) (fun _ => False) (fun r => ~ under (nm :: P) r) d d'.
Proof.
  intros W W' Ad L [KC KG]. pose proof Ad as [I [O [NL [M [Cr [n' [L' [D [N [S Kk]]]]]]]]]]. assert (lookup d (fresh d) = None) as Lf by (apply lookup_fresh; lia).
  assert (forall r y n, at_path d r y n -> at_path d' r y n) as Fw.
  { intros r y n H. apply (paths_kept (fun _ => False) d d' W W' ltac:(tauto)); auto. intros r' y' m' _ H'. apply at_lookup in H'; auto. rewrite O; [exact H'|congruence]. }
  split.
  - intros r y m H G. exists m. auto.
  - apply (paths_back (under (nm :: P)) d d' W W' (under_up (nm :: P))). intros r y m H G. destruct (Nat.eq_dec y (fresh d)) as [->|Nx].
    + exfalso. apply H. destruct r as [|c r].
      * apply at_nil in G as [G _]. destruct (b_top _ W) as [t [Lt' _]]. rewrite <- G in Lt'. congruence.
      * apply at_cons in G as [a [q [H1 [L1 [D1 [N1 _]]]]]]; auto. rewrite L' in L1. injection L1 as <-. assert (a = dt) as Ea by congruence. rewrite Ea in H1.
        rewrite (at_inj d' r W' P dt q p H1 (Fw P dt p L)). rewrite <- N1, N. apply under_refl.
    + apply at_lookup in G; auto. rewrite O in G; auto. eauto.
  - intros r y m H G _. exists m. auto.
  - intros c [m [Lc Kc]]. destruct (Nat.eq_dec c (fresh d)) as [->|Nx]; [congruence|]. rewrite O in Lc; auto. exists m. auto.
  - intros r y q G Kq. destruct (Nat.eq_dec y (fresh d)) as [->|Nx]; [apply at_lookup in G; auto; congruence|]. pose proof (back_added dt k nm d d' W W' Ad r y q G Nx). eauto.
  - intros a b H _ _. rewrite NL. exact H.
  - intros c H _. auto.
  - intros c r m H _ _. auto.
Qed.

(** Flags. *)
Lemma effects_flags A K d d' : base d -> flags_only d d' -> effects (fun _ => False) A K d d'.
Proof.
  intros W F. pose proof (flags_base _ _ F W) as W'. assert (forall y, lookup d' y = lookup d y) as E by (intros; apply flags_lookup; exact F).
  assert (forall r y n, at_path d r y n -> at_path d' r y n) as Fw.
  { intros r y n H. apply (paths_kept (fun _ => False) d d' W W' ltac:(tauto)); auto. intros r' y' m' _ H'. apply at_lookup in H'; auto. rewrite E. exact H'. }
  assert (forall r y n, at_path d' r y n -> at_path d r y n) as Bw.
  { intros r y n H. apply (paths_kept (fun _ => False) d' d W' W ltac:(tauto)); auto. intros r' y' m' _ H'. apply at_lookup in H'; auto. rewrite <- E. exact H'. }
  destruct F as [_ [F2 [_ [F4 [F5 _]]]]]. split.
  - intros r y n _ H. eauto.
  - intros r y n _ H. eauto.
  - intros r y n _ H _. eauto.
  - intros c [m [Lc Kc]]. rewrite E in Lc. exists m. auto.
  - intros r y n H Kn. eauto.
  - intros a b H _ _. rewrite F2. exact H.
  - intros c H _. auto.
  - intros c r m H _ _. auto.
Qed.
