(** A whole run. *)
From Verif Require Import Base ConfigModel ParseModel PathModel DbModel DbSpec DbProofs DbProofs3 ScanModel ScanSpec ScanProofs ScanProofs2 ScanProofs3 ScanProofs8 CleanModel CleanSpec CleanProofs CleanProofs2 CleanProofs3.
Require Import Lia.

Section Run.
Variables (excl : nat) (rmdir : nat -> bool) (rounds : nat) (tups : list tupfile) (d d' : db) (gone : list path).
Hypothesis W0 : base d.
Hypothesis PO : parse_ok d tups.
Hypothesis Run : process_create excl rmdir rounds tups d = Ok (d', gone).

Definition removed_dir (x : nat) : Prop := In x (create d) /\ exists m, lookup d x = Some m /\ kind m = TGhost.
Lemma run_inv : exists s u, inv d removed_dir (parsed tups) (outs_of tups) (keeps tups) s /\
  left_db s (fun y => In y (gen_del s) \/ In y (cmd_del s)) (saved s) (cs_db u) /\ (forall r, In r gone <-> exists y n, In y (gen_del s) /\ at_path d r y n) /\ swept (cs_db u) d' /\
  (forall y, In y (gen_del s) -> ~ In y (saved s)).
Proof.
  unfold process_create in Run. destruct (each orphans _ _) as [s0| | |] eqn:E0; try discriminate. cbn [obind] in Run. destruct (each parse tups s0) as [s| | |] eqn:E1; try discriminate. cbn [obind] in Run.
  destruct (delete_files s) as [u| | |] eqn:E2; try discriminate. cbn [obind] in Run. destruct (reclaim excl rmdir rounds (cs_db u) (cs_queue u) []) as [e| | |] eqn:E3; try discriminate. cbn [obind] in Run. injection Run as -> <-.
  apply (inv_orphans d W0) in E0. apply (inv_parses d removed_dir tups s0 s PO) in E1; [|intros z [_ Z]; exact Z|exact E0]. exists s, u.
  assert (forall y, In y (gen_del s) -> ~ In y (saved s)) as Ap.
  { intros y G S. apply (i_gen _ _ _ _ _ _ E1) in G as [n [sd [L [_ [_ [Sn [_ Q]]]]]]]. apply (i_saved _ _ _ _ _ _ E1) in S as [n' [sd' [L' [_ [_ [Sn' [_ [Ps M]]]]]]]].
    assert (sd' = sd) as -> by congruence. destruct Q as [[_ Q]|[[_ [m [Lm Km]]] _]]; [contradiction|]. destruct Ps as [t [It <-]]. destruct (po_dir _ _ PO t It) as [k [Lk Kk]]. congruence. }
  assert (left_db s (fun y => In y (gen_del s) \/ In y (cmd_del s)) (saved s) (cs_db u) /\ (forall r, In r (unlinked u) <-> exists y n, In y (gen_del s) /\ at_path d r y n)) as [Lf Un].
  { apply (delete_files_spec d W0 s (i_base _ _ _ _ _ _ E1)); auto.
    - intros y n L. destruct (i_has _ _ _ _ _ _ E1 y n L) as [n' [L' [D [N _]]]]. exists n'. auto.
    - intros y Y. apply (i_gen _ _ _ _ _ _ E1) in Y as [n [sd [L [K [_ [_ [N _]]]]]]]. exists n. split; [exact L|]. split; [apply (i_keep _ _ _ _ _ _ E1); auto|exact K].
    - intros y Y. apply (i_saved _ _ _ _ _ _ E1) in Y as [n [sd [L [K [_ [_ [N _]]]]]]]. exists n. split; [apply (i_keep _ _ _ _ _ _ E1); auto|exact K].
    - intros y Y. apply (i_cmd _ _ _ _ _ _ E1) in Y as [n [L [K _]]]. exists n. split; [|exact K]. destruct (i_has _ _ _ _ _ _ E1 y n L) as [n' [L' [_ [_ [->|[_ [A|A]]]]]]]; [exact L'|congruence|congruence].
    - apply (i_nodup _ _ _ _ _ _ E1).
    - apply (i_unlinked _ _ _ _ _ _ E1). }
  split; [exact E1|]. split; [exact Lf|]. split; [intros r; rewrite <- in_rev; apply Un|]. split; [|exact Ap]. eapply reclaim_swept; [apply Lf|exact E3].
Qed.

Lemma dec_declared n : dec (outs_of tups) n <-> declared tups (dir n) (nname n).
Proof. unfold dec, outs_of, declared. split; [intros [x [t [A [_ B]]]]; exists t; auto|intros [t [A B]]; exists (tf_dir t), t; auto]. Qed.

(** Paths before and after. *)
Lemma path_after s u r y n n' : inv d removed_dir (parsed tups) (outs_of tups) (keeps tups) s -> left_db s (fun y => In y (gen_del s) \/ In y (cmd_del s)) (saved s) (cs_db u) -> swept (cs_db u) d' ->
  at_path d r y n -> lookup (cs_db u) y = Some n' -> ghostly (kind n') = false -> at_path d' r y n'.
Proof.
  intros I L S A Ly G. eapply swept_path; [apply L|exact S| |exact G]. apply (at_sited d (cs_db u) W0 (l_base _ _ _ _ L)) with n; auto.
  intros z a b La Lb. destruct (l_sited _ _ _ _ L z b Lb) as [m [Lm [D N]]]. destruct (i_has _ _ _ _ _ _ I z a La) as [a' [La' [D' [N' _]]]]. rewrite Lm in La'. injection La' as ->. split; congruence.
Qed.

Lemma only_stale r : In r gone -> exists y n sd, made d r y n sd /\ ~ declared tups (dir n) (nname n) /\ (parsed tups sd /\ ~ In y (modify d) \/ orphan d n sd).
Proof.
  intros H. destruct run_inv as [s [u [I [L [Un [Sw Ap]]]]]]. destruct (proj1 (Un r) H) as [y [n [G A]]]. apply (i_gen _ _ _ _ _ _ I) in G as [n' [sd [L' [K [Gi [S [N Q]]]]]]].
  rewrite (at_lookup _ _ _ _ W0 A) in L'. injection L' as <-. exists y, n, sd. split; [repeat split; auto|]. rewrite <- dec_declared. split; [exact N|]. destruct Q as [Q|[[Q1 Q2] Q3]]; [auto|right; repeat split; auto].
Qed.

Lemma edited_kept r y n sd : made d r y n sd -> parsed tups sd -> ~ declared tups (dir n) (nname n) -> In y (modify d) -> ~ In r gone /\ exists n', at_path d' r y n' /\ kind n' = TFile /\ time n' = time n.
Proof.
  intros [A [K [S G]]] P N M. destruct run_inv as [s [u [I [L [Un [Sw Ap]]]]]]. pose proof (at_lookup _ _ _ _ W0 A) as Ly. rewrite <- dec_declared in N.
  assert (In y (saved s)) as Sv by (apply (i_saved _ _ _ _ _ _ I); exists n, sd; auto 10). split.
  - rewrite Un. intros [y' [n' [G' A']]]. destruct (at_fun d r W0 _ _ _ _ A A') as [E _]. apply (Ap y' G'). rewrite <- E. exact Sv.
  - destruct (l_saved _ _ _ _ L y Sv) as [m [Lm Lu]]. exists (set_kind TFile m). split; [eapply path_after; eauto|]. rewrite (i_keep _ _ _ _ _ _ I y n Ly N) in Lm. injection Lm as <-. auto.
Qed.

Lemma path_back s u r y n : inv d removed_dir (parsed tups) (outs_of tups) (keeps tups) s -> left_db s (fun y => In y (gen_del s) \/ In y (cmd_del s)) (saved s) (cs_db u) -> swept (cs_db u) d' ->
  at_path d' r y n -> exists m, at_path (cs_db s) r y m /\ exists k, lookup (cs_db u) y = Some k /\ (n = k \/ kind n = TGhost).
Proof.
  intros I L S A. pose proof (shrunk_base _ _ (l_base _ _ _ _ L) (sw_shrunk _ _ S)) as W'. pose proof (at_lookup _ _ _ _ W' A) as Ly.
  assert (forall z a b, lookup d' z = Some a -> lookup (cs_db s) z = Some b -> dir b = dir a /\ nname b = nname a) as St.
  { intros z a b La Lb. destruct (sh_from _ _ (sw_shrunk _ _ S) z a La) as [k [Lk [D [N _]]]]. destruct (l_sited _ _ _ _ L z k Lk) as [m [Lm [D' N']]]. rewrite Lb in Lm. injection Lm as <-. split; congruence. }
  destruct (sh_from _ _ (sw_shrunk _ _ S) y n Ly) as [k [Lk [_ [_ [_ Q]]]]]. destruct (l_sited _ _ _ _ L y k Lk) as [m [Lm _]]. exists m. split; [apply (at_sited d' (cs_db s) W' (i_base _ _ _ _ _ _ I) St r y n m A Lm)|]. exists k. split; [exact Lk|]. destruct Q as [Q|[Q _]]; auto.
Qed.
Lemma path_mid s r y n : inv d removed_dir (parsed tups) (outs_of tups) (keeps tups) s -> at_path d r y n -> exists m, at_path (cs_db s) r y m.
Proof.
  intros I A. destruct (i_has _ _ _ _ _ _ I y n (at_lookup _ _ _ _ W0 A)) as [m [Lm _]]. exists m. apply (at_sited d (cs_db s) W0 (i_base _ _ _ _ _ _ I)) with n; auto.
  intros z a b La Lb. destruct (i_has _ _ _ _ _ _ I z a La) as [a' [La' [D' [N' _]]]]. rewrite Lb in La'. injection La' as <-. auto.
Qed.

Lemma stale_removed r y n sd : made d r y n sd -> ~ declared tups (dir n) (nname n) -> parsed tups sd /\ ~ In y (modify d) \/ orphan d n sd -> In r gone /\ forall y' n', at_path d' r y' n' -> kind n' = TGhost.
Proof.
  intros [A [K [S G]]] N Q. destruct run_inv as [s [u [I [L [Un [Sw Ap]]]]]]. pose proof (at_lookup _ _ _ _ W0 A) as Ly. rewrite <- dec_declared in N.
  assert (In y (gen_del s)) as Gy. { apply (i_gen _ _ _ _ _ _ I). exists n, sd. repeat (split; [assumption|]). destruct Q as [Q|[Q1 [Q2 Q3]]]; [auto|right; split; [split; auto|exact Q3]]. }
  split; [apply Un; exists y, n; auto|]. intros y' n' A'. destruct (path_back s u r y' n' I L Sw A') as [m' [Am' [k [Lk Q']]]]. destruct (path_mid s r y n I A) as [m Am].
  destruct (at_fun _ r (i_base _ _ _ _ _ _ I) _ _ _ _ Am Am') as [<- _]. destruct Q' as [->|Q']; [|exact Q']. apply (l_gone _ _ _ _ L y k); auto.
Qed.

Lemma declared_kept P dt p nm : at_path d P dt p -> declared tups dt nm -> ~ In (nm :: P) gone /\
  exists y n t, at_path d' (nm :: P) y n /\ kind n = TGenerated /\ src n = Some (tf_dir t) /\ In t tups /\ In (dt, nm) (tf_outs t).
Proof.
  intros A [t0 [It Io]]. destruct run_inv as [s [u [I [L [Un [Sw Ap]]]]]]. split.
  - intros H. destruct (only_stale _ H) as [y [n [sd [[Am _] [N _]]]]]. apply at_cons in Am as [x [q [A2 [Ly [D [Nm _]]]]]]; auto. destruct (at_fun d P W0 _ _ _ _ A A2) as [<- _]. apply N. rewrite D, Nm. exists t0. auto.
  - destruct (i_decl _ _ _ _ _ _ I (tf_dir t0) dt nm) as [y [n [Ly [Dy Ny]]]]; [exists t0; auto|].
    assert (kind n = TGenerated /\ exists x, src n = Some x /\ outs_of tups x (dir n, nname n)) as [K [x [Sx [t [T1 [T2 T3]]]]]].
    { destruct (i_from _ _ _ _ _ _ I y n Ly) as [[_ B]|B]; [|exact B]. exfalso. apply B. exists (tf_dir t0), t0. rewrite Dy, Ny. auto. }
    assert (~ (In y (gen_del s) \/ In y (cmd_del s)) /\ ~ In y (saved s)) as [Nx Ns].
    { assert (forall m, lookup d y = Some m -> kind m = TGenerated -> ~ dec (outs_of tups) m -> False) as Z.
      { intros m Lm _ Nd. rewrite (i_keep _ _ _ _ _ _ I y m Lm Nd) in Ly. injection Ly as ->. apply Nd. exists (tf_dir t0), t0. rewrite Dy, Ny. auto. }
      split; [intros [B|B]|intros B].
      - apply (i_gen _ _ _ _ _ _ I) in B as [m [sd [Lm [Km [_ [_ [Nd _]]]]]]]. eauto.
      - apply (i_cmd _ _ _ _ _ _ I) in B as [m [Lm [Km _]]]. destruct (i_has _ _ _ _ _ _ I y m Lm) as [m' [L' [_ [_ [->|[_ [B|B]]]]]]]; congruence.
      - apply (i_saved _ _ _ _ _ _ I) in B as [m [sd [Lm [Km [_ [_ [Nd _]]]]]]]. eauto. }
    assert (lookup (cs_db u) y = Some n) as Lu by (destruct (l_other _ _ _ _ L y Nx Ns) as [E|[m [Lm [Km _]]]]; congruence).
    exists y, n, t. split; [|rewrite <- Dy, <- Ny; subst x; auto 10]. eapply swept_path; [apply L|exact Sw| |rewrite K; reflexivity].
    destruct (path_mid s P dt p I A) as [p1 A1]. assert (at_path (cs_db s) (nm :: P) y n) as A2 by (eapply at_in; eauto).
    apply (at_sited (cs_db s) (cs_db u) (i_base _ _ _ _ _ _ I) (l_base _ _ _ _ L)) with n; auto. intros z a b La Lb. destruct (l_sited _ _ _ _ L z b Lb) as [m [Lm E]]. rewrite La in Lm. injection Lm as <-. exact E.
Qed.

Lemma other_kept r y n : at_path d r y n -> kind n <> TGenerated -> kind n <> TCmd -> ghostly (kind n) = false -> ~ In r gone /\ at_path d' r y n.
Proof.
  intros A K1 K2 G. pose proof (at_lookup _ _ _ _ W0 A) as Ly. split.
  - intros H. destruct (only_stale _ H) as [y' [n' [sd [[A' [K' _]] _]]]]. destruct (at_fun d r W0 _ _ _ _ A A') as [_ ->]. contradiction.
  - destruct run_inv as [s [u [I [L [Un [Sw Ap]]]]]]. eapply path_after; eauto. destruct (i_has _ _ _ _ _ _ I y n Ly) as [m [Lm [_ [_ [->|[_ [Q|Q]]]]]]]; [|rewrite Q in G; discriminate|contradiction].
    destruct (l_other _ _ _ _ L y) as [E|[m [Lm' [Km _]]]]; [| |congruence|rewrite Lm in Lm'; injection Lm' as <-; rewrite Km in G; discriminate].
    + intros [B|B]; [apply (i_gen _ _ _ _ _ _ I) in B as [m [sd [Lm' [Km _]]]]|apply (i_cmd _ _ _ _ _ _ I) in B as [m [Lm' [Km _]]]]; congruence.
    + intros B. apply (i_saved _ _ _ _ _ _ I) in B as [m [sd [Lm' [Km _]]]]. congruence.
Qed.
Lemma unparsed_kept r y n sd : made d r y n sd -> ~ declared tups (dir n) (nname n) -> ~ parsed tups sd -> ~ orphan d n sd -> ~ In r gone /\ at_path d' r y n.
Proof.
  intros [A [K [S G]]] N NP NO. pose proof (at_lookup _ _ _ _ W0 A) as Ly. split.
  - intros H. destruct (only_stale _ H) as [y' [n' [sd' [[A' [K' [S' _]]] [_ Q]]]]]. destruct (at_fun d r W0 _ _ _ _ A A') as [_ <-]. assert (sd' = sd) as -> by congruence. tauto.
  - destruct run_inv as [s [u [I [L [Un [Sw Ap]]]]]]. rewrite <- dec_declared in N. pose proof (i_keep _ _ _ _ _ _ I y n Ly N) as Ls. eapply path_after; eauto; [|rewrite K; reflexivity].
    destruct (l_other _ _ _ _ L y) as [E|[m [Lm' [Km _]]]]; [| |congruence|congruence].
    + intros [B|B]; [apply (i_gen _ _ _ _ _ _ I) in B as [m [sd' [Lm' [Km [_ [Sm [_ Q]]]]]]]|apply (i_cmd _ _ _ _ _ _ I) in B as [m [Lm' [Km _]]]]; [|congruence].
      assert (sd' = sd /\ m = n) as [-> ->] by (split; congruence). destruct Q as [[Q _]|[[Q1 Q2] Q3]]; [auto|]. apply NO. repeat split; auto.
    + intros B. apply (i_saved _ _ _ _ _ _ I) in B as [m [sd' [Lm' [Km [_ [Sm [_ [Q _]]]]]]]]. assert (sd' = sd) as -> by congruence. auto.
Qed.

Lemma commands_left c n : lookup d c = Some n -> kind n = TCmd -> (is_kind d' TCmd c <-> ~ (parsed tups (dir n) /\ ~ exists t, In t tups /\ In c (tf_keep t))).
Proof.
  intros Lc K. destruct run_inv as [s [u [I [L [Un [Sw Ap]]]]]]. assert (lookup (cs_db s) c = Some n) as Ls by (destruct (i_has _ _ _ _ _ _ I c n Lc) as [m [Lm [_ [_ [->|[_ [Q|Q]]]]]]]; congruence).
  split.
  - intros [m [Lm Km]] Q. destruct (sh_from _ _ (sw_shrunk _ _ Sw) c m Lm) as [k [Lk [_ [_ [_ [->|[B _]]]]]]]; [|congruence].
    assert (kind k = TGhost); [|congruence]. apply (l_gone _ _ _ _ L c k); [|exact Lk]. right. apply (i_cmd _ _ _ _ _ _ I). exists n. unfold keeps. tauto.
  - intros Q. exists n. split; [|exact K]. apply (sw_keep _ _ Sw); [|rewrite K; reflexivity]. destruct (l_other _ _ _ _ L c) as [E|[m [Lm' [Km _]]]]; [| |congruence|congruence].
    + intros [B|B]; [apply (i_gen _ _ _ _ _ _ I) in B as [m [sd' [Lm' [Km _]]]]; congruence|]. apply (i_cmd _ _ _ _ _ _ I) in B as [m [Lm' [Km B]]]. rewrite Lc in Lm'. injection Lm' as <-. unfold keeps in B. tauto.
    + intros B. apply (i_saved _ _ _ _ _ _ I) in B as [m [sd' [Lm' [Km _]]]]. congruence.
Qed.

Lemma users_flagged r y n sd c : made d r y n sd -> nname n <> B "tup.config" -> ~ declared tups (dir n) (nname n) -> parsed tups sd \/ orphan d n sd -> In (y, c) (normal d) -> is_kind d TCmd c -> is_kind d' TCmd c -> In c (modify d').
Proof.
  intros [A [K [S G]]] Nm N Q Li [nc [Lc Kc]] Kd. pose proof (at_lookup _ _ _ _ W0 A) as Ly. destruct run_inv as [s [u [I [L [Un [Sw Ap]]]]]].
  assert (lookup (cs_db s) c = Some nc) as Ls by (destruct (i_has _ _ _ _ _ _ I c nc Lc) as [m [Lm [_ [_ [->|[_ [B|B]]]]]]]; congruence).
  rewrite <- dec_declared in N. pose proof (i_keep _ _ _ _ _ _ I y n Ly N) as Lys.
  assert (In (y, c) (normal (cs_db s))) as Lis by (apply (i_links _ _ _ _ _ _ I y c n nc); auto; congruence). assert (is_kind (cs_db s) TCmd c) as Ks by (exists nc; auto).
  assert (~ (In c (gen_del s) \/ In c (cmd_del s))) as Nx.
  { intros [B|B]; [apply (i_gen _ _ _ _ _ _ I) in B as [m [sd' [Lm' [Km _]]]]; congruence|]. destruct Kd as [m [Lm Km]]. destruct (sh_from _ _ (sw_shrunk _ _ Sw) c m Lm) as [k [Lk [_ [_ [_ [->|[B' _]]]]]]]; [|congruence].
    assert (kind k = TGhost); [|congruence]. apply (l_gone _ _ _ _ L c k); auto. }
  assert (~ In c (saved s)) as Ns by (intros B; apply (i_saved _ _ _ _ _ _ I) in B as [m [sd' [Lm' [Km _]]]]; congruence).
  apply (sw_modify _ _ Sw c nc); [|destruct (l_other _ _ _ _ L c Nx Ns) as [E|[m [Lm [Km _]]]]; congruence|rewrite Kc; reflexivity].
  assert (In y (gen_del s) \/ In y (saved s)) as [B|B].
  { destruct (mem y (modify d)) eqn:M; [apply mem_in in M|apply mem_out in M].
    - destruct Q as [Q|[Q1 [Q2 Q3]]]; [right; apply (i_saved _ _ _ _ _ _ I); exists n, sd; auto 10|left; apply (i_gen _ _ _ _ _ _ I); exists n, sd; unfold removed_dir; auto 10].
    - left. apply (i_gen _ _ _ _ _ _ I). exists n, sd. unfold removed_dir. destruct Q as [Q|[Q1 [Q2 Q3]]]; auto 10. }
  - apply (l_flag _ _ _ _ L y c n); auto.
  - apply (l_used _ _ _ _ L y c); auto.
Qed.
End Run.
