(** Files of the user keep their directories; the whole phase. *)
From Verif Require Import Base ConfigModel ParseModel PathModel DbModel DbSpec DbProofs DbProofs3 ScanModel ScanSpec ScanProofs ScanProofs2 ScanProofs3 ScanProofs8 CleanModel CleanSpec CleanProofs CleanProofs2 CleanProofs3 ConvModel ConvSpec ConvProofs ConvProofs2.
Require Import Lia.

Lemma holds_free d parsed x : holds d x -> ~ taken d parsed x.
Proof.
  induction 1 as [x y m Y K|x y m Y K H IH]; intros [_ F D _]; [exact (F y m Y K)|exact (IH (D y m Y K))].
Qed.

(** Rules do not make .gitignore files and make nothing among the environment variables. *)
Definition plain_outputs (d : db) (tups : list tupfile) : Prop :=
  forall t dt nm, In t tups -> In (dt, nm) (tf_outs t) -> nm <> B ".gitignore" /\ forall n, lookup d dt = Some n -> dir n = top -> nname n <> B "$".

Section Run.
Variables (own : nat -> bool) (excl : nat) (rmdir : nat -> bool) (rounds : nat) (tups : list tupfile) (d d' : db) (gone : list path).
Hypothesis S0 : sound d.
Hypothesis PO : parse_ok d tups.
Hypothesis Pl : in_place d.
Hypothesis Env : has_environment d.
Hypothesis PP : plain_outputs d tups.
Hypothesis Run : create_phase own excl rmdir rounds tups d = Ok (d', gone).

Let removed (x : nat) : Prop := In x (create d) /\ exists m, lookup d x = Some m /\ kind m = TGhost.

Lemma phase : exists s K c u, inv d removed (CleanSpec.parsed tups) (outs_of tups) (keeps tups) s /\
  Inv own (cs_db s) (map tf_dir tups) {| cv_db := cs_db s; cv_queue := cs_queue s; cv_del := gen_del s; cv_save := saved s; cv_git := [] |} K [] c /\
  (forall x, In x K <-> taken (cs_db s) (map tf_dir tups) x) /\ (forall x, In x K -> x <> top /\ forall n, lookup (cs_db s) x = Some n -> is_dir (kind n) = true) /\
  (forall y, In y (cv_del c) -> exists n, lookup d y = Some n /\ kind n = TGenerated) /\ (forall y, In y (cv_save c) -> exists n, lookup d y = Some n /\ kind n = TGenerated) /\
  (forall r, In r gone <-> exists y n, In y (cv_del c) /\ at_path d r y n) /\
  (forall z, ~ In z (cv_del c) -> ~ In z (cmd_del s) -> ~ In z (cv_save c) ->
     lookup (cs_db u) z = lookup (cv_db c) z \/ exists n, lookup (cv_db c) z = Some n /\ kind n = TGeneratedDir /\ lookup (cs_db u) z = Some (set_kind TDir n)) /\
  base (cs_db u) /\ swept (cs_db u) d'.
Proof.
  destruct (proj1 (sound_base d) S0) as [W0 H0].
  unfold create_phase in Run. destruct (each orphans _ _) as [s1| | |] eqn:E0; try discriminate. cbn [obind] in Run. destruct (each parse tups s1) as [s| | |] eqn:E1; try discriminate. cbn [obind] in Run.
  apply (inv_orphans d W0) in E0. apply (inv_parses d removed tups s1 s PO) in E1; [|intros z [_ Z]; exact Z|exact E0].
  set (e := cs_db s) in *. set (c0 := {| cv_db := e; cv_queue := cs_queue s; cv_del := gen_del s; cv_save := saved s; cv_git := [] |}) in *.
  pose proof (i_base _ _ _ _ _ _ E1) as We.
  assert (forall y n, lookup d y = Some n -> kind n <> TGhost -> kind n <> TGenerated -> lookup e y = Some n) as Keep.
  { intros y n L A C. destruct (i_has _ _ _ _ _ _ E1 y n L) as [n' [L' [_ [_ [->|[_ [Z|Z]]]]]]]; [exact L'|contradiction|contradiction]. }
  assert (forall y n, lookup e y = Some n -> lookup d y = Some n \/ kind n = TGenerated /\ exists t, In t tups /\ In (dir n, nname n) (tf_outs t)) as From.
  { intros y n L. destruct (i_from _ _ _ _ _ _ E1 y n L) as [[A _]|[A [x [_ [t [T1 [T2 T3]]]]]]]; [left; exact A|right]. split; [exact A|]. exists t. auto. }
  assert (home e) as He.
  { intros x n L R T. assert (forall m, lookup d (dir n) = Some m -> is_dir (kind m) = true -> exists m, lookup e (dir n) = Some m /\ is_dir (kind m) = true) as Go.
    { intros m Lm Km. exists m. split; [apply Keep; [exact Lm| |]; intros Z; rewrite Z in Km; discriminate|exact Km]. }
    destruct (From x n L) as [A|[A [t [T1 T2]]]].
    - destruct (H0 x n A R T) as [m [Lm Km]]. exact (Go m Lm Km).
    - destruct (po_outs _ _ PO t _ _ T1 T2) as [m [Lm Km]]. exact (Go m Lm Km). }
  assert (in_place e) as Pe.
  { intros x n L Kd. destruct (From x n L) as [A|[A _]]; [exact (Pl x n A Kd)|]. rewrite A in Kd. discriminate. }
  assert (has_environment e) as Ee.
  { destruct Env as [v [n [[L D] [N [Kv V]]]]]. exists v, n. assert (lookup e v = Some n) as Le by (apply Keep; [exact L|congruence|congruence]). split; [split; assumption|]. split; [exact N|]. split; [exact Kv|].
    intros y m [Ly Dy]. destruct (From y m Ly) as [A|[A [t [T1 T2]]]]; [apply (V y m); split; assumption|]. exfalso. destruct (PP t _ _ T1 T2) as [_ Z]. rewrite Dy in Z. exact (Z n L D N). }
  assert (forall x, In x (map tf_dir tups) -> exists n, lookup e x = Some n /\ kind n = TDir) as Pde.
  { intros x X. apply in_map_iff in X as [t [<- T]]. destruct (po_dir _ _ PO t T) as [n [L Kn]]. exists n. split; [apply Keep; congruence|exact Kn]. }
  destruct (convert_ok own e (map tf_dir tups) c0 We He Pe Ee Pde eq_refl) as [K [c [Rc [Ic KT]]]]. rewrite Rc in Run. cbn [obind] in Run.
  set (s2 := with_roots (with_db s (cv_db c, cv_queue c)) (cv_del c) (cv_save c) (cmd_del s)) in *.
  destruct (delete_files s2) as [u| | |] eqn:E2; try discriminate. cbn [obind] in Run. destruct (reclaim excl rmdir rounds (cs_db u) (cs_queue u) []) as [f| | |] eqn:E3; try discriminate. cbn [obind] in Run. injection Run as -> <-.
  pose proof (inv_base own e (map tf_dir tups) c0 We He Ee Pde _ _ _ Ic) as Wc.
  assert (forall y, gitf e K y -> exists n, lookup d y = Some n /\ lookup e y = Some n /\ kind n = TGenerated /\ nname n = B ".gitignore") as Gf.
  { intros y [n [L [Kn [Nn _]]]]. exists n. destruct (From y n L) as [A|[_ [t [T1 T2]]]]; [auto|]. exfalso. apply (proj1 (PP t _ _ T1 T2)). exact Nn. }
  assert (forall y n, lookup e y = Some n -> kind n = TGenerated -> ~ (gitf e K y /\ own y = true) -> lookup (cv_db c) y = Some n) as Nc.
  { intros y n L Kn No. rewrite (ConvProofs.i_nodes _ _ _ _ _ _ _ Ic), L. cbn. f_equal. unfold ConvProofs.now. destruct (mem y K) eqn:M.
    - exfalso. apply mem_in in M. pose proof (taken_is_dir e (map tf_dir tups) We He Pde y (ConvProofs.i_K _ _ _ _ _ _ _ Ic y M) n L) as Z. rewrite Kn in Z. discriminate.
    - destruct (isgit K n && own y) eqn:G; [|reflexivity]. exfalso. apply No. apply andb_true_iff in G as [G1 G2]. split; [|exact G2]. exists n. split; [exact L|]. apply isgit_ok. exact G1. }
  assert (forall y, In y (gen_del s) -> exists n, lookup d y = Some n /\ lookup e y = Some n /\ kind n = TGenerated) as Gd.
  { intros y Y. apply (i_gen _ _ _ _ _ _ E1) in Y as [n [sd [L [Kn [_ [_ [Nd _]]]]]]]. exists n. split; [exact L|]. split; [apply (CleanProofs2.i_keep _ _ _ _ _ _ E1); auto|exact Kn]. }
  assert (forall y, In y (saved s) -> exists n, lookup d y = Some n /\ lookup e y = Some n /\ kind n = TGenerated /\ nname n <> B ".gitignore") as Sd.
  { intros y Y. apply (i_saved _ _ _ _ _ _ E1) in Y as [n [sd [L [Kn [Nn [_ [Nd _]]]]]]]. exists n. split; [exact L|]. split; [apply (CleanProofs2.i_keep _ _ _ _ _ _ E1); auto|auto]. }
  assert (forall y, In y (cv_del c) -> exists n, lookup d y = Some n /\ lookup (cv_db c) y = Some n /\ kind n = TGenerated) as Gc.
  { intros y Y. apply (ConvProofs.i_del _ _ _ _ _ _ _ Ic) in Y as [Y No]. assert (exists n, lookup d y = Some n /\ lookup e y = Some n /\ kind n = TGenerated) as [n [L [Le Kn]]].
    { destruct Y as [Y|Y]; [exact (Gd y Y)|]. destruct (Gf y Y) as [n [L [Le [Kn _]]]]. eauto. }
    exists n. split; [exact L|]. split; [apply Nc; assumption|exact Kn]. }
  assert (forall y, In y (cv_save c) -> exists n, lookup d y = Some n /\ lookup (cv_db c) y = Some n /\ kind n = TGenerated) as Sc.
  { intros y Y. apply (ConvProofs.i_save _ _ _ _ _ _ _ Ic) in Y as [Y No]. destruct (Sd y Y) as [n [L [Le [Kn _]]]]. exists n. split; [exact L|]. split; [apply Nc; assumption|exact Kn]. }
  assert (forall y, In y (gen_del s) -> ~ In y (saved s)) as Ap.
  { intros y G S. apply (i_gen _ _ _ _ _ _ E1) in G as [n [sd [L [_ [_ [Sn [_ Q]]]]]]]. apply (i_saved _ _ _ _ _ _ E1) in S as [n' [sd' [L' [_ [_ [Sn' [_ [Ps M]]]]]]]].
    assert (sd' = sd) as -> by congruence. destruct Q as [[_ Q]|[[_ [m [Lm Km]]] _]]; [contradiction|]. destruct Ps as [t [It <-]]. destruct (po_dir _ _ PO t It) as [k [Lk Kk]]. congruence. }
  assert (forall y, In y (cv_del c) -> ~ In y (cv_save c)) as Apc.
  { intros y Y Z. apply (ConvProofs.i_save _ _ _ _ _ _ _ Ic) in Z as [Z _]. apply (ConvProofs.i_del _ _ _ _ _ _ _ Ic) in Y as [[Y|Y] _]; [exact (Ap y Y Z)|]. destruct (Gf y Y) as [n [L [_ [_ Nn]]]]. destruct (Sd y Z) as [n' [L' [_ [_ Nn']]]]. congruence. }
  assert (NoDup (cv_del c) /\ NoDup (cv_save c)) as Nd.
  { destruct (i_nodup _ _ _ _ _ _ E1) as [N1 [N2 _]]. clear - Rc N1 N2. assert (forall fuel l s s', convert own fuel l s = Ok s' -> NoDup (cv_del s) /\ NoDup (cv_save s) -> NoDup (cv_del s') /\ NoDup (cv_save s')) as Go.
    { induction fuel as [|fuel IH]; intros l c1 c2 R N; destruct l as [|x l]; cbn [convert] in R; try discriminate; try (injection R as <-; exact N).
      destruct (convert_one own x c1) as [[c3 up]| | |] eqn:Q; try discriminate. cbn [obind] in R. apply (IH _ _ _ R). clear - Q N. unfold convert_one in Q. destruct (lookup (cv_db c1) x) as [n|]; [|discriminate]. destruct (is_generated_dir (cv_db c1) x); [|injection Q as <- _; exact N].
      destruct (normal_dir_to_generated x (cv_db c1) (cv_queue c1)) as [[d2 q2]|]; [|discriminate]. destruct (lookup (cv_db c1) (dir n)); [|discriminate]. injection Q as <- _. destruct (child d2 x _) as [g|]; [|exact N]. destruct (has_kind d2 [TGenerated] g); [|exact N].
      assert (NoDup (add_once g (cv_del c1))) as Na. { unfold add_once. destruct (mem g (cv_del c1)) eqn:M; [apply N|]. constructor; [apply mem_out; exact M|apply N]. }
      unfold remove_tup_gitignore. destruct (own g); cbn [cv_del cv_save]; [|split; [exact Na|apply N]]. split; apply NoDup_filter; [exact Na|apply N]. }
    apply (Go _ _ _ _ Rc). auto. }
  assert (forall y, In y (cmd_del s) -> exists n, lookup (cv_db c) y = Some n /\ kind n = TCmd) as Cc.
  { intros y Y. apply (CleanProofs2.i_cmd _ _ _ _ _ _ E1) in Y as [n [L [Kn _]]]. exists n. split; [|exact Kn]. assert (lookup e y = Some n) as Le by (apply Keep; congruence). rewrite (ConvProofs.i_nodes _ _ _ _ _ _ _ Ic), Le. cbn. f_equal. unfold ConvProofs.now. destruct (mem y K) eqn:M.
    - exfalso. apply mem_in in M. pose proof (taken_is_dir e (map tf_dir tups) We He Pde y (ConvProofs.i_K _ _ _ _ _ _ _ Ic y M) n Le) as Z. rewrite Kn in Z. discriminate.
    - unfold isgit. rewrite Kn. reflexivity. }
  assert (forall y n, lookup d y = Some n -> exists n', lookup (cv_db c) y = Some n' /\ dir n' = dir n /\ nname n' = nname n) as Same.
  { intros y n L. destruct (i_has _ _ _ _ _ _ E1 y n L) as [n' [L' [D [N _]]]]. exists (ConvProofs.now own K y n'). rewrite (ConvProofs.i_nodes _ _ _ _ _ _ _ Ic). unfold e. rewrite L'. cbn. split; [reflexivity|]. rewrite now_dir, now_name. auto. }
  destruct (delete_files_spec d W0 s2 Wc Same Gc (fun y Y => let (n, H) := Sc y Y in ex_intro _ n (conj (proj1 (proj2 H)) (proj2 (proj2 H)))) Cc Apc (conj (proj1 Nd) (conj (proj2 Nd) (proj2 (proj2 (i_nodup _ _ _ _ _ _ E1))))) (i_unlinked _ _ _ _ _ _ E1) u E2) as [Lf Un].
  exists s, K, c, u. split; [exact E1|]. split; [exact Ic|]. split; [exact KT|]. split; [intros x X; apply KT in X; split; [intros ->; exact (taken_not_top e (map tf_dir tups) We He Ee Pde X)|exact (taken_is_dir e (map tf_dir tups) We He Pde x X)]|]. split; [intros y Y; destruct (Gc y Y) as [n [A [_ C]]]; eauto|]. split; [intros y Y; destruct (Sc y Y) as [n [A [_ C]]]; eauto|].
  split; [intros r; rewrite <- in_rev; apply Un|]. split.
  - intros z A C D. apply (l_other _ _ _ _ Lf z); [intros [Z|Z]; [exact (A Z)|exact (C Z)]|exact D].
  - split; [apply Lf|]. eapply reclaim_swept; [apply Lf|exact E3].
Qed.

(** A file of the user stays, and so does a directory that is not taken over. *)
Lemma users_kept x n : lookup d x = Some n -> kind n = TFile \/ kind n = TDir /\ (holds d x \/ x = top) -> lookup d' x = Some n.
Proof.
  intros L C. destruct phase as [s [K [c [u [I [Ic [KT [KD [Gc [Sc [_ [Lo [_ Sw]]]]]]]]]]]]]. destruct (proj1 (sound_base d) S0) as [W0 H0].
  assert (kind n = TFile \/ kind n = TDir) as Kn by tauto.
  assert (forall y m, lookup d y = Some m -> kind m = TFile \/ kind m = TDir -> lookup (cs_db s) y = Some m) as Keep.
  { intros y m Ly Km. destruct (i_has _ _ _ _ _ _ I y m Ly) as [n' [L' [_ [_ [->|[_ [Z|Z]]]]]]]; [exact L'| |]; destruct Km; congruence. }
  pose proof (Keep x n L Kn) as Le.
  assert (~ In x K) as Nk.
  { intros X. destruct (KD x X) as [X1 X2]. destruct C as [C|[C [H|H]]].
    - specialize (X2 n Le). rewrite C in X2. discriminate.
    - apply KT in X. revert X. apply holds_free. clear - H Keep. induction H as [x y m [Ly Dy] Km|x y m [Ly Dy] Km H IH]; [eapply holds_file|eapply holds_dir; [| |exact IH]]; try (split; [apply Keep; [exact Ly|auto]|exact Dy]); exact Km.
    - exact (X1 H). }
  assert (lookup (cv_db c) x = Some n) as Lc.
  { rewrite (ConvProofs.i_nodes _ _ _ _ _ _ _ Ic), Le. cbn. f_equal. unfold ConvProofs.now. rewrite (proj2 (mem_out x K) Nk). unfold isgit. destruct Kn as [-> | ->]; reflexivity. }
  assert (lookup (cs_db u) x = Some n) as Lu.
  { rewrite <- Lc. destruct (Lo x) as [E|[m [Lm [Km _]]]].
    - intros Z. apply Gc in Z as [m [Lm Km]]. destruct Kn; congruence.
    - intros Z. apply (CleanProofs2.i_cmd _ _ _ _ _ _ I) in Z as [m [Lm [Km _]]]. destruct Kn; congruence.
    - intros Z. apply Sc in Z as [m [Lm Km]]. destruct Kn; congruence.
    - exact E.
    - exfalso. assert (m = n) by congruence. subst m. destruct Kn; congruence. }
  apply (sw_keep _ _ Sw x n Lu). destruct Kn as [-> | ->]; reflexivity.
Qed.

Lemma gone_made r x n : In r gone -> at_path d r x n -> kind n = TGenerated.
Proof.
  intros R P. destruct phase as [s [K [c [u [I [Ic [KT [KD [Gc [_ [Un _]]]]]]]]]]]. apply Un in R as [y [m [Y Py]]]. destruct (Gc y Y) as [k [Lk Kk]].
  destruct (proj1 (sound_base d) S0) as [W0 _]. destruct (at_fun d r W0 x n y m P Py) as [-> ->]. pose proof (at_lookup d r y m W0 Py). congruence.
Qed.
End Run.
