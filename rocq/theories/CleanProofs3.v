(** The deletion of the files and commands in the lists. *)
From Verif Require Import Base ConfigModel ParseModel PathModel DbModel DbSpec DbProofs DbProofs3 ScanModel ScanSpec ScanProofs ScanProofs2 ScanProofs3 ScanProofs8 CleanModel CleanSpec CleanProofs CleanProofs2.
Require Import Lia.

Lemma entry_path_ok d : base d -> forall r y n fuel, at_path d r y n -> y < fuel -> entry_path fuel d y = r.
Proof.
  intros W. induction r as [|nm r IH]; intros y n fuel H L.
  - apply at_nil in H as [-> H]. destruct fuel; [lia|]. reflexivity.
  - apply at_cons in H as [x [p [H [Ly [D [N T]]]]]]; auto. destruct fuel as [|fuel]; [lia|]. cbn [entry_path]. destruct (y =? top) eqn:E; [apply Nat.eqb_eq in E; contradiction|].
    rewrite Ly, N, D. f_equal. apply (IH x p); [exact H|]. destruct (b_parent _ W y n Ly T) as [_ P]. rewrite D in P. lia.
Qed.
Lemma at_sited d d' : base d -> base d' -> (forall y n n', lookup d y = Some n -> lookup d' y = Some n' -> dir n' = dir n /\ nname n' = nname n) ->
  forall r y n n', at_path d r y n -> lookup d' y = Some n' -> at_path d' r y n'.
Proof.
  intros W W' S. induction r as [|nm r IH]; intros y n n' G L.
  - apply at_nil in G as [-> _]. constructor. exact L.
  - apply at_cons in G as [x [p [G [Ly [D [N T]]]]]]; auto. destruct (S y n n' Ly L) as [D' N']. destruct (b_parent _ W' y n' L T) as [X _]. rewrite D', D in X.
    destruct (lookup d' x) as [p'|] eqn:Lx; [|congruence]. eapply at_in; [eapply IH; eauto|exact L|congruence|congruence].
Qed.

Lemma file_del_removed y n d q d' q' : base d -> lookup d y = Some n -> kind n = TGenerated -> file_del y true d q = Some (d', q') ->
  shrunk d d' /\ (forall n', lookup d' y = Some n' -> kind n' = TGhost) /\ (forall z, z <> y -> lookup d' z = lookup d z) /\
  (forall a b, In (a, b) (normal d) -> a <> y -> b <> y -> In (a, b) (normal d')) /\ (forall c, In c (modify d) -> c <> y -> In c (modify d')) /\
  (nname n <> B "tup.config" -> forall c, In (y, c) (normal d) -> is_kind d TCmd c -> In c (modify d')).
Proof.
  intros W L K H. assert (y <> top) as T by (intros ->; destruct (b_top _ W) as [t [Lt [Kt _]]]; congruence).
  unfold file_del in H. rewrite L, K in H. destruct (bytes_eqb (nname n) (B "tup.config")) eqn:N.
  - apply bytes_eqb_eq in N. injection H as <- <-. split; [|split; [|split; [|split; [|split]]]].
    + eapply shrunk_trans; [apply (shrunk_ghost d y (set_kind TGhost) W T)|]; [intros m; cbn; auto 10|]. apply shrunk_flags; [|apply flags_config]. eapply shrunk_base; [exact W|]. apply shrunk_ghost; auto. intros m. cbn. auto 10.
    + intros n'. change (lookup (add_config [y] (update_node y (set_kind TGhost) d)) y) with (lookup (update_node y (set_kind TGhost) d) y). rewrite lookup_update, Nat.eqb_refl, L. cbn. intros X. injection X as <-. reflexivity.
    + intros z Z. change (lookup (add_config [y] (update_node y (set_kind TGhost) d)) z) with (lookup (update_node y (set_kind TGhost) d) z). rewrite lookup_update. apply Nat.eqb_neq in Z. rewrite Z. reflexivity.
    + auto.
    + auto.
    + contradiction.
  - pose proof (flags_modify (filter (has_kind d [TCmd; TGroup]) (tos (normal d) y)) d : flags_only d (modify_cmds_by_input y d)) as F. pose proof (flags_base _ _ F W) as W1.
    assert (lookup (modify_cmds_by_input y d) y = Some n) as L1 by (rewrite (flags_lookup _ _ _ F); exact L). destruct (dnf _ y n q W1 L1 T) as [e [q1 [E [R _]]]]. rewrite E in H. injection H as <- <-.
    split; [eapply shrunk_trans; [apply shrunk_flags; eauto|apply R]|]. split; [apply R|]. split; [intros z Z; rewrite (rm_other _ _ _ R z Z); apply (flags_lookup _ _ _ F)|]. split; [|split].
    + intros a b Ab A C. apply (rm_links _ _ _ R); auto.
    + intros c C Z. apply (rm_modify _ _ _ R); [|exact Z]. apply F. exact C.
    + intros _ c Ab Kc. apply (rm_modify _ _ _ R); [apply flags_by_input; auto|]. intros ->. destruct Kc as [m [Lm Km]]. congruence.
Qed.

Lemma normal_point : forall fuel x d q d' q', base d -> make_dirs_normal fuel x (d, q) = Ok (d', q') -> base d' /\ incl (modify d) (modify d') /\ normal d' = normal d /\
  forall y, lookup d' y = lookup d y \/ exists n, lookup d y = Some n /\ kind n = TGeneratedDir /\ lookup d' y = Some (set_kind TDir n).
Proof.
  induction fuel as [|fuel IH]; intros x d q d' q' W H; [discriminate|]. cbn [make_dirs_normal] in H. destruct (lookup d x) as [n|] eqn:L; [|discriminate]. destruct (ntype_eqb (kind n) TGeneratedDir) eqn:K.
  - apply ntype_eqb_eq in K. set (d1 := update_node x (set_kind TDir) d) in *. assert (forall z, lookup d1 z = if z =? x then option_map (set_kind TDir) (lookup d z) else lookup d z) as Lk by (intros z; apply lookup_update).
    assert (base d1) as W1.
    { apply (base_from d); auto.
      - unfold d1. rewrite ids_update. apply W.
      - intros z n'. rewrite Lk. destruct (z =? x) eqn:Z; [|intros H1; exists n'; auto]. apply Nat.eqb_eq in Z. subst z. rewrite L. cbn. intros H1. injection H1 as <-. exists n. rewrite K. cbn. auto.
      - intros z. rewrite Lk. destruct (z =? x); [|auto]. destruct (lookup d z); [discriminate|auto].
      - rewrite Lk. destruct (top =? x) eqn:Z; [|reflexivity]. apply Nat.eqb_eq in Z. subst x. destruct (b_top _ W) as [t [Lt [Kt _]]]. congruence.
      - apply incl_refl.
      - intros z n' s. rewrite Lk. destruct (z =? x) eqn:Z; [|apply (b_source _ W)]. apply Nat.eqb_eq in Z. subst z. rewrite L. cbn. intros H1. injection H1 as <-. cbn. apply (b_source _ W x n s L).
      - intros z n'. rewrite Lk. destruct (z =? x) eqn:Z; [|apply (b_generated _ W)]. apply Nat.eqb_eq in Z. subst z. rewrite L. cbn. intros H1. injection H1 as <-. discriminate. }
    destruct (IH _ _ _ _ _ W1 H) as [W' [Mi [Nm P]]]. split; [exact W'|]. split; [exact Mi|]. split; [exact Nm|]. intros y. destruct (P y) as [E|[m [Lm [Km E]]]].
    + rewrite Lk in E. destruct (y =? x) eqn:Y; [|auto]. apply Nat.eqb_eq in Y. subst y. right. exists n. rewrite L in E. auto.
    + rewrite Lk in Lm. destruct (y =? x) eqn:Y; [|eauto]. destruct (lookup d y); [|discriminate]. cbn in Lm. injection Lm as <-. discriminate.
  - injection H as <- <-. set (d1 := match child d x (B ".gitignore") with Some g => if has_kind d [TGenerated] g then add_create [x] d else d | None => d end).
    assert (flags_only d d1) as F by (unfold d1; destruct (child d x (B ".gitignore")); [destruct (has_kind d [TGenerated] n0); [apply flags_create|apply flags_refl]|apply flags_refl]).
    split; [eapply flags_base; eauto|]. split; [apply F|]. split; [apply F|]. intros y. left. apply (flags_lookup _ _ _ F).
Qed.

Section Delete.
Variable d0 : db.
Hypothesis W0 : base d0.
Variable s : cst.
Let d1 := cs_db s.
Hypothesis W1 : base d1.
Hypothesis Same : forall y n, lookup d0 y = Some n -> exists n', lookup d1 y = Some n' /\ dir n' = dir n /\ nname n' = nname n.
Hypothesis Gen : forall y, In y (gen_del s) -> exists n, lookup d0 y = Some n /\ lookup d1 y = Some n /\ kind n = TGenerated.
Hypothesis Sav : forall y, In y (saved s) -> exists n, lookup d1 y = Some n /\ kind n = TGenerated.
Hypothesis Cmd : forall y, In y (cmd_del s) -> exists n, lookup d1 y = Some n /\ kind n = TCmd.
Hypothesis Apart : forall y, In y (gen_del s) -> ~ In y (saved s).
Hypothesis Once : NoDup (gen_del s) /\ NoDup (saved s) /\ NoDup (cmd_del s).
Hypothesis Start : unlinked s = [].

Lemma at_1 r y n : at_path d0 r y n -> exists n', at_path d1 r y n'.
Proof.
  intros H. destruct (Same y n (at_lookup _ _ _ _ W0 H)) as [n' [L _]]. exists n'. apply (at_sited d0 d1 W0 W1) with n; auto. intros z a b La Lb. destruct (Same z a La) as [b' [Lb' E]]. rewrite Lb in Lb'. injection Lb' as <-. exact E.
Qed.

Record gone (X : nat -> Prop) (u : cst) : Prop := {
  g_shrunk : shrunk d1 (cs_db u);
  g_other : forall z, ~ X z -> lookup (cs_db u) z = lookup d1 z;
  g_self : forall z n, X z -> lookup (cs_db u) z = Some n -> kind n = TGhost;
  g_links : forall a b, In (a, b) (normal d1) -> ~ X a -> ~ X b -> In (a, b) (normal (cs_db u));
  g_modify : forall c, In c (modify d1) -> ~ X c -> In c (modify (cs_db u));
  g_flag : forall y c n, X y -> lookup d1 y = Some n -> kind n = TGenerated -> nname n <> B "tup.config" -> In (y, c) (normal d1) -> is_kind d1 TCmd c -> ~ X c -> In c (modify (cs_db u)) }.

Lemma gone_iff X Y u : (forall z, X z <-> Y z) -> gone X u -> gone Y u.
Proof.
  intros E [G1 G2 G3 G4 G5 G6]. split; auto.
  - intros z Z. apply G2. rewrite E. exact Z.
  - intros z n Z. apply G3. apply E. exact Z.
  - intros a b H A C. apply G4; [exact H|rewrite E; exact A|rewrite E; exact C].
  - intros c H A. apply G5; [exact H|rewrite E; exact A].
  - intros y c n Y1 L K N I C A. apply (G6 y c n); auto; [apply E; exact Y1|rewrite E; exact A].
Qed.
Lemma del_gens u : each delete_gen (gen_del s) s = Ok u -> gone (fun y => In y (gen_del s)) u /\ (forall r, In r (unlinked u) <-> exists y n, In y (gen_del s) /\ at_path d0 r y n).
Proof.
  intros H.
  apply (each_split delete_gen (fun done u => gone (fun y => In y done) u /\ (forall r, In r (unlinked u) <-> exists y n, In y done /\ at_path d0 r y n)) (gen_del s) [] s u H).
  - split.
    + split; auto; [apply shrunk_refl; exact W1|intros z n []|]. intros y c n [].
    + intros r. rewrite Start. split; [intros []|intros [y [n [[] _]]]].
  - intros pre y post v v' El [G Un] Hd. cbn [app] in *. assert (In y (gen_del s)) as Iy by (rewrite El; apply in_app_iff; right; left; reflexivity).
    assert (~ In y pre) as Ny by (destruct Once as [N _]; rewrite El in N; apply NoDup_remove_2 in N; intros A; apply N; apply in_app_iff; auto).
    destruct (Gen y Iy) as [n [L0 [Ly Ky]]]. unfold delete_gen in Hd. destruct (file_del y true (cs_db v) (cs_queue v)) as [[e q]|] eqn:F; [|discriminate]. cbn [of_option obind fst snd] in Hd. injection Hd as <-.
    destruct G as [G1 G2 G3 G4 G5 G6]. pose proof (shrunk_base _ _ W1 G1) as Wv. assert (lookup (cs_db v) y = Some n) as Lv by (rewrite G2; auto).
    destruct (file_del_removed y n _ _ _ _ Wv Lv Ky F) as [R1 [R2 [R3 [R4 [R5 R6]]]]]. split; [split|]; cbn [cs_db unlinked].
    + eapply shrunk_trans; eauto.
    + intros z Z. rewrite in_app_iff in Z. cbn in Z. rewrite R3; [apply G2; tauto|intros ->; tauto].
    + intros z m Z Lz. apply in_app_iff in Z as [Z|[<-|[]]]; [|eauto]. destruct (Nat.eq_dec z y) as [->|N]; [eauto|]. rewrite R3 in Lz; auto. eapply G3; eauto.
    + intros a b Ab A C. rewrite in_app_iff in A, C. cbn in A, C. apply R4; [apply G4; tauto|intros ->; tauto|intros ->; tauto].
    + intros c C Z. rewrite in_app_iff in Z. cbn in Z. apply R5; [apply G5; tauto|intros ->; tauto].
    + intros z c m Z Lz Kz Nz Ab Kc Xc. rewrite in_app_iff in Xc. cbn in Xc. apply in_app_iff in Z as [Z|[<-|[]]].
      * apply R5; [apply (G6 z c m); auto|intros ->; tauto].
      * rewrite Ly in Lz. injection Lz as <-. apply R6; [exact Nz|apply G4; tauto|]. destruct Kc as [k [Lk Kk]]. exists k. rewrite G2; tauto.
    + assert (forall r m, at_path d0 r y m -> entry_path (S y) (cs_db v) y = r) as Ep.
      { intros r m A. destruct (at_1 r y m A) as [m' A1]. apply (entry_path_ok _ Wv r y n); [|lia]. apply (present_path _ _ W1 G1 r y m' n A1 Lv). }
      intros r. cbn [In]. rewrite Un. split.
      * intros [E|[z [m [Z A]]]]; [|exists z, m; rewrite in_app_iff; auto]. destruct (at_exists d0 W0 y n L0) as [r' A]. exists y, n. rewrite in_app_iff. split; [right; left; reflexivity|]. replace r with r'; [exact A|]. rewrite <- (Ep r' n A). exact E.
      * intros [z [m [Z A]]]. apply in_app_iff in Z as [Z|[<-|[]]]; [right; exists z, m; auto|]. left. apply (Ep r m A).
Qed.

Lemma del_cmds u v : gone (fun y => In y (gen_del s)) u -> each delete_cmd (cmd_del s) u = Ok v -> gone (fun y => In y (gen_del s) \/ In y (cmd_del s)) v /\ unlinked v = unlinked u.
Proof.
  intros G H. apply (each_split delete_cmd (fun done v => gone (fun y => In y (gen_del s) \/ In y done) v /\ unlinked v = unlinked u) (cmd_del s) [] u v H).
  - split; [|reflexivity]. eapply gone_iff; [|exact G]. cbn. tauto.
  - clear G. intros pre y post w w' El [G Un] Hd. cbn [app] in *. assert (In y (cmd_del s)) as Iy by (rewrite El; apply in_app_iff; right; left; reflexivity).
    assert (~ In y pre) as Ny by (destruct Once as [_ [_ N]]; rewrite El in N; apply NoDup_remove_2 in N; intros A; apply N; apply in_app_iff; auto).
    destruct (Cmd y Iy) as [n [Ly Ky]]. assert (~ In y (gen_del s)) as Ng by (intros A; destruct (Gen y A) as [m [_ [Lm Km]]]; congruence).
    destruct G as [G1 G2 G3 G4 G5 G6]. pose proof (shrunk_base _ _ W1 G1) as Wv. assert (lookup (cs_db w) y = Some n) as Lv by (rewrite G2; tauto).
    assert (y <> top) as T by (intros ->; destruct (b_top _ W1) as [t [Lt [Kt _]]]; congruence). unfold delete_cmd in Hd.
    destruct (dnf _ y n (cs_queue w) Wv Lv T) as [e [q [E [R _]]]]. rewrite E in Hd. cbn [of_option obind] in Hd. injection Hd as <-. split; [split|]; cbn [with_db cs_db unlinked fst].
    + eapply shrunk_trans; [exact G1|apply R].
    + intros z Z. rewrite in_app_iff in Z. cbn in Z. rewrite (rm_other _ _ _ R); [apply G2; tauto|intros ->; tauto].
    + intros z m Z Lz. destruct (Nat.eq_dec z y) as [->|N]; [eapply (rm_self _ _ _ R); eauto|]. rewrite (rm_other _ _ _ R) in Lz; auto. rewrite in_app_iff in Z. cbn in Z. eapply (G3 z); [|exact Lz]. intuition congruence.
    + intros a b Ab A C. rewrite in_app_iff in A, C. cbn in A, C. apply (rm_links _ _ _ R); [apply G4; tauto|intros ->; tauto|intros ->; tauto].
    + intros c C Z. rewrite in_app_iff in Z. cbn in Z. apply (rm_modify _ _ _ R); [apply G5; tauto|intros ->; tauto].
    + intros z c m Z Lz Kz Nz Ab Kc Xc. rewrite in_app_iff in Z, Xc. cbn in Z, Xc. apply (rm_modify _ _ _ R); [|intros ->; tauto]. apply (G6 z c m); try tauto. intuition (subst; congruence).
    + exact Un.
Qed.

(** The result; [X] is deleted and [saved s] is kept. *)
Record left_db (X : nat -> Prop) (done : list nat) (d : db) : Prop := {
  l_base : base d;
  l_gone : forall z n, X z -> lookup d z = Some n -> kind n = TGhost;
  l_saved : forall z, In z done -> exists n, lookup d1 z = Some n /\ lookup d z = Some (set_kind TFile n);
  l_other : forall z, ~ X z -> ~ In z done -> lookup d z = lookup d1 z \/ exists n, lookup d1 z = Some n /\ kind n = TGeneratedDir /\ lookup d z = Some (set_kind TDir n);
  l_sited : forall z n, lookup d z = Some n -> exists m, lookup d1 z = Some m /\ dir n = dir m /\ nname n = nname m;
  l_links : forall a b, In (a, b) (normal d1) -> ~ X a -> ~ X b -> ~ In a done -> ~ In b done -> In (a, b) (normal d);
  l_modify : forall c, In c (modify d1) -> ~ X c -> In c (modify d);
  l_flag : forall y c n, X y -> lookup d1 y = Some n -> kind n = TGenerated -> nname n <> B "tup.config" -> In (y, c) (normal d1) -> is_kind d1 TCmd c -> ~ X c -> In c (modify d);
  l_used : forall y c, In y done -> In (y, c) (normal d1) -> is_kind d1 TCmd c -> ~ X c -> In c (modify d) }.

Lemma save_files X u v : gone X u -> (forall y, In y (saved s) -> ~ X y) -> each save_file (saved s) u = Ok v -> left_db X (saved s) (cs_db v) /\ unlinked v = unlinked u.
Proof.
  intros G Nx H. apply (each_split save_file (fun done v => left_db X done (cs_db v) /\ unlinked v = unlinked u) (saved s) [] u v H).
  - split; [|reflexivity]. destruct G as [G1 G2 G3 G4 G5 G6]. split; eauto.
    + eapply shrunk_base; eauto.
    + intros z [].
    + intros z n L. destruct (sh_from _ _ G1 z n L) as [m [Lm [D [N _]]]]. exists m. auto.
    + intros y c [].
  - clear G. intros pre y post w w' El [G Un] Hs. cbn [app] in *. assert (In y (saved s)) as Iy by (rewrite El; apply in_app_iff; right; left; reflexivity).
    assert (~ In y pre) as Ny by (destruct Once as [_ [N _]]; rewrite El in N; apply NoDup_remove_2 in N; intros A; apply N; apply in_app_iff; auto).
    destruct (Sav y Iy) as [n [Ly Ky]]. destruct G as [G1 G2 G3 G4 G5 G6 G7 G8 G9].
    assert (lookup (cs_db w) y = Some n) as Lw by (destruct (G4 y (Nx y Iy) Ny) as [E|[m [Lm [Km _]]]]; [rewrite E; exact Ly|congruence]).
    assert (y <> top) as T by (intros ->; destruct (b_top _ W1) as [t [Lt [Kt _]]]; congruence). unfold save_file in Hs. rewrite Lw, Ky in Hs. cbn [ntype_eqb] in Hs.
    destruct (delete_links (modify_cmds_by_input y (cs_db w)) y (cs_queue w)) as [[e q]|] eqn:DL; [|discriminate]. cbn [of_option obind] in Hs.
    destruct (make_dirs_normal (S (dir n)) (dir n) (update_node y (set_kind TFile) e, q)) as [[f q2]| | |] eqn:MD; try discriminate. cbn [obind] in Hs. injection Hs as <-. cbn [with_db cs_db unlinked fst].
    apply links_spec in DL as [E1 [E2 E3]]. assert (forall z, lookup e z = lookup (cs_db w) z) as Le by (intros z; unfold lookup; rewrite E1; reflexivity).
    set (e' := update_node y (set_kind TFile) e) in *. assert (forall z, lookup e' z = if z =? y then option_map (set_kind TFile) (lookup (cs_db w) z) else lookup (cs_db w) z) as Lk by (intros z; unfold e'; rewrite lookup_update, Le; reflexivity).
    assert (base e') as We.
    { apply (base_from (cs_db w)); auto.
      - unfold e'. rewrite ids_update, E1. apply G1.
      - intros z n'. rewrite Lk. destruct (z =? y) eqn:Z; [|intros H1; exists n'; auto]. apply Nat.eqb_eq in Z. subst z. rewrite Lw. cbn. intros H1. injection H1 as <-. exists n. cbn. split; [reflexivity|]. split; [reflexivity|]. split; [reflexivity|discriminate].
      - intros z. rewrite Lk. destruct (z =? y); [|auto]. destruct (lookup (cs_db w) z); [discriminate|auto].
      - rewrite Lk. destruct (top =? y) eqn:Z; [apply Nat.eqb_eq in Z; congruence|reflexivity].
      - intros [a b] I. apply E2 in I. apply I.
      - intros z n' s0. rewrite Lk. destruct (z =? y) eqn:Z; [|apply (b_source _ G1)]. apply Nat.eqb_eq in Z. subst z. rewrite Lw. cbn. intros H1. injection H1 as <-. cbn. apply (b_source _ G1 y n s0 Lw).
      - intros z n'. rewrite Lk. destruct (z =? y) eqn:Z; [|apply (b_generated _ G1)]. apply Nat.eqb_eq in Z. subst z. rewrite Lw. cbn. intros H1. injection H1 as <-. discriminate. }
    destruct (normal_point _ _ _ _ _ _ We MD) as [Wf [Mi [Nm Pt]]]. split; [|exact Un].
    assert (forall c, In c (modify (modify_cmds_by_input y (cs_db w))) -> In c (modify f)) as Mf by (intros c C; apply Mi; change (In c (modify e)); rewrite E3; exact C).
    assert (forall z m, z <> y -> lookup f z = Some m -> exists k, lookup (cs_db w) z = Some k /\ (m = k \/ kind k = TGeneratedDir /\ m = set_kind TDir k)) as Back.
    { intros z m Z Lz. apply Nat.eqb_neq in Z. destruct (Pt z) as [E|[k [Lk' [Kk E]]]]; [exists m; rewrite <- Lz, E, Lk, Z; auto|]. rewrite Lk, Z in Lk'. exists k. split; [exact Lk'|]. right. split; [exact Kk|]. congruence. }
    assert (lookup f y = Some (set_kind TFile n)) as Lf. { destruct (Pt y) as [E|[k [Lk' [Kk E]]]]; rewrite Lk, Nat.eqb_refl, Lw in *; cbn in *; [exact E|]. injection Lk' as <-. discriminate. }
    split.
    + exact Wf.
    + intros z m Z Lz. destruct (Nat.eq_dec z y) as [->|N]; [exfalso; exact (Nx y Iy Z)|]. destruct (Back z m N Lz) as [k [Lk' [->|[Kk ->]]]]; [eauto|]. pose proof (G2 z k Z Lk'). congruence.
    + intros z Z. apply in_app_iff in Z as [Z|[<-|[]]]; [|exists n; auto]. destruct (G3 z Z) as [m [Lm Lz]]. exists m. split; [exact Lm|].
      assert (z <> y) as N by (intros ->; contradiction). apply Nat.eqb_neq in N. destruct (Pt z) as [E|[k [Lk' [Kk E]]]]; rewrite Lk, N, Lz in *; [exact E|]. injection Lk' as <-. discriminate.
    + intros z X1 Z. rewrite in_app_iff in Z. cbn in Z. assert (z <> y) as N by (intros ->; tauto). pose proof N as N'. apply Nat.eqb_neq in N. destruct (G4 z X1 ltac:(tauto)) as [E|[m [Lm [Km E]]]].
      * destruct (Pt z) as [E'|[k [Lk' [Kk E']]]]; rewrite Lk, N in *; [left; congruence|]. right. exists k. split; [congruence|auto].
      * right. exists m. split; [exact Lm|]. split; [exact Km|]. destruct (Pt z) as [E'|[k [Lk' [Kk E']]]]; rewrite Lk, N in *; [congruence|]. rewrite E in Lk'. injection Lk' as <-. discriminate.
    + intros z m Lz. destruct (Nat.eq_dec z y) as [->|N]; [rewrite Lf in Lz; injection Lz as <-; exists n; auto|]. destruct (Back z m N Lz) as [k [Lk' Q]]. destruct (G5 z k Lk') as [m' [L' [D' N']]]. exists m'. split; [exact L'|]. destruct Q as [->|[_ ->]]; auto.
    + intros a b Ab A C A' C'. rewrite in_app_iff in A', C'. cbn in A', C'. rewrite Nm. change (In (a, b) (normal e)). apply E2. split; [|split; [intros ->; tauto|intros ->; tauto]]. change (In (a, b) (normal (cs_db w))). apply G6; tauto.
    + intros c C Z. apply Mf. cbn. apply in_app_iff. right. auto.
    + intros z c m Z Lz Kz Nz Ab Kc Xc. apply Mf. cbn. apply in_app_iff. right. eapply G8; eauto.
    + intros z c Z Ab Kc Xc. apply Mf. apply in_app_iff in Z as [Z|[<-|[]]]; [cbn; apply in_app_iff; right; eauto|]. destruct Kc as [k [Lk' Kk]].
      assert (~ In c (saved s)) as Nc by (intros A; destruct (Sav c A) as [m [Lm Km]]; congruence). assert (~ In c pre) as Nc' by (intros A; apply Nc; rewrite El; apply in_app_iff; auto).
      apply flags_by_input; [apply G6; auto|]. exists k. split; [|exact Kk]. destruct (G4 c Xc Nc') as [E|[m [Lm [Km _]]]]; congruence.
Qed.

Lemma delete_files_spec u : delete_files s = Ok u ->
  left_db (fun y => In y (gen_del s) \/ In y (cmd_del s)) (saved s) (cs_db u) /\ (forall r, In r (unlinked u) <-> exists y n, In y (gen_del s) /\ at_path d0 r y n).
Proof.
  intros H. unfold delete_files in H. destruct (each delete_gen (gen_del s) s) as [u1| | |] eqn:E1; try discriminate. cbn [obind] in H. destruct (each delete_cmd (cmd_del s) u1) as [u2| | |] eqn:E2; try discriminate. cbn [obind] in H.
  destruct (del_gens u1 E1) as [G1 Un]. destruct (del_cmds u1 u2 G1 E2) as [G2 Un2]. apply (save_files _ u2 u G2) in H as [L Un3].
  - split; [exact L|]. intros r. rewrite Un3, Un2. apply Un.
  - intros y Y [A|A]; [exact (Apart y A Y)|]. destruct (Cmd y A) as [m [Lm Km]]. destruct (Sav y Y) as [m' [Lm' Km']]. congruence.
Qed.
End Delete.
