(** What the scan does with one entry. *)
From Verif Require Import Base ConfigModel ParseModel PathModel DbModel DbSpec DbProofs DbProofs3 ScanModel ScanSpec ScanProofs ScanProofs2 ScanProofs3.
Require Import Lia.

Definition keep (t : tree) (P r : path) : Prop := exists u l, r = u ++ P /\ on_disk t u = Some (FDir l) /\ visible u.

(** [D] says what is on the disk below [P]. *)
Record agree_in (D : path -> option tree) (P : path) (d' : db) : Prop := {
  ai_file : forall u m, visible u -> D u = Some (FFile m) -> exists x n, at_path d' (u ++ P) x n /\ is_file (kind n) = true /\ time n = m;
  ai_dir : forall u l, visible u -> D u = Some (FDir l) -> exists x n, at_path d' (u ++ P) x n /\ is_dir (kind n) = true;
  ai_none : forall u x n, visible u -> inside (u ++ P) -> D u = None -> at_path d' (u ++ P) x n -> kind n <> TFile /\ kind n <> TDir }.

Record noticed (Q K : path -> Prop) (D : path -> option tree) (P : path) (d d' : db) : Prop := {
  no_file : forall u y n c, visible u -> inside (u ++ P) -> at_path d (u ++ P) y n -> kind n = TFile -> nname n <> B "tup.config" -> D u <> Some (FFile (time n)) ->
    In (y, c) (normal d) -> is_kind d' TCmd c -> In c (modify d') \/ In y (modify d') /\ In (y, c) (normal d') /\ exists n', at_path d' (u ++ P) y n' /\ is_file (kind n') = true;
  no_gen : forall u y n, visible u -> inside (u ++ P) -> at_path d (u ++ P) y n -> kind n = TGenerated -> nname n <> B "tup.config" -> nname n <> B ".gitignore" ->
    D u <> Some (FFile (time n)) -> (forall l, D u <> Some (FDir l)) ->
    (forall c, In (c, y) (normal d) -> flagged_if_cmd d' c) \/
    ((forall c, In (y, c) (normal d) -> flagged_if_cmd d' c) /\ (forall s rs ns, src n = Some s -> at_path d rs s ns -> kind ns = TDir -> ~ Q rs \/ K rs -> In s (create d')));
  no_new : forall u m, visible u -> D u = Some (FFile m) ->
    (forall y n, ~ at_path d (u ++ P) y n) \/ (exists x p, at_path d (tl (u ++ P)) x p /\ kind p = TDir) /\ (forall y n, at_path d (u ++ P) y n -> is_file (kind n) = false) ->
    exists x n, at_path d' (tl (u ++ P)) x n /\ kind n = TDir /\ In x (create d') }.

Definition scanned (t : tree) (P : path) (d d' : db) : Prop :=
  effects (under P) (anc (tl P)) (keep t P) d d' /\ agree_in (on_disk t) P d' /\ noticed (under P) (keep t P) (on_disk t) P d d'.

(** Changes elsewhere. *)
Lemma agree_after D R Q A K e f : base f -> (forall u, ~ Q (u ++ R) /\ ~ A (u ++ R)) -> effects Q A K e f -> agree_in D R e -> agree_in D R f.
Proof.
  intros W O E [F Di N]. split.
  - intros u m V H. destruct (F u m V H) as [x [n [L [I T]]]]. exists x, n. destruct (O u). split; [eapply same_path; eauto|auto].
  - intros u l V H. destruct (Di u l V H) as [x [n [L I]]]. exists x, n. destruct (O u). split; [eapply same_path; eauto|auto].
  - intros u x n V I H L. destruct (O u). apply (N u x n V I H). eapply same_path_back; eauto.
Qed.
Lemma effects_inputs Q A K d e a b : effects Q A K d e -> In (a, b) (normal d) -> (exists r n, ~ Q r /\ at_path d r a n) -> is_kind e TCmd b -> In (a, b) (normal e).
Proof. intros E H Ha Hb. apply (ef_links _ _ _ _ _ E); auto. Qed.

Lemma noticed_after (Q1 K1 Q2 K2 Q K A1 A2 : path -> Prop) D R d e f : (forall u, ~ Q2 (u ++ R) /\ ~ A2 (u ++ R)) -> ~ Q2 (tl R) ->
  (forall r, ~ Q r \/ K r -> (~ Q1 r \/ K1 r) /\ (~ Q2 r \/ K2 r)) ->
  effects Q1 A1 K1 d e -> effects Q2 A2 K2 e f -> noticed Q1 K1 D R d e -> noticed Q K D R d f.
Proof.
  intros O OT HK E F [Nf Ng Nn].
  assert (forall u, ~ Q2 (tl (u ++ R))) as OT' by (intros [|a u]; [exact OT|apply O]).
  assert (forall c, flagged_if_cmd e c -> flagged_if_cmd f c) as Fl.
  { intros c H Hc. apply (ef_modify _ _ _ _ _ F); [apply H; apply (ef_cmd _ _ _ _ _ F); exact Hc|auto]. }
  split.
  - intros u y n c V I L Kn Nm H Ln Kc. pose proof (ef_cmd _ _ _ _ _ F c Kc) as Kc'. destruct (Nf u y n c V I L Kn Nm H Ln Kc') as [X|[X [Y [n' [Z Zf]]]]].
    + left. apply (ef_modify _ _ _ _ _ F); auto.
    + right. destruct (O u) as [O1 O2]. split; [|split].
      * apply (ef_modify _ _ _ _ _ F); [exact X|]. left. exists (u ++ R), n'. auto.
      * apply (ef_links _ _ _ _ _ F); auto. left. exists (u ++ R), n'. auto.
      * exists n'. split; [eapply same_path; eauto|exact Zf].
  - intros u y n V I L Kn N1 N2 H1 H2. destruct (Ng u y n V I L Kn N1 N2 H1 H2) as [X|[X Y]].
    + left. intros c Hc. apply Fl. apply X. exact Hc.
    + right. split; [intros c Hc; apply Fl; apply X; exact Hc|]. intros s rs ns Sn Ls Ks C. destruct (HK rs C) as [C1 C2].
      assert (is_dir (kind ns) = true) as Id by (rewrite Ks; reflexivity).
      destruct (stays _ _ _ _ _ E rs s ns C1 Ls Id) as [ns' [Ls' [_ Is']]]. apply (ef_create _ _ _ _ _ F s rs ns' (Y s rs ns Sn Ls Ks C1) Ls'). destruct C2; auto.
  - intros u m V H G. destruct (Nn u m V H G) as [x [n [L [I C]]]]. assert (is_dir (kind n) = true) as Id by (rewrite I; reflexivity). destruct (stays _ _ _ _ _ F _ _ _ (or_introl (OT' u)) L Id) as [n' [L' [I' _]]].
    exists x, n'. split; [exact L'|]. split; [destruct I'; congruence|]. apply (ef_create _ _ _ _ _ F x _ n C L). auto.
Qed.
Lemma noticed_before (Q1 K1 Q2 K2 Q K A1 A2 : path -> Prop) D R d e f : base e -> (forall u, ~ Q1 (u ++ R) /\ ~ A1 (u ++ R)) -> ~ Q1 (tl R) ->
  (forall r, ~ Q r \/ K r -> (~ Q1 r \/ K1 r) /\ (~ Q2 r \/ K2 r)) ->
  effects Q1 A1 K1 d e -> effects Q2 A2 K2 e f -> noticed Q2 K2 D R e f -> noticed Q K D R d f.
Proof.
  intros W O OT HK E F [Nf Ng Nn].
  assert (forall u, ~ Q1 (tl (u ++ R))) as OT' by (intros [|a u]; [exact OT|apply O]).
  split.
  - intros u y n c V I L Kn Nm H Ln Kc. destruct (O u) as [O1 O2]. apply (Nf u y n c); auto.
    + eapply same_path; eauto.
    + eapply effects_inputs; eauto. apply (ef_cmd _ _ _ _ _ F). exact Kc.
  - intros u y n V I L Kn N1 N2 H1 H2. destruct (O u) as [O1 O2]. assert (at_path e (u ++ R) y n) as L' by (eapply same_path; eauto).
    assert (exists r m, ~ Q1 r /\ at_path d r y m) as Oy by eauto.
    destruct (Ng u y n V I L' Kn N1 N2 H1 H2) as [X|[X Y]].
    + left. intros c Hc Kc. apply X; [|exact Kc]. apply (ef_links _ _ _ _ _ E); auto. right. apply (ef_cmd _ _ _ _ _ F). exact Kc.
    + right. split.
      * intros c Hc Kc. apply X; [|exact Kc]. apply (ef_links _ _ _ _ _ E); auto. right. apply (ef_cmd _ _ _ _ _ F). exact Kc.
      * intros s rs ns Sn Ls Ks C. destruct (HK rs C) as [C1 C2]. assert (is_dir (kind ns) = true) as Id by (rewrite Ks; reflexivity).
        destruct (stays _ _ _ _ _ E rs s ns C1 Ls Id) as [ns' [Ls' [Ks' _]]]. apply (Y s rs ns' Sn Ls'); [|exact C2]. destruct Ks' as [Z|Z]; congruence.
  - intros u m V H G. destruct (O u) as [O1 O2]. apply (Nn u m V H). destruct G as [G|[[x [p [Lp Kp]]] G]].
    + left. intros y n L. apply (G y n). eapply same_path_back; eauto.
    + right. split.
      * assert (is_dir (kind p) = true) as Id by (rewrite Kp; reflexivity). destruct (stays _ _ _ _ _ E _ _ _ (or_introl (OT' u)) Lp Id) as [p' [Lp' [Kp' _]]].
        exists x, p'. split; [exact Lp'|]. destruct Kp'; congruence.
      * intros y n L. apply (G y n). eapply same_path_back; eauto.
Qed.

(** Nothing real is in what is not a directory. *)
Lemma home_tame d x : base d -> home d -> tame d x.
Proof. intros W H y n B' N L R. apply (H y n L R). intros ->. inversion B'; congruence. Qed.
Lemma leaf_path d P x n u y m : base d -> home d -> at_path d P x n -> is_dir (kind n) = false -> at_path d (u ++ P) y m -> u <> [] -> real (kind m) = false.
Proof.
  intros W H L I G N. apply (leaf d x n (home_tame d x W H) (at_lookup _ _ _ _ W L) I y m).
  - apply (below_under d P x n W L (u ++ P) y m G). exists u. reflexivity.
  - intros ->. apply N. pose proof (at_inj d (u ++ P) W P x m n G L) as E. apply (f_equal (@length _)) in E. rewrite app_length in E. destruct u; [reflexivity|cbn in E; lia].
  - eapply at_lookup; eauto.
Qed.
Lemma at_child d P dt p nm : base d -> at_path d P dt p -> forall y n, at_path d (nm :: P) y n <-> child d dt nm = Some y /\ lookup d y = Some n.
Proof.
  intros W L y n. split.
  - intros H. apply at_cons in H as [a [q [H1 [L1 [D1 [N1 _]]]]]]; auto. destruct (at_fun d P W _ _ _ _ L H1) as [-> ->]. split; [|exact L1]. apply child_spec; auto. exists n. auto.
  - intros [C L1]. apply child_spec in C as [m [L2 [D2 N2]]]; auto. rewrite L1 in L2. injection L2 as <-. eapply at_in; eauto.
Qed.
Lemma no_child d P dt p nm : base d -> at_path d P dt p -> child d dt nm = None -> forall u y n, ~ at_path d (u ++ nm :: P) y n.
Proof.
  intros W L C u. induction u as [|a u IH]; intros y n H.
  - apply (at_child d P dt p nm W L) in H as [H _]. congruence.
  - cbn in H. apply at_cons in H as [x [m [H _]]]; auto. exact (IH x m H).
Qed.

(** make_dirs_normal *)
Lemma home_changed x n n' d d' : home d -> changed_at x d d' -> lookup d x = Some n -> lookup d' x = Some n' -> x <> top ->
  (real (kind n') = true -> exists m, lookup d (dir n) = Some m /\ is_dir (kind m) = true) -> (is_dir (kind n) = true -> is_dir (kind n') = true) -> home d'.
Proof.
  intros H [_ [O [_ [_ [_ [k [k' [L [L' [D _]]]]]]]]]] Ln Ln' T R I. rewrite Ln in L. injection L as <-. rewrite Ln' in L'. injection L' as <-.
  assert (forall m z, lookup d z = Some m -> is_dir (kind m) = true -> exists m', lookup d' z = Some m' /\ is_dir (kind m') = true) as Up.
  { intros m z Lz Iz. destruct (Nat.eq_dec z x) as [->|N]; [exists n'; split; [exact Ln'|apply I; congruence]|]. exists m. rewrite O; auto. }
  intros y m Ly Ry Ty. destruct (Nat.eq_dec y x) as [->|N].
  - rewrite Ln' in Ly. injection Ly as <-. destruct (R Ry) as [p [Lp Ip]]. rewrite D. eauto.
  - rewrite O in Ly; auto. destruct (H y m Ly Ry Ty) as [p [Lp Ip]]. eauto.
Qed.
Lemma home_flags d d' : flags_only d d' -> home d -> home d'.
Proof. intros F H x n. rewrite !(flags_lookup _ _ _ F). intros L R T. exact (H x n L R T). Qed.

Lemma normal_step d P x n : base d -> home d -> at_path d P x n -> kind n = TGeneratedDir ->
  base (update_node x (set_kind TDir) d) /\ home (update_node x (set_kind TDir) d) /\ effects (fun _ => False) (fun r => r = P) (fun _ => True) d (update_node x (set_kind TDir) d).
Proof.
  intros W H L Kn. pose proof (at_lookup _ _ _ _ W L) as Lx. set (d' := update_node x (set_kind TDir) d).
  assert (x <> top) as T by (intros ->; destruct (b_top _ W) as [t [Lt [Kt _]]]; congruence).
  assert (lookup d' x = Some (set_kind TDir n)) as Lx' by (unfold d'; rewrite lookup_update, Nat.eqb_refl, Lx; reflexivity).
  assert (forall y, y <> x -> lookup d' y = lookup d y) as O by (intros y N; unfold d'; rewrite lookup_update; destruct (y =? x) eqn:E; [apply Nat.eqb_eq in E; contradiction|reflexivity]).
  assert (changed_at x d d') as Ch.
  { split; [unfold d'; rewrite ids_update; apply W|]. split; [exact O|]. split; [reflexivity|]. split; [apply incl_refl|]. split; [apply incl_refl|].
    exists n, (set_kind TDir n). split; [exact Lx|]. split; [exact Lx'|]. cbn. split; [reflexivity|]. split; [reflexivity|]. split; [auto|]. split; [discriminate|]. split; [|split; discriminate].
    intros E. pose proof (b_config _ W x n Lx E) as X. rewrite Kn in X. discriminate. }
  pose proof (changed_base x d d' W Ch T) as W'.
  assert (home d') as H'.
  { apply (home_changed x n (set_kind TDir n) d d' H Ch Lx Lx' T); [|cbn; auto]. intros _. apply (H x n Lx); [rewrite Kn; reflexivity|exact T]. }
  split; [exact W'|]. split; [exact H'|].
  assert (forall r y m, at_path d r y m -> at_path d' r y (if y =? x then set_kind TDir m else m)) as Fw.
  { intros r. induction r as [|nm r IH]; intros y m G.
    - apply at_nil in G as [-> G]. destruct (top =? x) eqn:E; [apply Nat.eqb_eq in E; congruence|]. constructor. rewrite O; [exact G|congruence].
    - apply at_cons in G as [a [q [H1 [L1 [D1 [N1 _]]]]]]; auto. apply IH in H1. eapply at_in; [exact H1| | |].
      + destruct (y =? x) eqn:E; [apply Nat.eqb_eq in E; subst y; rewrite Lx'; congruence|]. rewrite O; [exact L1|]. intros ->. rewrite Nat.eqb_refl in E. discriminate.
      + destruct (y =? x); exact D1.
      + destruct (y =? x); exact N1. }
  split.
  - intros r y m _ G. eexists. split; [apply Fw; exact G|]. destruct (y =? x) eqn:E; [|auto]. apply Nat.eqb_eq in E. subst y. right.
    pose proof (at_inj d r W P x m n G L) as Er. subst r. destruct (at_fun d P W _ _ _ _ G L) as [_ ->]. auto.
  - apply (paths_back (fun _ => False) d d' W W' ltac:(tauto)). intros r y m _ G. apply at_lookup in G; auto. destruct (Nat.eq_dec y x) as [->|N].
    + rewrite Lx' in G. injection G as <-. exists n. auto.
    + rewrite O in G; auto. eauto.
  - intros r y m _ G Im. eexists. split; [apply Fw; exact G|]. destruct (y =? x); auto.
  - intros c [m [Lc Kc]]. destruct (Nat.eq_dec c x) as [->|N]; [rewrite Lx' in Lc; injection Lc as <-; discriminate|]. rewrite O in Lc; auto. exists m. auto.
  - intros r y m G Km. destruct (back_changed x d d' W W' Ch r y m G) as [k0 [K0 E0]]. destruct (Nat.eq_dec y x) as [->|Nx]; [apply at_lookup in G; auto; rewrite Lx' in G; injection G as <-; discriminate|]. rewrite (E0 Nx) in Km. eauto.
  - auto.
  - auto.
  - auto.
Qed.
Lemma normal_spec : forall fuel P x n d q, base d -> home d -> at_path d P x n -> is_dir (kind n) = true -> x < fuel ->
  exists d' q', make_dirs_normal fuel x (d, q) = Ok (d', q') /\ base d' /\ home d' /\ effects (fun _ => False) (anc P) (fun _ => True) d d' /\ (exists n', at_path d' P x n' /\ kind n' = TDir).
Proof.
  induction fuel as [|fuel IH]; intros P x n d q W H L I X; [lia|]. cbn [make_dirs_normal]. pose proof (at_lookup _ _ _ _ W L) as Lx. rewrite Lx.
  destruct (ntype_eqb (kind n) TGeneratedDir) eqn:E.
  - apply ntype_eqb_eq in E. destruct (normal_step d P x n W H L E) as [W' [H' E1]]. set (d1 := update_node x (set_kind TDir) d) in *.
    destruct P as [|nm P]; [apply at_nil in L as [-> L]; destruct (b_top _ W) as [t [Lt [Kt _]]]; congruence|].
    pose proof L as L0. apply at_cons in L as [a [p [H1 [L1 [D1 [N1 T]]]]]]; auto.
    destruct (H x n Lx) as [p' [Lp Ip]]; [rewrite E; reflexivity|exact T|]. rewrite D1 in Lp. rewrite (at_lookup _ _ _ _ W H1) in Lp. injection Lp as <-.
    destruct (stays _ _ _ _ _ E1 P a p (or_introl (fun x => x)) H1 Ip) as [p2 [H2 [_ I2]]].
    destruct (b_parent _ W x n Lx T) as [_ Lt]. rewrite D1 in *. destruct (IH P a p2 d1 (remove_id x q) W' H' H2 I2) as [d2 [q2 [Eq [W2 [H3 [E2 _]]]]]]; [lia|].
    exists d2, q2. split; [exact Eq|]. split; [exact W2|]. split; [exact H3|].
    assert (at_path d1 (nm :: P) x (set_kind TDir n)) as Lx1 by (eapply at_in; [exact H2|unfold d1; rewrite lookup_update, Nat.eqb_refl, Lx; reflexivity|exact D1|exact N1]).
    split; [|destruct (stays _ _ _ _ _ E2 _ _ _ (or_introl (fun x => x)) Lx1 eq_refl) as [n2 [L2 [K2 _]]]; exists n2; split; [exact L2|destruct K2; assumption]].
    eapply effects_trans; [| | | | |exact E1|exact E2]; try (intros; tauto).
    + intros r _ ->. exists []. reflexivity.
    + intros r _ [w ->]. exists (nm :: w). reflexivity.
  - eexists _, q. split; [reflexivity|].
    assert (flags_only d (match child d x (B ".gitignore") with Some g => if has_kind d [TGenerated] g then add_create [x] d else d | None => d end)) as F.
    { destruct (child d x _) as [g|]; [|apply flags_refl]. destruct (has_kind d [TGenerated] g); [apply flags_create|apply flags_refl]. }
    split; [eapply flags_base; eauto|]. split; [eapply home_flags; eauto|]. pose proof (effects_flags (anc P) (fun _ => True) _ _ W F) as EF. split; [exact EF|].
    destruct (stays _ _ _ _ _ EF P x n (or_introl (fun x => x)) L I) as [n2 [L2 [K2 _]]]. exists n2. split; [exact L2|]. apply ntype_eqb_neq in E. destruct K2 as [K2|K2]; [exact K2|]. rewrite K2. revert I E. clear. destruct (kind n); cbn; congruence.
Qed.

(** create_name_file *)
Lemma create_spec P dt p nm m d q : base d -> home d -> at_path d P dt p -> is_dir (kind p) = true -> child d dt nm = None ->
  exists y d' q', create_name_file dt nm m (d, q) = Ok (y, (d', q')) /\ base d' /\ home d' /\
    effects (under (nm :: P)) (anc P) (fun r => ~ under (nm :: P) r) d d' /\
    (exists n', at_path d' (nm :: P) y n' /\ kind n' = TFile /\ time n' = m) /\ In dt (create d') /\ (exists p', at_path d' P dt p' /\ kind p' = TDir).
Proof.
  intros W H L I C. unfold create_name_file. set (n := {| dir := dt; kind := TFile; src := None; nname := nm; time := m |}). set (d1 := insert_node n d).
  pose proof (at_lookup _ _ _ _ W L) as Ldt. assert (lookup d (fresh d) = None) as Lf by (apply lookup_fresh; lia).
  assert (added_at dt TFile nm d d1) as Ad.
  { split; [apply ids_insert; apply W|]. split; [intros y N; unfold d1; rewrite lookup_insert; destruct (y =? fresh d) eqn:E; [apply Nat.eqb_eq in E; contradiction|reflexivity]|].
    split; [reflexivity|]. split; [apply incl_refl|]. split; [apply incl_refl|]. exists n. split; [unfold d1; rewrite lookup_insert, Nat.eqb_refl; reflexivity|auto]. }
  assert (base d1) as W1 by (apply (added_base dt TFile nm d d1 p W Ad Ldt C); [discriminate|reflexivity]).
  assert (TFile <> TCmd /\ TFile <> TGeneratedDir) as KK by (split; discriminate). pose proof (effects_added dt TFile nm d d1 p P W W1 Ad L KK) as E1.
  destruct (ef_fwd _ _ _ _ _ E1 P dt p) as [p1 [L1 C1]]; [intros [u E]; apply (f_equal (@length _)) in E; rewrite app_length in E; cbn in E; lia|exact L|].
  destruct C1 as [->|[[] _]].
  assert (home d1) as H1.
  { intros y k Ly Ry Ty. unfold d1 in Ly. rewrite lookup_insert in Ly. destruct (y =? fresh d) eqn:E.
    - injection Ly as <-. exists p. split; [|exact I]. apply at_lookup in L1; auto.
    - destruct (H y k Ly Ry Ty) as [z [Lz Iz]]. exists z. split; [|exact Iz]. unfold d1. rewrite lookup_insert. destruct (dir k =? fresh d) eqn:E2; [apply Nat.eqb_eq in E2; congruence|exact Lz]. }
  assert (flags_only d1 (add_create [dt] d1)) as F by apply flags_create.
  pose proof (flags_base _ _ F W1) as W2. pose proof (home_flags _ _ F H1) as H2. pose proof (effects_flags (fun _ => False) (fun _ => True) _ _ W1 F) as E2.
  destruct (ef_fwd _ _ _ _ _ E2 P dt p (fun x => x) L1) as [p2 [L2 C2]]. destruct C2 as [->|[[] _]].
  destruct (normal_spec (S dt) P dt p (add_create [dt] d1) q W2 H2 L2 I ltac:(lia)) as [d3 [q3 [Eq [W3 [H3 [E3 N3]]]]]].
  exists (fresh d), d3, q3. rewrite Eq. split; [reflexivity|]. split; [exact W3|]. split; [exact H3|].
  assert (at_path d1 (nm :: P) (fresh d) n) as Ln by (eapply at_in; [exact L1|unfold d1; rewrite lookup_insert, Nat.eqb_refl; reflexivity|reflexivity|reflexivity]).
  assert (at_path (add_create [dt] d1) (nm :: P) (fresh d) n) as Ln2 by (eapply same_path; [exact E2| | |exact Ln]; tauto).
  split; [|split; [|split; [|exact N3]]].
  - assert (effects (fun _ => False) (anc P) (fun _ => True) d1 d3) as E23.
    { apply (effects_trans (fun _ => False) (fun _ => False) (fun _ => False) (fun _ => False) (anc P) (anc P) (fun _ => True) (fun _ => True) (fun _ => True) d1 (add_create [dt] d1) d3); tauto. }
    apply (effects_trans (under (nm :: P)) (fun _ => False) (under (nm :: P)) (fun _ => False) (anc P) (anc P) (fun r => ~ under (nm :: P) r) (fun _ => True) (fun r => ~ under (nm :: P) r) d d1 d3); tauto.
  - exists n. split; [|auto]. eapply same_path; [exact E3|tauto| |exact Ln2]. intros An. apply (under_not_anc nm P (nm :: P) (under_refl _) An).
  - apply (ef_create _ _ _ _ _ E3 dt P p); [left; reflexivity|exact L2|left; tauto].
Qed.
