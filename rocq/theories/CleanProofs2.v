(** What the parser leaves in the lists of files and commands to delete. *)
From Verif Require Import Base ConfigModel ParseModel PathModel DbModel DbSpec DbProofs DbProofs3 ScanModel ScanSpec ScanProofs ScanProofs2 ScanProofs3 CleanModel CleanSpec CleanProofs.
Require Import Lia.

Lemma each_split {A S} (f : A -> S -> outcome S) (P : list A -> S -> Prop) : forall l done s s', each f l s = Ok s' -> P done s ->
  (forall pre a post s s', l = pre ++ a :: post -> P (done ++ pre) s -> f a s = Ok s' -> P (done ++ pre ++ [a]) s') -> P (done ++ l) s'.
Proof.
  induction l as [|a l IH]; intros done s s' H I St; cbn in H.
  - injection H as <-. rewrite app_nil_r. exact I.
  - destruct (f a s) as [s1| | |] eqn:E; try discriminate. cbn in H. change (a :: l) with ([a] ++ l). rewrite app_assoc. apply (IH (done ++ [a]) s1 s' H).
    + apply (St [] a l s s1); auto. rewrite app_nil_r. exact I.
    + intros pre b post u u' -> X Y. rewrite <- app_assoc in X. rewrite <- app_assoc. apply (St (a :: pre) b post u u'); auto.
Qed.

Section Parse.
Variable d0 : db.
Hypothesis W0 : base d0.
Definition dec (D : nat -> nat * bytes -> Prop) (n : node) : Prop := exists x, D x (dir n, nname n).

(** [P] are the directories parsed so far, [D] the outputs declared so far, [O] the removed directories. *)
Record inv (O P : nat -> Prop) (D : nat -> nat * bytes -> Prop) (K : nat -> Prop) (s : cst) : Prop := {
  i_base : base (cs_db s);
  i_keep : forall y n, lookup d0 y = Some n -> ~ dec D n -> lookup (cs_db s) y = Some n;
  i_has : forall y n, lookup d0 y = Some n -> exists n', lookup (cs_db s) y = Some n' /\ dir n' = dir n /\ nname n' = nname n /\ (n' = n \/ kind n' = TGenerated /\ (kind n = TGhost \/ kind n = TGenerated));
  i_from : forall y n', lookup (cs_db s) y = Some n' -> lookup d0 y = Some n' /\ ~ dec D n' \/ (kind n' = TGenerated /\ exists x, src n' = Some x /\ D x (dir n', nname n'));
  i_decl : forall x dt nm, D x (dt, nm) -> exists y n', lookup (cs_db s) y = Some n' /\ dir n' = dt /\ nname n' = nm;
  i_parsed : forall x o, D x o -> P x;
  i_gen : forall y, In y (gen_del s) <-> exists n sd, lookup d0 y = Some n /\ kind n = TGenerated /\ nname n <> B ".gitignore" /\ src n = Some sd /\ ~ dec D n /\ (P sd /\ ~ In y (modify d0) \/ O sd /\ dir n <> sd);
  i_saved : forall y, In y (saved s) <-> exists n sd, lookup d0 y = Some n /\ kind n = TGenerated /\ nname n <> B ".gitignore" /\ src n = Some sd /\ ~ dec D n /\ P sd /\ In y (modify d0);
  i_cmd : forall c, In c (cmd_del s) <-> exists n, lookup d0 c = Some n /\ kind n = TCmd /\ P (dir n) /\ ~ K c;
  i_nodup : NoDup (gen_del s) /\ NoDup (saved s) /\ NoDup (cmd_del s);
  i_mod : forall y n, lookup d0 y = Some n -> ~ flag_kind (kind n) -> (In y (modify (cs_db s)) <-> In y (modify d0));
  i_links : forall a b na nb, In (a, b) (normal d0) -> lookup d0 a = Some na -> lookup d0 b = Some nb -> kind na <> TGhost -> kind nb <> TGhost -> In (a, b) (normal (cs_db s));
  i_unlinked : unlinked s = [] }.

Lemma inv_iff O P D K O' P' D' K' s : (forall x, O x <-> O' x) -> (forall x, P x <-> P' x) -> (forall x o, D x o <-> D' x o) -> (forall x, K x <-> K' x) -> inv O P D K s -> inv O' P' D' K' s.
Proof.
  intros EO EP ED EK I. assert (forall n, dec D n <-> dec D' n) as Ed by (intros n; split; intros [x H]; exists x; apply ED; exact H). destruct I. split; auto.
  - intros y n L N. apply i_keep0; [exact L|]. rewrite Ed. exact N.
  - intros y n' L. destruct (i_from0 y n' L) as [[A1 A2]|[A [x [B C]]]]; [left; rewrite <- Ed; auto|]. right. split; [exact A|]. exists x. rewrite <- ED. auto.
  - intros x dt nm H. apply (i_decl0 x dt nm). apply ED. exact H.
  - intros x o H. apply EP. apply (i_parsed0 x o). apply ED. exact H.
  - intros y. rewrite i_gen0. split; intros [n [sd H]]; exists n, sd; revert H; rewrite Ed, EP, EO; tauto.
  - intros y. rewrite i_saved0. split; intros [n [sd H]]; exists n, sd; revert H; rewrite Ed, EP; tauto.
  - intros c. rewrite i_cmd0. split; intros [n H]; exists n; revert H; rewrite EP, EK; tauto.
Qed.
Lemma base_same d e : base d -> nodes e = nodes d -> normal e = normal d -> base e.
Proof.
  intros W N L. assert (forall y, lookup e y = lookup d y) as E by (intros y; unfold lookup; rewrite N; reflexivity). apply (base_from d); auto.
  - rewrite N. apply W.
  - intros y n'. rewrite E. intros H. exists n'. auto.
  - intros y. rewrite E. auto.
  - rewrite L. apply incl_refl.
  - intros y n' s. rewrite E. apply (b_source _ W).
  - intros y n'. rewrite E. apply (b_generated _ W).
Qed.
Lemma inv_created O P D K x s : inv O P D K s -> inv O P D K (created x s).
Proof. intros [A B C F G H I J L M N Q R]. split; auto. apply (base_same (cs_db s)); auto. Qed.

Lemma inv_start : inv (fun _ => False) (fun _ => False) (fun _ _ => False) (fun _ => False) {| cs_db := d0; cs_queue := []; gen_del := []; saved := []; cmd_del := []; unlinked := [] |}.
Proof.
  split; cbn; auto.
  - intros y n L. exists n. auto.
  - intros y n L. left. split; [exact L|]. intros [x []].
  - intros _ _ _ [].
  - intros y. split; [intros []|]. intros [n [sd H]]. tauto.
  - intros y. split; [intros []|]. intros [n [sd H]]. tauto.
  - intros y. split; [intros []|]. intros [n H]. tauto.
  - repeat split; constructor.
  - tauto.
Qed.

(** One output. *)
Lemma inv_declare O P D K x o s s' : inv O P D K s -> P x -> lookup d0 x <> None -> lookup d0 (fst o) <> None -> declare x o s = Ok s' -> inv O P (fun x' o' => D x' o' \/ x' = x /\ o' = o) K s'.
Proof.
  intros I Px Lx Lo H. destruct o as [dt nm]. cbn [fst] in Lo.
  assert (forall z, lookup d0 z <> None -> lookup (cs_db s) z <> None) as Kp by (intros z Z; destruct (lookup d0 z) as [m|] eqn:E; [|congruence]; destruct (i_has _ _ _ _ _ I z m E) as [m' [L _]]; congruence).
  destruct (lookup (cs_db s) dt) as [p|] eqn:Lp; [|exfalso; exact (Kp dt Lo Lp)]. destruct (declare_spec x dt nm s s' p (i_base _ _ _ _ _ I) Lp (Kp x Lx) H) as [y Dc].
  destruct (dc_self _ _ _ _ _ _ Dc) as [n' [Ly [Dy [Ny [Ky Sy]]]]].
  set (D' := fun x' o' => D x' o' \/ x' = x /\ o' = (dt, nm)). assert (forall n, dec D' n <-> dec D n \/ (dir n, nname n) = (dt, nm)) as ED.
  { intros n. unfold dec, D'. split; [intros [x' [A|[_ A]]]; [left; exists x'; exact A|right; exact A]|intros [[x' A]|A]; [exists x'; auto|exists x; auto]]. }
  assert (forall z n, lookup (cs_db s) z = Some n -> (dir n, nname n) = (dt, nm) -> z = y) as Only.
  { intros z n L E. destruct (Nat.eq_dec z y) as [Z|Z]; [exact Z|]. injection E as E1 E2. apply (b_names _ (dc_base _ _ _ _ _ _ Dc) z n y n'); try congruence. rewrite (dc_other _ _ _ _ _ _ Dc z Z). exact L. }
  assert (forall n, lookup (cs_db s) y = Some n -> (dir n, nname n) = (dt, nm)) as Was by (intros n L; destruct (dc_was _ _ _ _ _ _ Dc n L) as [-> [-> _]]; reflexivity).
  split.
  - apply Dc.
  - intros z n L N. rewrite ED in N. assert (lookup (cs_db s) z = Some n) as Lz by (apply (i_keep _ _ _ _ _ I); tauto). rewrite (dc_other _ _ _ _ _ _ Dc); [exact Lz|]. intros ->. apply N. right. apply Was. exact Lz.
  - intros z n L. destruct (i_has _ _ _ _ _ I z n L) as [m [Lm [Dm [Nm Km]]]]. destruct (Nat.eq_dec z y) as [->|Z].
    + exists n'. split; [exact Ly|]. pose proof (Was m Lm) as E. injection E as E1 E2. split; [congruence|]. split; [congruence|]. right. split; [exact Ky|]. destruct Km as [->|[_ Km]]; [|exact Km].
      apply (dc_was _ _ _ _ _ _ Dc n Lm).
    + exists m. rewrite (dc_other _ _ _ _ _ _ Dc z Z). auto.
  - intros z m L. destruct (Nat.eq_dec z y) as [->|Z].
    + right. rewrite Ly in L. injection L as <-. split; [exact Ky|]. exists x. split; [exact Sy|]. right. rewrite Dy, Ny. auto.
    + rewrite (dc_other _ _ _ _ _ _ Dc z Z) in L. destruct (i_from _ _ _ _ _ I z m L) as [[A1 A2]|[A [x' [B C]]]].
      * left. split; [exact A1|]. rewrite ED. intros [A|A]; [auto|]. apply Z. exact (Only z m L A).
      * right. split; [exact A|]. exists x'. split; [exact B|]. left. exact C.
  - intros x' a b [A|[_ A]].
    + destruct (i_decl _ _ _ _ _ I x' a b A) as [z [m [L [D1 D2]]]]. destruct (Nat.eq_dec z y) as [->|Z].
      * pose proof (Was m L) as E. exists y, n'. injection E as E1 E2. repeat split; congruence.
      * exists z, m. rewrite (dc_other _ _ _ _ _ _ Dc z Z). auto.
    + injection A as -> ->. exists y, n'. auto.
  - intros x' o' [A|[-> _]]; [exact (i_parsed _ _ _ _ _ I x' o' A)|exact Px].
  - intros z. rewrite (dc_gen _ _ _ _ _ _ Dc), (i_gen _ _ _ _ _ I). split.
    + intros [[n [sd [L [K1 [G [S [N Q]]]]]]] Z]. exists n, sd. repeat (split; [assumption|]). split; [|exact Q]. rewrite ED. intros [A|A]; [auto|].
      pose proof (i_keep _ _ _ _ _ I z n L N) as Lz. pose proof (Only z n Lz A). subst z. destruct Z as [Z|Z]; congruence.
    + intros [n [sd [L [K1 [G [S [N Q]]]]]]]. rewrite ED in N. split; [exists n, sd; repeat (split; [assumption|]); tauto|]. left. intros ->. apply N. right. apply Was. apply (i_keep _ _ _ _ _ I); tauto.
  - intros z. rewrite (dc_saved _ _ _ _ _ _ Dc), (i_saved _ _ _ _ _ I). split.
    + intros [[n [sd [L [K1 [G [S [N Q]]]]]]] Z]. exists n, sd. repeat (split; [assumption|]). split; [|exact Q]. rewrite ED. intros [A|A]; [auto|].
      pose proof (i_keep _ _ _ _ _ I z n L N) as Lz. pose proof (Only z n Lz A). subst z. destruct Z as [Z|Z]; congruence.
    + intros [n [sd [L [K1 [G [S [N Q]]]]]]]. rewrite ED in N. split; [exists n, sd; repeat (split; [assumption|]); tauto|]. left. intros ->. apply N. right. apply Was. apply (i_keep _ _ _ _ _ I); tauto.
  - rewrite (dc_cmd _ _ _ _ _ _ Dc). apply (i_cmd _ _ _ _ _ I).
  - rewrite (dc_cmd _ _ _ _ _ _ Dc). destruct (i_nodup _ _ _ _ _ I) as [A1 [A2 A3]]. destruct (dc_nodup _ _ _ _ _ _ Dc). auto.
  - intros z n L F. rewrite <- (i_mod _ _ _ _ _ I z n L F). split; [|apply (dc_modify _ _ _ _ _ _ Dc)]. intros M. destruct (dc_modified _ _ _ _ _ _ Dc z M) as [M1|[m [Lm Fm]]]; [exact M1|]. exfalso.
    destruct (i_has _ _ _ _ _ I z n L) as [m' [Lm' [_ [_ [->|[Kg _]]]]]]; rewrite Lm' in Lm; injection Lm as ->; [auto|]. revert Fm. unfold flag_kind. rewrite Kg. intros [A|[A|A]]; discriminate.
  - intros a b na nb Ab La Lb Ka Kb. apply (dc_links _ _ _ _ _ _ Dc); [apply (i_links _ _ _ _ _ I a b na nb); auto|]. intros n L G.
    assert (forall z m, lookup d0 z = Some m -> kind m <> TGhost -> z <> y) as A; [|split; eauto]. intros z m Lz Kz ->. destruct (i_has _ _ _ _ _ I y m Lz) as [m' [L' [_ [_ [->|[K' _]]]]]]; rewrite L in L'; injection L' as ->; congruence.
  - rewrite (dc_unlinked _ _ _ _ _ _ Dc). apply I.
Qed.

(** The files of a directory before its rules are parsed. *)
Lemma commands_of_in d x c : base d -> (In c (commands_of d x) <-> exists n, lookup d c = Some n /\ kind n = TCmd /\ dir n = x).
Proof.
  intros W. unfold commands_of. rewrite in_map_iff. split.
  - intros [[z n] [E F]]. cbn in E. subst z. apply filter_In in F as [I F]. cbn [snd] in F. apply andb_true_iff in F as [F1 F2]. apply Nat.eqb_eq in F1. apply ntype_eqb_eq in F2. exists n.
    split; [apply in_lookup; [apply W|exact I]|auto].
  - intros [n [L [K D]]]. exists (c, n). split; [reflexivity|]. apply filter_In. split; [apply lookup_in; exact L|]. cbn [snd]. rewrite K, D, Nat.eqb_refl. reflexivity.
Qed.
Lemma NoDup_map_filter {A B} (f : A -> B) p l : NoDup (map f l) -> NoDup (map f (filter p l)).
Proof.
  induction l as [|a l IH]; cbn; intros N; [constructor|]. inversion N as [|? ? I N']; subst. destruct (p a); cbn; [|auto]. constructor; [|auto]. intros H. apply I. apply in_map_iff in H as [b [E F]]. apply filter_In in F as [F _]. apply in_map_iff. eauto.
Qed.
Lemma made_nodup d x : base d -> NoDup (made_by d x).
Proof. intros W. apply NoDup_map_filter. apply W. Qed.
Lemma commands_nodup d x : base d -> NoDup (commands_of d x).
Proof. intros W. apply NoDup_map_filter. apply W. Qed.

Lemma split_roots l s s' : each split_root l s = Ok s' -> NoDup (gen_del s) -> NoDup (saved s) ->
  cs_db s' = cs_db s /\ cmd_del s' = cmd_del s /\ unlinked s' = unlinked s /\ NoDup (gen_del s') /\ NoDup (saved s') /\
  (forall y, In y (gen_del s') <-> In y (gen_del s) \/ In y l /\ ~ In y (modify (cs_db s))) /\ (forall y, In y (saved s') <-> In y (saved s) \/ In y l /\ In y (modify (cs_db s))).
Proof.
  intros H N1 N2.
  apply (each_split split_root (fun done u => cs_db u = cs_db s /\ cmd_del u = cmd_del s /\ unlinked u = unlinked s /\ NoDup (gen_del u) /\ NoDup (saved u) /\
    (forall y, In y (gen_del u) <-> In y (gen_del s) \/ In y done /\ ~ In y (modify (cs_db s))) /\ (forall y, In y (saved u) <-> In y (saved s) \/ In y done /\ In y (modify (cs_db s)))) l [] s s' H).
  - repeat (split; [solve [auto]|]). split; cbn; tauto.
  - intros pre a post u u' _ [A1 [A2 [A3 [A4 [A5 [A6 A7]]]]]] E. cbn [app] in *. unfold split_root in E. rewrite A1 in E. destruct (mem a (modify (cs_db s))) eqn:M.
    + destruct (tree_add a (saved u)) as [v| | |] eqn:T; try discriminate. apply tree_add_ok in T as [-> T]. injection E as <-. cbn. apply mem_in in M. repeat (split; [solve [auto]|]). split; [constructor; auto|]. split.
      * intros y. rewrite A6, in_app_iff. cbn. split; [tauto|]. intros [?|[[?|[<-|[]]] ?]]; tauto.
      * intros y. rewrite A7, in_app_iff. cbn. split; [intros [<-|?]; tauto|]. tauto.
    + destruct (tree_add a (gen_del u)) as [v| | |] eqn:T; try discriminate. apply tree_add_ok in T as [-> T]. injection E as <-. cbn. apply mem_out in M. repeat (split; [solve [auto]|]). split; [constructor; auto|]. split; [auto|]. split.
      * intros y. rewrite A6, in_app_iff. cbn. split; [intros [<-|?]; tauto|]. tauto.
      * intros y. rewrite A7, in_app_iff. cbn. split; [tauto|]. intros [?|[[?|[<-|[]]] ?]]; tauto.
Qed.
Lemma made_inv O P D K s x y : inv O P D K s -> ~ P x -> (In y (made_by (cs_db s) x) <-> exists n, lookup d0 y = Some n /\ kind n = TGenerated /\ nname n <> B ".gitignore" /\ src n = Some x /\ ~ dec D n).
Proof.
  intros I NP. rewrite (made_by_in _ _ _ (i_base _ _ _ _ _ I)). split.
  - intros [n [L [S [Kn G]]]]. destruct (i_from _ _ _ _ _ I y n L) as [[A1 A2]|[_ [x' [B C]]]]; [exists n; auto|]. exfalso. apply NP. rewrite S in B. injection B as ->. apply (i_parsed _ _ _ _ _ I x' _ C).
  - intros [n [L [Kn [G [S N]]]]]. exists n. split; [apply (i_keep _ _ _ _ _ I); auto|auto].
Qed.
Lemma inv_split O P D K x s s' m : inv O P D K s -> ~ P x -> lookup d0 x = Some m -> kind m = TDir -> (forall z, O z -> exists k, lookup d0 z = Some k /\ kind k = TGhost) -> (forall c, K c -> exists n, lookup d0 c = Some n /\ P (dir n)) ->
  each split_root (made_by (cs_db s) x) (with_roots s (gen_del s) (saved s) (commands_of (cs_db s) x ++ cmd_del s)) = Ok s' -> inv O (fun z => P z \/ z = x) D K s'.
Proof.
  intros I NP Lx Kx HO HK H. destruct (i_nodup _ _ _ _ _ I) as [N1 [N2 N3]]. apply split_roots in H; cbn [with_roots gen_del saved]; auto. cbn [with_roots cs_db gen_del saved cmd_del unlinked] in H. destruct H as [E1 [E2 [E3 [E4 [E5 [E6 E7]]]]]].
  assert (forall y n, lookup d0 y = Some n -> kind n = TGenerated -> (In y (modify (cs_db s)) <-> In y (modify d0))) as Md by (intros y n L Kn; apply (i_mod _ _ _ _ _ I y n L); rewrite Kn; intros [?|[?|?]]; discriminate).
  destruct I. split; rewrite ?E1; auto.
  - intros z o Z. left. apply (i_parsed0 z o Z).
  - intros y. rewrite E6, i_gen0, (made_inv O P D K s x y); [|split; auto|exact NP]. split.
    + intros [[n [sd Q]]|[[n [L [Kn [G [S N]]]]] M]]; [exists n, sd; tauto|]. exists n, x. rewrite (Md y n L Kn) in M. auto 10.
    + intros [n [sd [L [Kn [G [S [N Q]]]]]]]. destruct Q as [[[Q| ->] M]|Q]; [left; exists n, sd; tauto|right|left; exists n, sd; tauto]. rewrite (Md y n L Kn). split; [exists n; auto|exact M].
  - intros y. rewrite E7, i_saved0, (made_inv O P D K s x y); [|split; auto|exact NP]. split.
    + intros [[n [sd Q]]|[[n [L [Kn [G [S N]]]]] M]]; [exists n, sd; tauto|]. exists n, x. rewrite (Md y n L Kn) in M. auto 10.
    + intros [n [sd [L [Kn [G [S [N [[Q| ->] M]]]]]]]]; [left; exists n, sd; tauto|right]. rewrite (Md y n L Kn). split; [exists n; auto|exact M].
  - intros c. rewrite E2, in_app_iff, (commands_of_in _ _ _ i_base0), i_cmd0. split.
    + intros [[n [L [Kn Dn]]]|[n Q]]; [|exists n; tauto]. exists n. destruct (i_from0 c n L) as [[A1 A2]|[A _]]; [|congruence]. repeat split; auto. intros Q. destruct (HK c Q) as [k [Lk Pk]]. rewrite A1 in Lk. injection Lk as <-. rewrite Dn in Pk. auto.
    + intros [n [L [Kn [[Q|Q] N]]]]; [right; exists n; auto|left]. exists n. destruct (i_has0 c n L) as [n' [L' [_ [_ [->|[_ [A|A]]]]]]]; [auto|congruence|congruence].
  - split; [exact E4|]. split; [exact E5|]. rewrite E2. assert (forall c, In c (commands_of (cs_db s) x) -> ~ In c (cmd_del s)) as Dj.
    { intros c C. apply (commands_of_in _ _ _ i_base0) in C as [n [L [Kn Dn]]]. rewrite i_cmd0. intros [n1 [L1 [_ [P1 _]]]]. destruct (i_from0 c n L) as [[A1 A2]|[A _]]; [|congruence]. rewrite L1 in A1. injection A1 as ->. rewrite Dn in P1. auto. }
    pose proof (commands_nodup (cs_db s) x i_base0) as Nc. revert Dj Nc. generalize (commands_of (cs_db s) x). induction l as [|c l IH]; intros Dj Nc; [exact N3|]. cbn. inversion Nc; subst. constructor.
    + rewrite in_app_iff. intros [A|A]; [contradiction|]. apply (Dj c); [left; reflexivity|exact A].
    + apply IH; auto. intros z Z. apply Dj. right. exact Z.
  - rewrite E3. exact i_unlinked0.
Qed.

(** One directory. *)
Lemma inv_parse O P D K t s s' : inv O P D K s -> ~ P (tf_dir t) -> (exists m, lookup d0 (tf_dir t) = Some m /\ kind m = TDir) -> (forall o, In o (tf_outs t) -> lookup d0 (fst o) <> None) ->
  (forall c, In c (tf_keep t) -> exists n, lookup d0 c = Some n /\ dir n = tf_dir t) -> (forall z, O z -> exists k, lookup d0 z = Some k /\ kind k = TGhost) -> (forall c, K c -> exists n, lookup d0 c = Some n /\ P (dir n)) ->
  parse t s = Ok s' -> inv O (fun z => P z \/ z = tf_dir t) (fun z o => D z o \/ z = tf_dir t /\ In o (tf_outs t)) (fun c => K c \/ In c (tf_keep t)) s'.
Proof.
  intros I NP [m [Lx Kx]] Lo Lk HO HK H. unfold parse in H. cbn [with_roots cs_db] in H.
  destruct (each split_root _ _) as [s1| | |] eqn:E1; try discriminate. cbn [obind] in H. destruct (each (declare (tf_dir t)) _ s1) as [s2| | |] eqn:E2; try discriminate. cbn [obind] in H. injection H as <-.
  apply (inv_split O P D K (tf_dir t) s s1 m) in E1; auto. apply inv_created.
  assert (inv O (fun z => P z \/ z = tf_dir t) (fun z o => D z o \/ z = tf_dir t /\ In o (tf_outs t)) K s2) as I2.
  { apply (each_split (declare (tf_dir t)) (fun done u => inv O (fun z => P z \/ z = tf_dir t) (fun z o => D z o \/ z = tf_dir t /\ In o done) K u) _ [] s1 s2 E2).
    - eapply inv_iff; [| | | |exact E1]; try tauto. cbn. tauto.
    - intros pre a post u u' El Iu H. cbn [app] in *. eapply inv_iff; [| | | |eapply inv_declare; [exact Iu|right; reflexivity|congruence|apply Lo; rewrite El; apply in_app_iff; right; left; reflexivity|exact H]]; try tauto.
      intros z o. rewrite in_app_iff. cbn. split; [intros [[?|?]|[? ?]]|intros [?|[? [?|[?|[]]]]]]; subst; tauto. }
  destruct I2. split; auto; cbn [with_roots cs_db gen_del saved cmd_del].
  - intros c. rewrite filter_In, negb_true_iff, mem_out, i_cmd0. split; [intros [[n Q] N]; exists n; tauto|intros [n Q]; split; [exists n; tauto|tauto]].
  - destruct i_nodup0 as [N1 [N2 N3]]. split; [exact N1|]. split; [exact N2|]. apply NoDup_filter. exact N3.
Qed.

(** All of them. *)
Definition outs_of (tups : list tupfile) (x : nat) (o : nat * bytes) : Prop := exists t, In t tups /\ tf_dir t = x /\ In o (tf_outs t).
Definition keeps (tups : list tupfile) (c : nat) : Prop := exists t, In t tups /\ In c (tf_keep t).
Lemma inv_parses (O : nat -> Prop) tups s s' : parse_ok d0 tups -> (forall z, O z -> exists k, lookup d0 z = Some k /\ kind k = TGhost) -> inv O (fun _ => False) (fun _ _ => False) (fun _ => False) s -> each parse tups s = Ok s' ->
  inv O (parsed tups) (outs_of tups) (keeps tups) s'.
Proof.
  intros [P1 P2 P3 P4] HO I H. apply (each_split parse (fun done u => inv O (parsed done) (outs_of done) (keeps done) u) tups [] s s' H).
  - eapply inv_iff; [| | | |exact I].
    + tauto.
    + intros x. split; [tauto|intros [t [[] _]]].
    + intros x o. split; [tauto|intros [t [[] _]]].
    + intros x. split; [tauto|intros [t [[] _]]].
  - intros pre t post u u' E Iu Hp. cbn [app] in *. assert (In t tups) as It by (rewrite E; apply in_app_iff; right; left; reflexivity).
    assert (forall z, In z pre -> In z tups) as Ip by (intros z Z; rewrite E; apply in_app_iff; left; exact Z).
    eapply inv_iff; [| | | |eapply (inv_parse O (parsed pre) (outs_of pre) (keeps pre) t u u' Iu); [| | | | | |exact Hp]].
    + tauto.
    + intros x. unfold parsed. split; [intros [[z [Z1 Z2]]| ->]; [exists z; rewrite in_app_iff; auto|exists t; rewrite in_app_iff; cbn; auto]|]. intros [z [Z1 Z2]]. apply in_app_iff in Z1 as [Z1|[<-|[]]]; [left; exists z; auto|right; auto].
    + intros x o. unfold outs_of. split; [intros [[z [Z1 Z2]]|[-> Z]]; [exists z; rewrite in_app_iff; auto|exists t; rewrite in_app_iff; cbn; auto]|]. intros [z [Z1 [Z2 Z3]]]. apply in_app_iff in Z1 as [Z1|[<-|[]]]; [left; exists z; auto|right; auto].
    + intros c. unfold keeps. split; [intros [[z [Z1 Z2]]|Z]; [exists z; rewrite in_app_iff; auto|exists t; rewrite in_app_iff; cbn; auto]|]. intros [z [Z1 Z2]]. apply in_app_iff in Z1 as [Z1|[<-|[]]]; [left; exists z; auto|right; auto].
    + intros [z [Z1 Z2]]. rewrite E, map_app in P1. cbn in P1. apply NoDup_remove_2 in P1. apply P1. apply in_app_iff. left. rewrite <- Z2. apply in_map. exact Z1.
    + apply P2. exact It.
    + intros [dt nm] Io. destruct (P3 t dt nm It Io) as [n [L _]]. cbn. congruence.
    + intros c C. destruct (P4 t c It C) as [n [L [_ D]]]. exists n. auto.
    + exact HO.
    + intros c [z [Z1 Z2]]. destruct (P4 z c (Ip z Z1) Z2) as [n [L [_ D]]]. exists n. split; [exact L|]. exists z. auto.
Qed.

(** Directories that were removed. *)
Lemma inv_orphans s' : each orphans (nodup Nat.eq_dec (create d0)) {| cs_db := d0; cs_queue := []; gen_del := []; saved := []; cmd_del := []; unlinked := [] |} = Ok s' ->
  inv (fun x => In x (create d0) /\ exists m, lookup d0 x = Some m /\ kind m = TGhost) (fun _ => False) (fun _ _ => False) (fun _ => False) s'.
Proof.
  intros H. assert (nodes (cs_db s') = nodes d0 /\ inv (fun x => In x ([] ++ nodup Nat.eq_dec (create d0)) /\ exists m, lookup d0 x = Some m /\ kind m = TGhost) (fun _ => False) (fun _ _ => False) (fun _ => False) s') as [_ R].
  2: { eapply inv_iff; [| | | |exact R]; try tauto. intros x. cbn [app]. rewrite nodup_In. tauto. }
  pattern ([] ++ nodup Nat.eq_dec (create d0)), s'. apply (each_split orphans _ _ [] _ s' H).
  - split; [reflexivity|]. eapply inv_iff; [| | | |exact inv_start]; try tauto.
  - intros pre x post u u' El [En Iu] Ho. cbn [app] in *. unfold orphans in Ho. assert (forall z, lookup (cs_db u) z = lookup d0 z) as Lk by (intros z; unfold lookup; rewrite En; reflexivity).
    assert (~ In x pre) as Nx. { pose proof (NoDup_nodup Nat.eq_dec (create d0)) as N. rewrite El in N. apply NoDup_remove_2 in N. intros A. apply N. apply in_app_iff. auto. }
    destruct (has_kind (cs_db u) [TGhost] x) eqn:G.
    + apply has_kind_spec in G as [m [Lm [Km|[]]]]. rewrite Lk in Lm.
      destruct (each _ (made_by (cs_db u) x) u) as [v| | |] eqn:Ev; try discriminate. cbn [obind] in Ho. injection Ho as <-.
      assert (cs_db v = cs_db u /\ saved v = saved u /\ cmd_del v = cmd_del u /\ unlinked v = unlinked u /\ NoDup (gen_del v) /\ (forall y, In y (gen_del v) <-> In y (gen_del u) \/ In y ([] ++ made_by (cs_db u) x) /\ exists n, lookup d0 y = Some n /\ dir n <> x)) as [V1 [V2 [V3 [V4 [V5 V6]]]]].
      { pattern ([] ++ made_by (cs_db u) x), v. eapply (each_split _ _ _ [] u v Ev).
        - destruct (i_nodup _ _ _ _ _ Iu). repeat (split; [solve [auto]|]). cbn. tauto.
        - intros p y q w w' Em [A1 [A2 [A3 [A4 [A5 A6]]]]] Hw. cbn [app] in *. cbv beta in Hw. rewrite A1 in Hw.
          assert (In y (made_by (cs_db u) x)) as My by (rewrite Em; apply in_app_iff; right; left; reflexivity). apply (made_by_in _ _ _ (i_base _ _ _ _ _ Iu)) in My as [n [Ln [Sn [Kn Gn]]]].
          assert (has_kind (cs_db u) [TGenerated] y = true) as Hk by (apply has_kind_spec; exists n; rewrite Kn; cbn; auto). rewrite Hk, Ln in Hw. cbn [andb] in Hw. rewrite Lk in Ln.
          destruct (dir n =? x) eqn:Dx; cbn [negb] in Hw.
          + apply Nat.eqb_eq in Dx. injection Hw as <-. repeat (split; [assumption|]). intros z. rewrite A6, in_app_iff. cbn. split; [tauto|]. intros [A|[[A|[<-|[]]] [n1 [L1 D1]]]]; [tauto|right; split; [exact A|exists n1; auto]|]. rewrite Ln in L1. injection L1 as <-. congruence.
          + apply Nat.eqb_neq in Dx. destruct (tree_add y (gen_del w)) as [g| | |] eqn:T; try discriminate. apply tree_add_ok in T as [-> T]. cbn in Hw. injection Hw as <-. cbn. repeat (split; [assumption|]). split; [constructor; assumption|].
            intros z. rewrite A6, in_app_iff. cbn. split; [intros [<-|?]; [|tauto]|tauto]. right. split; [tauto|]. exists n. auto. }
      cbn [app] in V6. split; [cbn; rewrite V1; exact En|]. apply inv_created. destruct Iu. split; rewrite ?V1, ?V2, ?V3, ?V4; auto.
      * intros y. rewrite V6, (made_by_in _ _ _ i_base0), i_gen0. assert (forall n, lookup (cs_db u) y = Some n <-> lookup d0 y = Some n) as Lk1 by (intros n; rewrite Lk; tauto). setoid_rewrite Lk1. split.
        -- intros [[n [sd Q]]|[[n [L [S [K G]]]] [n1 [L1 D1]]]]; [exists n, sd; rewrite in_app_iff; tauto|]. rewrite L in L1. injection L1 as <-. exists n, x. rewrite in_app_iff. cbn.
           repeat (split; [assumption|]). split; [intros [? []]|]. right. split; [|exact D1]. split; [tauto|exists m; auto].
        -- intros [n [sd [L [K [G [S [N Q]]]]]]]. destruct Q as [Q|[[Q1 Q2] Q3]]; [tauto|]. apply in_app_iff in Q1 as [Q1|[<-|[]]]; [left; exists n, sd; tauto|]. right. split; exists n; auto.
      * destruct i_nodup0 as [_ [N2 N3]]. auto.
    + injection Ho as <-. split; [exact En|]. eapply inv_iff; [| | | |exact Iu]; try tauto. intros z. rewrite in_app_iff. cbn. split; [tauto|]. intros [[?|[<-|[]]] [m [Lm Km]]]; [split; [assumption|exists m; auto]|]. exfalso.
      assert (has_kind (cs_db u) [TGhost] x = true) as X by (apply has_kind_spec; exists m; rewrite Lk, Km; cbn; auto). congruence.
Qed.
End Parse.
