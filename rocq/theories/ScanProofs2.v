(** What tup_del_id_type does. *)
From Verif Require Import Base ConfigModel ParseModel PathModel DbModel DbSpec DbProofs DbProofs3 ScanModel ScanSpec ScanProofs.
Require Import Lia.

Lemma below_comparable d x y z : base d -> below d x z -> below d y z -> below d x y \/ below d y x.
Proof.
  intros W H. induction H as [|w z m H IH L T D]; intros G; [auto|]. inversion G as [|w' z' m' G' L' T' D']; subst.
  - left. econstructor; eauto.
  - rewrite L in L'. injection L' as <-. auto.
Qed.
Lemma siblings_apart d x y n m z : base d -> x <> y -> lookup d x = Some n -> lookup d y = Some m -> x <> top -> y <> top -> dir n = dir m -> below d x z -> below d y z -> False.
Proof.
  assert (forall a b n m, base d -> a <> b -> lookup d a = Some n -> lookup d b = Some m -> a <> top -> b <> top -> dir n = dir m -> below d a b -> False) as A.
  { intros a b p k W N La Lb Ta Tb E H. inversion H as [|w b' k' H' L' T' D']; subst; [congruence|]. rewrite Lb in L'. injection L' as <-. apply (below_le _ _ _ W) in H'.
    destruct (b_parent _ W a p La Ta) as [_ P]. rewrite <- E in H'. lia. }
  intros W N Lx Ly Tx Ty E H G. destruct (below_comparable d x y z W H G) as [B1|B1].
  - exact (A x y n m W N Lx Ly Tx Ty E B1).
  - exact (A y x m n W (not_eq_sym N) Ly Lx Ty Tx (eq_sym E) B1).
Qed.
Lemma below_kept d d' x y : (forall z, below d x z -> lookup d' z = lookup d z) -> below d x y -> below d' x y.
Proof.
  intros E H. induction H as [|z y m H IH L T D]; [constructor|]. econstructor; [exact IH| |exact T|exact D]. rewrite E; [exact L|]. econstructor; eauto.
Qed.

Definition config_name (nm : bytes) : Prop := nm = B "tup.config".
Definition flagged_if_cmd (d' : db) (c : nat) : Prop := is_kind d' TCmd c -> In c (modify d').

(** The entries in [del] were removed, and the users of the files in it were flagged. *)
Record deleted (del exempt : nat -> Prop) (d d' : db) : Prop := {
  de_shrunk : shrunk d d';
  de_out : forall y, ~ del y -> lookup d' y = lookup d y;
  de_links : forall a b, In (a, b) (normal d) -> ~ del a \/ is_kind d' TCmd a -> ~ del b \/ is_kind d' TCmd b -> In (a, b) (normal d');
  de_modify : forall c, In c (modify d) -> ~ del c \/ is_kind d' TCmd c -> In c (modify d');
  de_create : forall c, In c (create d) -> ~ del c -> In c (create d');
  de_config : forall c, In c (config d) -> ~ del c -> In c (config d');
  de_file : forall y n c, del y -> lookup d y = Some n -> kind n = TFile -> nname n <> B "tup.config" -> In (y, c) (normal d) -> flagged_if_cmd d' c;
  de_generated : forall y n, del y -> lookup d y = Some n -> kind n = TGenerated -> nname n <> B "tup.config" -> nname n <> B ".gitignore" ->
    (forall c, In (c, y) (normal d) -> flagged_if_cmd d' c) \/
    ((forall c, In (y, c) (normal d) -> flagged_if_cmd d' c) /\ ~ is_kind d' TGenerated y /\
     (~ exempt y -> forall s, src n = Some s -> is_kind d TDir s -> ~ del s -> In s (create d'))) }.
Definition homed (d d' : db) : Prop := forall y n' m, lookup d' y = Some n' -> real (kind n') = true -> y <> top ->
  lookup d (dir n') = Some m -> is_dir (kind m) = true -> exists m', lookup d' (dir n') = Some m' /\ is_dir (kind m') = true.
Definition purged (d' : db) (x : nat) : Prop := forall y n', below d' x y -> lookup d' y = Some n' -> kind n' <> TFile /\ kind n' <> TDir.
Definition unreal (d' : db) (x : nat) : Prop := forall n', lookup d' x = Some n' -> real (kind n') = false.

Lemma shrunk_kind d d' k x : shrunk d d' -> k <> TGhost -> is_kind d' k x -> is_kind d k x /\ lookup d' x = lookup d x.
Proof.
  intros S K [n' [L E]]. destruct (sh_from _ _ S x n' L) as [n [L1 [_ [_ [_ [->|[G _]]]]]]]; [|congruence]. split; [exists n; auto|congruence].
Qed.
Lemma purged_shrunk d d' x : shrunk d d' -> purged d x -> purged d' x.
Proof.
  intros S P y n' H L. apply (shrunk_below _ _ _ _ S) in H. destruct (sh_from _ _ S y n' L) as [n [L1 [_ [_ [_ [->|[G _]]]]]]]; [eauto|]. rewrite G. split; discriminate.
Qed.
Lemma unreal_shrunk d d' x : shrunk d d' -> unreal d x -> unreal d' x.
Proof.
  intros S P n' L. destruct (sh_from _ _ S x n' L) as [n [L1 [_ [_ [_ [->|[G _]]]]]]]; [eauto|]. rewrite G. reflexivity.
Qed.
Lemma homed_refl d : homed d d.
Proof. intros y n' m L R T M I. eauto. Qed.
Lemma homed_trans d e f : shrunk e f -> homed d e -> homed e f -> homed d f.
Proof.
  intros S A C y n' m L R T M I. destruct (sh_from _ _ S y n' L) as [n [L1 [_ [_ [_ [E|[G _]]]]]]]; [|rewrite G in R; discriminate]. subst n.
  destruct (A y n' m L1 R T M I) as [m1 [M1 I1]]. exact (C y n' m1 L R T M1 I1).
Qed.
Lemma homed_same d d' : (forall x, lookup d' x = lookup d x) -> homed d d'.
Proof. intros E y n' m L R T M I. exists m. rewrite E. auto. Qed.
Lemma home_homed d d' : shrunk d d' -> homed d d' -> home d -> home d'.
Proof.
  intros S H O x n' L R T. destruct (sh_from _ _ S x n' L) as [n [L1 [_ [_ [_ [E|[G _]]]]]]]; [|rewrite G in R; discriminate]. subst n.
  destruct (O x n' L1 R T) as [m [M I]]. exact (H x n' m L R T M I).
Qed.

Lemma deleted_flags d d' : base d -> flags_only d d' -> deleted (fun _ => False) (fun _ => False) d d'.
Proof.
  intros W F. pose proof (shrunk_flags _ _ W F) as S. assert (forall x, lookup d' x = lookup d x) as E by (intros; apply flags_lookup; exact F).
  destruct F as [_ [F2 [_ [F4 [F5 F6]]]]]. split; auto; try tauto. intros a b H _ _. rewrite F2. exact H.
Qed.
Lemma deleted_trans (D1 D2 D E1 E2 E : nat -> Prop) d e f : (forall y, D1 y -> D y) -> (forall y, D2 y -> D y) -> (forall y, D y -> ~ D1 y -> D2 y) -> (forall y, D1 y \/ ~ D1 y) ->
  (forall y, E1 y -> E y) -> (forall y, E2 y -> E y) -> deleted D1 E1 d e -> deleted D2 E2 e f -> deleted D E d f.
Proof.
  intros I1 I2 I3 Dec J1 J2 A C. pose proof (de_shrunk _ _ _ _ A) as SA. pose proof (de_shrunk _ _ _ _ C) as SC.
  assert (forall c, ~ D c \/ is_kind f TCmd c -> (~ D1 c \/ is_kind e TCmd c) /\ (~ D2 c \/ is_kind f TCmd c)) as K.
  { intros c [N|K]; [split; left; auto|]. split; [|auto]. right. apply (shrunk_kind _ _ _ _ SC); [discriminate|exact K]. }
  assert (forall c, flagged_if_cmd e c -> flagged_if_cmd f c) as FL.
  { intros c H Kc. apply (de_modify _ _ _ _ C); [|auto]. apply H. apply (shrunk_kind _ _ _ _ SC); [discriminate|exact Kc]. }
  split.
  - eapply shrunk_trans; eauto.
  - intros y N. rewrite (de_out _ _ _ _ C); [|auto]. apply (de_out _ _ _ _ A). auto.
  - intros a b H Ka Kb. destruct (K a Ka), (K b Kb). apply (de_links _ _ _ _ C); auto. apply (de_links _ _ _ _ A); auto.
  - intros c H Kc. destruct (K c Kc). apply (de_modify _ _ _ _ C); auto. apply (de_modify _ _ _ _ A); auto.
  - intros c H N. apply (de_create _ _ _ _ C); [|auto]. apply (de_create _ _ _ _ A); auto.
  - intros c H N. apply (de_config _ _ _ _ C); [|auto]. apply (de_config _ _ _ _ A); auto.
  - intros y n c Dy L Kn Nn H. destruct (Dec y) as [D1y|D1y].
    + apply FL. exact (de_file _ _ _ _ A y n c D1y L Kn Nn H).
    + intros Kc. apply (de_file _ _ _ _ C y n c); auto.
      * rewrite (de_out _ _ _ _ A); auto.
      * apply (de_links _ _ _ _ A); auto. apply K. auto.
  - intros y n Dy L Kn Nn Ng. destruct (Dec y) as [D1y|D1y].
    + destruct (de_generated _ _ _ _ A y n D1y L Kn Nn Ng) as [H|[H1 [H2 H3]]]; [left; eauto|]. right. split; [eauto|]. split.
      * intros Ky. apply H2. apply (shrunk_kind _ _ _ _ SC); [discriminate|exact Ky].
      * intros X s Es Ks Ns. apply (de_create _ _ _ _ C); [|auto]. apply H3; auto.
    + assert (lookup e y = Some n) as L' by (rewrite (de_out _ _ _ _ A); auto).
      destruct (de_generated _ _ _ _ C y n (I3 y Dy D1y) L' Kn Nn Ng) as [H|[H1 [H2 H3]]].
      * left. intros c Hc Kc. apply H; [|exact Kc]. apply (de_links _ _ _ _ A); auto. apply K. auto.
      * right. split; [|split; [exact H2|]].
        -- intros c Hc Kc. apply H1; [|exact Kc]. apply (de_links _ _ _ _ A); auto. apply K. auto.
        -- intros X s Es Ks Ns. apply H3; auto. destruct Ks as [m [Lm Km]]. exists m. rewrite (de_out _ _ _ _ A); auto.
Qed.
Lemma deleted_iff (D E D' E' : nat -> Prop) d d' : (forall y, D y <-> D' y) -> (forall y, E y -> E' y) -> deleted D E d d' -> deleted D' E' d d'.
Proof.
  intros H HE [S O L M C G F Ge]. split; auto.
  - intros y N. apply O. rewrite H. exact N.
  - intros a b I. rewrite <- !H. apply L. exact I.
  - intros c I. rewrite <- H. apply M. exact I.
  - intros c I. rewrite <- H. apply C. exact I.
  - intros c I. rewrite <- H. apply G. exact I.
  - intros y n c. rewrite <- H. apply F.
  - intros y n. rewrite <- H. intros Y L1 K N1 N2. destruct (Ge y n Y L1 K N1 N2) as [X|[X1 [X2 X3]]]; [auto|]. right. split; [exact X1|]. split; [exact X2|].
    intros NE s Es Ks. rewrite <- H. apply X3; auto.
Qed.
Lemma deleted_weak_e d d' D E : deleted D (fun _ => False) d d' -> deleted D E d d'.
Proof. apply deleted_iff; [reflexivity|tauto]. Qed.

(** The removal of a single entry. *)
Lemma removed_deleted (E : nat -> Prop) x n d d' : removed x d d' -> lookup d x = Some n -> (kind n = TGenerated -> E x) ->
  (kind n = TFile -> forall c, In (x, c) (normal d) -> is_kind d TCmd c -> In c (modify d)) ->
  (kind n = TGenerated -> forall c, In (x, c) (normal d) -> is_kind d TCmd c -> In c (modify d)) ->
  deleted (fun y => y = x) E d d'.
Proof.
  intros R L XE F G. pose proof (rm_shrunk _ _ _ R) as S.
  assert (forall a, a <> x \/ is_kind d' TCmd a -> a <> x) as K.
  { intros a [N|[m [Lm Km]]]; [exact N|]. intros ->. rewrite (rm_self _ _ _ R m Lm) in Km. discriminate. }
  split.
  - exact S.
  - intros y N. apply (rm_other _ _ _ R). exact N.
  - intros a b I Ka Kb. apply (rm_links _ _ _ R); auto.
  - intros c I Kc. apply (rm_modify _ _ _ R); auto.
  - intros c I Kc. apply (rm_create _ _ _ R); auto.
  - intros c I Kc. apply (rm_config _ _ _ R); auto.
  - intros y m c -> Ly Ky _ H Kc. rewrite L in Ly. injection Ly as <-. apply (rm_modify _ _ _ R); auto. apply F; auto. apply (shrunk_kind _ _ _ _ S); [discriminate|exact Kc].
  - intros y m -> Ly Ky _ _. rewrite L in Ly. injection Ly as <-. right. split; [|split].
    + intros c H Kc. apply (rm_modify _ _ _ R); auto. apply G; auto. apply (shrunk_kind _ _ _ _ S); [discriminate|exact Kc].
    + intros [m [Lm Km]]. rewrite (rm_self _ _ _ R m Lm) in Km. discriminate.
    + intros X. exfalso. apply X. auto.
Qed.
Lemma removed_homed x n d d' : removed x d d' -> lookup d x = Some n ->
  (is_dir (kind n) = true -> forall y m, lookup d y = Some m -> dir m = x -> y <> top -> real (kind m) = false) -> homed d d'.
Proof.
  intros R L H y n' m Ly Ry T M I. destruct (Nat.eq_dec (dir n') x) as [E|N].
  - exfalso. rewrite E, L in M. injection M as <-. destruct (sh_from _ _ (rm_shrunk _ _ _ R) y n' Ly) as [n1 [L1 [D1 [_ [_ [->|[G _]]]]]]].
    + rewrite (H I y n1 L1 E T) in Ry. discriminate.
    + rewrite G in Ry. discriminate.
  - exists m. rewrite (rm_other _ _ _ R); auto.
Qed.
Lemma removed_unreal x d d' : removed x d d' -> unreal d' x.
Proof. intros R n' L. rewrite (rm_self _ _ _ R n' L). reflexivity. Qed.

Lemma flags_by_input x d c : In (x, c) (normal d) -> is_kind d TCmd c -> In c (modify (modify_cmds_by_input x d)).
Proof.
  intros H [m [L K]]. unfold modify_cmds_by_input. cbn. apply in_app_iff. left. apply filter_In. split; [apply tos_in; exact H|]. apply has_kind_spec. exists m. rewrite K. cbn. auto.
Qed.

(** Files. *)
Lemma file_del_spec x n force d q : base d -> lookup d x = Some n -> x <> top -> nname n <> B "tup.config" -> is_file (kind n) = true ->
  exists d' q', file_del x force d q = Some (d', q') /\ deleted (fun y => y = x) (fun y => y = x /\ force = true) d d' /\ homed d d' /\
    (force = true \/ kind n = TFile -> unreal d' x).
Proof.
  intros W L T N K. unfold file_del. rewrite L. destruct (bytes_eqb (nname n) (B "tup.config")) eqn:EN; [apply bytes_eqb_eq in EN; contradiction|].
  destruct (kind n) eqn:Kn; try discriminate.
  - set (d1 := if force then _ else _). assert (flags_only d d1) as F.
    { assert (flags_only d (modify_cmds_by_input x (set_dependent_flags x d))) as F by (eapply flags_trans; [apply flags_dependent|apply flags_modify]).
      unfold d1. destruct force; [exact F|]. eapply flags_trans; [exact F|apply flags_create]. }
    pose proof (flags_base _ _ F W) as W1. assert (lookup d1 x = Some n) as L1 by (rewrite (flags_lookup _ _ _ F); exact L).
    destruct (dnf d1 x n q W1 L1 T) as [d' [q' [E [R _]]]]. rewrite E. exists d', q'. split; [reflexivity|].
    assert (forall c, In (x, c) (normal d1) -> is_kind d1 TCmd c -> In c (modify d1)) as M.
    { intros c H [m [Lm Km]]. destruct F as [F1 [F2 _]]. rewrite F2 in H. unfold lookup in Lm. rewrite F1 in Lm.
      assert (In c (modify (modify_cmds_by_input x (set_dependent_flags x d)))) as X by (apply flags_by_input; [exact H|exists m; auto]).
      unfold d1. destruct force; exact X. }
    split; [|split].
    + apply (deleted_trans (fun _ => False) (fun y => y = x) (fun y => y = x) (fun _ => False) (fun y => y = x /\ force = true) (fun y => y = x /\ force = true) d d1 d'); try tauto.
      * apply (deleted_flags _ _ W F).
      * apply (removed_deleted _ x n _ _ R L1); intros; auto; congruence.
    + eapply homed_trans; [apply R|apply homed_same; intros; apply flags_lookup; exact F|]. apply (removed_homed x n _ _ R L1). rewrite Kn. discriminate.
    + intros _. apply (removed_unreal _ _ _ R).
  - destruct force.
    + pose proof (flags_modify (filter (has_kind d [TCmd; TGroup]) (tos (normal d) x)) d : flags_only d (modify_cmds_by_input x d)) as F.
      pose proof (flags_base _ _ F W) as W1. assert (lookup (modify_cmds_by_input x d) x = Some n) as L1 by (rewrite (flags_lookup _ _ _ F); exact L).
      destruct (dnf _ x n q W1 L1 T) as [d' [q' [E [R _]]]]. rewrite E. exists d', q'. split; [reflexivity|]. split; [|split].
      * apply (deleted_trans (fun _ => False) (fun y => y = x) (fun y => y = x) (fun _ => False) (fun y => y = x /\ true = true) (fun y => y = x /\ true = true) d (modify_cmds_by_input x d) d'); try tauto.
        -- apply (deleted_flags _ _ W F).
        -- apply (removed_deleted _ x n _ _ R L1); intros; auto; [congruence|]. apply flags_by_input; assumption.
      * eapply homed_trans; [apply R|apply homed_same; intros; apply flags_lookup; exact F|]. apply (removed_homed x n _ _ R L1). rewrite Kn. discriminate.
      * intros _. apply (removed_unreal _ _ _ R).
    + destruct (bytes_eqb (nname n) (B ".gitignore")) eqn:EG.
      * do 2 eexists. split; [reflexivity|]. pose proof (flags_create [dir n] d) as F. split; [|split].
        -- apply bytes_eqb_eq in EG. pose proof (deleted_flags _ _ W F) as [S O Li M C G Fi Ge]. split; auto.
           ++ intros y m c -> Ly Ky. congruence.
           ++ intros y m -> Ly Ky N1 N2. congruence.
        -- apply homed_same. intros. apply flags_lookup. exact F.
        -- intros [|]; congruence.
      * do 2 eexists. split; [reflexivity|]. set (d' := {| nodes := _ |}).
        assert (forall y, lookup d' y = lookup d y) as E by reflexivity.
        assert (flags_only d (modify_cmds_by_output x d)) as F by apply flags_modify.
        split; [|split].
        -- split; auto.
           ++ destruct (shrunk_flags _ _ W F) as [S1 S2 S3 S4 S5 S6]. split; auto.
           ++ intros c H Kc. cbn [modify d']. apply remove_in. split; [apply in_app_iff; auto|]. destruct Kc as [Nc|[m [Lm Km]]]; [exact Nc|]. intros ->. rewrite E in Lm. congruence.
           ++ intros y m c -> Ly Ky. congruence.
           ++ intros y m -> Ly Ky N1 N2. left. intros c Hc [m' [Lc Kc]]. cbn [modify d']. apply remove_in. split.
              ** apply in_app_iff. left. apply froms_in. exact Hc.
              ** intros ->. rewrite E in Lc. congruence.
        -- apply homed_same. exact E.
        -- intros [|]; congruence.
Qed.

(** Directories. *)
Lemma each_app {A S} (f : A -> S -> outcome S) l1 l2 s : each f (l1 ++ l2) s = obind (each f l1 s) (each f l2).
Proof. revert s. induction l1 as [|a l1 IH]; intros s; [reflexivity|]. cbn. destruct (f a s); cbn; auto. Qed.

Lemma srcid_flags x d : base d -> exists d1, set_srcid_dir_flags x d = Ok d1 /\ flags_only d d1 /\
  forall y n s, lookup d y = Some n -> dir n = x -> kind n = TGenerated -> src n = Some s -> s <> x -> is_kind d TDir s -> In s (create d1).
Proof.
  intros W. unfold set_srcid_dir_flags. set (l := filter _ (nodes d)).
  assert (forall y n, In (y, n) l -> lookup d y = Some n /\ dir n = x /\ kind n = TGenerated) as Hl.
  { intros y n I. apply filter_In in I as [I C]. cbn in C. apply andb_true_iff in C as [C1 C2]. apply Nat.eqb_eq in C1. apply ntype_eqb_eq in C2. split; [apply in_lookup; [apply W|exact I]|auto]. }
  assert (forall y n, lookup d y = Some n -> dir n = x -> kind n = TGenerated -> In (y, n) l) as Hl2.
  { intros y n L D K. apply filter_In. split; [apply lookup_in; exact L|]. cbn. rewrite D, K, Nat.eqb_refl. reflexivity. }
  clearbody l. assert (forall e, flags_only d e -> exists d1, each (fun (p : nat * node) d => match src (snd p) with Some s => if s =? x then Ok d else match lookup d s with Some n => Ok (if ntype_eqb (kind n) TDir then add_create [s] d else d) | None => Bad end | None => Bad end) l e = Ok d1 /\ flags_only e d1 /\
     forall y n s, In (y, n) l -> src n = Some s -> s <> x -> is_kind d TDir s -> In s (create d1)) as A.
  { clear Hl2. induction l as [|[y n] l IH]; intros e F.
    - exists e. split; [reflexivity|]. split; [apply flags_refl|]. intros y n s [].
    - cbn [each snd]. destruct (Hl y n (or_introl eq_refl)) as [L [D K]]. destruct (src n) as [s|] eqn:S; [|exfalso; apply (b_generated _ W y n L K S)].
      assert (exists e1, (if s =? x then Ok e else match lookup e s with Some m => Ok (if ntype_eqb (kind m) TDir then add_create [s] e else e) | None => Bad end) = Ok e1 /\ flags_only e e1 /\ (s <> x -> is_kind d TDir s -> In s (create e1))) as [e1 [E1 [F1 C1]]].
      { destruct (s =? x) eqn:SX.
        - apply Nat.eqb_eq in SX. exists e. split; [reflexivity|]. split; [apply flags_refl|]. congruence.
        - rewrite (flags_lookup _ _ _ F). destruct (lookup d s) as [m|] eqn:Ls; [|exfalso; apply (b_source _ W y n s L S Ls)].
          destruct (ntype_eqb (kind m) TDir) eqn:KM.
          + exists (add_create [s] e). split; [reflexivity|]. split; [apply flags_create|]. cbn. auto.
          + exists e. split; [reflexivity|]. split; [apply flags_refl|]. intros _ [m' [Lm Km]]. rewrite Ls in Lm. injection Lm as <-. apply ntype_eqb_neq in KM. contradiction. }
      rewrite E1. cbn [obind]. destruct (IH (fun y' n' I => Hl y' n' (or_intror I)) e1 (flags_trans _ _ _ F F1)) as [d1 [E2 [F2 C2]]].
      exists d1. split; [exact E2|]. split; [eapply flags_trans; eauto|]. intros y' n' s' [I|I] S' NX KS.
      + injection I as <- <-. rewrite S in S'. injection S' as <-. destruct F2 as [_ [_ [_ [_ [F2 _]]]]]. apply F2. auto.
      + eapply C2; eauto. }
  destruct (A d (flags_refl d)) as [d1 [E [F C]]]. exists d1. split; [exact E|]. split; [exact F|]. intros y n s L D K S. apply (C y n s); auto.
Qed.

Lemma below_dec d x : base d -> forall y, below d x y \/ ~ below d x y.
Proof.
  intros W y. induction y as [y IH] using (well_founded_induction lt_wf). destruct (Nat.eq_dec y x) as [->|N]; [left; constructor|].
  destruct (Nat.eq_dec y top) as [->|T]; [right; intros H; inversion H; congruence|].
  destruct (lookup d y) as [m|] eqn:L; [|right; intros H; inversion H; congruence].
  destruct (IH (dir m)) as [H|H]; [apply (b_parent _ W y m L T)|left; econstructor; eauto|].
  right. intros G. inversion G as [|z y' m' G' L' T' D']; subst; [congruence|]. rewrite L in L'. injection L' as <-. contradiction.
Qed.

Definition child_of (d : db) (x : nat) (e : nat * ntype) : Prop := exists n, lookup d (fst e) = Some n /\ dir n = x /\ fst e <> top /\ kind n = snd e.
Lemma dir_entries_spec d x e : base d -> x <> 0 -> (In e (dir_entries d x) <-> child_of d x e).
Proof.
  intros W X. unfold dir_entries, child_of. rewrite <- in_rev, in_map_iff. split.
  - intros [[y n] [<- I]]. apply filter_In in I as [I D]. cbn in *. apply Nat.eqb_eq in D. assert (lookup d y = Some n) as L by (apply in_lookup; [apply W|exact I]).
    exists n. repeat split; auto. eapply not_top_dir; eauto. congruence.
  - intros [n [L [D [T K]]]]. exists (fst e, n). destruct e as [y k]. cbn in *. subst k. split; [reflexivity|]. apply filter_In. split; [apply lookup_in; exact L|]. cbn. apply Nat.eqb_eq. exact D.
Qed.
Lemma dir_entries_nodup d x : base d -> NoDup (map fst (dir_entries d x)).
Proof.
  intros W. unfold dir_entries. rewrite map_rev, map_map. cbn. apply NoDup_rev. apply (ids_filter (fun p => dir (snd p) =? x)). apply W.
Qed.
Lemma below_child d x y : base d -> x <> 0 -> (below d x y <-> y = x \/ exists e, In e (dir_entries d x) /\ below d (fst e) y).
Proof.
  intros W X. split.
  - intros H. induction H as [|z y m H IH L T D]; [auto|]. right. destruct IH as [->|[e [I He]]].
    + exists (y, kind m). split; [apply dir_entries_spec; auto; exists m; auto|constructor].
    + exists e. split; [exact I|]. econstructor; eauto.
  - intros [->|[e [I He]]]; [constructor|]. apply dir_entries_spec in I as [n [L [D [T _]]]]; auto. eapply below_trans; [|exact He]. econstructor; [constructor|exact L|exact T|exact D].
Qed.

(** Files and directories below x are in directories. *)
Definition tame (d : db) (x : nat) : Prop := forall y n, below d x y -> y <> x -> lookup d y = Some n -> real (kind n) = true -> exists m, lookup d (dir n) = Some m /\ is_dir (kind m) = true.
Lemma leaf d x n : tame d x -> lookup d x = Some n -> is_dir (kind n) = false -> forall y m, below d x y -> y <> x -> lookup d y = Some m -> real (kind m) = false.
Proof.
  intros T L K y m H. revert m. induction H as [|z y k H IH Ly Ty D]; intros m N Lm; [congruence|]. rewrite Ly in Lm. injection Lm as <-.
  destruct (real (kind k)) eqn:R; [|reflexivity]. exfalso. destruct (T y k) as [p [Lp Ip]]; auto; [econstructor; eauto|]. rewrite D in Lp.
  destruct (Nat.eq_dec z x) as [->|Nz]; [congruence|]. specialize (IH p Nz Lp). unfold real in IH. rewrite Ip, orb_true_r in IH. discriminate.
Qed.
Lemma tame_kept d d' x : base d -> shrunk d d' -> (forall y, below d x y -> lookup d' y = lookup d y) -> tame d x -> tame d' x.
Proof.
  intros W S E T y n H N L R. apply (shrunk_below _ _ _ _ S) in H. rewrite (E y H) in L. destruct (T y n H N L R) as [m [Lm Im]]. exists m. split; [|exact Im].
  rewrite E; [exact Lm|]. inversion H as [|z y' k H' L' T' D']; subst; [congruence|]. rewrite L in L'. injection L' as <-. exact H'.
Qed.
Lemma tame_child d x e : base d -> x <> 0 -> tame d x -> In e (dir_entries d x) -> tame d (fst e).
Proof.
  intros W X T I y n H N. pose proof I as I2. apply dir_entries_spec in I as [m [L [D [Te _]]]]; auto. apply T.
  - eapply below_trans; [|exact H]. econstructor; [constructor|exact L|exact Te|exact D].
  - apply (below_le _ _ _ W) in H. destruct (b_parent _ W _ _ L Te) as [_ P]. lia.
Qed.
Lemma deleted_leaf x n E d d' : tame d x -> lookup d x = Some n -> is_dir (kind n) = false -> deleted (fun y => y = x) E d d' -> deleted (below d x) E d d'.
Proof.
  intros T L K [S O Li M C G F Ge]. assert (forall y, ~ below d x y -> y <> x) as Nb by (intros y H ->; apply H; constructor).
  assert (forall a, ~ below d x a \/ is_kind d' TCmd a -> a <> x \/ is_kind d' TCmd a) as Kp by (intros a [H|H]; auto).
  split; auto.
  - intros y k c H Ly Ky. destruct (Nat.eq_dec y x) as [->|N]; [apply F; auto|]. pose proof (leaf d x n T L K y k H N Ly) as R. rewrite Ky in R. discriminate.
  - intros y k H Ly Ky N1 N2. destruct (Nat.eq_dec y x) as [->|N]; [|pose proof (leaf d x n T L K y k H N Ly) as R; rewrite Ky in R; discriminate].
    destruct (Ge x k eq_refl Ly Ky N1 N2) as [A|[A1 [A2 A3]]]; [auto|]. right. split; [exact A1|]. split; [exact A2|]. intros X s Es Ks Ns. apply A3; auto.
Qed.
Lemma purged_leaf x n d d' : tame d x -> lookup d x = Some n -> is_dir (kind n) = false -> shrunk d d' -> (forall n', lookup d' x = Some n' -> kind n' <> TFile) -> purged d' x.
Proof.
  intros T L K S F y n' H Ly. apply (shrunk_below _ _ _ _ S) in H. destruct (Nat.eq_dec y x) as [->|N].
  - split; [eauto|]. destruct (sh_from _ _ S x n' Ly) as [k [Lk [_ [_ [_ [->|[G _]]]]]]]; [|rewrite G; discriminate]. rewrite L in Lk. injection Lk as <-. destruct (kind n); discriminate.
  - destruct (sh_from _ _ S y n' Ly) as [k [Lk [_ [_ [_ [->|[G _]]]]]]]; [|rewrite G; split; discriminate].
    pose proof (leaf d x n T L K y k H N Lk) as R. destruct (kind k); cbn in R; split; congruence.
Qed.

(** One child after the other. *)
Lemma children_gone N (go : nat * ntype -> st -> outcome st) (g : nat * ntype -> bool) x : forall l d q,
  base d -> (forall y n, lookup d y = Some n -> y < N) -> NoDup (map fst l) -> (forall e, In e l -> child_of d x e /\ tame d (fst e)) ->
  (forall e d q, In e l -> base d -> (forall y n, lookup d y = Some n -> y < N) -> child_of d x e -> tame d (fst e) ->
     exists d' q', go e (d, q) = Ok (d', q') /\ deleted (below d (fst e)) (fun y => y = fst e /\ g e = true) d d' /\ homed d d' /\ purged d' (fst e) /\
       (g e = true \/ snd e <> TGenerated /\ snd e <> TGeneratedDir -> unreal d' (fst e))) ->
  exists d' q', each go l (d, q) = Ok (d', q') /\
    deleted (fun y => exists e, In e l /\ below d (fst e) y) (fun y => exists e, In e l /\ y = fst e /\ g e = true) d d' /\ homed d d' /\
    (forall e, In e l -> purged d' (fst e) /\ (g e = true \/ snd e <> TGenerated /\ snd e <> TGeneratedDir -> unreal d' (fst e))).
Proof.
  induction l as [|e l IH]; intros d q W Bd ND Ch Go.
  - exists d, q. split; [reflexivity|]. split; [|split; [apply homed_refl|intros e []]].
    apply (deleted_iff (fun _ => False) (fun _ => False)); [| |apply (deleted_flags d d W (flags_refl d))]; [|tauto]. intros y. split; [tauto|]. intros [e [[] _]].
  - cbn [each]. inversion ND as [|? ? N1 N2]; subst. destruct (Go e d q (or_introl eq_refl) W Bd (proj1 (Ch e (or_introl eq_refl))) (proj2 (Ch e (or_introl eq_refl)))) as [d1 [q1 [E1 [D1 [H1 [P1 U1]]]]]]. rewrite E1. cbn [obind].
    pose proof (de_shrunk _ _ _ _ D1) as S1. pose proof (shrunk_base _ _ W S1) as W1.
    assert (forall e', In e' l -> forall y, below d (fst e') y -> lookup d1 y = lookup d y) as Ap.
    { intros e' I y Hy. apply (de_out _ _ _ _ D1). intros Hy'. destruct (Ch e (or_introl eq_refl)) as [[n [L [D [T _]]]] _]. destruct (Ch e' (or_intror I)) as [[n' [L' [D' [T' _]]]] _].
      eapply (siblings_apart d (fst e) (fst e') n n' y W); eauto; [|congruence]. intros E. apply N1. rewrite E. apply in_map. exact I. }
    assert (forall e', In e' l -> child_of d1 x e' /\ tame d1 (fst e')) as Ch1.
    { intros e' I. destruct (Ch e' (or_intror I)) as [[n' [L' R']] Tm]. split; [|apply (tame_kept d d1); auto; apply Ap; exact I]. exists n'. split; [|exact R']. rewrite (Ap e' I); [exact L'|constructor]. }
    assert (forall y n, lookup d1 y = Some n -> y < N) as Bd1.
    { intros y n L. destruct (sh_from _ _ S1 y n L) as [m [Lm _]]. eauto. }
    destruct (IH d1 q1 W1 Bd1 N2 Ch1 (fun e' d' q' I => Go e' d' q' (or_intror I))) as [d2 [q2 [E2 [D2 [H2 P2]]]]].
    exists d2, q2. split; [exact E2|]. pose proof (de_shrunk _ _ _ _ D2) as S2. split; [|split].
    + eapply deleted_trans with (e := d1) (D1 := below d (fst e)) (D2 := fun y => exists e, In e l /\ below d1 (fst e) y); [..|exact D1|exact D2].
      * intros y Hy. exists e. split; [left; reflexivity|exact Hy].
      * intros y [e' [I Hy]]. exists e'. split; [right; exact I|]. eapply shrunk_below; eauto.
      * intros y [e' [[<-|I] Hy]] Ny; [contradiction|]. exists e'. split; [exact I|]. eapply below_kept; [|exact Hy]. apply Ap. exact I.
      * apply below_dec. exact W.
      * cbv beta. intros y [-> G]. exists e. split; [left; reflexivity|auto].
      * cbv beta. intros y [e' [I G]]. exists e'. split; [right; exact I|auto].
    + eapply homed_trans; eauto.
    + intros e' [<-|I]; [|exact (P2 e' I)]. split; [eapply purged_shrunk; eauto|]. intros G. eapply unreal_shrunk; eauto.
Qed.

(** The directory itself. *)
Lemma purged_up d x : base d -> x <> 0 -> (forall n, lookup d x = Some n -> kind n <> TFile /\ kind n <> TDir) -> (forall e, In e (dir_entries d x) -> purged d (fst e)) -> purged d x.
Proof. intros W X H P y n B' L. apply below_child in B' as [->|[e [I He]]]; auto. exact (P e I y n He L). Qed.
Lemma entries_shrunk d d' x e : base d -> x <> 0 -> shrunk d d' -> In e (dir_entries d' x) -> exists e0, In e0 (dir_entries d x) /\ fst e0 = fst e.
Proof.
  intros W X S I. apply dir_entries_spec in I as [n [L [D [T K]]]]; [|eapply shrunk_base; eauto|exact X]. destruct (sh_from _ _ S _ _ L) as [n1 [L1 [D1 _]]].
  exists (fst e, kind n1). split; [|reflexivity]. apply dir_entries_spec; auto. exists n1. cbn. repeat split; auto. congruence.
Qed.

Lemma del_id_spec : forall fuel N x force d q n, base d -> tame d x -> (forall y n, lookup d y = Some n -> y < N) -> N <= fuel + x -> lookup d x = Some n -> x <> top ->
  exists d' q', del_id fuel x force (d, q) = Ok (d', q') /\ deleted (below d x) (fun y => y = x /\ force = true) d d' /\ homed d d' /\ purged d' x /\
    (force = true \/ kind n <> TGenerated /\ kind n <> TGeneratedDir -> unreal d' x).
Proof.
  induction fuel as [|fuel IH]; intros N x force d q n W Tm Bd Hf L T; [apply Bd in L; lia|]. cbn [del_id]. rewrite L.
  pose proof (id_pos _ _ _ W L) as X0. assert (x <> 0) as X by lia.
  destruct (bytes_eqb (nname n) (B "tup.config")) eqn:EN.
  - apply bytes_eqb_eq in EN. pose proof (b_config _ W x n L EN) as K.
    assert (shrunk d (update_node x (set_kind TGhost) d)) as S by (apply shrunk_ghost; auto; intros m; cbn; auto 10).
    set (d' := add_config [x] _). assert (forall y, lookup d' y = if y =? x then option_map (set_kind TGhost) (lookup d y) else lookup d y) as E by (intros y; apply lookup_update).
    assert (forall y, y <> x -> lookup d' y = lookup d y) as E2 by (intros y Y; rewrite E; apply Nat.eqb_neq in Y; rewrite Y; reflexivity).
    assert (shrunk d d') as S'. { eapply shrunk_trans; [exact S|]. apply shrunk_flags; [eapply shrunk_base; eauto|apply flags_config]. }
    assert (unreal d' x) as U. { intros n' L'. rewrite E, Nat.eqb_refl, L in L'. cbn in L'. injection L' as <-. reflexivity. }
    exists d', q. split; [reflexivity|]. split; [|split; [|split; [|auto]]].
    + apply (deleted_leaf x n); auto. split; auto.
      * intros c H _. cbn. auto.
      * intros y m c -> Ly Ky N1. congruence.
      * intros y m -> Ly Ky N1. congruence.
    + intros y n' m Ly R Ty Lm I. exists m. split; [|exact I]. rewrite E2; [exact Lm|]. intros Ex. rewrite Ex, L in Lm. injection Lm as <-. congruence.
    + apply (purged_leaf x n d d' Tm L K S'). intros n' L' C. specialize (U n' L'). rewrite C in U. discriminate.
  - assert (nname n <> B "tup.config") as NC by (intros E; rewrite E, bytes_eqb_refl in EN; discriminate). clear EN.
    (* entries that are simply removed *)
    assert (is_dir (kind n) = false -> is_file (kind n) = false -> exists d' q', of_option (delete_name_file d x q) = Ok (d', q') /\
        deleted (below d x) (fun y => y = x /\ force = true) d d' /\ homed d d' /\ purged d' x /\ (force = true \/ kind n <> TGenerated /\ kind n <> TGeneratedDir -> unreal d' x)) as Plain.
    { intros K KF. destruct (dnf d x n q W L T) as [d' [q' [E [R _]]]]. rewrite E. exists d', q'. split; [reflexivity|]. split; [|split; [|split]].
      - apply (deleted_leaf x n); auto. apply (removed_deleted _ x n _ _ R L); intros C; rewrite C in KF; discriminate.
      - apply (removed_homed x n _ _ R L). congruence.
      - apply (purged_leaf x n d d' Tm L K (rm_shrunk _ _ _ R)). intros n' L'. rewrite (rm_self _ _ _ R n' L'). discriminate.
      - intros _. apply (removed_unreal _ _ _ R). }
    assert (is_dir (kind n) = false -> is_file (kind n) = false -> exists d' q', Ok (d, q) = Ok (d', q') /\
        deleted (below d x) (fun y => y = x /\ force = true) d d' /\ homed d d' /\ purged d' x /\ (force = true \/ kind n <> TGenerated /\ kind n <> TGeneratedDir -> unreal d' x)) as Same.
    { intros K KF. exists d, q. split; [reflexivity|]. pose proof (shrunk_refl d W) as S. split; [|split; [apply homed_refl|split]].
      - apply (deleted_leaf x n); auto. split; auto.
        + intros y m c -> Ly Ky. rewrite L in Ly. injection Ly as <-. rewrite Ky in KF. discriminate.
        + intros y m -> Ly Ky. rewrite L in Ly. injection Ly as <-. rewrite Ky in KF. discriminate.
      - apply (purged_leaf x n d d Tm L K S). intros n' L' C. rewrite L in L'. injection L' as <-. rewrite C in KF. discriminate.
      - intros _ n' L'. rewrite L in L'. injection L' as <-. unfold real. rewrite K, KF. reflexivity. }
    assert (is_file (kind n) = true -> exists d' q', of_option (file_del x force d q) = Ok (d', q') /\
        deleted (below d x) (fun y => y = x /\ force = true) d d' /\ homed d d' /\ purged d' x /\ (force = true \/ kind n <> TGenerated /\ kind n <> TGeneratedDir -> unreal d' x)) as File.
    { intros KF. assert (is_dir (kind n) = false) as K by (destruct (kind n); cbn in *; congruence).
      destruct (file_del_spec x n force d q W L T NC KF) as [d' [q' [E [D [H U]]]]]. rewrite E. exists d', q'. split; [reflexivity|]. split; [|split; [exact H|split]].
      - apply (deleted_leaf x n); auto.
      - pose proof (de_shrunk _ _ _ _ D) as S. apply (purged_leaf x n d d' Tm L K S). intros n' L' C. destruct (sh_from _ _ S x n' L') as [k [Lk [_ [_ [_ [->|[G _]]]]]]]; [|congruence].
        rewrite L in Lk. injection Lk as <-. specialize (U (or_intror C) n L'). rewrite C in U. discriminate.
      - intros C. apply U. destruct C as [->|[C1 C2]]; [auto|]. right. destruct (kind n); cbn in KF; congruence. }
    destruct (kind n) eqn:Kn; try (apply File; reflexivity); try (apply Plain; reflexivity); try (apply Same; reflexivity).
    + (* a directory *)
      destruct (srcid_flags x d W) as [d1 [E1 [F1 C1]]]. rewrite E1. cbn [obind]. pose proof (flags_base _ _ F1 W) as W1.
      assert (forall y, lookup d1 y = lookup d y) as Lk1 by (intros; apply flags_lookup; exact F1). pose proof (shrunk_flags _ _ W F1) as S1.
      set (g := fun e : nat * ntype => if ntype_eqb (snd e) TDir then force else true).
      assert (tame d1 x) as Tm1 by (apply (tame_kept d d1); auto).
      destruct (children_gone N (fun e => del_id fuel (fst e) (g e)) g x (dir_entries d1 x) d1 q) as [d2 [q2 [E2 [D2 [H2 P2]]]]].
      * exact W1.
      * intros y m. rewrite Lk1. apply Bd.
      * apply dir_entries_nodup. exact W1.
      * intros e I. split; [apply dir_entries_spec; auto|eapply tame_child; eauto].
      * intros e d0 q0 _ W0 Bd0 [m [Lm [Dm [Te Km]]]] Tm0. destruct (IH N (fst e) (g e) d0 q0 m W0 Tm0 Bd0) as [d' [q' [E' [D' [H' [P' U']]]]]]; auto.
        { destruct (b_parent _ W0 (fst e) m Lm Te) as [_ Hlt]. lia. }
        exists d', q'. split; [exact E'|]. rewrite <- Km. auto.
      * unfold g in E2 at 1. rewrite E2. cbn [obind]. clear E2.
        pose proof (de_shrunk _ _ _ _ D2) as S2. pose proof (shrunk_base _ _ W1 S2) as W2.
        assert (lookup d2 x = Some n) as L2.
        { rewrite (de_out _ _ _ _ D2); [rewrite Lk1; exact L|]. intros [e [I He]]. apply dir_entries_spec in I as [m [Lm [Dm [Te _]]]]; auto. apply (below_le _ _ _ W1) in He.
          destruct (b_parent _ W1 _ _ Lm Te) as [_ Hlt]. lia. }
        set (d3 := match child d2 x (B "Tupfile") with Some t => set_dependent_dir_flags t d2 | None => d2 end).
        assert (flags_only d2 d3) as F3 by (unfold d3; destruct (child d2 x (B "Tupfile")); [apply flags_create|apply flags_refl]).
        assert (lookup d3 (dir n) <> None) as Pn. { rewrite (flags_lookup _ _ _ F3). apply (b_parent _ W2 x n L2 T). }
        destruct (lookup d3 (dir n)) as [p|] eqn:Lp; [|congruence].
        set (d4 := set_dependent_flags x _). assert (flags_only d2 d4) as F4.
        { eapply flags_trans; [exact F3|]. unfold d4. eapply flags_trans; [|apply flags_dependent]. destruct (ntype_eqb (kind p) TDir); [apply flags_create|apply flags_refl]. }
        pose proof (flags_base _ _ F4 W2) as W4. assert (forall y, lookup d4 y = lookup d2 y) as Lk4 by (intros; apply flags_lookup; exact F4).
        assert (lookup d4 x = Some n) as L4 by (rewrite Lk4; exact L2). pose proof (shrunk_flags _ _ W2 F4) as S4.
        destruct (dnf d4 x n q2 W4 L4 T) as [d' [q' [E [R _]]]]. rewrite E. exists d', q'. split; [reflexivity|].
        assert (forall y m, lookup d4 y = Some m -> dir m = x -> y <> top -> real (kind m) = false) as NR.
        { intros y m. rewrite Lk4. intros Ly Dy Ty. destruct (sh_from _ _ S2 y m Ly) as [m1 [L1' [D1' _]]].
          assert (In (y, kind m1) (dir_entries d1 x)) as I by (apply dir_entries_spec; auto; exists m1; cbn; repeat split; auto; congruence).
          destruct (P2 _ I) as [_ U]. cbn in U. unfold g in U. cbn in U. destruct (ntype_eqb (kind m1) TDir) eqn:KD.
          - apply ntype_eqb_eq in KD. rewrite KD in U. apply U; [right; split; discriminate|exact Ly].
          - apply U; [left; reflexivity|exact Ly]. }
        split; [|split; [|split]].
        -- assert (deleted (below d1 x) (fun y => exists e, In e (dir_entries d1 x) /\ y = fst e) d1 d') as DD.
           { eapply deleted_trans with (e := d2) (D2 := fun y => y = x) (E2 := fun _ => False); [..|exact D2|].
             - intros y Hy. apply below_child; auto.
             - intros y ->. constructor.
             - intros y Hy Ny. apply below_child in Hy as [Hy|Hy]; auto. contradiction.
             - intros y. destruct (Nat.eq_dec y x) as [->|Nx].
               + right. intros [e [I He]]. apply dir_entries_spec in I as [m [Lm [Dm [Te _]]]]; auto. apply (below_le _ _ _ W1) in He. destruct (b_parent _ W1 _ _ Lm Te) as [_ Hlt]. lia.
               + destruct (below_dec d1 x W1 y) as [Hy|Hy].
                 * apply below_child in Hy as [Hy|Hy]; auto.
                 * right. intros H. apply Hy. apply below_child; auto.
             - intros y [e [I [Ey _]]]. eauto.
             - intros y [].
             - eapply deleted_trans with (e := d4) (D1 := fun _ => False) (D2 := fun y => y = x) (E1 := fun _ => False) (E2 := fun _ => False); [..|apply (deleted_flags _ _ W2 F4)|]; try tauto.
               apply (removed_deleted _ x n _ _ R L4); intros C; congruence. }
           (* the sources of the files in it were flagged *)
           assert (deleted (below d x) (fun y => exists e, In e (dir_entries d1 x) /\ y = fst e) d d') as D3.
           { eapply deleted_trans with (e := d1) (D1 := fun _ => False) (E1 := fun _ => False); [..|apply (deleted_flags _ _ W F1)|exact DD]; try tauto.
             - intros y Hy. eapply shrunk_below; eauto.
             - intros y Hy _. eapply below_kept; [|exact Hy]. auto. }
           destruct D3 as [X1 X2 X3 X4 X5 X6 X7 X8]. split; auto. intros y m Hy Ly Ky N1 N2. destruct (X8 y m Hy Ly Ky N1 N2) as [A|[A1 [A2 A3]]]; [auto|]. right. split; [exact A1|]. split; [exact A2|].
           intros _ s Es Ks Ns. destruct (Nat.eq_dec (dir m) x) as [Dx|Dx].
           ++ apply (de_create _ _ _ _ DD).
              ** apply (C1 y m s); auto. intros ->. apply Ns. constructor.
              ** intros H. apply Ns. exact (shrunk_below _ _ _ _ S1 H).
           ++ apply A3; auto. intros [e [I Ey]]. apply dir_entries_spec in I as [k [Lk [Dk _]]]; auto. rewrite <- Ey, Lk1, Ly in Lk. injection Lk as <-. contradiction.
        -- assert (homed d d1) as H1 by (apply homed_same; exact Lk1). assert (homed d2 d4) as H4 by (apply homed_same; exact Lk4).
           eapply homed_trans; [apply R| |apply (removed_homed x n _ _ R L4); auto]. eapply homed_trans; [exact S4| |exact H4]. eapply homed_trans; [exact S2|exact H1|exact H2].
        -- pose proof (rm_shrunk _ _ _ R) as SR. pose proof (shrunk_base _ _ W4 SR) as W'. apply purged_up; auto.
           ++ intros n' L'. rewrite (rm_self _ _ _ R n' L'). split; discriminate.
           ++ intros e I. assert (shrunk d1 d') as S1' by (eapply shrunk_trans; [exact S2|eapply shrunk_trans; [exact S4|exact SR]]).
              destruct (entries_shrunk d1 d' x e W1 X S1' I) as [e0 [I0 <-]]. destruct (P2 e0 I0) as [P _]. eapply purged_shrunk; [|exact P]. eapply shrunk_trans; [exact S4|exact SR].
        -- intros _. apply (removed_unreal _ _ _ R).
    + (* a generated directory *)
      match goal with |- context [obind (if force then ?a else ?b) _] => set (fs := if force then a else b) end.
      assert (exists d1 q1, fs = Ok (d1, q1)
          /\ base d1 /\ shrunk d d1 /\ (forall y, y <> x -> lookup d1 y = lookup d y) /\ normal d1 = normal d /\ incl (modify d) (modify d1) /\ incl (create d) (create d1) /\ incl (config d) (config d1)
          /\ (exists n1, lookup d1 x = Some n1 /\ kind n1 = if force then TGhost else TGeneratedDir)
          /\ (force = true -> forall y n s, lookup d y = Some n -> dir n = x -> kind n = TGenerated -> src n = Some s -> s <> x -> is_kind d TDir s -> In s (create d1)))
        as [d1 [q1 [E1 [W1 [S1 [O1 [NL1 [M1 [Cr1 [Cf1 [X1 Src1]]]]]]]]]]].
      { unfold fs. destruct force.
        - destruct (srcid_flags x d W) as [d1 [E1 [F1 C1]]]. rewrite E1. cbn [obind]. pose proof (flags_base _ _ F1 W) as W1.
          assert (forall y, lookup d1 y = lookup d y) as Lk1 by (intros; apply flags_lookup; exact F1).
          assert (shrunk d1 (update_node x (set_kind TGhost) d1)) as S2 by (apply shrunk_ghost; auto; intros m; cbn; auto 10).
          set (d2 := update_node x (set_kind TGhost) d1) in *. cbv zeta.
          assert (forall y, lookup d2 y = if y =? x then option_map (set_kind TGhost) (lookup d y) else lookup d y) as E by (intros y; unfold d2; rewrite lookup_update, Lk1; reflexivity).
          assert (lookup d2 x = Some (set_kind TGhost n)) as L2 by (rewrite E, Nat.eqb_refl, L; reflexivity).
          destruct (queue_add_some d2 x q) as [q1 Q1]; [congruence|]. rewrite Q1. exists d2, q1. split; [reflexivity|]. split; [eapply shrunk_base; eauto|].
          split; [eapply shrunk_trans; [apply (shrunk_flags _ _ W F1)|exact S2]|]. split; [intros y Y; rewrite E; apply Nat.eqb_neq in Y; rewrite Y; reflexivity|].
          destruct F1 as [_ [F2 [_ [F4 [F5 F6]]]]]. split; [exact F2|]. split; [exact F4|]. split; [exact F5|]. split; [exact F6|]. split; [eauto|]. intros _. exact C1.
        - exists d, q. split; [reflexivity|]. split; [exact W|]. split; [apply shrunk_refl; exact W|]. split; [reflexivity|]. split; [reflexivity|].
          split; [apply incl_refl|]. split; [apply incl_refl|]. split; [apply incl_refl|]. split; [eauto|]. discriminate. }
      rewrite E1. cbn [obind fst]. clear E1.
      assert (forall e, In e (dir_entries d1 x) -> fst e <> x) as Ne.
      { intros e I Ee. apply dir_entries_spec in I as [m [Lm [Dm [Te _]]]]; auto. destruct (b_parent _ W1 _ _ Lm Te) as [_ P]. lia. }
      assert (forall e y, In e (dir_entries d1 x) -> below d1 (fst e) y -> y <> x) as Nb.
      { intros e y I H ->. apply dir_entries_spec in I as [m [Lm [Dm [Te _]]]]; auto. apply (below_le _ _ _ W1) in H. destruct (b_parent _ W1 _ _ Lm Te) as [_ P]. lia. }
      destruct (children_gone N (fun e => del_id fuel (fst e) force) (fun _ => force) x (dir_entries d1 x) d1 q1) as [d' [q' [E2 [D2 [H2 P2]]]]].
      * exact W1.
      * intros y m Ly. destruct (sh_from _ _ S1 y m Ly) as [k [Lk _]]. eauto.
      * apply dir_entries_nodup. exact W1.
      * intros e I. split; [apply dir_entries_spec; auto|]. intros y m Hy Ny Ly R. pose proof (Nb e y I Hy) as Yx.
        assert (below d1 x y) as Bx by (apply below_child; eauto). apply (shrunk_below _ _ _ _ S1) in Bx. rewrite (O1 y Yx) in Ly.
        destruct (Tm y m Bx Yx Ly R) as [p [Lp Ip]]. exists p. split; [|exact Ip]. rewrite O1; [exact Lp|].
        inversion Hy as [|z y' k Hz Lz Tz Dz]; subst; [congruence|]. rewrite (O1 y Yx), Ly in Lz. injection Lz as <-. exact (Nb e (dir m) I Hz).
      * intros e d0 q0 _ W0 Bd0 [m [Lm [Dm [Te Km]]]] Tm0. destruct (IH N (fst e) force d0 q0 m W0 Tm0 Bd0) as [d' [q' [E' [D' [H' [P' U']]]]]]; auto.
        { destruct (b_parent _ W0 (fst e) m Lm Te) as [_ Hlt]. lia. }
        exists d', q'. split; [exact E'|]. rewrite <- Km. auto.
      * exists d', q'. split; [exact E2|]. pose proof (de_shrunk _ _ _ _ D2) as S2. assert (shrunk d d') as S by (eapply shrunk_trans; eauto). pose proof (shrunk_base _ _ W S) as W'.
        assert (lookup d' x = lookup d1 x) as Lx. { apply (de_out _ _ _ _ D2). intros [e [I He]]. exact (Nb e x I He eq_refl). }
        assert (forall y, below d x y -> y <> x -> exists e, In e (dir_entries d1 x) /\ below d1 (fst e) y) as Bl.
        { intros y H. induction H as [|z y m Hz IHz Lz Tz Dz]; intros Ny; [congruence|]. assert (lookup d1 y = Some m) as Ly by (rewrite O1; auto). destruct (Nat.eq_dec z x) as [->|Nz].
          - exists (y, kind m). split; [apply dir_entries_spec; auto; exists m; auto|constructor].
          - destruct (IHz Nz) as [e [I He]]. exists e. split; [exact I|]. econstructor; eauto. }
        assert (forall y, ~ below d x y -> y <> x /\ ~ exists e, In e (dir_entries d1 x) /\ below d1 (fst e) y) as NBl.
        { intros y Hy. split; [intros ->; apply Hy; constructor|]. intros He. apply Hy. apply (shrunk_below _ _ _ _ S1). apply below_child; auto. }
        assert (forall a, ~ below d x a \/ is_kind d' TCmd a -> (~ exists e, In e (dir_entries d1 x) /\ below d1 (fst e) a) \/ is_kind d' TCmd a) as Kp by (intros a [Ha|Ha]; [left; apply NBl; exact Ha|auto]).
        split; [|split; [|split]].
        -- split.
           ++ exact S.
           ++ intros y Hy. destruct (NBl y Hy) as [Yx Hy']. rewrite (de_out _ _ _ _ D2 y Hy'). auto.
           ++ intros a b H Ka Kb. apply (de_links _ _ _ _ D2); auto. rewrite NL1. exact H.
           ++ intros c H Kc. apply (de_modify _ _ _ _ D2); auto.
           ++ intros c H Kc. apply (de_create _ _ _ _ D2); [auto|]. apply NBl. exact Kc.
           ++ intros c H Kc. apply (de_config _ _ _ _ D2); [auto|]. apply NBl. exact Kc.
           ++ intros y m c Hy Ly Ky Nm H. destruct (Nat.eq_dec y x) as [->|Nx]; [congruence|]. apply (de_file _ _ _ _ D2 y m c); auto; [rewrite O1; auto|rewrite NL1; exact H].
           ++ intros y m Hy Ly Ky N1 N2. destruct (Nat.eq_dec y x) as [->|Nx]; [congruence|]. assert (lookup d1 y = Some m) as Ly1 by (rewrite O1; auto).
              destruct (de_generated _ _ _ _ D2 y m (Bl y Hy Nx) Ly1 Ky N1 N2) as [A|[A1 [A2 A3]]].
              ** left. intros c Hc. apply A. rewrite NL1. exact Hc.
              ** right. split; [intros c Hc; apply A1; rewrite NL1; exact Hc|]. split; [exact A2|]. intros _ s Es Ks Ns. destruct (NBl s Ns) as [Sx Ns'].
                 destruct force.
                 --- destruct (Nat.eq_dec (dir m) x) as [Dx|Dx].
                     +++ apply (de_create _ _ _ _ D2); [|exact Ns']. apply (Src1 eq_refl y m s); auto.
                     +++ apply A3; auto.
                         *** intros [e [I [Ey _]]]. apply dir_entries_spec in I as [k [Lk [Dk _]]]; auto. rewrite <- Ey, Ly1 in Lk. injection Lk as <-. contradiction.
                         *** destruct Ks as [k [Lk Kk]]. exists k. rewrite O1; auto.
                 --- apply A3; auto; [intros [e [_ [_ C]]]; discriminate|]. destruct Ks as [k [Lk Kk]]. exists k. rewrite O1; auto.
        -- intros y n' m Ly R Ty Lm I. destruct (Nat.eq_dec (dir n') x) as [Dx|Dx].
           ++ destruct force.
              ** exfalso. destruct (sh_from _ _ S2 y n' Ly) as [k [Lk [Dk _]]]. assert (In (y, kind k) (dir_entries d1 x)) as Ie by (apply dir_entries_spec; auto; exists k; cbn; repeat split; auto; congruence).
                 destruct (P2 _ Ie) as [_ U]. specialize (U (or_introl eq_refl) n' Ly). congruence.
              ** destruct X1 as [n1 [Ln1 Kn1]]. exists n1. rewrite Dx, Lx. split; [exact Ln1|]. rewrite Kn1. reflexivity.
           ++ apply (H2 y n' m); auto. rewrite O1; auto.
        -- apply purged_up; auto.
           ++ intros n' L'. rewrite Lx in L'. destruct X1 as [n1 [Ln1 Kn1]]. rewrite Ln1 in L'. injection L' as <-. rewrite Kn1. destruct force; split; discriminate.
           ++ intros e I. destruct (entries_shrunk d1 d' x e W1 X S2 I) as [e0 [I0 <-]]. apply (P2 e0 I0).
        -- intros [->|[_ C]]; [|congruence]. intros n' L'. rewrite Lx in L'. destruct X1 as [n1 [Ln1 Kn1]]. rewrite Ln1 in L'. injection L' as <-. rewrite Kn1. reflexivity.
Qed.
