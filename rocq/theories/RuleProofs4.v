From Verif Require Import Base ConfigModel DbModel DbSpec DbProofs DbProofs2 DbProofs3 RuleModel RuleSpec RuleProofs RuleProofs2 RuleProofs3.

(** Outputs that are taken. *)
Definition taken (p : pst) (x : nat) : Prop :=
  exists n, lookup (pdb p) x = Some n /\
  ((kind n <> TGhost /\ kind n <> TGenerated) \/
   (kind n = TGenerated /\ exists c, produces (pdb p) c x /\ ~ In c (pdel p) /\ forall s, src n = Some s -> ~ In s (pwait p))).

Lemma validate_taken p dt name x : wf p -> find_in (pdb p) dt name = Some x -> taken p x -> validate_output dt name p = None.
Proof.
  intros W F [n [L T]]. unfold validate_output. rewrite F, L. destruct T as [[N1 N2]|[K [c [P [Nd Nw]]]]].
  - destruct (kind n); try reflexivity; contradiction.
  - rewrite K. destruct (get_incoming x p) as [[o p1]|] eqn:G; [|reflexivity].
    destruct (get_incoming_spec _ _ _ _ G W) as [_ [_ [[A1 [A2 _]] I]]]; [exists n; auto|]. rewrite (I c P), A1, A2.
    assert (existsb (Nat.eqb c) (pdel p) = false) as -> by (apply mem_false; exact Nd).
    destruct (src n) as [s|]; [|reflexivity]. assert (existsb (Nat.eqb s) (pwait p) = false) as -> by (apply mem_false; auto). reflexivity.
Qed.

Lemma outputs_taken tf outs : forall p dt name x, wf p -> In (dt, name) outs -> find_in (pdb p) dt name = Some x -> taken p x -> rule_outputs tf outs p = None.
Proof.
  induction outs as [|[dt' name'] outs IH]; intros p dt name x W I F T; [destruct I|]. cbn [rule_outputs].
  destruct (Nat.eq_dec dt' dt) as [->|Nd]; [destruct (bytes_eqb name' name) eqn:En|].
  - apply bytes_eqb_eq in En. subst name'. rewrite (validate_taken _ _ _ _ W F T). reflexivity.
  - destruct I as [I|I]; [injection I as ->; rewrite (proj2 (bytes_eqb_eq name name) eq_refl) in En; discriminate|].
    destruct (validate_output dt name' p) as [p1|] eqn:V; [|reflexivity]. destruct (validate_output_spec _ _ _ _ V W) as [W1 [D1 [A1 [A2 A3]]]].
    destruct (create_output dt name' tf p1) as [[[y b] p2]|] eqn:C; [|reflexivity]. destruct (create_output_spec _ _ _ _ _ _ _ C W1) as [W2 [K2 [G2 [[B1 [B2 B3]] [[ny [Ly [_ [Dy Ny]]]] O2]]]]].
    assert (y <> x) as Nyx.
    { intros ->.  pose proof (create_output_find _ _ _ _ _ _ _ C dt name x ltac:(rewrite D1; exact F)) as F2. destruct (find_in_lookup _ _ _ _ (s_ids _ (w_sound _ W2)) F2) as [m [Lm [_ Nm]]].
      assert (name' = name) as X by congruence. rewrite X in En. rewrite (proj2 (bytes_eqb_eq name name) eq_refl) in En. discriminate. }
    assert (T2 : taken p2 x).
    { destruct T as [n [L T]]. exists n. split; [apply O2; [congruence|rewrite D1; exact L]|]. destruct T as [T|[K [c [P [Nc Nw]]]]]; [left; exact T|right]. split; [exact K|]. exists c. rewrite B1, B2, A1, A2. split; [|auto].
      apply G2; rewrite D1; [exact P| |]; intros [m [Lm Km]]; [|congruence]. destruct (s_commands _ (w_sound _ W) c x P) as [m' [Lm' Km']]; [left; exists n; auto|congruence]. }
    rewrite (IH p2 dt name x W2 I); [reflexivity| |exact T2]. apply (create_output_find _ _ _ _ _ _ _ C). rewrite D1. exact F.
  - destruct I as [I|I]; [congruence|].
    destruct (validate_output dt' name' p) as [p1|] eqn:V; [|reflexivity]. destruct (validate_output_spec _ _ _ _ V W) as [W1 [D1 [A1 [A2 A3]]]].
    destruct (create_output dt' name' tf p1) as [[[y b] p2]|] eqn:C; [|reflexivity]. destruct (create_output_spec _ _ _ _ _ _ _ C W1) as [W2 [K2 [G2 [[B1 [B2 B3]] [[ny [Ly [_ [Dy Ny]]]] O2]]]]].
    assert (y <> x) as Nyx.
    { intros ->. pose proof (create_output_find _ _ _ _ _ _ _ C dt name x ltac:(rewrite D1; exact F)) as F2. destruct (find_in_lookup _ _ _ _ (s_ids _ (w_sound _ W2)) F2) as [m [Lm [Dm _]]]. congruence. }
    assert (T2 : taken p2 x).
    { destruct T as [n [L T]]. exists n. split; [apply O2; [congruence|rewrite D1; exact L]|]. destruct T as [T|[K [c [P [Nc Nw]]]]]; [left; exact T|right]. split; [exact K|]. exists c. rewrite B1, B2, A1, A2. split; [|auto].
      apply G2; rewrite D1; [exact P| |]; intros [m [Lm Km]]; [|congruence]. destruct (s_commands _ (w_sound _ W) c x P) as [m' [Lm' Km']]; [left; exists n; auto|congruence]. }
    rewrite (IH p2 dt name x W2 I); [reflexivity| |exact T2]. apply (create_output_find _ _ _ _ _ _ _ C). rewrite D1. exact F.
Qed.

(** Histories. *)
Lemma wf_else p d : wf p -> elsewhere (pdb p) d -> (forall c, is_kind (pdb p) TCmd c -> is_kind d TCmd c) -> wf (with_db p d).
Proof.
  intros [W1 W2 W3 W4] [E1 E2 E3] Kc. split; cbn [pdb with_db cache].
  - exact E1.
  - intros x a b K P1 P2. apply (W2 x); auto.
  - intros x c K E a P. apply (W3 x c); auto.
  - intros x c E. apply Kc. eauto.
Qed.
Lemma wf_restart p d waiting : wf p -> elsewhere (pdb p) d -> wf {| pdb := d; cache := fun _ => None; pdel := []; pwait := waiting; pcmds := []; pq := [] |}.
Proof.
  intros [W1 W2 W3 W4] [E1 E2 E3]. split; cbn [pdb cache]; [exact E1| |discriminate|discriminate]. intros x a b K P1 P2. apply (W2 x); auto.
Qed.
Lemma wf_history p p' : history p p' -> wf p -> wf p'.
Proof.
  intros H. induction H as [p|p p' tf H IH|p p' p'' tf r H IH D|p p' p'' x o H IH K G|p p' d H IH E K|p p' d w H IH E]; intros W.
  - exact W.
  - apply (wf_same p'); [reflexivity|reflexivity|auto].
  - destruct (declare_spec _ _ _ _ D (IH W)) as [X _]. exact X.
  - destruct (get_incoming_wf _ _ _ _ G (IH W)) as [X _]; auto.
  - apply wf_else; auto.
  - apply (wf_restart p'); auto.
Qed.

(** What the other operations of the model do. *)
Lemma elsewhere_refl d : sound d -> elsewhere d d.
Proof. intros S. split; auto. Qed.
Lemma elsewhere_trans a b c : elsewhere a b -> elsewhere b c -> elsewhere a c.
Proof. intros [A1 A2 A3] [B1 B2 B3]. split; auto. Qed.
Lemma sound_rows d d' : nodes d' = nodes d -> normal d' = normal d -> sound d -> sound d'.
Proof. intros E1 E2 [S1 S2 S3 S4]. split; unfold produces, is_kind, lookup in *; rewrite ?E1, ?E2; auto. Qed.
Lemma elsewhere_flags d d' : sound d -> nodes d' = nodes d -> normal d' = normal d -> elsewhere d d'.
Proof.
  intros S E1 E2. split; [eapply sound_rows; eauto| |]; unfold produces, is_kind, lookup; rewrite ?E1, ?E2; auto.
Qed.

Lemma elsewhere_delete d x q d' q' : sound d -> delete_name_file d x q = Some (d', q') -> elsewhere d d'.
Proof.
  intros S H. unfold delete_name_file in H. destruct (delete_links (unflag x d) x q) as [[d1 q1]|] eqn:E; [|discriminate].
  apply delete_links_spec in E as [E1 [E2 [E3 _]]]. cbn in E1, E2. unfold delete_node in H. destruct (lookup d1 x) as [n|] eqn:L; [|discriminate].
  assert (Ld : forall y, lookup d1 y = lookup d y) by (intros y; unfold lookup; rewrite E1; reflexivity).
  destruct (match src n with Some s => _ | None => _ end) as [q2|]; [|discriminate]. destruct S as [S1 S2 S4 S3].
  assert (IL : forall a b, In (a, b) (normal d1) -> a <> x /\ b <> x) by (intros a b I; split; intros ->; [exact (proj2 (E3 b) I)|exact (proj1 (E3 a) I)]).
  destruct (node_has_ghosts d1 x).
  - injection H as <- <-. set (f := fun n => set_src None (set_kind TGhost n)). set (d2 := if ntype_eqb (kind n) TDir then add_create [x] d1 else d1).
    assert (nodes d2 = nodes d1 /\ normal d2 = normal d1) as [N2 M2] by (unfold d2; destruct (ntype_eqb _ _); auto).
    assert (LU : forall y, lookup (update_node x f d2) y = if y =? x then option_map f (lookup d y) else lookup d y) by (intros y; rewrite lookup_update; unfold lookup; rewrite N2, E1; reflexivity).
    assert (KU : forall k y, y <> x -> is_kind (update_node x f d2) k y <-> is_kind d k y) by (intros k y N; unfold is_kind; rewrite LU; apply Nat.eqb_neq in N; rewrite N; reflexivity).
    assert (NU : normal (update_node x f d2) = normal d1) by (cbn; exact M2).
    split.
    + split; unfold produces; rewrite ?NU.
      * rewrite ids_update, N2, E1. exact S1.
      * intros a b I. destruct (IL a b I) as [Na Nb]. apply E2, S2 in I. rewrite !LU. apply Nat.eqb_neq in Na, Nb. rewrite Na, Nb. exact I.
      * intros a I. exact (S4 a (E2 _ I)).
      * intros a b P K. destruct (IL a b P) as [Na Nb]. apply (KU _ a Na). apply (S3 a b (E2 _ P)). destruct K as [K|K]; apply (KU _ b Nb) in K; auto.
    + intros y K. destruct (Nat.eq_dec y x) as [->|N]; [|apply (KU _ y N); exact K]. destruct K as [m [Lm Km]]. rewrite LU, Nat.eqb_refl in Lm. destruct (lookup d x); [|discriminate]. injection Lm as <-. discriminate.
    + intros a y K P. unfold produces in *. rewrite NU in P. apply E2. exact P.
  - destruct (queue_add d1 (dir n) q2) as [q3|]; [|discriminate]. injection H as <- <-. set (d2 := with_nodes d1 _).
    assert (LU : forall y, lookup d2 y = if y =? x then None else lookup d y).
    { intros y. unfold lookup, d2. cbn [nodes with_nodes]. rewrite E1. clear. induction (nodes d) as [|[z m] l IH]; cbn; [destruct (y =? x); reflexivity|].
      destruct (z =? x) eqn:E; cbn; rewrite IH; destruct (y =? z) eqn:E2; auto; apply Nat.eqb_eq in E2; subst z; rewrite E; auto. }
    assert (KU : forall k y, is_kind d2 k y -> is_kind d k y /\ y <> x).
    { intros k y [m [Lm Km]]. rewrite LU in Lm. destruct (y =? x) eqn:E; [discriminate|]. apply Nat.eqb_neq in E. split; [exists m; auto|exact E]. }
    split.
    + split; unfold produces; cbn [normal d2 with_nodes].
      * cbn [nodes d2 with_nodes]. rewrite E1. clear - S1. induction (nodes d) as [|[z m] l IH]; [constructor|]. cbn in *. apply NoDup_cons_iff in S1 as [N ND]. destruct (z =? x); cbn; [auto|].
        constructor; [|auto]. intros I. apply N. apply in_map_iff in I as [[z' m'] [Ez I]]. apply filter_In in I as [I _]. apply in_map_iff. exists (z', m'). auto.
      * intros a b I. destruct (IL a b I) as [Na Nb]. apply E2, S2 in I. rewrite !LU. apply Nat.eqb_neq in Na, Nb. rewrite Na, Nb. exact I.
      * intros a I. exact (S4 a (E2 _ I)).
      * intros a b P K. destruct (IL a b P) as [Na Nb]. destruct (S3 a b (E2 _ P)) as [m [Lm Km]]; [destruct K as [K|K]; apply KU in K; tauto|]. exists m. rewrite LU. apply Nat.eqb_neq in Na. rewrite Na. auto.
    + intros y K. apply KU in K. tauto.
    + intros a y K P. apply E2. exact P.
Qed.

Lemma elsewhere_kind d x f : sound d -> (forall n, kind (f n) = kind n \/ (kind n <> TCmd /\ kind (f n) <> TGenerated /\ kind (f n) <> TGhost)) -> elsewhere d (update_node x f d).
Proof.
  intros [S1 S2 S4 S3] H.
  assert (KB : forall k y, (k = TGenerated \/ k = TGhost) -> is_kind (update_node x f d) k y -> is_kind d k y).
  { intros k y Kk [m [Lm Km]]. rewrite lookup_update in Lm. destruct (y =? x); [|exists m; auto]. destruct (lookup d y) as [n|] eqn:E; [|discriminate]. injection Lm as <-. exists n. split; [exact E|].
    destruct (H n) as [X|[X1 [X2 X3]]]; [congruence|]. destruct Kk; congruence. }
  split.
  - split; unfold produces; cbn [normal update_node with_nodes].
    + rewrite ids_update. exact S1.
    + intros a b I. apply S2 in I as [I1 I2]. rewrite !lookup_update. split; [destruct (a =? x); [destruct (lookup d a); [discriminate|contradiction]|exact I1]|destruct (b =? x); [destruct (lookup d b); [discriminate|contradiction]|exact I2]].
    + exact S4.
    + intros a b P K. destruct (S3 a b P) as [m [Lm Km]]; [destruct K as [K|K]; apply KB in K; auto|].
      unfold is_kind. rewrite lookup_update. destruct (a =? x); [|exists m; auto]. rewrite Lm. cbn. exists (f m). split; [reflexivity|]. destruct (H m) as [X|[X _]]; congruence.
  - intros y K. apply KB in K; auto.
  - intros a y K P. exact P.
Qed.

(** Deleted and changed files. *)
Lemma elsewhere_file_mod x mtime force ign d d' : sound d -> file_mod x mtime force ign d = Some d' -> elsewhere d d'.
Proof.
  intros S H. unfold file_mod in H. destruct (lookup d x) as [n|] eqn:L; [|discriminate].
  set (changed := negb (Z.eqb (time n) mtime) || _) in *.
  assert (K : kind n = TFile \/ kind n = TGenerated \/ kind n = TGhost) by (destruct (kind n); auto; discriminate).
  set (d1 := if ntype_eqb (kind n) TGhost then ghost_to_file x n d else d) in *.
  assert (E1 : elsewhere d d1).
  { unfold d1. destruct (ntype_eqb (kind n) TGhost) eqn:Kg; [|apply elsewhere_refl; exact S]. assert (kind n = TGhost) as Kn by (destruct (kind n); cbn in Kg; congruence).
    assert (E0 : elsewhere d (update_node x (fun m => if ntype_eqb (kind m) TGhost then set_kind TFile m else m) d)).
    { apply elsewhere_kind; [exact S|]. intros m. destruct (kind m) eqn:Km; cbn; rewrite ?Km; cbn; auto. right. repeat split; discriminate. }
    unfold ghost_to_file. eapply elsewhere_trans; [exact E0|]. apply elsewhere_flags; [apply E0| |].
    - assert (nodes (update_node x (set_kind TFile) d) = nodes (update_node x (fun m => if ntype_eqb (kind m) TGhost then set_kind TFile m else m) d)) as X.
      { unfold update_node. cbn. unfold lookup in L. pose proof (s_ids _ S) as ND. revert L ND. induction (nodes d) as [|[y m] l IH]; [reflexivity|]. cbn. intros L ND. apply NoDup_cons_iff in ND as [N ND]. destruct (x =? y) eqn:E.
        - apply Nat.eqb_eq in E. subst y. injection L as ->. rewrite Nat.eqb_refl, Kn. cbn. f_equal. apply map_ext_in. intros [z k] I. cbn. destruct (z =? x) eqn:Ez; [|reflexivity].
          apply Nat.eqb_eq in Ez. subst z. exfalso. apply N. apply in_map_iff. exists (x, k). auto.
        - rewrite Nat.eqb_sym in E. rewrite E. f_equal. auto. }
      destruct (has_kind _ _ _); exact X.
    - destruct (has_kind _ _ _); reflexivity. }
  set (d2 := if changed then _ else d1) in H.
  assert (E2 : elsewhere d1 d2).
  { unfold d2. destruct changed; [|apply elsewhere_refl, E1]. eapply elsewhere_trans; [|apply elsewhere_kind].
    - apply elsewhere_flags; [apply E1| |]; destruct (ntype_eqb (kind n) TGenerated); reflexivity.
    - eapply sound_rows; [| |apply E1]; destruct (ntype_eqb (kind n) TGenerated); reflexivity.
    - auto. }
  assert (d' = (if changed && bytes_eqb (nname n) (B "tup.config") then add_config [x] d2 else d2)) as -> by (destruct K as [K|[K|K]]; rewrite K in H; injection H as <-; reflexivity).
  eapply elsewhere_trans; [exact E1|]. eapply elsewhere_trans; [exact E2|]. apply elsewhere_flags; [apply E2| |]; destruct (changed && _); reflexivity.
Qed.
Lemma elsewhere_file_del x force d q d' q' n : sound d -> lookup d x = Some n -> nname n <> B "tup.config" -> file_del x force d q = Some (d', q') -> elsewhere d d'.
Proof.
  intros S L T H. unfold file_del in H. rewrite L in H. destruct (bytes_eqb (nname n) (B "tup.config")) eqn:E; [apply bytes_eqb_eq in E; contradiction|].
  assert (DF : forall e, nodes e = nodes d -> normal e = normal d -> forall q e' q', delete_name_file e x q = Some (e', q') -> elsewhere d e').
  { intros e N1 N2 q1 e' q1' Hd. eapply elsewhere_trans; [apply (elsewhere_flags d e); assumption|]. eapply elsewhere_delete; [|exact Hd]. eapply sound_rows; eauto. }
  destruct (kind n); try discriminate.
  - eapply DF; [| |exact H]; destruct force; reflexivity.
  - destruct force; [eapply DF; [| |exact H]; reflexivity|]. destruct (bytes_eqb (nname n) (B ".gitignore")); injection H as <- <-; apply elsewhere_flags; auto.
  - injection H as <- <-. apply elsewhere_refl, S.
  - injection H as <- <-. apply elsewhere_refl, S.
Qed.
Lemma elsewhere_reclaim excl rmdir fuel : forall d q tmp d', sound d -> reclaim excl rmdir fuel d q tmp = Ok d' -> elsewhere d d'.
Proof.
  induction fuel as [|fuel IH]; intros d q tmp d' S H; [discriminate|]. cbn [reclaim] in H. destruct q as [|x q]; [injection H as <-; apply elsewhere_refl, S|].
  destruct (lookup d x) as [n|]; [|discriminate]. destruct (negb (ghostly (kind n))); [discriminate|]. destruct (ghost_reclaimable d excl x n && negb (bytes_eqb (nname n) (B "tup.config"))).
  - destruct (queue_add d (dir n) (remove_id x tmp)) as [tmp'|]; [|discriminate]. destruct (ntype_eqb (kind n) TGeneratedDir && negb (rmdir x)); [discriminate|].
    destruct (delete_name_file d x (remove_id (dir n) q)) as [[d2 q2]|] eqn:E; [|discriminate]. apply elsewhere_delete in E; [|exact S]. eapply elsewhere_trans; [exact E|].
    destruct q2; eapply IH; try exact H; apply E.
  - destruct q; eapply IH; try exact H; exact S.
Qed.
(** A command gets an input. *)
Lemma elsewhere_input d a c : sound d -> lookup d a <> None -> is_kind d TCmd c -> a <> c -> elsewhere d (link_insert a c d).
Proof.
  intros [S1 S2 S4 S3] La [n [L K]] N. split.
  - split; cbn [nodes link_insert with_links].
    + exact S1.
    + intros x y I. apply insert_in_links in I as [[-> ->]|I]; [|apply S2; exact I]. change (lookup d a <> None /\ lookup d c <> None). split; congruence.
    + intros x I. apply insert_in_links in I as [[-> ->]|I]; [congruence|exact (S4 x I)].
    + intros x y P Ky. apply insert_in_links in P as [[-> ->]|P]; [|exact (S3 x y P Ky)]. exfalso. change (is_kind d TGenerated c \/ is_kind d TGhost c) in Ky. destruct Ky as [[m [Lm Km]]|[m [Lm Km]]]; congruence.
  - auto.
  - intros x y Ky P. apply insert_in_links in P as [[-> ->]|P]; [|exact P]. exfalso. destruct Ky as [m [Lm Km]]. change (lookup d c = Some m) in Lm. congruence.
Qed.
