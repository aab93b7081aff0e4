(** The whole scan. *)
From Verif Require Import Base ConfigModel ParseModel PathModel DbModel DbSpec DbProofs DbProofs3 ScanModel ScanSpec ScanProofs ScanProofs2 ScanProofs3 ScanProofs4 ScanProofs5 ScanProofs6 ScanProofs7 ScanProofs8.
Require Import Lia Permutation.

Section Whole.
  Variable fuel : nat.
  Variable ord : list nat -> list nat.
  Hypothesis ord_perm : forall l, Permutation (ord l) l.
  Hypothesis fuel_two : 2 <= fuel.

  Lemma tree_scannable l : scannable (FDir l) -> ok_tree (B ".") (FDir l).
  Proof. intros [A C]. split; [exact A|]. split; [exact C|]. discriminate. Qed.
  Lemma clash_top d t : no_clash d t -> clash_free d t [].
  Proof. intros H u x n V G. rewrite app_nil_r in G. exact (H u x n V G). Qed.

  Lemma walk_ok l d : sound d -> scannable (FDir l) -> no_clash d (FDir l) ->
    exists d1 q, watch fuel ord (FDir l) 0 (B ".") (d, []) = Ok (d1, q) /\ sound d1 /\ agrees d1 (FDir l) /\
      effects (sub []) (fun r => r = []) (keep (FDir l) []) d d1 /\ noticed (sub []) (keep (FDir l) []) (on_disk (FDir l)) [] d d1.
  Proof.
    intros S Sc NC. apply sound_base in S as [W H]. destruct fuel as [|[|f]]; [lia|lia|].
    destruct (root_ok f ord ord_perm l d [] (tree_scannable l Sc) W H (clash_top d _ NC)) as [d1 [q [E [W1 [H1 [Ef [Ag No]]]]]]].
    exists d1, q. split; [exact E|]. split; [apply sound_base; auto|]. split; [|auto]. destruct Ag as [A1 A2 A3]. split.
    - intros r m V D. destruct (A1 r m V D) as [x [n [G R]]]. rewrite app_nil_r in G. eauto.
    - intros r l' V D. destruct (A2 r l' V D) as [x [n [G R]]]. rewrite app_nil_r in G. eauto.
    - intros r x n V I D G. apply (A3 r x n V); rewrite ?app_nil_r; assumption.
  Qed.

  Lemma sub_any r : r <> [] -> sub [] r.
  Proof. intros N. destruct (exists_last N) as [u [a ->]]. exists a. exists u. reflexivity. Qed.
  Lemma sub_dec r : sub [] r \/ r = [].
  Proof. destruct r; [auto|]. left. apply sub_any. discriminate. Qed.

  Variables (excl : nat) (rmdir : nat -> bool) (rounds : nat).
  Lemma scan_inv l d d2 : sound d -> scannable (FDir l) -> no_clash d (FDir l) -> tup_scan fuel ord excl rmdir rounds l d = Ok d2 ->
    exists d1, base d1 /\ agrees d1 (FDir l) /\ effects (sub []) (fun r => r = []) (keep (FDir l) []) d d1 /\ noticed (sub []) (keep (FDir l) []) (on_disk (FDir l)) [] d d1 /\ swept d1 d2.
  Proof.
    intros S Sc NC H. destruct (walk_ok l d S Sc NC) as [d1 [q [E [S1 [Ag [Ef No]]]]]]. unfold tup_scan in H. rewrite E in H. cbn [obind] in H.
    apply sound_base in S1 as [W1 _]. exists d1. repeat (split; [assumption|]). eapply reclaim_swept; eauto.
  Qed.
  Lemma cmd_back d1 d2 c : swept d1 d2 -> is_kind d2 TCmd c -> exists n, lookup d1 c = Some n /\ kind n = TCmd.
  Proof. intros Sw [n [L K]]. destruct (sh_from _ _ (sw_shrunk _ _ Sw) c n L) as [n1 [L1 [_ [_ [_ [->|[K1 _]]]]]]]; [eauto|congruence]. Qed.
  Lemma cmd_flag d1 d2 c : swept d1 d2 -> is_kind d2 TCmd c -> flagged_if_cmd d1 c -> In c (modify d2).
  Proof.
    intros Sw Kc F. destruct (cmd_back d1 d2 c Sw Kc) as [n [L K]]. apply (sw_modify _ _ Sw c n); [|exact L|rewrite K; reflexivity]. apply F. exists n. auto.
  Qed.

  Lemma scan_settled l d d2 : sound d -> scannable (FDir l) -> no_clash d (FDir l) -> tup_scan fuel ord excl rmdir rounds l d = Ok d2 -> settled d d2 (FDir l).
  Proof.
    intros S Sc NC H. destruct (scan_inv l d d2 S Sc NC H) as [d1 [W1 [[A1 A2 A3] [Ef [_ Sw]]]]]. split.
    - intros r m V D. destruct (A1 r m V D) as [x [n [G [F T]]]]. exists x, n. split; [eapply swept_path; eauto; apply file_solid; exact F|auto].
    - intros r l' V D. destruct (A2 r l' V D) as [x [n [G I]]]. destruct (kind n) eqn:K; try discriminate.
      + left. exists x, n. split; [eapply swept_path; eauto; rewrite K; reflexivity|rewrite K; reflexivity].
      + right. destruct (ef_gdir _ _ _ _ _ Ef r x n G K) as [n0 [G0 K0]]. eauto.
    - intros r x n V I D G. destruct (back_shrunk d1 d2 W1 (sw_shrunk _ _ Sw) r x n G) as [n1 [G1 [->|K]]]; [exact (A3 r x n1 V I D G1)|rewrite K; split; discriminate].
  Qed.

  Lemma scan_changed l d d2 : sound d -> scannable (FDir l) -> no_clash d (FDir l) -> tup_scan fuel ord excl rmdir rounds l d = Ok d2 ->
    forall r x n c, visible r -> inside r -> at_path d r x n -> kind n = TFile -> nname n <> B "tup.config" -> on_disk (FDir l) r <> Some (FFile (time n)) ->
      In (x, c) (normal d) -> is_kind d2 TCmd c -> scheduled d2 c.
  Proof.
    intros S Sc NC H r x n c V I G K Nc D Li Kc. destruct (scan_inv l d d2 S Sc NC H) as [d1 [W1 [_ [_ [No Sw]]]]].
    destruct (cmd_back d1 d2 c Sw Kc) as [nc [Lc Kn]]. assert (is_kind d1 TCmd c) as Kc1 by (exists nc; auto).
    destruct (no_file _ _ _ _ _ _ No r x n c V ltac:(rewrite app_nil_r; exact I) ltac:(rewrite app_nil_r; exact G) K Nc D Li Kc1) as [M|[M [Lk [n' [G' F']]]]].
    - apply sch_flag. apply (sw_modify _ _ Sw c nc); auto. rewrite Kn. reflexivity.
    - pose proof (at_lookup _ _ _ _ W1 G') as L'. apply file_solid in F'. apply (sch_after d2 x c).
      + apply sch_flag. apply (sw_modify _ _ Sw x n'); auto.
      + apply (sw_links _ _ Sw x c n' nc); auto. rewrite Kn. reflexivity.
  Qed.

  Lemma scan_generated l d d2 : sound d -> scannable (FDir l) -> no_clash d (FDir l) -> tup_scan fuel ord excl rmdir rounds l d = Ok d2 ->
    forall r x n, visible r -> inside r -> at_path d r x n -> kind n = TGenerated -> nname n <> B "tup.config" -> nname n <> B ".gitignore" ->
      on_disk (FDir l) r <> Some (FFile (time n)) -> (forall l', on_disk (FDir l) r <> Some (FDir l')) ->
      (forall c, In (c, x) (normal d) -> is_kind d2 TCmd c -> scheduled d2 c) \/
      (forall c, In (x, c) (normal d) -> is_kind d2 TCmd c -> scheduled d2 c) /\
      (forall s rs ns l', src n = Some s -> at_path d rs s ns -> kind ns = TDir -> visible rs -> on_disk (FDir l) rs = Some (FDir l') -> In s (create d2)).
  Proof.
    intros S Sc NC H r x n V I G K N1 N2 D Dd. destruct (scan_inv l d d2 S Sc NC H) as [d1 [W1 [_ [Ef [No Sw]]]]].
    destruct (no_gen _ _ _ _ _ _ No r x n V ltac:(rewrite app_nil_r; exact I) ltac:(rewrite app_nil_r; exact G) K N1 N2 D Dd) as [F|[F Cr]].
    - left. intros c Li Kc. apply sch_flag. eapply cmd_flag; eauto.
    - right. split; [intros c Li Kc; apply sch_flag; eapply cmd_flag; eauto|]. intros s rs ns l' Hs Gs Ks Vs Ds.
      assert (keep (FDir l) [] rs) as Kp by (exists rs, l'; rewrite app_nil_r; auto).
      assert (is_dir (kind ns) = true) as Is by (rewrite Ks; reflexivity).
      destruct (stays _ _ _ _ _ Ef rs s ns (or_intror Kp) Gs Is) as [n1 [G1 [K1 _]]].
      apply (sw_create _ _ Sw s n1); [exact (Cr s rs ns Hs Gs Ks (or_intror Kp))|eapply at_lookup; eauto|]. destruct K1 as [K1|K1]; rewrite K1, ?Ks; reflexivity.
  Qed.

  Lemma scan_new l d d2 : sound d -> scannable (FDir l) -> no_clash d (FDir l) -> tup_scan fuel ord excl rmdir rounds l d = Ok d2 ->
    forall nm r m, visible (nm :: r) -> on_disk (FDir l) (nm :: r) = Some (FFile m) ->
      (forall x n, ~ at_path d (nm :: r) x n) \/ (exists x n, at_path d r x n /\ kind n = TDir) /\ (forall x n, at_path d (nm :: r) x n -> is_file (kind n) = false) ->
      exists x n, at_path d2 r x n /\ kind n = TDir /\ In x (create d2).
  Proof.
    intros S Sc NC H nm r m V D Hn. destruct (scan_inv l d d2 S Sc NC H) as [d1 [W1 [_ [_ [No Sw]]]]].
    pose proof (no_new _ _ _ _ _ _ No (nm :: r) m V D) as X. cbn [app tl] in X. rewrite app_nil_r in X. destruct (X Hn) as [x [n [G [K C]]]].
    exists x, n. split; [eapply swept_path; eauto; rewrite K; reflexivity|]. split; [exact K|]. apply (sw_create _ _ Sw x n); [exact C|eapply at_lookup; eauto|rewrite K; reflexivity].
  Qed.

  Lemma scan_kept l d d2 : sound d -> scannable (FDir l) -> no_clash d (FDir l) -> tup_scan fuel ord excl rmdir rounds l d = Ok d2 ->
    (forall r l' x n, visible r -> on_disk (FDir l) r = Some (FDir l') -> at_path d r x n -> kind n = TDir -> exists n', at_path d2 r x n' /\ kind n' = TDir) /\
    (forall c, is_kind d2 TCmd c -> is_kind d TCmd c) /\
    (forall a b, In (a, b) (normal d) -> is_kind d2 TCmd a -> is_kind d2 TCmd b -> In (a, b) (normal d2)) /\
    (forall c, In c (modify d) -> is_kind d2 TCmd c -> In c (modify d2)).
  Proof.
    intros S Sc NC H. destruct (scan_inv l d d2 S Sc NC H) as [d1 [W1 [_ [Ef [_ Sw]]]]]. split; [|split; [|split]].
    - intros r l' x n V D G K. assert (keep (FDir l) [] r) as Kp by (exists r, l'; rewrite app_nil_r; auto).
      assert (is_dir (kind n) = true) as I by (rewrite K; reflexivity).
      destruct (stays _ _ _ _ _ Ef r x n (or_intror Kp) G I) as [n1 [G1 [K1 _]]]. assert (kind n1 = TDir) as K2 by (destruct K1; congruence).
      exists n1. split; [eapply swept_path; eauto; rewrite K2; reflexivity|exact K2].
    - intros c Kc. destruct (cmd_back d1 d2 c Sw Kc) as [n [L K]]. apply (ef_cmd _ _ _ _ _ Ef). exists n. auto.
    - intros a b Li Ka Kb. destruct (cmd_back d1 d2 a Sw Ka) as [n [La Kn]]. destruct (cmd_back d1 d2 b Sw Kb) as [m [Lb Km]].
      apply (sw_links _ _ Sw a b n m); auto; [|rewrite Kn; reflexivity|rewrite Km; reflexivity]. apply (ef_links _ _ _ _ _ Ef a b Li); right; [exists n|exists m]; auto.
    - intros c M Kc. destruct (cmd_back d1 d2 c Sw Kc) as [n [L K]]. apply (sw_modify _ _ Sw c n); auto; [|rewrite K; reflexivity]. apply (ef_modify _ _ _ _ _ Ef c M). right. exists n. auto.
  Qed.

  Lemma scan_quiet l d : sound d -> scannable (FDir l) -> unchanged d (FDir l) -> 0 < rounds -> tup_scan fuel ord excl rmdir rounds l d = Ok d.
  Proof.
    intros S Sc [U1 U2 U3] R. apply sound_base in S as [W _]. unfold tup_scan. destruct fuel as [|f]; [lia|].
    rewrite (quiet_root f ord ord_perm l d [] W (tree_scannable l Sc)).
    - cbn [obind]. destruct rounds; [lia|]. reflexivity.
    - split; [|split].
      + intros u m V D. rewrite app_nil_r. auto.
      + intros u l' V D. rewrite app_nil_r. eauto.
      + intros u l' a x n D G Re Sp. rewrite app_nil_r in G, Sp. eauto.
  Qed.
End Whole.
