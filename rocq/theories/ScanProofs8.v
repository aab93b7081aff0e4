(** The end of the transaction, and a tree that did not change. *)
From Verif Require Import Base ConfigModel ParseModel PathModel DbModel DbSpec DbProofs DbProofs3 ScanModel ScanSpec ScanProofs ScanProofs2 ScanProofs3 ScanProofs4 ScanProofs5 ScanProofs6 ScanProofs7.
Require Import Lia Permutation.

Record swept (d d' : db) : Prop := {
  sw_shrunk : shrunk d d';
  sw_keep : forall y n, lookup d y = Some n -> ghostly (kind n) = false -> lookup d' y = Some n;
  sw_links : forall a b n m, In (a, b) (normal d) -> lookup d a = Some n -> lookup d b = Some m -> ghostly (kind n) = false -> ghostly (kind m) = false -> In (a, b) (normal d');
  sw_modify : forall c n, In c (modify d) -> lookup d c = Some n -> ghostly (kind n) = false -> In c (modify d');
  sw_create : forall c n, In c (create d) -> lookup d c = Some n -> ghostly (kind n) = false -> In c (create d') }.
Lemma swept_refl d : base d -> swept d d.
Proof. intros W. split; auto. apply shrunk_refl. exact W. Qed.
Lemma swept_trans d e f : swept d e -> swept e f -> swept d f.
Proof.
  intros A C. split.
  - eapply shrunk_trans; [apply A|apply C].
  - intros y n L G. apply (sw_keep _ _ C); [apply (sw_keep _ _ A); assumption|exact G].
  - intros a b n m H La Lb Ga Gb. apply (sw_links _ _ C a b n m); auto; [apply (sw_links _ _ A a b n m); auto|apply (sw_keep _ _ A); auto|apply (sw_keep _ _ A); auto].
  - intros c n H L G. apply (sw_modify _ _ C c n); auto; [apply (sw_modify _ _ A c n); auto|apply (sw_keep _ _ A); auto].
  - intros c n H L G. apply (sw_create _ _ C c n); auto; [apply (sw_create _ _ A c n); auto|apply (sw_keep _ _ A); auto].
Qed.
Lemma removed_swept x n d d' : lookup d x = Some n -> ghostly (kind n) = true -> removed x d d' -> swept d d'.
Proof.
  intros L G R. assert (forall y m, lookup d y = Some m -> ghostly (kind m) = false -> y <> x) as N by (intros y m Ly Gy ->; congruence). split.
  - apply R.
  - intros y m Ly Gy. rewrite (rm_other _ _ _ R); eauto.
  - intros a b p m H La Lb Ga Gb. apply (rm_links _ _ _ R); eauto.
  - intros c m H Lc Gc. apply (rm_modify _ _ _ R); eauto.
  - intros c m H Lc Gc. apply (rm_create _ _ _ R); eauto.
Qed.
Lemma reclaim_swept excl rmdir : forall fuel d q tmp d', base d -> reclaim excl rmdir fuel d q tmp = Ok d' -> swept d d'.
Proof.
  induction fuel as [|fuel IH]; intros d q tmp d' W H; [discriminate|]. cbn [reclaim] in H. destruct q as [|x q]; [injection H as <-; apply swept_refl; exact W|].
  destruct (lookup d x) as [n|] eqn:L; [|discriminate]. destruct (ghostly (kind n)) eqn:G; [|discriminate]. cbn [negb] in H.
  destruct (ghost_reclaimable d excl x n && negb (bytes_eqb (nname n) (B "tup.config"))).
  - destruct (queue_add d (dir n) (remove_id x tmp)) as [tmp'|]; [|discriminate]. destruct (ntype_eqb (kind n) TGeneratedDir && negb (rmdir x)); [discriminate|].
    assert (x <> top) as T by (intros ->; destruct (b_top _ W) as [t [Lt [Kt _]]]; rewrite L in Lt; injection Lt as ->; rewrite Kt in G; discriminate).
    destruct (dnf d x n (remove_id (dir n) q) W L T) as [d1 [q1 [E [R _]]]]. rewrite E in H. pose proof (removed_swept x n d d1 L G R) as S.
    eapply swept_trans; [exact S|]. assert (base d1) as W1 by (eapply shrunk_base; [exact W|apply S]). destruct q1; eapply IH; eauto.
  - destruct q; eapply IH; eauto.
Qed.
Lemma present_path d d' : base d -> shrunk d d' -> forall r y n n', at_path d r y n -> lookup d' y = Some n' -> at_path d' r y n'.
Proof.
  intros W S r. pose proof (shrunk_base _ _ W S) as W'. induction r as [|a r IH]; intros y n n' G L.
  - apply at_nil in G as [-> _]. constructor. exact L.
  - apply at_cons in G as [x [p [G [Ly [D [N T]]]]]]; auto. destruct (sh_from _ _ S y n' L) as [n0 [L0 [D0 [N0 _]]]]. rewrite Ly in L0. injection L0 as <-.
    pose proof (sh_parent _ _ S y n' L T) as X. rewrite D0, D in X. destruct (lookup d' x) as [p'|] eqn:Lx; [|congruence]. eapply at_in; [eapply IH; eauto|exact L|congruence|congruence].
Qed.
Lemma swept_path d d' r y n : base d -> swept d d' -> at_path d r y n -> ghostly (kind n) = false -> at_path d' r y n.
Proof. intros W S G K. eapply present_path; [exact W|apply S|exact G|]. apply (sw_keep _ _ S); [eapply at_lookup; eauto|exact K]. Qed.
Lemma file_solid k : is_file k = true -> ghostly k = false.
Proof. destruct k; (discriminate || reflexivity). Qed.

(** Nothing changed. *)
Section Quiet.
  Variable fuel : nat.
  Variable ord : list nat -> list nat.
  Hypothesis ord_perm : forall l, Permutation (ord l) l.

  Definition matches (d : db) (t : tree) (R : path) : Prop :=
    (forall u m, visible u -> on_disk t u = Some (FFile m) -> exists x n, at_path d (u ++ R) x n /\ is_file (kind n) = true /\ time n = m) /\
    (forall u l, visible u -> on_disk t u = Some (FDir l) -> exists x n, at_path d (u ++ R) x n /\ is_dir (kind n) = true) /\
    (forall u l a x n, on_disk t u = Some (FDir l) -> at_path d (a :: u ++ R) x n -> real (kind n) = true -> (u ++ R = [] -> ~ special a) -> on_disk t (a :: u) <> None).
  Definition QuietOK (t : tree) : Prop := forall dt nm d q P p, base d -> at_path d P dt p -> ok_tree nm t -> matches d t (nm :: P) -> watch (S fuel) ord t dt nm (d, q) = Ok (d, q).

  Lemma root_entries x P p l d : base d -> at_path d P x p -> (forall a t q, In (a, t) l -> ignored a = false -> watch (S fuel) ord t x a (d, q) = Ok (d, q)) ->
    forall root q, watch_entries (S fuel) ord x l root (d, q) = Ok (filter (fun y => negb (existsb (fun a => match child d x (fst a) with Some z => y =? z | None => false end) l)) root, (d, q)).
  Proof.
    intros W L. induction l as [|[a t] l IH]; intros HW root q.
    - cbn. f_equal. f_equal. symmetry. induction root as [|y root IH]; [reflexivity|]. cbn. rewrite IH. reflexivity.
    - cbn [watch_entries fst]. set (root1 := match child d x a with Some y => remove_id y root | None => root end).
      assert (watch_entries (S fuel) ord x l root1 (d, q) = Ok (filter (fun y => negb (existsb (fun a => match child d x (fst a) with Some z => y =? z | None => false end) ((a, t) :: l))) root, (d, q))) as E.
      { rewrite IH; [|intros b s q' X; apply HW; right; exact X]. f_equal. f_equal. unfold root1. cbn [existsb fst]. destruct (child d x a) as [z|].
        - unfold remove_id. clear. induction root as [|y root IH]; [reflexivity|]. cbn [filter]. destruct (y =? z); cbn [negb orb filter]; [exact IH|]. destruct (existsb _ l); cbn [negb]; [exact IH|]. rewrite IH. reflexivity.
        - cbn [orb]. reflexivity. }
      destruct (ignored a) eqn:Ia; [exact E|]. rewrite (HW a t q (or_introl eq_refl) Ia). exact E.
  Qed.

  Lemma quiet_dir x P p l d q : base d -> at_path d P x p -> NoDup (map fst l) -> (forall a t q, In (a, t) l -> ignored a = false -> watch (S fuel) ord t x a (d, q) = Ok (d, q)) ->
    (forall a y n, (P = [] -> ~ special a) -> at_path d (a :: P) y n -> real (kind n) = true -> In a (map fst l)) ->
    obind (watch_entries (S fuel) ord x l (dir_tree d x) (d, q)) (fun '(root, s) => each missing (ord root) s) = Ok (d, q).
  Proof.
    intros W L N HW In0. rewrite (root_entries x P p l d W L HW). cbn [obind]. set (root := filter _ (dir_tree d x)).
    assert (root = []) as ->.
    { destruct root as [|y r] eqn:E; [reflexivity|]. exfalso. assert (In y root) as Hy by (rewrite E; left; reflexivity). unfold root in Hy. apply filter_In in Hy as [Hy Hn]. apply negb_true_iff in Hn.
      unfold dir_tree in Hy. apply in_map_iff in Hy as [[z n] [Ez F]]. cbn in Ez. subst z. apply filter_In in F as [F G]. cbn [fst snd] in G. apply andb_true_iff in G as [G G3]. apply andb_true_iff in G as [G1 G2]. apply Nat.eqb_eq in G1. apply negb_true_iff in G2.
      assert (lookup d y = Some n) as Ly by (apply in_lookup; [apply W|exact F]). assert (at_path d (nname n :: P) y n) as Gy by (eapply at_in; [exact L|exact Ly|exact G1|reflexivity]).
      assert (In (nname n) (map fst l)) as I.
      { apply (In0 (nname n) y n); [|exact Gy|destruct (kind n); cbn in G3; try discriminate; reflexivity]. intros EP Sp. unfold virtual in G2.
        rewrite EP in L. apply at_nil in L as [Lt _]. rewrite Lt in G2. cbn [Nat.eqb top andb] in G2. unfold special in Sp. cbn [In] in Sp.
        destruct Sp as [Sp|[Sp|[Sp|[]]]]; rewrite <- Sp in G2; vm_compute in G2; discriminate. }
      apply in_map_iff in I as [[b t] [Eb Hb]]. cbn in Eb. subst b.
      assert (existsb (fun a => match child d x (fst a) with Some z => y =? z | None => false end) l = true) as X; [|congruence].
      apply existsb_exists. exists (nname n, t). split; [exact Hb|]. cbn [fst]. assert (child d x (nname n) = Some y) as -> by (apply child_spec; auto; exists n; auto). apply Nat.eqb_refl. }
    assert (ord [] = []) as ->; [|reflexivity]. apply Permutation_nil. apply Permutation_sym. apply ord_perm.
  Qed.

  Lemma matches_sub d l a t R : NoDup (map fst l) -> In (a, t) l -> ignored a = false -> matches d (FDir l) R -> matches d t (a :: R).
  Proof.
    intros N I Ia [M1 [M2 M3]]. assert (forall u, on_disk (FDir l) (u ++ [a]) = on_disk t u) as E by (intros u; rewrite disk_snoc, (in_named a l t N I); reflexivity).
    assert (forall u, (u ++ [a]) ++ R = u ++ a :: R) as Ea by (intros; rewrite <- app_assoc; reflexivity). split; [|split].
    - intros u m V H. rewrite <- Ea. apply M1; [apply visible_snoc; auto|rewrite E; exact H].
    - intros u l' V H. rewrite <- Ea. apply (M2 _ l'); [apply visible_snoc; auto|rewrite E; exact H].
    - intros u l' b x n H G Re _. rewrite <- Ea in G. intros X. apply (M3 (u ++ [a]) l' b x n); [rewrite E; exact H|exact G|exact Re|destruct u; discriminate|]. rewrite <- E in X. exact X.
  Qed.
  Lemma quiet_ok : forall t, QuietOK t.
  Proof.
    apply tree_rect'.
    - intros m dt nm d q P p W L OT [M1 _]. destruct (M1 [] m visible_nil eq_refl) as [x [n [G [F T]]]]. cbn [app] in G. apply (at_child d P dt p nm W L) in G as [C Ln].
      cbn [watch]. unfold file_mtime. rewrite C, Ln. destruct (kind n) eqn:K; try discriminate; unfold file_mod; rewrite Ln, K, T; cbn [ntype_eqb]; rewrite Z.eqb_refl; cbn; reflexivity.
    - intros dt nm d q P p W L OT M. reflexivity.
    - intros l IH dt nm d q P p W L OT M. cbn [watch]. change (obind (if dt =? 0 then Ok (top, (d, q)) else create_dir (S fuel) dt nm (d, q)) (fun '(x, s) =>
        obind (watch_entries (S fuel) ord x l (dir_tree (fst s) x) s) (fun '(root, s) => each missing (ord root) s)) = Ok (d, q)).
      destruct (dt =? 0) eqn:E0; [apply Nat.eqb_eq in E0; subst dt; apply (at_lookup _ _ _ _ W) in L; apply (id_pos _ _ _ W) in L; lia|].
      pose proof M as [_ [M2 M3]]. destruct (M2 [] l visible_nil eq_refl) as [x [n [G I]]]. cbn [app] in G. pose proof G as G0. apply (at_child d P dt p nm W L) in G0 as [C Ln].
      assert (create_dir (S fuel) dt nm (d, q) = Ok (x, (d, q))) as -> by (cbn [create_dir]; rewrite C, Ln; destruct (kind n); try discriminate; reflexivity).
      cbn [obind fst]. assert (NoDup (map fst l)) as N by (destruct OT as [O1 _]; apply (O1 [] l); reflexivity).
      apply (quiet_dir x (nm :: P) n l d q W G N).
      + intros a t q' Ht Ia. apply (IH a t Ht x a d q' (nm :: P) n W G); [exact (ok_sub nm l a t OT Ht)|apply (matches_sub d l a t (nm :: P) N Ht Ia M)].
      + intros a y k Sp Gk Re. pose proof (M3 [] l a y k eq_refl Gk Re Sp) as X. cbn in X. destruct (named a l) as [t|] eqn:Na; [|congruence]. apply named_in in Na. apply in_map_iff. exists (a, t). auto.
  Qed.
  Lemma quiet_root l d q : base d -> ok_tree (B ".") (FDir l) -> matches d (FDir l) [] -> watch (S fuel) ord (FDir l) 0 (B ".") (d, q) = Ok (d, q).
  Proof.
    intros W OT M. destruct (b_top _ W) as [n0 [L0 [K0 _]]]. assert (at_path d [] top n0) as L by (constructor; exact L0).
    assert (NoDup (map fst l)) as N by (destruct OT as [O1 _]; apply (O1 [] l); reflexivity).
    change (obind (watch_entries (S fuel) ord top l (dir_tree d top) (d, q)) (fun '(root, s) => each missing (ord root) s) = Ok (d, q)).
    apply (quiet_dir top [] n0 l d q W L N).
    - intros a t q' Ht Ia. apply (quiet_ok t top a d q' [] n0 W L); [exact (ok_sub (B ".") l a t OT Ht)|apply (matches_sub d l a t [] N Ht Ia M)].
    - intros a y k Sp Gk Re. destruct M as [_ [_ M3]]. pose proof (M3 [] l a y k eq_refl Gk Re Sp) as X. cbn in X. destruct (named a l) as [t|] eqn:Na; [|congruence]. apply named_in in Na. apply in_map_iff. exists (a, t). auto.
  Qed.
End Quiet.
