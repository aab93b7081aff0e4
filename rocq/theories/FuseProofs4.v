From Verif Require Import Base ExecModel GraphModel TentModel FileModel FileSpec FuseModel FuseSpec FuseProofs FuseProofs2 FuseProofs3.

(** *** Publishing *)
Lemma is_dir_spec x : is_dir x = true <-> x = Some NDir.
Proof. destruct x as [[| |]|]; cbn; split; intros H; congruence. Qed.
Lemma move_out_spec t ms : forall d, NoDup (map realname ms) -> (forall m, In m ms -> get (realname m) d = None /\ not_dir (get (tmpname m) t)) ->
  forall x, get x (move_out t d ms) =
    match find (fun m => bytes_eqb x (realname m) && move_ok d m) ms with Some m => get (tmpname m) t | None => get x d end.
Proof.
  unfold move_out. induction ms as [|m ms IH]; intros d N H x; [reflexivity|]. cbn [fold_left find map] in *. inversion N as [|a l N1 N2]; subst.
  destruct (H m (or_introl eq_refl)) as [H1 [y [H2 H3]]].
  unfold move_one at 2. rewrite H2. destruct (move_ok d m) eqn:M.
  - assert (OK : forall m', move_ok (put (realname m) y d) m' = move_ok d m').
    { intros m'. unfold move_ok. destruct (bytes_eqb_spec (dirname (realname m')) (realname m)) as [E|E].
      - rewrite E, get_put_same, H1. destruct y; [contradiction|reflexivity|reflexivity].
      - rewrite get_put_other by exact E. reflexivity. }
    rewrite IH; [|exact N2|].
    + rewrite andb_true_r. destruct (bytes_eqb_spec x (realname m)) as [->|E].
      * assert (find (fun m0 => bytes_eqb (realname m) (realname m0) && move_ok (put (realname m) y d) m0) ms = None) as ->.
        { destruct (find _ ms) as [m'|] eqn:F; [|reflexivity]. exfalso. apply find_some in F. destruct F as [F1 F2]. apply andb_prop in F2. destruct F2 as [F2 _].
          apply bytes_eqb_eq in F2. apply N1. rewrite F2. apply in_map. exact F1. }
        rewrite get_put_same. symmetry. exact H2.
      * assert (find (fun m0 => bytes_eqb x (realname m0) && move_ok (put (realname m) y d) m0) ms = find (fun m0 => bytes_eqb x (realname m0) && move_ok d m0) ms) as ->.
        { clear - OK. induction ms as [|a l IH]; [reflexivity|]. cbn [find]. rewrite OK, IH. reflexivity. }
        rewrite get_put_other by exact E. reflexivity.
    + intros m' Hm. destruct (H m' (or_intror Hm)) as [K1 K2]. split; [|exact K2]. rewrite get_put_other; [exact K1|]. intros E. apply N1. rewrite <- E. apply in_map. exact Hm.
  - rewrite andb_false_r. apply IH; [exact N2|]. intros m' Hm. apply H. right. exact Hm.
Qed.
Lemma drop_tmp_other ms : forall t x, ~ In x (map tmpname ms) -> get x (drop_tmp ms t) = get x t.
Proof.
  unfold drop_tmp. induction ms as [|m ms IH]; intros t x N; [reflexivity|]. cbn [fold_left map In] in *. rewrite IH by tauto. apply get_del_other. intros E. apply N. left. congruence.
Qed.
Lemma nodup_filter_map {A C} (f : A -> C) (k : A -> bool) l : NoDup (map f l) -> NoDup (map f (filter k l)).
Proof.
  induction l as [|a l IH]; cbn [map filter]; intros N; [exact N|]. inversion N as [|z r N1 N2]; subst. destruct (k a); [|apply IH; exact N2].
  cbn [map]. constructor; [|apply IH; exact N2]. intros C1. apply N1. apply in_map_iff in C1. destruct C1 as [b [E C1]]. apply filter_In in C1. rewrite <- E. apply in_map. apply C1.
Qed.

Section Server.
Variable top : bytes.
Variable excluded : bytes -> bool.
Variable writable : bytes -> bool.
Variable top_writable : bool.
Notation request := (request top excluded writable top_writable).
Notation reachable := (reachable top excluded writable top_writable).

Lemma inv_init s : tree (disk s) -> (forall n, jobs s n = None) -> Inv top s.
Proof. intros T N. constructor; [exact T| |]; intros; rewrite N in *; discriminate. Qed.
Lemma JI_empty d t k : JI top d t k {| jmaps := []; jdirs := []; jevs := [] |}.
Proof. constructor; cbn; try constructor; try tauto. Qed.
Lemma start_other s n m p : m <> n -> view top (start_job s n) m p = view top s m p.
Proof.
  intros N. assert (jobs (start_job s n) m = jobs s m) as E by (cbn [start_job set_job jobs]; destruct (Nat.eqb_spec m n); [contradiction|reflexivity]).
  destruct (jobs s m) as [i|] eqn:M.
  - rewrite (view_V top s m i p M), (view_V top (start_job s n) m i p E). reflexivity.
  - unfold view, look, tup_fs_getattr. rewrite !get_finfo_path, E, M. reflexivity.
Qed.
Lemma inv_start s n : Inv top s -> jobs s n = None -> Inv top (start_job s n).
Proof.
  intros I N. constructor.
  - exact (inv_tree _ _ I).
  - intros m j H. cbn [start_job set_job jobs disk tmp filenum] in *. destruct (Nat.eqb_spec m n).
    + injection H as <-. apply JI_empty.
    + exact (inv_job _ _ I m j H).
  - intros a b j i x AB Ha Hb X Y. cbn [start_job set_job jobs] in *. destruct (Nat.eqb_spec a n), (Nat.eqb_spec b n).
    + congruence.
    + injection Ha as <-. destruct X.
    + injection Hb as <-. destruct Y.
    + exact (inv_apart _ _ I a b j i x AB Ha Hb X Y).
Qed.

Theorem request_step s n o : Inv top s -> jobs s n <> None -> (forall p, In p (paths o) -> ordinary top p = true) -> fair top s n o ->
  let s' := fst (request s n o) in let r := snd (request s n o) in
  Inv top s' /\ disk s' = disk s /\ (forall m p, m <> n -> view top s' m p = view top s m p) /\
  (forall m, jobs s' m = None <-> jobs s m = None) /\
  (failed r = true -> forall p, view top s' n p = view top s n p) /\
  (failed r = false -> allowed (view top s n) o /\ answer (view top s n) o r /\ forall p, view top s' n p = effect o (view top s n) p).
Proof.
  intros I N P F s' r. destruct (jobs s n) as [j|] eqn:JN; [|contradiction].
  destruct (request_post top excluded writable top_writable s I n j JN o P F) as [j' [t' [k' [S1 [S2 [S3 [S4 S5]]]]]]]. fold s' r in S1, S4, S5.
  destruct (inv_change top s n j j' t' k' s' I JN S1 S2 S3) as [A C]. split; [exact A|]. destruct S1 as [E1 [E2 [E3 [E4 E5]]]].
  split; [exact E1|]. split; [exact C|]. split.
  { intros m. destruct (Nat.eq_dec m n) as [->|M]; [rewrite E4, JN; split; discriminate|]. rewrite (E5 m M). tauto. }
  assert (forall p, view top s' n p = if ordinary top p then V (disk s) t' j' (abs p) else None) as W.
  { intros p. rewrite (view_V top s' n j' p E4), E1, E2. reflexivity. }
  split.
  - intros R p. rewrite W, (view_V top s n j p JN). destruct (ordinary top p); [apply S4; exact R|reflexivity].
  - intros R. destruct (S5 R) as [K1 [K2 K3]]. split; [exact K1|]. split; [exact K2|]. intros p. rewrite W. apply K3.
Qed.

Section End.
Variable s : state.
Variable n : nat.
Variable keep : bytes -> bool.
Variable j : job.
Hypothesis I : Inv top s.
Hypothesis JN : jobs s n = Some j.
Let ms := filter (fun m => keep (realname m)) (jmaps j).
Let d' := move_out (tmp s) (disk s) ms.

Lemma end_disk x : get x d' = match find (fun m => bytes_eqb x (realname m) && move_ok (disk s) m) ms with Some m => get (tmpname m) (tmp s) | None => get x (disk s) end.
Proof.
  pose proof (inv_job _ _ I n j JN) as J. apply move_out_spec.
  - apply nodup_filter_map. exact (nodup_app_l _ _ (ji_nodup _ _ _ _ _ J)).
  - intros m Hm. apply filter_In in Hm. destruct Hm as [Hm _]. split; [|apply (ji_tmp _ _ _ _ _ J m Hm)].
    destruct (ji_path _ _ _ _ _ J (realname m)) as [p [c [_ [_ [E _]]]]]; [apply in_or_app; left; apply in_map; exact Hm|exact E].
Qed.
Lemma end_keeps x : get x (disk s) <> None -> get x d' = get x (disk s).
Proof.
  intros H. rewrite end_disk. destruct (find _ ms) as [m|] eqn:F; [|reflexivity]. exfalso. apply find_some in F. destruct F as [F1 F2]. apply andb_prop in F2. destruct F2 as [F2 _].
  apply bytes_eqb_eq in F2. apply filter_In in F1. destruct F1 as [F1 _]. pose proof (inv_job _ _ I n j JN) as J.
  destruct (ji_path _ _ _ _ _ J (realname m)) as [p [c [_ [_ [E _]]]]]; [apply in_or_app; left; apply in_map; exact F1|]. congruence.
Qed.
Lemma end_new x : get x (disk s) = None -> get x d' <> None ->
  exists m p c, In m (jmaps j) /\ ordinary top (p ++ [c]) = true /\ x = abs (p ++ [c]) /\ x = realname m /\ get (abs p) (disk s) = Some NDir /\ get x d' = get (tmpname m) (tmp s).
Proof.
  intros H. rewrite end_disk. destruct (find _ ms) as [m|] eqn:F; [|congruence]. intros _. apply find_some in F. destruct F as [F1 F2]. apply andb_prop in F2. destruct F2 as [F2 F3].
  apply bytes_eqb_eq in F2. apply filter_In in F1. destruct F1 as [F1 _]. pose proof (inv_job _ _ I n j JN) as J.
  destruct (ji_path _ _ _ _ _ J (realname m)) as [p [c [O [E _]]]]; [apply in_or_app; left; apply in_map; exact F1|].
  exists m, p, c. split; [exact F1|]. split; [exact O|]. split; [congruence|]. split; [exact F2|]. split; [|reflexivity].
  unfold move_ok in F3. apply is_dir_spec in F3. rewrite E, dirname_abs in F3 by apply (ordinary_parts top _ O). exact F3.
Qed.

Hypothesis AP : forall m p, m <> n -> jobs s m <> None -> get (abs p) (disk s) = None -> view top s n p = None \/ view top s m p = None.

Lemma end_state : end_job s n keep = {| disk := d'; tmp := drop_tmp (jmaps j) (tmp s); filenum := filenum s; jobs := fun m => if Nat.eqb m n then None else jobs s m |}.
Proof. unfold end_job. rewrite JN. reflexivity. Qed.
Lemma end_not_owned m i x : m <> n -> jobs s m = Some i -> In x (owned i) -> ~ In x (owned j).
Proof.
  intros M Hm Hi Hj. pose proof (inv_job _ _ I n j JN) as J. pose proof (inv_job _ _ I m i Hm) as Ji.
  destruct (ji_path _ _ _ _ _ J x Hj) as [p [c [O [E [N _]]]]]. rewrite E in *.
  destruct (AP m (p ++ [c]) M ltac:(congruence) N) as [K|K].
  - rewrite (view_V top s n j _ JN), O in K. exact (V_owned _ _ _ _ _ J _ Hj K).
  - rewrite (view_V top s m i _ Hm), O in K. exact (V_owned _ _ _ _ _ Ji _ Hi K).
Qed.
Lemma end_tmp m i x : m <> n -> jobs s m = Some i -> In x (map tmpname (jmaps i)) -> get x (drop_tmp (jmaps j) (tmp s)) = get x (tmp s).
Proof. intros M Hm Hx. apply drop_tmp_other. intros C. exact (inv_apart _ _ I m n i j x M Hm JN Hx C). Qed.

Lemma inv_end : Inv top (end_job s n keep).
Proof.
  rewrite end_state. pose proof (inv_tree _ _ I) as [T1 [T2 T3]]. constructor; cbn [disk tmp filenum jobs].
  - split; [rewrite end_keeps; rewrite T1; [reflexivity|discriminate]|]. split.
    + intros p c G H. assert (get (abs p) (disk s) = Some NDir) as K; [|rewrite end_keeps; rewrite K; [reflexivity|discriminate]].
      destruct (get (abs (p ++ [c])) (disk s)) as [y|] eqn:E; [apply (T2 p c G); rewrite E; discriminate|].
      destruct (end_new _ E H) as [m [q [e [_ [O [X [_ [K _]]]]]]]]. apply abs_inj in X; [|exact G|apply (ordinary_parts top _ O)].
      apply app_inj_tail in X. destruct X as [-> _]. exact K.
    + intros x H. destruct (get x (disk s)) as [y|] eqn:E; [apply T3; rewrite E; discriminate|].
      destruct (end_new _ E H) as [m [q [e [_ [O [X _]]]]]]. exists (q ++ [e]). split; [apply (ordinary_parts top _ O)|exact X].
  - intros m i Hm. destruct (Nat.eqb_spec m n) as [|M]; [discriminate|]. pose proof (inv_job _ _ I m i Hm) as Ji. constructor.
    + exact (ji_nodup _ _ _ _ _ Ji).
    + intros x Hx. destruct (ji_path _ _ _ _ _ Ji x Hx) as [p [c [O [X [N P]]]]]. exists p, c. split; [exact O|]. split; [exact X|]. split.
      * destruct (get x d') eqn:E; [|reflexivity]. exfalso. destruct (end_new x N) as [mm [_ [_ [K [_ [_ [K' _]]]]]]]; [rewrite E; discriminate|].
        apply (end_not_owned m i x M Hm Hx). rewrite K'. apply in_or_app. left. apply in_map. exact K.
      * destruct P as [P|P]; [left; exact P|right]. rewrite end_keeps; rewrite P; [reflexivity|discriminate].
    + intros mm Hmm. destruct (ji_tmp _ _ _ _ _ Ji mm Hmm) as [K1 [K2 K3]]. split; [exact K1|]. split; [exact K2|].
      rewrite (end_tmp m i); [exact K3|exact M|exact Hm|apply in_map; exact Hmm].
    + exact (ji_tmps _ _ _ _ _ Ji).
    + exact (ji_renames _ _ _ _ _ Ji).
    + exact (ji_own _ _ _ _ _ Ji).
  - intros a b ja jb x AB Ha Hb. destruct (Nat.eqb_spec a n); [discriminate|]. destruct (Nat.eqb_spec b n); [discriminate|]. exact (inv_apart _ _ I a b ja jb x AB Ha Hb).
Qed.

(** What others see, and what is on the disk. *)
Lemma end_other m p : m <> n -> jobs s m <> None ->
  view top (end_job s n keep) m p = match view top s m p with Some x => Some x | None => if ordinary top p then get (abs p) (disk (end_job s n keep)) else None end.
Proof.
  intros M Hm. destruct (jobs s m) as [i|] eqn:Ji; [|contradiction]. rewrite (view_V top s m i p Ji).
  assert (jobs (end_job s n keep) m = Some i) as Ji' by (rewrite end_state; cbn [jobs]; destruct (Nat.eqb_spec m n); [contradiction|exact Ji]).
  rewrite (view_V top _ m i p Ji'). rewrite end_state. cbn [disk tmp]. destruct (ordinary top p) eqn:O; [|reflexivity].
  unfold V. destruct (is_tmpdir i (abs p)); [reflexivity|]. destruct (find _ (jmaps i)) as [mm|] eqn:F.
  - apply find_files in F. destruct F as [F1 F2]. rewrite (end_tmp m i); [|exact M|exact Ji|apply in_map; exact F1].
    destruct (ji_tmp _ _ _ _ _ (inv_job _ _ I m i Ji) mm F1) as [_ [_ [y [-> _]]]]. reflexivity.
  - destruct (get (abs p) (disk s)) as [y|] eqn:E; [|reflexivity]. rewrite end_keeps; rewrite E; [reflexivity|discriminate].
Qed.
Lemma end_published : (forall p, view top s n p = Some NDir -> get (abs p) (disk s) = Some NDir) ->
  forall p, good p = true ->
  get (abs p) (disk (end_job s n keep)) = if ordinary top p && keep (abs p) then view top s n p else get (abs p) (disk s).
Proof.
  intros D p G. rewrite end_state. cbn [disk]. pose proof (inv_job _ _ I n j JN) as J.
  destruct (get (abs p) (disk s)) as [y|] eqn:E.
  { rewrite end_keeps by congruence. rewrite E, (view_V top s n j p JN). destruct (ordinary top p); [|reflexivity].
    destruct (V_disk top (disk s) (tmp s) _ j J (abs p)) as [-> _]; [congruence|]. rewrite E. destruct (keep (abs p)); reflexivity. }
  destruct (ordinary top p) eqn:O.
  2: { cbn [andb]. destruct (get (abs p) d') eqn:H; [|reflexivity]. exfalso. destruct (end_new (abs p) E) as [m [q [e [_ [Oq [X _]]]]]]; [congruence|].
       apply abs_inj in X; [|exact G|apply (ordinary_parts top _ Oq)]. congruence. }
  cbn [andb]. rewrite end_disk, (view_V top s n j p JN), O.
  destruct (in_dec bytes_eq_dec (abs p) (files j)) as [Hf|Hf].
  - apply in_map_iff in Hf. destruct Hf as [m [Em Hm]]. rewrite <- Em, (V_map top _ _ _ j J m Hm), Em.
    assert (move_ok (disk s) m = true) as MO.
    { destruct (ji_path _ _ _ _ _ J (realname m)) as [q [c [Oq [X [_ P]]]]]; [apply in_or_app; left; apply in_map; exact Hm|].
      unfold move_ok. apply is_dir_spec. rewrite X, dirname_abs by apply (ordinary_parts top _ Oq). destruct P as [P|P]; [|exact P].
      assert (Oq' := ordinary_under top q (q ++ [c]) ltac:(exists c, []; reflexivity) Oq). apply D. rewrite (view_V top s n j q JN), Oq'. apply V_dir. exact P. }
    destruct (keep (abs p)) eqn:K.
    + destruct (find _ ms) as [m'|] eqn:F.
      * apply find_some in F. destruct F as [F1 F2]. apply filter_In in F1. apply andb_prop in F2. destruct F2 as [F2 _]. apply bytes_eqb_eq in F2.
        f_equal. f_equal. apply (nodup_map_inj realname (jmaps j)); [exact (nodup_app_l _ _ (ji_nodup _ _ _ _ _ J))|apply F1|exact Hm|congruence].
      * pose proof (find_none _ _ F m) as N. cbn beta in N. rewrite Em, bytes_eqb_refl, MO in N. discriminate N. apply filter_In. rewrite Em. auto.
    + destruct (find _ ms) as [m'|] eqn:F; [|exact E]. exfalso. apply find_some in F. destruct F as [F1 F2]. apply filter_In in F1. apply andb_prop in F2. destruct F2 as [F2 _]. apply bytes_eqb_eq in F2.
      rewrite <- F2, K in F1. destruct F1; discriminate.
  - assert (find (fun m => bytes_eqb (abs p) (realname m) && move_ok (disk s) m) ms = None) as ->.
    { destruct (find _ ms) as [m'|] eqn:F; [|reflexivity]. exfalso. apply find_some in F. destruct F as [F1 F2]. apply filter_In in F1. apply andb_prop in F2. destruct F2 as [F2 _]. apply bytes_eqb_eq in F2.
      apply Hf. rewrite F2. apply in_map. apply F1. }
    assert (~ In (abs p) (owned j)) as NO.
    { intros C. apply in_app_or in C. destruct C as [C|C]; [contradiction|]. specialize (D p). rewrite (view_V top s n j p JN), O, E in D. discriminate D. apply V_dir. exact C. }
    rewrite (V_other _ _ _ _ NO), E. destruct (keep (abs p)); reflexivity.
Qed.
End End.

Theorem reachable_inv s : reachable s -> Inv top s.
Proof.
  induction 1 as [s T N|s n R IH N|s n o R IH N P F|s n keep R IH AP].
  - apply inv_init; assumption.
  - apply inv_start; assumption.
  - apply (request_step s n o); assumption.
  - destruct (jobs s n) as [j|] eqn:JN; [apply (inv_end s n keep j IH JN AP)|]. unfold end_job. rewrite JN. exact IH.
Qed.
End Server.
