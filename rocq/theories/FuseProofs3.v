(** The requests of all jobs. *)
From Verif Require Import Base ExecModel GraphModel TentModel FileModel FileSpec FuseModel FuseSpec FuseProofs FuseProofs2.

Section Server.
Variable top : bytes.
Variable excluded : bytes -> bool.
Variable writable : bytes -> bool.
Variable top_writable : bool.
Notation request := (request top excluded writable top_writable).

Record Inv (s : state) : Prop := {
  inv_tree : tree (disk s);
  inv_job : forall n j, jobs s n = Some j -> JI top (disk s) (tmp s) (filenum s) j;
  inv_apart : forall n m j i x, n <> m -> jobs s n = Some j -> jobs s m = Some i ->
    In x (map tmpname (jmaps j)) -> In x (map tmpname (jmaps i)) -> False }.

(** [s'] is [s] with another job [n], other temporary files and counter. *)
Definition is_state (s : state) (n : nat) (j : job) (t : list (bytes * node)) (k : nat) (s' : state) : Prop :=
  disk s' = disk s /\ tmp s' = t /\ filenum s' = k /\ jobs s' n = Some j /\ forall m, m <> n -> jobs s' m = jobs s m.

Lemma is_state_set s n j : is_state s n j (tmp s) (filenum s) (set_job s n j).
Proof. repeat split; cbn [set_job jobs]; [rewrite Nat.eqb_refl; reflexivity|]. intros m N. destruct (Nat.eqb_spec m n); [contradiction|reflexivity]. Qed.
Lemma is_state_set_trans s n j t k s' j' : is_state s n j t k s' -> is_state s n j' t k (set_job s' n j').
Proof.
  intros [A [C [D [E F]]]]. repeat split; cbn [set_job jobs disk tmp filenum]; try assumption; [rewrite Nat.eqb_refl; reflexivity|].
  intros m N. destruct (Nat.eqb_spec m n); [contradiction|]. apply F. exact N.
Qed.
Lemma is_state_tmp s n j t k s' t' : is_state s n j t k s' -> is_state s n j t' k (set_tmp s' t').
Proof. intros [A [C [D [E F]]]]. repeat split; assumption. Qed.
Lemma is_state_same s n j : jobs s n = Some j -> is_state s n j (tmp s) (filenum s) s.
Proof. intros H. repeat split; auto. Qed.

Lemma ordinary_parts p : ordinary top p = true -> good p = true /\ is_hidden (abs p) = false /\ ignore_file (abs p) = false /\
  strstr fuse_hidden (abs p) = false /\ virtual_var top (abs p) = None.
Proof.
  unfold ordinary. rewrite !andb_true_iff, !negb_true_iff. intros [[[[A C] D] E] F]. repeat split; try assumption. destruct (virtual_var top (abs p)); [discriminate|reflexivity].
Qed.
Lemma handle_file_state s n j t k s' p e : is_state s n j t k s' -> ordinary top p = true ->
  is_state s n (record e j) t k (handle_file (job_path n p) e s').
Proof.
  intros H O. unfold handle_file. rewrite peel_path, get_finfo_path. destruct (ordinary_parts p O) as [_ [_ [-> _]]].
  pose proof H as [_ [_ [_ [-> _]]]]. exact (is_state_set_trans _ _ _ _ _ _ (record e j) H).
Qed.
Lemma find_mapping_path j n p : find_mapping j (job_path n p) = find (fun m => bytes_eqb (abs p) (realname m)) (jmaps j).
Proof. unfold find_mapping. rewrite peel_path. reflexivity. Qed.

Lemma not_mnt p : ordinary top p = true -> bytes_eqb (abs p) (B ".tup/mnt") || strstr (B "/.tup/mnt") (abs p) = false.
Proof.
  intros O. destruct (ordinary_parts p O) as [_ [H _]]. apply orb_false_iff. split.
  - destruct p as [|c p]; [reflexivity|]. rewrite abs_cons, below_cons. reflexivity.
  - destruct (strstr (B "/.tup/mnt") (abs p)) eqn:E; [|reflexivity]. exfalso.
    assert (forall x, strstr (B "/.tup/mnt") x = true -> strstr (B "/.tup") x = true) as M.
    { intros x. induction x as [|c x IH]; [discriminate|]. cbn [strstr]. rewrite !orb_true_iff. intros [K|K]; [left|right; exact (IH K)].
      apply prefixb_spec in K. destruct K as [r K]. apply prefixb_spec. exists (B "/mnt" ++ r). exact K. }
    apply M in E. unfold is_hidden in H. rewrite E in H. rewrite !orb_true_r in H. cbn in H. discriminate.
Qed.
(** A lookup. *)
Lemma getattr_state s n j p : jobs s n = Some j -> ordinary top p = true ->
  exists j', is_state s n j' (tmp s) (filenum s) (fst (tup_fs_getattr top s (job_path n p))) /\ (j' = j \/ j' = record (ERead (abs p)) j) /\
  snd (tup_fs_getattr top s (job_path n p)) = match V (disk s) (tmp s) j (abs p) with Some x => inl x | None => inr ENOENT end.
Proof.
  intros H O. unfold tup_fs_getattr. rewrite peel_path, get_finfo_path, H, (not_mnt p O). unfold V.
  destruct (is_tmpdir j (abs p)) eqn:D; [exists j; split; [apply is_state_same; exact H|split; [left; reflexivity|reflexivity]]|].
  destruct (ordinary_parts p O) as [_ [_ [_ [_ Vn]]]]. rewrite Vn.
  assert ((match find_mapping j (job_path n p) with Some _ => None | None => (None : option bytes) end) = None) as -> by (destruct (find_mapping j _); reflexivity).
  exists (record (ERead (abs p)) j). split; [apply handle_file_state; [apply is_state_same; exact H|exact O]|]. split; [right; reflexivity|].
  unfold stat. rewrite find_mapping_path, peel_path. reflexivity.
Qed.
Lemma look_V s n j p : jobs s n = Some j -> ordinary top p = true -> look top s n p = V (disk s) (tmp s) j (abs p).
Proof. intros H O. unfold look. destruct (getattr_state s n j p H O) as [_ [_ [_ ->]]]. destruct (V _ _ j (abs p)); reflexivity. Qed.
Lemma view_V s n j p : jobs s n = Some j -> view top s n p = if ordinary top p then V (disk s) (tmp s) j (abs p) else None.
Proof. intros H. unfold view. destruct (ordinary top p) eqn:O; [apply look_V; assumption|reflexivity]. Qed.
Lemma reach_V s n j p : jobs s n = Some j -> ordinary top p = true ->
  reach top s n p = true <-> forall d, under d p -> V (disk s) (tmp s) j (abs d) = Some NDir.
Proof.
  intros H O. unfold reach. rewrite forallb_forall. split.
  - intros R d U. specialize (R d (proj2 (proper_prefixes_spec p d) U)). rewrite (look_V s n j d H (ordinary_under _ _ _ U O)) in R.
    destruct (V _ _ j (abs d)) as [[| |]|]; try discriminate. reflexivity.
  - intros R d U. apply proper_prefixes_spec in U. rewrite (look_V s n j d H (ordinary_under _ _ _ U O)), (R d U). reflexivity.
Qed.

(** *** Other jobs *)
Lemma inv_change s n j j' t' k' s' : Inv s -> jobs s n = Some j -> is_state s n j' t' k' s' ->
  JI top (disk s) t' k' j' -> frame (tmp s) (filenum s) j t' k' j' ->
  Inv s' /\ forall m p, m <> n -> view top s' m p = view top s m p.
Proof.
  intros I H [E1 [E2 [E3 [E4 E5]]]] JJ [F1 [F2 F3]].
  assert (KEEP : forall m i x, m <> n -> jobs s m = Some i -> In x (map tmpname (jmaps i)) -> get x t' = get x (tmp s)).
  { intros m i x N Hm Hx. apply F2.
    - intros C. exact (inv_apart s I m n i j x N Hm H Hx C).
    - apply in_map_iff in Hx. destruct Hx as [mm [<- Hx]]. destruct (ji_tmp _ _ _ _ _ (inv_job s I m i Hm) mm Hx) as [_ [K _]]. exact K. }
  assert (DIFF : forall m i x, m <> n -> jobs s m = Some i -> In x (map tmpname (jmaps i)) -> ~ In x (map tmpname (jmaps j'))).
  { intros m i x N Hm Hx C. apply in_map_iff in C. destruct C as [mm [E C]]. destruct (F3 mm C) as [K|[l [L K]]].
    - rewrite E in K. exact (inv_apart s I m n i j x N Hm H Hx K).
    - apply in_map_iff in Hx. destruct Hx as [mx [Ex Hx]]. destruct (ji_tmp _ _ _ _ _ (inv_job s I m i Hm) mx Hx) as [_ [[l' [L' K']] _]].
      assert (l = l') by (apply tmp_name_inj; congruence). lia. }
  split.
  - constructor.
    + rewrite E1. exact (inv_tree s I).
    + rewrite E1, E2, E3. intros m i Hm. destruct (Nat.eq_dec m n) as [->|N]; [rewrite E4 in Hm; injection Hm as <-; exact JJ|].
      rewrite (E5 m N) in Hm. pose proof (inv_job s I m i Hm) as [A1 A2 A3 A4 A5 A6]. constructor; try assumption.
      intros mm Hmm. destruct (A3 mm Hmm) as [C [[l [L K]] D]]. split; [exact C|]. split; [exists l; split; [lia|exact K]|].
      rewrite (KEEP m i (tmpname mm) N Hm); [exact D|]. apply in_map. exact Hmm.
    + intros a b ja jb x N Ha Hb Ia Ib. destruct (Nat.eq_dec a n) as [->|Na], (Nat.eq_dec b n) as [->|Nb]; [contradiction| | |].
      * rewrite E4 in Ha. injection Ha as <-. rewrite (E5 b Nb) in Hb. exact (DIFF b jb x Nb Hb Ib Ia).
      * rewrite E4 in Hb. injection Hb as <-. rewrite (E5 a Na) in Ha. exact (DIFF a ja x Na Ha Ia Ib).
      * rewrite (E5 a Na) in Ha. rewrite (E5 b Nb) in Hb. exact (inv_apart s I a b ja jb x N Ha Hb Ia Ib).
  - intros m p N. unfold view. destruct (ordinary top p) eqn:O; [|reflexivity]. destruct (jobs s m) as [i|] eqn:Hm.
    + assert (jobs s' m = Some i) as Hm' by (rewrite (E5 m N); exact Hm). rewrite (look_V s m i p Hm O), (look_V s' m i p Hm' O), E1, E2. unfold V.
      destruct (is_tmpdir i (abs p)); [reflexivity|]. destruct (find _ (jmaps i)) as [mm|] eqn:F; [|reflexivity].
      apply find_files in F. apply (KEEP m i); [exact N|exact Hm|]. apply in_map. apply F.
    + unfold look, tup_fs_getattr. rewrite !get_finfo_path, (E5 m N), Hm, E1. reflexivity.
Qed.

(** *** One request *)
Definition failed (r : reply) : bool := match r with RErr _ => true | _ => false end.
Definition post (s : state) (n : nat) (j : job) (o : op) (s' : state) (r : reply) : Prop :=
  exists j' t' k', is_state s n j' t' k' s' /\ JI top (disk s) t' k' j' /\ frame (tmp s) (filenum s) j t' k' j' /\
  (failed r = true -> forall z, V (disk s) t' j' z = V (disk s) (tmp s) j z) /\
  (failed r = false -> allowed (view top s n) o /\ answer (view top s n) o r /\
    forall p, (if ordinary top p then V (disk s) t' j' (abs p) else None) = effect o (view top s n) p).

Section Request.
Variable s : state.
Hypothesis IV : Inv s.
Variable n : nat.
Variable j : job.
Hypothesis JN : jobs s n = Some j.
Notation d := (disk s).
Notation t := (tmp s).
Notation k := (filenum s).
Notation w := (V (disk s) (tmp s) j).
Notation vw := (view top s n).
Let T := inv_tree s IV.
Let J : JI top d t k j := inv_job s IV n j JN.

Lemma vw_ordinary p : ordinary top p = true -> vw p = w (abs p).
Proof. intros O. rewrite (view_V s n j p JN), O. reflexivity. Qed.
Lemma vw_special p : ordinary top p = false -> vw p = None.
Proof. intros O. rewrite (view_V s n j p JN), O. reflexivity. Qed.

Lemma post_err o e : post s n j o s (RErr e).
Proof.
  exists j, t, k. split; [apply is_state_same; exact JN|]. split; [exact J|]. split; [apply frame_refl; reflexivity|].
  split; [reflexivity|discriminate].
Qed.
(** One name changes. *)
Lemma upd_V p y (v' : bytes -> option node) : ordinary top p = true -> (forall z, v' z = if bytes_eqb z (abs p) then y else w z) ->
  forall x, (if ordinary top x then v' (abs x) else None) = upd vw p y x.
Proof.
  intros O H x. unfold upd. destruct (same p x) eqn:E.
  - apply same_spec in E. subst x. rewrite O, H, bytes_eqb_refl. reflexivity.
  - destruct (ordinary top x) eqn:Ox; [|symmetry; apply vw_special; exact Ox]. rewrite H, vw_ordinary by exact Ox.
    destruct (bytes_eqb_spec (abs x) (abs p)) as [K|K]; [|reflexivity]. apply abs_inj in K; [|apply (ordinary_parts x Ox)|apply (ordinary_parts p O)].
    subst x. rewrite same_refl in E. discriminate.
Qed.
Lemma id_V (v' : bytes -> option node) : (forall z, v' z = w z) -> forall x, (if ordinary top x then v' (abs x) else None) = vw x.
Proof. intros H x. rewrite (view_V s n j x JN), H. reflexivity. Qed.

Lemma reach_dirs p : ordinary top p = true -> reach top s n p = true -> forall q, under q p -> vw q = Some NDir.
Proof. intros O R q U. rewrite (vw_ordinary q (ordinary_under _ _ _ U O)). apply (proj1 (reach_V s n j p JN O) R q U). Qed.
Lemma split_last (p : list bytes) : p <> [] -> exists q c, p = q ++ [c].
Proof. intros N. destruct (exists_last N) as [q [c E]]. exists q, c. exact E. Qed.
Lemma not_root p : w (abs p) = None -> p <> [].
Proof. intros H ->. change (abs []) with [slash] in H. rewrite (V_root top d T t k j J) in H. discriminate. Qed.

(** The record of a read or of a write to a file of the job. *)
Lemma add_event e : match e with ERead _ | EVar _ => True | EWrite f => In f (files j) | _ => False end ->
  JI top d t k (record e j) /\ frame t k j t k (record e j) /\ forall z, V d t (record e j) z = w z.
Proof.
  intros H. apply (step_events top d t k j J [e]).
  - apply renames_own_app. split; [exact (ji_renames _ _ _ _ _ J)|]. destruct e; cbn [renames_own]; tauto.
  - intros f. destruct e as [g|g|g|g|a b]; cbn [own own_step In]; try tauto.
    split; [intros [<-|K]; [apply (ji_own _ _ _ _ _ J); exact H|exact K]|auto].
Qed.

Lemma post_look p : ordinary top p = true -> post s n j (OLook p) (fst (request s n (OLook p))) (snd (request s n (OLook p))).
Proof.
  intros O. cbn [FuseModel.request]. destruct (reach top s n p) eqn:R; [|apply post_err].
  destruct (getattr_state s n j p JN O) as [j' [S1 [S2 S3]]]. cbn [fst snd]. rewrite S3.
  assert (JI top d t k j' /\ frame t k j t k j' /\ forall z, V d t j' z = w z) as [A [C D]].
  { destruct S2 as [->| ->]; [split; [exact J|split; [apply frame_refl; reflexivity|reflexivity]]|apply add_event; exact I]. }
  exists j', t, k. split; [exact S1|]. split; [exact A|]. split; [exact C|]. split; [intros _; exact D|].
  destruct (w (abs p)) as [x|] eqn:E; [|discriminate]. intros _. cbn [allowed answer effect]. rewrite (vw_ordinary p O), E.
  split; [discriminate|]. split; [exists x; auto|]. apply id_V. exact D.
Qed.

Lemma access_dir q : ordinary top q = true -> w (abs q) = Some NDir ->
  tup_fs_access top writable top_writable s (job_path n q) = None \/ exists e, tup_fs_access top writable top_writable s (job_path n q) = Some e /\
    ~ (top_writable = true /\ writable (abs q) = true).
Proof.
  intros O H. unfold tup_fs_access. rewrite get_finfo_path, JN, find_mapping_path, peel_path. destruct (ordinary_parts q O) as [_ [_ [_ [_ ->]]]].
  destruct (find _ (jmaps j)) as [m|] eqn:F.
  - apply find_files in F. destruct F as [F1 F2]. exfalso. rewrite <- F2, (V_map top d t k j J m F1) in H. destruct (ji_tmp _ _ _ _ _ J m F1) as [_ [_ [y [K1 K2]]]]. congruence.
  - destruct (is_tmpdir j (abs q)) eqn:D.
    + destruct top_writable; [left; reflexivity|right; exists EACCES; split; [reflexivity|intros [C _]; discriminate]].
    + assert (get (abs q) d = Some NDir) as ->. { unfold V in H. rewrite D, F in H. exact H. }
      destruct (writable (abs q)); [left; reflexivity|right; exists EACCES; split; [reflexivity|intros [_ C]; discriminate]].
Qed.

Lemma post_create p : ordinary top p = true ->
  post s n j (OCreate p) (fst (request s n (OCreate p))) (snd (request s n (OCreate p))) /\
  (allowed vw (OCreate p) -> top_writable = true -> (forall x, writable x = true) -> failed (snd (request s n (OCreate p))) = false).
Proof.
  intros O. cbn [FuseModel.request]. destruct (reach top s n p) eqn:R.
  2: { split; [apply post_err|]. intros [A _]. exfalso. assert (reach top s n p = true) as C; [|congruence].
       apply (reach_V s n j p JN O). intros q U. rewrite <- (vw_ordinary q (ordinary_under _ _ _ U O)). exact (A q U). }
  rewrite (look_V s n j p JN O). destruct (w (abs p)) as [x|] eqn:E.
  { split; [apply post_err|]. intros [_ A]. rewrite (vw_ordinary p O), E in A. discriminate. }
  destruct (split_last p (not_root p E)) as [q [c ->]].
  assert (good_name c = true) as Gc. { destruct (ordinary_parts _ O) as [G _]. rewrite good_app in G. apply andb_prop in G. destruct G as [_ G]. unfold good in G. cbn [forallb] in G. rewrite andb_true_r in G. exact G. }
  assert (under q (q ++ [c])) as U by (exists c, []; reflexivity). assert (Oq := ordinary_under _ _ _ U O).
  assert (w (abs q) = Some NDir) as P by (apply (proj1 (reach_V s n j _ JN O) R q U)).
  unfold tup_fs_create. rewrite (dirname_path n q c Gc). destruct (access_dir q Oq P) as [Ac|[e [Ac Ae]]]; rewrite Ac.
  2: { split; [apply post_err|]. intros _ W1 W2. exfalso. apply Ae. split; [exact W1|apply W2]. }
  unfold add_mapping. rewrite get_finfo_path, JN. unfold add_mapping_internal. rewrite peel_path. destruct (ordinary_parts _ O) as [_ [-> _]]. cbn [jmaps jdirs jevs record].
  split; [|reflexivity].
  set (x := abs (q ++ [c])) in *. set (m := {| realname := x; tmpname := tmp_name k; mtent := None |}).
  set (j1 := {| jmaps := jmaps j ++ [m]; jdirs := jdirs j; jevs := jevs j ++ [EWrite x] |}).
  match goal with |- context [handle_file _ _ ?S1] => set (s1 := S1) end.
  assert (is_state s n j1 t (S k) s1) as I1.
  { repeat split; cbn [s1 jobs]; [rewrite Nat.eqb_refl; reflexivity|]. intros m' N. destruct (Nat.eqb_spec m' n); [contradiction|reflexivity]. }
  pose proof (handle_file_state _ _ _ _ _ _ (q ++ [c]) (EWrite x) I1 O) as I2.
  pose proof (is_state_tmp _ _ _ _ _ _ (put (tmp_name k) (NFile []) t) I2) as I3.
  assert (tmp (handle_file (job_path n (q ++ [c])) (EWrite x) s1) = t) as TT by apply I2.
  cbn [fst snd unit_reply]. rewrite TT. cbn [tmpname].
  destruct (step_add top d t k j J q c (NFile []) [EWrite x; EWrite x] O P E ltac:(discriminate)) as [A [C D]].
  - apply renames_own_app. split; [exact (ji_renames _ _ _ _ _ J)|]. cbn. tauto.
  - intros f. cbn [own own_step In]. fold x. intuition congruence.
  - assert (record (EWrite x) j1 = {| jmaps := jmaps j ++ [m]; jdirs := jdirs j; jevs := jevs j ++ [EWrite x; EWrite x] |}) as RE.
    { unfold record. cbn [j1 jmaps jdirs jevs]. rewrite <- app_assoc. reflexivity. }
    rewrite RE in I3. eexists _, _, _. split; [exact I3|]. split; [exact A|]. split; [exact C|]. split; [discriminate|]. intros _.
    cbn [allowed answer effect]. split; [split; [apply reach_dirs; assumption|rewrite (vw_ordinary _ O); exact E]|]. split; [reflexivity|].
    apply upd_V; [exact O|]. exact D.
Qed.

Lemma post_symlink tg p : ordinary top p = true ->
  post s n j (OSymlink tg p) (fst (request s n (OSymlink tg p))) (snd (request s n (OSymlink tg p))) /\
  (allowed vw (OSymlink tg p) -> failed (snd (request s n (OSymlink tg p))) = false).
Proof.
  intros O. cbn [FuseModel.request]. destruct (reach top s n p) eqn:R.
  2: { split; [apply post_err|]. intros [A _]. exfalso. assert (reach top s n p = true) as C; [|congruence].
       apply (reach_V s n j p JN O). intros q U. rewrite <- (vw_ordinary q (ordinary_under _ _ _ U O)). exact (A q U). }
  rewrite (look_V s n j p JN O). destruct (w (abs p)) as [x|] eqn:E.
  { split; [apply post_err|]. intros [_ A]. rewrite (vw_ordinary p O), E in A. discriminate. }
  destruct (split_last p (not_root p E)) as [q [c ->]].
  assert (under q (q ++ [c])) as U by (exists c, []; reflexivity).
  assert (w (abs q) = Some NDir) as P by (apply (proj1 (reach_V s n j _ JN O) R q U)).
  unfold tup_fs_symlink, add_mapping. rewrite get_finfo_path, JN. unfold add_mapping_internal. rewrite peel_path. destruct (ordinary_parts _ O) as [_ [-> _]]. cbn [jmaps jdirs jevs record].
  split; [|reflexivity].
  set (x := abs (q ++ [c])) in *. set (m := {| realname := x; tmpname := tmp_name k; mtent := None |}).
  destruct (step_add top d t k j J q c (NLink tg) [EWrite x] O P E ltac:(discriminate)) as [A [C D]].
  - apply renames_own_app. split; [exact (ji_renames _ _ _ _ _ J)|]. cbn. tauto.
  - intros f. cbn [own own_step In]. fold x. intuition congruence.
  - eexists _, _, _. split; [|split; [exact A|split; [exact C|split; [discriminate|]]]].
    + repeat split; cbn [unit_reply fst set_tmp jobs]; [rewrite Nat.eqb_refl; reflexivity|]. intros m' N. destruct (Nat.eqb_spec m' n); [contradiction|reflexivity].
    + intros _. cbn [allowed answer effect]. split; [split; [apply reach_dirs; assumption|rewrite (vw_ordinary _ O); exact E]|]. split; [reflexivity|].
      apply upd_V; [exact O|]. exact D.
Qed.

Lemma post_mkdir p : ordinary top p = true ->
  post s n j (OMkdir p) (fst (request s n (OMkdir p))) (snd (request s n (OMkdir p))) /\
  (allowed vw (OMkdir p) -> failed (snd (request s n (OMkdir p))) = false).
Proof.
  intros O. cbn [FuseModel.request]. destruct (reach top s n p) eqn:R.
  2: { split; [apply post_err|]. intros [A _]. exfalso. assert (reach top s n p = true) as C; [|congruence].
       apply (reach_V s n j p JN O). intros q U. rewrite <- (vw_ordinary q (ordinary_under _ _ _ U O)). exact (A q U). }
  rewrite (look_V s n j p JN O). destruct (w (abs p)) as [x|] eqn:E.
  { split; [apply post_err|]. intros [_ A]. rewrite (vw_ordinary p O), E in A. discriminate. }
  destruct (split_last p (not_root p E)) as [q [c ->]].
  assert (under q (q ++ [c])) as U by (exists c, []; reflexivity).
  assert (w (abs q) = Some NDir) as P by (apply (proj1 (reach_V s n j _ JN O) R q U)).
  unfold tup_fs_mkdir. rewrite get_finfo_path, JN, peel_path. destruct (ordinary_parts _ O) as [_ [_ [-> _]]].
  split; [|reflexivity].
  destruct (step_mkdir top d t k j J q c O P E) as [A [C D]].
  eexists _, _, _. split; [apply is_state_set|]. split; [exact A|split; [exact C|split; [discriminate|]]].
  intros _. cbn [allowed answer effect]. split; [split; [apply reach_dirs; assumption|rewrite (vw_ordinary _ O); exact E]|]. split; [reflexivity|].
  apply upd_V; [exact O|]. exact D.
Qed.

(** A name that exists can be reached. *)
Lemma reach_some p : ordinary top p = true -> w (abs p) <> None -> reach top s n p = true.
Proof.
  intros O H. apply (reach_V s n j p JN O). intros q U. apply (V_above top d T t k j J q p); [apply (ordinary_parts p O)|exact U|exact H].
Qed.
Lemma no_children p : ordinary top p = true -> p <> [] -> get (abs p) d <> Some NDir ->
  (forall x, In x (owned j) -> inside (abs p) x = false) -> forall x, under p x -> vw x = None.
Proof.
  intros O N H EM x U. destruct (ordinary top x) eqn:Ox; [|apply vw_special; exact Ox]. rewrite (vw_ordinary x Ox).
  apply (V_none top d t k j J). split.
  - intros C. specialize (EM _ C). destruct (inside_abs p x (proj1 (ordinary_parts p O)) (proj1 (ordinary_parts x Ox)) N) as [_ K]. rewrite (K U) in EM. discriminate.
  - destruct (get (abs x) d) eqn:G; [|reflexivity]. exfalso. apply H. destruct U as [c [r ->]].
    assert (good (p ++ c :: r) = true) as Gx by apply (ordinary_parts _ Ox). clear - T Gx G.
    assert (get (abs (p ++ c :: r)) d <> None) as G' by congruence. clear G. revert c p Gx G'.
    induction r as [|e r IH] using rev_ind; intros c p Gx G'.
    + destruct T as [_ [T1 _]]. exact (T1 p c Gx G').
    + apply (IH c p).
      * rewrite app_comm_cons, app_assoc, good_app in Gx. apply andb_prop in Gx. apply Gx.
      * rewrite app_comm_cons, app_assoc in Gx, G'. destruct T as [_ [T1 _]]. rewrite (T1 _ e Gx G'). discriminate.
Qed.

Lemma post_rmdir p : ordinary top p = true ->
  post s n j (ORmdir p) (fst (request s n (ORmdir p))) (snd (request s n (ORmdir p))) /\
  (allowed vw (ORmdir p) -> get (abs p) d = None -> failed (snd (request s n (ORmdir p))) = false).
Proof.
  intros O. cbn [FuseModel.request]. destruct (reach top s n p) eqn:R.
  2: { split; [apply post_err|]. intros [A _]. exfalso. rewrite (vw_ordinary p O) in A. rewrite (reach_some p O) in R by congruence. discriminate. }
  rewrite (look_V s n j p JN O). destruct (w (abs p)) as [[| |]|] eqn:E;
    [|split; [apply post_err|intros [A _]; rewrite (vw_ordinary p O), E in A; discriminate]..].
  unfold tup_fs_rmdir. rewrite get_finfo_path, JN, peel_path.
  destruct (existsb (inside (abs p)) (jdirs j)) eqn:X1.
  { split; [apply post_err|]. intros [_ A] Hd. exfalso. apply existsb_exists in X1. destruct X1 as [x [X1 X2]].
    assert (In x (owned j)) as Ix by (apply in_or_app; right; exact X1). destruct (ji_path _ _ _ _ _ J x Ix) as [q [c [Oq [-> _]]]].
    assert (p <> []) as Np by (intros ->; change (abs []) with [slash] in X2; rewrite (inside_root _ (proj1 (ordinary_parts _ Oq))) in X2; discriminate).
    apply inside_abs in X2; [|apply (ordinary_parts p O)|apply (ordinary_parts _ Oq)|exact Np].
    specialize (A _ X2). rewrite (vw_ordinary _ Oq) in A. exact (V_owned top d t k j J _ Ix A). }
  destruct (existsb (fun m => inside (abs p) (realname m)) (jmaps j)) eqn:X2.
  { split; [apply post_err|]. intros [_ A] Hd. exfalso. apply existsb_exists in X2. destruct X2 as [m [X2 X3]].
    assert (In (realname m) (owned j)) as Ix by (apply in_or_app; left; apply in_map; exact X2). destruct (ji_path _ _ _ _ _ J _ Ix) as [q [c [Oq [E2 _]]]]. rewrite E2 in X3.
    assert (p <> []) as Np by (intros ->; change (abs []) with [slash] in X3; rewrite (inside_root _ (proj1 (ordinary_parts _ Oq))) in X3; discriminate).
    apply inside_abs in X3; [|apply (ordinary_parts p O)|apply (ordinary_parts _ Oq)|exact Np].
    specialize (A _ X3). rewrite (vw_ordinary _ Oq), <- E2 in A. exact (V_owned top d t k j J _ Ix A). }
  assert (EM : forall x, In x (owned j) -> inside (abs p) x = false).
  { intros x Hx. destruct (inside (abs p) x) eqn:C; [|reflexivity]. exfalso. apply in_app_or in Hx. destruct Hx as [Hx|Hx].
    - apply in_map_iff in Hx. destruct Hx as [m [<- Hx]]. assert (existsb (fun m => inside (abs p) (realname m)) (jmaps j) = true) as K; [|congruence]. apply existsb_exists. exists m. auto.
    - assert (existsb (inside (abs p)) (jdirs j) = true) as K; [|congruence]. apply existsb_exists. exists x. auto. }
  destruct (is_tmpdir j (abs p)) eqn:D.
  - apply is_tmpdir_spec in D. assert (Io : In (abs p) (owned j)) by (apply in_or_app; right; exact D).
    destruct (ji_path _ _ _ _ _ J _ Io) as [q [c [Oq [Eq [Dq _]]]]].
    assert (p <> []) as Np. { intros ->. apply abs_inj in Eq; [destruct q; discriminate|reflexivity|apply (ordinary_parts _ Oq)]. }
    split; [|reflexivity].
    destruct (step_rmdir top d t k j J p (proj1 (ordinary_parts p O)) Np D EM) as [A [C F]].
    eexists _, _, _. split; [apply is_state_set|]. split; [exact A|]. split; [exact C|]. split; [discriminate|]. intros _. cbn [allowed answer effect].
    rewrite (vw_ordinary p O), E. split; [split; [reflexivity|]|split; [reflexivity|apply upd_V; [exact O|exact F]]].
    apply no_children; [exact O|exact Np|congruence|exact EM].
  - split; [apply post_err|]. intros _ Hd. exfalso. apply (V_is_dir top d t k j J) in E. destruct E as [E|E]; [|congruence].
    apply is_tmpdir_spec in E. congruence.
Qed.

Lemma find_own m p : In m (jmaps j) -> realname m = abs p -> find (fun m => bytes_eqb (abs p) (realname m)) (jmaps j) = Some m.
Proof.
  intros H E. destruct (find _ (jmaps j)) as [m'|] eqn:F; [|apply find_no_file in F; exfalso; apply F; rewrite <- E; apply in_map; exact H].
  apply find_files in F. f_equal. apply (nodup_map_inj realname (jmaps j)); [exact (nodup_app_l _ _ (ji_nodup _ _ _ _ _ J))|apply F|exact H|]. rewrite E. apply F.
Qed.

Lemma post_unlink p : ordinary top p = true ->
  post s n j (OUnlink p) (fst (request s n (OUnlink p))) (snd (request s n (OUnlink p))) /\
  (allowed vw (OUnlink p) -> get (abs p) d = None -> failed (snd (request s n (OUnlink p))) = false).
Proof.
  intros O.
  change (allowed vw (OUnlink p)) with (not_dir (vw p)).
  cbn [FuseModel.request]. destruct (reach top s n p) eqn:R.
  2: { split; [apply post_err|]. intros [y [A _]]. exfalso. rewrite (vw_ordinary p O) in A. rewrite (reach_some p O) in R by congruence. discriminate. }
  rewrite (look_V s n j p JN O).
  assert (forall y, w (abs p) = Some y -> y <> NDir ->
    post s n j (OUnlink p) (fst (unit_reply (tup_fs_unlink s (job_path n p)))) (snd (unit_reply (tup_fs_unlink s (job_path n p)))) /\
    (not_dir (vw p) -> get (abs p) d = None -> failed (snd (unit_reply (tup_fs_unlink s (job_path n p)))) = false)) as GO.
  { intros y E Y. unfold tup_fs_unlink. rewrite get_finfo_path, JN, find_mapping_path, peel_path.
    assert (strstr fuse_hidden (job_path n p) = false) as FH.
    { destruct (ordinary_parts p O) as [_ [_ [_ [FH _]]]]. unfold job_path.
      assert (forall a b, (forall c, In c a -> c <> "."%char) -> strstr fuse_hidden (a ++ b) = strstr fuse_hidden b) as SK.
      { induction a as [|c a IH]; intros b Ha; [reflexivity|]. cbn [app strstr]. rewrite IH by (intros e He; apply Ha; right; exact He).
        change fuse_hidden with ("."%char :: B "fuse_hidden"). cbn [prefixb]. destruct (Ascii.eqb_spec "."%char c) as [K|K]; [|reflexivity].
        exfalso. apply (Ha c); [left; reflexivity|congruence]. }
      change (slash :: tup_job ++ print 10 n ++ below p) with ((slash :: tup_job) ++ print 10 n ++ below p). rewrite app_assoc, SK.
      - destruct p; [reflexivity|]. exact FH.
      - intros c Hc. apply in_app_or in Hc. destruct Hc as [Hc|Hc].
        + repeat (destruct Hc as [<-|Hc]; [discriminate|]). destruct Hc.
        + apply print_chars in Hc. destruct Hc as [_ [e [He ->]]]. do 10 (destruct e as [|e]; [discriminate|]). lia. }
    destruct (find _ (jmaps j)) as [m|] eqn:F.
    - apply find_files in F. destruct F as [F1 F2]. split; [|reflexivity].
      assert (is_state s n {| jmaps := del_map m (jmaps j); jdirs := jdirs j; jevs := jevs j |} (del (tmpname m) t) k
        (set_job (set_tmp s (del (tmpname m) t)) n {| jmaps := del_map m (jmaps j); jdirs := jdirs j; jevs := jevs j |})) as I1.
      { apply (is_state_set_trans s n j). apply (is_state_tmp s n j t). apply is_state_same. exact JN. }
      apply (handle_file_state _ _ _ _ _ _ p (EUnlink (abs p))) in I1; [|exact O].
      destruct (step_unlink top d t k j J m [EUnlink (abs p)] F1) as [A [C D]].
      + apply renames_own_app. split; [exact (ji_renames _ _ _ _ _ J)|]. cbn. tauto.
      + intros f. cbn [own own_step]. rewrite filter_In, F2. destruct (bytes_eqb_spec f (abs p)); cbn [negb]; intuition congruence.
      + eexists _, _, _. split; [exact I1|]. split; [exact A|]. split; [exact C|]. split; [discriminate|]. intros _. cbn [allowed answer effect].
        rewrite (vw_ordinary p O), E. split; [exists y; auto|]. split; [reflexivity|]. apply upd_V; [exact O|]. rewrite <- F2. exact D.
    - rewrite FH. split; [apply post_err|]. intros _ Hd. exfalso. apply find_no_file in F.
      destruct (V_file d t j (abs p)) as [m [M1 M2]]; [exists y; auto|exact Hd|]. apply F. rewrite <- M2. apply in_map. exact M1. }
  destruct (w (abs p)) as [[|x|x]|] eqn:E.
  - split; [apply post_err|]. intros [y [A C]]. rewrite (vw_ordinary p O), E in A. congruence.
  - apply (GO (NFile x)); [reflexivity|discriminate].
  - apply (GO (NLink x)); [reflexivity|discriminate].
  - split; [apply post_err|]. intros [y [A C]]. rewrite (vw_ordinary p O), E in A. congruence.
Qed.
(** *** Renaming *)
Lemma rename_V p q (v' : bytes -> option node) : ordinary top p = true -> ordinary top q = true -> p <> q -> ~ under p q -> ~ under q p ->
  (forall x, under p x -> vw x = None) -> (forall x, under q x -> vw x = None) ->
  (forall z, v' z = if bytes_eqb z (abs q) then w (abs p) else if bytes_eqb z (abs p) then None else w z) ->
  forall x, (if ordinary top x then v' (abs x) else None) = effect (ORename p q) vw x.
Proof.
  intros Op Oq N U1 U2 C1 C2 H x. cbn [effect]. rewrite (same_neq p q N).
  assert (EQ : forall a b, ordinary top a = true -> ordinary top b = true -> bytes_eqb (abs a) (abs b) = true -> a = b).
  { intros a b Oa Ob E. apply bytes_eqb_eq in E. apply abs_inj in E; [exact E|apply (ordinary_parts a Oa)|apply (ordinary_parts b Ob)]. }
  destruct (strip q x) as [r|] eqn:S1.
  - apply strip_spec in S1. subst x. destruct r as [|c r].
    + rewrite !app_nil_r, Oq, H, bytes_eqb_refl. rewrite (vw_ordinary p Op). reflexivity.
    + rewrite (C1 (p ++ c :: r)) by (exists c, r; reflexivity). assert (under q (q ++ c :: r)) as Ux by (exists c, r; reflexivity).
      destruct (ordinary top (q ++ c :: r)) eqn:Ox; [|reflexivity]. rewrite H.
      destruct (bytes_eqb (abs (q ++ c :: r)) (abs q)) eqn:K1.
      { exfalso. apply EQ in K1; [|exact Ox|exact Oq]. apply (f_equal (@length _)) in K1. rewrite app_length in K1. cbn in K1. lia. }
      destruct (bytes_eqb (abs (q ++ c :: r)) (abs p)); [reflexivity|]. rewrite <- (vw_ordinary _ Ox). apply C2. exact Ux.
  - destruct (strip p x) as [r|] eqn:S2.
    + apply strip_spec in S2. subst x. destruct (ordinary top (p ++ r)) eqn:Ox; [|reflexivity]. rewrite H.
      destruct (bytes_eqb (abs (p ++ r)) (abs q)) eqn:K1.
      { exfalso. apply EQ in K1; [|exact Ox|exact Oq]. rewrite strip_none in S1. apply (S1 []). rewrite app_nil_r. exact K1. }
      destruct (bytes_eqb (abs (p ++ r)) (abs p)) eqn:K2; [reflexivity|]. rewrite <- (vw_ordinary _ Ox). apply C1.
      destruct r as [|c r]; [rewrite app_nil_r, bytes_eqb_refl in K2; discriminate|]. exists c, r. reflexivity.
    + destruct (ordinary top x) eqn:Ox; [|symmetry; apply vw_special; exact Ox]. rewrite H, (vw_ordinary x Ox).
      destruct (bytes_eqb (abs x) (abs q)) eqn:K1.
      { exfalso. apply EQ in K1; [|exact Ox|exact Oq]. subst x. rewrite strip_none in S1. apply (S1 []). rewrite app_nil_r. reflexivity. }
      destruct (bytes_eqb (abs x) (abs p)) eqn:K2; [|reflexivity].
      exfalso. apply EQ in K2; [|exact Ox|exact Op]. subst x. rewrite strip_none in S2. apply (S2 []). rewrite app_nil_r. reflexivity.
Qed.
Lemma JI_events t0 k0 j0 l : JI top d t0 k0 j0 -> renames_own l [] -> (forall f, In f (own l []) <-> In f (own (jevs j0) [])) ->
  JI top d t0 k0 {| jmaps := jmaps j0; jdirs := jdirs j0; jevs := l |}.
Proof.
  intros [A1 A2 A3 A4 A5 A6] R O. constructor; try assumption. intros f. cbn [jevs]. rewrite O. apply A6.
Qed.
Lemma file_no_children p : ordinary top p = true -> w (abs p) <> Some NDir -> forall x, under p x -> vw x = None.
Proof.
  intros O H x U. destruct (ordinary top x) eqn:Ox; [|apply vw_special; exact Ox]. rewrite (vw_ordinary x Ox).
  apply (V_under_file top d T t k j J p x); [apply (ordinary_parts x Ox)|exact U|exact H].
Qed.

Lemma rename_handler p q : ordinary top p = true -> ordinary top q = true -> p <> q -> ~ under p q -> ~ under q p ->
  (forall r, under r q -> vw r = Some NDir) -> w (abs p) <> None -> w (abs q) <> Some NDir -> fair top s n (ORename p q) ->
  let r := unit_reply (tup_fs_rename s (job_path n p) (job_path n q)) in
  (w (abs p) = Some NDir -> w (abs q) = None) ->
  post s n j (ORename p q) (fst r) (snd r) /\ (get (abs p) d = None -> failed (snd r) = false).
Proof.
  intros Op Oq N U1 U2 AB Hp Hq [F|[F1 [F2 F3]]] r DD; [contradiction|].
  assert (Nq : q <> []). { intros ->. apply U2. destruct p as [|c p]; [contradiction|]. exists c, p. reflexivity. }
  assert (Np : p <> []). { intros ->. apply U1. destruct q as [|c q]; [contradiction|]. exists c, q. reflexivity. }
  destruct (split_last q Nq) as [q' [c Eq]].
  assert (under q' q) as Uq by (exists c, []; exact Eq). assert (Oq' := ordinary_under _ _ _ Uq Oq).
  assert (Pq : w (abs q') = Some NDir) by (rewrite <- (vw_ordinary q' Oq'); apply AB; exact Uq).
  assert (APQ : abs p <> abs q). { intros E. apply N. apply abs_inj in E; [exact E|apply (ordinary_parts p Op)|apply (ordinary_parts q Oq)]. }
  assert (ALL : allowed vw (ORename p q)).
  { cbn [allowed]. rewrite (vw_ordinary p Op), (vw_ordinary q Oq). split; [exact Hp|]. right. split; [exact U1|]. split; [exact U2|]. split; [exact AB|].
    split; [intros K; left; apply DD; exact K|intros _; exact Hq]. }
  assert (CQ : forall x, under q x -> vw x = None) by (apply file_no_children; assumption).
  subst r. unfold tup_fs_rename. rewrite get_finfo_path, JN, !peel_path, !find_mapping_path.
  destruct (is_tmpdir j (abs p)) eqn:D.
  - apply is_tmpdir_spec in D. assert (Io : In (abs p) (owned j)) by (apply in_or_app; right; exact D).
    destruct (ji_path _ _ _ _ _ J _ Io) as [_ [_ [_ [_ [Dp _]]]]].
    assert (w (abs p) = Some NDir) as Wp by (apply V_dir; exact D).
    assert (vw p = Some NDir) as Vp by (rewrite (vw_ordinary p Op); exact Wp). destruct (F3 Dp Vp) as [F4 F5].
    assert (EM : forall x, In x (owned j) -> inside (abs p) x = false).
    { intros x Hx. destruct (inside (abs p) x) eqn:C; [|reflexivity]. exfalso. destruct (ji_path _ _ _ _ _ J _ Hx) as [a [b [Oa [Ea _]]]].
      rewrite Ea in C. apply inside_abs in C; [|apply (ordinary_parts p Op)|apply (ordinary_parts _ Oa)|exact Np].
      specialize (F5 _ C). rewrite (vw_ordinary _ Oa), <- Ea in F5. exact (V_owned top d t k j J x Hx F5). }
    split; [|reflexivity]. rewrite (vw_ordinary q Oq) in F4. rewrite Eq in Oq, F4.
    assert (q' <> p) as QP by (intros ->; apply U1; exact Uq).
    destruct (step_rename_dir top d t k j J p q' c (proj1 (ordinary_parts p Op)) Np D EM Oq Pq F4 QP) as [A [C G]].
    rewrite <- Eq in *.
    eexists _, _, _. split; [apply is_state_set|]. split; [exact A|]. split; [exact C|]. split; [discriminate|]. intros _. split; [exact ALL|]. split; [reflexivity|].
    apply rename_V; try assumption. intros z. rewrite G, Wp. reflexivity.
  - assert (PF : forall y, get (abs p) d = None -> w (abs p) = Some y -> exists m, In m (jmaps j) /\ realname m = abs p).
    { intros y Dp E. apply (V_file d t j); [exists y; split; [exact E|]|exact Dp]. intros ->. apply (V_is_dir top d t k j J) in E. destruct E as [E|E]; [|congruence].
      apply is_tmpdir_spec in E. congruence. }
    assert (CP : forall m, In m (jmaps j) -> realname m = abs p -> forall x, under p x -> vw x = None).
    { intros m Hm E. apply file_no_children; [exact Op|]. rewrite <- E, (V_map top d t k j J m Hm). destruct (ji_tmp _ _ _ _ _ J m Hm) as [_ [_ [y [K1 K2]]]]. congruence. }
    destruct (ordinary_parts q Oq) as [_ [_ [_ [FH _]]]]. rewrite FH.
    destruct (find (fun m => bytes_eqb (abs q) (realname m)) (jmaps j)) as [mq|] eqn:FQ.
    + apply find_files in FQ. destruct FQ as [Q1 Q2].
      assert (w (abs q) <> None) as Wq by (rewrite <- Q2; apply (V_owned top d t k j J); apply in_or_app; left; apply in_map; exact Q1).
      assert (get (abs p) d = None) as Dp. { destruct (get (abs p) d) eqn:G; [|reflexivity]. exfalso. apply Wq. rewrite <- (vw_ordinary q Oq). apply F2. discriminate. }
      destruct (w (abs p)) as [y|] eqn:Wp; [|contradiction]. destruct (PF y Dp eq_refl) as [mp [P1 P2]].
      set (j1 := {| jmaps := del_map mq (jmaps j); jdirs := jdirs j; jevs := jevs j |}).
      destruct (step_unlink top d t k j J mq [EUnlink (abs q)] Q1) as [A1 [A2 A3]].
      { apply renames_own_app. split; [exact (ji_renames _ _ _ _ _ J)|]. cbn. tauto. }
      { intros f. cbn [own own_step]. rewrite filter_In, Q2. destruct (bytes_eqb_spec f (abs q)); cbn [negb]; intuition congruence. }
      set (j1' := {| jmaps := del_map mq (jmaps j); jdirs := jdirs j; jevs := jevs j ++ [EUnlink (abs q)] |}) in *.
      set (t1 := del (tmpname mq) t) in *.
      assert (In mp (del_map mq (jmaps j))) as P3.
      { destruct (split_maps (jmaps j) mq (ji_tmps _ _ _ _ _ J) Q1) as [l1 [l2 [E1 [E2 _]]]]. rewrite E2. rewrite E1 in P1. apply in_app_or in P1. apply in_or_app.
        destruct P1 as [P1|[P1|P1]]; [left; exact P1| |right; exact P1]. exfalso. subst mp. congruence. }
      assert (find (fun m => bytes_eqb (abs p) (realname m)) (del_map mq (jmaps j)) = Some mp) as FP.
      { destruct (find _ (del_map mq (jmaps j))) as [m'|] eqn:F.
        - apply (find_files j1) in F. f_equal. apply (nodup_map_inj realname (jmaps j1')); [exact (nodup_app_l _ _ (ji_nodup _ _ _ _ _ A1))|apply F|exact P3|rewrite P2; apply F].
        - apply (find_no_file j1) in F. exfalso. apply F. rewrite <- P2. unfold files. apply in_map. exact P3. }
      rewrite find_mapping_path. change (jmaps j1) with (del_map mq (jmaps j)). rewrite FP. split; [|reflexivity].
      assert (V d t1 j1' (abs q') = Some NDir) as Pq1.
      { rewrite A3, Q2. destruct (bytes_eqb_spec (abs q') (abs q)) as [K|K]; [|exact Pq]. exfalso.
        apply abs_inj in K; [|apply (ordinary_parts q' Oq')|apply (ordinary_parts q Oq)]. rewrite Eq in K. apply (f_equal (@length _)) in K. rewrite app_length in K. cbn in K. lia. }
      assert (V d t1 j1' (abs (q' ++ [c])) = None) as Nq1 by (rewrite A3, Q2, Eq, bytes_eqb_refl; reflexivity).
      assert (Oq2 := Oq). rewrite Eq in Oq2.
      destruct (step_rename top d t1 k j1' A1 mp q' c P3 Oq2 Pq1 Nq1) as [B1 [B2 B3]]. rewrite <- Eq in B1, B2, B3.
      assert (JI top d t1 k {| jmaps := rename_map mp (abs q) (del_map mq (jmaps j)); jdirs := jdirs j; jevs := jevs j ++ [ERename (abs p) (abs q)] |}) as B1'.
      { apply (JI_events _ _ _ (jevs j ++ [ERename (abs p) (abs q)])) in B1; [exact B1| |].
        - apply renames_own_app. split; [exact (ji_renames _ _ _ _ _ J)|]. cbn [renames_own]. split; [|exact I]. apply (ji_own _ _ _ _ _ J). rewrite <- P2. apply in_map. exact P1.
        - intros f. cbn [jevs j1']. rewrite !own_app, P2. cbn [own own_step In]. rewrite !filter_In.
          destruct (bytes_eqb_spec f (abs p)), (bytes_eqb_spec f (abs q)); cbn [negb]; intuition congruence. }
      eexists _, _, _. split; [apply (is_state_set_trans s n j); apply (is_state_tmp s n j t); apply is_state_same; exact JN|].
      split; [exact B1'|]. split; [|split; [discriminate|]].
      * destruct A2 as [G1 [G2 G3]], B2 as [H1 [H2 H3]]. split; [lia|]. split; [exact G2|]. intros m Hm. cbn [jmaps] in Hm. destruct (H3 m Hm) as [K|[i [L K]]].
        -- apply in_map_iff in K. destruct K as [m' [E K]]. destruct (G3 m' K) as [K'|[i [L K']]]; [left; rewrite <- E; exact K'|lia].
        -- right. exists i. split; [lia|exact K].
      * intros _. split; [exact ALL|]. split; [reflexivity|]. apply rename_V; try assumption; [exact (CP mp P1 P2)|]. intros z.
        etransitivity; [exact (B3 z)|]. rewrite !A3, P2, Q2. destruct (bytes_eqb_spec (abs p) (abs q)); [contradiction|].
        destruct (bytes_eqb_spec z (abs q)); [reflexivity|]. reflexivity.
    + rewrite find_mapping_path. destruct (find (fun m => bytes_eqb (abs p) (realname m)) (jmaps j)) as [mp|] eqn:FP.
      * apply find_files in FP. destruct FP as [P1 P2]. cbn [fst snd].
        assert (w (abs q) = None) as Nq1.
        { apply find_no_file in FQ. destruct (w (abs q)) as [y|] eqn:E; [|reflexivity]. exfalso.
          assert (y <> NDir) as Y by (intros ->; apply Hq; reflexivity).
          destruct (V_file d t j (abs q)) as [m [M1 M2]]; [exists y; auto|exact F1|]. apply FQ. rewrite <- M2. apply in_map. exact M1. }
        assert (Oq2 := Oq). rewrite Eq in Oq2, Nq1.
        destruct (step_rename top d t k j J mp q' c P1 Oq2 Pq Nq1) as [B1 [B2 B3]]. rewrite <- Eq, P2 in B1, B2, B3.
        split; [|reflexivity].
        eexists _, _, _. split; [apply (is_state_set_trans s n j); apply (is_state_tmp s n j t); apply is_state_same; exact JN|].
        split; [exact B1|]. split; [exact B2|]. split; [discriminate|]. intros _. split; [exact ALL|]. split; [reflexivity|].
        apply rename_V; try assumption. exact (CP mp P1 P2).
      * cbn [fst snd]. split.
        -- exists j, t, k. split; [apply (is_state_set_trans s n j); apply (is_state_tmp s n j t); apply is_state_same; exact JN|].
           split; [exact J|]. split; [apply frame_refl; reflexivity|]. split; [reflexivity|discriminate].
        -- intros Dp. exfalso. destruct (w (abs p)) as [y|] eqn:Wp; [|contradiction]. destruct (PF y Dp eq_refl) as [mp [P1 P2]].
           apply find_no_file in FP. apply FP. rewrite <- P2. apply in_map. exact P1.
Qed.

Lemma post_rename p q : ordinary top p = true -> ordinary top q = true -> fair top s n (ORename p q) ->
  post s n j (ORename p q) (fst (request s n (ORename p q))) (snd (request s n (ORename p q))) /\
  (allowed vw (ORename p q) -> get (abs p) d = None -> failed (snd (request s n (ORename p q))) = false).
Proof.
  intros Op Oq F. cbn [FuseModel.request]. destruct (reach top s n p) eqn:Rp; cbn [andb].
  2: { split; [apply post_err|]. intros [A _]. exfalso. rewrite (vw_ordinary p Op) in A. rewrite (reach_some p Op A) in Rp. discriminate. }
  destruct (reach top s n q) eqn:Rq.
  2: { split; [apply post_err|]. intros [A [->|[_ [_ [B _]]]]]; [rewrite Rp in Rq; discriminate|]. exfalso. assert (reach top s n q = true) as C; [|congruence].
       apply (reach_V s n j q JN Oq). intros x U. rewrite <- (vw_ordinary x (ordinary_under _ _ _ U Oq)). exact (B x U). }
  rewrite (look_V s n j p JN Op), (look_V s n j q JN Oq).
  destruct (list_prefixb p q) eqn:X1, (list_prefixb q p) eqn:X2; cbn [andb].
  - assert (p = q) as <-.
    { apply list_prefixb_spec in X1. apply list_prefixb_spec in X2. destruct X1 as [a ->], X2 as [b E]. rewrite <- app_assoc in E.
      rewrite <- (app_nil_r p) in E at 1. apply app_inv_head in E. destruct a; [rewrite app_nil_r; reflexivity|discriminate]. }
    destruct (w (abs p)) as [y|] eqn:E.
    + cbn [fst snd]. split; [|reflexivity]. exists j, t, k. split; [apply is_state_same; exact JN|]. split; [exact J|]. split; [apply frame_refl; reflexivity|].
      split; [discriminate|]. intros _. cbn [allowed answer effect]. rewrite (vw_ordinary p Op), E, same_refl. split; [split; [discriminate|left; reflexivity]|]. split; [reflexivity|]. apply id_V. reflexivity.
    + split; [apply post_err|]. intros [A _]. exfalso. rewrite (vw_ordinary p Op), E in A. contradiction.
  - split; [apply post_err|]. intros [_ [->|[A _]]].
    + exfalso. assert (list_prefixb q q = true) by (apply list_prefixb_spec; exists []; rewrite app_nil_r; reflexivity). congruence.
    + exfalso. apply A. apply list_prefixb_spec in X1. destruct X1 as [[|c a] E]; [|exists c, a; exact E].
      rewrite app_nil_r in E. subst q. assert (list_prefixb p p = true) by (apply list_prefixb_spec; exists []; rewrite app_nil_r; reflexivity). congruence.
  - split; [apply post_err|]. intros [_ [->|[_ [A _]]]].
    + exfalso. assert (list_prefixb q q = true) by (apply list_prefixb_spec; exists []; rewrite app_nil_r; reflexivity). congruence.
    + exfalso. apply A. apply list_prefixb_spec in X2. destruct X2 as [[|c a] E]; [|exists c, a; exact E].
      rewrite app_nil_r in E. subst p. assert (list_prefixb q q = true) by (apply list_prefixb_spec; exists []; rewrite app_nil_r; reflexivity). congruence.
  - assert (N : p <> q). { intros ->. assert (list_prefixb q q = true) by (apply list_prefixb_spec; exists []; rewrite app_nil_r; reflexivity). congruence. }
    assert (U1 : ~ under p q). { intros [c [r E]]. assert (list_prefixb p q = true) by (apply list_prefixb_spec; exists (c :: r); exact E). congruence. }
    assert (U2 : ~ under q p). { intros [c [r E]]. assert (list_prefixb q p = true) by (apply list_prefixb_spec; exists (c :: r); exact E). congruence. }
    assert (AB := reach_dirs q Oq Rq).
    pose proof (rename_handler p q Op Oq N U1 U2 AB) as H.
    assert (BOTH : w (abs p) = Some NDir -> w (abs q) <> Some NDir).
    { intros E1 E2. destruct F as [F|[F1 [F2 F3]]]; [contradiction|]. rewrite (vw_ordinary p Op), (vw_ordinary q Oq), E2 in *.
      destruct (get (abs p) d) eqn:G; [specialize (F2 ltac:(discriminate)); discriminate|]. destruct (F3 eq_refl E1) as [C _]. discriminate. }
    destruct (w (abs p)) as [[|x|x]|] eqn:Ep.
    + destruct (w (abs q)) as [[|y|y]|] eqn:Eq.
      * exfalso. apply BOTH; reflexivity.
      * split; [apply post_err|]. intros [_ [A|[_ [_ [_ [A _]]]]]]; [contradiction|]. exfalso. rewrite (vw_ordinary p Op), (vw_ordinary q Oq), Ep, Eq in A. destruct (A eq_refl) as [C|[C _]]; discriminate.
      * split; [apply post_err|]. intros [_ [A|[_ [_ [_ [A _]]]]]]; [contradiction|]. exfalso. rewrite (vw_ordinary p Op), (vw_ordinary q Oq), Ep, Eq in A. destruct (A eq_refl) as [C|[C _]]; discriminate.
      * destruct H as [H1 H2]; try assumption; try discriminate; try reflexivity. split; [exact H1|]. intros _. exact H2.
    + destruct (w (abs q)) as [[|y|y]|] eqn:Eq.
      * split; [apply post_err|]. intros [_ [A|[_ [_ [_ [_ A]]]]]]; [contradiction|]. exfalso. apply A; [|rewrite (vw_ordinary q Oq); exact Eq]. rewrite (vw_ordinary p Op), Ep. eexists. split; [reflexivity|discriminate].
      * destruct H as [H1 H2]; try assumption; try discriminate. split; [exact H1|]. intros _. exact H2.
      * destruct H as [H1 H2]; try assumption; try discriminate. split; [exact H1|]. intros _. exact H2.
      * destruct H as [H1 H2]; try assumption; try discriminate. split; [exact H1|]. intros _. exact H2.
    + destruct (w (abs q)) as [[|y|y]|] eqn:Eq.
      * split; [apply post_err|]. intros [_ [A|[_ [_ [_ [_ A]]]]]]; [contradiction|]. exfalso. apply A; [|rewrite (vw_ordinary q Oq); exact Eq]. rewrite (vw_ordinary p Op), Ep. eexists. split; [reflexivity|discriminate].
      * destruct H as [H1 H2]; try assumption; try discriminate. split; [exact H1|]. intros _. exact H2.
      * destruct H as [H1 H2]; try assumption; try discriminate. split; [exact H1|]. intros _. exact H2.
      * destruct H as [H1 H2]; try assumption; try discriminate. split; [exact H1|]. intros _. exact H2.
    + split; [apply post_err|]. intros [A _]. exfalso. rewrite (vw_ordinary p Op), Ep in A. contradiction.
Qed.

(** *** Contents *)
Lemma in_files m p : In m (jmaps j) -> realname m = abs p -> In (abs p) (files j).
Proof. intros H <-. apply in_map. exact H. Qed.
Lemma own_file p y : ordinary top p = true -> w (abs p) = Some (NFile y) -> get (abs p) d = None ->
  exists m, In m (jmaps j) /\ realname m = abs p /\ get (tmpname m) t = Some (NFile y) /\
    find (fun m => bytes_eqb (abs p) (realname m)) (jmaps j) = Some m.
Proof.
  intros O E N. destruct (V_file d t j (abs p)) as [m [M1 M2]]; [exists (NFile y); split; [exact E|discriminate]|exact N|].
  exists m. split; [exact M1|]. split; [exact M2|]. split; [rewrite <- (V_map top d t k j J m M1), M2; exact E|apply find_own; assumption].
Qed.
Lemma stat_V p y : w (abs p) = Some y -> y <> NDir -> stat s j (job_path n p) = Some y.
Proof.
  intros E Y. unfold stat. rewrite find_mapping_path, peel_path. unfold V in E. destruct (is_tmpdir j (abs p)); [congruence|exact E].
Qed.

Lemma post_open p wr : ordinary top p = true -> fair top s n (OOpen p wr) ->
  post s n j (OOpen p wr) (fst (request s n (OOpen p wr))) (snd (request s n (OOpen p wr))) /\
  (allowed vw (OOpen p wr) -> failed (snd (request s n (OOpen p wr))) = false).
Proof.
  intros O F. change (allowed vw (OOpen p wr)) with (exists y, vw p = Some (NFile y)). cbn [FuseModel.request]. rewrite (vw_ordinary p O). destruct (reach top s n p) eqn:R.
  2: { split; [apply post_err|]. intros [y A]. exfalso. rewrite (reach_some p O) in R by congruence. discriminate. }
  rewrite (look_V s n j p JN O). destruct (w (abs p)) as [[|y|y]|] eqn:E; [split; [apply post_err|intros [x A]; discriminate]| |split; [apply post_err|intros [x A]; discriminate]..].
  assert (exists e, (match e with ERead _ | EVar _ => True | EWrite f => In f (files j) | _ => False end) /\
    fst (tup_fs_open excluded s (job_path n p) wr) = handle_file (job_path n p) e s /\ snd (tup_fs_open excluded s (job_path n p) wr) = inl tt) as [e [E1 [E2 E3]]].
  { unfold tup_fs_open. rewrite get_finfo_path, JN, find_mapping_path, peel_path. destruct wr.
    - cbn [fair] in F. destruct (own_file p y O E F) as [m [M1 [M2 [M3 ->]]]]. exists (EWrite (abs p)). split; [exact (in_files m p M1 M2)|]. cbn [fst snd]. rewrite M3. auto.
    - exists (ERead (abs p)). split; [exact I|]. cbn [andb]. assert (stat s j (job_path n p) = Some (NFile y)) as ST by (apply stat_V; [exact E|discriminate]).
      unfold stat in ST. rewrite find_mapping_path, peel_path in ST. destruct (find _ (jmaps j)) as [m|]; cbn [fst snd]; rewrite ST; auto. }
  cbn [unit_reply fst snd]. rewrite E2, E3. split; [|reflexivity]. destruct (add_event e E1) as [A [C D]].
  eexists _, _, _. split; [apply handle_file_state; [apply is_state_same; exact JN|exact O]|]. split; [exact A|]. split; [exact C|]. split; [discriminate|].
  intros _. cbn [allowed answer effect]. rewrite (vw_ordinary p O), E. split; [exists y; reflexivity|]. split; [reflexivity|]. apply id_V. exact D.
Qed.
Lemma post_read p : ordinary top p = true ->
  post s n j (ORead p) (fst (request s n (ORead p))) (snd (request s n (ORead p))) /\
  (allowed vw (ORead p) -> failed (snd (request s n (ORead p))) = false).
Proof.
  intros O. change (allowed vw (ORead p)) with (exists y, vw p = Some (NFile y)). cbn [FuseModel.request]. rewrite (vw_ordinary p O). destruct (reach top s n p) eqn:R.
  2: { split; [apply post_err|]. intros [y A]. exfalso. rewrite (reach_some p O) in R by congruence. discriminate. }
  rewrite (look_V s n j p JN O). destruct (w (abs p)) as [[|y|y]|] eqn:E; [split; [apply post_err|intros [x A]; discriminate]| |split; [apply post_err|intros [x A]; discriminate]..].
  unfold tup_fs_read. rewrite get_finfo_path, JN, (stat_V p (NFile y) E ltac:(discriminate)). cbn [fst snd]. split; [|reflexivity].
  exists j, t, k. split; [apply is_state_same; exact JN|]. split; [exact J|]. split; [apply frame_refl; reflexivity|]. split; [discriminate|].
  intros _. cbn [allowed answer effect]. rewrite (vw_ordinary p O), E. split; [exists y; reflexivity|]. split; [exists y; auto|]. apply id_V. reflexivity.
Qed.
Lemma post_write p off dat : ordinary top p = true ->
  post s n j (OWrite p off dat) (fst (request s n (OWrite p off dat))) (snd (request s n (OWrite p off dat))) /\
  (allowed vw (OWrite p off dat) -> get (abs p) d = None -> failed (snd (request s n (OWrite p off dat))) = false).
Proof.
  intros O. change (allowed vw (OWrite p off dat)) with (exists y, vw p = Some (NFile y)). cbn [FuseModel.request]. rewrite (vw_ordinary p O). destruct (reach top s n p) eqn:R.
  2: { split; [apply post_err|]. intros [y A]. exfalso. rewrite (reach_some p O) in R by congruence. discriminate. }
  rewrite (look_V s n j p JN O). destruct (w (abs p)) as [[|y|y]|] eqn:E; [split; [apply post_err|intros [x A]; discriminate]| |split; [apply post_err|intros [x A]; discriminate]..].
  unfold tup_fs_write. rewrite get_finfo_path, JN, find_mapping_path. destruct (find _ (jmaps j)) as [m|] eqn:F.
  - apply find_files in F. destruct F as [F1 F2]. assert (get (tmpname m) t = Some (NFile y)) as G by (rewrite <- (V_map top d t k j J m F1), F2; exact E).
    rewrite G. cbn [unit_reply fst snd]. split; [|reflexivity].
    destruct (step_write top d t k j J m (NFile (pwrite y off dat)) F1 ltac:(discriminate)) as [A [C D]].
    eexists _, _, _. split; [apply (is_state_tmp s n j t); apply is_state_same; exact JN|]. split; [exact A|]. split; [exact C|]. split; [discriminate|].
    intros _. cbn [allowed answer effect]. rewrite (vw_ordinary p O), E. cbn [on_file]. split; [exists y; reflexivity|]. split; [reflexivity|]. apply upd_V; [exact O|]. rewrite <- F2. exact D.
  - split; [apply post_err|]. intros _ N. exfalso. destruct (own_file p y O E N) as [m [_ [_ [_ C]]]]. rewrite F in C. discriminate.
Qed.
Lemma post_truncate p size : ordinary top p = true -> fair top s n (OTruncate p size) ->
  post s n j (OTruncate p size) (fst (request s n (OTruncate p size))) (snd (request s n (OTruncate p size))) /\
  (allowed vw (OTruncate p size) -> failed (snd (request s n (OTruncate p size))) = false).
Proof.
  intros O Fa. change (allowed vw (OTruncate p size)) with (exists y, vw p = Some (NFile y)). cbn [FuseModel.request]. rewrite (vw_ordinary p O). destruct (reach top s n p) eqn:R.
  2: { split; [apply post_err|]. intros [y A]. exfalso. rewrite (reach_some p O) in R by congruence. discriminate. }
  rewrite (look_V s n j p JN O). destruct (w (abs p)) as [[|y|y]|] eqn:E; [split; [apply post_err|intros [x A]; discriminate]| |split; [apply post_err|intros [x A]; discriminate]..].
  cbn [fair] in Fa. destruct (own_file p y O E Fa) as [m [M1 [M2 [M3 M4]]]].
  unfold tup_fs_truncate. rewrite peel_path, get_finfo_path.
  pose proof (handle_file_state s n j t k s p (EWrite (abs p)) (is_state_same s n j JN) O) as I1.
  set (s1 := handle_file (job_path n p) (EWrite (abs p)) s) in *. pose proof I1 as [_ [T1 [_ [J1 _]]]]. rewrite J1, T1, find_mapping_path. cbn [record jmaps]. rewrite M4, M3.
  cbn [unit_reply fst snd]. split; [|reflexivity]. destruct (add_event (EWrite (abs p)) (in_files m p M1 M2)) as [A [C D]].
  destruct (step_write top d t k (record (EWrite (abs p)) j) A m (NFile (ftruncate y size)) M1 ltac:(discriminate)) as [A' [C' D']].
  eexists _, _, _. split; [apply (is_state_tmp s n (record (EWrite (abs p)) j) t); exact I1|]. split; [exact A'|]. split; [exact C'|]. split; [discriminate|].
  intros _. cbn [allowed answer effect]. rewrite (vw_ordinary p O), E. cbn [on_file]. split; [exists y; reflexivity|]. split; [reflexivity|]. apply upd_V; [exact O|]. rewrite <- M2. exact D'.
Qed.

(** *** Listing *)
Lemma in_entries {A} (f : A -> option bytes) l c : In c (entries f l) <-> exists x, In x l /\ f x = Some c.
Proof.
  induction l as [|x l IH]; cbn [entries In]; [split; [tauto|intros [y [[] _]]]|]. destruct (f x) as [e|] eqn:E; cbn [In]; rewrite IH; split.
  - intros [<-|[y [H1 H2]]]; [exists x; auto|exists y; auto].
  - intros [y [[<-|H1] H2]]; [left; congruence|right; exists y; auto].
  - intros [y [H1 H2]]. exists y. auto.
  - intros [y [[<-|H1] H2]]; [congruence|exists y; auto].
Qed.
Lemma list_reply p : ordinary top p = true -> w (abs p) = Some NDir ->
  exists l e, snd (tup_fs_readdir s (job_path n p)) = inl l /\
    (fst (tup_fs_readdir s (job_path n p)) = s \/ e = ERead (abs p) /\ fst (tup_fs_readdir s (job_path n p)) = handle_file (job_path n p) e s) /\
    (p <> [] -> forall c, ordinary top (p ++ [c]) = true -> c <> B ".tup" -> In c l <-> vw (p ++ [c]) <> None).
Proof.
  intros O E. unfold tup_fs_readdir. rewrite get_finfo_path, JN, peel_path.
  assert (existsb (fun m => match entry_in (abs p) (realname m) with Some _ => match get (tmpname m) t with Some _ => false | None => true end | None => false end) (jmaps j) = false) as ->.
  { destruct (existsb _ (jmaps j)) eqn:X; [|reflexivity]. apply existsb_exists in X. destruct X as [m [X1 X2]]. destruct (entry_in (abs p) (realname m)); [|discriminate].
    destruct (ji_tmp _ _ _ _ _ J m X1) as [_ [_ [y [K _]]]]. rewrite K in X2. discriminate. }
  set (ow := entries (fun m => entry_in (abs p) (realname m)) (jmaps j) ++ entries (entry_in (abs p)) (jdirs j)).
  assert (OWS : p <> [] -> forall c, ordinary top (p ++ [c]) = true -> In c ow <-> In (abs (p ++ [c])) (owned j)).
  { intros Np c Oc. assert (abs p = below p) as AB by (destruct p; [contradiction|reflexivity]).
    assert (Gp := proj1 (ordinary_parts p O)).
    assert (forall x, In x (owned j) -> entry_in (abs p) x = Some c <-> x = abs (p ++ [c])) as EN.
    { intros x Hx. destruct (ji_path _ _ _ _ _ J x Hx) as [a [b [Oa [-> _]]]]. rewrite AB, (entry_in_below p (a ++ [b]) c Gp (proj1 (ordinary_parts _ Oa))) by (destruct a; discriminate).
      split; [intros ->; reflexivity|]. intros K. apply abs_inj in K; [exact K|apply (ordinary_parts _ Oa)|apply (ordinary_parts _ Oc)]. }
    unfold ow. rewrite in_app_iff, !in_entries. unfold owned, files. rewrite in_app_iff, in_map_iff. split.
    - intros [[m [H1 H2]]|[x [H1 H2]]].
      + left. exists m. split; [apply EN; [apply in_or_app; left; apply in_map; exact H1|exact H2]|exact H1].
      + right. apply EN in H2; [rewrite <- H2; exact H1|apply in_or_app; right; exact H1].
    - intros [[m [H1 H2]]|H1].
      + left. exists m. split; [exact H2|]. apply EN; [apply in_or_app; left; apply in_map; exact H2|exact H1].
      + right. exists (abs (p ++ [c])). split; [exact H1|]. apply EN; [apply in_or_app; right; exact H1|reflexivity]. }
  destruct (is_tmpdir j (abs p)) eqn:D.
  - exists ow, (ERead (abs p)). split; [reflexivity|]. split; [left; reflexivity|]. intros Np c Oc _. rewrite (OWS Np c Oc), (vw_ordinary _ Oc). split; [apply (V_owned top d t k j J)|].
    intros H. destruct (in_dec bytes_eq_dec (abs (p ++ [c])) (owned j)) as [I|I]; [exact I|]. exfalso. rewrite V_other in H by exact I.
    apply is_tmpdir_spec in D. destruct (ji_path _ _ _ _ _ J (abs p)) as [_ [_ [_ [_ [K _]]]]]; [apply in_or_app; right; exact D|].
    destruct T as [_ [T1 _]]. rewrite (T1 p c (proj1 (ordinary_parts _ Oc)) H) in K. discriminate.
  - exists (ow ++ disk_entries d (abs p)), (ERead (abs p)). split; [reflexivity|]. split; [right; split; reflexivity|]. intros Np c Oc Nt.
    rewrite in_app_iff, (OWS Np c Oc), (vw_ordinary _ Oc).
    assert (In c (disk_entries d (abs p)) <-> get (abs (p ++ [c])) d <> None) as DE.
    { unfold disk_entries, disk_entry. assert (bytes_eqb (abs p) [slash] = false) as ->.
      { destruct (bytes_eqb_spec (abs p) [slash]) as [K|K]; [|reflexivity]. exfalso. change [slash] with (abs []) in K. apply abs_inj in K; [contradiction|apply (ordinary_parts p O)|reflexivity]. }
      assert (abs p = below p) as AB by (destruct p; [contradiction|reflexivity]).
      rewrite filter_In, in_entries, get_in, in_map_iff. rewrite AB.
      assert (forall e, In e d -> (if bytes_eqb (fst e) [slash] then None else entry_in (below p) (fst e)) = Some c <-> fst e = abs (p ++ [c])) as EN.
      { intros e He. assert (get (fst e) d <> None) as Ge by (apply get_in; apply in_map; exact He). destruct T as [_ [_ T2]]. destruct (T2 _ Ge) as [a [Ga ->]].
        destruct (bytes_eqb_spec (abs a) [slash]) as [K|K].
        - split; [discriminate|]. change [slash] with (abs []) in K. rewrite K. intros K'. apply abs_inj in K'; [destruct p; discriminate|reflexivity|apply (ordinary_parts _ Oc)].
        - assert (a <> []) as Na by (intros ->; apply K; reflexivity).
          rewrite (entry_in_below p a c (proj1 (ordinary_parts p O)) Ga Na).
          split; [intros ->; reflexivity|]. intros K'. apply abs_inj in K'; [exact K'|exact Ga|apply (ordinary_parts _ Oc)]. }
      split.
      - intros [[e [H1 H2]] _]. exists e. split; [apply EN; assumption|exact H1].
      - intros [e [H1 H2]]. split; [exists e; split; [exact H2|apply EN; assumption]|]. destruct (bytes_eqb_spec c (B ".tup")); [contradiction|reflexivity]. }
    rewrite DE. split.
    + intros [H|H]; [apply (V_owned top d t k j J); exact H|]. destruct (V_disk top d t k j J _ H) as [-> _]. exact H.
    + intros H. destruct (in_dec bytes_eq_dec (abs (p ++ [c])) (owned j)) as [I|I]; [left; exact I|right]. rewrite V_other in H by exact I. exact H.
Qed.
Lemma post_list p : ordinary top p = true ->
  post s n j (OList p) (fst (request s n (OList p))) (snd (request s n (OList p))) /\
  (allowed vw (OList p) -> exists l, snd (request s n (OList p)) = RNames l /\
     (p <> [] -> forall c, ordinary top (p ++ [c]) = true -> c <> B ".tup" -> In c l <-> vw (p ++ [c]) <> None)).
Proof.
  intros O. change (allowed vw (OList p)) with (vw p = Some NDir). cbn [FuseModel.request]. rewrite (vw_ordinary p O). destruct (reach top s n p) eqn:R.
  2: { split; [apply post_err|]. intros A. exfalso. rewrite (reach_some p O) in R by congruence. discriminate. }
  rewrite (look_V s n j p JN O). destruct (w (abs p)) as [[|y|y]|] eqn:E; [|split; [apply post_err|intros A; discriminate]..].
  destruct (list_reply p O E) as [l [e [H1 [H2 H3]]]]. cbn [fst snd]. rewrite H1. split; [|intros _; exists l; split; [reflexivity|exact H3]].
  assert (exists j', is_state s n j' t k (fst (tup_fs_readdir s (job_path n p))) /\ JI top d t k j' /\ frame t k j t k j' /\ forall z, V d t j' z = w z) as [j' [A1 [A2 [A3 A4]]]].
  { destruct H2 as [->|[-> ->]].
    - exists j. split; [apply is_state_same; exact JN|]. split; [exact J|]. split; [apply frame_refl; reflexivity|reflexivity].
    - exists (record (ERead (abs p)) j). split; [apply handle_file_state; [apply is_state_same; exact JN|exact O]|]. apply add_event. exact I. }
  exists j', t, k. split; [exact A1|]. split; [exact A2|]. split; [exact A3|]. split; [discriminate|].
  intros _. cbn [allowed answer effect]. rewrite (vw_ordinary p O), E. split; [reflexivity|]. split; [exists l; reflexivity|]. apply id_V. exact A4.
Qed.

Theorem request_post o : (forall p, In p (paths o) -> ordinary top p = true) -> fair top s n o ->
  post s n j o (fst (request s n o)) (snd (request s n o)).
Proof.
  intros P F. destruct o as [p|p|tg p|p|p|p|p q|p wr|p|p off dat|p size|p]; assert (Op := P p (or_introl eq_refl)).
  - apply post_look. exact Op.
  - apply post_create. exact Op.
  - apply post_symlink. exact Op.
  - apply post_mkdir. exact Op.
  - apply post_rmdir. exact Op.
  - apply post_unlink. exact Op.
  - apply post_rename; [exact Op|apply P; right; left; reflexivity|exact F].
  - apply post_open; [exact Op|exact F].
  - apply post_read. exact Op.
  - apply post_write. exact Op.
  - apply post_truncate; [exact Op|exact F].
  - apply post_list. exact Op.
Qed.
Theorem request_accepted o : (forall p, In p (paths o) -> ordinary top p = true) -> fair top s n o -> mine s o ->
  top_writable = true -> (forall x, writable x = true) ->
  allowed vw o -> failed (snd (request s n o)) = false.
Proof.
  intros P F M W1 W2 A. destruct o as [p|p|tg p|p|p|p|p q|p wr|p|p off dat|p size|p]; assert (Op := P p (or_introl eq_refl)).
  - cbn [allowed] in A. rewrite (vw_ordinary p Op) in A. cbn [FuseModel.request]. rewrite (reach_some p Op A).
    destruct (getattr_state s n j p JN Op) as [_ [_ [_ K]]]. cbn [snd]. rewrite K. destruct (w (abs p)); [reflexivity|contradiction].
  - apply post_create; assumption.
  - apply post_symlink; assumption.
  - apply post_mkdir; assumption.
  - apply post_rmdir; assumption.
  - apply post_unlink; assumption.
  - apply post_rename; try assumption. apply P; right; left; reflexivity.
  - apply post_open; assumption.
  - apply post_read; assumption.
  - apply post_write; assumption.
  - apply post_truncate; assumption.
  - destruct (proj2 (post_list p Op) A) as [l [-> _]]. reflexivity.
Qed.
End Request.
End Server.
