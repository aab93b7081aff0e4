(** The files of one job. *)
From Verif Require Import Base ExecModel GraphModel TentModel FileModel FileSpec FuseModel FuseSpec FuseProofs.

(** What job [j] sees under an absolute name. *)
Definition V (d t : list (bytes * node)) (j : job) (x : bytes) : option node :=
  if is_tmpdir j x then Some NDir
  else match find (fun m => bytes_eqb x (realname m)) (jmaps j) with Some m => get (tmpname m) t | None => get x d end.
Definition files (j : job) : list bytes := map realname (jmaps j).
Definition owned (j : job) : list bytes := files j ++ jdirs j.

Record JI (top : bytes) (d t : list (bytes * node)) (k : nat) (j : job) : Prop := {
  ji_nodup : NoDup (owned j);
  ji_path : forall x, In x (owned j) -> exists p c, ordinary top (p ++ [c]) = true /\ x = abs (p ++ [c]) /\ get x d = None /\
              (In (abs p) (jdirs j) \/ get (abs p) d = Some NDir);
  ji_tmp : forall m, In m (jmaps j) -> mtent m = None /\ (exists i, i < k /\ tmpname m = tmp_name i) /\ not_dir (get (tmpname m) t);
  ji_tmps : NoDup (map tmpname (jmaps j));
  ji_renames : renames_own (jevs j) [];
  ji_own : forall f, In f (own (jevs j) []) <-> In f (files j) }.

(** *** Events *)
Lemma own_app a b o : own (a ++ b) o = own b (own a o).
Proof. revert o; induction a as [|e a IH]; intros o; [reflexivity|]. apply IH. Qed.
Lemma renames_own_app a b o : renames_own (a ++ b) o <-> renames_own a o /\ renames_own b (own a o).
Proof. revert o; induction a as [|e a IH]; intros o; cbn [app renames_own own]; [tauto|]. rewrite IH. tauto. Qed.

(** *** Lists *)
Lemma is_tmpdir_spec j x : is_tmpdir j x = true <-> In x (jdirs j).
Proof.
  unfold is_tmpdir. rewrite existsb_exists. split.
  - intros [y [H E]]. apply bytes_eqb_eq in E. subst. exact H.
  - intros H. exists x. split; [exact H|apply bytes_eqb_refl].
Qed.
Lemma find_files j x m : find (fun m => bytes_eqb x (realname m)) (jmaps j) = Some m -> In m (jmaps j) /\ realname m = x.
Proof. intros H. apply find_some in H. destruct H as [H E]. apply bytes_eqb_eq in E. auto. Qed.
Lemma find_no_file j x : find (fun m => bytes_eqb x (realname m)) (jmaps j) = None -> ~ In x (files j).
Proof.
  intros H C. apply in_map_iff in C. destruct C as [m [E C]]. pose proof (find_none _ _ H m C) as N. cbn in N. rewrite E, bytes_eqb_refl in N. discriminate.
Qed.
Lemma nodup_app_l {A} (a b : list A) : NoDup (a ++ b) -> NoDup a.
Proof.
  induction a as [|x a IH]; intros H; [constructor|]. inversion H as [|y l N1 N2]; subst. constructor; [|apply IH; exact N2].
  intros C. apply N1. apply in_or_app. left. exact C.
Qed.
Lemma nodup_app_r {A} (a b : list A) : NoDup (a ++ b) -> NoDup b.
Proof. induction a as [|x a IH]; intros H; [exact H|]. inversion H; subst. apply IH. assumption. Qed.
Lemma nodup_app_not {A} (a b : list A) x : NoDup (a ++ b) -> In x a -> ~ In x b.
Proof.
  induction a as [|y a IH]; intros H Ha Hb; [destruct Ha|]. inversion H as [|z l N1 N2]; subst. destruct Ha as [->|Ha].
  - apply N1. apply in_or_app. right. exact Hb.
  - exact (IH N2 Ha Hb).
Qed.
Lemma nodup_map_inj {A C} (f : A -> C) l x y : NoDup (map f l) -> In x l -> In y l -> f x = f y -> x = y.
Proof.
  induction l as [|a l IH]; intros N Hx Hy E; [destruct Hx|]. cbn [map] in N. inversion N as [|z r N1 N2]; subst.
  destruct Hx as [->|Hx], Hy as [->|Hy]; [reflexivity| | |apply IH; assumption].
  - exfalso. apply N1. rewrite E. apply in_map. exact Hy.
  - exfalso. apply N1. rewrite <- E. apply in_map. exact Hx.
Qed.
Lemma split_maps l m : NoDup (map tmpname l) -> In m l -> exists l1 l2, l = l1 ++ m :: l2 /\ del_map m l = l1 ++ l2 /\
  forall q, rename_map m q l = l1 ++ {| realname := q; tmpname := tmpname m; mtent := mtent m |} :: l2.
Proof.
  induction l as [|x l IH]; intros N H; [destruct H|]. cbn [map] in N. inversion N as [|z r N1 N2]; subst.
  cbn [del_map rename_map]. destruct (bytes_eqb_spec (tmpname x) (tmpname m)) as [E|E].
  - assert (x = m) as -> by (apply (nodup_map_inj tmpname (x :: l)); [exact N|left; reflexivity|exact H|exact E]).
    exists [], l. auto.
  - destruct H as [->|H]; [contradiction|]. destruct (IH N2 H) as [l1 [l2 [E1 [E2 E3]]]]. exists (x :: l1), l2. cbn [app].
    rewrite E1 at 1. rewrite E2. split; [reflexivity|]. split; [reflexivity|]. intros q. rewrite E3. reflexivity.
Qed.
Lemma split_dirs l x : In x l -> exists l1 l2, l = l1 ++ x :: l2 /\ del_first x l = l1 ++ l2 /\ forall q, rename_first x q l = l1 ++ q :: l2.
Proof.
  induction l as [|y l IH]; intros H; [destruct H|]. cbn [del_first rename_first]. destruct (bytes_eqb_spec y x) as [->|E].
  - exists [], l. auto.
  - destruct H as [->|H]; [contradiction|]. destruct (IH H) as [l1 [l2 [E1 [E2 E3]]]]. exists (y :: l1), l2. cbn [app].
    rewrite E1 at 1. rewrite E2. split; [reflexivity|]. split; [reflexivity|]. intros q. rewrite E3. reflexivity.
Qed.

Section Local.
Variable top : bytes.
Variable d : list (bytes * node).
Hypothesis T : tree d.

Section View.
Variable t : list (bytes * node).
Variable k : nat.
Variable j : job.
Hypothesis J : JI top d t k j.

Lemma V_dir x : In x (jdirs j) -> V d t j x = Some NDir.
Proof. intros H. unfold V. apply is_tmpdir_spec in H. rewrite H. reflexivity. Qed.
Lemma V_map m : In m (jmaps j) -> V d t j (realname m) = get (tmpname m) t.
Proof.
  intros H. unfold V. assert (~ In (realname m) (jdirs j)) as N by (apply (nodup_app_not (files j)); [exact (ji_nodup _ _ _ _ _ J)|apply in_map; exact H]).
  destruct (is_tmpdir j (realname m)) eqn:E; [apply is_tmpdir_spec in E; contradiction|].
  destruct (find _ (jmaps j)) as [m'|] eqn:F.
  - apply find_files in F. destruct F as [F1 F2]. f_equal. f_equal.
    apply (nodup_map_inj realname (jmaps j)); [exact (nodup_app_l _ _ (ji_nodup _ _ _ _ _ J))|exact F1|exact H|exact F2].
  - apply find_no_file in F. exfalso. apply F. apply in_map. exact H.
Qed.
Lemma V_other x : ~ In x (owned j) -> V d t j x = get x d.
Proof.
  intros H. unfold V. destruct (is_tmpdir j x) eqn:E; [exfalso; apply H; apply in_or_app; right; apply is_tmpdir_spec; exact E|].
  destruct (find _ (jmaps j)) as [m'|] eqn:F; [|reflexivity]. exfalso. apply H. apply in_or_app. left. apply find_files in F. destruct F as [F1 <-]. apply in_map. exact F1.
Qed.
Lemma V_owned x : In x (owned j) -> V d t j x <> None.
Proof.
  intros H. apply in_app_or in H. destruct H as [H|H]; [|rewrite V_dir by exact H; discriminate].
  apply in_map_iff in H. destruct H as [m [<- H]]. rewrite V_map by exact H. destruct (ji_tmp _ _ _ _ _ J m H) as [_ [_ [y [E _]]]]. rewrite E. discriminate.
Qed.
Lemma V_none x : V d t j x = None <-> ~ In x (owned j) /\ get x d = None.
Proof.
  split.
  - intros H. assert (~ In x (owned j)) as N by (intros C; apply (V_owned x C H)). split; [exact N|]. rewrite V_other in H by exact N. exact H.
  - intros [H1 H2]. rewrite V_other by exact H1. exact H2.
Qed.
Lemma V_is_dir x : V d t j x = Some NDir -> In x (jdirs j) \/ get x d = Some NDir.
Proof.
  intros H. destruct (in_dec bytes_eq_dec x (owned j)) as [I|I]; [|right; rewrite V_other in H by exact I; exact H].
  apply in_app_or in I. destruct I as [I|I]; [|left; exact I]. exfalso.
  apply in_map_iff in I. destruct I as [m [<- I]]. rewrite V_map in H by exact I. destruct (ji_tmp _ _ _ _ _ J m I) as [_ [_ [y [E F]]]]. congruence.
Qed.
Lemma V_parent_dir x : In x (jdirs j) \/ get x d = Some NDir -> V d t j x = Some NDir.
Proof.
  intros [H|H]; [apply V_dir; exact H|]. rewrite V_other; [exact H|]. intros C. destruct (ji_path _ _ _ _ _ J x C) as [p [c [_ [_ [E _]]]]]. congruence.
Qed.
(** The job's files are not on the disk, and those of the disk not the job's. *)
Lemma V_disk x : get x d <> None -> V d t j x = get x d /\ ~ In x (owned j).
Proof.
  intros H. assert (~ In x (owned j)) as N. { intros C. destruct (ji_path _ _ _ _ _ J x C) as [p [c [_ [_ [E _]]]]]. contradiction. }
  split; [apply V_other; exact N|exact N].
Qed.
Lemma V_file x : not_dir (V d t j x) -> get x d = None -> exists m, In m (jmaps j) /\ realname m = x.
Proof.
  intros [y [H1 H2]] N. destruct (in_dec bytes_eq_dec x (owned j)) as [I|I]; [|rewrite V_other in H1 by exact I; congruence].
  apply in_app_or in I. destruct I as [I|I]; [|rewrite V_dir in H1 by exact I; congruence].
  apply in_map_iff in I. destruct I as [m [E I]]. exists m. auto.
Qed.
(** The view is a tree. *)
Lemma V_closed p c : good (p ++ [c]) = true -> V d t j (abs (p ++ [c])) <> None -> V d t j (abs p) = Some NDir.
Proof.
  intros G H. apply V_parent_dir. destruct (in_dec bytes_eq_dec (abs (p ++ [c])) (owned j)) as [I|I].
  - destruct (ji_path _ _ _ _ _ J _ I) as [p' [c' [O [E [_ P]]]]]. apply ordinary_spec in O. apply abs_inj in E; [|exact G|apply O].
    apply app_inj_tail in E. destruct E as [-> ->]. exact P.
  - rewrite V_other in H by exact I. right. destruct T as [_ [T1 _]]. exact (T1 p c G H).
Qed.
Lemma V_above q x : good x = true -> under q x -> V d t j (abs x) <> None -> V d t j (abs q) = Some NDir.
Proof.
  intros G [c [r ->]]. revert c q G. induction r as [|e r IH] using rev_ind; intros c q G H.
  - exact (V_closed q c G H).
  - apply (IH c q).
    + rewrite app_comm_cons, app_assoc, good_app in G. apply andb_prop in G. apply G.
    + rewrite app_comm_cons, app_assoc in H, G. rewrite (V_closed _ e G H). discriminate.
Qed.
Lemma V_root : V d t j [slash] = Some NDir.
Proof. apply V_parent_dir. right. apply T. Qed.
Lemma V_under_file q x : good x = true -> under q x -> V d t j (abs q) <> Some NDir -> V d t j (abs x) = None.
Proof. intros G U H. destruct (V d t j (abs x)) as [y|] eqn:E; [|reflexivity]. exfalso. apply H. apply (V_above q x G U). rewrite E. discriminate. Qed.
End View.

(** The temporary files of other jobs are not touched, new ones are new. *)
Definition frame (t : list (bytes * node)) (k : nat) (j : job) (t' : list (bytes * node)) (k' : nat) (j' : job) : Prop :=
  k <= k' /\
  (forall x, ~ In x (map tmpname (jmaps j)) -> (exists i, i < k /\ x = tmp_name i) -> get x t' = get x t) /\
  forall m, In m (jmaps j') -> In (tmpname m) (map tmpname (jmaps j)) \/ exists i, k <= i < k' /\ tmpname m = tmp_name i.

Section Step.
Variable t : list (bytes * node).
Variable k : nat.
Variable j : job.
Hypothesis J : JI top d t k j.
Let v := V d t j.

Lemma frame_refl j' : jmaps j' = jmaps j -> frame t k j t k j'.
Proof. intros E. split; [lia|]. split; [auto|]. intros m H. left. rewrite <- E. apply in_map. exact H. Qed.

(** Only the events change. *)
Lemma step_events l : renames_own (jevs j ++ l) [] -> (forall f, In f (own l (own (jevs j) [])) <-> In f (own (jevs j) [])) ->
  let j' := {| jmaps := jmaps j; jdirs := jdirs j; jevs := jevs j ++ l |} in
  JI top d t k j' /\ frame t k j t k j' /\ forall z, V d t j' z = v z.
Proof.
  intros R O j'. split; [|split; [apply frame_refl; reflexivity|reflexivity]].
  destruct J as [A1 A2 A3 A4 A5 A6]. constructor; try assumption.
  intros f. cbn [jevs j']. rewrite own_app, O. apply A6.
Qed.

(** A new file. *)
Lemma step_add p c y l : ordinary top (p ++ [c]) = true -> v (abs p) = Some NDir -> v (abs (p ++ [c])) = None -> y <> NDir ->
  renames_own (jevs j ++ l) [] -> (forall f, In f (own l (own (jevs j) [])) <-> f = abs (p ++ [c]) \/ In f (own (jevs j) [])) ->
  let j' := {| jmaps := jmaps j ++ [{| realname := abs (p ++ [c]); tmpname := tmp_name k; mtent := None |}]; jdirs := jdirs j; jevs := jevs j ++ l |} in
  let t' := put (tmp_name k) y t in
  JI top d t' (S k) j' /\ frame t k j t' (S k) j' /\ forall z, V d t' j' z = if bytes_eqb z (abs (p ++ [c])) then Some y else v z.
Proof.
  intros O P N Y R OW j' t'. set (x := abs (p ++ [c])) in *.
  apply (V_none t k j J) in N. destruct N as [N1 N2].
  assert (NK : ~ In (tmp_name k) (map tmpname (jmaps j))).
  { intros C. apply in_map_iff in C. destruct C as [m [E C]]. destruct (ji_tmp _ _ _ _ _ J m C) as [_ [[i [L E2]] _]]. rewrite E2 in E. apply tmp_name_inj in E. lia. }
  assert (TM : forall m, In m (jmaps j) -> tmpname m <> tmp_name k) by (intros m Hm C; apply NK; rewrite <- C; apply in_map; exact Hm).
  assert (OWN : owned j' = files j ++ [x] ++ jdirs j) by (unfold owned, files; cbn [j' jmaps jdirs]; rewrite map_app, <- app_assoc; reflexivity).
  assert (IN : forall z, In z (owned j') <-> z = x \/ In z (owned j)).
  { intros z. rewrite OWN. unfold owned. rewrite !in_app_iff. cbn [In]. intuition congruence. }
  assert (JJ : JI top d t' (S k) j').
  { constructor.
    - rewrite OWN. cbn [app]. apply (NoDup_Add (a := x) (l := files j ++ jdirs j)).
      + apply Add_app.
      + split; [exact (ji_nodup _ _ _ _ _ J)|exact N1].
    - intros z Hz. apply IN in Hz. destruct Hz as [->|Hz].
      + exists p, c. split; [exact O|]. split; [reflexivity|]. split; [exact N2|]. apply (V_is_dir t k j J). exact P.
      + exact (ji_path _ _ _ _ _ J z Hz).
    - intros m Hm. cbn [j' jmaps] in Hm. apply in_app_or in Hm. destruct Hm as [Hm|[<-|[]]].
      + destruct (ji_tmp _ _ _ _ _ J m Hm) as [A [[i [L E]] C]]. split; [exact A|]. split; [exists i; split; [lia|exact E]|].
        unfold t'. rewrite get_put_other by (apply TM; exact Hm). exact C.
      + split; [reflexivity|]. split; [exists k; split; [lia|reflexivity]|]. cbn [tmpname]. unfold t'. rewrite get_put_same. exists y. auto.
    - cbn [j' jmaps]. rewrite map_app. cbn [map tmpname]. apply (NoDup_Add (a := tmp_name k) (l := map tmpname (jmaps j))).
      + rewrite <- (app_nil_r (map tmpname (jmaps j))) at 1. apply Add_app.
      + split; [exact (ji_tmps _ _ _ _ _ J)|exact NK].
    - exact R.
    - intros f. cbn [j' jevs]. rewrite own_app, OW, (ji_own _ _ _ _ _ J). unfold files. cbn [j' jmaps]. rewrite map_app, in_app_iff. cbn [map realname In]. intuition congruence. }
  split; [exact JJ|]. split.
  - split; [lia|]. split.
    + intros z Hz [i [L ->]]. unfold t'. apply get_put_other. intros E. apply tmp_name_inj in E. lia.
    + intros m Hm. cbn [j' jmaps] in Hm. apply in_app_or in Hm. destruct Hm as [Hm|[<-|[]]]; [left; apply in_map; exact Hm|right; exists k; split; [lia|reflexivity]].
  - intros z. destruct (bytes_eqb_spec z x) as [->|Z].
    + pose proof (V_map t' (S k) j' JJ {| realname := x; tmpname := tmp_name k; mtent := None |}) as M. cbn [realname tmpname] in M. rewrite M.
      * unfold t'. apply get_put_same.
      * cbn [j' jmaps]. apply in_or_app. right. left. reflexivity.
    + unfold v. destruct (in_dec bytes_eq_dec z (owned j)) as [I|I].
      * apply in_app_or in I. destruct I as [I|I]; [|rewrite (V_dir t j z I); apply (V_dir t' j'); exact I].
        apply in_map_iff in I. destruct I as [m [<- I]]. rewrite (V_map t k j J m I), (V_map t' (S k) j' JJ m) by (cbn [j' jmaps]; apply in_or_app; left; exact I).
        unfold t'. apply get_put_other. apply TM. exact I.
      * rewrite (V_other t j z I). apply (V_other t' j'). intros C. apply IN in C. destruct C; contradiction.
Qed.

(** A new directory. *)
Lemma step_mkdir p c : ordinary top (p ++ [c]) = true -> v (abs p) = Some NDir -> v (abs (p ++ [c])) = None ->
  let j' := {| jmaps := jmaps j; jdirs := jdirs j ++ [abs (p ++ [c])]; jevs := jevs j |} in
  JI top d t k j' /\ frame t k j t k j' /\ forall z, V d t j' z = if bytes_eqb z (abs (p ++ [c])) then Some NDir else v z.
Proof.
  intros O P N j'. set (x := abs (p ++ [c])) in *.
  apply (V_none t k j J) in N. destruct N as [N1 N2].
  assert (IN : forall z, In z (owned j') <-> z = x \/ In z (owned j)).
  { intros z. unfold owned, files. cbn [j' jmaps jdirs]. rewrite !in_app_iff. cbn [In]. intuition congruence. }
  assert (JJ : JI top d t k j').
  { constructor.
    - unfold owned, files. cbn [j' jmaps jdirs]. rewrite app_assoc. apply (NoDup_Add (a := x) (l := owned j)).
      + rewrite <- (app_nil_r (owned j)) at 1. apply Add_app.
      + split; [exact (ji_nodup _ _ _ _ _ J)|exact N1].
    - intros z Hz. cbn [j' jdirs]. apply IN in Hz. destruct Hz as [->|Hz].
      + exists p, c. split; [exact O|]. split; [reflexivity|]. split; [exact N2|]. apply (V_is_dir t k j J) in P. destruct P as [P|P]; [left; apply in_or_app; left; exact P|right; exact P].
      + destruct (ji_path _ _ _ _ _ J z Hz) as [p' [c' [A [C [D E]]]]]. exists p', c'. split; [exact A|]. split; [exact C|]. split; [exact D|].
        destruct E as [E|E]; [left; apply in_or_app; left; exact E|right; exact E].
    - exact (ji_tmp _ _ _ _ _ J).
    - exact (ji_tmps _ _ _ _ _ J).
    - exact (ji_renames _ _ _ _ _ J).
    - exact (ji_own _ _ _ _ _ J). }
  split; [exact JJ|]. split; [apply frame_refl; reflexivity|].
  intros z. destruct (bytes_eqb_spec z x) as [->|Z].
  - apply V_dir. cbn [j' jdirs]. apply in_or_app. right. left. reflexivity.
  - unfold v. destruct (in_dec bytes_eq_dec z (owned j)) as [I|I].
    + apply in_app_or in I. destruct I as [I|I].
      * apply in_map_iff in I. destruct I as [m [<- I]]. rewrite (V_map t k j J m I). apply (V_map t k j' JJ m). exact I.
      * rewrite (V_dir t j z I). apply V_dir. cbn [j' jdirs]. apply in_or_app. left. exact I.
    + rewrite (V_other t j z I). apply V_other. intros C. apply IN in C. destruct C; contradiction.
Qed.

(** A file goes away. *)
Lemma step_unlink m l : In m (jmaps j) ->
  renames_own (jevs j ++ l) [] -> (forall f, In f (own l (own (jevs j) [])) <-> f <> realname m /\ In f (own (jevs j) [])) ->
  let j' := {| jmaps := del_map m (jmaps j); jdirs := jdirs j; jevs := jevs j ++ l |} in
  let t' := del (tmpname m) t in
  JI top d t' k j' /\ frame t k j t' k j' /\ forall z, V d t' j' z = if bytes_eqb z (realname m) then None else v z.
Proof.
  intros M R OW j' t'. destruct (split_maps (jmaps j) m (ji_tmps _ _ _ _ _ J) M) as [l1 [l2 [E1 [E2 _]]]].
  pose proof (ji_nodup _ _ _ _ _ J) as ND. pose proof (ji_tmps _ _ _ _ _ J) as NT.
  assert (ND' : NoDup (map realname l1 ++ realname m :: (map realname l2 ++ jdirs j))).
  { unfold owned, files in ND. rewrite E1, map_app, <- app_assoc in ND. exact ND. }
  assert (NT' : NoDup (map tmpname l1 ++ tmpname m :: map tmpname l2)) by (rewrite E1, map_app in NT; exact NT).
  assert (OWN : owned j' = map realname l1 ++ map realname l2 ++ jdirs j).
  { unfold owned, files. cbn [j' jmaps jdirs]. rewrite E2, map_app, <- app_assoc. reflexivity. }
  assert (FI : forall z, In z (files j') <-> z <> realname m /\ In z (files j)).
  { intros z. unfold files. cbn [j' jmaps]. rewrite E2, E1, !map_app, !in_app_iff. cbn [map In].
    pose proof (NoDup_remove_2 _ _ _ ND') as N. rewrite !in_app_iff in N. intuition congruence. }
  assert (IM : forall m', In m' (jmaps j') -> In m' (jmaps j) /\ tmpname m' <> tmpname m).
  { intros m' H. cbn [j' jmaps] in H. rewrite E2 in H. split; [rewrite E1; apply in_app_or in H; apply in_or_app; destruct H; [left|right; right]; assumption|].
    intros C. apply (NoDup_remove_2 _ _ _ NT'). rewrite <- C, <- map_app. apply in_map. exact H. }
  assert (DI : forall z, In z (jdirs j) -> z <> realname m).
  { intros z Hz ->. apply (NoDup_remove_2 _ _ _ ND'). apply in_or_app. right. apply in_or_app. right. exact Hz. }
  assert (JJ : JI top d t' k j').
  { constructor.
    - rewrite OWN. exact (NoDup_remove_1 _ _ _ ND').
    - intros z Hz. apply (ji_path _ _ _ _ _ J z). apply in_app_or in Hz. apply in_or_app. destruct Hz as [Hz|Hz]; [left; apply FI; exact Hz|right; exact Hz].
    - intros m' Hm. destruct (IM m' Hm) as [Hm1 Hm2]. destruct (ji_tmp _ _ _ _ _ J m' Hm1) as [A [C D]]. split; [exact A|]. split; [exact C|].
      unfold t'. rewrite get_del_other by exact Hm2. exact D.
    - cbn [j' jmaps]. rewrite E2, map_app. exact (NoDup_remove_1 _ _ _ NT').
    - exact R.
    - intros f. cbn [j' jevs]. rewrite own_app, OW, (ji_own _ _ _ _ _ J), FI. reflexivity. }
  split; [exact JJ|]. split.
  - split; [lia|]. split.
    + intros z Hz _. unfold t'. apply get_del_other. intros ->. apply Hz. apply in_map. exact M.
    + intros m' Hm. left. apply in_map. apply IM. exact Hm.
  - intros z. destruct (bytes_eqb_spec z (realname m)) as [->|Z].
    + rewrite (V_other t' j').
      * destruct (ji_path _ _ _ _ _ J (realname m)) as [p [c [_ [_ [E _]]]]]; [apply in_or_app; left; apply in_map; exact M|exact E].
      * rewrite OWN. exact (NoDup_remove_2 _ _ _ ND').
    + unfold v. destruct (in_dec bytes_eq_dec z (owned j)) as [I|I].
      * apply in_app_or in I. destruct I as [I|I]; [|rewrite (V_dir t j z I); apply (V_dir t' j'); exact I].
        assert (In z (files j')) as I' by (apply FI; auto).
        apply in_map_iff in I'. destruct I' as [m' [<- I']]. destruct (IM m' I') as [H1 H2].
        rewrite (V_map t k j J m' H1), (V_map t' k j' JJ m' I'). apply get_del_other. exact H2.
      * rewrite (V_other t j z I). apply (V_other t' j'). intros C. apply I. apply in_app_or in C. apply in_or_app.
        destruct C as [C|C]; [left; apply FI in C; apply C|right; exact C].
Qed.

(** A directory goes away. *)
Lemma step_rmdir p : good p = true -> p <> [] -> In (abs p) (jdirs j) -> (forall x, In x (owned j) -> inside (abs p) x = false) ->
  let j' := {| jmaps := jmaps j; jdirs := del_first (abs p) (jdirs j); jevs := jevs j |} in
  JI top d t k j' /\ frame t k j t k j' /\ forall z, V d t j' z = if bytes_eqb z (abs p) then None else v z.
Proof.
  intros Gp Np D0 EM j'. destruct (split_dirs _ _ D0) as [l1 [l2 [E1 [E2 _]]]].
  pose proof (ji_nodup _ _ _ _ _ J) as ND.
  assert (ND' : NoDup ((files j ++ l1) ++ abs p :: l2)) by (unfold owned in ND; rewrite E1, app_assoc in ND; exact ND).
  assert (OWN : owned j' = (files j ++ l1) ++ l2) by (unfold owned; cbn [j' jdirs]; rewrite E2, app_assoc; reflexivity).
  assert (IN : forall z, In z (owned j') <-> z <> abs p /\ In z (owned j)).
  { intros z. pose proof (NoDup_remove_2 _ _ _ ND') as N. unfold owned at 2. rewrite OWN, E1, app_assoc, (in_app_iff _ (abs p :: l2)). rewrite in_app_iff in *. cbn [In]. intuition congruence. }
  assert (DI : forall z, In z (jdirs j') <-> z <> abs p /\ In z (jdirs j)).
  { intros z. pose proof (NoDup_remove_2 _ _ _ ND') as N. cbn [j' jdirs]. rewrite E2, E1. rewrite !in_app_iff in *. cbn [In]. intuition congruence. }
  assert (JJ : JI top d t k j').
  { constructor.
    - rewrite OWN. exact (NoDup_remove_1 _ _ _ ND').
    - intros z Hz. apply IN in Hz. destruct Hz as [Z Hz]. destruct (ji_path _ _ _ _ _ J z Hz) as [p' [c' [A [C [D E]]]]]. exists p', c'.
      split; [exact A|]. split; [exact C|]. split; [exact D|]. destruct E as [E|E]; [|right; exact E]. left. apply DI. split; [|exact E].
      intros E3. specialize (EM z Hz). apply ordinary_spec in A. destruct A as [A _].
      assert (good p' = true) as A' by (rewrite good_app in A; apply andb_prop in A; apply A).
      apply abs_inj in E3; [|exact A'|exact Gp]. subst p' z.
      assert (inside (abs p) (abs (p ++ [c'])) = true) as K; [|congruence]. apply inside_abs; [exact Gp|exact A|exact Np|]. exists c', []. reflexivity.
    - exact (ji_tmp _ _ _ _ _ J).
    - exact (ji_tmps _ _ _ _ _ J).
    - exact (ji_renames _ _ _ _ _ J).
    - exact (ji_own _ _ _ _ _ J). }
  split; [exact JJ|]. split; [apply frame_refl; reflexivity|].
  intros z. destruct (bytes_eqb_spec z (abs p)) as [->|Z].
  - rewrite V_other.
    + destruct (ji_path _ _ _ _ _ J (abs p)) as [p' [c [_ [_ [E _]]]]]; [apply in_or_app; right; exact D0|exact E].
    + intros C. apply IN in C. apply (proj1 C). reflexivity.
  - unfold v. destruct (in_dec bytes_eq_dec z (owned j)) as [I|I].
    + apply in_app_or in I. destruct I as [I|I].
      * apply in_map_iff in I. destruct I as [m [<- I]]. rewrite (V_map t k j J m I). apply (V_map t k j' JJ m). exact I.
      * rewrite (V_dir t j z I). apply V_dir. apply DI. auto.
    + rewrite (V_other t j z I). apply V_other. intros C. apply IN in C. apply I. apply C.
Qed.

(** A file gets another name, which is free. *)
Lemma step_rename m p c : In m (jmaps j) -> ordinary top (p ++ [c]) = true -> v (abs p) = Some NDir -> v (abs (p ++ [c])) = None ->
  let x := abs (p ++ [c]) in
  let j' := {| jmaps := rename_map m x (jmaps j); jdirs := jdirs j; jevs := jevs j ++ [ERename (realname m) x] |} in
  JI top d t k j' /\ frame t k j t k j' /\
  forall z, V d t j' z = if bytes_eqb z x then v (realname m) else if bytes_eqb z (realname m) then None else v z.
Proof.
  intros M O P N x j'. destruct (split_maps (jmaps j) m (ji_tmps _ _ _ _ _ J) M) as [l1 [l2 [E1 [_ E2]]]]. specialize (E2 x).
  apply (V_none t k j J) in N. destruct N as [N1 N2]. fold x in N1, N2.
  pose proof (ji_nodup _ _ _ _ _ J) as ND. pose proof (ji_tmps _ _ _ _ _ J) as NT.
  assert (ND' : NoDup (map realname l1 ++ realname m :: (map realname l2 ++ jdirs j))).
  { unfold owned, files in ND. rewrite E1, map_app, <- app_assoc in ND. exact ND. }
  assert (OWN : owned j' = map realname l1 ++ x :: (map realname l2 ++ jdirs j)).
  { unfold owned, files. cbn [j' jmaps jdirs]. rewrite E2, map_app, <- app_assoc. reflexivity. }
  assert (NR := NoDup_remove_2 _ _ _ ND'). assert (NR1 := NoDup_remove_1 _ _ _ ND').
  assert (IR : In (realname m) (owned j)) by (apply in_or_app; left; apply in_map; exact M).
  assert (XM : x <> realname m) by (intros E; apply N1; rewrite E; exact IR).
  assert (IO : forall z, In z (owned j) <-> z = realname m \/ In z (map realname l1 ++ map realname l2 ++ jdirs j)).
  { intros z. unfold owned, files. rewrite E1, map_app, <- app_assoc. cbn [map app]. rewrite !in_app_iff. cbn [In]. rewrite !in_app_iff. intuition congruence. }
  assert (FI : forall z, In z (files j') <-> z = x \/ z <> realname m /\ In z (files j)).
  { intros z. unfold files. cbn [j' jmaps]. rewrite E2, E1, !map_app, !in_app_iff. cbn [map In realname].
    rewrite !in_app_iff in NR. intuition congruence. }
  set (m2 := {| realname := x; tmpname := tmpname m; mtent := mtent m |}) in *.
  assert (IM : forall m', In m' (jmaps j') <-> m' = m2 \/ m' <> m /\ In m' (jmaps j)).
  { intros m'. cbn [j' jmaps]. rewrite E2, E1, !in_app_iff. cbn [In].
    assert (NoDup (map tmpname l1 ++ tmpname m :: map tmpname l2)) as NT' by (rewrite E1, map_app in NT; exact NT).
    pose proof (NoDup_remove_2 _ _ _ NT') as NT2. rewrite in_app_iff in NT2.
    assert (In m l1 -> False) by (intros C; apply NT2; left; apply in_map; exact C).
    assert (In m l2 -> False) by (intros C; apply NT2; right; apply in_map; exact C).
    intuition congruence. }
  assert (TN : map tmpname (jmaps j') = map tmpname (jmaps j)) by (cbn [j' jmaps]; rewrite E2, E1, !map_app; reflexivity).
  assert (JJ : JI top d t k j').
  { constructor.
    - rewrite OWN. apply (NoDup_Add (a := x) (l := map realname l1 ++ map realname l2 ++ jdirs j)); [apply Add_app|].
      split; [exact NR1|]. intros C. apply N1. apply IO. right. exact C.
    - intros z Hz. assert (z = x \/ In z (owned j)) as [->|Hz'].
      { rewrite OWN in Hz. rewrite IO. rewrite in_app_iff in *. cbn [In] in Hz. intuition congruence. }
      + exists p, c. split; [exact O|]. split; [reflexivity|]. split; [exact N2|]. apply (V_is_dir t k j J). exact P.
      + exact (ji_path _ _ _ _ _ J z Hz').
    - intros m' Hm. apply IM in Hm. destruct Hm as [->|[_ Hm]].
      + destruct (ji_tmp _ _ _ _ _ J m M) as [A C]. split; [exact A|exact C].
      + exact (ji_tmp _ _ _ _ _ J m' Hm).
    - rewrite TN. exact NT.
    - cbn [j' jevs]. apply renames_own_app. split; [exact (ji_renames _ _ _ _ _ J)|]. cbn [renames_own]. split; [|exact I].
      apply (ji_own _ _ _ _ _ J). apply in_map. exact M.
    - intros f. cbn [j' jevs]. rewrite own_app. cbn [own own_step In]. rewrite filter_In, (ji_own _ _ _ _ _ J), FI.
      destruct (bytes_eqb_spec f (realname m)); cbn [negb]; intuition congruence. }
  split; [exact JJ|]. split.
  - split; [lia|]. split; [auto|]. intros m' Hm. left. rewrite <- TN. apply in_map. exact Hm.
  - intros z. unfold v. destruct (bytes_eqb_spec z x) as [->|Z].
    + rewrite (V_map t k j J m M). apply (V_map t k j' JJ m2). apply IM. left. reflexivity.
    + destruct (bytes_eqb_spec z (realname m)) as [->|Z2].
      * rewrite V_other.
        -- destruct (ji_path _ _ _ _ _ J (realname m) IR) as [p' [c' [_ [_ [E _]]]]]. exact E.
        -- rewrite OWN. rewrite in_app_iff in *. cbn [In]. intros [C|[C|C]]; [apply NR; left; exact C|contradiction|apply NR; right; exact C].
      * destruct (in_dec bytes_eq_dec z (owned j)) as [I|I].
        -- apply in_app_or in I. destruct I as [I|I]; [|rewrite (V_dir t j z I); apply (V_dir t j'); exact I].
           apply in_map_iff in I. destruct I as [m' [<- I]]. rewrite (V_map t k j J m' I). apply (V_map t k j' JJ m'). apply IM. right. split; [congruence|exact I].
        -- rewrite (V_other t j z I). apply V_other. rewrite OWN. intros C. apply I. rewrite IO. rewrite in_app_iff in *. cbn [In] in C. intuition congruence.
Qed.

(** An empty directory gets another name, which is free. *)
Lemma step_rename_dir p0 p c : good p0 = true -> p0 <> [] -> In (abs p0) (jdirs j) -> (forall x, In x (owned j) -> inside (abs p0) x = false) ->
  ordinary top (p ++ [c]) = true -> v (abs p) = Some NDir -> v (abs (p ++ [c])) = None -> p <> p0 ->
  let x := abs (p ++ [c]) in
  let j' := {| jmaps := jmaps j; jdirs := rename_first (abs p0) x (jdirs j); jevs := jevs j |} in
  JI top d t k j' /\ frame t k j t k j' /\
  forall z, V d t j' z = if bytes_eqb z x then Some NDir else if bytes_eqb z (abs p0) then None else v z.
Proof.
  intros Gp Np D0 EM O P N PP x j'. destruct (split_dirs _ _ D0) as [l1 [l2 [E1 [_ E2]]]]. specialize (E2 x).
  apply (V_none t k j J) in N. destruct N as [N1 N2]. fold x in N1, N2.
  pose proof (ji_nodup _ _ _ _ _ J) as ND.
  assert (ND' : NoDup ((files j ++ l1) ++ abs p0 :: l2)) by (unfold owned in ND; rewrite E1, app_assoc in ND; exact ND).
  assert (OWN : owned j' = (files j ++ l1) ++ x :: l2).
  { unfold owned. cbn [j' jdirs]. rewrite E2, app_assoc. reflexivity. }
  assert (NR := NoDup_remove_2 _ _ _ ND'). assert (NR1 := NoDup_remove_1 _ _ _ ND').
  assert (IR : In (abs p0) (owned j)) by (apply in_or_app; right; exact D0).
  assert (XM : x <> abs p0) by (intros E; apply N1; rewrite E; exact IR).
  assert (IO : forall z, In z (owned j) <-> z = abs p0 \/ In z ((files j ++ l1) ++ l2)).
  { intros z. unfold owned. rewrite E1, app_assoc, !in_app_iff. cbn [In]. intuition congruence. }
  assert (DI : forall z, In z (jdirs j') <-> z = x \/ z <> abs p0 /\ In z (jdirs j)).
  { intros z. cbn [j' jdirs]. rewrite E2, E1. rewrite !in_app_iff in *. cbn [In]. intuition congruence. }
  assert (JJ : JI top d t k j').
  { constructor.
    - rewrite OWN. apply (NoDup_Add (a := x) (l := (files j ++ l1) ++ l2)); [apply Add_app|].
      split; [exact NR1|]. intros C. apply N1. apply IO. right. exact C.
    - intros z Hz. assert (z = x \/ z <> abs p0 /\ In z (owned j)) as [->|[Hz0 Hz']].
      { rewrite OWN in Hz. rewrite IO. rewrite in_app_iff in Hz, NR. rewrite in_app_iff. cbn [In] in Hz. destruct Hz as [Hz|[Hz|Hz]]; [right|left; congruence|right]; (split; [|tauto]); intros ->; tauto. }
      + exists p, c. split; [exact O|]. split; [reflexivity|]. split; [exact N2|]. apply (V_is_dir t k j J) in P. destruct P as [P|P]; [left|right; exact P].
        apply DI. right. split; [|exact P]. intros E. apply abs_inj in E; [contradiction| |exact Gp]. apply ordinary_prefix in O. apply ordinary_spec in O. apply O.
      + destruct (ji_path _ _ _ _ _ J z Hz') as [p' [c' [A [C [D E]]]]]. exists p', c'.
        split; [exact A|]. split; [exact C|]. split; [exact D|]. destruct E as [E|E]; [|right; exact E]. left. apply DI. right. split; [|exact E].
        intros E3. specialize (EM z Hz'). apply ordinary_spec in A. destruct A as [A _].
        assert (good p' = true) as A' by (rewrite good_app in A; apply andb_prop in A; apply A).
        apply abs_inj in E3; [|exact A'|exact Gp]. subst p' z.
        assert (inside (abs p0) (abs (p0 ++ [c'])) = true) as K; [|congruence]. apply inside_abs; [exact Gp|exact A|exact Np|]. exists c', []. reflexivity.
    - exact (ji_tmp _ _ _ _ _ J).
    - exact (ji_tmps _ _ _ _ _ J).
    - exact (ji_renames _ _ _ _ _ J).
    - exact (ji_own _ _ _ _ _ J). }
  split; [exact JJ|]. split; [apply frame_refl; reflexivity|].
  intros z. unfold v. destruct (bytes_eqb_spec z x) as [->|Z]; [apply V_dir; apply DI; left; reflexivity|].
  destruct (bytes_eqb_spec z (abs p0)) as [->|Z2].
  - rewrite V_other.
    + destruct (ji_path _ _ _ _ _ J (abs p0) IR) as [p' [c' [_ [_ [E _]]]]]. exact E.
    + rewrite OWN. rewrite in_app_iff in *. cbn [In]. intros [C|[C|C]]; [apply NR; left; exact C|contradiction|apply NR; right; exact C].
  - destruct (in_dec bytes_eq_dec z (owned j)) as [I|I].
    + apply in_app_or in I. destruct I as [I|I].
      * apply in_map_iff in I. destruct I as [m [<- I]]. rewrite (V_map t k j J m I). apply (V_map t k j' JJ m). exact I.
      * rewrite (V_dir t j z I). apply V_dir. apply DI. right. auto.
    + rewrite (V_other t j z I). apply V_other. rewrite OWN. intros C. apply I. rewrite IO. rewrite in_app_iff in *. cbn [In] in C. intuition congruence.
Qed.

(** A file gets other contents. *)
Lemma step_write m y : In m (jmaps j) -> y <> NDir ->
  let t' := put (tmpname m) y t in
  JI top d t' k j /\ frame t k j t' k j /\ forall z, V d t' j z = if bytes_eqb z (realname m) then Some y else v z.
Proof.
  intros M Y t'. assert (JJ : JI top d t' k j).
  { destruct J as [A1 A2 A3 A4 A5 A6]. constructor; try assumption. intros m' Hm. destruct (A3 m' Hm) as [C [D E]]. split; [exact C|]. split; [exact D|].
    unfold t'. destruct (bytes_eq_dec (tmpname m') (tmpname m)) as [Q|Q]; [rewrite Q, get_put_same; exists y; auto|rewrite get_put_other by exact Q; exact E]. }
  split; [exact JJ|]. split.
  - split; [lia|]. split; [|intros m' Hm; left; apply in_map; exact Hm]. intros z Hz _. apply get_put_other. intros ->. apply Hz. apply in_map. exact M.
  - intros z. destruct (bytes_eqb_spec z (realname m)) as [->|Z]; [rewrite (V_map t' k j JJ m M); apply get_put_same|].
    unfold v. destruct (in_dec bytes_eq_dec z (owned j)) as [I|I].
    + apply in_app_or in I. destruct I as [I|I]; [|rewrite !V_dir by exact I; reflexivity].
      apply in_map_iff in I. destruct I as [m' [<- I]]. rewrite (V_map t k j J m' I), (V_map t' k j JJ m' I). apply get_put_other.
      intros E. apply Z. f_equal. apply (nodup_map_inj tmpname (jmaps j)); [exact (ji_tmps _ _ _ _ _ J)|exact I|exact M|exact E].
    + rewrite !V_other by exact I. reflexivity.
Qed.
End Step.
End Local.
