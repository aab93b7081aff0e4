(** Tables, wildcards and names: lemmas for C65. *)
From Verif Require Import Base NamesModel NamesSpec.
From Coq Require Import Permutation.

Lemma loc_eqb_spec a b : reflect (a = b) (loc_eqb a b).
Proof.
  destruct a as [d n], b as [d' n']. unfold loc_eqb; cbn [fst snd].
  destruct (Nat.eqb_spec d d'); cbn [andb]; [|constructor; congruence].
  destruct (bytes_eqb_spec n n'); constructor; congruence.
Qed.

Lemma loc_eqb_refl a : loc_eqb a a = true.
Proof. destruct (loc_eqb_spec a a); congruence. Qed.

Lemma loc_eq_dec (a b : loc) : {a = b} + {a <> b}.
Proof. destruct (loc_eqb_spec a b); [left|right]; assumption. Qed.

Lemma memb_In l ls : memb l ls = true <-> In l ls.
Proof.
  unfold memb. rewrite existsb_exists. split.
  - intros [x [Hx E]]. destruct (loc_eqb_spec l x); [subst; assumption|discriminate].
  - intros H. exists l. split; [assumption|apply loc_eqb_refl].
Qed.

Lemma memb_not l ls : memb l ls = false <-> ~ In l ls.
Proof. rewrite <- memb_In. destruct (memb l ls); split; congruence. Qed.

Lemma get_erase t l l' : get (erase t l) l' = if loc_eqb l l' then None else get t l'.
Proof.
  unfold erase. induction t as [|[x k] t IH]; cbn [filter get fst].
  - destruct (loc_eqb l l'); reflexivity.
  - destruct (loc_eqb_spec l x) as [E|E]; cbn [negb get].
    + rewrite IH. subst x. destruct (loc_eqb_spec l l') as [E|E]; [reflexivity|].
      destruct (loc_eqb_spec l' l); [congruence|reflexivity].
    + rewrite IH. destruct (loc_eqb_spec l' x) as [E2|E2]; [|reflexivity].
      subst x. destruct (loc_eqb_spec l l'); [congruence|reflexivity].
Qed.

Lemma get_put t l k l' : get (put t l k) l' = if loc_eqb l l' then Some k else get t l'.
Proof.
  unfold put. cbn [get]. rewrite get_erase.
  destruct (loc_eqb_spec l' l) as [E|E]; destruct (loc_eqb_spec l l') as [E2|E2]; congruence.
Qed.

Definition keys (t : table) : Prop := NoDup (map fst t).

Lemma keys_erase t l : keys t -> keys (erase t l).
Proof.
  unfold keys, erase. induction t as [|[x k] t IH]; cbn; intros H; [constructor|].
  inversion H as [|? ? Hn Hd]; subst.
  destruct (loc_eqb l x); cbn; [apply IH; assumption|].
  constructor; [|apply IH; assumption].
  intros Hin. apply Hn. apply in_map_iff in Hin. destruct Hin as [e [E He]].
  apply filter_In in He. destruct He as [He _]. rewrite <- E. apply in_map, He.
Qed.

Lemma keys_put t l k : keys t -> keys (put t l k).
Proof.
  intros H. unfold keys, put. cbn. constructor; [|apply keys_erase, H].
  intros Hin. apply in_map_iff in Hin. destruct Hin as [e [E He]].
  unfold erase in He. apply filter_In in He. destruct He as [_ He].
  rewrite E, loc_eqb_refl in He. discriminate.
Qed.

Lemma in_get t l k : keys t -> In (l, k) t <-> get t l = Some k.
Proof.
  unfold keys. induction t as [|[x k'] t IH]; cbn; intros H; [split; [tauto|discriminate]|].
  inversion H as [|? ? Hn Hd]; subst.
  destruct (loc_eqb_spec l x) as [E|E].
  - subst x. split.
    + intros [Hin|Hin]; [congruence|]. exfalso. apply Hn. apply (in_map fst) in Hin. exact Hin.
    + intros Hin; left; congruence.
  - rewrite <- IH by assumption. split; [intros [Hin|Hin]; [congruence|assumption]|tauto].
Qed.

Lemma insert_perm e t : Permutation (insert e t) (e :: t).
Proof.
  induction t as [|f t IH]; cbn; [reflexivity|].
  destruct (bytes_leb (snd (fst e)) (snd (fst f))); [reflexivity|].
  rewrite IH. apply perm_swap.
Qed.

Lemma sort_perm t : Permutation (sort t) t.
Proof. induction t as [|e t IH]; cbn; [reflexivity|]. rewrite insert_perm, IH. reflexivity. Qed.

Lemma nodup_app {A} (a b : list A) :
  NoDup a -> NoDup b -> (forall x, In x a -> In x b -> False) -> NoDup (a ++ b).
Proof.
  induction a as [|x a IH]; cbn; intros Ha Hb H; [assumption|].
  inversion Ha as [|? ? Hn Hd]; subst. constructor.
  - rewrite in_app_iff. intros [Hin|Hin]; [contradiction|]. apply (H x); [left; reflexivity|assumption].
  - apply IH; [assumption|assumption|]. intros y Hy. apply H. right; assumption.
Qed.

Section P.
Variable glob : bytes -> bytes -> bool.

Lemma in_glob_dir own src t del d p i :
  keys t ->
  In i (glob_dir glob own src t del d p) <->
  exists k, get t (i_loc i) = Some k /\ i = Item src (is_gen k) (i_loc i) /\
            fst (i_loc i) = d /\ is_live k = true /\ glob p (snd (i_loc i)) = true /\
            ~ In (i_loc i) del /\ usable own (i_loc i) k = true.
Proof.
  intros Hk. unfold glob_dir. rewrite in_map_iff. split.
  - intros [[l k] [E He]]. cbn [fst snd] in E. subst i. cbn [i_loc].
    apply (Permutation_in _ (sort_perm _)) in He. apply filter_In in He.
    destruct He as [He F]. cbn [fst snd] in F.
    rewrite !andb_true_iff, negb_true_iff, memb_not, Nat.eqb_eq in F.
    destruct F as [[[[F1 F2] F3] F4] F5].
    exists k. rewrite <- in_get by assumption. repeat split; assumption.
  - intros [k [G [E [E1 [E2 [E3 [E4 E5]]]]]]]. exists (i_loc i, k). cbn [fst snd].
    split; [symmetry; exact E|].
    apply (Permutation_in _ (Permutation_sym (sort_perm _))). apply filter_In.
    split; [apply in_get; assumption|]. cbn [fst snd].
    rewrite !andb_true_iff, negb_true_iff, memb_not, Nat.eqb_eq. repeat split; assumption.
Qed.

Lemma glob_dir_nodup own src t del d p :
  keys t -> NoDup (map i_loc (glob_dir glob own src t del d p)).
Proof.
  intros Hk. unfold glob_dir. rewrite map_map. cbn [i_loc].
  eapply Permutation_NoDup; [apply Permutation_map, Permutation_sym, sort_perm|].
  clear -Hk. unfold keys in Hk. induction t as [|e t IH]; cbn; [constructor|].
  inversion Hk as [|? ? Hn Hd]; subst. destruct (_ && _); cbn; [|apply IH; assumption].
  constructor; [|apply IH; assumption].
  intros Hin. apply Hn. apply in_map_iff in Hin. destruct Hin as [f [E Hf]].
  apply filter_In in Hf. rewrite <- E. apply in_map, Hf.
Qed.

(** The state of a variant: what it has itself is generated, what is in the
    source tree is not, and only what it has is to be deleted. *)
Record ok_variant (st : state) : Prop := {
  v_keys : keys (s_here st);
  v_skeys : keys (s_source st);
  v_here : forall l, get (s_here st) l <> Some KFile;
  v_source : forall l o, get (s_source st) l <> Some (KGen o);
  v_delete : forall l, In l (s_delete st) -> exists o, get (s_here st) l = Some (KGen o) }.

Definition key (i : item) : bool * loc := (i_gen i, i_loc i).

Lemma usable_iff own l o :
  usable own l (KGen o) = true <-> o = own \/ o = fst l.
Proof. cbn. rewrite orb_true_iff, !Nat.eqb_eq. tauto. Qed.

Lemma variant_wildcard own copy st d p :
  ok_variant st -> is_glob p = true ->
  exists l, add_path glob true own copy st (d, p) = Some l /\ NoDup l /\
    (forall i, In i l <->
       fst (i_loc i) = d /\ glob p (snd (i_loc i)) = true /\
       ((i = Item false true (i_loc i) /\ own_file own st (i_loc i)) \/
        (i = Item true false (i_loc i) /\ source_file st (i_loc i)))).
Proof.
  intros Hok Hg. unfold add_path. cbn [fst snd]. rewrite Hg.
  eexists. split; [reflexivity|]. split.
  { apply nodup_app.
    - apply (NoDup_map_inv i_loc), glob_dir_nodup, Hok.
    - apply (NoDup_map_inv i_loc), glob_dir_nodup, Hok.
    - intros i H1 H2. apply in_glob_dir in H1, H2; try apply Hok.
      destruct H1 as [k1 [_ [E1 _]]], H2 as [k2 [_ [E2 _]]].
      apply (f_equal i_source) in E1, E2. cbn in E1, E2. congruence. }
  intros i. rewrite in_app_iff.
  rewrite !in_glob_dir by (apply Hok). split.
  - intros [[k [G [E [E1 [E2 [E3 [E4 E5]]]]]]]|[k [G [E [E1 [E2 [E3 [E4 E5]]]]]]]].
    + split; [assumption|split; [assumption|left]].
      destruct k as [|o|]; [elim (v_here _ Hok _ G)| |discriminate].
      split; [exact E|]. split; [assumption|].
      apply usable_iff in E5. destruct E5 as [E5|E5]; [left|right]; congruence.
    + split; [assumption|split; [assumption|right]].
      destruct k as [|o|]; [|elim (v_source _ Hok _ _ G)|discriminate].
      split; [exact E|exact G].
  - intros [E1 [E2 [[E [Hd G]]|[E G]]]].
    + left. destruct G as [G|G].
      * exists (KGen own). repeat split; try assumption. apply usable_iff. tauto.
      * exists (KGen (fst (i_loc i))). repeat split; try assumption. apply usable_iff. tauto.
    + right. exists KFile. repeat split; try assumption. intros [].
Qed.

Lemma variant_explicit own copy st l :
  ok_variant st -> is_glob (snd l) = false ->
  (forall ls, add_path glob true own copy st l = Some ls <->
     exists i, ls = [i] /\
       ((i = Item false true l /\ copy = false /\ own_file own st l) \/
        (i = Item true false l /\ source_file st l /\
         (copy = true \/ In l (s_delete st) \/ forall o, get (s_here st) l <> Some (KGen o))))).
Proof.
  intros Hok Hg. unfold add_path. rewrite Hg. unfold explicit, own_file, source_file.
  rewrite andb_true_r. intros ls.
  pose proof (v_here _ Hok l) as HV. pose proof (v_source _ Hok l) as HS.
  pose proof (v_delete _ Hok l) as HD.
  destruct copy; cbn [andb].
  - destruct (get (s_source st) l) as [[|o|]|] eqn:GS; cbn [option_map negb andb usable is_gen].
    + split; [intros E; injection E as <-; eexists; split; [reflexivity|right; tauto]|].
      intros [i [-> [[-> [E _]]|[-> _]]]]; [discriminate|reflexivity].
    + elim (HS o eq_refl).
    + split; [discriminate|]. intros [i [-> [[-> [E _]]|[-> [E _]]]]]; discriminate.
    + split; [discriminate|]. intros [i [-> [[-> [E _]]|[-> [E _]]]]]; discriminate.
  - destruct (get (s_here st) l) as [[|o|]|] eqn:GV.
    + elim HV; reflexivity.
    + cbn [option_map negb andb].
      destruct (memb l (s_delete st)) eqn:M.
      * apply memb_In in M.
        destruct (get (s_source st) l) as [[|o'|]|] eqn:GS; cbn [usable is_gen].
        -- split; [intros E; injection E as <-; eexists; split; [reflexivity|right; tauto]|].
           intros [i [-> [[-> [_ [E _]]]|[-> _]]]]; [contradiction|reflexivity].
        -- elim (HS o' eq_refl).
        -- split; [discriminate|]. intros [i [-> [[-> [_ [E _]]]|[-> [E _]]]]]; [contradiction|discriminate].
        -- split; [discriminate|]. intros [i [-> [[-> [_ [E _]]]|[-> [E _]]]]]; [contradiction|discriminate].
      * apply memb_not in M. destruct (usable own l (KGen o)) eqn:U.
        -- apply usable_iff in U. cbn [is_gen]. split.
           ++ intros E; injection E as <-. eexists; split; [reflexivity|left].
              split; [reflexivity|split; [reflexivity|split; [assumption|]]].
              destruct U as [-> | ->]; tauto.
           ++ intros [i [-> [[-> _]|[-> [_ [E|[E|E]]]]]]]; [reflexivity|discriminate|contradiction|].
              elim (E o eq_refl).
        -- split; [discriminate|]. intros [i [-> [[-> [_ [_ [E|E]]]]|[-> [_ [E|[E|E]]]]]]].
           ++ injection E as ->. assert (usable own l (KGen own) = true) by (apply usable_iff; tauto). congruence.
           ++ injection E as ->. assert (usable own l (KGen (fst l)) = true) by (apply usable_iff; tauto). congruence.
           ++ discriminate.
           ++ contradiction.
           ++ elim (E o eq_refl).
    + destruct (get (s_source st) l) as [[|o'|]|] eqn:GS; cbn [option_map negb andb usable is_gen].
      * split; [intros E; injection E as <-; eexists; split; [reflexivity|right]|].
        -- split; [reflexivity|split; [reflexivity|]]. right; right. discriminate.
        -- intros [i [-> [[-> [_ [_ [E|E]]]]|[-> _]]]]; [discriminate|discriminate|reflexivity].
      * elim (HS o' eq_refl).
      * split; [discriminate|]. intros [i [-> [[-> [_ [_ [E|E]]]]|[-> [E _]]]]]; discriminate.
      * split; [discriminate|]. intros [i [-> [[-> [_ [_ [E|E]]]]|[-> [E _]]]]]; discriminate.
    + destruct (get (s_source st) l) as [[|o'|]|] eqn:GS; cbn [option_map negb andb usable is_gen].
      * split; [intros E; injection E as <-; eexists; split; [reflexivity|right]|].
        -- split; [reflexivity|split; [reflexivity|]]. right; right. discriminate.
        -- intros [i [-> [[-> [_ [_ [E|E]]]]|[-> _]]]]; [discriminate|discriminate|reflexivity].
      * elim (HS o' eq_refl).
      * split; [discriminate|]. intros [i [-> [[-> [_ [_ [E|E]]]]|[-> [E _]]]]]; discriminate.
      * split; [discriminate|]. intros [i [-> [[-> [_ [_ [E|E]]]]|[-> [E _]]]]]; discriminate.
Qed.

(** The state of a build in the source tree and the state of a variant are
    related: they know the same files. [W] are the names the user writes. *)
Definition dead (o : option kind) : Prop := o = None \/ o = Some KGhost.

Record related (W : loc -> Prop) (a b : state) : Prop := {
  rel_ok : ok_variant b;
  rel_keys : keys (s_here a);
  rel_get : forall l,
    match get (s_here a) l with
    | Some KFile => get (s_source b) l = Some KFile /\ dead (get (s_here b) l)
    | Some (KGen o) => get (s_here b) l = Some (KGen o) /\ dead (get (s_source b) l)
    | _ => dead (get (s_here b) l) /\ dead (get (s_source b) l)
    end;
  rel_delete : forall l, In l (s_delete a) <-> In l (s_delete b);
  rel_written : forall l, get (s_source b) l = Some KFile -> W l }.

Lemma related_here W a b l o :
  related W a b -> get (s_here a) l = Some (KGen o) <-> get (s_here b) l = Some (KGen o).
Proof.
  intros R. pose proof (rel_get _ _ _ R l) as H.
  destruct (get (s_here a) l) as [[|o'|]|].
  - destruct H as [_ [H|H]]; rewrite H; split; discriminate.
  - destruct H as [H _]. rewrite H. tauto.
  - destruct H as [[H|H] _]; rewrite H; split; discriminate.
  - destruct H as [[H|H] _]; rewrite H; split; discriminate.
Qed.

Lemma related_file W a b l :
  related W a b -> get (s_here a) l = Some KFile <-> get (s_source b) l = Some KFile.
Proof.
  intros R. pose proof (rel_get _ _ _ R l) as H.
  destruct (get (s_here a) l) as [[|o'|]|].
  - tauto.
  - destruct H as [_ [H|H]]; rewrite H; split; discriminate.
  - destruct H as [_ [H|H]]; rewrite H; split; discriminate.
  - destruct H as [_ [H|H]]; rewrite H; split; discriminate.
Qed.

(** In the source tree a name stands for the file that is there. *)
Definition tree_file (own : nat) (st : state) (g : bool) (l : loc) : Prop :=
  if g then own_file own st l else get (s_here st) l = Some KFile.

Lemma related_tree W a b own g l :
  related W a b ->
  tree_file own a g l <-> if g then own_file own b l else source_file b l.
Proof.
  intros R. destruct g; cbn [tree_file].
  - unfold own_file. rewrite (rel_delete _ _ _ R), !(related_here _ _ _ _ _ R). tauto.
  - apply (related_file _ _ _ _ R).
Qed.

Lemma tree_wildcard own copy st d p :
  keys (s_here st) -> (forall l, In l (s_delete st) -> get (s_here st) l <> Some KFile) ->
  is_glob p = true ->
  exists l, add_path glob false own copy st (d, p) = Some l /\ NoDup (map i_loc l) /\
    (forall i, In i l <->
       fst (i_loc i) = d /\ glob p (snd (i_loc i)) = true /\
       i_source i = false /\ tree_file own st (i_gen i) (i_loc i)).
Proof.
  intros Hk Hdel Hg. unfold add_path. cbn [fst snd]. rewrite Hg.
  eexists. split; [reflexivity|]. rewrite app_nil_r.
  split; [apply glob_dir_nodup, Hk|].
  intros i. rewrite in_glob_dir by assumption. split.
  - intros [k [G [E [E1 [E2 [E3 [E4 E5]]]]]]].
    split; [assumption|split; [assumption|]].
    destruct i as [s g l]. cbn [i_source i_gen i_loc] in *. injection E as -> ->.
    split; [reflexivity|].
    destruct k as [|o|]; cbn [is_gen tree_file]; [assumption| |discriminate].
    split; [assumption|]. apply usable_iff in E5. destruct E5 as [-> | ->]; tauto.
  - intros [E1 [E2 [E3 G]]]. destruct i as [s g l]. cbn [i_source i_gen i_loc] in *. subst s.
    destruct g; cbn [tree_file] in G.
    + destruct G as [Gd [G|G]]; eexists; (split; [exact G|]); (split; [reflexivity|]);
        repeat split; try assumption; apply usable_iff; tauto.
    + exists KFile. split; [exact G|]. split; [reflexivity|]. repeat split; try assumption.
      intros Hin. apply (Hdel _ Hin G).
Qed.

Lemma tree_explicit own copy st l :
  (forall l, In l (s_delete st) -> get (s_here st) l <> Some KFile) ->
  is_glob (snd l) = false ->
  (forall ls, add_path glob false own copy st l = Some ls <->
     exists i, ls = [i] /\ i_loc i = l /\ i_source i = false /\ tree_file own st (i_gen i) l).
Proof.
  intros Hdel Hg ls. unfold add_path. rewrite Hg. unfold explicit. rewrite andb_false_r.
  pose proof (Hdel l) as HD.
  destruct (get (s_here st) l) as [[|o|]|] eqn:G; cbn [option_map negb andb].
  - destruct (memb l (s_delete st)) eqn:M; [apply memb_In in M; elim (HD M eq_refl)|].
    cbn [usable is_gen]. split.
    + intros E; injection E as <-. eexists; split; [reflexivity|].
      repeat split. exact G.
    + intros [[s g l'] [-> [El [Es Ht]]]]. cbn [i_loc i_source i_gen] in *. subst l' s.
      destruct g; [|reflexivity]. destruct Ht as [_ [Ht|Ht]]; congruence.
  - destruct (memb l (s_delete st)) eqn:M.
    + apply memb_In in M. split; [discriminate|].
      intros [[s g l'] [-> [El [Es Ht]]]]. cbn [i_loc i_source i_gen] in *.
      destruct g; [destruct Ht; contradiction|cbn in Ht; congruence].
    + apply memb_not in M. destruct (usable own l (KGen o)) eqn:U.
      * apply usable_iff in U. cbn [is_gen]. split.
        -- intros E; injection E as <-. eexists; split; [reflexivity|].
           repeat split; [assumption|]. destruct U as [-> | ->]; tauto.
        -- intros [[s g l'] [-> [El [Es Ht]]]]. cbn [i_loc i_source i_gen] in *. subst l' s.
           destruct g; [reflexivity|]. cbn in Ht. congruence.
      * split; [discriminate|].
        intros [[s g l'] [-> [El [Es Ht]]]]. cbn [i_loc i_source i_gen] in *.
        destruct g; [|cbn in Ht; congruence]. destruct Ht as [_ Ht].
        assert (usable own l (KGen o) = true); [|congruence]. apply usable_iff.
        destruct Ht as [Ht|Ht]; rewrite G in Ht; injection Ht as Ht; tauto.
  - split; [discriminate|]. intros [[s g l'] [-> [El [Es Ht]]]]. cbn [i_loc i_source i_gen] in *.
    destruct g; [destruct Ht as [_ [Ht|Ht]]; congruence|cbn in Ht; congruence].
  - split; [discriminate|]. intros [[s g l'] [-> [El [Es Ht]]]]. cbn [i_loc i_source i_gen] in *.
    destruct g; [destruct Ht as [_ [Ht|Ht]]; congruence|cbn in Ht; congruence].
Qed.

(** The lists a build and a variant have for the same patterns. *)
Definition same_names (own : nat) (st : state) (a b : list item) : Prop :=
  (forall i, In i a -> i_source i = false /\ tree_file own st (i_gen i) (i_loc i)) /\
  (forall i, In i b -> i_source i = negb (i_gen i)) /\
  (forall k, In k (map key a) <-> In k (map key b)).

Lemma related_delete_not W a b :
  related W a b -> forall l, In l (s_delete a) -> get (s_here a) l <> Some KFile.
Proof.
  intros R l Hin E. apply (rel_delete _ _ _ R) in Hin.
  apply (v_delete _ (rel_ok _ _ _ R)) in Hin. destruct Hin as [o Ho].
  apply (related_here _ _ _ _ _ R) in Ho. congruence.
Qed.

Lemma add_path_related W a b own p :
  related W a b ->
  match add_path glob false own false a p, add_path glob true own false b p with
  | None, None => True
  | Some x, Some y => same_names own a x y
  | _, _ => False
  end.
Proof.
  intros R. pose proof (related_delete_not _ _ _ R) as HD.
  pose proof (rel_ok _ _ _ R) as Hok.
  destruct (is_glob (snd p)) eqn:Hg.
  - destruct p as [d p]. cbn [snd] in Hg.
    destruct (tree_wildcard own false a d p (rel_keys _ _ _ R) HD Hg) as [x [Ex [_ Hx]]].
    destruct (variant_wildcard own false b d p Hok Hg) as [y [Ey [_ Hy]]].
    rewrite Ex, Ey. split; [intros i Hi; apply Hx in Hi; tauto|].
    split.
    + intros i Hi. apply Hy in Hi. destruct Hi as [_ [_ [[E _]|[E _]]]]; rewrite E; reflexivity.
    + intros [g l]. rewrite !in_map_iff. unfold key. split.
      * intros [i [E Hi]]. injection E as E1 E2. apply Hx in Hi. rewrite E1, E2 in Hi.
        destruct Hi as [F1 [F2 [F3 F4]]]. apply (related_tree _ _ _ _ _ _ R) in F4.
        exists (Item (negb g) g l). split; [reflexivity|]. apply Hy. cbn [i_loc].
        split; [assumption|split; [assumption|]].
        destruct g; [left|right]; (split; [reflexivity|assumption]).
      * intros [i [E Hi]]. injection E as E1 E2. apply Hy in Hi. rewrite E2 in Hi.
        destruct Hi as [F1 [F2 F4]].
        exists (Item false g l). split; [reflexivity|]. apply Hx. cbn [i_loc i_gen i_source].
        split; [assumption|split; [assumption|split; [reflexivity|]]].
        apply (related_tree _ _ _ _ _ _ R).
        destruct F4 as [[F4 F5]|[F4 F5]]; rewrite F4 in E1; cbn in E1; rewrite <- E1; assumption.
  - pose proof (tree_explicit own false a p HD Hg) as Hx.
    pose proof (variant_explicit own false b p Hok Hg) as Hy.
    assert (Hxy : forall x, add_path glob false own false a p = Some x ->
              exists y, add_path glob true own false b p = Some y /\ same_names own a x y).
    { intros x Ex. apply Hx in Ex. destruct Ex as [[s g l] [-> [El [Es Ht]]]].
      cbn [i_loc i_source i_gen] in *. subst l s.
      exists [Item (negb g) g p]. split.
      - apply Hy. eexists. split; [reflexivity|].
        destruct g; [left|right].
        + split; [reflexivity|split; [reflexivity|]]. apply (related_tree _ _ _ _ true _ R), Ht.
        + split; [reflexivity|split].
          * apply (related_tree _ _ _ own false _ R), Ht.
          * right; right. intros o Ho. apply (related_here _ _ _ _ _ R) in Ho. cbn in Ht. congruence.
      - split; [intros i [<-|[]]; split; [reflexivity|exact Ht]|].
        split; [intros i [<-|[]]; reflexivity|]. intros k; reflexivity. }
    assert (Hyx : forall y, add_path glob true own false b p = Some y ->
              exists x, add_path glob false own false a p = Some x).
    { intros y Ey. apply Hy in Ey. destruct Ey as [i [-> [[-> [_ Ht]]|[-> [Ht _]]]]].
      - exists [Item false true p]. apply Hx. eexists. split; [reflexivity|].
        repeat split; try reflexivity; apply (related_tree _ _ _ own true _ R) in Ht; apply Ht.
      - exists [Item false false p]. apply Hx. eexists. split; [reflexivity|].
        repeat split; try reflexivity. apply (related_tree _ _ _ own false _ R) in Ht; apply Ht. }
    destruct (add_path glob false own false a p) as [x|] eqn:Ex.
    + destruct (Hxy x eq_refl) as [y [Ey Hs]]. rewrite Ey. exact Hs.
    + destruct (add_path glob true own false b p) as [y|] eqn:Ey; [|exact I].
      destruct (Hyx y eq_refl) as [x Ex']. discriminate.
Qed.

Lemma same_names_app own st a b c d :
  same_names own st a b -> same_names own st c d -> same_names own st (a ++ c) (b ++ d).
Proof.
  intros [A1 [A2 A3]] [B1 [B2 B3]]. split; [|split].
  - intros i Hi. apply in_app_iff in Hi. destruct Hi; auto.
  - intros i Hi. apply in_app_iff in Hi. destruct Hi; auto.
  - intros k. rewrite !map_app, !in_app_iff, A3, B3. tauto.
Qed.

Lemma name_list_related W a b own ps :
  related W a b ->
  match name_list glob false own false a ps, name_list glob true own false b ps with
  | None, None => True
  | Some x, Some y => same_names own a x y
  | _, _ => False
  end.
Proof.
  intros R. induction ps as [|p ps IH]; cbn [name_list].
  - split; [intros i []|split; [intros i []|]]. intros k; reflexivity.
  - pose proof (add_path_related W a b own p R) as H.
    destruct (add_path glob false own false a p), (add_path glob true own false b p);
      try contradiction; [|exact I].
    destruct (name_list glob false own false a ps), (name_list glob true own false b ps);
      try contradiction; [|exact I].
    apply same_names_app; assumption.
Qed.

Lemma item_eqb_spec a b : reflect (a = b) (item_eqb a b).
Proof.
  destruct a as [s g l], b as [s' g' l']. unfold item_eqb. cbn [i_source i_gen i_loc].
  destruct (Bool.eqb_spec s s'), (Bool.eqb_spec g g'), (loc_eqb_spec l l'); cbn; constructor; congruence.
Qed.

Lemma unique_from_spec l seen :
  NoDup (unique_from seen l) /\
  (forall i, In i (unique_from seen l) <-> In i l /\ ~ In i seen).
Proof.
  revert seen. induction l as [|i l IH]; intros seen; cbn [unique_from].
  - split; [constructor|]. intros i. cbn. tauto.
  - assert (HE : existsb (item_eqb i) seen = true <-> In i seen).
    { rewrite existsb_exists. split.
      - intros [x [Hx E]]. destruct (item_eqb_spec i x); [subst; assumption|discriminate].
      - intros H. exists i. split; [assumption|]. destruct (item_eqb_spec i i); congruence. }
    destruct (existsb (item_eqb i) seen).
    + destruct (IH seen) as [N H]. split; [assumption|]. intros j. rewrite H. cbn.
      split; [tauto|]. intros [[E|E] F]; [|tauto]. subst j. elim F. apply HE; reflexivity.
    + destruct (IH (i :: seen)) as [N H]. split.
      * constructor; [|assumption]. rewrite H. cbn. tauto.
      * intros j. cbn. rewrite H. cbn. split.
        -- intros [E|[E F]]; [|tauto]. subst j. split; [tauto|]. rewrite <- HE. discriminate.
        -- intros [[E|E] F]; [tauto|]. destruct (item_eqb_spec i j); [tauto|right; tauto].
Qed.

Lemma in_unique l i : In i (unique l) <-> In i l.
Proof. unfold unique. rewrite (proj2 (unique_from_spec l [])). cbn. tauto. Qed.

Lemma key_nodup l :
  NoDup l -> (forall i j, In i l -> In j l -> key i = key j -> i = j) -> NoDup (map key l).
Proof.
  induction l as [|i l IH]; cbn; intros N H; [constructor|].
  inversion N as [|? ? Hn Hd]; subst. constructor.
  - intros Hin. apply in_map_iff in Hin. destruct Hin as [j [E Hj]].
    apply Hn. rewrite (H i j); [assumption|left; reflexivity|right; assumption|congruence].
  - apply IH; [assumption|]. intros; apply H; [right; assumption|right; assumption|assumption].
Qed.

Lemma unique_related own st a b :
  same_names own st a b ->
  Permutation (map key (unique a)) (map key (unique b)) /\ NoDup (map i_loc (unique b)).
Proof.
  intros [A [B C]].
  assert (P : Permutation (map key (unique a)) (map key (unique b))).
  2: { split; [exact P|]. apply (Permutation_map snd) in P. rewrite !map_map in P. cbn [key snd] in P.
       eapply Permutation_NoDup; [exact P|].
       assert (N : NoDup (unique a)) by apply unique_from_spec.
       assert (HA : forall i, In i (unique a) -> i_source i = false /\ tree_file own st (i_gen i) (i_loc i)).
       { intros i Hi. apply A, in_unique, Hi. }
       clear -N HA. induction (unique a) as [|i l IH]; cbn [map]; [constructor|].
       inversion N as [|? ? Hn Hd]; subst. constructor.
       - intros Hin. apply in_map_iff in Hin. destruct Hin as [j [E Hj]]. apply Hn.
         destruct (HA i (or_introl eq_refl)) as [S1 T1], (HA j (or_intror Hj)) as [S2 T2].
         destruct i as [s g l1], j as [s' g' l2]. cbn [i_source i_gen i_loc] in *. subst s s' l2.
         destruct g, g'; try assumption; cbn in T1, T2; exfalso.
         + destruct T1 as [_ [T1|T1]]; congruence.
         + destruct T2 as [_ [T2|T2]]; congruence.
       - apply IH; [assumption|]. intros; apply HA; right; assumption. }
  apply NoDup_Permutation.
  - apply key_nodup; [apply unique_from_spec|].
    intros [s g l] [s' g' l'] Hi Hj E. apply (proj1 (in_unique _ _)) in Hi; apply (proj1 (in_unique _ _)) in Hj.
    apply A, proj1 in Hi. apply A, proj1 in Hj. cbn in Hi, Hj. unfold key in E. cbn in E. congruence.
  - apply key_nodup; [apply unique_from_spec|].
    intros [s g l] [s' g' l'] Hi Hj E. apply (proj1 (in_unique _ _)) in Hi; apply (proj1 (in_unique _ _)) in Hj.
    apply B in Hi. apply B in Hj. cbn in Hi, Hj. unfold key in E. cbn in E. congruence.
  - intros k.
    assert (H : forall l, In k (map key (unique l)) <-> In k (map key l)).
    { intros l. rewrite !in_map_iff. split; intros [i [E Hi]]; exists i;
        (split; [assumption|]); apply in_unique; assumption. }
    rewrite !H. apply C.
Qed.

End P.
