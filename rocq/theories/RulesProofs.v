From Verif Require Import Base ExecModel ExecProofs GraphModel TentModel TentSpec TentProofs LinkModel LinkSpec LinkProofs RulesModel RulesSpec.
From Coq Require Import ZArith Sorted Permutation.

(** ** Command strings *)
Lemma eqc_true a b : (a =?c b) = true <-> a = b.
Proof. apply Ascii.eqb_eq. Qed.
Lemma eqc_false a b : (a =?c b) = false <-> a <> b.
Proof. apply Ascii.eqb_neq. Qed.
Lemma skip_space_spec s : exists w, s = w ++ skip_space s /\ spaces w /\ trimmed (skip_space s).
Proof.
  induction s as [|c s [w [E [W T]]]]; [exists []; repeat split; intros c []|]. cbn [skip_space]. destruct (isspace c) eqn:I.
  - exists (c :: w). split; [cbn; congruence|]. split; [intros d [<-|H]; [exact I|exact (W d H)]|exact T].
  - exists []. split; [reflexivity|]. split; [intros d []|exact I].
Qed.
Lemma skip_space_app w t : spaces w -> trimmed t -> skip_space (w ++ t) = t.
Proof.
  induction w as [|c w IH]; intros W T; cbn [app skip_space].
  - destruct t as [|c t]; [reflexivity|]. cbn [trimmed] in T. cbn [skip_space]. rewrite T. reflexivity.
  - rewrite (W c (or_introl eq_refl)). apply IH; [intros d H; apply W; right; exact H|exact T].
Qed.
Lemma take_flags_app f h r : word f -> h = " "%char \/ h = "^"%char -> take_flags (f ++ h :: r) = Some (f, h :: r).
Proof.
  intros W H. induction f as [|c f IH]; cbn [app take_flags].
  - destruct H as [-> | ->]; reflexivity.
  - destruct (W c (or_introl eq_refl)) as [A B]. apply eqc_false in A, B. rewrite A, B. cbn [orb]. rewrite IH by (intros d I; apply W; right; exact I). reflexivity.
Qed.
Lemma take_flags_inv s : match take_flags s with
  | Some (f, r) => s = f ++ r /\ word f /\ exists h r', r = h :: r' /\ (h = " "%char \/ h = "^"%char)
  | None => word s end.
Proof.
  induction s as [|c s IH]; cbn [take_flags]; [intros d []|].
  destruct (c =?c " "%char) eqn:A; [|destruct (c =?c "^"%char) eqn:B]; cbn [orb].
  - apply eqc_true in A. split; [reflexivity|]. split; [intros d []|]. exists c, s. auto.
  - apply eqc_true in B. split; [reflexivity|]. split; [intros d []|]. exists c, s. auto.
  - apply eqc_false in A, B. destruct (take_flags s) as [[f r]|]; cbn [obind fst snd].
    + destruct IH as [-> [W H]]. split; [reflexivity|]. split; [intros d [<-|I]; [auto|exact (W d I)]|exact H].
    + intros d [<-|I]; [auto|exact (IH d I)].
Qed.
Lemma take_display_app d r : no_caret d -> take_display (d ++ "^"%char :: r) = Some (d, "^"%char :: r).
Proof.
  induction d as [|c d IH]; intros N; cbn [app take_display]; [reflexivity|].
  assert (c <> "^"%char) as B by (intros ->; apply N; left; reflexivity). apply eqc_false in B. rewrite B. rewrite IH by (intros I; apply N; right; exact I). reflexivity.
Qed.
Lemma take_display_inv s : match take_display s with
  | Some (d, r) => s = d ++ r /\ no_caret d /\ exists r', r = "^"%char :: r'
  | None => no_caret s end.
Proof.
  induction s as [|c s IH]; cbn [take_display]; [intros []|].
  destruct (c =?c "^"%char) eqn:B.
  - apply eqc_true in B. subst. split; [reflexivity|]. split; [intros []|]. exists s. reflexivity.
  - apply eqc_false in B. destruct (take_display s) as [[f r]|]; cbn [obind fst snd].
    + destruct IH as [-> [W H]]. split; [reflexivity|]. split; [intros [I|I]; [exact (B I)|exact (W I)]|exact H].
    + intros [I|I]; [exact (B I)|exact (IH I)].
Qed.
Lemma split_means s p : means s p -> split_command s = Some p.
Proof.
  intros M. destruct M as [w t W T N|f w t F W T|f v d w t F V C D W T].
  - rewrite <- (skip_space_app w t W T) at 2. destruct (w ++ t) as [|c r] eqn:E; [reflexivity|]. cbn [split_command].
    destruct (c =?c "^"%char) eqn:B; [apply eqc_true in B; subst; exfalso; exact (N r eq_refl)|reflexivity].
  - cbn [split_command]. change ("^"%char =?c "^"%char) with true. cbv iota.
    assert (match f ++ "^"%char :: w ++ t with b :: _ => if b =?c " "%char then Some ([], f ++ "^"%char :: w ++ t) else take_flags (f ++ "^"%char :: w ++ t) | [] => take_flags (f ++ "^"%char :: w ++ t) end = Some (f, "^"%char :: w ++ t)) as ->.
    { rewrite take_flags_app by auto. destruct f as [|c f]; [reflexivity|]. cbn [app]. destruct (F c (or_introl eq_refl)) as [A _]. apply eqc_false in A. rewrite A. reflexivity. }
    cbn [obind]. change ("^"%char =?c "^"%char) with true. cbv iota. cbn [skipn]. rewrite (skip_space_app w t W T). reflexivity.
  - cbn [split_command]. change ("^"%char =?c "^"%char) with true. cbv iota. set (rest := " "%char :: v ++ d ++ "^"%char :: w ++ t).
    assert (match f ++ rest with b :: _ => if b =?c " "%char then Some ([], f ++ rest) else take_flags (f ++ rest) | [] => take_flags (f ++ rest) end = Some (f, rest)) as ->.
    { unfold rest. rewrite take_flags_app by auto. destruct f as [|c f]; [reflexivity|]. cbn [app]. destruct (F c (or_introl eq_refl)) as [A _]. apply eqc_false in A. rewrite A. reflexivity. }
    cbn [obind]. unfold rest at 1. change (" "%char =?c "^"%char) with false. cbv iota.
    assert (skip_space rest = d ++ "^"%char :: w ++ t) as ->.
    { unfold rest. change (" "%char :: v ++ d ++ "^"%char :: w ++ t) with ((" "%char :: v) ++ (d ++ "^"%char :: w ++ t)). apply skip_space_app; [intros c [<-|I]; [reflexivity|exact (V c I)]|]. destruct d as [|c d]; [reflexivity|exact D]. }
    rewrite (take_display_app d (w ++ t) C). cbn [obind fst snd skipn]. rewrite (skip_space_app w t W T). reflexivity.
Qed.
Lemma split_inv s : match split_command s with Some p => means s p | None => unclosed s end.
Proof.
  destruct s as [|c s]; [exact (Plain [] [] (fun c H => match H with end) I ltac:(discriminate))|]. cbn [split_command].
  destruct (c =?c "^"%char) eqn:B; cycle 1.
  { apply eqc_false in B. destruct (skip_space_spec (c :: s)) as [w [E [W T]]]. rewrite E at 1. apply Plain; [exact W|exact T|]. rewrite <- E. congruence. }
  apply eqc_true in B. subst c.
  set (p := match s with b :: _ => if b =?c " "%char then Some ([], s) else take_flags s | [] => take_flags s end).
  assert (match p with Some (f, r) => s = f ++ r /\ word f /\ exists h r', r = h :: r' /\ (h = " "%char \/ h = "^"%char) | None => word s end) as P.
  { subst p. destruct s as [|b s]; [apply take_flags_inv|]. destruct (b =?c " "%char) eqn:A; [|apply take_flags_inv]. apply eqc_true in A. subst. split; [reflexivity|]. split; [intros d []|]. exists " "%char, s. auto. }
  clearbody p. destruct p as [[f r]|]; cbn [obind].
  - destruct P as [-> [F [h [r' [-> H]]]]]. destruct (h =?c "^"%char) eqn:A.
    + apply eqc_true in A. subst h. destruct (skip_space_spec r') as [w [E [W T]]]. cbn [skipn]. rewrite E at 1. apply FlagsOnly; assumption.
    + destruct H as [->|H]; [|subst; discriminate]. pose proof (skip_space_spec (" "%char :: r')) as SS.
      set (k := skip_space (" "%char :: r')) in *. clearbody k. destruct SS as [w [E [W T]]].
      destruct w as [|b w]; [cbn [app] in E; rewrite <- E in T; discriminate|]. cbn [app] in E. injection E as <- E.
      pose proof (take_display_inv k) as Q. destruct (take_display k) as [[d q]|]; cbn [obind fst snd].
      * destruct Q as [-> [D [q' ->]]]. cbn [skipn]. destruct (skip_space_spec q') as [u [E2 [U T2]]]. rewrite E. replace (means ("^"%char :: f ++ " "%char :: w ++ d ++ "^"%char :: q')) with (means ("^"%char :: f ++ " "%char :: w ++ d ++ "^"%char :: u ++ skip_space q')) by (rewrite <- E2; reflexivity). apply FlagsDisplay; [exact F|intros x H; apply W; right; exact H|exact D| |exact U|exact T2].
        destruct d; [exact I|exact T].
      * exists (f ++ " "%char :: r'). split; [reflexivity|]. intros I. apply in_app_or in I. destruct I as [I|[I|I]]; [exact (proj2 (F _ I) eq_refl)|discriminate|].
        rewrite E in I. apply in_app_or in I. destruct I as [I|I]; [specialize (W _ (or_intror I)); discriminate|exact (Q I)].
  - exists s. split; [reflexivity|]. intros I. exact (proj2 (P _ I) eq_refl).
Qed.

(** ** The database *)
Section db.
Variable kind_of : id -> kind.
Variable excl : id -> bool.
Variable is_env : id -> bool.
Variable dir : id.
Variable waiting : id -> bool.
Variable leftover : id -> bool.
Notation good := (good kind_of excl is_env).
Notation consistent := (consistent kind_of excl is_env).
Notation makes := (makes kind_of excl).
Notation writes_group := (writes_group kind_of).
Notation group_id := (group_id kind_of).
Definition outlike (x : id) : Prop := ~ group_id x /\ excl x = false.

Lemma by_id l : NoDup (map cm_id l) -> forall m n, In m l -> In n l -> cm_id m = cm_id n -> m = n.
Proof.
  induction l as [|a l IH]; intros ND m n Hm Hn E; [destruct Hm|]. cbn [map] in ND. inversion ND as [|? ? Na ND']; subst.
  destruct Hm as [->|Hm], Hn as [->|Hn]; [reflexivity| | |exact (IH ND' m n Hm Hn E)]; exfalso; apply Na; [rewrite E|rewrite <- E]; apply in_map; assumption.
Qed.
Lemma makes_view D b x : outlike x -> (makes (view D b) x <-> In x (l_outs (links_of D b))).
Proof. intros [A B]. unfold LinkSpec.makes. cbn [outs view]. tauto. Qed.

Lemma incoming_spec D x : good D -> outlike x ->
  exists i, incoming D x = Some i /\ (forall b, i = Some b <-> has D b /\ In x (l_outs (links_of D b))).
Proof.
  intros G O. unfold incoming. set (f := fun m : command => inb x (l_outs (links_of D (cm_id m)))).
  assert (forall m, In m (filter f (cmds D)) <-> In m (cmds D) /\ In x (l_outs (links_of D (cm_id m)))) as F.
  { intros m. rewrite filter_In. unfold f. rewrite inb_in. reflexivity. }
  assert (NoDup (filter f (cmds D))) as ND by (apply NoDup_filter; exact (NoDup_map_inv _ _ (g_ids _ _ _ _ G))).
  destruct (filter f (cmds D)) as [|m [|n l]].
  - exists None. split; [reflexivity|]. intros b. split; [discriminate|]. intros [[m [H1 <-]] H2]. exfalso. apply (F m). auto.
  - exists (Some (cm_id m)). split; [reflexivity|]. destruct (proj1 (F m) (or_introl eq_refl)) as [H1 H2]. intros b. split.
    + intros E. injection E as <-. split; [exists m; auto|exact H2].
    + intros [[n [H3 <-]] H4]. destruct (proj2 (F n) (conj H3 H4)) as [->|[]]. reflexivity.
  - exfalso. destruct (proj1 (F m) (or_introl eq_refl)) as [H1 H2]. destruct (proj1 (F n) (or_intror (or_introl eq_refl))) as [H3 H4].
    assert (m = n) as ->.
    { apply (by_id _ (g_ids _ _ _ _ G) m n H1 H3). apply (g_maker _ _ _ _ G _ _ x); [exists m; auto|exists n; auto| |]; apply makes_view; assumption. }
    inversion ND as [|? ? N _]; subst. apply N. left; reflexivity.
Qed.

Lemma one_group_spec l : NoDup l -> (forall g h, In g l -> In h l -> group_id g -> group_id h -> g = h) ->
  exists o, one_group kind_of l = Some o /\ (forall g, o = Some g <-> In g l /\ group_id g).
Proof.
  intros ND U. unfold one_group. set (f := fun g => is_group (kind_of g)).
  assert (forall m, In m (filter f l) <-> In m l /\ group_id m) as F by (intros m; rewrite filter_In; unfold f; rewrite is_group_id; reflexivity).
  pose proof (NoDup_filter f ND) as ND'. destruct (filter f l) as [|m [|n k]].
  - exists None. split; [reflexivity|]. intros g. split; [discriminate|]. intros H. apply F in H. destruct H.
  - exists (Some m). split; [reflexivity|]. intros g. rewrite <- F. cbn [In]. split; [intros E; injection E as ->; auto|intros [->|[]]; reflexivity].
  - exfalso. destruct (proj1 (F m) (or_introl eq_refl)) as [H1 H2]. destruct (proj1 (F n) (or_intror (or_introl eq_refl))) as [H3 H4].
    rewrite (U m n H1 H3 H2 H4) in ND'. inversion ND' as [|? ? N _]; subst. apply N. left; reflexivity.
Qed.

Lemma groups_of_file_in D x g : In g (groups_of_file D x) <-> In (x, g) (db_member D).
Proof.
  unfold groups_of_file. rewrite nodup_In, in_map_iff. split.
  - intros [[a b] [<- H]]. apply filter_In in H. destruct H as [H E]. apply Nat.eqb_eq in E. cbn in *. subst. exact H.
  - intros H. exists (x, g). split; [reflexivity|]. apply filter_In. split; [exact H|]. apply Nat.eqb_refl.
Qed.

(** Outputs are taken from their old commands and groups. *)
Record taken (a : id) (l : list id) (D D' : db) : Prop := {
  t_cmds : cmds D' = cmds D; t_next : next D' = next D; t_mod : db_mod D' = db_mod D; t_trans : db_trans D' = db_trans D; t_poked : db_poked D' = db_poked D;
  t_a : links_of D' a = links_of D a;
  t_same : forall b, l_nin (links_of D' b) = l_nin (links_of D b) /\ l_stk (links_of D' b) = l_stk (links_of D b) /\ l_glinks (links_of D' b) = l_glinks (links_of D b);
  t_outs : forall b y, has D b -> b <> a -> (In y (l_outs (links_of D' b)) <-> In y (l_outs (links_of D b)) /\ ~ In y l);
  t_not : forall b, ~ has D b -> links_of D' b = links_of D b;
  t_nodup : forall b, NoDup (l_outs (links_of D b)) -> NoDup (l_outs (links_of D' b));
  t_member : forall y g, In (y, g) (db_member D') <-> In (y, g) (db_member D) /\ ~ (In y l /\ ~ In y (l_outs (links_of D a))) }.
Lemma taken_has a l D D' b : taken a l D D' -> (has D' b <-> has D b).
Proof. intros T. unfold has. rewrite (t_cmds _ _ _ _ T). reflexivity. Qed.
Lemma taken_sub a l D D' b y : taken a l D D' -> has D b -> In y (l_outs (links_of D' b)) -> In y (l_outs (links_of D b)) /\ (b = a \/ ~ In y l).
Proof.
  intros T H I. destruct (Nat.eq_dec b a) as [->|N]; [rewrite (t_a _ _ _ _ T) in I; auto|]. apply (t_outs _ _ _ _ T b y H N) in I. tauto.
Qed.
Lemma taken_group a l D D' b g : (forall x, In x l -> outlike x) -> taken a l D D' -> has D b -> (writes_group (view D' b) g <-> writes_group (view D b) g).
Proof.
  intros O T H. unfold LinkSpec.writes_group. cbn [outs view]. destruct (Nat.eq_dec b a) as [->|N]; [rewrite (t_a _ _ _ _ T); reflexivity|].
  rewrite (t_outs _ _ _ _ T b g H N). split; [tauto|]. intros [A B]. split; [split; [exact A|]|exact B]. intros I. exact (proj1 (O g I) B).
Qed.
Lemma taken_good a l D D' : good D -> (forall x, In x l -> outlike x) -> taken a l D D' -> good D'.
Proof.
  intros G O T. constructor.
  - rewrite (t_cmds _ _ _ _ T). exact (g_ids _ _ _ _ G).
  - rewrite (t_cmds _ _ _ _ T). exact (g_texts _ _ _ _ G).
  - intros c H. apply (taken_has _ _ _ _ _ T) in H. pose proof (g_rows _ _ _ _ G c H) as K. destruct (t_same _ _ _ _ T c) as [E1 [E2 E3]]. constructor.
    + exact (t_nodup _ _ _ _ T c (k_unique _ _ _ _ _ K)).
    + intros I. apply (taken_sub _ _ _ _ _ _ T H) in I. exact (k_self _ _ _ _ _ K (proj1 I)).
    + destruct (k_small _ _ _ _ _ K) as [S1 [S2 S3]]. cbn [nin stk outs view] in *. rewrite E1, E2. split; [|auto]. intros y I. apply S1. exact (proj1 (taken_sub _ _ _ _ _ _ T H I)).
    + intros g h A B. apply (taken_group _ _ _ _ _ _ O T H) in A, B. exact (k_group _ _ _ _ _ K g h A B).
    + intros x g [A B]. cbn [outs view] in A. apply (taken_sub _ _ _ _ _ _ T H) in A. destruct A as [A1 A2].
      rewrite (taken_group _ _ _ _ _ _ O T H), <- (k_member _ _ _ _ _ K x g (conj A1 B)). cbn [member view]. rewrite (t_member _ _ _ _ T).
      split; [tauto|]. intros M. split; [exact M|]. intros [L1 L2]. destruct A2 as [-> |A2]; [exact (L2 A1)|exact (A2 L1)].
    + intros x g. rewrite (taken_group _ _ _ _ _ _ O T H). cbn [glinks stk view]. rewrite E2, E3. exact (k_glinks _ _ _ _ _ K x g).
    + cbn [nin stk view]. rewrite E1, E2. exact (k_env _ _ _ _ _ K).
  - intros b c x Hb Hc [A B] [A' B']. apply (taken_has _ _ _ _ _ T) in Hb, Hc. cbn [outs view] in A, A'. apply (taken_sub _ _ _ _ _ _ T Hb) in A. apply (taken_sub _ _ _ _ _ _ T Hc) in A'.
    exact (g_maker _ _ _ _ G b c x Hb Hc (conj (proj1 A) B) (conj (proj1 A') B')).
  - intros x g h A B. apply (t_member _ _ _ _ T) in A, B. exact (g_member _ _ _ _ G x g h (proj1 A) (proj1 B)).
  - intros x g A. apply (t_member _ _ _ _ T) in A. exact (g_groups _ _ _ _ G x g (proj1 A)).
  - intros c H. rewrite (t_next _ _ _ _ T). apply (g_cmds _ _ _ _ G), (taken_has _ _ _ _ _ T), H.
  - intros i H. rewrite (t_next _ _ _ _ T) in H. destruct (g_next _ _ _ _ G i H) as [A B]. split; [exact A|]. rewrite (t_not _ _ _ _ T); [exact B|].
    intros C. pose proof (proj2 (g_cmds _ _ _ _ G i C)). lia.
Qed.
Lemma taken_nil a D : taken a [] D D.
Proof. constructor; try reflexivity; try tauto; cbn [In]; tauto. Qed.
Lemma taken_trans a x l D D1 D2 : taken a [x] D D1 -> taken a l D1 D2 -> taken a (x :: l) D D2.
Proof.
  intros S T. constructor.
  - rewrite (t_cmds _ _ _ _ T). exact (t_cmds _ _ _ _ S).
  - rewrite (t_next _ _ _ _ T). exact (t_next _ _ _ _ S).
  - rewrite (t_mod _ _ _ _ T). exact (t_mod _ _ _ _ S).
  - rewrite (t_trans _ _ _ _ T). exact (t_trans _ _ _ _ S).
  - rewrite (t_poked _ _ _ _ T). exact (t_poked _ _ _ _ S).
  - rewrite (t_a _ _ _ _ T). exact (t_a _ _ _ _ S).
  - intros b. destruct (t_same _ _ _ _ T b) as [-> [-> ->]]. exact (t_same _ _ _ _ S b).
  - intros b y H N. rewrite (t_outs _ _ _ _ T b y) by (try apply (taken_has _ _ _ _ _ S); assumption). rewrite (t_outs _ _ _ _ S b y H N). cbn [In]. tauto.
  - intros b H. rewrite (t_not _ _ _ _ T) by (intros C; apply H, (taken_has _ _ _ _ _ S), C). exact (t_not _ _ _ _ S b H).
  - intros b H. exact (t_nodup _ _ _ _ T b (t_nodup _ _ _ _ S b H)).
  - intros y g. rewrite (t_member _ _ _ _ T), (t_member _ _ _ _ S), (t_a _ _ _ _ S). cbn [In]. tauto.
Qed.
Lemma drop_member_links x g D : links_of (drop_member x g D) = links_of D /\ cmds (drop_member x g D) = cmds D /\ next (drop_member x g D) = next D /\
  db_mod (drop_member x g D) = db_mod D /\ db_trans (drop_member x g D) = db_trans D /\ db_poked (drop_member x g D) = db_poked D /\
  (forall y h, In (y, h) (db_member (drop_member x g D)) <-> In (y, h) (db_member D) /\ ~ (y = x /\ g = Some h)).
Proof.
  destruct g as [g|]; cbn [drop_member links_of cmds next db_mod db_trans db_poked db_member]; do 6 (split; [reflexivity|]).
  - intros y h. rewrite pair_remove_in. split; intros [A B]; (split; [exact A|]).
    + intros [-> E]. injection E as ->. apply B. reflexivity.
    + intros E. injection E as -> ->. apply B. auto.
  - intros y h. split; [intros A; split; [exact A|intros [_ E]; discriminate]|tauto].
Qed.
Lemma unique_link_ok a x D : good D -> has D a -> outlike x -> exists D', unique_link kind_of a x D = Some D' /\ taken a [x] D D' /\ (In x (l_outs (links_of D a)) -> D' = D).
Proof.
  intros G Ha O. unfold unique_link. destruct (incoming_spec D x G O) as [i [-> I]]. cbn [obind]. destruct i as [b|].
  - destruct (proj1 (I b) eq_refl) as [Hb Ob]. destruct (b =? a) eqn:E.
    + apply Nat.eqb_eq in E. subst b. exists D. split; [reflexivity|]. split; [|reflexivity]. constructor; try reflexivity; try tauto.
      * intros b y H N. cbn [In]. split; [|tauto]. intros A. split; [exact A|]. intros [->|[]]. apply N. symmetry. enough (Some a = Some b) as K by congruence. apply I. auto.
      * intros y g. cbn [In]. split; [|tauto]. intros A. split; [exact A|]. intros [[->|[]] B]. exact (B Ob).
    + apply Nat.eqb_neq in E. pose proof (g_rows _ _ _ _ G b Hb) as K.
      destruct (one_group_spec (l_outs (links_of D b)) (k_unique _ _ _ _ _ K)) as [g [-> Gg]].
      { intros g h A B C F. exact (k_group _ _ _ _ _ K g h (conj A C) (conj B F)). }
      cbn [obind]. eexists. split; [reflexivity|]. split; cycle 1.
      { intros Oa. exfalso. apply E. enough (Some b = Some a) as Q by congruence. apply I. auto. }
      assert (forall h, In (x, h) (db_member D) <-> g = Some h) as M.
      { intros h. rewrite Gg. exact (k_member _ _ _ _ _ K x h (conj Ob O)). }
      destruct (drop_member_links x g D) as [E1 [E2 [E3 [E4 [E5 [E6 E7]]]]]].
      assert (~ In x (l_outs (links_of D a))) as NA.
      { intros Q. apply E. enough (Some b = Some a) as U by congruence. apply I. auto. }
      constructor; unfold drop_out; cbn [cmds next db_mod db_trans db_poked links_of db_member]; rewrite ?E1; auto.
      * apply Nat.eqb_neq in E. rewrite Nat.eqb_sym, E. reflexivity.
      * intros c. destruct (c =? b) eqn:Q; [apply Nat.eqb_eq in Q; subst c|]; repeat split; reflexivity.
      * intros c y Hc Nc. destruct (c =? b) eqn:Q.
        -- apply Nat.eqb_eq in Q. subst c. cbn [l_outs In]. rewrite del_in. intuition congruence.
        -- apply Nat.eqb_neq in Q. cbn [In]. split; [|tauto]. intros A. split; [exact A|]. intros [->|[]]. apply Q. enough (Some b = Some c) as U by congruence. apply I. auto.
      * intros c H. destruct (c =? b) eqn:Q; [|reflexivity]. apply Nat.eqb_eq in Q. subst. contradiction.
      * intros c H. destruct (c =? b) eqn:Q; [|exact H]. apply Nat.eqb_eq in Q. subst. cbn [l_outs]. apply del_nodup. exact H.
      * intros y h. rewrite E7. cbn [In]. split; intros [A B]; (split; [exact A|]).
        -- intros [[<-|[]] _]. apply B. split; [reflexivity|]. apply M, A.
        -- intros [-> _]. apply B. auto.
  - destruct (one_group_spec (groups_of_file D x)) as [g [-> Gg]].
    { apply NoDup_nodup. }
    { intros g h A B _ _. rewrite groups_of_file_in in A, B. exact (g_member _ _ _ _ G x g h A B). }
    cbn [obind]. eexists. split; [reflexivity|].
    assert (forall b, has D b -> ~ In x (l_outs (links_of D b))) as N by (intros b Hb Ob; enough (None = Some b) by discriminate; apply I; auto).
    split; [|intros A; exfalso; exact (N a Ha A)].
    assert (forall h, In (x, h) (db_member D) <-> g = Some h) as M.
    { intros h. rewrite Gg, groups_of_file_in. split; [intros A; split; [exact A|exact (g_groups _ _ _ _ G x h A)]|tauto]. }
    destruct (drop_member_links x g D) as [E1 [E2 [E3 [E4 [E5 [E6 E7]]]]]].
    constructor; rewrite ?E1; auto.
    * intros c y Hc Nc. cbn [In]. split; [|tauto]. intros A. split; [exact A|]. intros [<-|[]]. exact (N c Hc A).
    * intros y h. rewrite E7. cbn [In]. split; intros [A B]; (split; [exact A|]).
      -- intros [[<-|[]] _]. apply B. split; [reflexivity|]. apply M, A.
      -- intros [-> _]. apply B. split; [auto|]. exact (N a Ha).
Qed.
Lemma unique_links_ok a l : (forall x, In x l -> outlike x) -> forall D, good D -> has D a ->
  exists D', each_entry (unique_link kind_of a) l D = Some D' /\ taken a l D D' /\ good D' /\ ((forall x, In x l -> In x (l_outs (links_of D a))) -> D' = D).
Proof.
  induction l as [|x l IH]; intros O D G Ha; cbn [each_entry].
  - exists D. split; [reflexivity|]. split; [apply taken_nil|]. auto.
  - destruct (unique_link_ok a x D G Ha (O x (or_introl eq_refl))) as [D1 [-> [T1 S1]]]. cbn [obind].
    assert (good D1) as G1 by (apply (taken_good a [x] D D1 G); [intros y [<-|[]]; apply O; left; reflexivity|exact T1]).
    destruct (IH (fun y H => O y (or_intror H)) D1 G1 (proj2 (taken_has _ _ _ _ _ T1) Ha)) as [D2 [-> [T2 [G2 S2]]]].
    exists D2. split; [reflexivity|]. split; [exact (taken_trans _ _ _ _ _ _ T1 T2)|]. split; [exact G2|].
    intros A. rewrite (S1 (A x (or_introl eq_refl))) in S2. apply S2. intros y H. apply A. right. exact H.
Qed.

(** ** Rows of commands *)
Lemma change_ids c f l : (forall m, cm_id m = c -> cm_id (f m) = c) -> map cm_id (change c f l) = map cm_id l.
Proof.
  intros H. unfold change. rewrite map_map. apply map_ext. intros m. destruct (cm_id m =? c) eqn:E; [|reflexivity]. apply Nat.eqb_eq in E. rewrite (H m E). auto.
Qed.
Lemma change_one c f l m : NoDup (map cm_id l) -> In m l -> cm_id m = c -> change c f l = change c (fun _ => f m) l.
Proof.
  intros ND I E. apply map_ext_in. intros n J. destruct (cm_id n =? c) eqn:Q; [|reflexivity]. apply Nat.eqb_eq in Q. rewrite (by_id l ND n m J I); [reflexivity|congruence].
Qed.
Lemma change_twice c f g l : (forall m, cm_id m = c -> cm_id (g m) = c) -> change c f (change c g l) = change c (fun m => f (g m)) l.
Proof.
  intros H. unfold change. rewrite map_map. apply map_ext. intros m. destruct (cm_id m =? c) eqn:E; [|rewrite E; reflexivity]. apply Nat.eqb_eq in E. rewrite (H m E), Nat.eqb_refl. reflexivity.
Qed.
Lemma change_same c l m : NoDup (map cm_id l) -> In m l -> cm_id m = c -> change c (fun _ => m) l = l.
Proof.
  intros ND I E. etransitivity; [|apply map_id]. apply map_ext_in. intros n J. destruct (cm_id n =? c) eqn:Q; [|reflexivity]. apply Nat.eqb_eq in Q. apply (by_id l ND m n I J). congruence.
Qed.
Lemma change_in c m0 l m : (exists n, In n l /\ cm_id n = c) -> (In m (change c (fun _ => m0) l) <-> m = m0 \/ In m l /\ cm_id m <> c).
Proof.
  intros [k [K1 K2]]. unfold change. rewrite in_map_iff. split.
  - intros [n [<- J]]. destruct (cm_id n =? c) eqn:Q; [auto|]. apply Nat.eqb_neq in Q. auto.
  - intros [->|[J N]]; [exists k; rewrite K2, Nat.eqb_refl; auto|exists m; apply Nat.eqb_neq in N; rewrite N; auto].
Qed.
Lemma get_in c l m : NoDup (map cm_id l) -> In m l -> cm_id m = c -> get c l = Some m.
Proof.
  intros ND I E. unfold get. destruct (find (fun m => cm_id m =? c) l) as [n|] eqn:F.
  - apply find_some in F. destruct F as [J Q]. apply Nat.eqb_eq in Q. f_equal. apply (by_id l ND n m J I). congruence.
  - exfalso. pose proof (find_none _ _ F m I) as Q. cbn in Q. rewrite E, Nat.eqb_refl in Q. discriminate.
Qed.

Lemma existing_spec D l : good D -> (forall x, In x l -> outlike x) ->
  exists e, existing D l = Some e /\ match e with Some c => first_maker kind_of excl D l c | None => forall x b, In x l -> ~ made_by kind_of excl D x b end.
Proof.
  intros G. induction l as [|x l IH]; intros O; cbn [existing]; [exists None; split; [reflexivity|intros x b []]|].
  destruct (incoming_spec D x G (O x (or_introl eq_refl))) as [i [-> I]]. cbn [obind]. pose proof (O x (or_introl eq_refl)) as Ox.
  assert (forall b, made_by kind_of excl D x b <-> i = Some b) as M by (intros b; rewrite I; unfold made_by; rewrite (makes_view D b x Ox); reflexivity).
  destruct i as [c|].
  - exists (Some c). split; [reflexivity|]. exists [], x, l. split; [reflexivity|]. split; [apply M; reflexivity|intros y b []].
  - destruct (IH (fun y H => O y (or_intror H))) as [e [-> E]]. exists e. split; [reflexivity|]. assert (forall b, ~ made_by kind_of excl D x b) as N by (intros b H; apply M in H; discriminate).
    destruct e as [c|].
    + destruct E as [l1 [y [l2 [-> [E1 E2]]]]]. exists (x :: l1), y, l2. split; [reflexivity|]. split; [exact E1|]. intros z b [<-|H]; [exact (N b)|exact (E2 z b H)].
    + intros z b [<-|H]; [exact (N b)|exact (E z b H)].
Qed.

Definition row (r : rule) (c : id) : command := {| cm_id := c; cm_dir := dir; cm_text := r_text r; cm_flags := r_flags r; cm_display := r_display r |}.
Definition renamed (r : rule) (c : id) (D : db) : db := set_cmds D (change c (fun _ => row r c) (cmds D)).
Definition added (r : rule) (D : db) : db :=
  {| cmds := cmds D ++ [row r (next D)]; links_of := links_of D; db_member := db_member D; db_mod := put (next D) (db_mod D); db_trans := db_trans D;
     db_ghost := db_ghost D; db_poked := db_poked D; next := S (next D) |}.

Lemma text_found D r m : find (fun m => (cm_dir m =? dir) && bytes_eqb (cm_text m) (r_text r)) (cmds D) = Some m -> In m (cmds D) /\ cm_dir m = dir /\ cm_text m = r_text r.
Proof. intros F. apply find_some in F. destruct F as [I Q]. apply andb_true_iff in Q. destruct Q as [Q1 Q2]. apply Nat.eqb_eq in Q1. apply bytes_eqb_eq in Q2. auto. Qed.
Lemma text_missing D r : find (fun m => (cm_dir m =? dir) && bytes_eqb (cm_text m) (r_text r)) (cmds D) = None -> forall b, ~ same_text dir D r b.
Proof. intros F b [m [I [_ [A B]]]]. pose proof (find_none _ _ F m I) as Q. cbn in Q. rewrite A, B, Nat.eqb_refl, bytes_eqb_refl in Q. discriminate. Qed.

(** The comparison of display and flags. *)
Lemma adjust_ok D r c m : NoDup (map cm_id (cmds D)) -> In m (cmds D) -> cm_id m = c -> cm_dir m = dir -> cm_text m = r_text r ->
  let D1 := if bytes_eqb (cm_display m) (r_display r) then D
             else set_cmds D (change c (fun m => {| cm_id := cm_id m; cm_dir := cm_dir m; cm_text := cm_text m; cm_flags := cm_flags m; cm_display := r_display r |}) (cmds D)) in
  (cm_flags m = r_flags r -> D1 = renamed r c D) /\
  set_cmds D1 (change c (fun m => {| cm_id := cm_id m; cm_dir := cm_dir m; cm_text := cm_text m; cm_flags := r_flags r; cm_display := cm_display m |}) (cmds D1)) = renamed r c D.
Proof.
  intros ND I E Ed Et D1. unfold renamed, row. destruct (bytes_eqb (cm_display m) (r_display r)) eqn:Q; subst D1.
  - apply bytes_eqb_eq in Q. split.
    + intros Ef. rewrite <- E, <- Ed, <- Et, <- Ef, <- Q, E. destruct m as [i dd t f s]; cbn [cm_id cm_dir cm_text cm_flags cm_display] in *. subst i. rewrite (change_same c (cmds D) _ ND I eq_refl). destruct D; reflexivity.
    + rewrite (change_one c _ (cmds D) m ND I E). rewrite E, Ed, Et, Q. reflexivity.
  - split.
    + intros Ef. rewrite (change_one c _ (cmds D) m ND I E). rewrite E, Ed, Et, Ef. reflexivity.
    + unfold set_cmds. cbn [cmds links_of db_member db_mod db_trans db_ghost db_poked next]. rewrite change_twice by (intros k K; exact K).
      rewrite (change_one c _ (cmds D) m ND I E). cbn [cm_id cm_dir cm_text cm_flags cm_display]. rewrite E, Ed, Et. reflexivity.
Qed.

Lemma choose_ok r D : good D -> decent kind_of excl is_env r ->
  exists c modified sh D1, choose dir false r D = Some (c, modified, sh, D1) /\ becomes kind_of excl dir D r c /\
    (modified = true <-> r_new r = true \/ has D c /\ ~ named dir D r c) /\ (has D c /\ D1 = renamed r c D \/ c = next D /\ D1 = added r D).
Proof.
  intros G [P M]. unfold choose. pose proof (g_ids _ _ _ _ G) as ND.
  destruct (find _ (cmds D)) as [m|] eqn:F.
  - apply text_found in F. destruct F as [I [Ed Et]]. cbn [obind]. rewrite (get_in (cm_id m) (cmds D) m ND I eq_refl). cbn [obind].
    destruct (adjust_ok D r (cm_id m) m ND I eq_refl Ed Et) as [A1 A2].
    assert (named dir D r (cm_id m) <-> cm_flags m = r_flags r) as N.
    { split; [|intros Ef; exists m; auto]. intros [n [J [E [_ [_ Ef]]]]]. rewrite (by_id _ ND n m J I E) in Ef. exact Ef. }
    assert (becomes kind_of excl dir D r (cm_id m)) as BC by (left; exists m; auto). assert (has D (cm_id m)) as Hm by (exists m; auto).
    destruct (bytes_eqb (cm_flags m) (r_flags r)) eqn:Q.
    + apply bytes_eqb_eq in Q. do 4 eexists. split; [reflexivity|]. split; [exact BC|]. split; [tauto|]. left. split; [exact Hm|exact (A1 Q)].
    + assert (cm_flags m <> r_flags r) as Q' by (intros C; rewrite C, bytes_eqb_refl in Q; discriminate). do 4 eexists. split; [reflexivity|]. split; [exact BC|]. split; [tauto|]. left. split; [exact Hm|exact A2].
  - pose proof (text_missing D r F) as NT. destruct (existing_spec D (r_main r) G) as [e [-> E]].
    { intros x H. apply (p_outs _ _ _ _ _ (P (next D) (proj1 (g_next _ _ _ _ G (next D) (le_n _))))), M, H. }
    cbn [obind]. destruct e as [c|].
    + assert (has D c) as Hc by (destruct E as [? [? [? [_ [[H _] _]]]]]; exact H). destruct Hc as [m [I Em]]. cbn [obind].
      assert (becomes kind_of excl dir D r c) as BC by (right; auto). assert (has D c) as Hc by (exists m; auto).
      assert (~ named dir D r c) as NN by (intros [n [J [En [A [B _]]]]]; apply (NT c); exists n; auto).
      set (f := fun m => {| cm_id := cm_id m; cm_dir := dir; cm_text := r_text r; cm_flags := cm_flags m; cm_display := cm_display m |}).
      set (D0 := set_cmds D (change c f (cmds D))).
      assert (In (f m) (cmds D0)) as I0 by (unfold D0; cbn [set_cmds cmds]; rewrite (change_one c f (cmds D) m ND I Em); apply change_in; eauto).
      assert (NoDup (map cm_id (cmds D0))) as ND0 by (unfold D0; cbn [set_cmds cmds]; rewrite change_ids by (intros k K; exact K); exact ND).
      rewrite (get_in c (cmds D0) (f m) ND0 I0 Em). cbn [obind]. destruct (adjust_ok D0 r c (f m) ND0 I0 Em eq_refl eq_refl) as [A1 A2].
      assert (renamed r c D0 = renamed r c D) as RR.
      { unfold renamed, D0. cbn [set_cmds cmds]. unfold set_cmds. cbn [cmds links_of db_member db_mod db_trans db_ghost db_poked next]. rewrite change_twice by (intros k K; exact K). reflexivity. }
      destruct (bytes_eqb (cm_flags (f m)) (r_flags r)) eqn:Q.
      * apply bytes_eqb_eq in Q. do 4 eexists. split; [reflexivity|]. split; [exact BC|]. split; [tauto|]. left. split; [exact Hc|]. rewrite <- RR. exact (A1 Q).
      * do 4 eexists. split; [reflexivity|]. split; [exact BC|]. split; [tauto|]. left. split; [exact Hc|]. rewrite <- RR. exact A2.
    + assert (~ has D (next D)) as NH by (intros H; pose proof (proj2 (g_cmds _ _ _ _ G _ H)); lia).
      do 4 eexists. split; [reflexivity|]. split; [right; auto|]. split; [tauto|]. right. split; reflexivity.
Qed.

(** The rule's command after the choice, all links being the old ones. *)
Record chosen (r : rule) (c : id) (D D1 : db) : Prop := {
  ch_links : links_of D1 = links_of D; ch_member : db_member D1 = db_member D; ch_trans : db_trans D1 = db_trans D; ch_poked : db_poked D1 = db_poked D;
  ch_rows : forall m, In m (cmds D1) <-> m = row r c \/ In m (cmds D) /\ cm_id m <> c;
  ch_mod : forall y, In y (db_mod D1) <-> In y (db_mod D) \/ y = c /\ ~ has D c;
  ch_next : next D <= next D1;
  ch_old : has D c \/ c = next D;
  ch_good : good D1 }.
Lemma fresh_consistent D i : links_of D i = no_links -> consistent i (view D i).
Proof.
  intros E. constructor; unfold LinkSpec.writes_group, LinkSpec.makes; cbn [nin stk outs glinks view]; rewrite E; cbn [no_links l_nin l_stk l_outs l_glinks In];
    [constructor|tauto|repeat split; intros x []|intros g h [[] _]|intros x g [[] _]|intros a b; tauto|tauto].
Qed.
Lemma chosen_ok r c D D1 : good D -> becomes kind_of excl dir D r c -> (has D c /\ D1 = renamed r c D \/ c = next D /\ D1 = added r D) -> chosen r c D D1.
Proof.
  intros G B H. pose proof (g_ids _ _ _ _ G) as ND.
  assert (forall n, In n (cmds D) -> cm_id n <> c -> cm_dir n = dir -> cm_text n = r_text r -> False) as NT.
  { intros n I N Ed Et. destruct B as [[m [J [E [Fd Ft]]]]|[B _]].
    - apply N. rewrite <- E. f_equal. apply (g_texts _ _ _ _ G); congruence.
    - apply (B (cm_id n)). exists n. auto. }
  assert (forall D', (forall m, In m (cmds D') <-> m = row r c \/ In m (cmds D) /\ cm_id m <> c) ->
    forall m n, In m (cmds D') -> In n (cmds D') -> cm_dir m = cm_dir n -> cm_text m = cm_text n -> m = n) as TX.
  { intros D' R m n Hm Hn Ed Et. apply R in Hm, Hn. destruct Hm as [->|[Hm Nm]], Hn as [->|[Hn Nn]]; [reflexivity| | |exact (g_texts _ _ _ _ G m n Hm Hn Ed Et)]; exfalso.
    - exact (NT n Hn Nn (eq_sym Ed) (eq_sym Et)).
    - exact (NT m Hm Nm Ed Et). }
  destruct H as [[Hc HD]|[Hc HD]]; subst D1; [|subst c].
  - assert (forall m, In m (cmds (renamed r c D)) <-> m = row r c \/ In m (cmds D) /\ cm_id m <> c) as R by (intros m; cbn [renamed set_cmds cmds]; apply change_in; exact Hc).
    assert (forall b, has (renamed r c D) b <-> has D b) as HH.
    { intros b. unfold has. split.
      - intros [m [I <-]]. apply R in I. destruct I as [->|[I _]]; [exact Hc|exists m; auto].
      - intros [m [I <-]]. destruct (Nat.eq_dec (cm_id m) c) as [E|N]; [exists (row r c); split; [apply R; auto|cbn; auto]|exists m; split; [apply R; auto|reflexivity]]. }
    constructor; try reflexivity; [exact R|cbn [renamed set_cmds db_mod]; tauto|auto|].
    constructor.
    + cbn [renamed set_cmds cmds]. rewrite change_ids by reflexivity. exact ND.
    + exact (TX _ R).
    + intros b Hb. apply HH in Hb. exact (g_rows _ _ _ _ G b Hb).
    + intros b b' x Hb Hb'. apply HH in Hb, Hb'. exact (g_maker _ _ _ _ G b b' x Hb Hb').
    + exact (g_member _ _ _ _ G).
    + exact (g_groups _ _ _ _ G).
    + intros b Hb. apply HH in Hb. exact (g_cmds _ _ _ _ G b Hb).
    + exact (g_next _ _ _ _ G).
  - assert (~ has D (next D)) as NH by (intros H; pose proof (proj2 (g_cmds _ _ _ _ G _ H)); lia).
    assert (forall m, In m (cmds (added r D)) <-> m = row r (next D) \/ In m (cmds D) /\ cm_id m <> next D) as R.
    { intros m. cbn [added cmds]. rewrite in_app_iff. cbn [In]. split.
      - intros [I|[<-|[]]]; [right|auto]. split; [exact I|]. intros E. apply NH. exists m. auto.
      - intros [-> |[I _]]; auto. }
    assert (forall b, has (added r D) b <-> has D b \/ b = next D) as HH.
    { intros b. unfold has. split.
      - intros [m [I <-]]. apply R in I. destruct I as [->|[I _]]; [auto|left; exists m; auto].
      - intros [[m [I <-]]| ->]; [exists m; split; [cbn [added cmds]; apply in_or_app; auto|reflexivity]|exists (row r (next D)); split; [apply R; auto|reflexivity]]. }
    constructor; try reflexivity; [exact R|cbn [added db_mod]; intros y; rewrite put_in; intuition|cbn [added next]; lia|auto|].
    constructor.
    + cbn [added cmds]. rewrite map_app. cbn [map row cm_id]. apply (Permutation_NoDup (Permutation_cons_append _ _)). constructor; [|exact ND]. intros I. apply in_map_iff in I. destruct I as [m [E I]]. apply NH. exists m. auto.
    + exact (TX _ R).
    + intros b Hb. apply HH in Hb. destruct Hb as [Hb| ->]; [destruct (g_rows _ _ _ _ G b Hb); constructor; assumption|]. apply fresh_consistent. exact (proj2 (g_next _ _ _ _ G _ (le_n _))).
    + intros b b' x Hb Hb' [A A'] [C C']. cbn [outs view added links_of] in A, C.
      assert (forall i, In x (l_outs (links_of D i)) -> has (added r D) i -> has D i) as Q.
      { intros i I Hi. apply HH in Hi. destruct Hi as [Hi| ->]; [exact Hi|]. exfalso. rewrite (proj2 (g_next _ _ _ _ G _ (le_n _))) in I. exact I. }
      apply (g_maker _ _ _ _ G b b' x (Q b A Hb) (Q b' C Hb')); split; assumption.
    + exact (g_member _ _ _ _ G).
    + exact (g_groups _ _ _ _ G).
    + intros b Hb. apply HH in Hb. cbn [added next]. destruct Hb as [Hb| ->]; [destruct (g_cmds _ _ _ _ G b Hb); split; [assumption|lia]|]. split; [exact (proj1 (g_next _ _ _ _ G _ (le_n _)))|lia].
    + intros i Hi. cbn [added next links_of] in *. apply (g_next _ _ _ _ G). lia.
Qed.

(** ** One rule *)
Definition free (todo used : list id) (D : db) (b : id) : Prop :=
  In b todo \/ (leftover b = true /\ ~ In b used) \/ (exists m, In m (cmds D) /\ cm_id m = b /\ cm_dir m <> dir /\ waiting (cm_dir m) = true).
Lemma all_available_spec todo used D l : good D -> (forall x, In x l -> outlike x) ->
  exists v, all_available dir waiting leftover todo used D l = Some v /\ (v = true <-> forall x b, In x l -> made_by kind_of excl D x b -> free todo used D b).
Proof.
  intros G. induction l as [|x l IH]; intros O; cbn [all_available].
  - exists true. split; [reflexivity|]. split; [intros _ x b []|reflexivity].
  - unfold available. pose proof (O x (or_introl eq_refl)) as Ox. destruct (incoming_spec D x G Ox) as [i [-> I]]. cbn [obind].
    assert (forall b, made_by kind_of excl D x b <-> i = Some b) as M by (intros b; rewrite I; unfold made_by; rewrite (makes_view D b x Ox); reflexivity).
    destruct (IH (fun y H => O y (or_intror H))) as [v [E V]]. destruct i as [b|]; cbn [obind].
    + assert (forall a e f, a || e || f = true <-> a = true \/ e = true \/ f = true) as OR by (intros a e f; rewrite !orb_true_iff; tauto).
      assert (inb b todo || leftover b && negb (inb b used) || existsb (fun m => (cm_id m =? b) && negb (cm_dir m =? dir) && waiting (cm_dir m)) (cmds D) = true <-> free todo used D b) as Q.
      { rewrite OR, inb_in, andb_true_iff, negb_true_iff, inb_out, existsb_exists. unfold free.
        assert ((exists m, In m (cmds D) /\ (cm_id m =? b) && negb (cm_dir m =? dir) && waiting (cm_dir m) = true) <-> (exists m, In m (cmds D) /\ cm_id m = b /\ cm_dir m <> dir /\ waiting (cm_dir m) = true)) as ->; [|tauto].
        split; intros [m [Hm W]]; exists m; (split; [exact Hm|]); rewrite !andb_true_iff, negb_true_iff, Nat.eqb_eq, Nat.eqb_neq in *; tauto. }
      destruct (_ || _).
      * exists v. split; [exact E|]. rewrite V. split.
        -- intros A y b' [<-|H] K; [apply M in K; injection K as <-; apply Q; reflexivity|exact (A y b' H K)].
        -- intros A y b' H K. exact (A y b' (or_intror H) K).
      * exists false. split; [reflexivity|]. split; [discriminate|]. intros A. apply Q. apply (A x b (or_introl eq_refl)). apply M. reflexivity.
    + exists v. split; [exact E|]. rewrite V. split.
      * intros A y b' [<-|H] K; [apply M in K; discriminate|exact (A y b' H K)].
      * intros A y b' H K. exact (A y b' (or_intror H) K).
Qed.

(** What becomes of the database when the command [c] gets the rule [r]. *)
Record stepped (r : rule) (c : id) (D D' : db) : Prop := {
  st_good : good D';
  st_described : described kind_of excl dir D' r c;
  st_shown : shown D' r c;
  st_rows : forall m, cm_id m <> c -> (In m (cmds D') <-> In m (cmds D));
  st_same : forall b, b <> c -> l_nin (links_of D' b) = l_nin (links_of D b) /\ l_stk (links_of D' b) = l_stk (links_of D b) /\ l_glinks (links_of D' b) = l_glinks (links_of D b);
  st_outs : forall b y, b <> c -> has D b -> (In y (l_outs (links_of D' b)) <-> In y (l_outs (links_of D b)) /\ ~ In y (d_outs (r_decl r)));
  st_mod : forall y, kind_of y = KCmd ->
    (In y (db_mod D') <-> In y (db_mod D) \/ y = c /\ (~ has D c \/ ~ named dir D r c \/ rule_changed kind_of excl (r_decl r) (r_new r) (view D c))) }.
Lemma rule_ok r c D1 D2 modified transient : good D1 -> decent kind_of excl is_env r -> has D1 c -> ~ circular (r_decl r) ->
  each_entry (unique_link kind_of c) (d_outs (r_decl r)) D1 = Some D2 -> 
  exists w, record_rule kind_of excl c (r_decl r) false modified transient (view D2 c) = Some w /\
  good (store c (fst w) D2) /\ same_outputs kind_of excl (r_decl r) (view (store c (fst w) D2) c) /\ same_inputs (r_decl r) (view (store c (fst w) D2) c) /\
  (forall b, b <> c -> l_nin (links_of (store c (fst w) D2) b) = l_nin (links_of D1 b) /\ l_stk (links_of (store c (fst w) D2) b) = l_stk (links_of D1 b) /\ l_glinks (links_of (store c (fst w) D2) b) = l_glinks (links_of D1 b)) /\
  (forall b y, b <> c -> has D1 b -> (In y (l_outs (links_of (store c (fst w) D2) b)) <-> In y (l_outs (links_of D1 b)) /\ ~ In y (d_outs (r_decl r)))) /\
  cmds (store c (fst w) D2) = cmds D1 /\
  (forall y, kind_of y = KCmd -> (In y (db_mod (store c (fst w) D2)) <-> In y (db_mod D1) \/ y = c /\ rule_changed kind_of excl (r_decl r) modified (view D1 c))).
Proof.
  intros G [PR _] Hc NC E. set (d := r_decl r) in *. pose proof (PR c (proj1 (g_cmds _ _ _ _ G c Hc))) as P. fold d in P.
  assert (forall x, In x (d_outs d) -> outlike x) as O by (intros x H; exact (p_outs _ _ _ _ _ P x H)).
  destruct (unique_links_ok c (d_outs d) O D1 G Hc) as [D2' [E' [T [G2 _]]]]. rewrite E in E'. injection E' as <-. clear E.
  assert (has D2 c) as Hc2 by (apply (taken_has _ _ _ _ _ T); exact Hc).
  pose proof (g_rows _ _ _ _ G2 c Hc2) as K.
  assert (taken_over d (view D2 c)) as TO.
  { intros x g A B C. cbn [member outs view] in *. apply (t_member _ _ _ _ T) in C. rewrite (t_a _ _ _ _ T) in B. tauto. }
  destruct (record_ok kind_of excl is_env c d modified transient (view D2 c) K P TO NC) as [w [ck [-> R]]]. exists (w, ck). split; [reflexivity|]. cbn [fst].
  set (D3 := store c w D2).
  assert (forall b, b <> c -> links_of D3 b = links_of D2 b) as L by (intros b N; unfold D3; cbn [store links_of]; apply Nat.eqb_neq in N; rewrite N; reflexivity).
  assert (links_of D3 c = links_in w) as LC by (unfold D3; cbn [store links_of]; rewrite Nat.eqb_refl; reflexivity).
  assert (view D3 c = w) as VC.
  { unfold view. rewrite LC. unfold D3. cbn [links_in l_nin l_stk l_outs l_glinks store db_member db_mod db_trans db_ghost db_poked]. destruct w; reflexivity. }
  assert (forall b, has D3 b <-> has D2 b) as H3 by (intros b; reflexivity).
  assert (forall b y, has D2 b -> b <> c -> In y (l_outs (links_of D2 b)) -> ~ In y (d_outs d)) as NO.
  { intros b y Hb N I. apply (taken_has _ _ _ _ _ T) in Hb. apply (t_outs _ _ _ _ T b y Hb N) in I. tauto. }
  assert (forall b, b <> c -> forall x, makes (view D3 b) x <-> makes (view D2 b) x) as MK by (intros b N x; unfold LinkSpec.makes; cbn [outs view]; rewrite (L b N); reflexivity).
  assert (forall x, makes (view D3 c) x <-> In x (d_outs d)) as MC by (intros x; rewrite VC; apply (rec_outs _ _ _ _ _ _ _ _ _ _ R)).
  split; [constructor|].
  - exact (g_ids _ _ _ _ G2).
  - exact (g_texts _ _ _ _ G2).
  - intros b Hb. destruct (Nat.eq_dec b c) as [->|N]; [rewrite VC; exact (rec_ok _ _ _ _ _ _ _ _ _ _ R)|]. apply H3 in Hb. pose proof (g_rows _ _ _ _ G2 b Hb) as KB. constructor.
    + cbn [outs view]. rewrite (L b N). exact (k_unique _ _ _ _ _ KB).
    + cbn [outs view]. rewrite (L b N). exact (k_self _ _ _ _ _ KB).
    + cbn [outs stk nin view]. rewrite (L b N). exact (k_small _ _ _ _ _ KB).
    + unfold LinkSpec.writes_group. cbn [outs view]. rewrite (L b N). exact (k_group _ _ _ _ _ KB).
    + intros x g A. apply (MK b N) in A. unfold LinkSpec.writes_group. cbn [outs view member]. rewrite (L b N).
      rewrite <- (k_member _ _ _ _ _ KB x g A). unfold D3. cbn [store db_member]. rewrite (rec_member _ _ _ _ _ _ _ _ _ _ R). cbn [member view]. split.
      * intros [[B _]|[B _]]; [exact B|]. exfalso. exact (NO b x Hb N (proj1 A) B).
      * intros B. left. split; [exact B|]. intros [C _]. apply N. exact (g_maker _ _ _ _ G2 b c x Hb Hc2 A C).
    + unfold LinkSpec.writes_group. cbn [outs stk glinks view]. rewrite (L b N). exact (k_glinks _ _ _ _ _ KB).
    + cbn [stk nin view]. rewrite (L b N). exact (k_env _ _ _ _ _ KB).
  - assert (forall b x, has D2 b -> b <> c -> makes (view D3 b) x -> makes (view D3 c) x -> False) as X.
    { intros b x Hb N A B. apply (MK b N) in A. apply MC in B. exact (NO b x Hb N (proj1 A) B). }
    intros b b' x Hb Hb' A B. apply H3 in Hb, Hb'. destruct (Nat.eq_dec b c) as [->|N], (Nat.eq_dec b' c) as [->|N']; [reflexivity|exfalso; exact (X b' x Hb' N' B A)|exfalso; exact (X b x Hb N A B)|].
    apply (MK b N) in A. apply (MK b' N') in B. exact (g_maker _ _ _ _ G2 b b' x Hb Hb' A B).
  - assert (forall x g, In (x, g) (member (view D2 c)) /\ ~ (makes (view D2 c) x /\ writes_group (view D2 c) g) -> In x (d_outs d) -> False) as X.
    { intros x g [A B] C. destruct (inb x (outs (view D2 c))) eqn:Q.
      - apply inb_in in Q. assert (makes (view D2 c) x) as M by (split; [exact Q|exact (O x C)]). apply B. split; [exact M|]. apply (k_member _ _ _ _ _ K x g M). exact A.
      - apply inb_out in Q. exact (TO x g C Q A). }
    intros x g h A B. unfold D3 in A, B. cbn [store db_member] in A, B. apply (rec_member _ _ _ _ _ _ _ _ _ _ R) in A, B.
    destruct A as [A|[A1 A2]], B as [B|[B1 B2]]; [exact (g_member _ _ _ _ G2 x g h (proj1 A) (proj1 B))|exfalso; exact (X x g A B1)|exfalso; exact (X x h B A1)|congruence].
  - intros x g A. unfold D3 in A. cbn [store db_member] in A. apply (rec_member _ _ _ _ _ _ _ _ _ _ R) in A. destruct A as [[A _]|[_ A]]; [exact (g_groups _ _ _ _ G2 x g A)|exact (p_group _ _ _ _ _ P g A)].
  - intros b Hb. apply H3 in Hb. exact (g_cmds _ _ _ _ G2 b Hb).
  - intros i Hi. destruct (g_next _ _ _ _ G2 i Hi) as [A B]. split; [exact A|]. rewrite L; [exact B|]. intros ->. pose proof (proj2 (g_cmds _ _ _ _ G2 c Hc2)). unfold D3 in Hi. cbn [store next] in Hi. lia.
  - rewrite VC. split; [exact (rec_outs _ _ _ _ _ _ _ _ _ _ R)|]. split; [exact (rec_ins _ _ _ _ _ _ _ _ _ _ R)|].
    split; [intros b N; rewrite (L b N); exact (t_same _ _ _ _ T b)|]. split; [intros b y N Hb; rewrite (L b N); exact (t_outs _ _ _ _ T b y Hb N)|].
    split; [exact (t_cmds _ _ _ _ T)|].
    intros y Ky. unfold D3. cbn [store db_mod]. rewrite (rec_mod _ _ _ _ _ _ _ _ _ _ R). cbn [modlist view]. rewrite (t_mod _ _ _ _ T).
    assert (rule_changed kind_of excl d modified (view D2 c) <-> rule_changed kind_of excl d modified (view D1 c)) as RC.
    { unfold rule_changed, same_outputs, LinkSpec.makes, excludes, LinkSpec.writes_group, loses_group. cbn [outs stk nin view]. rewrite (t_a _ _ _ _ T). reflexivity. }
    rewrite RC. split; [|tauto]. intros [A|[A|[[[_ A] _]|[A _]]]]; [auto|auto|exfalso|exfalso].
    + unfold LinkSpec.group_id in A. congruence.
    + apply (p_group _ _ _ _ _ P) in A. unfold LinkSpec.group_id in A. congruence.
Qed.

Lemma step_ok r s : good (p_db s) -> decent kind_of excl is_env r -> ~ circular (r_decl r) ->
  (forall x b, In x (d_outs (r_decl r)) -> made_by kind_of excl (p_db s) x b -> free (todo s) (used s) (p_db s) b) ->
  exists c, becomes kind_of excl dir (p_db s) r c /\
    (In c (used s) /\ do_rule kind_of excl dir waiting leftover false r s = None \/
     ~ In c (used s) /\ exists s', do_rule kind_of excl dir waiting leftover false r s = Some s' /\ used s' = c :: used s /\ todo s' = del c (todo s) /\ stepped r c (p_db s) (p_db s')).
Proof.
  intros G DR NC FR. unfold do_rule. pose proof DR as [PR _].
  destruct (all_available_spec (todo s) (used s) (p_db s) (d_outs (r_decl r)) G) as [v [-> V]].
  { intros x H. exact (p_outs _ _ _ _ _ (PR _ (proj1 (g_next _ _ _ _ G _ (le_n _)))) x H). }
  rewrite (proj2 V FR). cbn [obind negb]. destruct (choose_ok r (p_db s) G DR) as [c [modified [sh [D1 [-> [B [M H]]]]]]]. cbn [obind].
  exists c. split; [exact B|]. destruct (inb c (used s)) eqn:U; [left; split; [apply inb_in; exact U|reflexivity]|right]. split; [apply inb_out; exact U|].
  pose proof (chosen_ok r c (p_db s) D1 G B H) as CH. pose proof (ch_good _ _ _ _ CH) as G1.
  assert (has D1 c) as Hc by (exists (row r c); split; [apply (ch_rows _ _ _ _ CH); auto|reflexivity]).
  destruct (unique_links_ok c (d_outs (r_decl r))) with (D := D1) as [D2 [E2 [T [G2 _]]]]; [|exact G1|exact Hc|].
  { intros x I. exact (p_outs _ _ _ _ _ (PR _ (proj1 (g_cmds _ _ _ _ G1 c Hc))) x I). }
  rewrite E2. cbn [obind].
  destruct (rule_ok r c D1 D2 modified (existsb (fun h => h =?c "t"%char) (r_flags r)) G1 DR Hc NC E2) as [w [-> [G3 [SO [SI [S1 [S2 [S3 S4]]]]]]]]. cbn [obind].
  eexists. split; [reflexivity|]. cbn [used todo p_db]. split; [reflexivity|]. split; [reflexivity|]. set (D3 := store c (fst w) D2) in *.
  assert (forall b, has (p_db s) b -> has D1 b) as HH.
  { intros b [m [I <-]]. destruct (Nat.eq_dec (cm_id m) c) as [-> |N]; [exact Hc|]. exists m. split; [apply (ch_rows _ _ _ _ CH); auto|reflexivity]. }
  constructor.
  - exact G3.
  - split; [|split; assumption]. exists (row r c). unfold row. cbn [cm_id cm_dir cm_text cm_flags]. rewrite S3. repeat split. apply (ch_rows _ _ _ _ CH). left. reflexivity.
  - intros m I E. rewrite S3 in I. apply (ch_rows _ _ _ _ CH) in I. destruct I as [->|[_ I]]; [reflexivity|contradiction].
  - intros m N. rewrite S3, (ch_rows _ _ _ _ CH). split; [intros [->|[I _]]; [exfalso; apply N; reflexivity|exact I]|auto].
  - intros b N. rewrite <- (ch_links _ _ _ _ CH). exact (S1 b N).
  - intros b y N Hb. rewrite <- (ch_links _ _ _ _ CH). exact (S2 b y N (HH b Hb)).
  - intros y Ky. rewrite (S4 y Ky), (ch_mod _ _ _ _ CH).
    assert (rule_changed kind_of excl (r_decl r) modified (view D1 c) <-> modified = true \/ rule_changed kind_of excl (r_decl r) (r_new r) (view (p_db s) c)) as RC.
    { unfold rule_changed, same_outputs, LinkSpec.makes, excludes, LinkSpec.writes_group, loses_group. cbn [outs stk nin view]. rewrite (ch_links _ _ _ _ CH).
      assert (r_new r = true -> modified = true) as Q by (intros Q; apply M; auto). tauto. }
    rewrite RC, M. assert (named dir (p_db s) r c -> has (p_db s) c) as NH by (intros [m [I [Em _]]]; exists m; auto).
    assert (has (p_db s) c \/ ~ has (p_db s) c) as DH.
    { destruct H as [[H _]|[-> _]]; [auto|right]. intros X. pose proof (proj2 (g_cmds _ _ _ _ G _ X)). lia. }
    assert (r_new r = true -> rule_changed kind_of excl (r_decl r) (r_new r) (view (p_db s) c)) as RN by (intros Q; left; exact Q).
    tauto.
Qed.
Lemma step_inv r s s' : good (p_db s) -> decent kind_of excl is_env r -> do_rule kind_of excl dir waiting leftover false r s = Some s' ->
  ~ circular (r_decl r) /\ (forall x b, In x (d_outs (r_decl r)) -> made_by kind_of excl (p_db s) x b -> free (todo s) (used s) (p_db s) b).
Proof.
  intros G DR E. pose proof DR as [PR _].
  assert (forall x b, In x (d_outs (r_decl r)) -> made_by kind_of excl (p_db s) x b -> free (todo s) (used s) (p_db s) b) as FR.
  { unfold do_rule in E. destruct (all_available_spec (todo s) (used s) (p_db s) (d_outs (r_decl r)) G) as [v [EV V]].
    { intros x H. exact (p_outs _ _ _ _ _ (PR _ (proj1 (g_next _ _ _ _ G _ (le_n _)))) x H). }
    rewrite EV in E. cbn [obind] in E. destruct v; [apply V; reflexivity|discriminate]. }
  split; [|exact FR]. intros C. unfold do_rule in E. destruct (all_available _ _ _ _ _ _ _) as [v|]; [|discriminate]. cbn [obind] in E. destruct v; cbn [negb] in E; [|discriminate].
  destruct (choose_ok r (p_db s) G DR) as [c [modified [sh [D1 [EC [B [M H]]]]]]]. rewrite EC in E. cbn [obind] in E. destruct (inb c (used s)); [discriminate|].
  destruct (each_entry _ _ _) as [D2|]; [|discriminate]. cbn [obind] in E.
  assert (kind_of c = KCmd) as KC by (destruct H as [[H _]|[-> _]]; [exact (proj1 (g_cmds _ _ _ _ G c H))|exact (proj1 (g_next _ _ _ _ G _ (le_n _)))]).
  rewrite (record_circular kind_of excl is_env c (r_decl r) false modified _ (view D2 c) (PR c KC) C) in E. discriminate.
Qed.

(** ** The rules of a directory *)
Notation do_rule := (do_rule kind_of excl dir waiting leftover).
Notation do_rules := (do_rules kind_of excl dir waiting leftover).
Notation described := (described kind_of excl dir).
Notation made_by := (made_by kind_of excl).
Notation in_dir := (in_dir dir).
Notation decent := (decent kind_of excl is_env).
Lemma same_outputs_ext d r r' : (forall y, In y (outs r) <-> In y (outs r')) -> same_outputs kind_of excl d r -> same_outputs kind_of excl d r'.
Proof.
  intros E [A [B C]]. unfold same_outputs, LinkSpec.makes, excludes, LinkSpec.writes_group in *. split; [|split]; intros x; rewrite <- E; auto.
Qed.
Lemma Forall2_impl_in {A B} (P Q : A -> B -> Prop) l k : Forall2 P l k -> (forall a b, In a l -> In b k -> P a b -> Q a b) -> Forall2 Q l k.
Proof.
  induction 1 as [|a b l k Hab H IH]; intros I; constructor; [apply I; cbn; auto|]. apply IH. intros x y Hx Hy. apply I; cbn; auto.
Qed.
Lemma Forall2_left {A B} (P : A -> B -> Prop) l k a : Forall2 P l k -> In a l -> exists b, In b k /\ P a b.
Proof. induction 1 as [|x y l k Hxy H IH]; [intros []|]. intros [<-|I]; [exists y; cbn; auto|]. destruct (IH I) as [b [I1 I2]]. exists b. cbn. auto. Qed.
Lemma Forall2_right {A B} (P : A -> B -> Prop) l k b : Forall2 P l k -> In b k -> exists a, In a l /\ P a b.
Proof. induction 1 as [|x y l k Hxy H IH]; [intros []|]. intros [<-|I]; [exists x; cbn; auto|]. destruct (IH I) as [a [I1 I2]]. exists a. cbn. auto. Qed.

Definition owned (D : db) (b : id) : Prop := in_dir D b \/ leftover b = true \/ exists m, In m (cmds D) /\ cm_id m = b /\ cm_dir m <> dir /\ waiting (cm_dir m) = true.
Record inv (D0 : db) (rs : list rule) (s : pstate) : Prop := {
  i_good : good (p_db s);
  i_nodup : NoDup (used s);
  i_todo : forall c, In c (todo s) <-> in_dir D0 c /\ ~ In c (used s);
  i_rules : Forall2 (fun r c => described (p_db s) r c /\ shown (p_db s) r c) rs (rev (used s));
  i_rows : forall m, ~ In (cm_id m) (used s) -> (In m (cmds (p_db s)) <-> In m (cmds D0));
  i_same : forall b, has D0 b -> ~ In b (used s) -> l_nin (links_of (p_db s) b) = l_nin (links_of D0 b) /\ l_stk (links_of (p_db s) b) = l_stk (links_of D0 b) /\ l_glinks (links_of (p_db s) b) = l_glinks (links_of D0 b);
  i_outs : forall b y, has D0 b -> ~ In b (used s) -> (In y (l_outs (links_of (p_db s) b)) <-> In y (l_outs (links_of D0 b)) /\ ~ declares rs y);
  i_mod : forall y, kind_of y = KCmd -> ~ In y (used s) -> (In y (db_mod (p_db s)) <-> In y (db_mod D0));
  i_owned : forall b, In b (used s) -> has D0 b -> owned D0 b }.
Lemma inv_start D : good D -> inv D [] {| p_db := D; used := []; todo := map cm_id (filter (fun m => cm_dir m =? dir) (cmds D)); shows := 0 |}.
Proof.
  intros G. constructor; cbn [p_db used todo]; try tauto.
  - constructor.
  - intros c. rewrite in_map_iff. unfold RulesSpec.in_dir. split.
    + intros [m [E I]]. apply filter_In in I. destruct I as [I Q]. apply Nat.eqb_eq in Q. split; [exists m; auto|intros []].
    + intros [[m [I [E Q]]] _]. exists m. split; [exact E|]. apply filter_In. split; [exact I|]. apply Nat.eqb_eq. exact Q.
  - constructor.
  - intros b y _ _. split; [intros A; split; [exact A|intros [r [[] _]]]|tauto].
  - intros b [].
Qed.
Lemma inv_has D0 rs s b : inv D0 rs s -> ~ In b (used s) -> (has (p_db s) b <-> has D0 b).
Proof. intros V N. unfold has. split; intros [m [I <-]]; exists m; (split; [apply (i_rows _ _ _ V m N); exact I|reflexivity]). Qed.
Lemma used_named D0 rs s c : inv D0 rs s -> In c (used s) -> exists r, In r rs /\ described (p_db s) r c.
Proof.
  intros V U. apply in_rev in U. destruct (Forall2_right _ _ _ _ (i_rules _ _ _ V) U) as [r [I [D _]]]. exists r. auto.
Qed.
Lemma used_not_free D0 rs s c : inv D0 rs s -> In c (used s) -> ~ free (todo s) (used s) (p_db s) c.
Proof.
  intros V U F. destruct (used_named _ _ _ _ V U) as [r [_ [[m [I [E [Ed _]]]] _]]]. destruct F as [F|[[_ F]|[n [J [En [Nd _]]]]]].
  - apply (i_todo _ _ _ V) in F. tauto.
  - exact (F U).
  - apply Nd. rewrite (by_id _ (g_ids _ _ _ _ (i_good _ _ _ V)) n m J I); congruence.
Qed.
Lemma free_owned D0 rs s b : inv D0 rs s -> ~ In b (used s) -> (free (todo s) (used s) (p_db s) b <-> owned D0 b).
Proof.
  intros V N. unfold free, owned. rewrite (i_todo _ _ _ V).
  assert ((exists m, In m (cmds (p_db s)) /\ cm_id m = b /\ cm_dir m <> dir /\ waiting (cm_dir m) = true) <-> (exists m, In m (cmds D0) /\ cm_id m = b /\ cm_dir m <> dir /\ waiting (cm_dir m) = true)) as ->; [|tauto].
  split; intros [m [I [<- H]]]; exists m; (split; [apply (i_rows _ _ _ V m N); exact I|auto]).
Qed.
(** A declared output belongs to a command that is used. *)
Lemma declared_used D0 rs s x : inv D0 rs s -> declares rs x -> exists c, In c (used s) /\ made_by (p_db s) x c.
Proof.
  intros V [r [I X]]. destruct (Forall2_left _ _ _ _ (i_rules _ _ _ V) I) as [c [U [[N [[A _] _]] _]]]. exists c. split; [apply in_rev; exact U|].
  split; [destruct N as [m [J [E _]]]; exists m; auto|]. apply A. exact X.
Qed.
Lemma inv_step D0 rs s r s' : inv D0 rs s -> decent r -> do_rule false r s = Some s' ->
  inv D0 (rs ++ [r]) s' /\ exists c, used s' = c :: used s /\ ~ In c (used s) /\ becomes kind_of excl dir (p_db s) r c /\ stepped r c (p_db s) (p_db s').
Proof.
  intros V DR E. destruct (step_inv r s s' (i_good _ _ _ V) DR E) as [NC FR].
  destruct (step_ok r s (i_good _ _ _ V) DR NC FR) as [c [B [[U E']|[U [s2 [E' [Us [Ts ST]]]]]]]]; rewrite E' in E; [discriminate|]. injection E as ->. clear E'.
  split; [|exists c; auto].
  assert (forall b y, In b (used s) -> In y (l_outs (links_of (p_db s) b)) -> ~ In y (d_outs (r_decl r))) as NT.
  { intros b y Ub I J. apply (used_not_free _ _ _ _ V Ub). apply (FR y b J). destruct (used_named _ _ _ _ V Ub) as [r0 [_ [[m [K1 [K2 _]]] _]]]. assert (has (p_db s) b) as Hb by (exists m; auto).
    split; [exact Hb|]. apply makes_view; [|exact I]. exact (p_outs _ _ _ _ _ (proj1 DR b (proj1 (g_cmds _ _ _ _ (i_good _ _ _ V) b Hb))) y J). }
  constructor; rewrite ?Us, ?Ts.
  - exact (st_good _ _ _ _ ST).
  - constructor; [exact U|exact (i_nodup _ _ _ V)].
  - intros b. rewrite del_in, (i_todo _ _ _ V). cbn [In]. intuition congruence.
  - cbn [rev]. apply Forall2_app; [|constructor; [split; [exact (st_described _ _ _ _ ST)|exact (st_shown _ _ _ _ ST)]|constructor]].
    apply (Forall2_impl_in _ _ _ _ (i_rules _ _ _ V)). intros r0 b _ Ub [[[m [K1 [K2 K3]]] [SO SI]] SH]. apply in_rev in Ub.
    assert (b <> c) as Nb by (intros ->; contradiction). assert (has (p_db s) b) as Hb by (exists m; auto). split; [split; [|split]|].
    + exists m. split; [apply (st_rows _ _ _ _ ST); [congruence|exact K1]|auto].
    + apply (same_outputs_ext _ (view (p_db s) b)); [|exact SO]. intros y. cbn [outs view]. rewrite (st_outs _ _ _ _ ST b y Nb Hb). split; [|tauto]. intros A. split; [exact A|exact (NT b y Ub A)].
    + intros x. cbn [stk view]. rewrite (proj1 (proj2 (st_same _ _ _ _ ST b Nb))). exact (SI x).
    + intros n I En. apply SH; [|exact En]. apply (st_rows _ _ _ _ ST); [congruence|exact I].
  - intros m N. cbn [In] in N. rewrite (st_rows _ _ _ _ ST) by (intros X; apply N; auto). apply (i_rows _ _ _ V). tauto.
  - intros b Hb N. cbn [In] in N. destruct (st_same _ _ _ _ ST b) as [-> [-> ->]]; [intros X; apply N; auto|]. apply (i_same _ _ _ V); tauto.
  - intros b y Hb N. cbn [In] in N. assert (~ In b (used s)) as Nb by tauto. rewrite (st_outs _ _ _ _ ST); [|intros X; apply N; auto|apply (inv_has _ _ _ _ V Nb); exact Hb].
    rewrite (i_outs _ _ _ V b y Hb Nb). unfold declares. split.
    + intros [[A1 A2] A3]. split; [exact A1|]. intros [r0 [I X]]. apply in_app_or in I. destruct I as [I|[<-|[]]]; [apply A2; exists r0; auto|exact (A3 X)].
    + intros [A1 A2]. split; [split; [exact A1|]|].
      * intros [r0 [I X]]. apply A2. exists r0. split; [apply in_or_app; auto|exact X].
      * intros X. apply A2. exists r. split; [apply in_or_app; cbn; auto|exact X].
  - intros y Ky N. cbn [In] in N. rewrite (st_mod _ _ _ _ ST y Ky), <- (i_mod _ _ _ V y Ky) by tauto. split; [|auto]. intros [A|[-> _]]; [exact A|]. exfalso. apply N. auto.
  - intros b [<-|Ub] Hb; [|exact (i_owned _ _ _ V b Ub Hb)]. destruct B as [[m [I [Em [Ed _]]]]|[_ [[l1 [x [l2 [Em [MB _]]]]]|[_ ->]]]].
    + left. exists m. split; [apply (i_rows _ _ _ V); [congruence|exact I]|auto].
    + apply (free_owned _ _ _ _ V U). apply (FR x c); [|exact MB]. apply (proj2 DR). rewrite Em. apply in_or_app. cbn. auto.
    + exfalso. apply (inv_has _ _ _ _ V U) in Hb. pose proof (proj2 (g_cmds _ _ _ _ (i_good _ _ _ V) _ Hb)). lia.
Qed.
Lemma do_rules_app refac l k s : do_rules refac (l ++ k) s = obind (do_rules refac l s) (do_rules refac k).
Proof. revert s. induction l as [|r l IH]; intros s; cbn [app RulesModel.do_rules]; [reflexivity|]. destruct (RulesModel.do_rule _ _ _ _ _ refac r s); cbn [obind]; auto. Qed.
Lemma inv_rules D0 l : Forall decent l -> forall rs s s', inv D0 rs s -> do_rules false l s = Some s' -> inv D0 (rs ++ l) s' /\ exists k, used s' = rev k ++ used s /\ length k = length l.
Proof.
  induction 1 as [|r l DR DL IH]; intros rs s s' V E; cbn [RulesModel.do_rules] in E.
  - injection E as <-. rewrite app_nil_r. split; [exact V|]. exists []. auto.
  - destruct (do_rule false r s) as [s1|] eqn:E1; [|discriminate]. cbn [obind] in E. destruct (inv_step _ _ _ _ _ V DR E1) as [V1 [c [Us _]]].
    destruct (IH _ _ _ V1 E) as [V2 [k [Uk Lk]]]. rewrite <- app_assoc in V2. split; [exact V2|]. exists (c :: k). cbn [rev length]. rewrite Uk, Us, <- app_assoc. cbn. auto.
Qed.
(** Later rules leave used commands in the modify list as they are. *)
Lemma mod_kept D0 l : Forall decent l -> forall rs s s' y, inv D0 rs s -> do_rules false l s = Some s' -> kind_of y = KCmd -> In y (used s) -> (In y (db_mod (p_db s')) <-> In y (db_mod (p_db s))).
Proof.
  induction 1 as [|r l DR DL IH]; intros rs s s' y V E Ky U; cbn [RulesModel.do_rules] in E.
  - injection E as <-. reflexivity.
  - destruct (do_rule false r s) as [s1|] eqn:E1; [|discriminate]. cbn [obind] in E. destruct (inv_step _ _ _ _ _ V DR E1) as [V1 [c [Us [N [_ ST]]]]].
    rewrite (IH _ _ _ y V1 E Ky) by (rewrite Us; right; exact U). rewrite (st_mod _ _ _ _ ST y Ky). split; [|auto]. intros [A|[-> _]]; [exact A|contradiction].
Qed.
Lemma rest_outs l D c y : In y (outs (rest l D c)) <-> In y (l_outs (links_of D c)) /\ ~ declares l y.
Proof.
  unfold rest. cbn [outs view]. rewrite filter_In, negb_true_iff. split; intros [A B]; (split; [exact A|]).
  - intros [r [I X]]. assert (existsb (fun r => inb y (d_outs (r_decl r))) l = true) as Q by (apply existsb_exists; exists r; split; [exact I|apply inb_in; exact X]). congruence.
  - destruct (existsb _ _) eqn:Q; [|reflexivity]. exfalso. apply existsb_exists in Q. destruct Q as [r [I X]]. apply inb_in in X. apply B. exists r. auto.
Qed.
Lemma rule_changed_ext d m r r' : (forall x, In x (outs r) <-> In x (outs r')) -> (forall x, In x (stk r) <-> In x (stk r')) -> (forall x, In x (nin r) <-> In x (nin r')) ->
  rule_changed kind_of excl d m r -> rule_changed kind_of excl d m r'.
Proof.
  intros A B C [H|[H|[[g H]|[[x H]|[x H]]]]]; unfold rule_changed.
  - auto.
  - right. left. intros K. apply H. apply (same_outputs_ext d r'); [intros y; symmetry; apply A|exact K].
  - right. right. left. exists g. rewrite <- B. exact H.
  - right. right. right. left. exists x. rewrite <- B, <- C. exact H.
  - right. right. right. right. exists x. rewrite <- B. exact H.
Qed.
(** What happens to one of the rules, and when its command is run. *)
Lemma one_rule D0 l1 r l2 s : good D0 -> Forall decent (l1 ++ r :: l2) ->
  do_rules false (l1 ++ r :: l2) {| p_db := D0; used := []; todo := map cm_id (filter (fun m => cm_dir m =? dir) (cmds D0)); shows := 0 |} = Some s ->
  exists s1 c k, do_rules false l1 {| p_db := D0; used := []; todo := map cm_id (filter (fun m => cm_dir m =? dir) (cmds D0)); shows := 0 |} = Some s1 /\
    inv D0 l1 s1 /\ ~ In c (used s1) /\ becomes kind_of excl dir (p_db s1) r c /\ used s = rev k ++ c :: used s1 /\ length k = length l2 /\
    (In c (db_mod (p_db s)) <-> In c (db_mod D0) \/ ~ has D0 c \/ ~ named dir D0 r c \/ rule_changed kind_of excl (r_decl r) (r_new r) (rest l1 D0 c)).
Proof.
  intros G DL E. rewrite do_rules_app in E. set (s0 := {| p_db := D0; used := []; todo := _; shows := 0 |}) in *. apply Forall_app in DL. destruct DL as [DL1 DL2]. inversion DL2 as [|? ? DR DL3]; subst.
  destruct (do_rules false l1 s0) as [s1|] eqn:E1; [|discriminate]. cbn [obind RulesModel.do_rules] in E. destruct (do_rule false r s1) as [s2|] eqn:E2; [|discriminate]. cbn [obind] in E.
  destruct (inv_rules D0 l1 DL1 [] s0 s1 (inv_start D0 G) E1) as [V1 _]. cbn [app] in V1. destruct (inv_step _ _ _ _ _ V1 DR E2) as [V2 [c [Us [N [B ST]]]]].
  destruct (inv_rules D0 l2 DL3 _ s2 s V2 E) as [V3 [k [Uk Lk]]]. exists s1, c, k. split; [reflexivity|]. split; [exact V1|]. split; [exact N|]. split; [exact B|]. split; [rewrite Uk, Us; reflexivity|]. split; [exact Lk|].
  assert (kind_of c = KCmd) as Kc.
  { destruct (st_described _ _ _ _ ST) as [[m [I [Em _]]] _]. apply (g_cmds _ _ _ _ (st_good _ _ _ _ ST) c). exists m. auto. }
  rewrite (mod_kept D0 l2 DL3 _ s2 s c V2 E Kc) by (rewrite Us; left; reflexivity). rewrite (st_mod _ _ _ _ ST c Kc), (i_mod _ _ _ V1 c Kc N).
  rewrite (inv_has _ _ _ _ V1 N).
  assert (named dir (p_db s1) r c <-> named dir D0 r c) as ->.
  { unfold named. split; intros [m [I [Em H]]]; exists m; (split; [apply (i_rows _ _ _ V1 m); [congruence|exact I]|auto]). }
  assert (has D0 c -> (rule_changed kind_of excl (r_decl r) (r_new r) (view (p_db s1) c) <-> rule_changed kind_of excl (r_decl r) (r_new r) (rest l1 D0 c))) as RC.
  { intros Hc. destruct (i_same _ _ _ V1 c Hc N) as [A1 [A2 _]].
    split; apply rule_changed_ext; intros x; rewrite ?rest_outs; cbn [outs stk nin view rest]; rewrite ?A1, ?A2, ?(i_outs _ _ _ V1 c x Hc N); reflexivity. }
  assert (has D0 c \/ ~ has D0 c) as DH.
  { destruct (inb c (map cm_id (cmds D0))) eqn:Q; [apply inb_in in Q; left|apply inb_out in Q; right].
    - apply in_map_iff in Q. destruct Q as [m [Em I]]. exists m. auto.
    - intros [m [I Em]]. apply Q. rewrite <- Em. apply in_map. exact I. }
  tauto.
Qed.

(** Which lists of rules are accepted. *)
Lemma accepted_go D0 : good D0 -> forall l, Forall decent l -> forall rs s, inv D0 rs s ->
  ForallOrdPairs (fun r r' => r_text r <> r_text r' /\ forall x, In x (d_outs (r_decl r)) -> ~ In x (d_outs (r_decl r'))) l ->
  (forall r r', In r rs -> In r' l -> r_text r <> r_text r' /\ forall x, In x (d_outs (r_decl r)) -> ~ In x (d_outs (r_decl r'))) ->
  (forall r, In r l -> ~ circular (r_decl r)) -> (forall x, declares l x -> takeable kind_of excl dir waiting leftover D0 x) -> exists s', do_rules false l s = Some s'.
Proof.
  intros G l DL. induction DL as [|r l DR DL IH]; intros rs s V PD PP NC TK; cbn [RulesModel.do_rules]; [eauto|].
  assert (forall x b, In x (d_outs (r_decl r)) -> made_by (p_db s) x b -> ~ In b (used s)) as NU.
  { intros x b X [Hb Mb] Ub. destruct (used_named _ _ _ _ V Ub) as [r0 [I0 [_ [[A _] _]]]]. apply A in Mb. exact (proj2 (PP r0 r I0 (or_introl eq_refl)) x Mb X). }
  assert (forall x b, In x (d_outs (r_decl r)) -> made_by (p_db s) x b -> free (todo s) (used s) (p_db s) b) as FR.
  { intros x b X MB. pose proof (NU x b X MB) as N. apply (free_owned _ _ _ _ V N). destruct MB as [Hb [Mb1 Mb2]]. apply (inv_has _ _ _ _ V N) in Hb.
    apply (TK x); [exists r; cbn; auto|]. split; [exact Hb|]. split; [|exact Mb2]. cbn [outs view] in *. apply (i_outs _ _ _ V b x Hb N) in Mb1. tauto. }
  destruct (step_ok r s (i_good _ _ _ V) DR (NC r (or_introl eq_refl)) FR) as [c [B [[U E]|[U [s2 [E _]]]]]].
  - exfalso. destruct B as [[m [I [Em [Ed Et]]]]|[_ [[l1 [x [l2 [Em [MB _]]]]]|[_ ->]]]].
    + destruct (used_named _ _ _ _ V U) as [r0 [I0 [[n [J [En [_ [Fn _]]]]] _]]]. apply (proj1 (PP r0 r I0 (or_introl eq_refl))). rewrite <- Fn, <- Et. f_equal. apply (by_id _ (g_ids _ _ _ _ (i_good _ _ _ V)) n m J I). congruence.
    + apply (NU x c); [|exact MB|exact U]. apply (proj2 DR). rewrite Em. apply in_or_app. cbn. auto.
    + destruct (used_named _ _ _ _ V U) as [r0 [I0 [[n [J [En _]]] _]]]. assert (has (p_db s) (next (p_db s))) as H by (exists n; auto). pose proof (proj2 (g_cmds _ _ _ _ (i_good _ _ _ V) _ H)). lia.
  - rewrite E. cbn [obind]. destruct (inv_step _ _ _ _ _ V DR E) as [V2 _]. inversion PD as [|? ? P1 P2]; subst. apply (IH _ _ V2 P2).
    + intros r1 r2 I1 I2. apply in_app_or in I1. destruct I1 as [I1|[<-|[]]]; [exact (PP r1 r2 I1 (or_intror I2))|]. rewrite Forall_forall in P1. exact (P1 r2 I2).
    + intros r2 I2. exact (NC r2 (or_intror I2)).
    + intros x [r2 [I2 X]]. apply TK. exists r2. cbn. auto.
Qed.
Lemma accepted_inv D0 : good D0 -> forall l, Forall decent l -> forall rs s s', inv D0 rs s -> do_rules false l s = Some s' ->
  ForallOrdPairs (fun r r' => r_text r <> r_text r' /\ forall x, In x (d_outs (r_decl r)) -> ~ In x (d_outs (r_decl r'))) l /\
  (forall r r', In r rs -> In r' l -> r_text r <> r_text r' /\ forall x, In x (d_outs (r_decl r)) -> ~ In x (d_outs (r_decl r'))) /\
  (forall r, In r l -> ~ circular (r_decl r)) /\ (forall x, declares l x -> takeable kind_of excl dir waiting leftover D0 x).
Proof.
  intros G l DL. induction DL as [|r l DR DL IH]; intros rs s s' V E; cbn [RulesModel.do_rules] in E.
  - split; [constructor|]. split; [intros r r' _ []|]. split; [intros r []|]. intros x [r [[] _]].
  - destruct (do_rule false r s) as [s1|] eqn:E1; [|discriminate]. cbn [obind] in E. destruct (step_inv r s s1 (i_good _ _ _ V) DR E1) as [NC FR].
    destruct (inv_step _ _ _ _ _ V DR E1) as [V1 [c [Us [N [B ST]]]]]. destruct (IH _ _ _ V1 E) as [Q1 [Q2 [Q3 Q4]]].
    assert (forall x b, In x (d_outs (r_decl r)) -> In b (used s) -> ~ made_by (p_db s) x b) as NM by (intros x b X U M; exact (used_not_free _ _ _ _ V U (FR x b X M))).
    assert (forall r0, In r0 rs -> r_text r0 <> r_text r /\ forall x, In x (d_outs (r_decl r0)) -> ~ In x (d_outs (r_decl r))) as PP.
    { intros r0 I0. split.
      - intros ET. assert (In r0 (rs ++ [r])) as J0 by (apply in_or_app; auto). pose proof (i_rules _ _ _ V1) as R. rewrite Us in R. cbn [rev] in R.
        destruct (Forall2_left _ _ _ _ (i_rules _ _ _ V) I0) as [b [Ub _]]. apply in_rev in Ub.
        destruct (Forall2_app_inv_l rs [r] R) as [k1 [k2 [R1 [R2 EK]]]]. inversion R2 as [|? c2 ? k3 [[N2 _] _] R3]; subst. inversion R3; subst. apply app_inj_tail in EK. destruct EK as [<- <-].
        destruct (Forall2_left _ _ _ _ R1 I0) as [b2 [Ub2 [[N1 _] _]]]. apply in_rev in Ub2. destruct N1 as [m [M1 [M2 [M3 [M4 _]]]]]. destruct N2 as [n [O1 [O2 [O3 [O4 _]]]]].
        apply N. rewrite <- O2. replace n with m; [rewrite M2; exact Ub2|]. apply (g_texts _ _ _ _ (i_good _ _ _ V1)); congruence.
      - intros x X0 X. destruct (declared_used _ _ _ x V) as [b [Ub MB]]; [exists r0; auto|]. exact (NM x b X Ub MB). }
    split; [|split; [|split]].
    + constructor; [|exact Q1]. apply Forall_forall. intros r' I'. apply Q2; [apply in_or_app; cbn; auto|exact I'].
    + intros r0 r' I0 [<-|I']; [exact (PP r0 I0)|]. apply Q2; [apply in_or_app; auto|exact I'].
    + intros r' [<-|I']; [exact NC|exact (Q3 r' I')].
    + intros x [r' [[<-|I'] X]]; [|apply Q4; exists r'; auto]. intros b MB. destruct (inb b (used s)) eqn:Q.
      * apply inb_in in Q. exact (i_owned _ _ _ V b Q (proj1 MB)).
      * apply inb_out in Q. apply (free_owned _ _ _ _ V Q). apply (FR x b X). destruct MB as [Hb [M1 M2]]. split; [apply (inv_has _ _ _ _ V Q); exact Hb|]. split; [|exact M2]. cbn [outs view] in *. apply (i_outs _ _ _ V b x Hb Q). split; [exact M1|].
        intros D. destruct (declared_used _ _ _ x V D) as [b' [Ub' MB']]. exact (NM x b' X Ub' MB').
Qed.

(** ** Refactoring *)
Lemma like_refl l : Forall2 like l l.
Proof. induction l; constructor; [repeat split|assumption]. Qed.
Lemma like_trans l : forall k h, Forall2 like l k -> Forall2 like k h -> Forall2 like l h.
Proof.
  induction l as [|m l IH]; intros k h A B; inversion A as [|? n ? k' [A1 [A2 [A3 A4]]] A']; subst; inversion B as [|? o ? h' [B1 [B2 [B3 B4]]] B']; subst; constructor; [repeat split; congruence|eauto].
Qed.
Lemma quiet_refl D : quiet D D.
Proof. repeat split; apply like_refl. Qed.
Lemma quiet_trans A B C : quiet A B -> quiet B C -> quiet A C.
Proof.
  intros [Q1 [Q2 [Q3 [Q4 [Q5 [Q6 [Q7 Q8]]]]]]] [R1 [R2 [R3 [R4 [R5 [R6 [R7 R8]]]]]]]. split; [exact (like_trans _ _ _ Q1 R1)|]. split; [intros c; rewrite R2; apply Q2|]. repeat split; congruence.
Qed.
Lemma same_quiet D E : same_db D E -> quiet D E.
Proof. intros [Q1 Q]. split; [rewrite Q1; apply like_refl|exact Q]. Qed.
Lemma quiet_ids D E : quiet D E -> map cm_id (cmds E) = map cm_id (cmds D).
Proof. intros [Q _]. induction Q as [|m n l k [E1 _] _ IH]; cbn [map]; congruence. Qed.
Lemma quiet_left D E m : quiet D E -> In m (cmds D) -> exists n, In n (cmds E) /\ like m n.
Proof. intros [Q _]. exact (Forall2_left _ _ _ _ Q). Qed.
Lemma quiet_right D E n : quiet D E -> In n (cmds E) -> exists m, In m (cmds D) /\ like m n.
Proof. intros [Q _]. exact (Forall2_right _ _ _ _ Q). Qed.
Lemma quiet_has D E b : quiet D E -> (has E b <-> has D b).
Proof.
  intros Q. split; intros [m [I <-]].
  - destruct (quiet_right _ _ _ Q I) as [n [J [K _]]]. exists n. auto.
  - destruct (quiet_left _ _ _ Q I) as [n [J [K _]]]. exists n. auto.
Qed.
Lemma quiet_named D E r b : quiet D E -> (named dir E r b <-> named dir D r b).
Proof.
  intros Q. split; intros [m [I [E1 [E2 [E3 E4]]]]].
  - destruct (quiet_right _ _ _ Q I) as [n [J [K1 [K2 [K3 K4]]]]]. exists n. repeat split; congruence.
  - destruct (quiet_left _ _ _ Q I) as [n [J [K1 [K2 [K3 K4]]]]]. exists n. repeat split; congruence.
Qed.
Lemma quiet_view D E c : quiet D E -> view E c = view D c.
Proof. intros [_ [Q2 [Q3 [Q4 [Q5 [Q6 [Q7 Q8]]]]]]]. unfold view. rewrite Q2, Q3, Q4, Q5, Q6, Q7. reflexivity. Qed.
Lemma quiet_good D E : good D -> quiet D E -> good E.
Proof.
  intros G Q. assert (NoDup (map cm_id (cmds E))) as ND by (rewrite (quiet_ids D E Q); exact (g_ids _ _ _ _ G)). constructor.
  - exact ND.
  - intros m n I J Ed Et. destruct (quiet_right _ _ _ Q I) as [m' [I' [K1 [K2 [K3 _]]]]]. destruct (quiet_right _ _ _ Q J) as [n' [J' [L1 [L2 [L3 _]]]]].
    apply (by_id _ ND m n I J). assert (m' = n') by (apply (g_texts _ _ _ _ G); congruence). congruence.
  - intros c H. rewrite (quiet_view _ _ c Q). apply (g_rows _ _ _ _ G), (quiet_has _ _ _ Q), H.
  - intros b c x Hb Hc. rewrite (quiet_view _ _ b Q), (quiet_view _ _ c Q). apply (g_maker _ _ _ _ G); apply (quiet_has _ _ _ Q); assumption.
  - destruct Q as [_ [_ [-> _]]]. exact (g_member _ _ _ _ G).
  - destruct Q as [_ [_ [-> _]]]. exact (g_groups _ _ _ _ G).
  - intros c H. pose proof (g_cmds _ _ _ _ G c (proj1 (quiet_has _ _ _ Q) H)) as K. destruct Q as [_ [_ [_ [_ [_ [_ [_ ->]]]]]]]. exact K.
  - destruct Q as [_ [Q2 [_ [_ [_ [_ [_ ->]]]]]]]. intros i H. rewrite Q2. exact (g_next _ _ _ _ G i H).
Qed.
Lemma store_same c D : same_db D (store c (view D c) D).
Proof.
  split; [reflexivity|]. split; [|repeat split]. intros b. cbn [store links_of]. destruct (b =? c) eqn:E; [|reflexivity]. apply Nat.eqb_eq in E. subst b. unfold links_in, view. cbn. destruct (links_of D c). reflexivity.
Qed.
Lemma renamed_quiet r c D : good D -> named dir D r c -> quiet D (renamed r c D).
Proof.
  intros G [m [I [E [Ed [Et Ef]]]]]. split; [|repeat split]. unfold renamed. cbn [set_cmds cmds]. pose proof (g_ids _ _ _ _ G) as ND.
  assert (forall l, (forall n, In n l -> In n (cmds D)) -> Forall2 like l (change c (fun _ => row r c) l)) as Q; [|apply Q; auto].
  induction l as [|n l IH]; intros S; [constructor|]. cbn [change map]. constructor; [|apply IH; intros k K; apply S; right; exact K].
  destruct (cm_id n =? c) eqn:Q; [|repeat split]. apply Nat.eqb_eq in Q. rewrite (by_id _ ND n m (S n (or_introl eq_refl)) I) by congruence. repeat split; cbn; congruence.
Qed.
Lemma choose_refac r D c modified sh D1 : good D -> choose dir true r D = Some (c, modified, sh, D1) -> named dir D r c /\ modified = r_new r /\ D1 = renamed r c D /\ (sh = false -> D1 = D) /\ (sh = false <-> shown D r c).
Proof.
  intros G E. unfold choose in E. pose proof (g_ids _ _ _ _ G) as ND. destruct (find _ (cmds D)) as [m|] eqn:F.
  - apply text_found in F. destruct F as [I [Ed Et]]. cbn [obind] in E. rewrite (get_in (cm_id m) (cmds D) m ND I eq_refl) in E. cbn [obind] in E.
    destruct (adjust_ok D r (cm_id m) m ND I eq_refl Ed Et) as [A1 _]. cbv zeta in A1.
    destruct (bytes_eqb (cm_flags m) (r_flags r)) eqn:Q; [|discriminate]. apply bytes_eqb_eq in Q. specialize (A1 Q). injection E as <- <- <- <-.
    split; [exists m; auto|]. split; [reflexivity|]. split; [exact A1|]. split.
    + destruct (bytes_eqb (cm_display m) (r_display r)); [reflexivity|discriminate].
    + rewrite negb_false_iff, bytes_eqb_eq. split.
      * intros H n J En. rewrite (by_id _ ND n m J I En). exact H.
      * intros H. exact (H m I eq_refl).
  - destruct (existing D (r_main r)) as [[e|]|]; discriminate.
Qed.
Lemma choose_named r D c : good D -> named dir D r c -> exists sh D1, choose dir true r D = Some (c, r_new r, sh, D1).
Proof.
  intros G [m [I [E [Ed [Et Ef]]]]]. unfold choose. pose proof (g_ids _ _ _ _ G) as ND. destruct (find _ (cmds D)) as [n|] eqn:F.
  - apply text_found in F. destruct F as [J [Fd Ft]]. assert (n = m) as -> by (apply (g_texts _ _ _ _ G); congruence). cbn [obind]. rewrite (get_in (cm_id m) (cmds D) m ND I eq_refl). cbn [obind].
    rewrite Ef, bytes_eqb_refl. rewrite E. eauto.
  - exfalso. apply (text_missing D r F c). exists m. auto.
Qed.
Lemma refac_inv r s s' : good (p_db s) -> decent r -> do_rule true r s = Some s' ->
  exists c, ~ In c (used s) /\ used s' = c :: used s /\ todo s' = del c (todo s) /\ described (p_db s) r c /\ r_new r = false /\ ~ circular (r_decl r) /\ quiet (p_db s) (p_db s') /\
    shows s <= shows s' /\ (shows s' = shows s -> shown (p_db s) r c /\ same_db (p_db s) (p_db s')).
Proof.
  intros G DR E. unfold RulesModel.do_rule in E. destruct (all_available _ _ _ _ _ _ _) as [v|]; [|discriminate]. cbn [obind] in E. destruct v; cbn [negb] in E; [|discriminate].
  destruct (choose dir true r (p_db s)) as [[[[c modified] sh] D1]|] eqn:EC; [|discriminate]. cbn [obind] in E. destruct (choose_refac _ _ _ _ _ _ G EC) as [N [-> [E1 [SH SW]]]].
  destruct (inb c (used s)) eqn:U; [discriminate|]. apply inb_out in U.
  assert (quiet (p_db s) D1) as Q1 by (rewrite E1; apply renamed_quiet; assumption). pose proof (quiet_good _ _ G Q1) as G1.
  assert (has D1 c) as Hc by (apply (quiet_has _ _ _ Q1); destruct N as [m [I [Em _]]]; exists m; auto).
  pose proof (proj1 DR c (proj1 (g_cmds _ _ _ _ G1 c Hc))) as P.
  destruct (unique_links_ok c (d_outs (r_decl r))) with (D := D1) as [D2 [E2 [T [G2 S2]]]]; [|exact G1|exact Hc|].
  { intros x I. exact (p_outs _ _ _ _ _ P x I). }
  rewrite E2 in E. cbn [obind] in E. destruct (record_rule _ _ _ _ _ _ _ _) as [[w ck]|] eqn:ER; [|discriminate]. cbn [obind fst] in E. injection E as <-. cbn [used todo shows p_db].
  assert (has D2 c) as Hc2 by (apply (taken_has _ _ _ _ _ T); exact Hc).
  destruct (record_refac kind_of excl is_env c _ _ _ _ _ _ (g_rows _ _ _ _ G2 c Hc2) P ER) as [RN [NC [SO SI]]].
  assert (D2 = D1) as ->.
  { apply S2. intros x I. rewrite <- (t_a _ _ _ _ T). apply SO in I. exact (proj1 I). }
  rewrite RN in ER. rewrite (record_same kind_of excl is_env c (r_decl r) true _ (view D1 c) (g_rows _ _ _ _ G2 c Hc2) P NC SO SI) in ER. injection ER as <- <-.
  rewrite (quiet_view _ _ c Q1) in SO, SI. exists c. split; [exact U|]. split; [reflexivity|]. split; [reflexivity|]. split; [split; [exact N|split; assumption]|]. split; [exact RN|]. split; [exact NC|].
  split; [exact (quiet_trans _ _ _ Q1 (same_quiet _ _ (store_same c D1)))|]. split; [lia|].
  intros Z. assert (sh = false) as -> by (destruct sh; [lia|reflexivity]). split; [apply SW; reflexivity|]. rewrite (SH eq_refl). apply store_same.
Qed.
Lemma refac_step r s c : good (p_db s) -> decent r -> ~ In c (used s) -> In c (todo s) -> described (p_db s) r c -> r_new r = false -> ~ circular (r_decl r) -> exists s', do_rule true r s = Some s' /\ used s' = c :: used s /\ (shown (p_db s) r c -> shows s' = shows s).
Proof.
  intros G DR U TD [N [SO SI]] RN NC. unfold RulesModel.do_rule. assert (has (p_db s) c) as Hc0 by (destruct N as [m [I [Em _]]]; exists m; auto).
  pose proof (proj1 DR c (proj1 (g_cmds _ _ _ _ G c Hc0))) as P.
  destruct (all_available_spec (todo s) (used s) (p_db s) (d_outs (r_decl r)) G) as [v [-> V]].
  { intros x H. exact (p_outs _ _ _ _ _ P x H). }
  rewrite (proj2 V); cycle 1.
  { intros x b X [Hb Mb]. assert (b = c) as ->; [|left; exact TD]. apply (g_maker _ _ _ _ G b c x Hb Hc0 Mb). apply SO. exact X. }
  cbn [obind negb]. destruct (choose_named r (p_db s) c G N) as [sh [D1 EC]]. rewrite EC. cbn [obind]. destruct (choose_refac _ _ _ _ _ _ G EC) as [_ [_ [E1 [_ SW]]]].
  apply inb_out in U. rewrite U. assert (quiet (p_db s) D1) as Q1 by (rewrite E1; apply renamed_quiet; assumption). pose proof (quiet_good _ _ G Q1) as G1.
  assert (has D1 c) as Hc by (apply (quiet_has _ _ _ Q1); exact Hc0).
  destruct (unique_links_ok c (d_outs (r_decl r))) with (D := D1) as [D2 [E2 [T [G2 S2]]]]; [|exact G1|exact Hc|].
  { intros x I. exact (p_outs _ _ _ _ _ P x I). }
  assert (D2 = D1) as ->.
  { apply S2. intros x I. apply SO in I. pose proof (quiet_view _ _ c Q1) as QV. change (In x (outs (view D1 c))). rewrite QV. exact (proj1 I). }
  rewrite E2. cbn [obind]. rewrite RN. rewrite (record_same kind_of excl is_env c (r_decl r) true _ (view D1 c) (g_rows _ _ _ _ G2 c Hc) P NC); [|rewrite (quiet_view _ _ c Q1); assumption..].
  cbn [obind]. eexists. split; [reflexivity|]. cbn [used shows]. split; [reflexivity|]. intros S. apply SW in S. rewrite S. reflexivity.
Qed.
Definition kept_rule (D0 : db) (r : rule) (c : id) : Prop := described D0 r c /\ r_new r = false /\ ~ circular (r_decl r).
Record rinv (D0 : db) (rs : list rule) (s : pstate) : Prop := {
  q_quiet : quiet D0 (p_db s);
  q_nodup : NoDup (used s);
  q_todo : forall c, In c (todo s) <-> in_dir D0 c /\ ~ In c (used s);
  q_rules : Forall2 (kept_rule D0) rs (rev (used s));
  q_same : shows s = 0 -> same_db D0 (p_db s) /\ Forall2 (shown D0) rs (rev (used s)) }.
Lemma same_db_trans A B C : same_db A B -> same_db B C -> same_db A C.
Proof.
  intros [Q1 [Q2 Q]] [R1 [R2 R]]. split; [congruence|]. split; [intros c; rewrite R2; apply Q2|]. intuition congruence.
Qed.
Lemma rinv_start D : rinv D [] {| p_db := D; used := []; todo := map cm_id (filter (fun m => cm_dir m =? dir) (cmds D)); shows := 0 |}.
Proof.
  constructor; cbn [p_db used todo shows].
  - apply quiet_refl.
  - constructor.
  - intros c. rewrite in_map_iff. unfold RulesSpec.in_dir. split.
    + intros [m [E I]]. apply filter_In in I. destruct I as [I Q]. apply Nat.eqb_eq in Q. split; [exists m; auto|intros []].
    + intros [[m [I [E Q]]] _]. exists m. split; [exact E|]. apply filter_In. split; [exact I|]. apply Nat.eqb_eq. exact Q.
  - constructor.
  - intros _. split; [repeat split|constructor].
Qed.
Lemma quiet_described D E r c : quiet D E -> (described E r c <-> described D r c).
Proof. intros Q. unfold RulesSpec.described. rewrite (quiet_named _ _ _ _ Q), (quiet_view _ _ c Q). reflexivity. Qed.
Lemma rinv_step D0 rs s r s' : good D0 -> rinv D0 rs s -> decent r -> do_rule true r s = Some s' -> rinv D0 (rs ++ [r]) s'.
Proof.
  intros G V DR E. pose proof (q_quiet _ _ _ V) as Q. destruct (refac_inv r s s' (quiet_good _ _ G Q) DR E) as [c [U [Us [Ts [DE [RN [NC [Q2 [SL SZ]]]]]]]]].
  constructor; rewrite ?Us, ?Ts.
  - exact (quiet_trans _ _ _ Q Q2).
  - constructor; [exact U|exact (q_nodup _ _ _ V)].
  - intros b. rewrite del_in, (q_todo _ _ _ V). cbn [In]. intuition congruence.
  - cbn [rev]. apply Forall2_app; [exact (q_rules _ _ _ V)|]. constructor; [|constructor]. split; [apply (quiet_described _ _ _ _ Q); exact DE|auto].
  - intros Z. assert (shows s = 0) as Z0 by lia. destruct (q_same _ _ _ V Z0) as [S1 S2]. destruct SZ as [S3 S4]; [lia|]. split; [exact (same_db_trans _ _ _ S1 S4)|].
    cbn [rev]. apply Forall2_app; [exact S2|]. constructor; [|constructor]. intros m I Em. apply S3; [|exact Em]. rewrite (proj1 S1). exact I.
Qed.
Lemma rinv_rules D0 l : good D0 -> Forall decent l -> forall rs s s', rinv D0 rs s -> do_rules true l s = Some s' -> rinv D0 (rs ++ l) s'.
Proof.
  intros G. induction 1 as [|r l DR DL IH]; intros rs s s' V E; cbn [RulesModel.do_rules] in E.
  - injection E as <-. rewrite app_nil_r. exact V.
  - destruct (do_rule true r s) as [s1|] eqn:E1; [|discriminate]. cbn [obind] in E. pose proof (IH _ _ _ (rinv_step _ _ _ _ _ G V DR E1) E) as V2. rewrite <- app_assoc in V2. exact V2.
Qed.
Lemma refac_go D0 : good D0 -> forall l cs, Forall2 (kept_rule D0) l cs -> Forall decent l -> forall rs s, rinv D0 rs s -> NoDup cs ->
  (forall c, In c cs -> in_dir D0 c /\ ~ In c (used s)) -> exists s', do_rules true l s = Some s' /\ used s' = rev cs ++ used s /\ (shows s = 0 -> Forall2 (shown D0) l cs -> shows s' = 0).
Proof.
  intros G l cs F. induction F as [|r c l cs [DE [RN NC]] F IH]; intros DL rs s V ND IN; cbn [RulesModel.do_rules].
  - exists s. split; [reflexivity|]. split; [reflexivity|]. auto.
  - inversion DL as [|? ? DR DL']; subst. inversion ND as [|? ? NI ND']; subst. destruct (IN c (or_introl eq_refl)) as [Id Iu]. pose proof (q_quiet _ _ _ V) as Q.
    destruct (refac_step r s c (quiet_good _ _ G Q) DR Iu) as [s1 [E1 [Us SH]]]; [apply (q_todo _ _ _ V); auto|apply (quiet_described _ _ _ _ Q); exact DE|exact RN|exact NC|].
    rewrite E1. cbn [obind]. destruct (IH DL' _ _ (rinv_step _ _ _ _ _ G V DR E1) ND') as [s2 [E2 [Us2 SH2]]].
    + intros b Ib. destruct (IN b (or_intror Ib)) as [A B]. split; [exact A|]. rewrite Us. intros [<-|C]; [exact (NI Ib)|exact (B C)].
    + exists s2. split; [exact E2|]. split; [rewrite Us2, Us; cbn [rev]; rewrite <- app_assoc; reflexivity|]. intros Z FS. inversion FS as [|? ? ? ? FS1 FS2]; subst. apply SH2; [|exact FS2].
      rewrite SH; [exact Z|]. intros m I Em. apply FS1; [|exact Em]. destruct (q_same _ _ _ V Z) as [S1 _]. rewrite <- (proj1 S1). exact I.
Qed.
End db.
