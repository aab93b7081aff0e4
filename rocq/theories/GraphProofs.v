From Verif Require Import Base ExecModel ExecSpec GraphModel GraphSpec ExecProofs.
From Coq Require Import Permutation.

Lemma inb_false n l : inb n l = false <-> ~ In n l.
Proof. rewrite <- inb_In. destruct (inb n l); split; congruence. Qed.
Lemma rm_notin n l : ~ In n l -> rm n l = l.
Proof.
  induction l as [|x l IH]; intros H; [reflexivity|]. cbn [rm].
  destruct (Nat.eqb_spec x n) as [->|_]; [exfalso; apply H; left; reflexivity|].
  f_equal. apply IH. intros C. apply H. right. exact C.
Qed.
Lemma rm_app n a b : rm n (a ++ b) = rm n a ++ rm n b.
Proof. induction a as [|x a IH]; [reflexivity|]. cbn [rm app]. destruct (x =? n); [exact IH|]. cbn [app]. f_equal. exact IH. Qed.
Lemma rm_fresh_tail n l : ~ In n l -> rm n (l ++ [n]) = l.
Proof. intros H. rewrite rm_app, (rm_notin n l H). cbn [rm]. rewrite Nat.eqb_refl, app_nil_r. reflexivity. Qed.

Lemma NoDup_app_intro {A} (a b : list A) : NoDup a -> NoDup b -> (forall x, In x a -> ~ In x b) -> NoDup (a ++ b).
Proof.
  induction 1 as [|x a Hx Ha IH]; intros Hb D; [exact Hb|]. cbn [app]. constructor.
  - rewrite in_app_iff. intros [C|C]; [exact (Hx C)|exact (D x (or_introl eq_refl) C)].
  - apply IH; [exact Hb|]. intros y Hy. apply D. right. exact Hy.
Qed.

Section Build.
Variable kind_of : id -> kind.
Variable links glinks inputs : id -> list id.
Variable transient_ exclusion : id -> bool.
Variable root : id.
Variable count_flags : option kind.
Notation counts := (counts count_flags).
Notation cb := (build_graph_cb kind_of transient_ root count_flags).
Notation gcb := (build_graph_group_cb kind_of transient_).

Definition known (b : bgraph) : list id := plist (gr_ b) ++ node_list (gr_ b).

Definition link (b : bgraph) (cur n : id) : bgraph :=
  {| gr_ := create_edge (gr_ b) cur n true;
     skip := if cur =? root then upd (skip b) n false else skip b;
     counted := counted b; num_nodes := num_nodes b |}.
Definition glink (b : bgraph) (cur n : id) : bgraph := with_gr b (create_edge (gr_ b) cur n true).
Definition push_g (b : bgraph) (n : id) : graph :=
  let g := gr_ b in
  {| plist := n :: plist g; node_list := node_list g; edges := edges g;
     state := upd (state g) n Initialized;
     trans := upd (trans g) n (if is_generated (kind_of n) && transient_ n then TProcessing else TNone);
     expanded := upd (upd (expanded g) n false) n true |}.
Definition push (b : bgraph) (n : id) : bgraph :=
  let c := counts (kind_of n) in
  {| gr_ := push_g b n; skip := upd (skip b) n true;
     counted := if c then upd (upd (counted b) n false) n true else upd (counted b) n false;
     num_nodes := if c then S (num_nodes b) else num_nodes b |}.
Definition gpush (b : bgraph) (n : id) : bgraph :=
  {| gr_ := push_g b n; skip := upd (skip b) n true; counted := upd (counted b) n false;
     num_nodes := num_nodes b |}.

(** All nodes were expanded but those of [X]. *)
Definition WX (X : id -> Prop) (b : bgraph) : Prop :=
  NoDup (known b) /\ In root (known b) /\
  (forall n, In n (known b) -> ~ X n -> expanded (gr_ b) n = true).
Definition W (b : bgraph) : Prop := WX (fun n => n = root) b.

Lemma found_known b n : found b n = true <-> In n (known b).
Proof. unfold found, known. rewrite orb_true_iff, !inb_In, in_app_iff. tauto. Qed.

Lemma expand_new b n : ~ In n (known b) -> expand_node (gr_ (create_node kind_of transient_ b n)) n = Some (push_g b n).
Proof.
  intros H. unfold known in H. rewrite in_app_iff in H.
  unfold expand_node, create_node, set_expanded, off_nodes. cbn [gr_ node_list plist edges state trans expanded].
  assert (inb n (node_list (gr_ b) ++ [n]) = true) as E by (apply inb_In, in_or_app; right; left; reflexivity).
  rewrite E. cbn [obind]. unfold to_plist_head. cbn [plist node_list edges state trans expanded].
  rewrite rm_fresh_tail by tauto.
  replace (inb n (plist (gr_ b))) with false by (symmetry; apply inb_false; tauto).
  replace (inb n (node_list (gr_ b))) with false by (symmetry; apply inb_false; tauto).
  reflexivity.
Qed.

Lemma cb_eq X b cur n : WX X b -> ~ X n -> cb b cur n =
  if found b n then (if is_processing (state (gr_ b) n) then Circular else Done (link b cur n))
  else Done (link (push b n) cur n).
Proof.
  intros [ND [Hr Hx]] Hn. unfold build_graph_cb, make_edge. destruct (found b n) eqn:F.
  - destruct (is_processing (state (gr_ b) n)); [reflexivity|].
    rewrite (Hx n (proj1 (found_known b n) F) Hn). reflexivity.
  - assert (~ In n (known b)) as K by (rewrite <- found_known; congruence).
    rewrite (expand_new b n K). cbn [create_node gr_ state expanded]. unfold upd at 1 2. rewrite Nat.eqb_refl.
    cbn [is_processing of_option then_]. reflexivity.
Qed.

Lemma gcb_eq b cur n : W b -> n <> root -> gcb b cur n =
  Done (glink (if found b n then b else gpush b n) cur n).
Proof.
  intros [ND [Hr Hx]] Hn. unfold build_graph_group_cb. destruct (found b n) eqn:F.
  - rewrite (Hx n (proj1 (found_known b n) F) Hn). reflexivity.
  - assert (~ In n (known b)) as K by (rewrite <- found_known; congruence).
    rewrite (expand_new b n K). cbn [create_node gr_ expanded]. unfold upd at 1. rewrite Nat.eqb_refl.
    cbn [of_option then_]. reflexivity.
Qed.

(** What linking [cur] to the nodes [l] has done. *)
Record linked (b : bgraph) (cur : id) (l : list id) (b' : bgraph) (new : list id) : Prop := {
  l_plist : plist (gr_ b') = new ++ plist (gr_ b);
  l_nodes : node_list (gr_ b') = node_list (gr_ b);
  l_new_in : forall n, In n new -> In n l /\ ~ In n (known b);
  l_nodup : NoDup new;
  l_all : forall n, In n l -> In n (known b');
  l_edges : edges (gr_ b') = rev (map (fun n => {| src := cur; dst := n; normal := true |}) l) ++ edges (gr_ b);
  l_state_new : forall n, In n new -> state (gr_ b') n = Initialized;
  l_state_old : forall n, ~ In n new -> state (gr_ b') n = state (gr_ b) n;
  l_exp_new : forall n, In n new -> expanded (gr_ b') n = true;
  l_exp_old : forall n, ~ In n new -> expanded (gr_ b') n = expanded (gr_ b) n;
  l_tr_new : forall n, In n new -> trans (gr_ b') n = if is_generated (kind_of n) && transient_ n then TProcessing else TNone;
  l_tr_old : forall n, ~ In n new -> trans (gr_ b') n = trans (gr_ b) n;
  l_cnt_new : forall n, In n new -> counted b' n = counts (kind_of n);
  l_cnt_old : forall n, ~ In n new -> counted b' n = counted b n;
  l_skip_root : cur = root -> forall n, In n l -> skip b' n = false;
  l_skip_new : cur <> root -> forall n, In n new -> skip b' n = true;
  l_skip_old : forall n, ~ In n new -> (cur <> root \/ ~ In n l) -> skip b' n = skip b n;
}.

Lemma linked_refl b cur : linked b cur [] b [].
Proof. split; cbn; auto; try contradiction. constructor. Qed.

Lemma linked_known b cur l b' new : linked b cur l b' new ->
  forall n, In n (known b') <-> In n new \/ In n (known b).
Proof. intros L n. unfold known. rewrite (l_plist _ _ _ _ _ L), (l_nodes _ _ _ _ _ L), !in_app_iff. tauto. Qed.

Lemma linked_WX X b cur l b' new : linked b cur l b' new -> WX X b -> WX X b'.
Proof.
  intros L [ND [Hr Hx]]. split; [|split].
  - unfold known. rewrite (l_plist _ _ _ _ _ L), (l_nodes _ _ _ _ _ L), <- app_assoc.
    apply NoDup_app_intro; [exact (l_nodup _ _ _ _ _ L)|exact ND|].
    intros x Hx1 Hx2. exact (proj2 (l_new_in _ _ _ _ _ L x Hx1) Hx2).
  - apply (linked_known _ _ _ _ _ L). right. exact Hr.
  - intros n Hn Nr. apply (linked_known _ _ _ _ _ L) in Hn.
    destruct (in_dec Nat.eq_dec n new) as [I|I]; [exact (l_exp_new _ _ _ _ _ L n I)|].
    rewrite (l_exp_old _ _ _ _ _ L n I). apply Hx; tauto.
Qed.
Lemma linked_W b cur l b' new : linked b cur l b' new -> W b -> W b'.
Proof. apply linked_WX. Qed.

Lemma linked_trans b cur l1 b1 n1 l2 b2 n2 :
  linked b cur l1 b1 n1 -> linked b1 cur l2 b2 n2 -> linked b cur (l1 ++ l2) b2 (n2 ++ n1).
Proof.
  intros A C. assert (forall n, In n n2 -> ~ In n n1) as D.
  { intros n H2 H1. apply (proj2 (l_new_in _ _ _ _ _ C n H2)). apply (linked_known _ _ _ _ _ A). left. exact H1. }
  split.
  - rewrite (l_plist _ _ _ _ _ C), (l_plist _ _ _ _ _ A), app_assoc. reflexivity.
  - rewrite (l_nodes _ _ _ _ _ C), (l_nodes _ _ _ _ _ A). reflexivity.
  - intros n H. apply in_app_or in H. destruct H as [H|H].
    + destruct (l_new_in _ _ _ _ _ C n H) as [H1 H2]. split; [apply in_or_app; auto|].
      intros K. apply H2. apply (linked_known _ _ _ _ _ A). auto.
    + destruct (l_new_in _ _ _ _ _ A n H) as [H1 H2]. split; [apply in_or_app; auto|exact H2].
  - apply NoDup_app_intro; [exact (l_nodup _ _ _ _ _ C)|exact (l_nodup _ _ _ _ _ A)|exact D].
  - intros n H. apply in_app_or in H. apply (linked_known _ _ _ _ _ C). destruct H as [H|H].
    + right. exact (l_all _ _ _ _ _ A n H).
    + apply (linked_known _ _ _ _ _ C). exact (l_all _ _ _ _ _ C n H).
  - rewrite (l_edges _ _ _ _ _ C), (l_edges _ _ _ _ _ A), map_app, rev_app_distr, app_assoc. reflexivity.
  - intros n H. apply in_app_or in H. destruct (in_dec Nat.eq_dec n n2) as [I|I].
    + exact (l_state_new _ _ _ _ _ C n I).
    + destruct H as [H|H]; [contradiction|]. rewrite (l_state_old _ _ _ _ _ C n I). exact (l_state_new _ _ _ _ _ A n H).
  - intros n H. rewrite in_app_iff in H. rewrite (l_state_old _ _ _ _ _ C n), (l_state_old _ _ _ _ _ A n); tauto.
  - intros n H. apply in_app_or in H. destruct (in_dec Nat.eq_dec n n2) as [I|I].
    + exact (l_exp_new _ _ _ _ _ C n I).
    + destruct H as [H|H]; [contradiction|]. rewrite (l_exp_old _ _ _ _ _ C n I). exact (l_exp_new _ _ _ _ _ A n H).
  - intros n H. rewrite in_app_iff in H. rewrite (l_exp_old _ _ _ _ _ C n), (l_exp_old _ _ _ _ _ A n); tauto.
  - intros n H. apply in_app_or in H. destruct (in_dec Nat.eq_dec n n2) as [I|I].
    + exact (l_tr_new _ _ _ _ _ C n I).
    + destruct H as [H|H]; [contradiction|]. rewrite (l_tr_old _ _ _ _ _ C n I). exact (l_tr_new _ _ _ _ _ A n H).
  - intros n H. rewrite in_app_iff in H. rewrite (l_tr_old _ _ _ _ _ C n), (l_tr_old _ _ _ _ _ A n); tauto.
  - intros n H. apply in_app_or in H. destruct (in_dec Nat.eq_dec n n2) as [I|I].
    + exact (l_cnt_new _ _ _ _ _ C n I).
    + destruct H as [H|H]; [contradiction|]. rewrite (l_cnt_old _ _ _ _ _ C n I). exact (l_cnt_new _ _ _ _ _ A n H).
  - intros n H. rewrite in_app_iff in H. rewrite (l_cnt_old _ _ _ _ _ C n), (l_cnt_old _ _ _ _ _ A n); tauto.
  - intros E n H. destruct (in_dec Nat.eq_dec n l2) as [I|I]; [exact (l_skip_root _ _ _ _ _ C E n I)|].
    apply in_app_or in H. destruct H as [H|H]; [|contradiction].
    assert (~ In n n2) as I2 by (intros I2; apply I; exact (proj1 (l_new_in _ _ _ _ _ C n I2))).
    rewrite (l_skip_old _ _ _ _ _ C n I2) by auto. exact (l_skip_root _ _ _ _ _ A E n H).
  - intros E n H. apply in_app_or in H. destruct (in_dec Nat.eq_dec n n2) as [I|I].
    + exact (l_skip_new _ _ _ _ _ C E n I).
    + destruct H as [H|H]; [contradiction|]. rewrite (l_skip_old _ _ _ _ _ C n I) by auto. exact (l_skip_new _ _ _ _ _ A E n H).
  - intros n H H2. rewrite in_app_iff in H, H2. rewrite (l_skip_old _ _ _ _ _ C n), (l_skip_old _ _ _ _ _ A n); tauto.
Qed.

Lemma one_old b cur n (F : bgraph -> bgraph) :
  (forall b, gr_ (F b) = create_edge (gr_ b) cur n true) -> counted (F b) = counted b ->
  skip (F b) = (if cur =? root then upd (skip b) n false else skip b) ->
  In n (known b) -> linked b cur [n] (F b) [].
Proof.
  intros E Cn Sk K. split; rewrite ?E, ?Cn, ?Sk; cbn; auto; try contradiction.
  - constructor.
  - intros m [<-|[]]. unfold known. rewrite E. exact K.
  - intros -> m [<-|[]]. rewrite Nat.eqb_refl. unfold upd. rewrite Nat.eqb_refl. reflexivity.
  - intros m _ H. destruct (Nat.eqb_spec cur root) as [C|_]; [|reflexivity]. unfold upd.
    destruct (Nat.eqb_spec m n) as [->|_]; [|reflexivity]. destruct H as [H|H]; [contradiction|]. tauto.
Qed.
Lemma one_new b cur n (F : bgraph -> bgraph) (b1 : bgraph) :
  (forall b, gr_ (F b) = create_edge (gr_ b) cur n true) -> gr_ b1 = push_g b n ->
  (forall m, counted (F b1) m = if m =? n then counts (kind_of n) else counted b m) ->
  skip (F b1) = (if cur =? root then upd (upd (skip b) n true) n false else upd (skip b) n true) ->
  ~ In n (known b) -> linked b cur [n] (F b1) [n].
Proof.
  intros E P Cn Sk K. assert (forall (A : Type) (f : id -> A) v, upd f n v n = v) as U.
  { intros A f v. unfold upd. rewrite Nat.eqb_refl. reflexivity. }
  assert (forall (A : Type) (f : id -> A) v m, ~ In m [n] -> upd f n v m = f m) as V.
  { intros A f v m H. unfold upd. destruct (Nat.eqb_spec m n) as [->|_]; [|reflexivity]. exfalso. apply H. left. reflexivity. }
  split; rewrite ?E, ?P; cbn [create_edge set_edges push_g plist node_list edges state trans expanded app rev map]; auto.
  - intros m [<-|[]]. split; [left; reflexivity|exact K].
  - repeat constructor. intros [].
  - intros m [<-|[]]. unfold known. rewrite E, P. left. reflexivity.
  - intros m [<-|[]]. apply U.
  - intros m [<-|[]]. apply U.
  - intros m H. rewrite !V by exact H. reflexivity.
  - intros m [<-|[]]. apply U.
  - intros m [<-|[]]. rewrite Cn, Nat.eqb_refl. reflexivity.
  - intros m H. rewrite Cn. destruct (Nat.eqb_spec m n) as [->|_]; [|reflexivity]. exfalso. apply H. left. reflexivity.
  - intros -> m [<-|[]]. rewrite Sk, Nat.eqb_refl. apply U.
  - intros Nr m [<-|[]]. rewrite Sk. destruct (Nat.eqb_spec cur root) as [C|_]; [contradiction|]. apply U.
  - intros m H _. rewrite Sk. destruct (cur =? root); rewrite !V by exact H; reflexivity.
Qed.

Lemma push_counted b cur n m :
  counted (link (push b n) cur n) m = if m =? n then counts (kind_of n) else counted b m.
Proof.
  cbn. unfold upd. destruct (counts (kind_of n)); destruct (m =? n); reflexivity.
Qed.

Lemma each_cbX X l : forall b cur, WX X b -> (forall n, In n l -> ~ X n) ->
  (exists b' new, each (fun b n => cb b cur n) b l = Done b' /\ linked b cur l b' new /\
     (forall n, In n l -> In n (known b) -> state (gr_ b) n <> Processing)) \/
  (each (fun b n => cb b cur n) b l = Circular /\ exists n, In n l /\ In n (known b) /\ state (gr_ b) n = Processing).
Proof.
  induction l as [|n l IH]; intros b cur Wb Nr.
  - left. exists b, []. split; [reflexivity|]. split; [apply linked_refl|]. intros n [].
  - assert (~ X n) as Hn by (apply Nr; left; reflexivity).
    assert (forall m, In m l -> ~ X m) as Nl by (intros m Hm; apply Nr; right; exact Hm).
    cbn [each]. rewrite (cb_eq X b cur n Wb Hn).
    assert (exists b1 new1, linked b cur [n] b1 new1 /\
       ((if found b n then (if is_processing (state (gr_ b) n) then Circular else Done (link b cur n))
         else Done (link (push b n) cur n)) = Done b1 /\ (In n (known b) -> state (gr_ b) n <> Processing) \/
        (if found b n then (if is_processing (state (gr_ b) n) then Circular else Done (link b cur n))
         else Done (link (push b n) cur n)) = Circular /\ In n (known b) /\ state (gr_ b) n = Processing))
      as [b1 [new1 [L [[E S]|[E [K S]]]]]].
    { destruct (found b n) eqn:F.
      - assert (In n (known b)) as K by (apply found_known; exact F).
        exists (link b cur n), []. split; [apply (one_old b cur n (fun b => link b cur n)); [reflexivity|reflexivity|reflexivity|exact K]|].
        destruct (state (gr_ b) n) eqn:S; cbn [is_processing]; auto; left; split; auto; discriminate.
      - assert (~ In n (known b)) as K by (rewrite <- found_known; congruence).
        exists (link (push b n) cur n), [n]. split; [apply (one_new b cur n (fun b => link b cur n)); [reflexivity|reflexivity|apply push_counted|reflexivity|exact K]|].
        left. split; [reflexivity|]. intros C. contradiction. }
    2:{ right. rewrite E. split; [reflexivity|]. exists n. split; [left; reflexivity|auto]. }
    rewrite E. cbn [then_].
    destruct (IH b1 cur (linked_WX X _ _ _ _ _ L Wb) Nl) as [[b2 [new2 [E2 [L2 S2]]]]|[E2 [m [H1 [H2 H3]]]]].
    + left. exists b2, (new2 ++ new1). split; [exact E2|]. split; [exact (linked_trans _ _ _ _ _ _ _ _ L L2)|].
      intros m [<-|Hm] Km; [exact (S Km)|]. intros C. apply (S2 m Hm).
      * apply (linked_known _ _ _ _ _ L). auto.
      * rewrite (l_state_old _ _ _ _ _ L m); [exact C|]. intros I. exact (proj2 (l_new_in _ _ _ _ _ L m I) Km).
    + right. split; [exact E2|]. exists m. split; [right; exact H1|].
      destruct (in_dec Nat.eq_dec m new1) as [I|I].
      * rewrite (l_state_new _ _ _ _ _ L m I) in H3. discriminate.
      * rewrite (l_state_old _ _ _ _ _ L m I) in H3. apply (linked_known _ _ _ _ _ L) in H2. tauto.
Qed.

Lemma each_cb l : forall b cur, W b -> ~ In root l ->
  (exists b' new, each (fun b n => cb b cur n) b l = Done b' /\ linked b cur l b' new /\
     (forall n, In n l -> In n (known b) -> state (gr_ b) n <> Processing)) \/
  (each (fun b n => cb b cur n) b l = Circular /\ exists n, In n l /\ In n (known b) /\ state (gr_ b) n = Processing).
Proof.
  intros b cur Wb Nr. apply (each_cbX (fun n => n = root)); [exact Wb|]. intros n Hn ->. contradiction.
Qed.

Lemma each_gcb l : forall b cur, cur <> root -> (forall n, In n l -> counts (kind_of n) = false) -> W b -> ~ In root l ->
  exists b' new, each (fun b n => gcb b cur n) b l = Done b' /\ linked b cur l b' new.
Proof.
  induction l as [|n l IH]; intros b cur Cr Ct Wb Nr.
  - exists b, []. split; [reflexivity|apply linked_refl].
  - assert (n <> root) as Hn by (intros ->; apply Nr; left; reflexivity).
    assert (~ In root l) as Nl by (intros C; apply Nr; right; exact C).
    cbn [each]. rewrite (gcb_eq b cur n Wb Hn). cbn [then_].
    set (b1 := glink _ cur n).
    assert (exists new1, linked b cur [n] b1 new1) as [new1 L].
    { unfold b1. destruct (found b n) eqn:F.
      - exists []. apply (one_old b cur n (fun b => glink b cur n)); [reflexivity|reflexivity| |apply found_known; exact F].
        cbn. destruct (Nat.eqb_spec cur root); [contradiction|reflexivity].
      - exists [n]. apply (one_new b cur n (fun b => glink b cur n)); [reflexivity|reflexivity| | |].
        + intros m. cbn. unfold upd. rewrite (Ct n (or_introl eq_refl)). reflexivity.
        + cbn. destruct (Nat.eqb_spec cur root); [contradiction|reflexivity].
        + rewrite <- found_known. congruence. }
    destruct (IH b1 cur Cr (fun m Hm => Ct m (or_intror Hm)) (linked_W _ _ _ _ _ L Wb) Nl) as [b2 [new2 [E2 L2]]].
    exists b2, (new2 ++ new1). split; [exact E2|exact (linked_trans _ _ _ _ _ _ _ _ L L2)].
Qed.

(** All direct successors, as the list that the loop walks. *)
Definition succs (n : id) : list id := links n ++ if is_group (kind_of n) then glinks n else [].
Lemma succs_next n m : In m (succs n) <-> next kind_of links glinks n m.
Proof.
  unfold succs, next. rewrite in_app_iff.
  destruct (kind_of n) eqn:K; cbn [is_group In]; intuition congruence.
Qed.

Lemma expand_links_spec b cur : cur <> root -> (forall a n, In n (glinks a) -> counts (kind_of n) = false) -> W b -> ~ In root (succs cur) ->
  (exists b' new, expand_links kind_of links glinks transient_ root count_flags b cur = Done b' /\
      linked b cur (succs cur) b' new) \/
  (expand_links kind_of links glinks transient_ root count_flags b cur = Circular /\
     exists n, In n (links cur) /\ In n (known b) /\ state (gr_ b) n = Processing).
Proof.
  intros Cr Ct Wb Nr. unfold expand_links, succs in *. rewrite in_app_iff in Nr.
  destruct (each_cb (links cur) b cur Wb) as [[b1 [new1 [E1 [L1 _]]]]|[E1 X]].
  - tauto.
  - left. rewrite E1. cbn [then_]. destruct (is_group (kind_of cur)) eqn:G.
    + destruct (each_gcb (glinks cur) b1 cur Cr (Ct cur) (linked_W _ _ _ _ _ L1 Wb)) as [b2 [new2 [E2 L2]]]; [tauto|].
      exists b2, (new2 ++ new1). split; [exact E2|exact (linked_trans _ _ _ _ _ _ _ _ L1 L2)].
    + exists b1, new1. rewrite app_nil_r. auto.
  - right. rewrite E1. auto.
Qed.

Notation next := (next kind_of links glinks).
Notation path := (path kind_of links glinks).
Notation affected := (affected kind_of links glinks).
Notation expand := (expand_links kind_of links glinks transient_ root count_flags).
Notation bloop := (build_loop kind_of links glinks transient_ root count_flags).

Variable F : list id.
Variable U : list id.
Hypothesis UN : NoDup U.
Hypothesis OK : db_ok kind_of links glinks root U F.
Hypothesis GC : forall a n, In n (glinks a) -> counts (kind_of n) = false.

Lemma affected_U n : affected F n -> In n U.
Proof. induction 1 as [n H|a b Ha IH H]; [exact (u_flags _ _ _ _ _ _ OK n H)|exact (u_next _ _ _ _ _ _ OK a b IH H)]. Qed.
Lemma affected_not_root n : affected F n -> n <> root.
Proof. intros H ->. apply (u_root _ _ _ _ _ _ OK). apply affected_U. exact H. Qed.
Lemma affected_path a b : affected F a -> path a b -> affected F b.
Proof. intros A P. induction P as [a b H|a b c P IH H]; [exact (aff_next _ _ _ _ _ _ A H)|exact (aff_next _ _ _ _ _ _ (IH A) H)]. Qed.
Lemma path_trans a b c : path a b -> path b c -> path a c.
Proof. intros P Q. revert P. induction Q as [b c H|b c d Q IH H]; intros P; [exact (path_step _ _ _ _ _ _ P H)|exact (path_step _ _ _ _ _ _ (IH P) H)]. Qed.

Definition fin (b : bgraph) : list id := tl (node_list (gr_ b)).

Record LI (b : bgraph) : Prop := {
  li_W : W b;
  li_nodes : node_list (gr_ b) = root :: fin b;
  li_fin : forall n, In n (fin b) -> state (gr_ b) n = Finished;
  li_stack : forall n, In n (plist (gr_ b)) -> state (gr_ b) n <> Finished;
  li_edges : forall e, In e (edges (gr_ b)) <-> normal e = true /\
     ((src e = root /\ In (dst e) F) \/
      (In (src e) (plist (gr_ b) ++ fin b) /\ state (gr_ b) (src e) <> Initialized /\ next (src e) (dst e)));
  li_dst : forall e, In e (edges (gr_ b)) -> In (dst e) (plist (gr_ b) ++ fin b);
  li_aff : forall n, In n (plist (gr_ b) ++ fin b) -> affected F n;
  li_anc : forall l1 p l2, plist (gr_ b) = l1 ++ p :: l2 -> state (gr_ b) p = Processing ->
     forall x, In x l1 -> path p x;
  li_flags : incl F (plist (gr_ b) ++ fin b);
  li_trans : forall n, In n (plist (gr_ b) ++ fin b) ->
     trans (gr_ b) n = if is_generated (kind_of n) && transient_ n then TProcessing else TNone;
  li_cnt : forall n, In n (plist (gr_ b) ++ fin b) -> counted b n = counts (kind_of n);
  li_skip : forall n, In n (plist (gr_ b) ++ fin b) -> skip b n = negb (inb n F);
  li_root : trans (gr_ b) root = TNone;
  li_tdel : forall n, trans (gr_ b) n <> TDelete
}.

Definition is_proc_in (b : bgraph) (n : id) : bool := is_processing (state (gr_ b) n).
Definition visits (b : bgraph) : nat := 2 * length (fin b) + length (filter (is_proc_in b) (plist (gr_ b))).

Lemma known_split b : LI b -> forall n, In n (known b) <-> n = root \/ In n (plist (gr_ b) ++ fin b).
Proof.
  intros I n. unfold known. rewrite (li_nodes _ I), !in_app_iff. cbn [In]. intuition auto.
Qed.

Lemma size_bound b : LI b -> length (plist (gr_ b)) + length (fin b) <= length U.
Proof.
  intros I. rewrite <- app_length. apply NoDup_incl_length.
  - destruct (li_W _ I) as [ND _]. unfold known in ND. rewrite (li_nodes _ I) in ND.
    apply NoDup_remove_1 in ND. exact ND.
  - intros n H. apply affected_U. apply (li_aff _ I). exact H.
Qed.

Lemma filter_len_le {A} (f : A -> bool) l : length (filter f l) <= length l.
Proof. induction l as [|x l IH]; [cbn; lia|]. cbn [filter]. destruct (f x); cbn [length]; lia. Qed.

Lemma filter_ext_in' {A} (f h : A -> bool) l : (forall x, In x l -> f x = h x) -> filter f l = filter h l.
Proof.
  induction l as [|x l IH]; intros H; [reflexivity|]. cbn [filter]. rewrite (H x (or_introl eq_refl)).
  rewrite IH by (intros y Hy; apply H; right; exact Hy). reflexivity.
Qed.
Lemma filter_none {A} (f : A -> bool) l : (forall x, In x l -> f x = false) -> filter f l = [].
Proof.
  induction l as [|x l IH]; intros H; [reflexivity|]. cbn [filter]. rewrite (H x (or_introl eq_refl)).
  apply IH. intros y Hy. apply H. right. exact Hy.
Qed.

Definition finish (b1 : bgraph) (cur : id) (s : nstate) : bgraph := with_gr b1 (set_state (gr_ b1) cur s).

(** First visit of the node on top. *)
Lemma step_init b cur rest b1 new : LI b -> plist (gr_ b) = cur :: rest -> state (gr_ b) cur = Initialized ->
  linked b cur (succs cur) b1 new ->
  LI (finish b1 cur Processing) /\ visits (finish b1 cur Processing) = S (visits b).
Proof.
  intros I Pl St L.
  pose proof (linked_known _ _ _ _ _ L) as LK.
  pose proof (linked_W _ _ _ _ _ L (li_W _ I)) as W1.
  assert (fin b1 = fin b) as Fe by (unfold fin; rewrite (l_nodes _ _ _ _ _ L); reflexivity).
  assert (In cur (plist (gr_ b) ++ fin b)) as Kc by (rewrite Pl; left; reflexivity).
  assert (affected F cur) as Ac by (apply (li_aff _ I); exact Kc).
  assert (cur <> root) as Cr by (apply affected_not_root; exact Ac).
  assert (~ In cur new) as Cn.
  { intros H. apply (proj2 (l_new_in _ _ _ _ _ L cur H)). apply (known_split b I). right. exact Kc. }
  assert (forall n, In n new -> n <> cur) as NC by (intros n H ->; exact (Cn H)).
  assert (forall n, In n (fin b) -> ~ In n new /\ n <> cur) as FN.
  { intros n H. split.
    - intros H2. apply (proj2 (l_new_in _ _ _ _ _ L n H2)). apply (known_split b I). right. apply in_or_app. auto.
    - intros ->. pose proof (li_fin _ I cur H) as C. congruence. }
  assert (forall n, In n rest -> ~ In n new /\ n <> cur) as RN.
  { intros n H. split.
    - intros H2. apply (proj2 (l_new_in _ _ _ _ _ L n H2)). apply (known_split b I). right. apply in_or_app. rewrite Pl. left. right. exact H.
    - intros ->. destruct (li_W _ I) as [ND _]. unfold known in ND. rewrite Pl in ND. cbn in ND.
      inversion ND as [|x l H1 H2]. apply H1. apply in_or_app. auto. }
  assert (plist (gr_ b1) = new ++ cur :: rest) as P1 by (rewrite (l_plist _ _ _ _ _ L), Pl; reflexivity).
  assert (forall n, n <> cur -> state (gr_ (finish b1 cur Processing)) n = state (gr_ b1) n) as S1.
  { intros n H. cbn. unfold upd. destruct (Nat.eqb_spec n cur); [contradiction|reflexivity]. }
  assert (state (gr_ (finish b1 cur Processing)) cur = Processing) as S2.
  { cbn. unfold upd. rewrite Nat.eqb_refl. reflexivity. }
  assert (plist (gr_ (finish b1 cur Processing)) = new ++ cur :: rest) as P2 by exact P1.
  assert (fin (finish b1 cur Processing) = fin b) as F2 by exact Fe.
  assert (forall n, In n (plist (gr_ b) ++ fin b) -> ~ In n new) as ON.
  { intros n H H2. apply (proj2 (l_new_in _ _ _ _ _ L n H2)). apply (known_split b I). right. exact H. }
  assert (forall n, In n ((new ++ cur :: rest) ++ fin b) <-> In n new \/ In n (plist (gr_ b) ++ fin b)) as KK.
  { intros n. rewrite Pl, !in_app_iff. cbn [In]. tauto. }
  split.
  - split.
    + exact W1.
    + change (node_list (gr_ (finish b1 cur Processing))) with (node_list (gr_ b1)).
      rewrite F2, (l_nodes _ _ _ _ _ L). apply (li_nodes _ I).
    + intros n H. rewrite F2 in H. destruct (FN n H) as [H1 H2]. rewrite S1 by exact H2.
      rewrite (l_state_old _ _ _ _ _ L n H1). apply (li_fin _ I). exact H.
    + intros n H. rewrite P2 in H. apply in_app_or in H. destruct H as [H|[<-|H]].
      * rewrite S1 by exact (NC n H). rewrite (l_state_new _ _ _ _ _ L n H). discriminate.
      * rewrite S2. discriminate.
      * destruct (RN n H) as [H1 H2]. rewrite S1 by exact H2. rewrite (l_state_old _ _ _ _ _ L n H1).
        apply (li_stack _ I). rewrite Pl. right. exact H.
    + intros e. rewrite P2, F2. change (edges (gr_ (finish b1 cur Processing))) with (edges (gr_ b1)).
      rewrite (l_edges _ _ _ _ _ L), in_app_iff, (li_edges _ I), <- in_rev, in_map_iff, KK. split.
      * intros [[n [<- Hn]]|[N [[H1 H2]|[H1 [H2 H3]]]]].
        -- cbn [normal src dst]. split; [reflexivity|]. right. split; [right; exact Kc|]. rewrite S2.
           split; [discriminate|]. apply succs_next. exact Hn.
        -- split; [exact N|]. left. auto.
        -- split; [exact N|]. right. split; [right; exact H1|]. split; [|exact H3].
           destruct (Nat.eq_dec (src e) cur) as [->|D]; [rewrite S2; discriminate|].
           rewrite S1 by exact D. rewrite (l_state_old _ _ _ _ _ L _ (ON _ H1)). exact H2.
      * intros [N [[H1 H2]|[H1 [H2 H3]]]]; [right; split; [exact N|left; auto]|].
        destruct (Nat.eq_dec (src e) cur) as [E|D].
        -- left. exists (dst e). split; [|apply succs_next; rewrite <- E; exact H3].
           destruct e as [a c n]. cbn in *. subst. reflexivity.
        -- right. split; [exact N|]. right. rewrite S1 in H2 by exact D.
           destruct H1 as [H1|H1]; [rewrite (l_state_new _ _ _ _ _ L _ H1) in H2; contradiction|].
           split; [exact H1|]. split; [|exact H3]. rewrite (l_state_old _ _ _ _ _ L _ (ON _ H1)) in H2. exact H2.
    + intros e. rewrite P2, F2. change (edges (gr_ (finish b1 cur Processing))) with (edges (gr_ b1)).
      rewrite (l_edges _ _ _ _ _ L), in_app_iff, <- in_rev, in_map_iff, KK. intros [[n [<- Hn]]|H].
      * cbn [dst]. pose proof (l_all _ _ _ _ _ L n Hn) as H. apply LK in H. destruct H as [H|H]; [auto|].
        apply (known_split b I) in H. destruct H as [->|H]; [|auto]. exfalso.
        apply (u_root _ _ _ _ _ _ OK). apply (u_next _ _ _ _ _ _ OK cur); [apply affected_U; exact Ac|].
        apply succs_next. exact Hn.
      * right. apply (li_dst _ I). exact H.
    + intros n. rewrite P2, F2, KK. intros [H|H]; [|apply (li_aff _ I); exact H].
      apply aff_next with cur; [exact Ac|]. apply succs_next. exact (proj1 (l_new_in _ _ _ _ _ L n H)).
    + rewrite P2. intros l1 p l2 E Sp x Hx.
      assert (p = cur \/ In p rest) as Pc.
      { assert (In p (new ++ cur :: rest)) as H by (rewrite E; apply in_or_app; right; left; reflexivity).
        apply in_app_or in H. destruct H as [H|[H|H]]; auto. exfalso.
        rewrite S1 in Sp by exact (NC p H). rewrite (l_state_new _ _ _ _ _ L p H) in Sp. discriminate. }
      destruct (app_eq_app _ _ _ _ E) as [l [[E1 E2]|[E1 E2]]].
      * destruct l as [|y l]; cbn [app] in E2.
        -- injection E2 as -> ->. rewrite app_nil_r in E1. subst l1.
           apply path_one. apply succs_next. exact (proj1 (l_new_in _ _ _ _ _ L x Hx)).
        -- injection E2 as -> E2. assert (In y new) as C by (rewrite E1; apply in_or_app; right; left; reflexivity).
           exfalso. rewrite S1 in Sp by exact (NC y C). rewrite (l_state_new _ _ _ _ _ L y C) in Sp. discriminate.
      * destruct l as [|y l]; cbn [app] in E2.
        -- injection E2 as -> ->. rewrite app_nil_r in E1. subst l1.
           apply path_one. apply succs_next. exact (proj1 (l_new_in _ _ _ _ _ L x Hx)).
        -- injection E2 as <- E2.
           assert (In p rest) as Pr by (rewrite E2; apply in_or_app; right; left; reflexivity).
           destruct (RN p Pr) as [R1 R2]. rewrite S1 in Sp by exact R2. rewrite (l_state_old _ _ _ _ _ L p R1) in Sp.
           assert (plist (gr_ b) = (cur :: l) ++ p :: l2) as E3 by (rewrite Pl, E2; reflexivity).
           pose proof (li_anc _ I (cur :: l) p l2 E3 Sp) as A.
           rewrite E1 in Hx. apply in_app_or in Hx. destruct Hx as [Hx|Hx]; [|apply A; exact Hx].
           apply path_step with cur; [apply A; left; reflexivity|]. apply succs_next.
           exact (proj1 (l_new_in _ _ _ _ _ L x Hx)).
    + rewrite P2, F2. intros n H. apply KK. right. apply (li_flags _ I). exact H.
    + intros n. rewrite P2, F2, KK. change (trans (gr_ (finish b1 cur Processing))) with (trans (gr_ b1)).
      intros [H|H]; [exact (l_tr_new _ _ _ _ _ L n H)|]. rewrite (l_tr_old _ _ _ _ _ L n (ON n H)). apply (li_trans _ I). exact H.
    + intros n. rewrite P2, F2, KK. change (counted (finish b1 cur Processing)) with (counted b1).
      intros [H|H]; [exact (l_cnt_new _ _ _ _ _ L n H)|]. rewrite (l_cnt_old _ _ _ _ _ L n (ON n H)). apply (li_cnt _ I). exact H.
    + intros n. rewrite P2, F2, KK. change (skip (finish b1 cur Processing)) with (skip b1).
      intros [H|H].
      * rewrite (l_skip_new _ _ _ _ _ L Cr n H). symmetry. apply negb_true_iff. apply inb_false.
        intros C. exact (ON n (li_flags _ I n C) H).
      * rewrite (l_skip_old _ _ _ _ _ L n (ON n H)) by auto. apply (li_skip _ I). exact H.
    + change (trans (gr_ (finish b1 cur Processing))) with (trans (gr_ b1)).
      rewrite (l_tr_old _ _ _ _ _ L); [apply (li_root _ I)|].
      intros H. apply (proj2 (l_new_in _ _ _ _ _ L root H)). apply (known_split b I). left. reflexivity.
    + intros n. change (trans (gr_ (finish b1 cur Processing))) with (trans (gr_ b1)).
      destruct (in_dec Nat.eq_dec n new) as [H|H].
      * rewrite (l_tr_new _ _ _ _ _ L n H). destruct (_ && _); discriminate.
      * rewrite (l_tr_old _ _ _ _ _ L n H). apply (li_tdel _ I).
  - unfold visits. rewrite F2, P2, filter_app, app_length. cbn [filter].
    assert (filter (is_proc_in (finish b1 cur Processing)) new = []) as E1.
    { apply filter_none. intros x Hx. unfold is_proc_in. rewrite S1 by exact (NC x Hx).
      rewrite (l_state_new _ _ _ _ _ L x Hx). reflexivity. }
    assert (filter (is_proc_in (finish b1 cur Processing)) rest = filter (is_proc_in b) rest) as E2.
    { apply filter_ext_in'. intros x Hx. destruct (RN x Hx) as [R1 R2]. unfold is_proc_in.
      rewrite S1 by exact R2. rewrite (l_state_old _ _ _ _ _ L x R1). reflexivity. }
    rewrite E1, E2, Pl. unfold is_proc_in at 1. rewrite S2. cbn [is_processing length filter].
    unfold is_proc_in at 2. rewrite St. cbn [is_processing length]. lia.
Qed.

(** Second visit. *)
Lemma step_proc b cur rest : LI b -> plist (gr_ b) = cur :: rest -> state (gr_ b) cur = Processing ->
  exists g, obind (off_plist (gr_ b) cur) (fun g1 => to_nodes_tail g1 cur) = Some g /\
    LI (with_gr b (set_state g cur Finished)) /\ visits (with_gr b (set_state g cur Finished)) = S (visits b).
Proof.
  intros I Pl St. destruct (li_W _ I) as [ND [Hr Hx]]. unfold known in ND. rewrite Pl in ND. cbn [app] in ND.
  inversion ND as [|x l N1 N2]. subst x l. rewrite in_app_iff in N1.
  unfold off_plist. replace (inb cur (plist (gr_ b))) with true by (symmetry; apply inb_In; rewrite Pl; left; reflexivity).
  cbn [obind]. unfold to_nodes_tail. cbn [plist node_list edges state trans expanded].
  assert (rm cur (plist (gr_ b)) = rest) as R1.
  { rewrite Pl. cbn [rm]. rewrite Nat.eqb_refl. apply rm_notin. tauto. }
  rewrite R1. replace (inb cur rest) with false by (symmetry; apply inb_false; tauto).
  replace (inb cur (node_list (gr_ b))) with false by (symmetry; apply inb_false; tauto).
  cbn [orb]. eexists. split; [reflexivity|]. set (b2 := with_gr _ _).
  assert (plist (gr_ b2) = rest) as P2 by reflexivity.
  assert (node_list (gr_ b2) = node_list (gr_ b) ++ [cur]) as N by reflexivity.
  assert (fin b2 = fin b ++ [cur]) as F2.
  { unfold fin at 1. rewrite N, (li_nodes _ I). reflexivity. }
  assert (forall n, n <> cur -> state (gr_ b2) n = state (gr_ b) n) as S1.
  { intros n H. cbn. unfold upd. destruct (Nat.eqb_spec n cur); [contradiction|reflexivity]. }
  assert (state (gr_ b2) cur = Finished) as S2.
  { cbn. unfold upd. rewrite Nat.eqb_refl. reflexivity. }
  assert (forall n, In n (rest ++ fin b ++ [cur]) <-> In n (plist (gr_ b) ++ fin b)) as KK.
  { intros n. rewrite Pl, !in_app_iff. cbn [In]. tauto. }
  assert (forall n, In n rest -> n <> cur) as RC by (intros n H ->; tauto).
  split.
  - split.
    + unfold W, WX, known. rewrite P2, N. split; [|split].
      * apply (Permutation_NoDup (l := cur :: rest ++ node_list (gr_ b))); [|constructor; [rewrite in_app_iff; exact N1|exact N2]].
        rewrite app_assoc. apply Permutation_cons_append.
      * rewrite !in_app_iff. right. left. rewrite (li_nodes _ I). left. reflexivity.
      * intros n H Nr. change (expanded (gr_ b2) n) with (expanded (gr_ b) n). apply Hx; [|exact Nr].
        unfold known. rewrite Pl. rewrite !in_app_iff in *. cbn [In] in *. tauto.
    + rewrite F2, N, (li_nodes _ I). reflexivity.
    + intros n. rewrite F2, in_app_iff. intros [H|[<-|[]]]; [|exact S2].
      rewrite S1; [apply (li_fin _ I); exact H|]. intros ->. rewrite (li_fin _ I _ H) in St. discriminate.
    + intros n. rewrite P2. intros H. rewrite S1 by exact (RC n H). apply (li_stack _ I). rewrite Pl. right. exact H.
    + intros e. rewrite P2, F2, KK. change (edges (gr_ b2)) with (edges (gr_ b)). rewrite (li_edges _ I).
      assert (state (gr_ b2) (src e) <> Initialized <-> state (gr_ b) (src e) <> Initialized) as E.
      { destruct (Nat.eq_dec (src e) cur) as [->|D]; [rewrite S2, St; split; discriminate|rewrite S1 by exact D; tauto]. }
      rewrite E. tauto.
    + intros e. rewrite P2, F2, KK. apply (li_dst _ I).
    + intros n. rewrite P2, F2, KK. apply (li_aff _ I).
    + rewrite P2. intros l1 p l2 E Sp x Hx'. apply (li_anc _ I (cur :: l1) p l2).
      * rewrite Pl, E. reflexivity.
      * rewrite S1 in Sp; [exact Sp|]. apply RC. rewrite E. apply in_or_app. right. left. reflexivity.
      * right. exact Hx'.
    + rewrite P2, F2. intros n H. apply KK. apply (li_flags _ I). exact H.
    + intros n. rewrite P2, F2, KK. apply (li_trans _ I).
    + intros n. rewrite P2, F2, KK. apply (li_cnt _ I).
    + intros n. rewrite P2, F2, KK. apply (li_skip _ I).
    + apply (li_root _ I).
    + apply (li_tdel _ I).
  - unfold visits. rewrite P2, F2, app_length, Pl. cbn [filter length]. unfold is_proc_in at 2. rewrite St. cbn [is_processing length].
    rewrite (filter_ext_in' (is_proc_in b2) (is_proc_in b) rest); [lia|].
    intros x Hx'. unfold is_proc_in. rewrite S1 by exact (RC x Hx'). reflexivity.
Qed.

Lemma build_loop_spec fuel : forall b, LI b -> 2 * length U < fuel + visits b ->
  match bloop fuel b with
  | Done b' => LI b' /\ plist (gr_ b') = []
  | Circular => exists n, affected F n /\ path n n
  | Internal | Timeout => False
  end.
Proof.
  induction fuel as [|f IH]; intros b I Hf.
  - cbn [build_loop]. destruct (plist (gr_ b)) as [|cur rest] eqn:Pl; [auto|].
    pose proof (size_bound b I) as Sb. pose proof (filter_len_le (is_proc_in b) (plist (gr_ b))) as Fl.
    unfold visits in Hf. rewrite Pl in *. cbn [length] in *. lia.
  - cbn [build_loop]. destruct (plist (gr_ b)) as [|cur rest] eqn:Pl; [auto|].
    assert (In cur (plist (gr_ b) ++ fin b)) as Kc by (rewrite Pl; left; reflexivity).
    assert (affected F cur) as Ac by (apply (li_aff _ I); exact Kc).
    destruct (state (gr_ b) cur) eqn:St.
    + destruct (expand_links_spec b cur) as [[b1 [new [E L]]]|[E [n [H1 [H2 H3]]]]].
      * apply affected_not_root. exact Ac.
      * exact GC.
      * apply (li_W _ I).
      * intros C. apply succs_next in C. apply (u_root _ _ _ _ _ _ OK).
        exact (u_next _ _ _ _ _ _ OK cur root (affected_U _ Ac) C).
      * rewrite E. cbn [then_]. destruct (step_init b cur rest b1 new I Pl St L) as [I2 V2].
        apply IH; [exact I2|]. unfold finish in V2. rewrite V2. lia.
      * rewrite E. cbn [then_]. exists n.
        assert (next cur n) as Nx by (left; exact H1).
        split; [exact (aff_next _ _ _ _ _ _ Ac Nx)|].
        apply (known_split b I) in H2. destruct H2 as [->|H2].
        { exfalso. apply (u_root _ _ _ _ _ _ OK). exact (u_next _ _ _ _ _ _ OK cur root (affected_U _ Ac) Nx). }
        apply in_app_or in H2. destruct H2 as [H2|H2]; [|rewrite (li_fin _ I n H2) in H3; discriminate].
        rewrite Pl in H2. destruct H2 as [<-|H2]; [congruence|].
        apply in_split in H2. destruct H2 as [l1 [l2 E2]].
        apply path_step with cur; [|exact Nx].
        apply (li_anc _ I (cur :: l1) n l2); [rewrite Pl, E2; reflexivity|exact H3|left; reflexivity].
    + destruct (step_proc b cur rest I Pl St) as [g [E [I2 V2]]]. rewrite E. cbn [of_option then_].
      apply IH; [exact I2|]. rewrite V2. lia.
    + apply (li_stack _ I cur); [rewrite Pl; left; reflexivity|exact St].
Qed.

Lemma create_graph_LI_flags :
  exists b new, each (fun b n => cb b root n) (create_graph kind_of transient_ root) F = Done b /\
    linked (create_graph kind_of transient_ root) root F b new.
Proof.
  destruct (each_cb F (create_graph kind_of transient_ root) root) as [[b [new [E [L _]]]]|[E [n [H1 [H2 H3]]]]].
  - unfold W, WX, known. cbn. split; [repeat constructor; intros []|]. split; [left; reflexivity|].
    intros n [<-|[]] H. contradiction.
  - intros C. apply (u_root _ _ _ _ _ _ OK). exact (u_flags _ _ _ _ _ _ OK root C).
  - exists b, new. auto.
  - exfalso. unfold known in H2. cbn in H2. destruct H2 as [<-|[]]. cbn in H3. unfold upd in H3.
    rewrite Nat.eqb_refl in H3. discriminate.
Qed.

Hypothesis Kroot : kind_of root = KRoot.

Lemma flags_LI : exists b, each (fun b n => cb b root n) (create_graph kind_of transient_ root) F = Done b /\
  LI b /\ visits b = 0.
Proof.
  destruct create_graph_LI_flags as [b [new [E L]]]. exists b. split; [exact E|].
  set (b0 := create_graph kind_of transient_ root) in *.
  assert (known b0 = [root]) as K0 by reflexivity.
  assert (W b0) as W0.
  { split; [rewrite K0; repeat constructor; intros []|]. split; [left; reflexivity|].
    rewrite K0. intros n [<-|[]] H. contradiction. }
  assert (fin b = []) as Fe by (unfold fin; rewrite (l_nodes _ _ _ _ _ L); reflexivity).
  assert (plist (gr_ b) = new) as Pe by (rewrite (l_plist _ _ _ _ _ L); apply app_nil_r).
  assert (forall n, In n new <-> In n F) as NF.
  { intros n. split; [intros H; exact (proj1 (l_new_in _ _ _ _ _ L n H))|]. intros H.
    pose proof (l_all _ _ _ _ _ L n H) as K. apply (linked_known _ _ _ _ _ L) in K. destruct K as [K|K]; [exact K|].
    rewrite K0 in K. destruct K as [<-|[]]. exfalso. apply (u_root _ _ _ _ _ _ OK). exact (u_flags _ _ _ _ _ _ OK _ H). }
  assert (forall n, In n (plist (gr_ b) ++ fin b) <-> In n F) as KF.
  { intros n. rewrite Pe, Fe, app_nil_r. apply NF. }
  split.
  - split.
    + exact (linked_W _ _ _ _ _ L W0).
    + unfold fin. rewrite (l_nodes _ _ _ _ _ L). reflexivity.
    + rewrite Fe. intros n [].
    + rewrite Pe. intros n H. rewrite (l_state_new _ _ _ _ _ L n H). discriminate.
    + intros e. rewrite (l_edges _ _ _ _ _ L), KF, in_app_iff, <- in_rev, in_map_iff. split.
      * intros [[n [<- Hn]]|[]]. cbn. auto.
      * intros [N [[H1 H2]|[H1 [H2 _]]]].
        -- left. exists (dst e). split; [|exact H2]. destruct e as [a c n]. cbn in *. subst. reflexivity.
        -- exfalso. apply H2. exact (l_state_new _ _ _ _ _ L _ (proj2 (NF _) H1)).
    + intros e. rewrite (l_edges _ _ _ _ _ L), KF, in_app_iff, <- in_rev, in_map_iff.
      intros [[n [<- Hn]]|[]]. exact Hn.
    + intros n H. apply KF in H. apply aff_flag. exact H.
    + rewrite Pe. intros l1 p l2 E2 Sp. exfalso.
      rewrite (l_state_new _ _ _ _ _ L p) in Sp; [discriminate|]. rewrite E2. apply in_or_app. right. left. reflexivity.
    + intros n H. apply KF. exact H.
    + rewrite Pe, Fe, app_nil_r. apply (l_tr_new _ _ _ _ _ L).
    + rewrite Pe, Fe, app_nil_r. apply (l_cnt_new _ _ _ _ _ L).
    + intros n H. apply KF in H. rewrite (l_skip_root _ _ _ _ _ L eq_refl n H). symmetry.
      apply negb_false_iff. apply inb_In. exact H.
    + rewrite (l_tr_old _ _ _ _ _ L).
      * cbn. unfold upd. rewrite Nat.eqb_refl, Kroot. reflexivity.
      * intros C. apply (proj2 (l_new_in _ _ _ _ _ L root C)). rewrite K0. left. reflexivity.
    + intros n. destruct (in_dec Nat.eq_dec n new) as [H|H].
      * rewrite (l_tr_new _ _ _ _ _ L n H). destruct (_ && _); discriminate.
      * rewrite (l_tr_old _ _ _ _ _ L n H). cbn. unfold upd. rewrite Kroot. cbn. destruct (n =? root); discriminate.
  - unfold visits. rewrite Fe, Pe. rewrite filter_none; [reflexivity|].
    intros x Hx. unfold is_proc_in. rewrite (l_state_new _ _ _ _ _ L x Hx). reflexivity.
Qed.

(** Stickies. *)
Lemma stickies_edges b e : In e (edges (gr_ (add_graph_stickies kind_of inputs b))) <->
  In e (edges (gr_ b)) \/
  (normal e = false /\ In (dst e) (node_list (gr_ b)) /\ kind_of (dst e) = KCmd /\ In (src e) (inputs (dst e)) /\
   In (src e) (known b)).
Proof.
  unfold add_graph_stickies. cbn [with_gr set_edges gr_ edges].
  assert (forall l es, In e (fold_left (fun es n => rev (sticky_edges kind_of inputs b n) ++ es) l es) <->
     In e es \/ exists n, In n l /\ In e (sticky_edges kind_of inputs b n)) as Q.
  { induction l as [|n l IH]; intros es; cbn [fold_left].
    - split; [auto|]. intros [H|[n [[] _]]]. exact H.
    - rewrite IH, in_app_iff, <- in_rev. split.
      + intros [[H|H]|[m [H1 H2]]]; [right; exists n; split; [left; reflexivity|exact H]|auto|].
        right. exists m. split; [right; exact H1|exact H2].
      + intros [H|[m [[<-|H1] H2]]]; auto. right. exists m. auto. }
  rewrite Q. split; intros [H|H]; auto; right.
  - destruct H as [n [H1 H2]]. unfold sticky_edges in H2. destruct (kind_of n) eqn:K; cbn [is_cmd] in H2; try destruct H2.
    apply in_map_iff in H2. destruct H2 as [i [<- H2]]. apply filter_In in H2. destruct H2 as [H2 H3].
    cbn. rewrite K. repeat split; auto. apply found_known. exact H3.
  - destruct H as [N [H1 [H2 [H3 H4]]]]. exists (dst e). split; [exact H1|]. unfold sticky_edges. rewrite H2. cbn [is_cmd].
    apply in_map_iff. exists (src e). split; [destruct e; cbn in *; subst; reflexivity|].
    apply filter_In. split; [exact H3|]. apply found_known. exact H4.
Qed.

(** The result of building. *)
Record built (b : bgraph) (nodes : list id) : Prop := {
  b_plist : plist (gr_ b) = [];
  b_nodes : node_list (gr_ b) = root :: nodes;
  b_nodup : NoDup (root :: nodes);
  b_exact : forall n, In n nodes <-> affected F n;
  b_edges : forall e, In e (edges (gr_ b)) <->
    (normal e = true /\ src e = root /\ In (dst e) F) \/
    (normal e = true /\ affected F (src e) /\ next (src e) (dst e)) \/
    (normal e = false /\ affected F (dst e) /\ kind_of (dst e) = KCmd /\ In (src e) (inputs (dst e)) /\
     affected F (src e));
  b_state : forall n, In n nodes -> state (gr_ b) n = Finished;
  b_expanded : forall n, In n nodes -> expanded (gr_ b) n = true;
  b_trans : forall n, In n nodes ->
     trans (gr_ b) n = if is_generated (kind_of n) && transient_ n then TProcessing else TNone;
  b_root : trans (gr_ b) root = TNone;
  b_tdel : forall n, trans (gr_ b) n <> TDelete;
  b_counted : forall n, In n nodes -> counted b n = counts (kind_of n);
  b_skip : forall n, In n nodes -> skip b n = negb (inb n F)
}.

Hypothesis Inp : forall n, ~ In root (inputs n).

Theorem update_graph_spec fuel : 2 * length U < fuel ->
  match update_graph kind_of links glinks inputs transient_ root count_flags fuel F with
  | Done b => exists nodes, built b nodes
  | Circular => exists n, affected F n /\ path n n
  | Internal | Timeout => False
  end.
Proof.
  intros Hf. unfold update_graph. destruct flags_LI as [b [E [I V]]]. rewrite E. cbn [then_]. unfold build_graph.
  pose proof (build_loop_spec fuel b I) as Q. rewrite V in Q.
  assert (2 * length U < fuel + 0) as Hf' by lia. specialize (Q Hf').
  destruct (bloop fuel b) as [b'| | |]; cbn [then_]; try exact Q. destruct Q as [I' Pn].
  exists (fin b').
  assert (forall n, In n (plist (gr_ b') ++ fin b') <-> In n (fin b')) as KK by (rewrite Pn; reflexivity).
  assert (forall n, In n (fin b') <-> affected F n) as EX.
  { intros n. split; [intros H; apply (li_aff _ I'), KK; exact H|].
    induction 1 as [n H|a c Ha IH H]; [apply KK; apply (li_flags _ I'); exact H|].
    apply KK. assert (In {| src := a; dst := c; normal := true |} (edges (gr_ b'))) as Ee.
    { apply (li_edges _ I'). cbn. split; [reflexivity|]. right. split; [apply KK; exact IH|].
      split; [rewrite (li_fin _ I' a IH); discriminate|exact H]. }
    exact (li_dst _ I' _ Ee). }
  destruct (li_W _ I') as [ND [Hr Hx]]. unfold known in ND. rewrite Pn, (li_nodes _ I') in ND. cbn [app] in ND.
  split.
  - exact Pn.
  - exact (li_nodes _ I').
  - exact ND.
  - exact EX.
  - intros e. rewrite stickies_edges, (li_edges _ I'). rewrite (li_nodes _ I'). unfold known. rewrite Pn, (li_nodes _ I').
    cbn [app In]. rewrite <- !EX. split.
    + intros [[N [H|[H1 [H2 H3]]]]|[N [H1 [H2 [H3 H4]]]]]; [tauto|auto 6| ].
      right. right. split; [exact N|]. destruct H1 as [H1|H1]; [rewrite <- H1, Kroot in H2; discriminate|].
      destruct H4 as [H4|H4]; [rewrite <- H4 in H3; exfalso; exact (Inp _ H3)|]. auto.
    + intros [[N H]|[[N [H1 H2]]|[N [H1 [H2 [H3 H4]]]]]]; [tauto| |auto 9].
      left. split; [exact N|]. right. split; [exact H1|]. split; [|exact H2].
      rewrite (li_fin _ I' _ H1). discriminate.
  - exact (li_fin _ I').
  - intros n H. apply Hx; [unfold known; rewrite Pn, (li_nodes _ I'); right; exact H|].
    apply affected_not_root. apply EX. exact H.
  - intros n H. apply (li_trans _ I'). apply KK. exact H.
  - exact (li_root _ I').
  - exact (li_tdel _ I').
  - intros n H. apply (li_cnt _ I'). apply KK. exact H.
  - intros n H. apply (li_skip _ I'). apply KK. exact H.
Qed.

(** Generated files link to commands and groups only; sticky inputs are added to
    commands. *)
Hypothesis GG : forall a n, kind_of a = KGenerated -> next a n -> kind_of n <> KGenerated.

Lemma built_prepared b nodes : built b nodes -> prepared (gr_ b) root nodes.
Proof.
  intros B. pose proof (b_edges _ _ B) as E. pose proof (b_exact _ _ B) as X. split.
  - exact (b_nodes _ _ B).
  - exact (b_plist _ _ B).
  - exact (b_nodup _ _ B).
  - intros e He. apply E in He. destruct He as [[_ [<- _]]|[[_ [H _]]|[_ [_ [_ [_ H]]]]]]; [left; reflexivity|right; apply X; exact H|right; apply X; exact H].
  - intros e He. apply X. apply E in He. destruct He as [[_ [_ H]]|[[_ [H1 H2]]|[_ [H _]]]];
      [exact (aff_flag _ _ _ _ _ H)|exact (aff_next _ _ _ _ _ _ H1 H2)|exact H].
  - intros n Hn. apply X in Hn. destruct Hn as [n H|a n H1 H2].
    + exists {| src := root; dst := n; normal := true |}. split; [apply E; left; auto|reflexivity].
    + exists {| src := a; dst := n; normal := true |}. split; [apply E; right; left; auto|reflexivity].
  - intros n Hn. rewrite (b_state _ _ B n Hn). discriminate.
  - exact (b_expanded _ _ B).
  - exact (b_tdel _ _ B).
  - exact (b_root _ _ B).
  - intros e He. apply E in He. destruct He as [[_ [-> _]]|[[_ [H1 H2]]|[_ [H [K [_ H2]]]]]].
    + rewrite (b_root _ _ B). discriminate.
    + rewrite (b_trans _ _ B (src e)) by (apply X; exact H1).
      rewrite (b_trans _ _ B (dst e)) by (apply X; exact (aff_next _ _ _ _ _ _ H1 H2)).
      destruct (kind_of (src e)) eqn:Ks; cbn [is_generated andb]; try discriminate. intros _.
      pose proof (GG _ _ Ks H2) as Kd. destruct (kind_of (dst e)); try reflexivity. contradiction.
    + intros _. rewrite (b_trans _ _ B (dst e)) by (apply X; exact H). rewrite K. reflexivity.
Qed.
End Build.
