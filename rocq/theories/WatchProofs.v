Require Import ZArith List Bool Lia Sorting.Sorted.
Import ListNotations.
From Verif Require Import WatchModel WatchSpec.
Open Scope Z_scope.

Definition inc (key : nat -> Z) (l : list nat) : Prop := StronglySorted Z.lt (map key l).
Lemma inc_app key a b : inc key (a ++ b) <-> inc key a /\ inc key b /\ forall x y, In x a -> In y b -> key x < key y.
Proof.
  unfold inc. induction a as [|z a IH]; cbn [app map].
  - split; [intros H; split; [constructor|split; [exact H|intros x y []]]|tauto].
  - split.
    + intros H. inversion H as [|? ? H1 H2]; subst. apply IH in H1 as [H1 [H3 H4]]. rewrite Forall_forall in H2. split; [constructor; [exact H1|rewrite Forall_forall; intros v V; apply H2; rewrite map_app; apply in_or_app; auto]|]. split; [exact H3|].
      intros x y [<-|X] Y; [apply H2; rewrite map_app; apply in_or_app; right; apply in_map; exact Y|auto].
    + intros [H1 [H2 H3]]. inversion H1 as [|? ? K1 K2]; subst. constructor; [apply IH; split; [exact K1|split; [exact H2|intros; apply H3; auto; right; assumption]]|].
      rewrite Forall_forall in *. intros v V. rewrite map_app in V. apply in_app_or in V as [V|V]; [auto|]. apply in_map_iff in V as [y [<- Y]]. apply H3; [left; reflexivity|exact Y].
Qed.
Lemma inc_cons key x b : inc key (x :: b) <-> inc key b /\ forall y, In y b -> key x < key y.
Proof.
  change (x :: b) with ([x] ++ b). rewrite inc_app. split; [intros [_ [H1 H2]]; split; [exact H1|intros y Y; apply H2; [left; reflexivity|exact Y]]|].
  intros [H1 H2]. split; [repeat constructor|]. split; [exact H1|]. intros z y [<-|[]] Y. auto.
Qed.
Lemma inc_ext key key' l : (forall x, In x l -> key x = key' x) -> inc key l -> inc key' l.
Proof. intros H. unfold inc. rewrite (map_ext_in key key' l H). auto. Qed.

Lemma search_some key t x i : search key t x = Some i -> In i (inorder t) /\ key i = x.
Proof.
  induction t as [|l IHl j r IHr]; cbn [search inorder]; [discriminate|]. intros H. destruct (x <? key j) eqn:L; [destruct (IHl H); split; [apply in_or_app; auto|assumption]|].
  destruct (key j <? x) eqn:R; [destruct (IHr H); split; [apply in_or_app; right; right; assumption|assumption]|]. injection H as <-. apply Z.ltb_ge in L, R. split; [apply in_or_app; right; left; reflexivity|lia].
Qed.
Lemma search_in key t i : inc key (inorder t) -> In i (inorder t) -> search key t (key i) = Some i.
Proof.
  induction t as [|l IHl j r IHr]; cbn [search inorder]; [intros _ []|]. intros S H. apply inc_app in S as [S1 [S2 S3]]. apply inc_cons in S2 as [S2 S4].
  apply in_app_or in H as [H|[<-|H]].
  - specialize (S3 i j H (or_introl eq_refl)). apply Z.ltb_lt in S3. rewrite S3. auto.
  - rewrite Z.ltb_irrefl. reflexivity.
  - specialize (S4 i H). replace (key i <? key j) with false by (symmetry; apply Z.ltb_ge; lia). apply Z.ltb_lt in S4. rewrite S4. auto.
Qed.
Lemma insert_some key t n : (forall i, In i (inorder t) -> key i <> key n) -> exists t' a b, insert key t n = Some t' /\ inorder t = a ++ b /\ inorder t' = a ++ n :: b /\ (inc key (inorder t) -> inc key (inorder t')).
Proof.
  induction t as [|l IHl j r IHr]; cbn [insert inorder]; intros H.
  - exists (Node Leaf n Leaf), [], []. repeat split. intros _. repeat constructor.
  - destruct (key n <? key j) eqn:L.
    + destruct IHl as [t' [a [b [-> [A [C D]]]]]]; [intros i Hi; apply H, in_or_app; auto|]. exists (Node t' j r), a, (b ++ j :: inorder r). cbn [option_map inorder]. rewrite A, C. split; [reflexivity|]. split; [rewrite <- app_assoc; reflexivity|]. split; [rewrite <- app_assoc; reflexivity|].
      rewrite A, C in D. intros S. apply inc_app in S as [S1 [S2 S3]]. apply inc_app. split; [auto|]. split; [exact S2|]. intros x y X Y.
      assert (In x (a ++ b) \/ x = n) as [X'| ->] by (apply in_app_or in X as [X|[X|X]]; [left; apply in_or_app; auto|auto|left; apply in_or_app; auto]); [auto|]. apply Z.ltb_lt in L. destruct Y as [<-|Y]; [exact L|]. apply inc_cons in S2 as [_ S2]. specialize (S2 y Y). lia.
    + destruct (key j <? key n) eqn:R.
      * destruct IHr as [t' [a [b [-> [A [C D]]]]]]; [intros i Hi; apply H, in_or_app; right; right; exact Hi|]. exists (Node l j t'), (inorder l ++ j :: a), b. cbn [option_map inorder]. rewrite A, C. split; [reflexivity|]. split; [rewrite <- app_assoc; reflexivity|]. split; [rewrite <- app_assoc; reflexivity|].
        rewrite A, C in D. intros S. apply inc_app in S as [S1 [S2 S3]]. apply inc_cons in S2 as [S2 S4]. apply Z.ltb_lt in R.
        assert (forall y, In y (a ++ n :: b) -> In y (a ++ b) \/ y = n) as K by (intros y X; apply in_app_or in X as [X|[X|X]]; [left; apply in_or_app; auto|auto|left; apply in_or_app; auto]).
        apply inc_app. split; [exact S1|]. split; [apply inc_cons; split; [auto|intros y Y; destruct (K y Y) as [Y'| ->]; auto]|]. intros x y X [<-|Y]; [apply S3; [exact X|left; reflexivity]|]. destruct (K y Y) as [Y'| ->]; [apply S3; [exact X|right; exact Y']|]. specialize (S3 x j X (or_introl eq_refl)). lia.
      * exfalso. apply Z.ltb_ge in L, R. apply (H j); [apply in_or_app; right; left; reflexivity|lia].
Qed.

Lemma take_min_ok : forall l i r m t, take_min l i r = (m, t) -> inorder (Node l i r) = m :: inorder t.
Proof.
  induction l as [|a IHa j b _]; intros i r m t; cbn [take_min]; [intros H; injection H as <- <-; reflexivity|]. destruct (take_min a j b) as [m' t'] eqn:Q. intros H. injection H as <- <-. specialize (IHa j b m' t' Q). cbn [inorder] in *. rewrite IHa. reflexivity.
Qed.
Lemma join_ok l r : inorder (join l r) = inorder l ++ inorder r.
Proof.
  destruct l as [|a i b]; [destruct r; reflexivity|]. destruct r as [|c j d]; [cbn [join]; rewrite app_nil_r; reflexivity|]. cbn [join]. destruct (take_min c j d) as [m t] eqn:Q. apply take_min_ok in Q. change (inorder (Node (Node a i b) m t)) with (inorder (Node a i b) ++ m :: inorder t). rewrite <- Q. reflexivity.
Qed.
Lemma mem_in t n : mem t n = true <-> In n (inorder t).
Proof.
  induction t as [|l IHl i r IHr]; cbn [mem inorder]; [split; [discriminate|intros []]|]. rewrite !orb_true_iff, IHl, IHr, Nat.eqb_eq, in_app_iff. cbn. tauto.
Qed.
Lemma rm_ok t n : In n (inorder t) -> exists a b, inorder t = a ++ n :: b /\ inorder (rm_node t n) = a ++ b.
Proof.
  induction t as [|l IHl i r IHr]; cbn [rm_node inorder]; [intros []|]. intros H. destruct (Nat.eqb i n) eqn:Q.
  - apply Nat.eqb_eq in Q. subst i. exists (inorder l), (inorder r). rewrite join_ok. auto.
  - apply Nat.eqb_neq in Q. destruct (mem l n) eqn:M.
    + apply mem_in in M. destruct (IHl M) as [a [b [A C]]]. exists a, (b ++ i :: inorder r). cbn [inorder]. rewrite A, C, <- !app_assoc. auto.
    + assert (In n (inorder r)) as R. { apply in_app_or in H as [H|[H|H]]; [apply mem_in in H; congruence|congruence|exact H]. }
      destruct (IHr R) as [a [b [A C]]]. exists (inorder l ++ i :: a), b. cbn [inorder]. rewrite A, C, <- !app_assoc. auto.
Qed.
Lemma remove_ok t n key : In n (inorder t) -> NoDup (inorder t) -> exists t', remove t n = Some t' /\ NoDup (inorder t') /\ (forall x, In x (inorder t') <-> In x (inorder t) /\ x <> n) /\ (inc key (inorder t) -> inc key (inorder t')).
Proof.
  intros H D. unfold remove. rewrite (proj2 (mem_in t n) H). eexists. split; [reflexivity|]. destruct (rm_ok t n H) as [a [b [A ->]]]. rewrite A in *. pose proof (NoDup_remove_1 _ _ _ D) as D1. pose proof (NoDup_remove_2 _ _ _ D) as D2. split; [exact D1|]. split.
  - intros x. rewrite in_app_iff. rewrite in_app_iff in *. cbn. split; [intros X; split; [tauto|intros ->; tauto]|]. intros [[X|[X|X]] Nx]; auto. congruence.
  - intros S. apply inc_app in S as [S1 [S2 S3]]. apply inc_cons in S2 as [S2 S4]. apply inc_app. split; [exact S1|]. split; [exact S2|]. intros x y X Y. apply S3; [exact X|right; exact Y].
Qed.

(** The table is consistent: both trees have the same nodes, that of the watches is in order, and
    no two have the same id, unless they are disabled. *)
Record J (s : st) : Prop := {
  j_wd : NoDup (inorder (wd_root s)); j_dt : NoDup (inorder (dt_root s));
  j_same : forall i, In i (inorder (wd_root s)) <-> In i (inorder (dt_root s));
  j_next : forall i, In i (inorder (wd_root s)) -> (i < next s)%nat;
  j_inc : inc (wd_of s) (inorder (wd_root s)) }.
Definition entry (s : st) (wd dt : Z) : Prop := exists i, In i (inorder (wd_root s)) /\ wd_of s i = wd /\ dt_of s i = dt.

Lemma j_empty : J empty.
Proof. split; cbn; [constructor|constructor|tauto|intros i []|constructor]. Qed.
Lemma find_wd s wd i : J s -> (lookup_wd s wd = Some i <-> In i (inorder (wd_root s)) /\ wd_of s i = wd).
Proof. intros Js. split; [apply search_some|]. intros [H <-]. apply search_in; [apply Js|exact H]. Qed.
Lemma wd_unique s i j : J s -> In i (inorder (wd_root s)) -> In j (inorder (wd_root s)) -> wd_of s i = wd_of s j -> i = j.
Proof. intros Js Hi Hj Eq. pose proof (search_in _ _ i (j_inc _ Js) Hi) as A. pose proof (search_in _ _ j (j_inc _ Js) Hj) as C. rewrite Eq in A. congruence. Qed.

Lemma del_ok s i : J s -> In i (inorder (wd_root s)) -> exists s', dircache_del s i = Some s' /\ J s' /\ wd_of s' = wd_of s /\ dt_of s' = dt_of s /\ next s' = next s /\
  (forall x, In x (inorder (wd_root s')) <-> In x (inorder (wd_root s)) /\ x <> i) /\ (inc (dt_of s) (inorder (dt_root s)) -> inc (dt_of s') (inorder (dt_root s'))).
Proof.
  intros Js H. unfold dircache_del. destruct (remove_ok _ i (wd_of s) H (j_wd _ Js)) as [w [-> [W1 [W2 W3]]]]. destruct (remove_ok _ i (dt_of s) (proj1 (j_same _ Js i) H) (j_dt _ Js)) as [d [-> [D1 [D2 D3]]]].
  eexists. split; [reflexivity|]. cbn. split; [|split; [reflexivity|split; [reflexivity|split; [reflexivity|split; [exact W2|exact D3]]]]].
  split; cbn; auto.
  - intros x. rewrite W2, D2, (j_same _ Js). tauto.
  - intros x X. apply W2 in X as [X _]. apply Js. exact X.
  - apply W3, Js.
Qed.
Lemma del_entry s s' i wd dt : J s -> In i (inorder (wd_root s)) -> wd_of s' = wd_of s -> dt_of s' = dt_of s -> (forall x, In x (inorder (wd_root s')) <-> In x (inorder (wd_root s)) /\ x <> i) ->
  (entry s' wd dt <-> entry s wd dt /\ wd <> wd_of s i).
Proof.
  intros Js H Ew Ed In'. unfold entry. rewrite Ew, Ed. split.
  - intros [x [X [W D]]]. apply In' in X as [X Nx]. split; [eauto|]. intros Q. apply Nx. apply (wd_unique s); auto. congruence.
  - intros [[x [X [W D]]] Q]. exists x. split; [apply In'; split; [exact X|]|auto]. intros ->. congruence.
Qed.

Lemma set_same f n v : set f n v n = v.
Proof. unfold set. rewrite Nat.eqb_refl. reflexivity. Qed.
Lemma set_other f n v i : i <> n -> set f n v i = f i.
Proof. intros H. unfold set. apply Nat.eqb_neq in H. rewrite H. reflexivity. Qed.

Lemma add_ok s wd dt : J s -> (forall wd', entry s wd' dt -> wd' = wd) -> exists s', dircache_add s wd dt = Some s' /\ J s' /\
  (forall w d, entry s' w d <-> (w = wd /\ d = dt) \/ (entry s w d /\ w <> wd)) /\ (inc (dt_of s) (inorder (dt_root s)) -> inc (dt_of s') (inorder (dt_root s'))).
Proof.
  intros Js One. unfold dircache_add.
  assert (exists s1, match lookup_wd s wd with Some n => dircache_del s n | None => Some s end = Some s1 /\ J s1 /\ (forall w d, entry s1 w d <-> entry s w d /\ w <> wd) /\ (inc (dt_of s) (inorder (dt_root s)) -> inc (dt_of s1) (inorder (dt_root s1)))) as [s1 [-> [J1 [E1 S1]]]].
  { destruct (lookup_wd s wd) as [i|] eqn:L.
    - apply (find_wd s wd i Js) in L as [Li Lw]. destruct (del_ok s i Js Li) as [s1 [D [J1 [Ew [Ed [_ [In1 S1]]]]]]]. exists s1. split; [exact D|]. split; [exact J1|]. split; [|exact S1]. intros w d. rewrite (del_entry s s1 i w d Js Li Ew Ed In1), Lw. reflexivity.
    - exists s. split; [reflexivity|]. split; [exact Js|]. split; [|auto]. intros w d. split; [|tauto]. intros H. split; [exact H|]. intros ->. destruct H as [i [Hi [Wi _]]]. apply (conj Hi) in Wi. apply (find_wd s wd i Js) in Wi. congruence. }
  set (n := next s1). set (w := set (wd_of s1) n wd). set (d := set (dt_of s1) n dt).
  assert (forall i, In i (inorder (wd_root s1)) -> i <> n) as Fresh by (intros i Hi ->; apply (j_next _ J1) in Hi; unfold n in Hi; lia).
  assert (forall i, In i (inorder (dt_root s1)) -> i <> n) as Fresh' by (intros i Hi; apply Fresh, J1; exact Hi).
  destruct (insert_some w (wd_root s1) n) as [tw [a [b [Iw [A1 [A2 A3]]]]]].
  { intros i Hi. unfold w. rewrite set_same, set_other by auto. intros Q. assert (entry s1 wd (dt_of s1 i)) as En by (exists i; auto). apply E1 in En. tauto. }
  destruct (insert_some d (dt_root s1) n) as [td [a' [b' [Id [B1 [B2 B3]]]]]].
  { intros i Hi. unfold d. rewrite set_same, set_other by auto. intros Q. assert (entry s1 (wd_of s1 i) dt) as En by (exists i; split; [apply J1; exact Hi|auto]). apply E1 in En as [En Nw]. exact (Nw (One _ En)). }
  eexists. split; [reflexivity|]. unfold insert_or. rewrite Iw, Id.
  assert (forall i, In i (inorder tw) <-> i = n \/ In i (inorder (wd_root s1))) as Hw by (intros i; rewrite A1, A2, !in_app_iff; cbn; intuition congruence).
  assert (forall i, In i (inorder td) <-> i = n \/ In i (inorder (dt_root s1))) as Hd by (intros i; rewrite B1, B2, !in_app_iff; cbn; intuition congruence).
  split; [|split].
  - split; cbn.
    + rewrite A2. apply (NoDup_Add (a := n) (l := a ++ b)); [apply Add_app|]. rewrite <- A1. split; [apply J1|intros Z; exact (Fresh n Z eq_refl)].
    + rewrite B2. apply (NoDup_Add (a := n) (l := a' ++ b')); [apply Add_app|]. rewrite <- B1. split; [apply J1|intros Z; exact (Fresh' n Z eq_refl)].
    + intros i. rewrite Hw, Hd, (j_same _ J1). reflexivity.
    + intros i Hi. apply Hw in Hi as [->|Hi]; [unfold n; lia|apply (j_next _ J1) in Hi; unfold n; lia].
    + apply A3. eapply inc_ext; [|apply (j_inc _ J1)]. intros x X. unfold w. rewrite set_other by auto. reflexivity.
  - intros w' d'. unfold entry at 1. cbn [wd_root wd_of dt_of]. split.
    + intros [i [Hi [Wi Di]]]. apply Hw in Hi as [->|Hi]; [left; unfold w, d in *; rewrite set_same in *; auto|]. right. apply E1. exists i. unfold w, d in *. rewrite set_other in * by auto. auto.
    + intros [[-> ->]|En]; [exists n; unfold w, d; rewrite !set_same; split; [apply Hw; auto|auto]|]. apply E1 in En as [i [Hi [Wi Di]]]. exists i. unfold w, d. rewrite !set_other by auto. split; [apply Hw; auto|auto].
  - intros S. cbn. apply B3. eapply inc_ext; [|apply S1; exact S]. intros x X. unfold d. rewrite set_other by auto. reflexivity.
Qed.

(** The table [m] of the specification, and the state. *)
Definition agrees (s : st) (m : table) : Prop := forall wd dt, entry s wd dt <-> In (wd, dt) m.
Lemma filter_fst m wd w d : In (w, d) (filter (fun p : Z * Z => negb (fst p =? wd)) m) <-> In (w, d) m /\ w <> wd.
Proof. rewrite filter_In, negb_true_iff. cbn. rewrite Z.eqb_neq. reflexivity. Qed.
Lemma filter_snd m dt w d : In (w, d) (filter (fun p : Z * Z => negb (snd p =? dt)) m) <-> In (w, d) m /\ d <> dt.
Proof. rewrite filter_In, negb_true_iff. cbn. rewrite Z.eqb_neq. reflexivity. Qed.

Lemma find_dt s dt i : inc (dt_of s) (inorder (dt_root s)) -> (lookup_dt s dt = Some i <-> In i (inorder (dt_root s)) /\ dt_of s i = dt).
Proof. intros S. split; [apply search_some|]. intros [H <-]. apply search_in; assumption. Qed.
Lemma step_ok o s m : J s -> inc (dt_of s) (inorder (dt_root s)) -> agrees s m -> one_watch o m -> no_drop o m ->
  exists s', step o s = Some s' /\ J s' /\ inc (dt_of s') (inorder (dt_root s')) /\ agrees s' (meant_step o m).
Proof.
  intros Js S A O D. destruct o as [wd dt|dt|wd|wd]; cbn [step meant_step one_watch no_drop] in *.
  - destruct O as [_ O]. destruct (add_ok s wd dt Js) as [s' [E1 [J' [En S']]]]; [intros wd' X; apply O, A; exact X|]. exists s'. split; [exact E1|]. split; [exact J'|]. split; [auto|]. intros w d. rewrite En. cbn [In]. rewrite filter_fst, (A w d). split; [intros [[-> ->]|X]; auto|]. intros [X|X]; [injection X as <- <-; auto|auto].
  - destruct (lookup_dt s dt) as [i|] eqn:L.
    + apply (find_dt s dt i S) in L as [Li Ld]. apply (j_same _ Js) in Li. destruct (del_ok s i Js Li) as [s' [E1 [J' [Ew [Ed [_ [In1 S1]]]]]]]. exists s'. split; [exact E1|]. split; [exact J'|]. split; [auto|]. intros w d. rewrite (del_entry s s' i w d Js Li Ew Ed In1), filter_snd, (A w d). split; intros [X Y]; (split; [exact X|]).
      * intros ->. apply A in X as [j [Hj [Wj Dj]]]. apply Y. assert (lookup_dt s dt = Some j) as L1 by (apply (find_dt s dt j S); split; [apply Js; exact Hj|exact Dj]). assert (lookup_dt s dt = Some i) as L2 by (apply (find_dt s dt i S); split; [apply Js; exact Li|exact Ld]). congruence.
      * intros ->. apply Y. apply A in X as [j [Hj [Wj Dj]]]. rewrite (wd_unique s i j Js Li Hj) in Ld by congruence. congruence.
    + exists s. split; [reflexivity|]. split; [exact Js|]. split; [exact S|]. intros w d. rewrite filter_snd, (A w d). split; [|tauto]. intros X. split; [exact X|]. intros ->. apply A in X as [j [Hj [Wj Dj]]]. assert (lookup_dt s dt = Some j) by (apply (find_dt s dt j S); split; [apply Js; exact Hj|exact Dj]). congruence.
  - destruct (lookup_wd s wd) as [i|] eqn:L; [|exists s; auto]. exfalso. apply (find_wd s wd i Js) in L as [Li Lw]. apply (D (dt_of s i)). apply A. exists i. auto.
  - destruct (lookup_wd s wd) as [i|] eqn:L; [exfalso; apply (find_wd s wd i Js) in L as [Li Lw]; apply (D (dt_of s i)), A; exists i; auto|]. exists s. split; [reflexivity|]. split; [exact Js|]. split; [exact S|]. intros w d. rewrite filter_fst, (A w d). split; [|tauto]. intros X. split; [exact X|]. intros ->. exact (D d X).
Qed.
Lemma run_ok : forall os s m, J s -> inc (dt_of s) (inorder (dt_root s)) -> agrees s m -> holds one_watch os m -> holds no_drop os m ->
  exists s', run os s = Some s' /\ J s' /\ inc (dt_of s') (inorder (dt_root s')) /\ agrees s' (meant os m).
Proof.
  induction os as [|o os IH]; intros s m Js S A O D; cbn [run meant]; [exists s; auto|]. destruct O as [O1 O2]. destruct D as [D1 D2]. destruct (step_ok o s m Js S A O1 D1) as [s' [-> [J' [S' A']]]]. auto.
Qed.
