From Verif Require Import Base ExecModel ExecProofs GraphModel GraphProofs TentModel TentSpec TentProofs FileModel FileSpec.
From Coq Require Import ZArith Sorted.

Lemma beq_iff a b : bytes_eqb a b = true <-> a = b.
Proof. destruct (bytes_eqb_spec a b); split; congruence. Qed.

Lemma drop_In f l g : In g (drop f l) <-> In g l /\ g <> f.
Proof.
  unfold drop. rewrite filter_In, negb_true_iff. destruct (bytes_eqb_spec g f) as [E|E]; intuition congruence.
Qed.
Lemma renamed_In a b l g : In g (renamed a b l) <-> (g = b /\ In a l) \/ (In g l /\ g <> a).
Proof.
  unfold renamed. rewrite in_map_iff. split.
  - intros [x [E H]]. destruct (bytes_eqb_spec x a) as [Ex|D]; [subst; left; auto|]. subst. right. auto.
  - intros [[-> H]|[H D]].
    + exists a. split; [|exact H]. destruct (bytes_eqb_spec a a); congruence.
    + exists g. split; [|exact H]. destruct (bytes_eqb_spec g a); congruence.
Qed.
Lemma renamed_current a b l g : In g (renamed a b l) <-> exists x, In x l /\ g = if bytes_eqb x a then b else x.
Proof. unfold renamed. rewrite in_map_iff. split; intros [x [H1 H2]]; exists x; auto. Qed.

Lemma events_reads l : forall i f, In f (reads (handle_events l i)) <->
  (exists x, In x (reads i) /\ f = current x l) \/ (exists l1 x l2, l = l1 ++ ERead x :: l2 /\ f = current x l2).
Proof.
  induction l as [|e l IH]; intros i f.
  - cbn. split; [intros H; left; exists f; auto|]. intros [[x [H ->]]|[l1 [x [l2 [E _]]]]]; [exact H|destruct l1; discriminate].
  - cbn [handle_events]. rewrite IH.
    assert (forall P : list event -> bytes -> Prop, (exists l1 x l2, e :: l = l1 ++ ERead x :: l2 /\ P l2 x) <->
      (exists x, e = ERead x /\ P l x) \/ exists l1 x l2, l = l1 ++ ERead x :: l2 /\ P l2 x) as Q.
    { intros P. split.
      - intros [[|e' l1] [x [l2 [E H]]]]; injection E as -> E; [subst; left; exists x; auto|]. right. exists l1, x, l2. auto.
      - intros [[x [-> H]]|[l1 [x [l2 [-> H]]]]]; [exists [], x, l; auto|]. exists (e :: l1), x, l2. auto. }
    rewrite Q. clear Q. destruct e as [g|g|g|g|a b]; cbn [handle_event reads current].
    1:{ split.
      - intros [[x [H E]]|H]; [|auto]. apply in_app_or in H. destruct H as [H|[<-|[]]]; [left; exists x; auto|].
        right. left. exists g. auto.
      - intros [[x [H E]]|[[x [E1 E2]]|H]]; [left; exists x; split; [apply in_or_app; auto|exact E]| |auto].
        injection E1 as <-. left. exists g. split; [apply in_or_app; right; left; reflexivity|exact E2]. }
    1,2,3: split; [intros [H|H]; auto|intros [H|[[x [E _]]|H]]; [auto|discriminate|auto]].
    split.
    + intros [[x [H E]]|H]; [|auto]. apply renamed_current in H. destruct H as [y [H1 ->]]. left. exists y. auto.
    + intros [[y [H E]]|[[x [E _]]|H]]; [|discriminate|auto]. left. eexists. split; [|exact E].
      apply renamed_current. exists y. auto.
Qed.
Lemma events_writes l : forall i f, In f (writes (handle_events l i)) <->
  (exists x, In x (writes i) /\ f = current x l) \/ (exists l1 x l2, l = l1 ++ EWrite x :: l2 /\ f = current x l2).
Proof.
  induction l as [|e l IH]; intros i f.
  - cbn. split; [intros H; left; exists f; auto|]. intros [[x [H ->]]|[l1 [x [l2 [E _]]]]]; [exact H|destruct l1; discriminate].
  - cbn [handle_events]. rewrite IH.
    assert (forall P : list event -> bytes -> Prop, (exists l1 x l2, e :: l = l1 ++ EWrite x :: l2 /\ P l2 x) <->
      (exists x, e = EWrite x /\ P l x) \/ exists l1 x l2, l = l1 ++ EWrite x :: l2 /\ P l2 x) as Q.
    { intros P. split.
      - intros [[|e' l1] [x [l2 [E H]]]]; injection E as -> E; [subst; left; exists x; auto|]. right. exists l1, x, l2. auto.
      - intros [[x [-> H]]|[l1 [x [l2 [-> H]]]]]; [exists [], x, l; auto|]. exists (e :: l1), x, l2. auto. }
    rewrite Q. clear Q. destruct e as [g|g|g|g|a b]; cbn [handle_event writes current].
    2:{ split.
      - intros [[x [H E]]|H]; [|auto]. apply in_app_or in H. destruct H as [H|[<-|[]]]; [left; exists x; auto|].
        right. left. exists g. auto.
      - intros [[x [H E]]|[[x [E1 E2]]|H]]; [left; exists x; split; [apply in_or_app; auto|exact E]| |auto].
        injection E1 as <-. left. exists g. split; [apply in_or_app; right; left; reflexivity|exact E2]. }
    1,2,3: split; [intros [H|H]; auto|intros [H|[[x [E _]]|H]]; [auto|discriminate|auto]].
    split.
    + intros [[x [H E]]|H]; [|auto]. apply renamed_current in H. destruct H as [y [H1 ->]]. left. exists y. auto.
    + intros [[y [H E]]|[[x [E _]]|H]]; [|discriminate|auto]. left. eexists. split; [|exact E].
      apply renamed_current. exists y. auto.
Qed.

Definition quiet (f : bytes) (l : list event) : Prop := forall e, In e l -> e <> EWrite f /\ forall a, e <> ERename a f.
Lemma events_unlinks l : forall i f, In f (unlinks (handle_events l i)) <-> (In f (unlinks i) /\ quiet f l) \/ removed l f.
Proof.
  induction l as [|e l IH]; intros i f.
  - cbn. split; [intros H; left; split; [exact H|intros e []]|]. intros [[H _]|[l1 [l2 [E _]]]]; [exact H|destruct l1; discriminate].
  - cbn [handle_events]. rewrite IH.
    assert (removed (e :: l) f <-> (e = EUnlink f /\ quiet f l) \/ removed l f) as Q.
    { split.
      - intros [[|e' l1] [l2 [E H]]]; injection E as -> E; [subst; left; auto|]. right. exists l1, l2. auto.
      - intros [[-> H]|[l1 [l2 [-> H]]]]; [exists [], l; auto|]. exists (e :: l1), l2. auto. }
    assert (quiet f (e :: l) <-> (e <> EWrite f /\ forall a, e <> ERename a f) /\ quiet f l) as Q2.
    { unfold quiet. cbn [In]. split; [intros H; split; [apply H; auto|intros e' He'; apply H; auto]|].
      intros [H1 H2] e' [<-|He']; auto. }
    rewrite Q, Q2. clear Q Q2. destruct e as [g|g|g|g|a b]; cbn [handle_event unlinks].
    + intuition congruence.
    + rewrite drop_In. split; [intros [[[H1 H2] H3]|H]; [left; split; [exact H1|split; [split; congruence|exact H3]]|auto]|].
      intros [[H1 [[H2 _] H3]]|[[H _]|H]]; [left; split; [split; [exact H1|congruence]|exact H3]|discriminate|auto].
    + rewrite in_app_iff. cbn [In]. split.
      * intros [[[H|[H|[]]] H3]|H]; [left|right; left|auto]; [split; [exact H|split; [split; congruence|exact H3]]|subst; auto].
      * intros [[H1 [_ H3]]|[[H1 H3]|H]]; [auto|injection H1 as ->; auto|auto].
    + intuition congruence.
    + rewrite drop_In. split.
      * intros [[[H1 H2] H3]|H]; [left; split; [exact H1|split; [split; [discriminate|]|exact H3]]|auto]. intros x E. congruence.
      * intros [[H1 [[_ H2] H3]]|[[H _]|H]]; [left; split; [split; [exact H1|]|exact H3]|discriminate|auto].
        intros ->. exact (H2 a eq_refl).
Qed.

Lemma handle_unlink_spec i : 
  (forall f, In f (reads (handle_unlink i)) <-> In f (reads i) /\ ~ In f (unlinks i)) /\
  (forall f, In f (writes (handle_unlink i)) <-> In f (writes i) /\ ~ In f (unlinks i)).
Proof.
  unfold handle_unlink.
  assert (forall us i, let i' := fold_left (fun i u => {| reads := drop u (reads i); writes := drop u (writes i); unlinks := tl (unlinks i); vars := vars i |}) us i in
    (forall f, In f (reads i') <-> In f (reads i) /\ ~ In f us) /\ (forall f, In f (writes i') <-> In f (writes i) /\ ~ In f us)) as Q.
  { clear i. induction us as [|u us IH]; intros i i'.
    - split; intros f; cbn; tauto.
    - unfold i'. cbn [fold_left]. destruct (IH {| reads := drop u (reads i); writes := drop u (writes i); unlinks := tl (unlinks i); vars := vars i |}) as [I1 I2].
      split; intros f; [rewrite I1|rewrite I2]; cbn [reads writes In]; rewrite drop_In; intuition congruence. }
  apply Q.
Qed.

Theorem reads_spec l f : In f (reads (handle_unlink (handle_events l finfo0))) <->
  (exists l1 x l2, l = l1 ++ ERead x :: l2 /\ f = current x l2) /\ ~ removed l f.
Proof.
  rewrite (proj1 (handle_unlink_spec _)), events_reads, events_unlinks. cbn [reads unlinks finfo0]. split.
  - intros [[[x [[] _]]|H] N]. split; [exact H|tauto].
  - intros [H N]. split; [auto|]. intros [[[] _]|R]. exact (N R).
Qed.
Theorem writes_spec l f : In f (writes (handle_unlink (handle_events l finfo0))) <->
  (exists l1 x l2, l = l1 ++ EWrite x :: l2 /\ f = current x l2) /\ ~ removed l f.
Proof.
  rewrite (proj2 (handle_unlink_spec _)), events_writes, events_unlinks. cbn [writes unlinks finfo0]. split.
  - intros [[[x [[] _]]|H] N]. split; [exact H|tauto].
  - intros [H N]. split; [auto|]. intros [[[] _]|R]. exact (N R).
Qed.

Lemma own_inv l : forall i o, (forall f, In f (writes i) /\ ~ In f (unlinks i) <-> In f o) -> renames_own l o ->
  forall f, In f (writes (handle_events l i)) /\ ~ In f (unlinks (handle_events l i)) <-> In f (own l o).
Proof.
  induction l as [|e l IH]; intros i o H R; [exact H|].
  destruct R as [R1 R2]. cbn [handle_events own]. apply IH; [|exact R2]. clear IH R2.
  intros f. destruct e as [g|g|g|g|a b]; cbn [handle_event own_step writes unlinks]; try apply H.
  - rewrite in_app_iff, drop_In. cbn [In]. rewrite <- H. destruct (bytes_eq_dec g f) as [->|D].
    + split; [auto|]. intros _. split; [auto|tauto].
    + intuition congruence.
  - rewrite in_app_iff, filter_In, <- H, negb_true_iff. cbn [In].
    destruct (bytes_eqb_spec f g) as [->|D]; [intuition congruence|]. intuition congruence.
  - rewrite renamed_In, drop_In. cbn [In]. rewrite filter_In, negb_true_iff, <- H. apply H in R1.
    destruct (bytes_eq_dec b f) as [->|D]; [tauto|].
    destruct (bytes_eqb_spec f a) as [->|D2]; [intuition congruence|]. intuition congruence.
Qed.

Theorem writes_are_own l f : renames_own l [] ->
  In f (writes (handle_unlink (handle_events l finfo0))) <-> In f (own l []).
Proof.
  intros R. rewrite (proj2 (handle_unlink_spec _)). apply own_inv; [|exact R]. intros g. cbn. tauto.
Qed.

(** ** update_write_info *)
Section Write.
Variable hidden excluded ignorable : bytes -> bool.
Variable lookup : bytes -> option id.
Variable do_unlink : bool.
Notation wloop := (write_loop hidden excluded ignorable lookup do_unlink).

Definition visible (w : bytes) : Prop := hidden w = false /\ excluded w = false.
Hypothesis LS : forall w x, lookup w = Some x -> (Z.of_nat x < 2 ^ 31)%Z.

Lemma add_dup_spec t x : sorted t -> small (x :: t) ->
  sorted (tree_add_dup t x) /\ small (tree_add_dup t x) /\ forall y, In y (tree_add_dup t x) <-> y = x \/ In y t.
Proof.
  intros So Sm. unfold tree_add_dup. pose proof (tree_add_spec t x So Sm) as A. destruct (tree_add t x) as [t'|].
  - destruct A as [A1 [A2 A3]]. split; [exact A2|]. split; [|exact A3]. intros y Hy. apply Sm. apply A3 in Hy. destruct Hy; [left|right]; auto.
  - split; [exact So|]. split; [intros y Hy; apply Sm; right; exact Hy|]. intros y. split; [auto|]. intros [->|H]; auto.
Qed.

Lemma filter_length_le {A} (f : A -> bool) l : length (filter f l) <= length l.
Proof. induction l as [|x l IH]; [cbn; lia|]. cbn [filter length]. destruct (f x); cbn [length]; lia. Qed.

Definition names (l : list mapping) : list bytes := map realname l.
(** Mappings whose file has not been seen yet have no entry. *)
Definition maps_ok (P : bytes -> Prop) (l : list mapping) : Prop :=
  forall m x, In m l -> mtent m = Some x -> P (realname m) /\ lookup (realname m) = Some x.

Lemma del_map_name_In f l : NoDup (names l) -> forall m, In m (del_map_name f l) <-> In m l /\ realname m <> f.
Proof.
  induction l as [|m l IH]; intros ND m'; [cbn; tauto|]. cbn [names map] in ND. inversion ND as [|? ? N1 N2]; subst.
  cbn [del_map_name]. destruct (bytes_eqb_spec (realname m) f) as [E|E].
  - cbn [In]. split; [|intros [[->|H] C]; congruence]. intros H. split; [auto|]. intros C. apply N1. rewrite E, <- C. apply in_map. exact H.
  - cbn [In]. rewrite (IH N2). split; [intros [->|H]; tauto|tauto].
Qed.
Lemma del_map_name_NoDup f l : NoDup (names l) -> NoDup (names (del_map_name f l)).
Proof.
  induction l as [|m l IH]; intros ND; [constructor|]. cbn [names map] in ND. inversion ND as [|? ? N1 N2]; subst.
  cbn [del_map_name]. destruct (bytes_eqb (realname m) f); [exact N2|]. cbn [names map]. constructor; [|exact (IH N2)].
  intros C. apply N1. apply in_map_iff in C. destruct C as [m' [<- H]]. apply (del_map_name_In f l N2) in H. apply in_map. tauto.
Qed.
Lemma set_map_In f x l m : In m (set_map f x l) <->
  (In m l /\ realname m <> f) \/
  (exists m0, In m0 l /\ realname m0 = f /\ m = {| realname := f; tmpname := tmpname m0; mtent := Some x |}) \/
  ((forall m0, In m0 l -> realname m0 <> f) /\ m = {| realname := f; tmpname := f; mtent := Some x |}).
Proof.
  unfold set_map. set (l' := map _ l).
  assert (In m l' <-> (In m l /\ realname m <> f) \/
     (exists m0, In m0 l /\ realname m0 = f /\ m = {| realname := f; tmpname := tmpname m0; mtent := Some x |})) as Q.
  { unfold l'. rewrite in_map_iff. split.
    - intros [m0 [E H]]. destruct (bytes_eqb_spec (realname m0) f) as [D|D].
      + right. exists m0. split; [exact H|]. split; [exact D|]. rewrite <- E, D. reflexivity.
      + left. subst. auto.
    - intros [[H D]|[m0 [H [D ->]]]].
      + exists m. destruct (bytes_eqb_spec (realname m) f); [contradiction|auto].
      + exists m0. destruct (bytes_eqb_spec (realname m0) f); [|contradiction]. rewrite D. auto. }
  destruct (existsb _ l) eqn:E.
  - apply existsb_exists in E. destruct E as [m0 [H0 E0]]. apply beq_iff in E0. rewrite Q. split; [tauto|].
    intros [H|[H|[H _]]]; [auto|auto|]. exfalso. exact (H m0 H0 E0).
  - assert (forall m0, In m0 l -> realname m0 <> f) as N.
    { intros m0 H0 C. assert (existsb (fun m => bytes_eqb (realname m) f) l = true); [|congruence].
      apply existsb_exists. exists m0. split; [exact H0|]. apply beq_iff. exact C. }
    rewrite in_app_iff, Q. cbn [In]. split; [intros [H|[H|[]]]; [tauto|right; right; auto]|].
    intros [H|[H|[_ H]]]; [auto|auto|]. right. left. auto.
Qed.
Lemma set_map_NoDup f x l : NoDup (names l) -> NoDup (names (set_map f x l)).
Proof.
  intros ND. unfold set_map. set (l' := map _ l).
  assert (names l' = names l) as E.
  { unfold names, l'. rewrite map_map. apply map_ext. intros m. destruct (bytes_eqb (realname m) f); reflexivity. }
  destruct (existsb _ l) eqn:Ex; [rewrite E; exact ND|]. unfold names in *. rewrite map_app. fold (names l'). unfold names. rewrite E. cbn [map realname].
  apply NoDup_app_intro; [exact ND|repeat constructor; intros []|]. intros y H1 [<-|[]].
  apply in_map_iff in H1. destruct H1 as [m [H1 H2]]. assert (existsb (fun m => bytes_eqb (realname m) f) l = true); [|congruence].
  apply existsb_exists. exists m. split; [exact H2|]. apply beq_iff. exact H1.
Qed.

Lemma write_loop_spec n : forall ws s, length ws <= n -> sorted (wtree s) -> small (wtree s) ->
  NoDup (names (wmaps s)) ->
  (forall m x, In m (wmaps s) -> mtent m = Some x -> lookup (realname m) = Some x) ->
  match wloop n ws s with
  | Some s' =>
      (forall w, In w ws -> hidden w = false -> excluded w = true -> ignorable w = true) /\
      sorted (wtree s') /\ small (wtree s') /\
      (forall x, In x (wtree s') <-> In x (wtree s) \/ exists w, In w ws /\ visible w /\ lookup w = Some x) /\
      (wbork s' = true <-> wbork s = true \/ exists w, In w ws /\ visible w /\ lookup w = None) /\
      NoDup (names (wmaps s')) /\
      (forall m x, In m (wmaps s') -> mtent m = Some x -> lookup (realname m) = Some x) /\
      (forall m, In m (wmaps s') -> In (realname m) ws -> visible (realname m) -> mtent m <> None) /\
      (forall f, In f (wdeleted s') <-> In f (wdeleted s) \/ (do_unlink = true /\ In f ws /\ visible f /\ lookup f = None)) /\
      (forall f, In f (wignored s') <-> In f (wignored s) \/ (In f ws /\ hidden f = false /\ excluded f = true)) /\
      (forall m, In m (wmaps s') -> ~ (In (realname m) ws /\ visible (realname m)) -> In m (wmaps s))
  | None => exists w, In w ws /\ hidden w = false /\ excluded w = true /\ ignorable w = false
  end.
Proof.
  induction n as [|n IH]; intros ws s Hn So Sm ND ML.
  - destruct ws; [|cbn in Hn; lia]. cbn [write_loop]. split; [intros w []|]. split; [exact So|]. split; [exact Sm|].
    split; [intros x; split; [auto|intros [H|[w [[] _]]]; exact H]|]. split; [split; [auto|intros [H|[w [[] _]]]; exact H]|].
    split; [exact ND|]. split; [exact ML|]. split; [intros m _ []|]. split; [intros f; split; [auto|intros [H|[_ [[] _]]]; exact H]|].
    split; [intros f; split; [auto|intros [H|[[] _]]; exact H]|]. intros m H _; exact H.
  - destruct ws as [|w r]; cbn [write_loop].
    + split; [intros w []|]. split; [exact So|]. split; [exact Sm|].
    split; [intros x; split; [auto|intros [H|[w [[] _]]]; exact H]|]. split; [split; [auto|intros [H|[w [[] _]]]; exact H]|].
    split; [exact ND|]. split; [exact ML|]. split; [intros m _ []|]. split; [intros f; split; [auto|intros [H|[_ [[] _]]]; exact H]|].
    split; [intros f; split; [auto|intros [H|[[] _]]; exact H]|]. intros m H _; exact H.
    + cbn [length] in Hn. destruct (hidden w) eqn:Hw; [|destruct (excluded w) eqn:Ew; [destruct (ignorable w) eqn:Iw|]].
      * set (s1 := {| wtree := wtree s; wbork := _; wmaps := _; wdeleted := _; wignored := _; wwarn := _ |}).
        assert (length r <= n) as Hr by lia. specialize (IH r s1 Hr So Sm ND ML). destruct (wloop n r s1) as [s'|].
        2:{ destruct IH as [v [H1 H2]]. exists v. split; [right; exact H1|exact H2]. }
        destruct IH as [A0 [A1 [A2 [A3 [A4 [A5 [A6 [A7 [A8 [A9 A10]]]]]]]]]]. cbn [s1 wtree wbork wmaps wdeleted wignored] in *.
        assert (~ visible w) as NV by (intros [C _]; congruence).
        split; [intros v [<-|Hv]; [congruence|apply A0; exact Hv]|]. split; [exact A1|]. split; [exact A2|].
        split; [intros x; rewrite A3; split; (intros [H|[v [H1 H2]]]; [auto|right; exists v; split; [|exact H2]]);
                [right; exact H1|destruct H1 as [<-|H1]; [tauto|exact H1]]|].
        split; [rewrite A4; split; (intros [H|[v [H1 H2]]]; [auto|right; exists v; split; [|exact H2]]);
                [right; exact H1|destruct H1 as [<-|H1]; [tauto|exact H1]]|].
        split; [exact A5|]. split; [exact A6|]. split.
        { intros m Hm [E|H] V; [rewrite <- E in V; contradiction|exact (A7 m Hm H V)]. }
        split; [intros f; rewrite A8; cbn [In]; split; [tauto|intros [H|[H1 [[E|H2] [V H3]]]]; [auto|rewrite <- E in V; contradiction|tauto]]|].
        split; [intros f; rewrite A9; cbn [In]; split; [tauto|intros [H|[[E|H2] [V H3]]]; [auto|congruence|tauto]]|].
        intros m Hm N. apply A10; [exact Hm|]. intros [H V]. apply N. split; [right; exact H|exact V].
      * set (s1 := {| wtree := wtree s; wbork := _; wmaps := _; wdeleted := _; wignored := _; wwarn := _ |}).
        assert (length r <= n) as Hr by lia. specialize (IH r s1 Hr So Sm ND ML). destruct (wloop n r s1) as [s'|].
        2:{ destruct IH as [v [H1 H2]]. exists v. split; [right; exact H1|exact H2]. }
        destruct IH as [A0 [A1 [A2 [A3 [A4 [A5 [A6 [A7 [A8 [A9 A10]]]]]]]]]]. cbn [s1 wtree wbork wmaps wdeleted wignored] in *.
        assert (~ visible w) as NV by (intros [_ C]; congruence).
        split; [intros v [<-|Hv]; [auto|apply A0; exact Hv]|]. split; [exact A1|]. split; [exact A2|].
        split; [intros x; rewrite A3; split; (intros [H|[v [H1 H2]]]; [auto|right; exists v; split; [|exact H2]]);
                [right; exact H1|destruct H1 as [<-|H1]; [tauto|exact H1]]|].
        split; [rewrite A4; split; (intros [H|[v [H1 H2]]]; [auto|right; exists v; split; [|exact H2]]);
                [right; exact H1|destruct H1 as [<-|H1]; [tauto|exact H1]]|].
        split; [exact A5|]. split; [exact A6|]. split.
        { intros m Hm [E|H] V; [rewrite <- E in V; contradiction|exact (A7 m Hm H V)]. }
        split; [intros f; rewrite A8; cbn [In]; split; [tauto|intros [H|[H1 [[E|H2] [V H3]]]]; [auto|rewrite <- E in V; contradiction|tauto]]|].
        split; [intros f; rewrite A9, in_app_iff; cbn [In]; split; [intros [[H|[<-|[]]]|H]; tauto|intros [H|[[E|H2] [V H3]]]; [auto|auto|tauto]]|].
        intros m Hm N. apply A10; [exact Hm|]. intros [H V]. apply N. split; [right; exact H|exact V].
      * exists w. split; [left; reflexivity|auto].
      * assert (visible w) as V by (split; assumption).
        set (s1 := match lookup w with None => _ | Some x => _ end).
        assert (length (drop w r) <= n) as Hr by (unfold drop; pose proof (filter_length_le (fun g => negb (bytes_eqb g w)) r); lia).
        assert (sorted (wtree s1) /\ small (wtree s1) /\ (forall x, In x (wtree s1) <-> In x (wtree s) \/ lookup w = Some x)) as [So1 [Sm1 T1]].
        { unfold s1. destruct (lookup w) as [x|] eqn:L; cbn [wtree].
          - destruct (add_dup_spec (wtree s) x So) as [B1 [B2 B3]]; [intros y [<-|Hy]; [exact (LS w x L)|exact (Sm y Hy)]|].
            split; [exact B1|]. split; [exact B2|]. intros y. rewrite B3. split; [intros [->|H]; auto|intros [H|H]; [auto|left; congruence]].
          - split; [exact So|]. split; [exact Sm|]. intros y. split; [auto|]. intros [H|H]; [exact H|discriminate]. }
        assert (NoDup (names (wmaps s1))) as ND1.
        { unfold s1. destruct (lookup w); [apply set_map_NoDup|apply del_map_name_NoDup]; exact ND. }
        assert (forall m x, In m (wmaps s1) -> mtent m = Some x -> lookup (realname m) = Some x) as ML1.
        { unfold s1. destruct (lookup w) as [x|] eqn:L; cbn [wmaps]; intros m y Hm Ey.
          - apply set_map_In in Hm. destruct Hm as [[Hm _]|[[m0 [_ [_ ->]]]|[_ ->]]]; cbn in *; [exact (ML m y Hm Ey)|congruence|congruence].
          - apply (del_map_name_In w _ ND) in Hm. exact (ML m y (proj1 Hm) Ey). }
        specialize (IH (drop w r) s1 Hr So1 Sm1 ND1 ML1). destruct (wloop n (drop w r) s1) as [s'|].
        2:{ destruct IH as [v [H1 H2]]. apply drop_In in H1. exists v. split; [right; tauto|exact H2]. }
        destruct IH as [A0 [A1 [A2 [A3 [A4 [A5 [A6 [A7 [A8 [A9 A10]]]]]]]]]].
        assert (forall v, In v (w :: r) <-> v = w \/ In v (drop w r)) as WR.
        { intros v. cbn [In]. rewrite drop_In. destruct (bytes_eq_dec w v) as [->|D]; [tauto|]. intuition congruence. }
        split; [intros v Hv; apply WR in Hv; destruct Hv as [->|Hv]; [congruence|apply A0; exact Hv]|].
        split; [exact A1|]. split; [exact A2|]. split.
        { intros x. rewrite A3, T1. split.
          - intros [[H|H]|[v [H1 H2]]]; [auto|right; exists w; split; [left; reflexivity|auto]|].
            right. exists v. split; [apply WR; auto|exact H2].
          - intros [H|[v [H1 [H2 H3]]]]; [auto|]. apply WR in H1. destruct H1 as [->|H1]; [auto|]. right. exists v. auto. }
        split.
        { rewrite A4. unfold s1. destruct (lookup w) as [x|] eqn:L; cbn [wbork].
          - split.
            + intros [H|[v [H1 H2]]]; [auto|]. right. exists v. split; [apply WR; auto|exact H2].
            + intros [H|[v [H1 [H2 H3]]]]; [auto|]. apply WR in H1. destruct H1 as [->|H1]; [congruence|]. right. exists v. auto.
          - split; [|auto]. intros _. right. exists w. split; [left; reflexivity|auto]. }
        split; [exact A5|]. split; [exact A6|]. split.
        { intros m Hm H Vm. apply WR in H. destruct H as [E|H]; [|exact (A7 m Hm H Vm)].
          assert (In m (wmaps s1)) as H1.
          { apply A10; [exact Hm|]. rewrite E, drop_In. tauto. }
          unfold s1 in H1. destruct (lookup w) as [x|] eqn:L; cbn [wmaps] in H1.
          - apply set_map_In in H1. destruct H1 as [[_ C]|[[m0 [_ [_ ->]]]|[_ ->]]]; [contradiction|discriminate|discriminate].
          - apply (del_map_name_In w _ ND) in H1. tauto. }
        split.
        { intros f. rewrite A8, WR. unfold s1. destruct (lookup w) as [x|] eqn:L; cbn [wdeleted].
          - split; [tauto|]. intros [H|[H1 [[->|H2] H3]]]; [auto|destruct H3; congruence|tauto].
          - destruct do_unlink; [rewrite in_app_iff; cbn [In]|]; split.
            + intros [[H|[<-|[]]]|H]; tauto.
            + intros [H|[H1 [[->|H2] H3]]]; tauto.
            + tauto.
            + intros [H|[H1 _]]; [auto|discriminate]. }
        split.
        { intros f. rewrite A9, WR. replace (wignored s1) with (wignored s) by (unfold s1; destruct (lookup w); reflexivity).
          split; [tauto|]. intros [H|[[->|H2] H3]]; [auto|destruct H3; congruence|tauto]. }
        intros m Hm N. assert (~ (In (realname m) (drop w r) /\ visible (realname m))) as N' by (intros [H1 H2]; apply N; split; [apply WR; auto|exact H2]).
        specialize (A10 m Hm N'). assert (realname m <> w) as Nw by (intros C; apply N; rewrite C; split; [left; reflexivity|exact V]).
        unfold s1 in A10. destruct (lookup w) as [x|] eqn:L; cbn [wmaps] in A10.
        -- apply set_map_In in A10. destruct A10 as [[H _]|[[m0 [_ [_ ->]]]|[_ ->]]]; [exact H|cbn in Nw; congruence|cbn in Nw; congruence].
        -- apply (del_map_name_In w _ ND) in A10. tauto.
Qed.
End Write.
