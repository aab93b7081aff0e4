(** Whole updates, histories, and circles that are noticed. *)
From Coq Require Import List Bool Arith Lia Relations Permutation.
From Verif Require Import OrderModel OrderSpec OrderProofs.
Import ListNotations.

(** ** All nodes of the graph *)

Lemma filter_ne_In : forall t l x, In x (filter (fun y => negb (Nat.eqb y t)) l) <-> In x l /\ x <> t.
Proof.
  intros t l x. rewrite filter_In, negb_true_iff, Nat.eqb_neq. tauto.
Qed.

Lemma filter_filter_le : forall (f g : nat -> bool) l, length (filter f (filter g l)) <= length (filter f l).
Proof.
  intros f g l. induction l as [|a l IH]; cbn; [lia|].
  destruct (g a); cbn; destruct (f a); cbn; lia.
Qed.

Lemma filter_length_le : forall (f : nat -> bool) l, length (filter f l) <= length l.
Proof. intros f l. induction l as [|a l IH]; cbn; [lia | destruct (f a); cbn; lia]. Qed.

Definition pop (t : nat) (st : pst) : pst :=
  Pst (p_files st) (p_links st) (p_delete st) (filter (fun x => negb (Nat.eqb x t)) (p_graph st))
      (p_parsing st) (p_used st) (p_log st).

Lemma pop_inv : forall P tch G0 L0 t stk st, Inv P tch G0 L0 stk st -> In t (p_parsing st) ->
  (forall x, In x stk -> x = t) -> fin P tch G0 stk t st ->
  Inv P tch G0 L0 [] (pop t st).
Proof.
  intros P tch G0 L0 t stk st [a b c d e f g h i j] T S F.
  assert (W : forall s, fin P tch G0 stk s st -> fin P tch G0 [] s (pop t st)).
  { intros s H. apply (fin_move P tch G0 stk [] s st (pop t st) H).
    - split; intros; unfold pop, present; cbn; tauto.
    - intros u [_ X]. split; [split; [intros [] | exact X]|]. split; intros; unfold pop, present; cbn; tauto. }
  constructor; cbn.
  - intros x X. apply filter_ne_In in X. apply a, X.
  - exact b.
  - exact c.
  - intros x [].
  - intros x [].
  - intros s X Y. apply filter_ne_In in Y. destruct Y as [Y Z]. destruct (f s X Y) as [V | V]; [auto|].
    specialize (S _ V). contradiction.
  - exact g.
  - intros s X. destruct (Nat.eq_dec s t) as [-> | N]; [auto|].
    destruct (h s X) as [Y | Y]; [left; apply filter_ne_In; auto | auto].
  - intros s X _. apply W. destruct (Nat.eq_dec s t) as [-> | N]; [exact F|].
    apply i; [exact X|]. intros V. apply N, S, V.
  - exact j.
Qed.

Lemma pops_good : forall P tch G0 L0 fuel order st,
  Inv P tch G0 L0 [] st -> incl (p_used st) (p_parsing st) -> NoDup order ->
  (forall x, In x (p_graph st) <-> In x order) -> left_over st < fuel ->
  match pops fuel P tch order st with
  | Done st' =>
      Inv P tch G0 L0 [] st' /\ (forall x, ~ In x (p_graph st')) /\ incl (p_parsing st) (p_parsing st') /\
      (forall s, framed st st' s -> same_for st st' s)
  | Circular => exists s, on_circle P s
  | NoFuel => False
  end.
Proof.
  intros P tch G0 L0 fuel order. induction order as [|t order IH]; intros st I U N O L; cbn [pops].
  - split; [exact I|]. split; [intros x X; apply O in X; exact X|]. split; [apply incl_refl|].
    intros. apply same_for_refl.
  - inversion N as [|? ? Nt No]; subst.
    assert (Gt : In t (p_graph st)) by (apply O; left; reflexivity).
    assert (K : match create_work fuel P tch t st with
                | Done st1 => Inv P tch G0 L0 [] st1 /\ incl (p_used st1) (p_parsing st1) /\
                    incl (p_parsing st) (p_parsing st1) /\
                    (forall x, In x (p_graph st1) <-> In x (p_graph st) /\ x <> t) /\
                    left_over st1 < fuel /\
                    (forall s, framed st st1 s -> same_for st st1 s)
                | Circular => exists s, on_circle P s
                | NoFuel => False
                end).
    { unfold create_work. destruct (mem t (p_used st)) eqn:Ut; cbn [rbind].
      - apply mem_In in Ut. change (Pst _ _ _ _ _ _ _) with (pop t st).
        split; [|split; [exact U|split; [apply incl_refl|split; [|split]]]].
        + apply (pop_inv P tch G0 L0 t [] st I); [apply U, Ut | intros x [] |].
          apply (i_fin _ _ _ _ _ _ I); [apply U, Ut | intros []].
        + intros x. apply filter_ne_In.
        + eapply Nat.le_lt_trans; [|exact L]. apply filter_filter_le.
        + intros s _. split; intros; unfold pop, present; cbn; tauto.
      - apply mem_nIn in Ut.
        assert (Np : ~ In t (p_parsing st)).
        { intros X. destruct (i_used _ _ _ _ _ _ I t X Gt) as [Y | []]. contradiction. }
        pose proof (parse_is_good P tch G0 L0 fuel t [] st I Gt
                      ltac:(intros X; contradiction) ltac:(intros x X; right; apply U, X)
                      ltac:(intros s []) L) as Q.
        destruct (parse fuel P tch t st) as [st1| |]; cbn [rbind]; [|exact Q|exact Q].
        destruct Q as (_ & A & B & D & F & G & H). change (Pst _ _ _ _ _ _ _) with (pop t st1).
        split; [|split; [exact D|split; [apply (g_parsing _ _ B)|split; [|split]]]].
        + apply (pop_inv P tch G0 L0 t [t] st1 A F); [intros x [<- | []]; reflexivity | exact G].
        + intros x. unfold pop. cbn. rewrite (g_graph _ _ B). apply filter_ne_In.
        + pose proof (left_over_le st st1 (g_graph _ _ B) (g_used _ _ B)) as X.
          eapply Nat.le_lt_trans; [|exact L]. eapply Nat.le_trans; [|exact X]. apply filter_filter_le.
        + intros s S. apply (same_for_trans _ st1); [apply H, S|].
          split; intros; unfold pop, present; cbn; tauto. }
    destruct (create_work fuel P tch t st) as [st1| |]; cbn [rbind]; [|exact K|exact K].
    destruct K as (A & B & C & D & E & F).
    assert (O1 : forall x, In x (p_graph st1) <-> In x order).
    { intros x. rewrite (D x), (O x). cbn. split.
      - intros [[<- | X] Y]; [congruence | exact X].
      - intros X. split; [auto|]. intros ->. contradiction. }
    specialize (IH st1 A B No O1 E).
    destruct (pops fuel P tch order st1) as [st'| |]; [|exact IH|exact IH].
    destruct IH as (A' & B' & C' & D').
    split; [exact A'|]. split; [exact B'|]. split; [eapply incl_tran; eassumption|].
    intros s S. apply (same_for_trans _ st1).
    + apply F. destruct S as [S | S]; [left; exact S | right; intros X; apply S, C', X].
    + apply D'. destruct S as [S | S]; [left; apply C, S | right; exact S].
Qed.

Lemma start_inv : forall P d order, Inv P (d_touched d) order (d_links d) [] (start d order).
Proof.
  intros P d order. constructor; cbn.
  - apply incl_refl.
  - reflexivity.
  - constructor.
  - intros x [].
  - intros x [].
  - intros s [].
  - intros x [].
  - auto.
  - intros s [].
  - intros; tauto.
Qed.

Lemma run_good : forall P d order, NoDup order ->
  match run P d order with
  | Done st => Inv P (d_touched d) order (d_links d) [] st /\
      (forall s, In s (p_parsing st) <-> In s order) /\
      (forall s, ~ In s order -> same_for (start d order) st s)
  | Circular => exists s, on_circle P s
  | NoFuel => False
  end.
Proof.
  intros P d order N. unfold run.
  assert (L : left_over (start d order) < 2 + length order).
  { unfold left_over. eapply Nat.le_lt_trans; [apply filter_length_le|]. cbn. lia. }
  pose proof (pops_good P (d_touched d) order (d_links d) (2 + length order) order (start d order)
                (start_inv P d order) ltac:(intros x []) N ltac:(intros x; cbn; tauto) L) as Q.
  destruct (pops _ _ _ _ _) as [st| |]; [|exact Q|exact Q].
  destruct Q as (A & B & _ & C).
  assert (E : forall s, In s (p_parsing st) <-> In s order).
  { intros s. split; [apply (i_in _ _ _ _ _ _ A)|]. intros X.
    destruct (i_gone _ _ _ _ _ _ A s X) as [Y | Y]; [exfalso; exact (B _ Y) | exact Y]. }
  split; [exact A|]. split; [exact E|]. intros s S. apply C. right. rewrite E. exact S.
Qed.

Lemma made_finish : forall st s, made_by (finish st) s = view st s.
Proof. reflexivity. Qed.

Lemma made_start : forall d order s, same_set (view (start d order) s) (made_by d s).
Proof.
  intros d order s f. rewrite view_In, present_In. cbn. unfold made_by. rewrite in_map_iff. split.
  - intros [H _]. exists (s, f). split; [reflexivity|]. apply filter_In. split; [exact H | apply Nat.eqb_refl].
  - intros ([a b] & E & H). apply filter_In in H. cbn in *. destruct H as [H X]. apply Nat.eqb_eq in X. subst. auto.
Qed.

(** ** Histories *)

Lemma should_make_project : forall P Q a t rs own,
  (forall r u, In r rs -> In u (r_uses r) -> t_sources (P u) = t_sources (Q u)) ->
  should_make P a t rs own = should_make Q a t rs own.
Proof.
  intros P Q a t rs. induction rs as [|r rs IH]; intros own H; cbn; [reflexivity|].
  replace (map (should_find Q a t own) (r_uses r)) with (map (should_find P a t own) (r_uses r)).
  - apply IH. intros r' u R. apply H. right. exact R.
  - apply map_ext_in. intros u U. unfold should_find. rewrite (H r u (or_introl eq_refl) U). reflexivity.
Qed.

Definition lk (d : db) (u t : nat) : Prop := In (u, t) (d_links d).

Record Hist (P : project) (d : db) : Prop := {
  h_links : forall t, ~ In t (d_flags d) -> forall u, lk d u t <-> matches_in P u t;
  h_right : forall t, in_graph d t \/ right P d t \/ clos_trans nat (lk d) t t;
  h_touched : d_touched d = [];
  h_finite : exists l, forall t, ~ In t l -> t_rules (P t) = [] }.

Lemma in_graph_flag : forall d t s, in_graph d s -> in_graph (flag t d) s.
Proof.
  intros d t s H. induction H as [s F | u s G IH L].
  - apply ig_flag. right. exact F.
  - eapply ig_link; [exact IH | exact L].
Qed.

Lemma pair_dec : forall (u t : nat) l, In (u, t) l \/ ~ In (u, t) l.
Proof.
  intros u t l. destruct (in_dec (fun a b : nat * nat =>
    ltac:(decide equality; apply Nat.eq_dec) : {a = b} + {a <> b}) (u, t) l); auto.
Qed.

Lemma edit_same : forall P t tf, edit P t tf t = tf.
Proof. intros. unfold edit. rewrite Nat.eqb_refl. reflexivity. Qed.

Lemma edit_other : forall P t tf s, s <> t -> edit P t tf s = P s.
Proof. intros P t tf s N. unfold edit. apply Nat.eqb_neq in N. rewrite N. reflexivity. Qed.

Lemma hist_edit : forall P d t tf, Hist P d -> Hist (edit P t tf) (flag t d).
Proof.
  intros P d t tf [A B C (l & D)]. constructor.
  - intros s S u. cbn in S. unfold lk. cbn. change (lk d u s <-> matches_in (edit P t tf) u s).
    rewrite (A s); [|auto]. unfold matches_in. rewrite edit_other; [tauto|]. intros ->. auto.
  - intros s. destruct (In_dec_nat s (t :: d_flags d)) as [S | S]; [left; apply ig_flag; exact S|].
    cbn in S. destruct (pair_dec t s (d_links d)) as [L | L].
    + left. apply ig_link with t; [apply ig_flag; left; reflexivity | exact L].
    + destruct (B s) as [X | [X | X]]; [left; apply in_graph_flag, X | | right; right; exact X].
      right. left. assert (Ns : s <> t) by (intros ->; auto).
      intros f. specialize (X f). rewrite (edit_other P t tf s Ns).
      change (made_by (flag t d)) with (made_by d). rewrite X.
      rewrite (should_make_project (edit P t tf) P); [tauto|].
      intros r u R U. rewrite edit_other; [reflexivity|]. intros ->. apply L.
      apply (A s ltac:(auto)). split; [congruence | exists r; auto].
  - exact C.
  - exists (t :: l). intros s S. cbn in S. rewrite edit_other; [apply D; auto | intros ->; auto].
Qed.

Lemma link_path_out : forall d a b, clos_trans nat (lk d) a b -> in_graph d a -> in_graph d b.
Proof.
  intros d a b H. induction H as [a b H | a b c _ IH1 _ IH2]; intros G; [|auto].
  eapply ig_link; eassumption.
Qed.

Lemma clos_trans_mono : forall (R S : relation nat) a b, (forall x y, R x y -> S x y) ->
  clos_trans nat R a b -> clos_trans nat S a b.
Proof.
  intros R S a b H C. induction C as [a b C | a b c _ IH1 _ IH2]; [apply t_step; auto | eapply t_trans; eassumption].
Qed.

Lemma hist_update : forall P d d', Hist P d -> update P d d' -> Hist P d'.
Proof.
  intros P d d' [A B C D] [order st V R].
  pose proof V as (N & O & _). pose proof (run_good P d order N) as K. rewrite R in K.
  destruct K as (I & Pa & F).
  assert (L : forall t u, lk (finish st) u t <-> matches_in P u t).
  { intros t u. destruct (In_dec_nat t order) as [T | T].
    - apply Pa in T. destruct (i_fin _ _ _ _ _ _ I t T ltac:(intros [])) as [_ X]. apply X.
    - destruct (F t T) as [_ X]. unfold lk, finish. cbn. rewrite (X u). cbn.
      apply A. intros Y. apply T, O, ig_flag, Y. }
  constructor.
  - intros t _ u. apply L.
  - intros t. right. destruct (In_dec_nat t order) as [T | T].
    + apply Pa in T. destruct (i_fin _ _ _ _ _ _ I t T ltac:(intros [])) as [X _].
      destruct (X C) as [Y | [_ Y]].
      * right. eapply clos_trans_mono; [|exact Y]. intros x y Z. apply L, Z.
      * left. intros f. rewrite made_finish. specialize (Y f). exact Y.
    + assert (NG : ~ in_graph d t) by (intros X; apply T, O, X).
      destruct (B t) as [X | [X | X]]; [contradiction | left | right].
      * intros f. rewrite made_finish, (same_for_view _ _ _ (F t T) f), (made_start d order t f), (X f).
        rewrite (should_make_ext P (made_by d) (made_by (finish st)) t (t_rules (P t)) []); [tauto|].
        intros u r Rr U Nu f'. rewrite made_finish. symmetry.
        assert (Nu' : ~ In u order).
        { intros Y. apply O in Y. apply NG. eapply ig_link; [exact Y|]. apply A.
          - intros Z. apply NG, ig_flag, Z.
          - split; [exact Nu | exists r; auto]. }
        rewrite (same_for_view _ _ _ (F u Nu') f'). apply made_start.
      * assert (Y : forall a b, clos_trans nat (lk d) a b -> ~ in_graph d b -> clos_trans nat (lk (finish st)) a b).
        { intros a b H. induction H as [a b H | a b c H1 IH1 H2 IH2]; intros Nb.
          - apply t_step. apply L. apply A; [|exact H]. intros Z. apply Nb, ig_flag, Z.
          - eapply t_trans; [apply IH1 | apply IH2, Nb]. intros Z. apply Nb. eapply link_path_out; eassumption. }
        apply Y; assumption.
  - reflexivity.
  - exact D.
Qed.

Lemma hist_init : Hist empty_project empty_db.
Proof.
  constructor.
  - intros t _ u. cbn. split; [intros [] | intros [_ (r & [] & _)]].
  - intros t. right. left. intros f. cbn. tauto.
  - reflexivity.
  - exists []. reflexivity.
Qed.

Lemma reach_hist : forall P d, reach false P d -> Hist P d.
Proof.
  intros P d R. induction R as [|P d t tf R IH|P d g R IH E|P d d' R IH U].
  - exact hist_init.
  - apply hist_edit, IH.
  - discriminate.
  - eapply hist_update; eassumption.
Qed.

Lemma no_flags_no_graph : forall d t, d_flags d = [] -> ~ in_graph d t.
Proof.
  intros d t E H. induction H as [t H|]; [rewrite E in H; destruct H | assumption].
Qed.

Theorem reach_right : forall P d, reach false P d -> d_flags d = [] ->
  forall t, right P d t \/ on_circle P t.
Proof.
  intros P d R E t. pose proof (reach_hist P d R) as [A B _ _].
  destruct (B t) as [X | [X | X]]; [exfalso; eapply no_flags_no_graph; eassumption | auto | right].
  eapply clos_trans_mono; [|exact X]. intros x y Z. apply A; [rewrite E; intros [] | exact Z].
Qed.

(** ** Without circles there is one result *)

Lemma feeds_acc : forall P l, (forall t, ~ In t l -> t_rules (P t) = []) ->
  (forall t, ~ on_circle P t) -> forall t, Acc (matches_in P) t.
Proof.
  intros P l F NC.
  assert (K : forall n path t, NoDup path -> incl path l -> length l - length path <= n ->
    (forall s, In s path -> clos_trans nat (matches_in P) t s) -> Acc (matches_in P) t).
  { induction n as [|n IH]; intros path t ND IN LE CH.
    - constructor. intros u [N (r & R & U)]. exfalso.
      assert (T : In t l).
      { destruct (In_dec_nat t l) as [X | X]; [exact X|]. rewrite (F t X) in R. destruct R. }
      assert (Tn : ~ In t path) by (intros X; apply (NC t), CH, X).
      assert (length (t :: path) <= length l).
      { apply NoDup_incl_length; [constructor; assumption|]. intros x [<- | X]; [exact T | apply IN, X]. }
      cbn in H. lia.
    - constructor. intros u [N (r & R & U)].
      assert (T : In t l).
      { destruct (In_dec_nat t l) as [X | X]; [exact X|]. rewrite (F t X) in R. destruct R. }
      assert (Tn : ~ In t path) by (intros X; apply (NC t), CH, X).
      assert (M : matches_in P u t) by (split; [exact N | exists r; auto]).
      apply (IH (t :: path)).
      + constructor; assumption.
      + intros x [<- | X]; [exact T | apply IN, X].
      + cbn. assert (length (t :: path) <= length l).
        { apply NoDup_incl_length; [constructor; assumption|]. intros x [<- | X]; [exact T | apply IN, X]. }
        cbn in H. lia.
      + intros s [<- | S]; [apply t_step, M | eapply t_trans; [apply t_step, M | apply CH, S]]. }
  intros t. apply (K (length l) [] t); [constructor | intros x [] | cbn; lia | intros s []].
Qed.

Lemma right_unique : forall P Q d e, (forall t, P t = Q t) ->
  (forall t, Acc (matches_in P) t) -> (forall t, right P d t) -> (forall t, right Q e t) ->
  forall t, same_set (made_by d t) (made_by e t).
Proof.
  intros P Q d e E W R S t. induction (W t) as [t _ IH]. intros f.
  rewrite (R t f), (S t f), <- (E t).
  rewrite (should_make_project Q P) by (intros r u _ _; rewrite E; reflexivity).
  rewrite (should_make_ext P (made_by d) (made_by e) t); [tauto|].
  intros u r Rr U N. apply IH. split; [exact N | exists r; auto].
Qed.

Lemma made_by_In : forall d g, In g (d_files d) <-> In (snd g) (made_by d (fst g)).
Proof.
  intros d [s f]. cbn. unfold made_by. rewrite in_map_iff. split.
  - intros H. exists (s, f). split; [reflexivity|]. apply filter_In. split; [exact H | apply Nat.eqb_refl].
  - intros ([a b] & E & H). apply filter_In in H. cbn in *. destruct H as [H X]. apply Nat.eqb_eq in X. subst. exact H.
Qed.

(** ** Circles that are noticed *)

Section Shape.
Variable P : project.
Variable tch : list gen.

Definition shape (pd : nat -> pst -> result pst) : Prop := forall t st st', pd t st = Done st' ->
  Grown st st' /\ ~ In t (p_parsing st) /\ In t (p_parsing st') /\
  (forall s, In s (p_parsing st') -> In s (p_parsing st) \/
     (clos_refl_trans nat (matches_in P) s t /\
      forall x, matches_in P x s -> In x (p_graph st) -> In x (p_used st'))) /\
  (forall x, In x (p_used st') -> In x (p_used st) \/ ~ In x (t :: p_parsing st)).

Definition shape_in (t : nat) (st st' : pst) : Prop :=
  Grown st st' /\
  (forall s, In s (p_parsing st') -> In s (p_parsing st) \/
     (clos_refl_trans nat (matches_in P) s t /\
      forall x, matches_in P x s -> In x (p_graph st) -> In x (p_used st'))) /\
  (forall x, In x (p_used st') -> In x (p_used st) \/ ~ In x (p_parsing st)).

Lemma shape_in_refl : forall t st, shape_in t st st.
Proof. intros t st. split; [apply grown_refl|]. split; auto. Qed.

Lemma shape_in_trans : forall t a b c, shape_in t a b -> shape_in t b c -> shape_in t a c.
Proof.
  intros t a b c (A & B & C) (D & E & F). split; [eapply grown_trans; eassumption|]. split.
  - intros s S. destruct (E s S) as [X | [X Y]].
    + destruct (B s X) as [Z | [Z W]]; [auto|]. right. split; [exact Z|].
      intros x V G. apply (g_used _ _ D), W; assumption.
    + right. split; [exact X|]. intros x V G. apply Y; [exact V|]. rewrite (g_graph _ _ A). exact G.
  - intros x X. destruct (F x X) as [Y | Y]; [apply C, Y|]. right. intros Z. apply Y, (g_parsing _ _ A), Z.
Qed.

Lemma dependents_shape : forall pd, shape pd -> forall t us ins st ins' st',
  (forall u, In u us -> u <> t -> matches_in P u t) ->
  dependents pd t us ins st = Done (ins', st') ->
  shape_in t st st' /\ (forall u, In u us -> u <> t -> In u (p_graph st) -> In u (p_used st')).
Proof.
  intros pd SP t us. induction us as [|u us IH]; intros ins st ins' st' M; cbn [dependents].
  - intros [= <- <-]. split; [apply shape_in_refl | intros u []].
  - destruct (Nat.eqb u t) eqn:E.
    + intros H. apply Nat.eqb_eq in E. subst.
      destruct (IH _ _ _ _ (fun x X => M x (or_intror X)) H) as (A & B).
      split; [exact A|]. intros x [<- | X] N; [congruence | apply B; assumption].
    + apply Nat.eqb_neq in E. assert (Mu : matches_in P u t) by (apply M; [left; reflexivity | exact E]).
      intros H.
      assert (K : exists st1, shape_in t st st1 /\ (In u (p_graph st) -> In u (p_used st1)) /\
                    dependents pd t us (u :: ins) st1 = Done (ins', st')).
      { destruct (mem u (p_graph st)) eqn:G; [destruct (mem u (p_used st)) eqn:U|]; cbn [andb negb rbind] in H.
        - exists st. split; [apply shape_in_refl|]. apply mem_In in U. auto.
        - destruct (pd u (set_used u st)) as [st1| |] eqn:Q; cbn [rbind] in H; [|discriminate|discriminate].
          exists st1. destruct (SP _ _ _ Q) as (A & B & C & D & F). cbn [p_parsing p_used p_graph set_used] in *.
          split; [split; [|split]|split; [|exact H]].
          + destruct A as [a b c]. constructor; [exact a | intros x X; apply b; cbn; auto | exact c].
          + intros s S. destruct (D s S) as [X | [X Y]]; [auto|]. right. split; [|exact Y].
            eapply rt_trans; [exact X | apply rt_step; exact Mu].
          + intros x X. destruct (F x X) as [[<- | Y] | Y]; auto. right. intros Z. apply Y. right. exact Z.
          + intros _. apply (g_used _ _ A). cbn. auto.
        - exists st. split; [apply shape_in_refl|]. apply mem_nIn in G. split; [intros X; contradiction | exact H]. }
      destruct K as (st1 & A & B & C).
      destruct (IH _ _ _ _ (fun x X => M x (or_intror X)) C) as (D & F).
      split; [eapply shape_in_trans; eassumption|].
      intros x [<- | X] N G.
      * apply (g_used _ _ (proj1 D)), B, G.
      * apply F; [exact X | exact N|]. rewrite (g_graph _ _ (proj1 A)). exact G.
Qed.

Lemma rules_shape : forall pd, shape pd -> forall t rs ins st ins' st',
  (forall r u, In r rs -> In u (r_uses r) -> u <> t -> matches_in P u t) ->
  rules pd P t rs ins st = Done (ins', st') ->
  shape_in t st st' /\
  (forall r u, In r rs -> In u (r_uses r) -> u <> t -> In u (p_graph st) -> In u (p_used st')).
Proof.
  intros pd SP t rs. induction rs as [|r rs IH]; intros ins st ins' st' M; cbn [rules].
  - intros [= <- <-]. split; [apply shape_in_refl | intros r u []].
  - destruct (dependents pd t (r_uses r) ins st) as [[ins1 st1]| |] eqn:D; cbn [rbind fst snd];
      [|discriminate|discriminate].
    destruct (dependents_shape pd SP t _ _ _ _ _ (fun u X => M r u (or_introl eq_refl) X) D) as (A & B).
    set (outs := r_make r (map (fun u => found P t u st1) (r_uses r))).
    destruct (emits_same t outs st1) as (El & Eg & Ep & Eu & Elog).
    set (st2 := fold_left (emit t) outs st1) in *. intros H.
    destruct (IH _ _ _ _ (fun r' u X => M r' u (or_intror X)) H) as (C & F).
    assert (A2 : shape_in t st st2).
    { destruct A as ([a b c] & a2 & a3). split; [|split].
      - constructor; [congruence | rewrite Eu; exact b | rewrite Ep; exact c].
      - rewrite Ep, Eu. exact a2.
      - rewrite Eu. exact a3. }
    split; [eapply shape_in_trans; eassumption|].
    intros r' u [<- | R] U N G.
    + apply (g_used _ _ (proj1 C)). rewrite Eu. apply B; assumption.
    + apply (F r' u R U N). rewrite Eg. rewrite (g_graph _ _ (proj1 A)). exact G.
Qed.

Lemma parse_shape : forall fuel, shape (parse fuel P tch).
Proof.
  induction fuel as [|fuel IH]; intros t st st' H; cbn [parse] in H; [discriminate|].
  destruct (mem t (p_parsing st)) eqn:Mt; [discriminate|]. apply mem_nIn in Mt.
  destruct (rules _ _ _ _ _ _) as [[ins' st1]| |] eqn:R; cbn [rbind fst snd] in H; [|discriminate|discriminate].
  injection H as <-.
  assert (M0 : forall r u, In r (t_rules (P t)) -> In u (r_uses r) -> u <> t -> matches_in P u t).
  { intros r u Rr V W. split; [exact W | exists r; auto]. }
  destruct (rules_shape _ IH t _ _ _ _ _ M0 R) as ((A & B & C) & D). cbn [p_graph p_parsing p_used begin write_inputs] in *.
  split; [|split; [exact Mt|split; [|split]]].
  - destruct A as [a b c]. constructor; [exact a | exact b | intros x X; apply c; cbn; auto].
  - apply (g_parsing _ _ A). cbn. auto.
  - intros s S. destruct (B s S) as [[<- | X] | X]; [right | auto | auto].
    split; [apply rt_refl|]. intros x [N (r & Rr & U)] G. eapply D; eassumption.
  - exact C.
Qed.

(** The nodes before the first one of a circle do not touch the circle. *)
Lemma pops_shape : forall fuel a st st',
  pops fuel P tch a st = Done st' ->
  (forall x, In x (p_graph st') <-> In x (p_graph st) /\ ~ In x a) /\
  (forall s, In s (p_parsing st') -> In s (p_parsing st) \/
     exists b, In b a /\ clos_refl_trans nat (matches_in P) s b).
Proof.
  intros fuel a. induction a as [|b a IH]; intros st st' H; cbn [pops] in H.
  - injection H as <-. split; [intros x; cbn; tauto | auto].
  - unfold create_work in H.
    destruct (mem b (p_used st)) eqn:Ub; cbn [rbind] in H.
    + destruct (IH _ _ H) as (A & B). cbn [p_graph p_parsing] in *. split.
      * intros x. rewrite (A x), filter_ne_In. cbn. intuition congruence.
      * intros s S. destruct (B s S) as [X | (c & X & Y)]; [auto | right; exists c; cbn; auto].
    + destruct (parse fuel P tch b st) as [st1| |] eqn:Q; cbn [rbind] in H; [|discriminate|discriminate].
      destruct (IH _ _ H) as (A & B). cbn [p_graph p_parsing] in *.
      destruct (parse_shape fuel b st st1 Q) as (C & _ & _ & D & _). split.
      * intros x. rewrite (A x), filter_ne_In, (g_graph _ _ C). cbn. intuition congruence.
      * intros s S. destruct (B s S) as [X | (c & X & Y)]; [|right; exists c; cbn; auto].
        destruct (D s X) as [Z | [Z _]]; [auto|]. right. exists b. cbn. auto.
Qed.

Definition feeds_in (G : list nat) (u v : nat) : Prop := matches_in P u v /\ In u G /\ In v G.

End Shape.

Lemma pops_app : forall fuel P tch a b st,
  pops fuel P tch (a ++ b) st = rbind (pops fuel P tch a st) (pops fuel P tch b).
Proof.
  intros fuel P tch a b. induction a as [|t a IH]; intros st; cbn [pops app]; [reflexivity|].
  destruct (create_work fuel P tch t st) as [st1| |]; cbn [rbind]; [apply IH | reflexivity | reflexivity].
Qed.

Lemma NoDup_app_left : forall (a b : list nat), NoDup (a ++ b) -> NoDup a.
Proof.
  intros a b. induction a as [|x a IH]; intros H; [constructor|]. inversion H as [|? ? A B]; subst.
  constructor; [intros X; apply A, in_or_app; auto | apply IH, B].
Qed.

Lemma pops_graph_len : forall fuel P tch a st st', pops fuel P tch a st = Done st' ->
  length (p_graph st') <= length (p_graph st).
Proof.
  intros fuel P tch a. induction a as [|b a IH]; intros st st' H; cbn [pops] in H.
  - injection H as <-. lia.
  - unfold create_work in H. destruct (mem b (p_used st)); cbn [rbind] in H.
    + apply IH in H. eapply Nat.le_trans; [exact H | apply filter_length_le].
    + destruct (parse fuel P tch b st) as [st1| |] eqn:Q; cbn [rbind] in H; [|discriminate|discriminate].
      apply IH in H. destruct (parse_shape P tch fuel b st st1 Q) as (C & _).
      eapply Nat.le_trans; [exact H|]. cbn [p_graph]. rewrite (g_graph _ _ C). apply filter_length_le.
Qed.

(** The first node of a circle that is popped finds the circle, unless one of
    the nodes popped before it depends on the circle. *)
Lemma circle_noticed : forall P d a t b,
  NoDup (a ++ t :: b) ->
  clos_trans nat (feeds_in P (a ++ t :: b)) t t ->
  (forall s, In s a -> ~ clos_refl_trans nat (matches_in P) t s) ->
  run P d (a ++ t :: b) = Circular.
Proof.
  intros P d a t b ND CI NA.
  set (order := a ++ t :: b) in *.
  pose proof (run_good P d order ND) as K.
  destruct (run P d order) as [st| |] eqn:R; [exfalso|reflexivity|contradiction].
  clear K. unfold run in R. unfold order at 2 in R. rewrite pops_app in R.
  set (fuel := 2 + length order) in *. set (tch := d_touched d) in *.
  assert (NDa : NoDup a) by (apply (NoDup_app_left a (t :: b)); exact ND).
  destruct (pops fuel P tch a (start d order)) as [st1| |] eqn:Qa; cbn [rbind] in R; [|discriminate|discriminate].
  destruct (pops_shape P tch fuel a _ _ Qa) as (G1 & P1). cbn [p_graph p_parsing start] in G1, P1.
  cbn [pops] in R. destruct (create_work fuel P tch t st1) as [st2| |] eqn:W; cbn [rbind] in R;
    [|discriminate|discriminate].
  assert (T1 : ~ In t (p_parsing st1)).
  { intros X. destruct (P1 t X) as [[] | (c & Y & Z)]. exact (NA c Y Z). }
  assert (U1 : incl (p_used st1) (p_parsing st1) /\ Inv P tch order (d_links d) [] st1).
  { (* the nodes before [t] in the whole run *)
    assert (X : forall l st st', pops fuel P tch l st = Done st' -> Inv P tch order (d_links d) [] st ->
              incl (p_used st) (p_parsing st) -> incl l (p_graph st) -> NoDup l -> left_over st < fuel ->
              incl (p_used st') (p_parsing st') /\ Inv P tch order (d_links d) [] st').
    { clear. intros l. induction l as [|c l IH]; intros st st' H I U L N F; cbn [pops] in H.
      - injection H as <-. auto.
      - unfold create_work in H. inversion N as [|? ? Nc Nl]; subst.
        assert (Gc : In c (p_graph st)) by (apply L; left; reflexivity).
        destruct (mem c (p_used st)) eqn:Uc; cbn [rbind] in H.
        + apply mem_In in Uc. change (Pst _ _ _ _ _ _ _) with (pop c st) in H.
          apply (IH (pop c st) st' H).
          * apply (pop_inv P tch order (d_links d) c [] st I); [apply U, Uc | intros x [] |].
            apply (i_fin _ _ _ _ _ _ I); [apply U, Uc | intros []].
          * exact U.
          * intros x X. apply filter_ne_In. split; [apply L; right; exact X | intros ->; contradiction].
          * exact Nl.
          * eapply Nat.le_lt_trans; [apply filter_filter_le | exact F].
        + apply mem_nIn in Uc.
          assert (Np : ~ In c (p_parsing st)).
          { intros X. destruct (i_used _ _ _ _ _ _ I c X Gc) as [Y | []]. contradiction. }
          pose proof (parse_is_good P tch order (d_links d) fuel c [] st I Gc
                        ltac:(intros X; contradiction) ltac:(intros x X; right; apply U, X)
                        ltac:(intros s []) F) as Q.
          destruct (parse fuel P tch c st) as [st1| |]; cbn [rbind] in H; [|discriminate|discriminate].
          destruct Q as (_ & A & B & D & E & G & _). change (Pst _ _ _ _ _ _ _) with (pop c st1) in H.
          apply (IH (pop c st1) st' H).
          * apply (pop_inv P tch order (d_links d) c [c] st1 A E); [intros x [<- | []]; reflexivity | exact G].
          * exact D.
          * intros x X. apply filter_ne_In. rewrite (g_graph _ _ B).
            split; [apply L; right; exact X | intros ->; contradiction].
          * exact Nl.
          * eapply Nat.le_lt_trans; [apply filter_filter_le|].
            eapply Nat.le_lt_trans; [apply (left_over_le st st1 (g_graph _ _ B) (g_used _ _ B)) | exact F]. }
    apply (X a (start d order) st1 Qa).
    - apply start_inv.
    - intros x [].
    - intros x Hx. cbn. apply in_or_app. left. exact Hx.
    - exact NDa.
    - unfold left_over. eapply Nat.le_lt_trans; [apply filter_length_le|]. cbn. unfold fuel. lia. }
  destruct U1 as [U1 I1].
  unfold create_work in W.
  assert (Ut : mem t (p_used st1) = false) by (apply mem_nIn; intros X; apply T1, U1, X).
  rewrite Ut in W. destruct (parse fuel P tch t st1) as [st3| |] eqn:Q; cbn [rbind] in W; [|discriminate|discriminate].
  destruct (parse_shape P tch fuel t st1 st3 Q) as (A & B & C & D & E).
  pose proof (parse_is_good P tch order (d_links d) fuel t [] st1 I1) as PG. rewrite Q in PG.
  assert (Gt : In t (p_graph st1)).
  { apply G1. split; [unfold order; apply in_or_app; right; left; reflexivity|].
    intros X. apply (NA t X). apply rt_refl. }
  assert (L1 : left_over st1 < fuel).
  { unfold left_over. eapply Nat.le_lt_trans; [apply filter_length_le|].
    assert (X : length (p_graph st1) <= length order) by apply (pops_graph_len _ _ _ _ _ _ Qa). unfold fuel. lia. }
  destruct (PG Gt ltac:(intros X; contradiction) ltac:(intros x X; right; apply U1, X) ltac:(intros s []) L1)
    as (_ & _ & _ & U3 & _).
  (* [t] is used in the end *)
  assert (Tu : forall x y, clos_trans_1n nat (feeds_in P order) x y -> y = t ->
                 clos_refl_trans nat (matches_in P) t x -> In x (p_used st3)).
  { assert (One : forall x s, feeds_in P order x s -> In s (p_parsing st3) ->
              clos_refl_trans nat (matches_in P) t x -> In x (p_used st3)).
    { intros x s (M & Gx & _) S Tx. destruct (D s S) as [X | [_ X]].
      - exfalso. destruct (P1 s X) as [[] | (c & Y & Z)]. apply (NA c Y).
        eapply rt_trans; [exact Tx|]. eapply rt_trans; [apply rt_step; exact M | exact Z].
      - apply X; [exact M|]. apply G1. split; [exact Gx|]. intros Y. exact (NA x Y Tx). }
    intros x y H. induction H as [x y H | x y z H _ IH]; intros E1 Tx.
    - subst y. apply (One x t H C Tx).
    - apply (One x y H); [|exact Tx]. apply U3, IH; [exact E1|].
      eapply rt_trans; [exact Tx | apply rt_step, H]. }
  assert (T3 : In t (p_used st3)) by (apply (Tu t t); [apply clos_trans_t1n; exact CI | reflexivity | apply rt_refl]).
  destruct (E t T3) as [X | X]; [apply T1, U1, X | apply X; left; reflexivity].
Qed.
