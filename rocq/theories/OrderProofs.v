(** The invariant of a run through the Tupfiles, and what one call of parse
    does. *)
From Coq Require Import List Bool Arith Lia Relations Permutation.
From Verif Require Import OrderModel OrderSpec.
Import ListNotations.

(** ** Lists *)

Lemma gen_eqb_eq : forall a b, gen_eqb a b = true <-> a = b.
Proof.
  intros [a [b c]] [a' [b' c']]. unfold gen_eqb. cbn. rewrite !andb_true_iff, !Nat.eqb_eq.
  split; [intros ((-> & ->) & ->); reflexivity | intros [= -> -> ->]; auto].
Qed.

Lemma has_In : forall g l, has g l = true <-> In g l.
Proof.
  intros g l. unfold has. rewrite existsb_exists. split.
  - intros (x & H & E). apply gen_eqb_eq in E. subst. exact H.
  - intros H. exists g. split; [exact H | apply gen_eqb_eq; reflexivity].
Qed.

Lemma mem_In : forall n l, mem n l = true <-> In n l.
Proof.
  intros n l. unfold mem. rewrite existsb_exists. split.
  - intros (x & H & E). apply Nat.eqb_eq in E. subst. exact H.
  - intros H. exists n. split; [exact H | apply Nat.eqb_refl].
Qed.

Lemma mem_nIn : forall n l, mem n l = false <-> ~ In n l.
Proof. intros n l. rewrite <- mem_In. destruct (mem n l); split; congruence. Qed.

Lemma In_dec_nat : forall (n : nat) l, In n l \/ ~ In n l.
Proof. intros n l. destruct (in_dec Nat.eq_dec n l); auto. Qed.

(** ** Sorted names *)

Inductive incr : list nat -> Prop :=
| incr_nil : incr []
| incr_cons : forall n l, (forall m, In m l -> n < m) -> incr l -> incr (n :: l).

Arguments Nat.ltb : simpl never.
Arguments Nat.eqb : simpl never.

Lemma insert_In : forall n l m, In m (insert n l) <-> m = n \/ In m l.
Proof.
  intros n l. induction l as [|a l IH]; intros m; cbn.
  - intuition.
  - destruct (Nat.ltb n a); [cbn; intuition|].
    destruct (Nat.eqb n a) eqn:E.
    + apply Nat.eqb_eq in E. subst. cbn. intuition congruence.
    + cbn. rewrite IH. intuition congruence.
Qed.

Lemma insert_incr : forall n l, incr l -> incr (insert n l).
Proof.
  intros n l H. induction H as [|a l A H IH]; cbn.
  - constructor; [intros m [] | constructor].
  - destruct (Nat.ltb n a) eqn:L.
    + apply Nat.ltb_lt in L. constructor; [|constructor; auto].
      intros m [<- | M]; [exact L | specialize (A _ M); lia].
    + apply Nat.ltb_ge in L. destruct (Nat.eqb n a) eqn:E; [constructor; auto|].
      apply Nat.eqb_neq in E. constructor; [|exact IH].
      intros m M. apply insert_In in M. destruct M as [-> | M]; [lia | apply A, M].
Qed.

Lemma canon_In : forall l m, In m (canon l) <-> In m l.
Proof.
  induction l as [|a l IH]; intros m; cbn; [tauto|]. rewrite insert_In, IH. intuition.
Qed.

Lemma canon_incr : forall l, incr (canon l).
Proof. induction l as [|a l IH]; cbn; [constructor | apply insert_incr, IH]. Qed.

Lemma incr_ext : forall l1 l2, incr l1 -> incr l2 -> (forall m, In m l1 <-> In m l2) -> l1 = l2.
Proof.
  intros l1 l2 H. revert l2. induction H as [|a l A H IH]; intros l2 H2 E.
  - destruct l2 as [|b l2]; [reflexivity|]. exfalso. apply (E b). left. reflexivity.
  - destruct H2 as [|b l2 B H2].
    + exfalso. apply (E a). left. reflexivity.
    + assert (a = b).
      { pose proof (proj1 (E a) (or_introl eq_refl)) as [X | X]; [auto|].
        pose proof (proj2 (E b) (or_introl eq_refl)) as [Y | Y]; [auto|].
        specialize (A _ Y). specialize (B _ X). lia. }
      subst b. f_equal. apply IH; [exact H2|]. intros m. split; intros M.
      * pose proof (proj1 (E m) (or_intror M)) as [<- | X]; [|exact X]. specialize (A _ M). lia.
      * pose proof (proj2 (E m) (or_intror M)) as [<- | X]; [|exact X]. specialize (B _ M). lia.
Qed.

Lemma canon_ext : forall l1 l2, (forall m, In m l1 <-> In m l2) -> canon l1 = canon l2.
Proof.
  intros l1 l2 E. apply incr_ext; try apply canon_incr. intros m. rewrite !canon_In. apply E.
Qed.

(** ** What the rules should generate depends on the directories they use *)

Definition same_set {A} (a b : list A) : Prop := forall x, In x a <-> In x b.

Lemma files_in_In : forall u l n, In n (files_in u l) <-> In (u, n) l.
Proof.
  intros u l n. unfold files_in. rewrite in_map_iff. split.
  - intros ([a b] & E & H). apply filter_In in H. destruct H as [H X]. cbn in *. apply Nat.eqb_eq in X. subst. exact H.
  - intros H. exists (u, n). split; [reflexivity|]. apply filter_In. split; [exact H | apply Nat.eqb_refl].
Qed.

Lemma should_find_ext : forall P a b t own own' u,
  (u <> t -> same_set (a u) (b u)) -> same_set own own' ->
  should_find P a t own u = should_find P b t own' u.
Proof.
  intros P a b t own own' u H O. unfold should_find. apply canon_ext. intros m.
  rewrite !in_app_iff, !files_in_In, (O (u, m)).
  destruct (Nat.eqb u t) eqn:E; [tauto|].
  apply Nat.eqb_neq in E. rewrite !files_in_In, (H E (u, m)). tauto.
Qed.

Lemma should_make_ext : forall P a b t rs own,
  (forall u r, In r rs -> In u (r_uses r) -> u <> t -> same_set (a u) (b u)) ->
  should_make P a t rs own = should_make P b t rs own.
Proof.
  intros P a b t rs. induction rs as [|r rs IH]; intros own H; cbn; [reflexivity|].
  assert (E : map (should_find P a t own) (r_uses r) = map (should_find P b t own) (r_uses r)).
  { apply map_ext_in. intros u U. apply should_find_ext; [|intros x; tauto].
    intros N. apply (H u r); [left; reflexivity | exact U | exact N]. }
  rewrite E. apply IH. intros u r' R U. apply (H u r'); [right; exact R | exact U].
Qed.

(** ** The state *)

Definition present (st : pst) : list gen := filter (fun g => negb (has g (p_delete st))) (p_files st).

Definition view (st : pst) (s : nat) : list (nat * nat) :=
  map snd (filter (fun g => Nat.eqb (fst g) s) (present st)).

Lemma present_In : forall st g, In g (present st) <-> In g (p_files st) /\ ~ In g (p_delete st).
Proof.
  intros st g. unfold present. rewrite filter_In, negb_true_iff, <- (has_In g (p_delete st)).
  destruct (has g (p_delete st)); intuition congruence.
Qed.

Lemma view_In : forall st s f, In f (view st s) <-> In (s, f) (present st).
Proof.
  intros st s f. unfold view. rewrite in_map_iff. split.
  - intros ([a b] & E & H). apply filter_In in H. destruct H as [H X]. cbn in *. apply Nat.eqb_eq in X. subst. exact H.
  - intros H. exists (s, f). split; [reflexivity|]. apply filter_In. split; [exact H | apply Nat.eqb_refl].
Qed.

Lemma found_should : forall P t u st own, same_set (view st t) own ->
  found P t u st = should_find P (view st) t own u.
Proof.
  intros P t u st own O. unfold found, should_find. apply canon_ext. intros m. rewrite !in_app_iff.
  assert (A : In m (map (fun g : gen => snd (snd g))
             (filter (fun g => Nat.eqb (fst (snd g)) u && negb (has g (p_delete st)) &&
                               (Nat.eqb (fst g) t || Nat.eqb (fst g) u)) (p_files st)))
           <-> In (u, m) (view st t) \/ In (u, m) (view st u)).
  { rewrite !view_In, !present_In, in_map_iff. split.
    - intros ([a [b c]] & E & H). cbn in E. subst c. apply filter_In in H. cbn [fst snd] in H.
      destruct H as [H X]. apply andb_true_iff in X. destruct X as [X Y].
      apply andb_true_iff in X. destruct X as [X Z]. apply Nat.eqb_eq in X. subst b.
      apply negb_true_iff in Z.
      assert (D : ~ In (a, (u, m)) (p_delete st)) by (rewrite <- has_In; congruence).
      apply orb_true_iff in Y. destruct Y as [Y | Y]; apply Nat.eqb_eq in Y; subst a; auto.
    - intros [[H D] | [H D]].
      + exists (t, (u, m)). split; [reflexivity|]. apply filter_In. cbn [fst snd].
        rewrite !Nat.eqb_refl. split; [exact H|]. cbn [orb]. rewrite <- has_In in D.
        destruct (has (t, (u, m)) (p_delete st)); [congruence | reflexivity].
      + exists (u, (u, m)). split; [reflexivity|]. apply filter_In. cbn [fst snd].
        rewrite !Nat.eqb_refl, orb_true_r. split; [exact H|]. rewrite <- has_In in D.
        destruct (has (u, (u, m)) (p_delete st)); [congruence | reflexivity]. }
  rewrite A, files_in_In, (O (u, m)).
  destruct (Nat.eqb u t) eqn:E.
  - apply Nat.eqb_eq in E. subst. rewrite (O (t, m)). cbn. tauto.
  - rewrite files_in_In. tauto.
Qed.

Lemma emit_present : forall t st f g, In g (present (emit t st f)) <-> g = (t, f) \/ In g (present st).
Proof.
  intros t st f g. rewrite !present_In. cbn.
  assert (A : In g (if has (t, f) (p_files st) then p_files st else (t, f) :: p_files st)
              <-> g = (t, f) \/ In g (p_files st)).
  { destruct (has (t, f) (p_files st)) eqn:E.
    - apply has_In in E. split; [auto | intros [-> | H]; auto].
    - cbn. split; intros [H | H]; auto. }
  rewrite A, filter_In, negb_true_iff.
  destruct (gen_eqb g (t, f)) eqn:E.
  - apply gen_eqb_eq in E. subst. split; [auto | intros _; split; [auto | intros [_ X]; discriminate]].
  - assert (g <> (t, f)) by (intros X; apply gen_eqb_eq in X; congruence). tauto.
Qed.

Lemma emits_present : forall t fs st g,
  In g (present (fold_left (emit t) fs st)) <-> (exists f, In f fs /\ g = (t, f)) \/ In g (present st).
Proof.
  intros t fs. induction fs as [|f fs IH]; intros st g; cbn.
  - split; [auto | intros [(f & [] & _) | H]; exact H].
  - rewrite IH, emit_present. split.
    + intros [(x & H & E) | [E | H]]; [left; exists x; auto | left; exists f; auto | auto].
    + intros [(x & [<- | H] & E) | H]; [right; left; exact E | left; exists x; auto | auto].
Qed.

Lemma emits_same : forall t fs st,
  p_links (fold_left (emit t) fs st) = p_links st /\
  p_graph (fold_left (emit t) fs st) = p_graph st /\
  p_parsing (fold_left (emit t) fs st) = p_parsing st /\
  p_used (fold_left (emit t) fs st) = p_used st /\
  p_log (fold_left (emit t) fs st) = p_log st.
Proof.
  intros t fs. induction fs as [|f fs IH]; intros st; cbn; [auto|].
  destruct (IH (emit t st f)) as (A & B & C & D & E). rewrite A, B, C, D, E. cbn. auto.
Qed.

Section Run.
Variable P : project.
Variable tch : list gen.
Variable G0 : list nat.
Variable L0 : list (nat * nat).

(** [u] will not change any more: its Tupfile was parsed to its end, or it is
    not to be parsed. *)
Definition settled (stk : list nat) (st : pst) (u : nat) : Prop :=
  ~ In u stk /\ (In u (p_parsing st) \/ ~ In u G0).

Definition links_right (s : nat) (st : pst) : Prop :=
  forall u, In (u, s) (p_links st) <-> matches_in P u s.

(** The Tupfile of [s] was parsed to its end. *)
Definition fin (stk : list nat) (s : nat) (st : pst) : Prop :=
  (tch = [] ->
     on_circle P s \/
     ((forall u, matches_in P u s -> settled stk st u) /\
      same_set (view st s) (should_make P (view st) s (t_rules (P s)) []))) /\
  links_right s st.

Record Inv (stk : list nat) (st : pst) : Prop := {
  i_graph : incl (p_graph st) G0;
  i_log : p_parsing st = p_log st;
  i_once : NoDup (p_log st);
  i_stack : incl stk (p_parsing st);
  i_stackg : incl stk (p_graph st);
  i_used : forall s, In s (p_parsing st) -> In s (p_graph st) -> In s (p_used st) \/ In s stk;
  i_in : incl (p_parsing st) G0;
  i_gone : forall s, In s G0 -> In s (p_graph st) \/ In s (p_parsing st);
  i_fin : forall s, In s (p_parsing st) -> ~ In s stk -> fin stk s st;
  i_links : forall s, ~ In s (p_parsing st) -> forall u, In (u, s) (p_links st) <-> In (u, s) L0 }.

Definition same_for (st st' : pst) (s : nat) : Prop :=
  (forall f, In (s, f) (present st') <-> In (s, f) (present st)) /\
  (forall u, In (u, s) (p_links st') <-> In (u, s) (p_links st)).

Lemma same_for_view : forall st st' s, same_for st st' s -> same_set (view st' s) (view st s).
Proof. intros st st' s [A _] f. rewrite !view_In. apply A. Qed.

Lemma fin_move : forall stk stk' s st st',
  fin stk s st -> same_for st st' s ->
  (forall u, settled stk st u -> settled stk' st' u /\ same_for st st' u) ->
  fin stk' s st'.
Proof.
  intros stk stk' s st st' [F L] S M. split.
  - intros T. destruct (F T) as [C | [U A]]; [left; exact C|]. right. split.
    + intros u X. apply M, U, X.
    + intros f. rewrite (same_for_view _ _ _ S f), (A f).
      rewrite (should_make_ext P (view st) (view st') s (t_rules (P s)) []); [tauto|].
      intros u r R X N f'. symmetry. apply same_for_view. apply M, U. split; [exact N|]. exists r. auto.
  - intros u. destruct S as [_ S]. rewrite (S u). apply L.
Qed.

(** The number of calls that can still be nested. *)
Definition left_over (st : pst) : nat := length (filter (fun x => negb (mem x (p_used st))) (p_graph st)).

Lemma filter_len_le : forall (f g : nat -> bool) l, (forall x, In x l -> f x = true -> g x = true) ->
  length (filter f l) <= length (filter g l).
Proof.
  intros f g l. induction l as [|a l IH]; intros H; cbn; [lia|].
  assert (length (filter f l) <= length (filter g l)) by (apply IH; intros x X; apply H; right; exact X).
  destruct (f a) eqn:F.
  - rewrite (H a (or_introl eq_refl) F). cbn. lia.
  - destruct (g a); cbn; lia.
Qed.

Lemma filter_len_lt : forall (f g : nat -> bool) l u, (forall x, In x l -> f x = true -> g x = true) ->
  In u l -> f u = false -> g u = true -> length (filter f l) < length (filter g l).
Proof.
  intros f g l u. induction l as [|a l IH]; intros H [] Fu Gu.
  - subst a. cbn. rewrite Fu, Gu. cbn.
    pose proof (filter_len_le f g l (fun x X => H x (or_intror X))). lia.
  - cbn. pose proof (IH (fun x X => H x (or_intror X)) H0 Fu Gu).
    destruct (f a) eqn:F; [rewrite (H a (or_introl eq_refl) F); cbn; lia | destruct (g a); cbn; lia].
Qed.

Lemma left_over_le : forall st st', p_graph st' = p_graph st -> incl (p_used st) (p_used st') ->
  left_over st' <= left_over st.
Proof.
  intros st st' G U. unfold left_over. rewrite G. apply filter_len_le. intros x _ H.
  apply negb_true_iff in H. apply mem_nIn in H. apply negb_true_iff, mem_nIn. intros X. apply H, U, X.
Qed.

Lemma left_over_lt : forall st u, In u (p_graph st) -> ~ In u (p_used st) ->
  left_over (set_used u st) < left_over st.
Proof.
  intros st u G U. unfold left_over. cbn [set_used p_graph p_used].
  apply filter_len_lt with (u := u); [|exact G| |].
  - intros x _ H. apply negb_true_iff in H. apply mem_nIn in H. apply negb_true_iff, mem_nIn.
    intros X. apply H. right. exact X.
  - apply negb_false_iff, mem_In. left. reflexivity.
  - apply negb_true_iff, mem_nIn. exact U.
Qed.

(** What is true after a piece of work that began in [st]. *)
Record Grown (st st' : pst) : Prop := {
  g_graph : p_graph st' = p_graph st;
  g_used : incl (p_used st) (p_used st');
  g_parsing : incl (p_parsing st) (p_parsing st') }.

Lemma grown_refl : forall st, Grown st st.
Proof. intros st. constructor; [reflexivity | apply incl_refl | apply incl_refl]. Qed.

Lemma grown_trans : forall a b c, Grown a b -> Grown b c -> Grown a c.
Proof.
  intros a b c [A B C] [D E F]. constructor.
  - congruence.
  - eapply incl_tran; eauto.
  - eapply incl_tran; eauto.
Qed.

Definition framed (st st' : pst) (s : nat) : Prop :=
  In s (p_parsing st) \/ ~ In s (p_parsing st').

(** A call of parse for [t] below the calls for [stk]. *)
Definition parse_good (pd : nat -> pst -> result pst) (n : nat) : Prop :=
  forall t stk st,
    Inv stk st -> In t (p_graph st) ->
    (In t (p_parsing st) -> on_circle P t) ->
    (forall x, In x (p_used st) -> x = t \/ In x (p_parsing st)) ->
    (forall s, In s stk -> clos_trans nat (matches_in P) t s) ->
    left_over st < n ->
    match pd t st with
    | Done st' =>
        ~ In t (p_parsing st) /\
        Inv (t :: stk) st' /\ Grown st st' /\ incl (p_used st') (p_parsing st') /\
        In t (p_parsing st') /\ fin (t :: stk) t st' /\
        (forall s, framed st st' s -> same_for st st' s)
    | Circular => exists s, on_circle P s
    | NoFuel => False
    end.

Lemma same_for_refl : forall st s, same_for st st s.
Proof. intros st s. split; intros; tauto. Qed.

Lemma same_for_trans : forall a b c s, same_for a b s -> same_for b c s -> same_for a c s.
Proof.
  intros a b c s [A B] [C D]. split; intros x.
  - rewrite (C x). apply A.
  - rewrite (D x). apply B.
Qed.

(** The Tupfiles of the directories that a rule names. *)
Lemma dependents_good : forall pd n, parse_good pd n -> forall t stk us ins st,
  Inv (t :: stk) st -> incl (p_used st) (p_parsing st) ->
  (forall s, In s stk -> clos_trans nat (matches_in P) t s) ->
  (forall u, In u us -> u <> t -> matches_in P u t) ->
  left_over st < S n ->
  match dependents pd t us ins st with
  | Done (ins', st') =>
      Inv (t :: stk) st' /\ Grown st st' /\ incl (p_used st') (p_parsing st') /\
      (forall s, framed st st' s -> same_for st st' s) /\
      (forall u, In u ins' <-> In u ins \/ (In u us /\ u <> t)) /\
      (on_circle P t \/ forall u, In u us -> u <> t -> settled (t :: stk) st' u)
  | Circular => exists s, on_circle P s
  | NoFuel => False
  end.
Proof.
  intros pd n PG t stk us. induction us as [|u us IH]; intros ins st I U C M N; cbn [dependents].
  - split; [exact I|]. split; [apply grown_refl|]. split; [exact U|].
    split; [intros; apply same_for_refl|]. split; [cbn; intuition|]. right. intros u [].
  - destruct (Nat.eqb u t) eqn:E.
    + apply Nat.eqb_eq in E. subst u.
      specialize (IH ins st I U C (fun u X => M u (or_intror X)) N).
      destruct (dependents pd t us ins st) as [[ins' st']| |]; [|exact IH|exact IH].
      destruct IH as (A & B & D & F & G & H). split; [exact A|]. split; [exact B|].
      split; [exact D|]. split; [exact F|]. split.
      * intros x. rewrite (G x). cbn. intuition congruence.
      * destruct H as [H | H]; [left; exact H | right]. intros x [<- | X] Nx; [congruence | apply H; assumption].
    + apply Nat.eqb_neq in E.
      assert (Mu : matches_in P u t) by (apply M; [left; reflexivity | exact E]).
      assert (Cu : forall s, In s (t :: stk) -> clos_trans nat (matches_in P) u s).
      { intros s [<- | S]; [apply t_step; exact Mu|]. eapply t_trans; [apply t_step; exact Mu | apply C, S]. }
      (* one nested call *)
      assert (K : match (if mem u (p_graph st) && negb (mem u (p_used st)) then pd u (set_used u st) else Done st) with
                  | Done st1 => Inv (t :: stk) st1 /\ Grown st st1 /\ incl (p_used st1) (p_parsing st1) /\
                      (forall s, framed st st1 s -> same_for st st1 s) /\
                      (on_circle P t \/ settled (t :: stk) st1 u)
                  | Circular => exists s, on_circle P s
                  | NoFuel => False
                  end).
      { destruct (mem u (p_graph st)) eqn:Gu; [destruct (mem u (p_used st)) eqn:Uu|]; cbn [andb negb].
        - (* already used *)
          apply mem_In in Gu, Uu. split; [exact I|]. split; [apply grown_refl|]. split; [exact U|].
          split; [intros; apply same_for_refl|].
          destruct (In_dec_nat u (t :: stk)) as [S | S].
          + left. destruct S as [S | S]; [congruence|]. eapply t_trans; [apply C, S | apply t_step; exact Mu].
          + right. split; [exact S|]. left. apply U, Uu.
        - apply mem_In in Gu. apply mem_nIn in Uu.
          assert (I' : Inv (t :: stk) (set_used u st)).
          { destruct I as [a b c d e f g h i j]. constructor; try assumption.
            cbn. intros s S G. destruct (f s S G); auto. }
          pose proof (PG u (t :: stk) (set_used u st) I' Gu) as PGu. cbn [p_parsing p_used set_used] in PGu.
          specialize (PGu ltac:(intros X; destruct (i_used _ _ I u X Gu) as [X' | X']; [contradiction|];
                                destruct X' as [X' | X']; [congruence|];
                                eapply t_trans; [apply t_step; exact Mu | apply C, X'])).
          specialize (PGu ltac:(intros x [<- | X]; [left; reflexivity | right; apply U, X])).
          specialize (PGu Cu ltac:(pose proof (left_over_lt st u Gu Uu); lia)).
          destruct (pd u (set_used u st)) as [st1| |]; [|exact PGu|exact PGu].
          destruct PGu as (Np & A & B & D & F & G & H).
          assert (Us : In u (p_used st1)) by (apply (g_used _ _ B); cbn; auto).
          assert (Nu : ~ In u (t :: stk)) by (intros X; apply Np, (i_stack _ _ I), X).
          split; [|split; [|split; [|split]]].
          + destruct A as [a b c d e f g h i j]. constructor; auto.
            * intros x X. apply d. right. exact X.
            * intros x X. apply e. right. exact X.
            * intros s S S'. destruct (f s S S') as [X | [<- | X]]; auto.
            * intros s S S'. destruct (Nat.eq_dec s u) as [-> | Ne].
              -- apply (fin_move (u :: t :: stk) (t :: stk) u st1); [exact G | apply same_for_refl|].
                 intros x [X Y]. split; [|apply same_for_refl]. split; [|exact Y]. intros Z. apply X. right. exact Z.
              -- apply (fin_move (u :: t :: stk) (t :: stk) s st1); [apply i; [exact S|]|apply same_for_refl|].
                 ++ intros [Z | Z]; [congruence | contradiction].
                 ++ intros x [X Y]. split; [|apply same_for_refl]. split; [|exact Y]. intros Z. apply X. right. exact Z.
          + destruct B as [a b c]. constructor; [exact a | | exact c].
            intros x X. apply b. cbn. auto.
          + exact D.
          + intros s S. specialize (H s S). exact H.
          + right. split; [exact Nu | left; exact F].
        - apply mem_nIn in Gu. split; [exact I|]. split; [apply grown_refl|]. split; [exact U|].
          split; [intros; apply same_for_refl|]. right.
          split; [intros X; apply Gu, (i_stackg _ _ I), X|].
          destruct (In_dec_nat u G0) as [X | X]; [|right; exact X].
          left. destruct (i_gone _ _ I u X); [contradiction | assumption]. }
      destruct (if mem u (p_graph st) && negb (mem u (p_used st)) then pd u (set_used u st) else Done st)
        as [st1| |]; cbn [rbind]; [|exact K|exact K].
      destruct K as (A & B & D & F & G).
      assert (N1 : left_over st1 < S n).
      { pose proof (left_over_le st st1 (g_graph _ _ B) (g_used _ _ B)). lia. }
      specialize (IH (u :: ins) st1 A D C (fun x X => M x (or_intror X)) N1).
      destruct (dependents pd t us (u :: ins) st1) as [[ins' st']| |]; [|exact IH|exact IH].
      destruct IH as (A' & B' & D' & F' & G' & H').
      split; [exact A'|]. split; [eapply grown_trans; eassumption|]. split; [exact D'|]. split; [|split].
      * intros s S. apply (same_for_trans _ st1).
        -- apply F. destruct S as [S | S]; [left; exact S|]. right. intros X. apply S, (g_parsing _ _ B'), X.
        -- apply F'. destruct S as [S | S]; [left; apply (g_parsing _ _ B), S | right; exact S].
      * intros x. rewrite (G' x). cbn. split.
        -- intros [[<- | X] | [X Y]]; auto.
        -- intros [X | [[<- | X] Y]]; auto.
      * destruct G as [G | G]; [left; exact G|]. destruct H' as [H' | H']; [left; exact H'|].
        right. intros x [<- | X] Nx; [|apply H'; assumption].
        destruct G as [Ga Gb]. split; [exact Ga|].
        destruct Gb as [Gb | Gb]; [left; apply (g_parsing _ _ B'), Gb | right; exact Gb].
Qed.

Lemma settled_framed : forall stk st st' u, settled stk st u -> incl (p_parsing st') G0 -> framed st st' u.
Proof.
  intros stk st st' u [_ [H | H]] I; [left; exact H | right; intros X; apply H, I, X].
Qed.

(** All rules of a Tupfile. *)
Lemma rules_good : forall pd n, parse_good pd n -> forall t stk rs ins own st,
  Inv (t :: stk) st -> incl (p_used st) (p_parsing st) ->
  (forall s, In s stk -> clos_trans nat (matches_in P) t s) ->
  (forall r u, In r rs -> In u (r_uses r) -> u <> t -> matches_in P u t) ->
  left_over st < S n ->
  (tch = [] -> same_set (view st t) own) ->
  match rules pd P t rs ins st with
  | Done (ins', st') =>
      Inv (t :: stk) st' /\ Grown st st' /\ incl (p_used st') (p_parsing st') /\
      (forall s, s <> t -> framed st st' s -> same_for st st' s) /\
      (forall u, In u ins' <-> In u ins \/ (exists r, In r rs /\ In u (r_uses r) /\ u <> t)) /\
      (tch = [] -> on_circle P t \/
        ((forall r u, In r rs -> In u (r_uses r) -> u <> t -> settled (t :: stk) st' u) /\
         same_set (view st' t) (should_make P (view st') t rs own)))
  | Circular => exists s, on_circle P s
  | NoFuel => False
  end.
Proof.
  intros pd n PG t stk rs. induction rs as [|r rs IH]; intros ins own st I U C M N O; cbn [rules].
  - split; [exact I|]. split; [apply grown_refl|]. split; [exact U|].
    split; [intros; apply same_for_refl|]. split.
    + intros u. split; [auto | intros [H | (r & [] & _)]; exact H].
    + intros T. right. split; [intros r u [] | cbn; apply O, T].
  - pose proof (dependents_good pd n PG t stk (r_uses r) ins st I U C
                  (fun u X => M r u (or_introl eq_refl) X) N) as D.
    destruct (dependents pd t (r_uses r) ins st) as [[ins1 st1]| |]; cbn [rbind fst snd]; [|exact D|exact D].
    destruct D as (A & B & Du & F & G & H).
    set (outs := r_make r (map (fun u => found P t u st1) (r_uses r))).
    set (st2 := fold_left (emit t) outs st1).
    destruct (emits_same t outs st1) as (El & Eg & Ep & Eu & Elog). fold st2 in El, Eg, Ep, Eu, Elog.
    assert (S12 : forall s, s <> t -> same_for st1 st2 s).
    { intros s Ns. split.
      - intros f. unfold st2. rewrite emits_present. split; [|auto].
        intros [(x & _ & X) | X]; [congruence | exact X].
      - intros u. rewrite El. tauto. }
    assert (I2 : Inv (t :: stk) st2).
    { destruct A as [a b c d e f g h i j]. constructor; rewrite ?Eg, ?Ep, ?Eu, ?Elog, ?El; auto.
      intros s X Y.
      apply (fin_move (t :: stk) (t :: stk) s st1); [apply i; assumption| |].
      + apply S12. intros ->. apply Y. left. reflexivity.
      + intros u [V W]. split; [split; [exact V | rewrite Ep; exact W]|].
        apply S12. intros ->. apply V. left. reflexivity. }
    assert (St : same_for st st1 t).
    { apply F. left. apply (i_stack _ _ I). left. reflexivity. }
    set (own1 := own ++ r_make r (map (should_find P (view st1) t own) (r_uses r))).
    assert (O1 : tch = [] -> same_set (view st1 t) own).
    { intros T f. rewrite (same_for_view _ _ _ St f). apply (O T). }
    assert (O2 : tch = [] -> same_set (view st2 t) own1).
    { intros T f. rewrite view_In. unfold st2. rewrite emits_present. unfold own1. rewrite in_app_iff.
      rewrite <- (O1 T f), view_In.
      replace (map (should_find P (view st1) t own) (r_uses r)) with (map (fun u => found P t u st1) (r_uses r)).
      2:{ apply map_ext. intros u. apply found_should, O1, T. }
      fold outs. split.
      - intros [(x & X & [= ->]) | X]; auto.
      - intros [X | X]; [auto | left; exists f; auto]. }
    assert (N2 : left_over st2 < S n).
    { pose proof (left_over_le st st2). rewrite Eg, Eu in H0.
      specialize (H0 (g_graph _ _ B) (g_used _ _ B)). lia. }
    specialize (IH ins1 own1 st2 I2 ltac:(rewrite Eu, Ep; exact Du) C
                  (fun r' u X => M r' u (or_intror X)) N2 O2).
    destruct (rules pd P t rs ins1 st2) as [[ins' st']| |]; [|exact IH|exact IH].
    destruct IH as (A' & B' & D' & F' & G' & H').
    assert (B2 : Grown st1 st').
    { destruct B' as [a b c]. constructor; [congruence | rewrite <- Eu; exact b | rewrite <- Ep; exact c]. }
    split; [exact A'|]. split; [eapply grown_trans; eassumption|]. split; [exact D'|]. split; [|split].
    + intros s Ns S. apply (same_for_trans _ st1); [|apply (same_for_trans _ st2)].
      * apply F. destruct S as [S | S]; [left; exact S|]. right. intros X. apply S, (g_parsing _ _ B2), X.
      * apply S12, Ns.
      * apply F'; [exact Ns|]. destruct S as [S | S]; [left | right; exact S].
        rewrite Ep. apply (g_parsing _ _ B), S.
    + intros u. rewrite (G' u), (G u). split.
      * intros [[X | [X Y]] | (r' & X & Y & Z)].
        -- auto.
        -- right. exists r. split; [left; reflexivity | auto].
        -- right. exists r'. split; [right; exact X | auto].
      * intros [X | (r' & [<- | X] & Y & Z)]; [auto | auto|].
        right. exists r'. auto.
    + intros T. destruct H as [H | H]; [left; exact H|]. destruct (H' T) as [X | [X Y]]; [left; exact X|].
      right. assert (Sr : forall u, In u (r_uses r) -> u <> t -> settled (t :: stk) st' u).
      { intros u V W. destruct (H u V W) as [a [b | b]]; split; auto.
        left. apply (g_parsing _ _ B2), b. }
      split.
      * intros r' u [<- | V]; [apply Sr | apply X; exact V].
      * cbn [should_make].
        replace (map (should_find P (view st') t own) (r_uses r))
          with (map (should_find P (view st1) t own) (r_uses r)); [exact Y|].
        apply map_ext_in. intros u V. apply should_find_ext; [|intros f; tauto].
        intros W. assert (Q : same_for st1 st' u).
        { apply (same_for_trans _ st2); [apply S12, W|]. apply F'; [exact W|].
          assert (settled (t :: stk) st2 u).
          { destruct (H u V W) as [a b]. split; [exact a | rewrite Ep; exact b]. }
          eapply settled_framed; [eassumption | apply (i_in _ _ A')]. }
        intros f. symmetry. apply (same_for_view _ _ _ Q).
Qed.

Lemma begin_present : forall t st g, tch = [] ->
  In g (present (begin tch t st)) <-> In g (present st) /\ fst g <> t.
Proof.
  intros t st g T. rewrite !present_In. cbn. rewrite in_app_iff, filter_In, T. cbn.
  rewrite andb_true_r. destruct (Nat.eqb (fst g) t) eqn:E.
  - apply Nat.eqb_eq in E. tauto.
  - apply Nat.eqb_neq in E. intuition congruence.
Qed.

Lemma begin_present_ne : forall t st g, fst g <> t ->
  In g (present (begin tch t st)) <-> In g (present st).
Proof.
  intros t st g N. rewrite !present_In. cbn. rewrite in_app_iff, filter_In.
  apply Nat.eqb_neq in N. rewrite N. cbn. intuition congruence.
Qed.

(** parse itself. *)
Lemma parse_is_good : forall fuel, parse_good (parse fuel P tch) fuel.
Proof.
  induction fuel as [|fuel IHf].
  { intros t stk st I Gt Pc U C N. lia. }
  intros t stk st I Gt Pc U C N. cbn [parse].
  destruct (mem t (p_parsing st)) eqn:Mt.
  { apply mem_In in Mt. exists t. apply Pc, Mt. }
  apply mem_nIn in Mt.
  set (st0 := begin tch t st).
  assert (S0 : forall s, s <> t -> same_for st st0 s).
  { intros s Ns. split; [|intros u; unfold st0; cbn; tauto].
    intros f. apply begin_present_ne. exact Ns. }
  assert (I0 : Inv (t :: stk) st0).
  { destruct I as [a b c d e f g h i j]. constructor; unfold st0; cbn.
    - exact a.
    - congruence.
    - constructor; [rewrite <- b; exact Mt | exact c].
    - intros x [<- | X]; [left; reflexivity | right; apply d, X].
    - intros x [<- | X]; [exact Gt | apply e, X].
    - intros s [<- | S] S'; [auto|]. destruct (f s S S'); auto.
    - intros x [<- | X]; [apply a, Gt | apply g, X].
    - intros s S. destruct (h s S); auto.
    - intros s [<- | S] S'; [exfalso; apply S'; left; reflexivity|].
      apply (fin_move stk (t :: stk) s st); [apply i; [exact S | intros X; apply S'; right; exact X]| |].
      + apply S0. intros ->. contradiction.
      + intros x [X Y].
        assert (Nx : x <> t).
        { intros ->. destruct Y as [Y | Y]; [contradiction | apply Y, a, Gt]. }
        split; [|apply S0, Nx]. split; [intros [Z | Z]; [congruence | contradiction]|].
        destruct Y as [Y | Y]; [left; right; exact Y | right; exact Y].
    - intros s S u. apply j. intros X. apply S. right. exact X. }
  assert (U0 : incl (p_used st0) (p_parsing st0)).
  { intros x X. unfold st0 in *. cbn in *. destruct (U x X) as [-> | Y]; auto. }
  assert (O0 : tch = [] -> same_set (view st0 t) []).
  { intros T f. rewrite view_In. unfold st0. rewrite begin_present by exact T. cbn. tauto. }
  assert (M0 : forall r u, In r (t_rules (P t)) -> In u (r_uses r) -> u <> t -> matches_in P u t).
  { intros r u R V W. split; [exact W | exists r; auto]. }
  pose proof (rules_good (parse fuel P tch) fuel IHf t stk (t_rules (P t)) [] [] st0 I0 U0 C M0 N O0) as K.
  destruct (rules (parse fuel P tch) P t (t_rules (P t)) [] st0) as [[ins' st']| |]; cbn [rbind fst snd];
    [|exact K|exact K].
  destruct K as (A & B & D & F & G & H).
  set (st1 := write_inputs t ins' st').
  assert (S1 : forall s, s <> t -> same_for st' st1 s).
  { intros s Ns. split; [intros f; unfold st1; tauto|].
    intros u. unfold st1. cbn. rewrite in_app_iff, in_map_iff, filter_In. cbn. apply Nat.eqb_neq in Ns.
    rewrite Ns. cbn. apply Nat.eqb_neq in Ns. split; [|auto].
    intros [(x & [= _ X] & _) | [X _]]; [congruence | exact X]. }
  assert (L1 : links_right t st1).
  { intros u. unfold st1. cbn. rewrite in_app_iff, in_map_iff, filter_In. cbn. rewrite Nat.eqb_refl. cbn.
    split.
    - intros [(x & [= ->] & X) | [_ X]]; [|discriminate]. apply G in X. destruct X as [[] | (r & X & Y & Z)].
      split; [exact Z | exists r; auto].
    - intros [X (r & Y & Z)]. left. exists u. split; [reflexivity|]. apply G. right. exists r. auto. }
  assert (Ft : fin (t :: stk) t st1).
  { split; [|exact L1]. intros T. destruct (H T) as [X | [X Y]]; [left; exact X | right].
    split; [|exact Y]. intros u [V (r & R & W)]. apply (X r u R W V). }
  split; [exact Mt|]. split; [|split; [|split; [|split; [|split]]]].
  - destruct A as [a b c d e f g h i j]. constructor; auto.
    + intros s X Y. apply (fin_move (t :: stk) (t :: stk) s st'); [apply i; assumption| |].
      * apply S1. intros ->. apply Y. left. reflexivity.
      * intros u [V W]. split; [split; assumption|]. apply S1. intros ->. apply V. left. reflexivity.
    + intros s X u. rewrite <- (j s X u). apply S1. intros ->. apply X. unfold st1. cbn. apply d. left. reflexivity.
  - destruct B as [a b c]. constructor; [exact a | exact b | intros x X; apply c; unfold st0; cbn; auto].
  - exact D.
  - apply (i_stack _ _ A). left. reflexivity.
  - exact Ft.
  - intros s S. assert (Ns : s <> t).
    { intros ->. destruct S as [S | S]; [contradiction | apply S, (i_stack _ _ A); left; reflexivity]. }
    apply (same_for_trans _ st0); [apply S0, Ns|]. apply (same_for_trans _ st'); [|apply S1, Ns].
    apply F; [exact Ns|]. destruct S as [S | S]; [left; unfold st0; cbn; auto | right; exact S].
Qed.

End Run.
