From Verif Require Import PoolModel PoolSpec.
Require Import ZArith List Bool Lia.
Import ListNotations.
Open Scope Z_scope.

Lemma set_same f k q : set_pool f k q k = q.
Proof. unfold set_pool. rewrite Nat.eqb_refl. reflexivity. Qed.
Lemma set_other f k q i : i <> k -> set_pool f k q i = f i.
Proof. intros N. unfold set_pool. apply Nat.eqb_neq in N. rewrite N. reflexivity. Qed.
Lemma bytes_pos k l : (forall x, In x l -> 0 <= snd x) -> 0 <= bytes k l.
Proof.
  induction l as [|[[k' b] n] l IH]; intros H; cbn [bytes]; [lia|]. assert (0 <= n) by (apply (H (k', b, n)); left; reflexivity). assert (0 <= bytes k l) by (apply IH; intros x X; apply H; right; exact X). destruct (Nat.eqb k' k); lia.
Qed.

Section Pools.
Variables size align : nat -> Z.
Hypothesis T : types_ok size align.
Notation offset := (mem_offset align).

Lemma al_pos k : 0 < align k.
Proof. destruct (T k) as [[e [E ->]] _]. apply Z.pow_pos_nonneg; lia. Qed.
Lemma off_div k : (align k | offset k).
Proof. exists ((entry_size + (align k - 1)) / align k). reflexivity. Qed.
Lemma off_ge k : 8 <= offset k.
Proof.
  pose proof (al_pos k). unfold mem_offset, entry_size. pose proof (Z.mul_succ_div_gt (8 + (align k - 1)) (align k) H). rewrite Z.mul_comm. lia.
Qed.
Lemma land_ok k a : Z.land a (align k - 1) = 0 <-> (align k | a).
Proof.
  pose proof (al_pos k). destruct (T k) as [[e [E P]] _]. rewrite <- Z.mod_divide by lia. rewrite P. replace (2 ^ e - 1) with (Z.ones e) by (rewrite Z.ones_equiv; lia). rewrite Z.land_ones by lia. reflexivity.
Qed.

(** The parts that memory has: items in use, items on lists, and what is left of blocks. *)
Inductive owner := OLive (p : Z) (k : nat) | OFree (k : nat) (p : Z) | OSpare (k : nat).
Definition has (s : st) (o : owner) : Prop :=
  match o with OLive p k => In (p, k) (live s) | OFree k p => In p (free_list (pools s k)) | OSpare k => 0 < free_count (pools s k) end.
Definition beg (s : st) (o : owner) : Z := match o with OLive p _ => p | OFree _ p => p | OSpare k => mem (pools s k) end.
Definition len (s : st) (o : owner) : Z := match o with OLive _ k => size k | OFree k _ => size k | OSpare k => free_count (pools s k) * size k end.
Definition al (o : owner) : Z := match o with OLive _ k => align k | OFree k _ => align k | OSpare k => align k end.

Record Inv (s : st) : Prop := {
  i_next : forall k, next_size (pools s k) = bytes k (blocks s) + 4096;
  i_cnt : forall k, 0 <= free_count (pools s k);
  i_big : forall k b n, In (k, b, n) (blocks s) -> 4096 <= n /\ 0 < b;
  i_blocks : forall i j x y, nth_error (blocks s) i = Some x -> nth_error (blocks s) j = Some y -> i <> j -> apart (addr x) (snd x) (addr y) (snd y);
  i_in : forall o, has s o -> exists k b n, In (k, b, n) (blocks s) /\ b + 8 <= beg s o /\ beg s o + len s o <= b + n;
  i_al : forall o, has s o -> (al o | beg s o);
  i_dis : forall o o', has s o -> has s o' -> o <> o' -> apart (beg s o) (len s o) (beg s o') (len s o');
  i_free : forall k, NoDup (free_list (pools s k));
  i_live : NoDup (live s) }.

Lemma inv_start : Inv start.
Proof.
  split; cbn [start pools blocks live bytes next_size free_count free_list].
  - intros k. reflexivity.
  - intros k. lia.
  - intros k b n [].
  - intros [|i] j x y H; discriminate.
  - intros [p k|k p|k]; cbn; try contradiction; lia.
  - intros [p k|k p|k]; cbn; try contradiction; lia.
  - intros [p k|k p|k] o'; cbn; try contradiction; lia.
  - intros k. constructor.
  - constructor.
Qed.

(** Moving parts: if each part of the new state lies in one of the old state, different parts in
    different ones, the memory is still well divided. *)
Lemma moved s s' (f : owner -> owner) : Inv s -> blocks s' = blocks s ->
  (forall o, has s' o -> has s (f o) /\ beg s (f o) <= beg s' o /\ beg s' o + len s' o <= beg s (f o) + len s (f o)) ->
  (forall o, has s' o -> (al o | beg s' o)) ->
  (forall o o', has s' o -> has s' o' -> o <> o' -> f o = f o' -> apart (beg s' o) (len s' o) (beg s' o') (len s' o')) ->
  (forall o o' : owner, {o = o'} + {o <> o'}) ->
  (forall o, has s' o -> exists k b n, In (k, b, n) (blocks s') /\ b + 8 <= beg s' o /\ beg s' o + len s' o <= b + n) /\
  (forall o o', has s' o -> has s' o' -> o <> o' -> apart (beg s' o) (len s' o) (beg s' o') (len s' o')).
Proof.
  intros I B F A S D. split.
  - intros o H. destruct (F o H) as [H1 [H2 H3]]. destruct (i_in _ I _ H1) as [k [b [n [X [Y Z]]]]]. exists k, b, n. rewrite B. split; [exact X|lia].
  - intros o o' H H' N. destruct (D (f o) (f o')) as [E|E]; [apply S; assumption|]. destruct (F o H) as [H1 [H2 H3]]. destruct (F o' H') as [K1 [K2 K3]]. pose proof (i_dis _ I _ _ H1 K1 E). unfold apart in *. lia.
Qed.
Lemma owner_dec (o o' : owner) : {o = o'} + {o <> o'}.
Proof. decide equality; try apply Z.eq_dec; apply Nat.eq_dec. Qed.

Lemma inv_pop s k p r : Inv s -> free_list (pools s k) = p :: r ->
  Inv {| pools := set_pool (pools s) k (Pool r (next_size (pools s k)) (free_count (pools s k)) (mem (pools s k))); blocks := blocks s; live := (p, k) :: live s |}.
Proof.
  intros I E. set (s' := {| pools := _ |}). set (f := fun o => match o with OLive p' k' => if in_dec owner_dec (OLive p' k') [OLive p k] then OFree k p else o | _ => o end).
  assert (NoDup (p :: r)) as Nd by (rewrite <- E; apply I). inversion Nd as [|? ? N1 N2]; subst.
  assert (has s (OFree k p)) as Hp by (cbn; rewrite E; left; reflexivity).
  assert (~ In (p, k) (live s)) as NL.
  { intros Z. pose proof (i_dis _ I (OLive p k) (OFree k p) Z Hp ltac:(discriminate)) as Q. cbn in Q. destruct (T k) as [_ [_ [S _]]]. unfold apart in Q. lia. }
  assert (forall k', free_list (pools s' k') = if Nat.eqb k' k then r else free_list (pools s k')) as Fl by (intros k'; cbn; unfold set_pool; destruct (Nat.eqb k' k); reflexivity).
  assert (forall k', free_count (pools s' k') = free_count (pools s k') /\ mem (pools s' k') = mem (pools s k') /\ next_size (pools s' k') = next_size (pools s k')) as Fc.
  { intros k'. cbn. unfold set_pool. destruct (Nat.eqb k' k) eqn:Q; [apply Nat.eqb_eq in Q; subst; auto|auto]. }
  assert (forall o, has s' o -> has s (f o) /\ beg s (f o) = beg s' o /\ len s (f o) = len s' o /\ al (f o) = al o) as F.
  { intros [p' k'|k' p'|k'] H; cbn [f].
    - destruct (in_dec owner_dec (OLive p' k') [OLive p k]) as [[X|[]]|X]; [injection X as <- <-; auto|]. destruct H as [H|H]; [injection H as <- <-; destruct X; left; reflexivity|]. auto.
    - cbn [has] in H. rewrite Fl in H. cbn [has beg len al]. destruct (Nat.eqb k' k) eqn:Q; [apply Nat.eqb_eq in Q; subst k'; rewrite E; cbn; auto|auto].
    - cbn [has beg len al] in *. destruct (Fc k') as [-> [-> _]]. destruct (Fc k') as [Q [_ _]]. rewrite Q in H. auto. }
  destruct (moved s s' f I eq_refl) as [M1 M2].
  - intros o H. destruct (F o H) as [H1 [H2 [H3 _]]]. split; [exact H1|lia].
  - intros o H. destruct (F o H) as [H1 [H2 [_ H4]]]. rewrite <- H2, <- H4. apply I. exact H1.
  - intros o o' H H' N E'. exfalso. apply N. clear N. destruct o as [p1 k1|k1 p1|k1], o' as [p2 k2|k2 p2|k2]; cbn [f] in E'; repeat match type of E' with context[in_dec ?d ?a ?l] => destruct (in_dec d a l) as [[?|[]]|?] end; try congruence.
    + injection E' as <- <-. cbn [has] in H'. rewrite Fl, Nat.eqb_refl in H'. contradiction.
    + injection E' as -> ->. cbn [has] in H. rewrite Fl, Nat.eqb_refl in H. contradiction.
  - apply owner_dec.
  - split; try exact M1; try exact M2; try apply I.
    + intros k'. destruct (Fc k') as [_ [_ ->]]. apply I.
    + intros k'. destruct (Fc k') as [-> _]. apply I.
    + intros o H. destruct (F o H) as [H1 [H2 [_ H4]]]. rewrite <- H2, <- H4. apply I. exact H1.
    + intros k'. rewrite Fl. destruct (Nat.eqb k' k); [exact N2|apply I].
    + constructor; [exact NL|apply I].
Qed.

Lemma inv_free s k k' p : Inv s -> In (p, k') (live s) -> size k' = size k -> align k' = align k -> Inv (mempool_free k p s).
Proof.
  intros I L Sz Al. set (s' := mempool_free k p s). set (f := fun o => if owner_dec o (OFree k p) then OLive p k' else o).
  assert (forall k1, In (p, k1) (live s) -> k1 = k') as Un.
  { intros k1 H. destruct (Nat.eq_dec k1 k') as [X|X]; [exact X|exfalso]. pose proof (i_dis _ I (OLive p k1) (OLive p k') H L ltac:(congruence)) as Q. destruct (T k1) as [_ [_ [S1 _]]]. destruct (T k') as [_ [_ [S2 _]]]. cbn in Q. unfold apart in Q. lia. }
  assert (forall k1, ~ In p (free_list (pools s k1))) as NF.
  { intros k1 H. pose proof (i_dis _ I (OLive p k') (OFree k1 p) L H ltac:(discriminate)) as Q. destruct (T k1) as [_ [_ [S1 _]]]. destruct (T k') as [_ [_ [S2 _]]]. cbn in Q. unfold apart in Q. lia. }
  assert (forall i, free_list (pools s' i) = if Nat.eqb i k then p :: free_list (pools s k) else free_list (pools s i)) as Fl by (intros i; cbn; unfold set_pool; destruct (Nat.eqb i k); reflexivity).
  assert (forall i, free_count (pools s' i) = free_count (pools s i) /\ mem (pools s' i) = mem (pools s i) /\ next_size (pools s' i) = next_size (pools s i)) as Fc.
  { intros i. cbn. unfold set_pool. destruct (Nat.eqb i k) eqn:Q; [apply Nat.eqb_eq in Q; subst; auto|auto]. }
  assert (forall q i, In (q, i) (live s') <-> In (q, i) (live s) /\ q <> p) as Lv by (intros q i; cbn; rewrite filter_In, negb_true_iff; cbn; rewrite Z.eqb_neq; reflexivity).
  assert (forall o, has s' o -> has s (f o) /\ beg s (f o) = beg s' o /\ len s (f o) = len s' o /\ al (f o) = al o) as F.
  { intros o H. unfold f. destruct (owner_dec o (OFree k p)) as [->|X]; [cbn; auto|]. destruct o as [q i|i q|i]; cbn [has beg len al] in *.
    - apply Lv in H. tauto.
    - rewrite Fl in H. destruct (Nat.eqb i k) eqn:Q; [|auto]. apply Nat.eqb_eq in Q. subst i. destruct H as [<-|H]; [destruct X; reflexivity|auto].
    - destruct (Fc i) as [Q1 [-> _]]. rewrite Q1 in *. auto. }
  destruct (moved s s' f I eq_refl) as [M1 M2].
  - intros o H. destruct (F o H) as [H1 [H2 [H3 _]]]. split; [exact H1|lia].
  - intros o H. destruct (F o H) as [H1 [H2 [_ H4]]]. rewrite <- H2, <- H4. apply I. exact H1.
  - intros o o' H H' N E. exfalso. unfold f in E. destruct (owner_dec o (OFree k p)) as [->|X], (owner_dec o' (OFree k p)) as [->|X']; try congruence.
    + subst o'. cbn [has] in H'. apply Lv in H'. tauto.
    + subst o. cbn [has] in H. apply Lv in H. tauto.
  - apply owner_dec.
  - split; try exact M1; try exact M2; try apply I.
    + intros i. destruct (Fc i) as [_ [_ ->]]. apply I.
    + intros i. destruct (Fc i) as [-> _]. apply I.
    + intros o H. destruct (F o H) as [H1 [H2 [_ H4]]]. rewrite <- H2, <- H4. apply I. exact H1.
    + intros i. rewrite Fl. destruct (Nat.eqb i k); [constructor; [apply NF|apply I]|apply I].
    + cbn. apply NoDup_filter. apply I.
Qed.

Lemma inv_next s k : Inv s -> 0 < free_count (pools s k) -> exists p s', next_item size align k s = (Some p, s') /\ p = mem (pools s k) /\ live s' = (p, k) :: live s /\ blocks s' = blocks s /\ Inv s'.
Proof.
  intros I C. set (q := pools s k). unfold next_item. fold q. assert (has s (OSpare k)) as Hk by exact C. pose proof (i_al _ I _ Hk) as A. cbn in A. fold q in A. pose proof (proj2 (land_ok k (mem q)) A) as ->. rewrite Z.eqb_refl.
  eexists. eexists. split; [reflexivity|]. split; [reflexivity|]. split; [reflexivity|]. split; [reflexivity|]. set (s' := {| pools := _ |}). set (p := mem q). destruct (T k) as [_ [Dv [S8 _]]].
  set (f := fun o => if owner_dec o (OLive p k) then OSpare k else o).
  assert (~ In (p, k) (live s)) as NL.
  { intros Z. pose proof (i_dis _ I (OLive p k) (OSpare k) Z Hk ltac:(discriminate)) as Q. cbn in Q. fold q in Q, C. unfold apart, p in Q. assert (0 < free_count q * size k) by (apply Z.mul_pos_pos; lia). lia. }
  assert (forall i, free_list (pools s' i) = free_list (pools s i) /\ next_size (pools s' i) = next_size (pools s i)) as Fl.
  { intros i. cbn. unfold set_pool. destruct (Nat.eqb i k) eqn:Q; [apply Nat.eqb_eq in Q; subst i|]; auto. }
  assert (pools s' k = Pool (free_list q) (next_size q) (free_count q - 1) (mem q + size k)) as Pk by (cbn; apply set_same).
  assert (forall i, i <> k -> pools s' i = pools s i) as Po by (intros i N; cbn; apply set_other; exact N).
  assert (forall o, has s' o -> o <> OLive p k -> o <> OSpare k -> has s o /\ beg s o = beg s' o /\ len s o = len s' o) as F.
  { intros [a i|i a|i] H N1 N2; cbn [has beg len] in *.
    - destruct H as [H|H]; [injection H as <- <-; destruct N1; reflexivity|auto].
    - destruct (Fl i) as [Q _]. rewrite Q in H. auto.
    - assert (i <> k) as Ni by congruence. rewrite Po in * by exact Ni. auto. }
  assert (forall o, has s' o -> has s (f o) /\ beg s (f o) <= beg s' o /\ beg s' o + len s' o <= beg s (f o) + len s (f o)) as F'.
  { intros o H. unfold f. destruct (owner_dec o (OLive p k)) as [->|X].
    - split; [exact C|]. cbn. fold q. fold q in C. unfold p. split; [lia|]. assert (0 <= (free_count q - 1) * size k) by (apply Z.mul_nonneg_nonneg; lia). lia.
    - destruct (owner_dec o (OSpare k)) as [->|Y].
      + cbn [has beg len] in *. rewrite Pk in *. cbn [free_count mem] in *. fold q. split; [exact C|]. lia.
      + destruct (F o H X Y) as [H1 [H2 H3]]. split; [exact H1|lia]. }
  assert (forall o, has s' o -> (al o | beg s' o)) as A'.
  { intros o H. destruct (owner_dec o (OLive p k)) as [->|X]; [exact A|]. destruct (owner_dec o (OSpare k)) as [->|Y].
    - cbn [al beg]. rewrite Pk. cbn [mem]. apply Z.divide_add_r; assumption.
    - destruct (F o H X Y) as [H1 [H2 _]]. rewrite <- H2. apply I. exact H1. }
  destruct (moved s s' f I eq_refl F' A') as [M1 M2].
  - intros o o' H H' N E. assert (o = OLive p k /\ o' = OSpare k \/ o = OSpare k /\ o' = OLive p k) as [[-> ->]|[-> ->]].
    { unfold f in E. destruct (owner_dec o (OLive p k)), (owner_dec o' (OLive p k)); subst; try congruence; auto. }
    + cbn [beg len]. rewrite Pk. cbn [mem]. unfold apart, p. lia.
    + cbn [beg len]. rewrite Pk. cbn [mem]. unfold apart, p. lia.
  - apply owner_dec.
  - split; try exact M1; try exact M2; try exact A'; try apply I.
    + intros i. destruct (Fl i) as [_ ->]. apply I.
    + intros i. destruct (Nat.eq_dec i k) as [->|N]; [rewrite Pk; cbn; fold q in C; lia|rewrite Po by exact N; apply I].
    + intros i. destruct (Fl i) as [-> _]. apply I.
    + constructor; [exact NL|apply I].
Qed.

Lemma inv_block s k b : Inv s -> free_count (pools s k) = 0 -> malloc_ok align k (next_size (pools s k)) s b -> small (new_block size align k b s) ->
  Inv (new_block size align k b s) /\ 0 < free_count (pools (new_block size align k b s) k).
Proof.
  intros I C [B0 [Bal Bd]] Sm. set (q := pools s k) in *. set (s' := new_block size align k b s) in *. destruct (T k) as [[e [E0 Ep]] [Dv [S8 Fit]]]. pose proof (off_ge k) as O8.
  assert (0 <= bytes k (blocks s)) as Bp. { apply bytes_pos. intros [[k' b'] n'] X. apply (i_big _ I) in X. cbn. lia. }
  pose proof (i_next _ I k) as Nx. fold q in Nx. pose proof (Sm k) as Sk. cbn in Sk. rewrite Nat.eqb_refl in Sk. fold q in Sk.
  assert (next_size q * 2 < 2 ^ 32) as N32 by lia.
  set (n := next_size q) in *. set (c := (n - offset k) / size k).
  assert (1 <= c) as C1. { unfold c. apply Z.div_le_lower_bound; lia. }
  assert (c * size k <= n - offset k) as C2. { unfold c. rewrite Z.mul_comm. apply Z.mul_div_le. lia. }
  assert (c < 2 ^ 31) as C3. { unfold c. apply Z.div_lt_upper_bound; [lia|]. nia. }
  assert (pools s' k = Pool (free_list q) (n * 2) c (b + offset k)) as Pk.
  { unfold s', new_block. cbn [pools]. rewrite set_same. fold q. fold n. unfold to_uint, two32. rewrite (Z.mod_small (n * 2)) by lia. unfold to_size. rewrite (Z.mod_small (n - offset k)) by lia. fold c. unfold to_int, two32. rewrite (Z.mod_small (c + 2 ^ 31)) by lia. f_equal. lia. }
  assert (forall i, i <> k -> pools s' i = pools s i) as Po by (intros i N; cbn; apply set_other; exact N).
  assert (blocks s' = (k, b, n) :: blocks s) as Bl by reflexivity.
  assert (forall o, has s' o -> o <> OSpare k -> has s o /\ beg s o = beg s' o /\ len s o = len s' o) as F.
  { intros [a i|i a|i] H N; cbn [has beg len] in *.
    - auto.
    - destruct (Nat.eq_dec i k) as [->|Ni]; [rewrite Pk in H; auto|rewrite Po in H by exact Ni; auto].
    - assert (i <> k) as Ni by congruence. rewrite Po in * by exact Ni. auto. }
  assert (forall o, has s' o -> o <> OSpare k -> apart b n (beg s' o) (len s' o)) as Far.
  { intros o H N. destruct (F o H N) as [H1 [H2 H3]]. destruct (i_in _ I _ H1) as [k' [b' [n' [X [Y Z]]]]]. specialize (Bd k' b' n' X). unfold apart in *. lia. }
  split; [|rewrite Pk; cbn; lia]. split.
  - intros i. destruct (Nat.eq_dec i k) as [->|N]; [rewrite Pk, Bl; cbn [next_size bytes]; rewrite Nat.eqb_refl; lia|]. rewrite Po, Bl by exact N. cbn [bytes]. replace (Nat.eqb k i) with false by (symmetry; apply Nat.eqb_neq; auto). rewrite (i_next _ I i). lia.
  - intros i. destruct (Nat.eq_dec i k) as [->|N]; [rewrite Pk; cbn; lia|rewrite Po by exact N; apply I].
  - intros k' b' n' X. rewrite Bl in X. destruct X as [X|X]; [injection X as <- <- <-; lia|apply (i_big _ I) in X; exact X].
  - intros i j x y Hi Hj N. rewrite Bl in Hi, Hj. destruct i as [|i], j as [|j]; cbn in Hi, Hj; [congruence| | |apply (i_blocks _ I i j x y Hi Hj); congruence].
    + injection Hi as <-. apply nth_error_In in Hj. destruct y as [[k' b'] n']. apply Bd in Hj. exact Hj.
    + injection Hj as <-. apply nth_error_In in Hi. destruct x as [[k' b'] n']. apply Bd in Hi. unfold apart in *. cbn in *. lia.
  - intros o H. destruct (owner_dec o (OSpare k)) as [->|N].
    + exists k, b, n. rewrite Bl. cbn [beg len]. rewrite Pk. cbn [mem free_count]. split; [left; reflexivity|lia].
    + destruct (F o H N) as [H1 [H2 H3]]. destruct (i_in _ I _ H1) as [k' [b' [n' [X [Y Z]]]]]. exists k', b', n'. rewrite Bl. split; [right; exact X|lia].
  - intros o H. destruct (owner_dec o (OSpare k)) as [->|N].
    + cbn [al beg]. rewrite Pk. cbn [mem]. apply Z.divide_add_r; [exact Bal|apply off_div].
    + destruct (F o H N) as [H1 [H2 _]]. rewrite <- H2. apply I. exact H1.
  - intros o o' H H' N. destruct (owner_dec o (OSpare k)) as [->|X], (owner_dec o' (OSpare k)) as [->|X']; [congruence| | |].
    + pose proof (Far o' H' X') as Q. cbn [beg len] in *. rewrite Pk. cbn [mem free_count]. unfold apart in *. lia.
    + pose proof (Far o H X) as Q. unfold apart in *. change (beg s' (OSpare k)) with (mem (pools s' k)). change (len s' (OSpare k)) with (free_count (pools s' k) * size k). rewrite Pk. cbn [mem free_count]. lia.
    + destruct (F o H X) as [H1 [H2 H3]]. destruct (F o' H' X') as [K1 [K2 K3]]. rewrite <- H2, <- H3, <- K2, <- K3. apply I; assumption.
  - intros i. destruct (Nat.eq_dec i k) as [->|N]; [rewrite Pk; apply (i_free _ I k)|rewrite Po by exact N; apply I].
  - exact (i_live _ I).
Qed.

(** What an allocation comes to. *)
Lemma alloc_cases s k m : Inv s -> (forall b, m = Some b -> malloc_ok align k (next_size (pools s k)) s b) -> small (snd (mempool_alloc size align k m s)) ->
  Inv (snd (mempool_alloc size align k m s)) /\
  ((exists p, fst (mempool_alloc size align k m s) = Some p /\ live (snd (mempool_alloc size align k m s)) = (p, k) :: live s) \/
   m = None /\ free_list (pools s k) = [] /\ free_count (pools s k) = 0 /\ mempool_alloc size align k m s = (None, s)).
Proof.
  intros I M Sm. unfold mempool_alloc in *. destruct (free_list (pools s k)) as [|p r] eqn:Fl.
  - destruct (T k) as [_ [_ [S8 _]]]. destruct (free_count (pools s k) =? 0) eqn:C.
    + apply Z.eqb_eq in C. replace (size k <? entry_size) with false in * by (symmetry; apply Z.ltb_ge; unfold entry_size; lia). destruct m as [b|]; cbn [option_map] in *; [|split; [exact I|right; auto 10]].
      assert (small (new_block size align k b s)) as Sb. { revert Sm. unfold next_item. destruct (Z.land _ _ =? 0); cbn [snd]; auto. }
      destruct (inv_block s k b I C (M b eq_refl) Sb) as [I' C']. destruct (inv_next _ k I' C') as [p [s' [-> [Ep [L [_ I2]]]]]]. cbn [fst snd]. split; [exact I2|]. left. exists p. split; [reflexivity|]. rewrite L. reflexivity.
    + apply Z.eqb_neq in C. pose proof (i_cnt _ I k). destruct (inv_next s k I ltac:(lia)) as [p [s' [-> [Ep [L [_ I2]]]]]]. cbn [fst snd]. split; [exact I2|]. left. exists p. auto.
  - cbn [fst snd]. split; [apply inv_pop; assumption|]. left. exists p. auto.
Qed.

Lemma sizes s : reach size align s -> (forall k, 0 <= next_size (pools s k)) /\ forall x, In x (blocks s) -> 0 <= snd x.
Proof.
  induction 1 as [|s k m R [A C] M|s k k' p R [A C] L Sz Al].
  - split; [intros k; cbn; unfold ALLOC_BLOCK_SIZE; lia|intros x []].
  - unfold mempool_alloc. destruct (free_list (pools s k)) as [|p r].
    + assert (forall s1, (forall i, 0 <= next_size (pools s1 i)) /\ (forall x, In x (blocks s1) -> 0 <= snd x) -> (forall i, 0 <= next_size (pools (snd (next_item size align k s1)) i)) /\ forall x, In x (blocks (snd (next_item size align k s1))) -> 0 <= snd x) as Nx.
      { intros s1 [A1 C1]. unfold next_item. destruct (Z.land _ _ =? 0); cbn [snd pools blocks]; [|auto]. split; [|exact C1]. intros i. unfold set_pool. destruct (Nat.eqb i k); [cbn; apply A1|apply A1]. }
      destruct (free_count (pools s k) =? 0); [|apply Nx; auto]. destruct (size k <? entry_size); [cbn; auto|]. destruct m as [b|]; cbn [option_map]; [|auto]. apply Nx. cbn [new_block pools blocks]. split.
      * intros i. unfold set_pool. destruct (Nat.eqb i k); [cbn; unfold to_uint, two32; apply Z.mod_pos_bound; lia|apply A].
      * intros x [<-|X]; [apply A|auto].
    + cbn [snd pools blocks]. split; [|exact C]. intros i. unfold set_pool. destruct (Nat.eqb i k); [cbn; apply A|apply A].
  - cbn [mempool_free pools blocks]. split; [|exact C]. intros i. unfold set_pool. destruct (Nat.eqb i k); [cbn; apply A|apply A].
Qed.
Lemma blocks_grow s k m : exists l, blocks (snd (mempool_alloc size align k m s)) = l ++ blocks s /\ (l = [] \/ exists b, l = [(k, b, next_size (pools s k))]).
Proof.
  assert (forall s1, blocks (snd (next_item size align k s1)) = blocks s1) as Nx by (intros s1; unfold next_item; destruct (Z.land _ _ =? 0); reflexivity).
  unfold mempool_alloc. destruct (free_list (pools s k)) as [|p r]; [|exists []; auto]. destruct (free_count (pools s k) =? 0); [|exists []; rewrite Nx; auto].
  destruct (size k <? entry_size); [exists []; auto|]. destruct m as [b|]; cbn [option_map]; [|exists []; auto]. exists [(k, b, next_size (pools s k))]. rewrite Nx. split; [reflexivity|eauto].
Qed.
Lemma small_before s k m : reach size align s -> small (snd (mempool_alloc size align k m s)) -> small s.
Proof.
  intros R Sm i. specialize (Sm i). destruct (blocks_grow s k m) as [l [E [->|[b ->]]]]; rewrite E in Sm; [exact Sm|]. cbn [app bytes] in Sm. pose proof (proj1 (sizes s R) k). destruct (Nat.eqb k i); lia.
Qed.
Lemma reach_inv s : reach size align s -> small s -> Inv s.
Proof.
  induction 1 as [|s k m R IH M|s k k' p R IH L Sz Al]; intros Sm.
  - exact inv_start.
  - apply alloc_cases; auto. apply IH. eapply small_before; eassumption.
  - apply (inv_free s k k'); auto.
Qed.
End Pools.
