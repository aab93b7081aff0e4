(** Lemmas about the comparison of variables, the vardict file and varsed. *)
From Verif Require Import Base ConfigModel ConfigSpec ConfigProofs.

(** vardb_compare *)
Lemma compare_nil_nil : vardb_compare [] [] = []. Proof. reflexivity. Qed.
Lemma compare_nil_cons n v b : vardb_compare [] ((n, v) :: b) = AddVar n v :: vardb_compare [] b. Proof. reflexivity. Qed.
Lemma compare_cons_nil n x a : vardb_compare ((n, x) :: a) [] = RemoveVar n :: vardb_compare a []. Proof. destruct x. reflexivity. Qed.
Lemma compare_cons na va k a nb vb b : vardb_compare ((na, (va, k)) :: a) ((nb, vb) :: b) =
  match strcmp na nb with
  | Eq => SameVar na va vb k :: vardb_compare a b
  | Lt => RemoveVar na :: vardb_compare a ((nb, vb) :: b)
  | Gt => AddVar nb vb :: vardb_compare ((na, (va, k)) :: a) b
  end.
Proof. reflexivity. Qed.

Definition differs (a : option (bytes * bool)) (b : option bytes) : bool :=
  match a, b with
  | None, None => false
  | Some (v, k), Some w => negb (k && bytes_eqb v w)
  | _, _ => true
  end.
Definition name_of (c : call) : bytes := match c with RemoveVar n => n | AddVar n _ => n | SameVar n _ _ _ => n end.
Definition expected (a : option (bytes * bool)) (b : option bytes) (n : bytes) : option call :=
  match a, b with
  | None, None => None
  | Some _, None => Some (RemoveVar n)
  | None, Some w => Some (AddVar n w)
  | Some (v, k), Some w => Some (SameVar n v w k)
  end.

Lemma compare_calls a b : ordered a -> ordered b ->
  NoDup (map name_of (vardb_compare a b)) /\
  (forall m, Forall (fun e => before m (fst e)) a -> Forall (fun e => before m (fst e)) b -> Forall (fun c => before m (name_of c)) (vardb_compare a b)) /\
  forall n, match expected (assoc a n) (assoc b n) n with Some c => In c (vardb_compare a b) | None => ~ In n (map name_of (vardb_compare a b)) end.
Proof.
  assert (NI : forall n cs, Forall (fun c => before n (name_of c)) cs -> ~ In n (map name_of cs)).
  { intros n cs F I. apply in_map_iff in I as [c [<- I]]. rewrite Forall_forall in F. exact (before_irr _ (F c I)). }
  intros Oa. revert b. induction Oa as [|na [va k] a Fa Oa IHa].
  - induction 1 as [|nb vb b Fb Ob [IH1 [IH2 IH3]]].
    + rewrite compare_nil_nil. split; [constructor|split; [constructor|]]. intros n. cbn. tauto.
    + rewrite compare_nil_cons. split; [|split].
      * cbn. constructor; [|exact IH1]. apply NI, IH2; [constructor|exact Fb].
      * intros m _ F. apply Forall_cons_iff in F as [F1 F2]. constructor; [exact F1|]. apply IH2; [constructor|exact F2].
      * intros n. specialize (IH3 n). cbn [assoc] in *. destruct (bytes_eqb_spec nb n) as [->|N].
        -- cbn. left. reflexivity.
        -- cbn [expected] in *. destruct (assoc b n); [right; exact IH3|]. cbn. intros [E|I]; [exact (N E)|exact (IH3 I)].
  - induction 1 as [|nb vb b Fb Ob [IHb1 [IHb2 IHb3]]].
    + rewrite compare_cons_nil. destruct (IHa [] ord_nil) as [I1 [I2 I3]]. split; [|split].
      * cbn. constructor; [|exact I1]. apply NI, I2; [exact Fa|constructor].
      * intros m F _. apply Forall_cons_iff in F as [F1 F2]. constructor; [exact F1|]. apply I2; [exact F2|constructor].
      * intros n. specialize (I3 n). cbn [assoc] in *. destruct (bytes_eqb_spec na n) as [->|N].
        -- cbn. left. reflexivity.
        -- destruct (assoc a n) as [[v k']|]; cbn [expected] in *; [right; exact I3|]. cbn. intros [E|I]; [exact (N E)|exact (I3 I)].
    + rewrite compare_cons. destruct (strcmp na nb) eqn:C.
      * apply strcmp_Eq in C as ->. destruct (IHa b Ob) as [I1 [I2 I3]]. split; [|split].
        -- cbn. constructor; [|exact I1]. apply NI, I2; assumption.
        -- intros m F G. apply Forall_cons_iff in F as [F1 F2]. apply Forall_cons_iff in G as [G1 G2]. constructor; [exact F1|]. apply I2; assumption.
        -- intros n. specialize (I3 n). cbn [assoc]. destruct (bytes_eqb_spec nb n) as [->|N]; [left; reflexivity|].
           destruct (expected (assoc a n) (assoc b n) n); [right; exact I3|]. cbn. intros [E|I]; [exact (N E)|exact (I3 I)].
      * apply strcmp_Lt in C. destruct (IHa ((nb, vb) :: b)) as [I1 [I2 I3]]; [constructor; assumption|]. split; [|split].
        -- cbn. constructor; [|exact I1]. apply NI, I2; [exact Fa|]. constructor; [exact C|exact (Forall_before_trans _ _ _ C Fb)].
        -- intros m F G. apply Forall_cons_iff in F as [F1 F2]. constructor; [exact F1|]. apply I2; assumption.
        -- intros n. specialize (I3 n). cbn [assoc] in I3 |- *. destruct (bytes_eqb_spec na n) as [->|N].
           ++ destruct (bytes_eqb_spec nb n) as [->|_]; [elim (before_irr _ C)|].
              rewrite (assoc_after b n) by exact (Forall_before_trans _ _ _ C Fb). left. reflexivity.
           ++ destruct (expected (assoc a n) _ n); [right; exact I3|]. cbn. intros [E|I]; [exact (N E)|exact (I3 I)].
      * apply strcmp_Gt in C. split; [|split].
        -- cbn. constructor; [|exact IHb1]. apply NI, IHb2; [|exact Fb]. constructor; [exact C|exact (Forall_before_trans _ _ _ C Fa)].
        -- intros m F G. apply Forall_cons_iff in G as [G1 G2]. constructor; [exact G1|]. apply IHb2; assumption.
        -- intros n. specialize (IHb3 n). cbn [assoc] in IHb3 |- *. destruct (bytes_eqb_spec nb n) as [->|N].
           ++ destruct (bytes_eqb_spec na n) as [->|_]; [elim (before_irr _ C)|].
              rewrite (assoc_after a n) by exact (Forall_before_trans _ _ _ C Fa). left. reflexivity.
           ++ destruct (expected _ (assoc b n) n); [right; exact IHb3|]. cbn. intros [E|I]; [exact (N E)|exact (IHb3 I)].
Qed.

Definition acts (c : call) : bool := match c with SameVar _ old v k => negb (k && bytes_eqb old v) | _ => true end.
Lemma same_cond k old v : k && (length old =? length v) && bytes_eqb old v = k && bytes_eqb old v.
Proof. destruct (bytes_eqb_spec old v) as [->|]; [rewrite Nat.eqb_refl|]; destruct k; cbn; try reflexivity; apply andb_false_r. Qed.

Lemma do_call_other s c n : n <> name_of c ->
  stored (do_call s c) n = stored s n /\ vflag (do_call s c) n = vflag s n /\ users_flag (do_call s c) n = users_flag s n.
Proof.
  intros N. assert (U : forall A (f : bytes -> A) x, bupd f (name_of c) x n = f n).
  { intros A f x. unfold bupd. destruct (bytes_eqb_spec n (name_of c)); [contradiction|reflexivity]. }
  destruct c as [m|m v|m old v k]; cbn [do_call name_of] in *; cbn [stored vflag users_flag]; [rewrite !U; auto|rewrite !U; auto|].
  destruct (k && (length old =? length v) && bytes_eqb old v); [auto|]. cbn. rewrite !U. auto.
Qed.
Lemma calls_other cs : forall s n, ~ In n (map name_of cs) ->
  stored (fold_left do_call cs s) n = stored s n /\ vflag (fold_left do_call cs s) n = vflag s n /\ users_flag (fold_left do_call cs s) n = users_flag s n.
Proof.
  induction cs as [|c cs IH]; intros s n N; [auto|]. cbn in N |- *. destruct (IH (do_call s c) n) as [H1 [H2 H3]]; [tauto|].
  destruct (do_call_other s c n) as [K1 [K2 K3]]; [intros E; apply N; left; congruence|]. rewrite H1, H2, H3. auto.
Qed.
Lemma calls_one cs : forall s c, NoDup (map name_of cs) -> In c cs ->
  exists s', (stored s' (name_of c), vflag s' (name_of c), users_flag s' (name_of c)) = (stored s (name_of c), vflag s (name_of c), users_flag s (name_of c)) /\
    let t := fold_left do_call cs s in let n := name_of c in
    stored t n = stored (do_call s' c) n /\ vflag t n = vflag (do_call s' c) n /\ users_flag t n = users_flag (do_call s' c) n.
Proof.
  induction cs as [|d cs IH]; intros s c ND I; [elim I|]. cbn in ND. inversion ND as [|? ? N1 N2]; subst. destruct I as [->|I].
  - exists s. split; [reflexivity|]. cbn [fold_left]. apply calls_other, N1.
  - destruct (IH (do_call s d) c N2 I) as [s' [E H]]. exists s'. split; [|exact H]. rewrite E.
    destruct (do_call_other s d (name_of c)) as [K1 [K2 K3]]; [|rewrite K1, K2, K3; reflexivity].
    intros E2. apply N1. rewrite <- E2. apply in_map, I.
Qed.
Lemma calls_changed cs : forall s, changed (fold_left do_call cs s) = changed s + length (filter acts cs).
Proof.
  induction cs as [|c cs IH]; intros s; cbn [fold_left filter]; [cbn; lia|]. rewrite IH.
  destruct c as [m|m v|m old v k]; cbn [do_call changed acts length]; try lia. rewrite same_cond. destruct (k && bytes_eqb old v); cbn; lia.
Qed.

Lemma apply_spec old new s : ordered old -> ordered new -> (forall n, stored s n = option_map fst (assoc old n)) ->
  (forall n, vflag s n = false) -> (forall n, users_flag s n = false) -> changed s = 0 ->
  let t := apply_config old new s in
  (forall n, stored t n = assoc new n) /\
  (forall n, vflag t n || users_flag t n = differs (assoc old n) (assoc new n)) /\
  (changed t = 0 <-> forall n, differs (assoc old n) (assoc new n) = false).
Proof.
  intros Oo On Hs Hv Hu Hc t. destruct (compare_calls old new Oo On) as [ND [_ EX]].
  assert (one : forall n, stored t n = assoc new n /\ vflag t n || users_flag t n = differs (assoc old n) (assoc new n)).
  { intros n. specialize (EX n). destruct (expected (assoc old n) (assoc new n) n) as [c|] eqn:E.
    - assert (Nc : name_of c = n). { destruct (assoc old n) as [[? ?]|], (assoc new n); cbn in E; try discriminate; injection E as <-; reflexivity. }
      destruct (calls_one _ s c ND EX) as [s' [E2 [H1 [H2 H3]]]]. rewrite Nc in *. unfold t, apply_config. rewrite H1, H2, H3.
      injection E2 as F1 F2 F3. rewrite Hs in F1. rewrite Hv in F2. rewrite Hu in F3.
      assert (U : forall A (f : bytes -> A) x, bupd f n x n = x) by (intros A f x; unfold bupd; rewrite bytes_eqb_refl; reflexivity).
      destruct (assoc old n) as [[v k]|], (assoc new n) as [w|]; cbn [expected] in E; try discriminate; injection E as <-; cbn [do_call].
      + rewrite same_cond. cbn [differs]. destruct (k && bytes_eqb v w) eqn:K; cbn [stored vflag users_flag].
        * apply andb_true_iff in K as [_ K]. apply bytes_eqb_eq in K as ->. rewrite F1, F2, F3. auto.
        * rewrite !U. auto.
      + cbn [stored vflag users_flag]. rewrite !U. auto.
      + cbn [stored vflag users_flag]. rewrite !U, F3. auto.
    - destruct (calls_other _ s n EX) as [H1 [H2 H3]]. unfold t, apply_config. rewrite H1, H2, H3, Hs, Hv, Hu.
      destruct (assoc old n) as [[v k]|], (assoc new n) as [w|]; cbn [expected] in E; try discriminate. auto. }
  split; [intros n; apply one|split; [intros n; apply one|]].
  unfold t, apply_config. rewrite calls_changed, Hc. cbn. split.
  - intros Z n. destruct (filter acts (vardb_compare old new)) as [|x y] eqn:F; [|discriminate].
    specialize (EX n). destruct (differs (assoc old n) (assoc new n)) eqn:D; [|reflexivity]. exfalso.
    destruct (expected (assoc old n) (assoc new n) n) as [c|] eqn:E.
    + assert (X : In c []).
      { rewrite <- F. apply filter_In. split; [exact EX|]. destruct (assoc old n) as [[v k]|], (assoc new n) as [w|]; cbn in E, D; try discriminate; injection E as <-; auto. }
      exact X.
    + destruct (assoc old n) as [[v k]|], (assoc new n) as [w|]; cbn in E, D; discriminate.
  - intros D. destruct (filter acts (vardb_compare old new)) as [|c y] eqn:F; [reflexivity|]. exfalso.
    assert (I : In c (filter acts (vardb_compare old new))) by (rewrite F; left; reflexivity). apply filter_In in I as [I A].
    specialize (D (name_of c)). specialize (EX (name_of c)).
    destruct (expected (assoc old (name_of c)) (assoc new (name_of c)) (name_of c)) as [d|] eqn:E.
    + assert (Nd : name_of d = name_of c). { destruct (assoc old (name_of c)) as [[? ?]|], (assoc new (name_of c)); cbn in E; try discriminate; injection E as <-; reflexivity. }
      assert (d = c).
      { clear -ND EX I Nd. induction (vardb_compare old new) as [|x l IH]; [elim I|]. cbn in ND. inversion ND as [|? ? N1 N2]; subst.
        destruct EX as [->|EX], I as [->|I]; [reflexivity| | |exact (IH N2 EX I)].
        - elim N1. rewrite Nd. apply in_map, I.
        - elim N1. rewrite <- Nd. apply in_map, EX. }
      subst d. destruct (assoc old (name_of c)) as [[v k]|], (assoc new (name_of c)) as [w|]; cbn in E, D; try discriminate.
      injection E as E. rewrite <- E in A. cbn in A. congruence.
    + apply EX, in_map, I.
Qed.

(** The bytes of the dictionary *)
Lemma le32_length n : length (le32 n) = 4. Proof. reflexivity. Qed.
Lemma le32_read_app n rest : (n < 2 ^ 32)%N -> le32_read (le32 n ++ rest) = Some n.
Proof.
  intros L. unfold le32, le32_read. cbn [map app].
  assert (M : forall m, (m mod 256 < 256)%N) by (intros m; apply N.mod_lt; discriminate).
  rewrite !N_ascii_embedding by apply M.
  change (256 ^ 0)%N with 1%N. change (256 ^ 1)%N with 256%N. change (256 ^ 2)%N with (256 * 256)%N. change (256 ^ 3)%N with (256 * 256 * 256)%N.
  rewrite N.div_1_r, <- !N.div_div by discriminate. f_equal.
  assert (D : (n / 256 / 256 / 256 < 256)%N).
  { rewrite !N.div_div by discriminate. apply N.div_lt_upper_bound; [discriminate|]. change (2 ^ 32)%N with (256 * 256 * 256 * 256)%N in L. exact L. }
  rewrite (N.mod_small _ _ D).
  assert (DM : forall m, (m mod 256 + 256 * (m / 256) = m)%N) by (intros m; rewrite N.add_comm; symmetry; apply N.div_mod; discriminate).
  rewrite !DM. reflexivity.
Qed.

Definition size (e : bytes * bytes) : nat := length (fst e) + 1 + length (snd e) + 1.
Lemma entry_length e : length (entry_text e) = size e.
Proof. destruct e. unfold entry_text, size. cbn. rewrite app_length. cbn. rewrite app_length. cbn. lia. Qed.
Fixpoint total (v : vardb) : nat := match v with [] => 0 | e :: v' => size e + total v' end.
Lemma text_length v : length (concat (map entry_text v)) = total v.
Proof. induction v as [|e v IH]; cbn; [reflexivity|]. rewrite app_length, entry_length, IH. reflexivity. Qed.
Lemma offsets_length v x : length (offsets x v) = 4 * length v.
Proof. revert x. induction v as [|[n w] v IH]; intros x; cbn [offsets length]; [reflexivity|]. rewrite app_length, IH, le32_length. lia. Qed.
Lemma skipn_offsets v : forall x i e rest, nth_error v i = Some e -> (x + N.of_nat (total v) < 2 ^ 32)%N ->
  le32_read (skipn (4 * i) (offsets x v ++ rest)) = Some (x + N.of_nat (total (firstn i v)))%N.
Proof.
  induction v as [|[n w] v IH]; intros x i e rest H L; [destruct i; discriminate|]. destruct i as [|i].
  - change (4 * 0) with 0. cbn [skipn offsets firstn total]. rewrite <- app_assoc, le32_read_app by (cbn [total] in L; lia). f_equal. lia.
  - cbn [offsets firstn total]. replace (4 * S i) with (length (le32 x) + 4 * i) by (rewrite le32_length; lia).
    rewrite <- app_assoc, skipn_app, skipn_all2 by lia. replace (length (le32 x) + 4 * i - length (le32 x)) with (4 * i) by lia. cbn [app].
    rewrite (IH _ i e); [|exact H|cbn [total] in L; unfold size in L; cbn [fst snd] in L; lia]. f_equal. unfold size. cbn [fst snd]. lia.
Qed.
Lemma skipn_text v : forall i e, nth_error v i = Some e ->
  skipn (total (firstn i v)) (concat (map entry_text v)) = entry_text e ++ concat (map entry_text (skipn (S i) v)).
Proof.
  induction v as [|f v IH]; intros i e H; [destruct i; discriminate|]. destruct i as [|i].
  - injection H as ->. reflexivity.
  - cbn [firstn total map concat]. rewrite skipn_app, entry_length, skipn_all2 by (rewrite entry_length; lia).
    replace (size f + total (firstn i v) - size f) with (total (firstn i v)) by lia. cbn [app]. rewrite (IH i e H). reflexivity.
Qed.

(** Comparing the key *)
Definition ascii7 (s : bytes) : Prop := Forall (fun c => nat_of_ascii c < 128) s.
Lemma schar_small c : nat_of_ascii c < 128 -> schar c = Z.of_nat (nat_of_ascii c).
Proof. unfold schar, nat_of_ascii. intros H. rewrite N_nat_Z in *. destruct (Z.ltb_spec (Z.of_N (N_of_ascii c)) 128); lia. Qed.
Lemma schar_inj a b : schar a = schar b -> a = b.
Proof.
  unfold schar. intros H. assert (A := N_ascii_bounded a). assert (A2 := N_ascii_bounded b).
  rewrite <- (ascii_N_embedding a), <- (ascii_N_embedding b). f_equal.
  destruct (Z.ltb_spec (Z.of_N (N_of_ascii a)) 128), (Z.ltb_spec (Z.of_N (N_of_ascii b)) 128); lia.
Qed.
Lemma probe_hit name k w rest : ~ In "="%char name -> probe (name ++ "="%char :: w) k = Value rest -> k = name /\ rest = w.
Proof.
  revert k. induction name as [|x name IH]; intros k N; cbn [app].
  - destruct k as [|y k]; cbn; [intros [= ->]; auto|discriminate].
  - destruct k as [|y k]; cbn.
    + destruct (Ascii.eqb_spec x "="%char) as [->|]; [elim N; left; reflexivity|discriminate].
    + destruct (Ascii.eqb_spec x "="%char) as [->|]; [elim N; left; reflexivity|].
      destruct (Z.ltb_spec (schar x) (schar y)); [discriminate|]. destruct (Z.ltb_spec (schar y) (schar x)); [discriminate|].
      intros H2. assert (x = y) as -> by (apply schar_inj; lia). apply IH in H2 as [-> ->]; [auto|intros I; apply N; right; exact I].
Qed.
Lemma probe_self name w : ~ In "="%char name -> probe (name ++ "="%char :: w) name = Value w.
Proof.
  induction name as [|x name IH]; intros N; [reflexivity|]. cbn. destruct (Ascii.eqb_spec x "="%char) as [->|]; [elim N; left; reflexivity|].
  rewrite Z.ltb_irrefl. apply IH. intros I. apply N. right. exact I.
Qed.
(** The order that the search uses. *)
Lemma probe_cases name k w : ~ In "="%char name -> probe (name ++ "="%char :: w) k = Left \/ probe (name ++ "="%char :: w) k = Right \/ k = name.
Proof.
  revert k. induction name as [|x name IH]; intros k N; cbn [app].
  - destruct k as [|y k]; cbn; auto.
  - destruct k as [|y k]; cbn.
    + destruct (Ascii.eqb_spec x "="%char) as [->|]; [elim N; left; reflexivity|auto].
    + destruct (Ascii.eqb_spec x "="%char) as [->|]; [elim N; left; reflexivity|].
      destruct (Z.ltb_spec (schar x) (schar y)); [auto|]. destruct (Z.ltb_spec (schar y) (schar x)); [auto|].
      assert (x = y) as -> by (apply schar_inj; lia). destruct (IH k) as [H2|[H2|H2]]; auto; [intros I; apply N; right; exact I|subst; auto].
Qed.
Lemma probe_before name k w : ~ In "="%char name -> ascii7 name -> ascii7 k -> before name k -> probe (name ++ "="%char :: w) k = Left.
Proof.
  intros N A1 A2 H. revert N A1 A2. induction H as [y k|x y name k L|x name k H IH]; intros N A1 A2; [reflexivity| |]; cbn.
  - destruct (Ascii.eqb_spec x "="%char) as [->|]; [reflexivity|]. inversion A1; inversion A2; subst.
    rewrite !schar_small by assumption. rewrite (proj2 (Z.ltb_lt _ _)); [reflexivity|lia].
  - destruct (Ascii.eqb_spec x "="%char) as [->|]; [reflexivity|]. rewrite Z.ltb_irrefl. inversion A1; inversion A2; subst.
    apply IH; [intros I; apply N; right; exact I|assumption|assumption].
Qed.
Lemma probe_after name k w : ~ In "="%char name -> ascii7 name -> ascii7 k -> before k name -> probe (name ++ "="%char :: w) k = Right.
Proof.
  intros N A1 A2 H. revert N A1 A2. induction H as [x name|y x k name L|x k name H IH]; intros N A1 A2; cbn.
  - destruct (Ascii.eqb_spec x "="%char) as [->|]; [elim N; left; reflexivity|reflexivity].
  - destruct (Ascii.eqb_spec x "="%char) as [->|]; [elim N; left; reflexivity|]. inversion A1; inversion A2; subst.
    rewrite !schar_small by assumption. rewrite (proj2 (Z.ltb_ge _ _)) by lia. rewrite (proj2 (Z.ltb_lt _ _)); [reflexivity|lia].
  - destruct (Ascii.eqb_spec x "="%char) as [->|]; [elim N; left; reflexivity|]. rewrite Z.ltb_irrefl. inversion A1; inversion A2; subst.
    apply IH; [intros I; apply N; right; exact I|assumption|assumption].
Qed.

Lemma c_string_app v rest : ~ In nul v -> c_string (v ++ nul :: rest) = Some v.
Proof.
  induction v as [|c v IH]; intros N; cbn; [reflexivity|]. destruct (Ascii.eqb_spec c nul) as [->|]; [elim N; left; reflexivity|].
  rewrite IH; [reflexivity|intros I; apply N; right; exact I].
Qed.

(** The binary search *)
Definition good_entry (e : bytes * bytes) : Prop := ~ In "="%char (fst e) /\ ~ In nul (snd e).
Lemma assoc_nth v n w : assoc v n = Some w -> exists i, nth_error v i = Some (n, w : bytes).
Proof.
  induction v as [|[m x] v IH]; cbn; [discriminate|]. destruct (bytes_eqb_spec m n) as [->|].
  - intros [= ->]. exists 0. reflexivity.
  - intros H. destruct (IH H) as [i E]. exists (S i). exact E.
Qed.
Lemma nth_assoc v i n (w : bytes) : ordered v -> nth_error v i = Some (n, w) -> assoc v n = Some w.
Proof.
  intros O. revert i. induction O as [|m x v F O IH]; intros [|i] H; cbn in *; try discriminate.
  - injection H as -> ->. rewrite bytes_eqb_refl. reflexivity.
  - destruct (bytes_eqb_spec m n) as [->|]; [|eauto]. rewrite Forall_forall in F. apply nth_error_In in H. elim (before_irr _ (F _ H)).
Qed.
Lemma nth_before v i j e f : ordered (A := bytes) v -> i < j -> nth_error v i = Some e -> nth_error v j = Some f -> before (fst e) (fst f).
Proof.
  intros O. revert i j. induction O as [|m x v F O IH]; intros [|i] [|j] L He Hf; cbn in *; try discriminate; try lia.
  - injection He as <-. rewrite Forall_forall in F. apply (F f). exact (nth_error_In _ _ Hf).
  - apply (IH i j); [lia|assumption|assumption].
Qed.

(** What is at an index, for the bytes that were written. *)
Section Search.
Variable v : vardb.
Hypothesis Ov : ordered v.
Hypothesis Gv : Forall good_entry v.
Hypothesis Tv : (4 + 4 * N.of_nat (length v) + N.of_nat (total v) < 2 ^ 32)%N.
Variable key : bytes.
Let index := offsets 0 v ++ concat (map entry_text v).
Let entries := concat (map entry_text v).
Let len := N.of_nat (length (vardict_bytes v)).
Let num := N.of_nat (length v).

Lemma file_length : len = (4 + 4 * num + N.of_nat (total v))%N.
Proof. unfold len, num, vardict_bytes. rewrite !app_length, le32_length, offsets_length, text_length. lia. Qed.

Lemma search_step fuel left right : (-1 <= left)%Z -> (left + 1 < right)%Z -> (right <= Z.of_N num)%Z ->
  exists i e, let cur := ((right - left) / 2 + left)%Z in
    Z.of_nat i = cur /\ (left < cur < right)%Z /\ nth_error v i = Some e /\
    search (S fuel) len num index entries key left right =
      match probe (entry_text e ++ concat (map entry_text (skipn (S i) v))) key with
      | Left => search fuel len num index entries key cur right
      | Right => search fuel len num index entries key left cur
      | Value rest => match c_string rest with Some w => Hit w | None => Broken end
      | Off => Broken
      end.
Proof.
  intros L1 L2 L3. set (cur := ((right - left) / 2 + left)%Z).
  assert (Hh : (1 <= (right - left) / 2)%Z) by (apply Z.div_le_lower_bound; lia).
  assert (Hh2 : ((right - left) / 2 < right - left)%Z) by (apply Z.div_lt; lia).
  assert (Hc : (left < cur < right)%Z) by (unfold cur; lia).
  assert (Hn : Z.to_nat cur < length v) by (unfold num in L3; lia).
  destruct (nth_error v (Z.to_nat cur)) as [e|] eqn:E; [|apply nth_error_None in E; lia].
  exists (Z.to_nat cur), e. cbv zeta. fold cur. split; [lia|split; [exact Hc|split; [exact E|]]].
  cbn [search]. cbv zeta. fold cur. rewrite (proj2 (Z.leb_gt _ _)) by lia. rewrite (proj2 (Z.leb_gt (Z.of_N num) cur)) by lia.
  unfold index. rewrite (skipn_offsets v 0 (Z.to_nat cur) e); [|exact E|lia]. rewrite N.add_0_l.
  assert (T : total (firstn (Z.to_nat cur) v) <= total v).
  { rewrite <- (firstn_skipn (Z.to_nat cur) v) at 2. generalize (firstn (Z.to_nat cur) v) (skipn (Z.to_nat cur) v). intros a b.
    induction a as [|f a IH]; cbn; lia. }
  rewrite (proj2 (N.leb_gt _ _)) by (rewrite file_length; lia).
  rewrite Nat2N.id. unfold entries. rewrite (skipn_text v _ e E). reflexivity.
Qed.

Lemma text_split e rest : entry_text e ++ rest = fst e ++ "="%char :: (snd e ++ nul :: rest).
Proof. unfold entry_text. rewrite <- app_assoc. cbn. rewrite <- app_assoc. reflexivity. Qed.

Lemma search_sound fuel : forall left right, (-1 <= left)%Z -> (left < right)%Z -> (right <= Z.of_N num)%Z -> (right - left <= Z.of_nat fuel)%Z ->
  search fuel len num index entries key left right = Miss \/
  exists w, assoc v key = Some w /\ search fuel len num index entries key left right = Hit w.
Proof.
  induction fuel as [|fuel IH]; intros left right L1 L2 L3 Lf; [lia|].
  destruct (Z.eq_dec right (left + 1)) as [->|N].
  - left. cbn [search]. replace (left + 1 - left)%Z with 1%Z by lia. reflexivity.
  - destruct (search_step fuel left right L1) as [i [e [Ei [Hc [E SE]]]]]; [lia|exact L3|]. rewrite SE.
    rewrite text_split.
    destruct e as [n w]. cbn [fst snd] in *. assert (G : good_entry (n, w)) by (rewrite Forall_forall in Gv; apply Gv, (nth_error_In _ _ E)). destruct G as [G1 G2]. cbn in G1, G2.
    destruct (probe_cases n key (w ++ nul :: concat (map entry_text (skipn (S i) v))) G1) as [P|[P|P]].
    + rewrite P. apply IH; lia.
    + rewrite P. apply IH; lia.
    + subst n. rewrite (probe_self _ _ G1), (c_string_app _ _ G2). right. exists w. split; [exact (nth_assoc _ _ _ _ Ov E)|reflexivity].
Qed.

Hypothesis Av : Forall (fun e => ascii7 (fst e)) v.
Lemma search_complete fuel : forall left right j w, (-1 <= left)%Z -> (left < Z.of_nat j < right)%Z -> (right <= Z.of_N num)%Z -> (right - left <= Z.of_nat fuel)%Z ->
  nth_error v j = Some (key, w) -> search fuel len num index entries key left right = Hit w.
Proof.
  induction fuel as [|fuel IH]; intros left right j w L1 L2 L3 Lf Ej; [lia|].
  destruct (search_step fuel left right L1) as [i [e [Ei [Hc [E SE]]]]]; [lia|exact L3|]. rewrite SE, text_split.
  assert (Ak : ascii7 key) by (rewrite Forall_forall in Av; exact (Av _ (nth_error_In _ _ Ej))).
  destruct e as [n x]. cbn [fst snd] in *.
  assert (An : ascii7 n) by (rewrite Forall_forall in Av; exact (Av _ (nth_error_In _ _ E))).
  assert (G : good_entry (n, x)) by (rewrite Forall_forall in Gv; apply Gv, (nth_error_In _ _ E)). destruct G as [G1 G2]. cbn in G1, G2.
  destruct (lt_eq_lt_dec i j) as [[Lt|Eq]|Gt].
  - rewrite probe_before; [|assumption|assumption|assumption|exact (nth_before v i j _ _ Ov Lt E Ej)]. apply (IH _ _ j); auto; lia.
  - subst j. rewrite E in Ej. injection Ej as -> ->. rewrite (probe_self _ _ G1), (c_string_app _ _ G2). reflexivity.
  - rewrite probe_after; [|assumption|assumption|assumption|exact (nth_before v j i _ _ Ov Gt Ej E)]. apply (IH _ _ j); auto; lia.
Qed.
End Search.

Lemma config_var_unfold v key : (4 + 4 * N.of_nat (length v) + N.of_nat (total v) < 2 ^ 32)%N ->
  config_var (vardict_bytes v) key =
  search (S (length v)) (N.of_nat (length (vardict_bytes v))) (N.of_nat (length v)) (offsets 0 v ++ concat (map entry_text v)) (concat (map entry_text v)) key (-1) (Z.of_N (N.of_nat (length v))).
Proof.
  intros T. assert (F := file_length v T). cbv zeta in F.
  assert (R : le32_read (vardict_bytes v) = Some (N.of_nat (length v))) by (apply le32_read_app; lia).
  assert (X : skipn 4 (vardict_bytes v) = offsets 0 v ++ concat (map entry_text v)) by reflexivity.
  revert F R X. generalize (vardict_bytes v). intros f F R X. unfold config_var. destruct f as [|a b]; [discriminate R|].
  rewrite R. cbv zeta. rewrite X, F. rewrite (proj2 (N.ltb_ge _ _)) by lia. rewrite Nat2N.id.
  rewrite (skipn_len (offsets 0 v)) by (rewrite offsets_length; reflexivity). reflexivity.
Qed.

Lemma lookup_sound v key : ordered v -> Forall good_entry v -> (4 + 4 * N.of_nat (length v) + N.of_nat (total v) < 2 ^ 32)%N ->
  config_var (vardict_bytes v) key = Miss \/ exists w, assoc v key = Some w /\ config_var (vardict_bytes v) key = Hit w.
Proof. intros O G T. rewrite (config_var_unfold v key T). apply (search_sound v O G T key); lia. Qed.
Lemma lookup_exact v key : ordered v -> Forall good_entry v -> Forall (fun e => ascii7 (fst e)) v -> (4 + 4 * N.of_nat (length v) + N.of_nat (total v) < 2 ^ 32)%N ->
  config_var (vardict_bytes v) key = match assoc v key with Some w => Hit w | None => Miss end.
Proof.
  intros O G A T. destruct (assoc v key) as [w|] eqn:E.
  - rewrite (config_var_unfold v key T). destruct (assoc_nth _ _ _ E) as [j Ej].
    assert (L : j < length v) by (apply nth_error_Some; rewrite Ej; discriminate).
    apply (search_complete v O G T key A _ _ _ j); try lia. exact Ej.
  - destruct (lookup_sound v key O G T) as [H|[w [H _]]]; [exact H|congruence].
Qed.

(** varsed *)
Lemma isname_char c : isname c = true <-> name_char c.
Proof.
  split.
  - intros H. rewrite <- (ascii_nat_embedding c). unfold isname in H. revert H. generalize (nat_of_ascii c). intros n H.
    assert (X : n < 123). { destruct (Nat.lt_ge_cases n 123) as [L|L]; [exact L|exfalso]. rewrite !orb_true_iff, !andb_true_iff, !Nat.leb_le, Nat.eqb_eq in H. lia. }
    unfold name_char.
    do 123 (destruct n as [|n]; [cbn in H |- *; first [discriminate H|repeat (first [left; reflexivity|right])]|]). lia.
  - intros H. unfold name_char in H. cbn in H. repeat (destruct H as [<-|H]; [reflexivity|]). elim H.
Qed.
Lemma span_spec f s a b : span f s = (a, b) -> s = a ++ b /\ Forall (fun c => f c = true) a /\ match b with [] => True | c :: _ => f c = false end.
Proof.
  revert a b. induction s as [|c s IH]; cbn; intros a b H.
  - injection H as <- <-. auto.
  - destruct (f c) eqn:E.
    + destruct (span f s) as [a' b'] eqn:S. injection H as <- <-. destruct (IH a' b' eq_refl) as [-> [F R]]. split; [reflexivity|]. split; [constructor; assumption|exact R].
    + injection H as <- <-. auto.
Qed.
Lemma sub_plain value a t o : Forall (fun c => negb (c =?c at_sign) = true) a -> substituted value t o -> substituted value (a ++ t) (a ++ o).
Proof.
  induction 1 as [|c a N F IH]; intros H; cbn; [exact H|]. apply sub_char; [|exact (IH H)].
  intros ->. cbn in N. discriminate.
Qed.
Lemma name_not_at c : isname c = true -> negb (c =?c at_sign) = true.
Proof. intros H. destruct (Ascii.eqb_spec c at_sign) as [->|]; [vm_compute in H; discriminate|reflexivity]. Qed.
Lemma shown_bin lookup binmode n : shown lookup binmode n = match lookup n with Some v => bin_value binmode v | None => [] end.
Proof.
  unfold shown, bin_value. destruct (lookup n) as [v|]; [|reflexivity]. destruct binmode; [|reflexivity]. cbn [andb].
  destruct (bytes_eqb v (B "y")) eqn:Y; [apply bytes_eqb_eq in Y as ->; reflexivity|]. destruct (bytes_eqb v (B "n")) eqn:N; [apply bytes_eqb_eq in N as ->; reflexivity|]. destruct (length v =? 1); reflexivity.
Qed.
Lemma app_split {A} (a b c d : list A) : a ++ b = c ++ d -> (exists e, c = a ++ e /\ b = e ++ d) \/ (exists e, a = c ++ e /\ d = e ++ b).
Proof.
  revert c. induction a as [|x a IH]; intros c H; cbn in H; [left; exists c; auto|].
  destruct c as [|y c]; cbn in H; [right; exists (x :: a); auto|]. injection H as -> H. destruct (IH c H) as [[e [-> ->]]|[e [-> ->]]]; [left|right]; exists e; auto.
Qed.
Lemma sub_lone_end value name t o : Forall (fun c => isname c = true) name -> match t with [] => True | c :: _ => isname c = false /\ c <> at_sign end ->
  substituted value t o -> substituted value (at_sign :: name ++ t) (at_sign :: name ++ o).
Proof.
  intros F R H. apply sub_lone.
  - intros n u Fn E. destruct (app_split _ _ _ _ E) as [[e [-> E2]]|[e [E1 E2]]].
    + destruct e as [|x e]; cbn in E2.
      * destruct t as [|c t]; [discriminate|]. destruct R as [_ R]. injection E2 as -> _. apply R. reflexivity.
      * destruct t as [|c t]; [discriminate|]. destruct R as [R _]. injection E2 as -> _. apply Forall_app in Fn as [_ Fn]. inversion Fn as [|? ? W]; subst.
        apply isname_char in W. congruence.
    + destruct e as [|x e]; cbn in E2.
      * subst t. destruct R as [_ R]. apply R. reflexivity.
      * injection E2 as <- _. rewrite E1 in F. apply Forall_app in F as [_ F]. inversion F as [|? ? W]; subst. vm_compute in W. discriminate.
  - apply sub_plain; [|exact H]. revert F. apply Forall_impl. exact name_not_at.
Qed.

Lemma replace_sub fuel lookup binmode : forall p, length p < fuel ->
  exists o, replace fuel lookup binmode p = Some o /\ substituted (shown lookup binmode) p o.
Proof.
  induction fuel as [|fuel IH]; intros p L; [lia|]. cbn [replace].
  destruct (span (fun c => negb (c =?c at_sign)) p) as [text rest] eqn:S1. destruct (span_spec _ _ _ _ S1) as [-> [F1 R1]].
  rewrite app_length in L. destruct rest as [|c after].
  - exists text. split; [reflexivity|]. rewrite <- (app_nil_r text) at 2. apply sub_plain; [exact F1|constructor].
  - assert (c = at_sign) as -> by (destruct (Ascii.eqb_spec c at_sign); [assumption|discriminate R1]).
    destruct (span isname after) as [name rat] eqn:S2. destruct (span_spec _ _ _ _ S2) as [-> [F2 R2]].
    cbn [length] in L. rewrite app_length in L.
    assert (go : forall out p' t, length p' < fuel -> (forall o, substituted (shown lookup binmode) p' o -> substituted (shown lookup binmode) t (out ++ o)) ->
      exists o, match p' with [] => Some (text ++ out) | _ => option_map (fun o => text ++ out ++ o) (replace fuel lookup binmode p') end = Some o /\
        substituted (shown lookup binmode) (text ++ t) o).
    { intros out p' t L' H. destruct p' as [|d p'].
      - exists (text ++ out). split; [reflexivity|]. apply sub_plain; [exact F1|]. rewrite <- (app_nil_r out). apply H. constructor.
      - destruct (IH (d :: p') L') as [o [E S]]. exists (text ++ out ++ o). rewrite E. split; [reflexivity|]. apply sub_plain; [exact F1|]. apply H, S. }
    destruct rat as [|d rest'].
    + destruct (go (at_sign :: name) [] (at_sign :: name ++ [])) as [o [E S]]; [cbn; lia| |exists o; split; [exact E|exact S]].
      intros o S. rewrite <- app_comm_cons. apply sub_lone_end; [exact F2|exact I|exact S].
    + destruct (Ascii.eqb_spec d at_sign) as [->|N].
      * rewrite <- shown_bin. destruct (go (shown lookup binmode name) rest' (at_sign :: name ++ at_sign :: rest')) as [o [E S]]; [cbn in L; lia| |exists o; split; [exact E|exact S]].
        intros o S. apply (sub_ref (shown lookup binmode) name rest' o); [|exact S].
        revert F2. apply Forall_impl. intros x. apply isname_char.
      * destruct (go (at_sign :: name) (d :: rest') (at_sign :: name ++ d :: rest')) as [o [E S]]; [cbn in L |- *; lia| |exists o; split; [exact E|exact S]].
        intros o S. rewrite <- app_comm_cons. apply sub_lone_end; [exact F2|auto|exact S].
Qed.

(** The specification determines the result. *)
Lemma name_at_unique n t m u : Forall name_char n -> Forall name_char m -> n ++ at_sign :: t = m ++ at_sign :: u -> n = m /\ t = u.
Proof.
  revert m. induction n as [|x n IH]; intros [|y m] F G E; cbn in E.
  - injection E as ->. auto.
  - injection E as <- _. inversion G as [|? ? W]; subst. apply isname_char in W. vm_compute in W. discriminate.
  - injection E as -> _. inversion F as [|? ? W]; subst. apply isname_char in W. vm_compute in W. discriminate.
  - injection E as -> E. inversion F; inversion G; subst. destruct (IH m) as [-> ->]; auto.
Qed.
Lemma substituted_fun value p o o' : substituted value p o -> substituted value p o' -> o = o'.
Proof.
  intros H. revert o'. induction H as [|c t o N H IH|n t o F H IH|t o N H IH]; intros o' K.
  - inversion K. reflexivity.
  - inversion K as [|? ? o2 N2 K2|? ? o2 F2 K2|? o2 N2 K2]; subst; try (elim N; reflexivity). f_equal. apply IH, K2.
  - inversion K as [|? ? o2 N2 K2|m u o2 F2 K2|? o2 N2 K2]; subst; [elim N2; reflexivity| |].
    + match goal with E : _ ++ _ = _ ++ _ |- _ => destruct (name_at_unique _ _ _ _ F2 F E) as [-> ->] end. f_equal. apply IH, K2.
    + elim (N2 n t F). reflexivity.
  - inversion K as [|? ? o2 N2 K2|m u o2 F2 K2|? o2 N2 K2]; subst; [elim N2; reflexivity| |].
    + elim (N m u F2). reflexivity.
    + f_equal. apply IH, K2.
Qed.

(** Histories of one configuration *)
Lemma plain_ordered v : ordered v -> ordered (plain_db v).
Proof.
  induction 1 as [|n w v F O IH]; cbn; constructor; [|exact IH]. apply Forall_forall. intros e I. apply in_map_iff in I as [[m x] [<- I]].
  rewrite Forall_forall in F. exact (F _ I).
Qed.
Lemma plain_assoc v n : assoc (plain_db v) n = option_map (fun w => (w, true)) (assoc v n).
Proof. induction v as [|[m w] v IH]; cbn; [reflexivity|]. destruct (bytes_eqb m n); [reflexivity|exact IH]. Qed.
Lemma differs_plain v w n : differs (assoc (plain_db v) n) (assoc w n) = false <-> assoc v n = assoc w n.
Proof.
  rewrite plain_assoc. destruct (assoc v n) as [x|], (assoc w n) as [y|]; cbn; try (split; congruence).
  destruct (bytes_eqb_spec x y) as [->|]; cbn; split; congruence.
Qed.
Lemma vars_changed_spec w : ordered (committed w) -> ordered (config w) ->
  (vars_changed w = false <-> forall n, assoc (committed w) n = assoc (config w) n).
Proof.
  intros O1 O2. unfold vars_changed. rewrite negb_false_iff, Nat.eqb_eq.
  assert (X : changed (apply_config (plain_db (committed w)) (config w) {| stored := fun _ => None; vflag := fun _ => false; users_flag := fun _ => false; changed := 0 |}) =
    changed (apply_config (plain_db (committed w)) (config w) {| stored := fun n => option_map fst (assoc (plain_db (committed w)) n); vflag := fun _ => false; users_flag := fun _ => false; changed := 0 |}))
    by (unfold apply_config; rewrite !calls_changed; reflexivity).
  rewrite X. destruct (apply_spec (plain_db (committed w)) (config w) {| stored := fun n => option_map fst (assoc (plain_db (committed w)) n); vflag := fun _ => false; users_flag := fun _ => false; changed := 0 |}) as [_ [_ H]];
    try reflexivity; [apply plain_ordered, O1|exact O2|]. rewrite H. split; intros K n; specialize (K n); apply differs_plain in K || apply differs_plain; exact K.
Qed.

Lemma var_tree_ordered fuel : forall p v v', ordered v -> var_tree fuel p v = Ok v' -> ordered v'.
Proof.
  assert (SL : forall p v v', ordered v -> set_line p v = Some v' -> ordered v').
  { intros p v v' O H. unfold set_line in H.
    repeat match type of H with
    | (match ?x with _ => _ end) = _ => destruct x
    end; try discriminate; injection H as <-; try apply set_ordered; exact O. }
  induction fuel as [|f IH]; intros p v v' O H; destruct p as [|c p]; cbn [var_tree] in H; try congruence.
  destruct (strchr newline (c :: p)) as [l| |]; try discriminate. destruct (set_line (rstrip l) v) as [v1|] eqn:E; [|discriminate].
  exact (IH _ _ _ (SL _ _ _ O E) H).
Qed.
Lemma file_ordered file v : get_file_var_tree file = Ok v -> ordered v.
Proof. apply var_tree_ordered. constructor. Qed.

Lemma dict_current w : chistory false w -> ordered (config w) /\ ordered (committed w) /\ forall n, assoc (dict w) n = assoc (committed w) n.
Proof.
  induction 1 as [|w file v H [IH1 [IH2 IH3]] E|w H [IH1 [IH2 IH3]]|w A H IH]; [|..|discriminate].
  - cbn. split; [constructor|split; [constructor|reflexivity]].
  - cbn. split; [exact (file_ordered _ _ E)|auto].
  - cbn. split; [exact IH1|split; [exact IH1|]]. intros n. destruct (vars_changed w) eqn:C; [reflexivity|]. rewrite IH3. apply vars_changed_spec; assumption.
Qed.

(** For examples. *)
Fixpoint ordb {A} (v : list (bytes * A)) : bool :=
  match v with
  | [] => true
  | (n, _) :: v' => forallb (fun e => match strcmp n (fst e) with Lt => true | _ => false end) v' && ordb v'
  end.
Lemma ordb_ok {A} (v : list (bytes * A)) : ordb v = true -> ordered v.
Proof.
  induction v as [|[n w] v IH]; cbn; intros H; [constructor|]. apply andb_true_iff in H as [H1 H2]. constructor; [|exact (IH H2)].
  apply Forall_forall. intros e I. rewrite forallb_forall in H1. specialize (H1 e I). apply strcmp_Lt. destruct (strcmp n (fst e)); congruence.
Qed.
