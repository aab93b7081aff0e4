From Verif Require Import Base OutputModel OutputSpec.

Lemma bufsize_pos : 1 <= bufsize.
Proof. unfold bufsize. lia. Qed.
Lemma read_le w d : read_count w d <= length d.
Proof. unfold read_count. lia. Qed.
Lemma read_zero w d : read_count w d = 0 <-> d = [].
Proof.
  unfold read_count. pose proof bufsize_pos. split; [|intros ->; cbn [length]; lia].
  destruct d; [reflexivity|]. cbn [length]. lia.
Qed.
Lemma bytes_eqb_true a b : bytes_eqb a b = true <-> a = b.
Proof. apply bytes_eqb_eq. Qed.

(** Whatever the reads return: "equal" is right. *)
Lemma compare_files_sound w1 w2 : forall fuel i d1 d2, compare_files fuel i w1 w2 d1 d2 = Some true -> d1 = d2.
Proof.
  induction fuel as [|fuel IH]; intros i d1 d2 H; [discriminate|]. cbn [compare_files] in H.
  destruct (read_count (w1 i) d1 =? read_count (w2 i) d2) eqn:E; [cbn [negb] in H|discriminate]. apply Nat.eqb_eq in E.
  destruct (read_count (w1 i) d1 =? 0) eqn:Z.
  - apply Nat.eqb_eq in Z. rewrite E in Z. pose proof (proj1 (read_zero _ _) Z) as ->. rewrite Z in E. apply read_zero in E as ->. reflexivity.
  - destruct (bytes_eqb _ _) eqn:Q in H; [cbn [negb] in H|discriminate]. apply bytes_eqb_true in Q. apply IH in H.
    rewrite <- (firstn_skipn (read_count (w1 i) d1) d1), <- (firstn_skipn (read_count (w1 i) d1) d2), Q, H. reflexivity.
Qed.
(** It terminates. *)
Lemma compare_files_some w1 w2 : forall fuel i d1 d2, length d1 < fuel -> exists b, compare_files fuel i w1 w2 d1 d2 = Some b.
Proof.
  induction fuel as [|fuel IH]; intros i d1 d2 L; [lia|]. cbn [compare_files].
  destruct (negb _); [eauto|]. destruct (read_count (w1 i) d1 =? 0) eqn:Z; [eauto|]. apply Nat.eqb_neq in Z.
  destruct (negb _); [eauto|]. apply IH. rewrite skipn_length. pose proof (read_le (w1 i) d1). lia.
Qed.
Lemma full_count w d : bufsize <= w -> read_count w d = Nat.min bufsize (length d).
Proof. unfold read_count. pose proof bufsize_pos. lia. Qed.
Lemma compare_files_refl w1 w2 : full_reads w1 -> full_reads w2 ->
  forall fuel i d, length d < fuel -> compare_files fuel i w1 w2 d d = Some true.
Proof.
  intros F1 F2. induction fuel as [|fuel IH]; intros i d L; [lia|]. cbn [compare_files].
  rewrite (full_count _ d (F1 i)), (full_count _ d (F2 i)), Nat.eqb_refl. cbn [negb].
  destruct (_ =? 0) eqn:Z; [reflexivity|]. apply Nat.eqb_neq in Z. rewrite (proj2 (bytes_eqb_true _ _) eq_refl). cbn [negb].
  apply IH. rewrite skipn_length. lia.
Qed.

Lemma compare_links_spec t1 t2 : length t1 <= bufsize -> length t2 <= bufsize -> compare_links t1 t2 = true <-> t1 = t2.
Proof.
  intros L1 L2. unfold compare_links. rewrite !firstn_all2 by assumption. rewrite andb_true_iff, Nat.eqb_eq, bytes_eqb_true.
  split; [tauto|]. intros ->. auto.
Qed.

Lemma inode_eq a b : i_link a = i_link b -> i_perm a = i_perm b -> i_data a = i_data b -> a = b.
Proof. destruct a, b. cbn. intros -> -> ->. reflexivity. Qed.

Lemma short_len f n : short_link f -> f = Some n -> i_link n = true -> length (i_data n) <= bufsize.
Proof. intros S E L. specialize (S n E L). unfold bufsize. lia. Qed.

Lemma compare_sound w1 w2 f1 f2 : short_link f1 -> short_link f2 -> compare_paths w1 w2 f1 f2 = Some true -> unchanged f1 f2.
Proof.
  intros S1 S2. destruct f1 as [a|], f2 as [b|]; cbn [compare_paths]; try discriminate.
  destruct (_ =? _) eqn:E1; [cbn [negb]|discriminate]. apply Nat.eqb_eq in E1.
  destruct (Bool.eqb _ _) eqn:E2; [cbn [andb]|discriminate]. apply Bool.eqb_prop in E2.
  destruct (_ =? _)%N eqn:E3; [cbn [negb]|discriminate]. apply N.eqb_eq in E3.
  intros H. exists a. split; [reflexivity|]. f_equal. symmetry. apply inode_eq; [exact E2|exact E3|].
  destruct (i_link a) eqn:L.
  - injection H as H. apply (proj1 (compare_links_spec (i_data a) (i_data b) (short_len _ a S1 eq_refl L) (short_len _ b S2 eq_refl (eq_sym E2)))), H.
  - eapply compare_files_sound, H.
Qed.
Lemma compare_complete w1 w2 f : full_reads w1 -> full_reads w2 -> compare_paths w1 w2 (Some f) (Some f) = Some true.
Proof.
  intros F1 F2. cbn [compare_paths]. rewrite Nat.eqb_refl, Bool.eqb_reflx, N.eqb_refl. cbn [negb andb]. destruct (i_link f).
  - unfold compare_links. rewrite Nat.eqb_refl, (proj2 (bytes_eqb_true _ _) eq_refl). reflexivity.
  - apply compare_files_refl; auto.
Qed.
Lemma compare_some w1 w2 f1 f2 : exists b, compare_paths w1 w2 f1 f2 = Some b.
Proof.
  destruct f1 as [a|], f2 as [b|]; cbn [compare_paths]; eauto. destruct (negb _); [eauto|]. destruct (negb _); [eauto|].
  destruct (i_link a); [eauto|]. apply compare_files_some. lia.
Qed.

Section outs.
Variable id : Type.
Variable id_eqb : id -> id -> bool.
Hypothesis id_eq : forall a b, id_eqb a b = true <-> a = b.
Notation iupd := (iupd id id_eqb).
Lemma iupd_same {A} (f : id -> A) x v : iupd f x v x = v.
Proof. unfold OutputModel.iupd. rewrite (proj2 (id_eq x x) eq_refl). reflexivity. Qed.
Lemma iupd_other {A} (f : id -> A) x v y : y <> x -> iupd f x v y = f y.
Proof. unfold OutputModel.iupd. intros N. destruct (id_eqb y x) eqn:E; [apply id_eq in E; contradiction|reflexivity]. Qed.

Lemma move_spec l : forall s, NoDup l ->
  let s' := move_outputs id id_eqb l s in
  (forall x, In x l -> cur s' x = None /\ backup s' x = match cur s x with Some f => Some f | None => backup s x end) /\
  (forall x, ~ In x l -> cur s' x = cur s x /\ backup s' x = backup s x) /\ skip s' = skip s.
Proof.
  induction l as [|y l IH]; intros s N; [cbn; intuition auto|]. inversion N as [|? ? Ny Nl]; subst.
  cbn [move_outputs fold_left]. specialize (IH (move_one id id_eqb s y) Nl). unfold move_outputs in IH |- *.
  set (s' := fold_left _ l _) in *. destruct IH as [I1 [I2 I3]].
  assert (M : cur (move_one id id_eqb s y) y = None /\ backup (move_one id id_eqb s y) y = match cur s y with Some f => Some f | None => backup s y end /\
    (forall x, x <> y -> cur (move_one id id_eqb s y) x = cur s x /\ backup (move_one id id_eqb s y) x = backup s x) /\ skip (move_one id id_eqb s y) = skip s).
  { unfold move_one. destruct (cur s y) eqn:C; cbn; [|auto]. rewrite !iupd_same. repeat split; auto; apply iupd_other; assumption. }
  destruct M as [M1 [M2 [M3 M4]]]. split; [|split].
  - intros x [<-|X]; [destruct (I2 y Ny) as [-> ->]; auto|].
    destruct (I1 x X) as [-> ->]. assert (x <> y) as D by (intros ->; contradiction). destruct (M3 x D) as [-> ->]. auto.
  - intros x X. cbn in X. destruct (I2 x) as [-> ->]; [tauto|]. apply M3. intros ->. tauto.
  - congruence.
Qed.

Lemma check_spec w1 w2 l : forall s, NoDup l -> exists s',
  check_outputs id id_eqb w1 w2 l s = Some s' /\ cur s' = cur s /\
  (forall x, In x l -> skip s' x = if match compare_paths w1 w2 (backup s x) (cur s x) with Some b => b | None => false end then skip s x else false) /\
  (forall x, ~ In x l -> skip s' x = skip s x).
Proof.
  induction l as [|y l IH]; intros s N; [exists s; cbn; intuition auto|]. inversion N as [|? ? Ny Nl]; subst.
  unfold check_outputs in *. cbn [fold_left check_one]. destruct (compare_some w1 w2 (backup s y) (cur s y)) as [b E]. rewrite E.
  destruct b.
  - destruct (IH s Nl) as [s' [H1 [H2 [H3 H4]]]]. exists s'. split; [exact H1|]. split; [exact H2|]. split.
    + intros x [<-|X]; [|auto]. rewrite E. auto.
    + intros x X. apply H4. cbn in X. tauto.
  - set (s1 := {| cur := cur s; backup := backup s; recorded := recorded s; skip := iupd (skip s) y false |}).
    destruct (IH s1 Nl) as [s' [H1 [H2 [H3 H4]]]]. exists s'. split; [exact H1|]. split; [exact H2|]. split.
    + intros x [<-|X]; [rewrite E, (H4 y Ny); apply iupd_same|]. rewrite (H3 x X). cbn [s1 backup cur skip].
      rewrite iupd_other by (intros ->; contradiction). reflexivity.
    + intros x X. cbn in X. rewrite H4 by tauto. apply iupd_other. intros ->. tauto.
Qed.

Lemma restore_spec l : forall s, NoDup l ->
  let s' := restore_outputs id id_eqb l s in
  (forall x, In x l -> cur s' x = match backup s x with Some f => Some f | None => cur s x end /\
     (cur s' x <> None -> recorded s' x = cur s' x)) /\
  (forall x, ~ In x l -> cur s' x = cur s x /\ recorded s' x = recorded s x) /\ skip s' = skip s.
Proof.
  induction l as [|y l IH]; intros s N; [cbn; intuition auto|]. inversion N as [|? ? Ny Nl]; subst.
  cbn [restore_outputs fold_left]. specialize (IH (restore_one id id_eqb s y) Nl). unfold restore_outputs in IH |- *.
  set (s1 := restore_one id id_eqb s y) in *. set (s' := fold_left _ l _) in *. destruct IH as [I1 [I2 I3]].
  assert (M : cur s1 y = match backup s y with Some f => Some f | None => cur s y end /\ (cur s1 y <> None -> recorded s1 y = cur s1 y) /\
    (forall x, x <> y -> cur s1 x = cur s x /\ backup s1 x = backup s x /\ recorded s1 x = recorded s x) /\ skip s1 = skip s).
  { unfold s1, restore_one. destruct (backup s y) as [f|] eqn:C; cbn.
    - rewrite !iupd_same. cbn. rewrite !iupd_same. repeat split; auto; apply iupd_other; assumption.
    - destruct (cur s y) as [f|] eqn:D; cbn.
      + rewrite iupd_same, D. repeat split; auto. apply iupd_other; assumption.
      + rewrite D. repeat split; auto. intros []. reflexivity. }
  destruct M as [M1 [M2 [M3 M4]]]. split; [|split].
  - intros x [<-|X]; [destruct (I2 y Ny) as [-> ->]; auto|].
    destruct (I1 x X) as [A C]. assert (x <> y) as D by (intros ->; contradiction). destruct (M3 x D) as [E1 [E2 E3]].
    rewrite E1, E2 in A. split; [exact A|exact C].
  - intros x X. cbn in X. destruct (I2 x) as [-> ->]; [tauto|]. destruct (M3 x) as [E1 [_ E3]]; [intros ->; tauto|]. auto.
  - congruence.
Qed.
End outs.
