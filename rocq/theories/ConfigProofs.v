(** Lemmas about reading tup.config. *)
From Verif Require Import Base ConfigModel ConfigSpec.

(** Order and entries *)
Lemma strcmp_Lt a b : strcmp a b = Lt <-> before a b.
Proof.
  split.
  - revert b. induction a as [|x a IH]; intros [|y b]; cbn; try discriminate; [constructor|].
    destruct (Nat.compare_spec (nat_of_ascii x) (nat_of_ascii y)) as [E|L|G]; try discriminate.
    + intros H. assert (x = y) as -> by (rewrite <- (ascii_nat_embedding x), <- (ascii_nat_embedding y), E; reflexivity). apply before_tail. auto.
    + intros _. apply before_head. exact L.
  - induction 1 as [c s|x y s t L|x s t H IH]; cbn; [reflexivity| |].
    + rewrite (proj2 (Nat.compare_lt_iff _ _) L). reflexivity.
    + rewrite Nat.compare_refl. exact IH.
Qed.
Lemma strcmp_Eq a b : strcmp a b = Eq <-> a = b.
Proof.
  split.
  - revert b. induction a as [|x a IH]; intros [|y b]; cbn; try discriminate; [reflexivity|].
    destruct (Nat.compare_spec (nat_of_ascii x) (nat_of_ascii y)) as [E|L|G]; try discriminate.
    intros H. assert (x = y) as -> by (rewrite <- (ascii_nat_embedding x), <- (ascii_nat_embedding y), E; reflexivity).
    f_equal. auto.
  - intros <-. induction a as [|x a IH]; cbn; [reflexivity|]. rewrite Nat.compare_refl. exact IH.
Qed.
Lemma strcmp_Gt a b : strcmp a b = Gt <-> before b a.
Proof.
  rewrite <- strcmp_Lt. revert b. induction a as [|x a IH]; intros [|y b]; cbn; try (split; discriminate); try tauto.
  rewrite (Nat.compare_antisym (nat_of_ascii x)). destruct (nat_of_ascii x ?= nat_of_ascii y); cbn; try (split; congruence). apply IH.
Qed.
Lemma before_trans a b c : before a b -> before b c -> before a c.
Proof.
  intros H. revert c. induction H as [x s|x y s t L|x s t H IH]; intros u K; inversion K; subst; try (apply before_head; lia); try apply before_end; apply before_tail; auto.
Qed.
Lemma before_irr a : ~ before a a.
Proof. intros H. apply strcmp_Lt in H. rewrite (proj2 (strcmp_Eq a a) eq_refl) in H. discriminate. Qed.
Lemma assoc_after {A} (v : list (bytes * A)) n : Forall (fun e => before n (fst e)) v -> assoc v n = None.
Proof.
  induction 1 as [|[m w] v H F IH]; cbn; [reflexivity|]. destruct (bytes_eqb_spec m n) as [->|]; [elim (before_irr _ H)|exact IH].
Qed.
Lemma Forall_before_trans {A} m n (v : list (bytes * A)) : before m n -> Forall (fun e => before n (fst e)) v -> Forall (fun e => before m (fst e)) v.
Proof. intros H. apply Forall_impl. intros e K. exact (before_trans _ _ _ H K). Qed.

Lemma set_Forall v n w m : before m n -> Forall (fun e => before m (fst e)) v -> Forall (fun e : bytes * bytes => before m (fst e)) (vardb_set v n w).
Proof.
  intros H F. induction v as [|[k x] v IH]; cbn; [constructor; [exact H|constructor]|].
  apply Forall_cons_iff in F. destruct F as [F1 F2].
  destruct (strcmp n k); constructor; cbn; auto.
Qed.
Lemma set_ordered v n w : ordered v -> ordered (vardb_set v n w).
Proof.
  induction 1 as [|k x v F O IH]; cbn; [constructor; constructor|].
  destruct (strcmp n k) eqn:E.
  - apply strcmp_Eq in E as ->. constructor; assumption.
  - apply strcmp_Lt in E. constructor; [constructor; [exact E|exact (Forall_before_trans _ _ _ E F)]|constructor; assumption].
  - apply strcmp_Gt in E. constructor; [apply set_Forall; assumption|exact IH].
Qed.
Lemma assoc_set v n w m : ordered v -> assoc (vardb_set v n w) m = if bytes_eqb n m then Some w else assoc v m.
Proof.
  induction 1 as [|k x v F O IH]; cbn; [reflexivity|].
  destruct (strcmp n k) eqn:E; cbn.
  - apply strcmp_Eq in E as ->. destruct (bytes_eqb k m); reflexivity.
  - destruct (bytes_eqb n m); reflexivity.
  - apply strcmp_Gt in E. rewrite IH. destruct (bytes_eqb_spec k m) as [->|]; [|reflexivity].
    destruct (bytes_eqb_spec n m) as [->|]; [elim (before_irr _ E)|reflexivity].
Qed.

(** White space *)
Lemma isspace_white c : isspace c = true <-> white c.
Proof.
  unfold isspace, white. split.
  - intros H. rewrite <- (ascii_nat_embedding c). apply orb_true_iff in H. rewrite Nat.eqb_eq, andb_true_iff, !Nat.leb_le in H.
    destruct H as [->|H]; [cbn; auto|].
    assert (E : nat_of_ascii c = 9 \/ nat_of_ascii c = 10 \/ nat_of_ascii c = 11 \/ nat_of_ascii c = 12 \/ nat_of_ascii c = 13) by lia.
    destruct E as [->|[->|[->|[->| ->]]]]; cbn; auto 10.
  - cbn. intros H. repeat (destruct H as [<-|H]; [reflexivity|]). elim H.
Qed.
Lemma lstrip_white s t : Forall white s -> lstrip (s ++ t) = lstrip t.
Proof. induction 1 as [|c s H F IH]; cbn; [reflexivity|]. rewrite (proj2 (isspace_white c) H). exact IH. Qed.
Lemma lstrip_split s : exists a, s = a ++ lstrip s /\ Forall white a.
Proof.
  induction s as [|c s [a [E F]]]; cbn; [exists []; split; [reflexivity|constructor]|].
  destruct (isspace c) eqn:I; [|exists []; split; [reflexivity|constructor]].
  exists (c :: a). cbn. rewrite <- E. split; [reflexivity|constructor; [apply isspace_white, I|exact F]].
Qed.
Lemma lstrip_head s c t : lstrip s = c :: t -> ~ white c.
Proof.
  induction s as [|x s IH]; cbn; [discriminate|]. destruct (isspace x) eqn:I; [exact IH|].
  intros [= -> _] W. apply isspace_white in W. congruence.
Qed.
Lemma rstrip_split s : exists a, s = rstrip s ++ a /\ Forall white a.
Proof.
  destruct (lstrip_split (rev s)) as [a [E F]]. exists (rev a). split; [|apply Forall_rev, F].
  unfold rstrip. rewrite <- rev_app_distr, <- E, rev_involutive. reflexivity.
Qed.
Lemma rstrip_ends s : ~ ends_white (rstrip s).
Proof.
  intros [t [c [E W]]]. unfold rstrip in E. assert (E2 : lstrip (rev s) = c :: rev t).
  { rewrite <- (rev_involutive (lstrip (rev s))), E, rev_app_distr. reflexivity. }
  exact (lstrip_head _ _ _ E2 W).
Qed.
Lemma rstrip_app s a : Forall white a -> rstrip (s ++ a) = rstrip s.
Proof. intros F. unfold rstrip. rewrite rev_app_distr, lstrip_white; [reflexivity|apply Forall_rev, F]. Qed.
Lemma rstrip_id s : ~ ends_white s -> rstrip s = s.
Proof.
  intros N. destruct (rstrip_split s) as [a [E F]]. destruct a as [|c a] using rev_ind; [rewrite app_nil_r in E; congruence|].
  exfalso. apply N. rewrite app_assoc in E. exists (rstrip s ++ a), c. split; [exact E|]. apply Forall_app in F. destruct F as [_ F].
  inversion F; assumption.
Qed.
Lemma rstrip_white s : Forall white s -> rstrip s = [].
Proof. intros F. rewrite <- (app_nil_l s), (rstrip_app [] s F). reflexivity. Qed.
Lemma rstrip_nil s : rstrip s = [] -> Forall white s.
Proof. intros E. destruct (rstrip_split s) as [a [E2 F]]. rewrite E in E2. cbn in E2. rewrite E2. exact F. Qed.
Lemma rstrip_keep a c s : ~ white c -> rstrip (a ++ c :: s) = a ++ c :: rstrip s.
Proof.
  intros N. destruct (rstrip_split s) as [b [E F]]. rewrite E at 1.
  replace (a ++ c :: rstrip s ++ b) with ((a ++ c :: rstrip s) ++ b) by (rewrite <- app_assoc; reflexivity).
  rewrite (rstrip_app _ b F), rstrip_id; [reflexivity|].
  intros [t [d [E2 W]]]. destruct (rstrip s) as [|x u] eqn:R using rev_ind.
  - apply app_inj_tail in E2 as [_ ->]. exact (N W).
  - clear IHu. apply (rstrip_ends s). rewrite R. exists u, x. split; [reflexivity|].
    replace (a ++ c :: u ++ [x]) with ((a ++ c :: u) ++ [x]) in E2 by (rewrite <- app_assoc; reflexivity).
    apply app_inj_tail in E2 as [_ ->]. exact W.
Qed.

(** strchr and cut *)
Lemma strchr_line l rest : ~ In newline l -> ~ In nul l -> strchr newline (l ++ newline :: rest) = Chr l.
Proof.
  induction l as [|c l IH]; intros N M; cbn; [reflexivity|].
  destruct (Ascii.eqb_spec c newline) as [->|]; [elim N; left; reflexivity|].
  destruct (Ascii.eqb_spec c nul) as [->|]; [elim M; left; reflexivity|].
  rewrite IH; [reflexivity|intros H; apply N; right; exact H|intros H; apply M; right; exact H].
Qed.
Lemma strchr_over l : ~ In newline l -> ~ In nul l -> strchr newline l = ChrOver.
Proof.
  induction l as [|c l IH]; intros N M; cbn; [reflexivity|].
  destruct (Ascii.eqb_spec c newline) as [->|]; [elim N; left; reflexivity|].
  destruct (Ascii.eqb_spec c nul) as [->|]; [elim M; left; reflexivity|].
  rewrite IH; [reflexivity|intros H; apply N; right; exact H|intros H; apply M; right; exact H].
Qed.
Lemma strchr_nul l rest : ~ In newline l -> strchr newline (l ++ nul :: rest) = ChrNul.
Proof.
  induction l as [|c l IH]; intros N; cbn; [reflexivity|].
  destruct (Ascii.eqb_spec c newline) as [->|]; [elim N; left; reflexivity|].
  destruct (Ascii.eqb_spec c nul) as [->|]; [reflexivity|].
  rewrite IH; [reflexivity|intros H; apply N; right; exact H].
Qed.
Lemma cut_app c a b : ~ In c a -> cut c (a ++ c :: b) = Some (a, b).
Proof.
  induction a as [|x a IH]; intros N; cbn; [rewrite Ascii.eqb_refl; reflexivity|].
  destruct (Ascii.eqb_spec x c) as [->|]; [elim N; left; reflexivity|]. rewrite IH; [reflexivity|intros H; apply N; right; exact H].
Qed.
Lemma cut_inv c s a b : cut c s = Some (a, b) -> s = a ++ c :: b /\ ~ In c a.
Proof.
  revert a b. induction s as [|x s IH]; cbn; [discriminate|]. intros a b. destruct (Ascii.eqb_spec x c) as [->|N].
  - intros [= <- <-]. split; [reflexivity|tauto].
  - destruct (cut c s) as [[a' b']|]; [|discriminate]. intros [= <- <-]. destruct (IH a' b' eq_refl) as [-> K]. split; [reflexivity|].
    intros [->|H]; [exact (N eq_refl)|exact (K H)].
Qed.

(** One line *)
Definition assign (a : assignment) (v : vardb) : vardb := match a with Some (n, w) => vardb_set v n w | None => v end.

Lemma not_white_lit c : existsb (Ascii.eqb c) [" "; "009"; "010"; "011"; "012"; "013"]%char = false -> ~ white c.
Proof.
  intros H W. assert (T : existsb (Ascii.eqb c) [" "; "009"; "010"; "011"; "012"; "013"]%char = true).
  { apply existsb_exists. exists c. split; [exact W|apply Ascii.eqb_refl]. }
  congruence.
Qed.
Lemma rstrip_prefix p s c : p <> [] -> last p c = c -> ~ white c -> rstrip (p ++ s) = p ++ rstrip s.
Proof.
  intros N L W. destruct p as [|x p] using rev_ind; [elim N; reflexivity|]. clear IHp. rewrite last_last in L. subst x.
  rewrite <- !app_assoc. cbn. apply rstrip_keep, W.
Qed.
Lemma skipn_len {A} (p s : list A) n : n = length p -> skipn n (p ++ s) = s.
Proof. intros ->. rewrite skipn_app, skipn_all, Nat.sub_diag. reflexivity. Qed.

Lemma set_line_says l a v : says l a -> set_line (rstrip l) v = Some (assign a v).
Proof.
  intros [l0 F|l0 P|n text S T|n w junk S Q|n w trail S T E Q].
  - rewrite (rstrip_white _ F). reflexivity.
  - change ("#"%char :: l0) with ([] ++ "#"%char :: l0). rewrite rstrip_keep by (apply not_white_lit; reflexivity). cbn [app].
    cbn [set_line assign]. change ("#"%char =?c "#"%char) with true. cbn iota.
    destruct (prefixb (B "# CONFIG_") ("#"%char :: rstrip l0)) eqn:X; [|reflexivity]. exfalso.
    apply prefixb_spec in X as [r X]. destruct (rstrip_split l0) as [b [E _]].
    assert (Y : prefixb (B "# CONFIG_") ("#"%char :: l0) = true).
    { apply prefixb_spec. exists (r ++ b). rewrite E. change ("#"%char :: rstrip l0 ++ b) with (("#"%char :: rstrip l0) ++ b).
      rewrite X, <- app_assoc. reflexivity. }
    congruence.
  - assert (R : exists t, rstrip text = t /\ t <> [] /\ rstrip (n ++ " "%char :: text) = n ++ " "%char :: t).
    { exists (rstrip text). split; [reflexivity|]. assert (N : rstrip text <> []) by (intros N; apply T, rstrip_nil, N).
      split; [exact N|]. destruct (rstrip_split text) as [b [E F]]. rewrite E at 1.
      replace (n ++ " "%char :: rstrip text ++ b) with ((n ++ " "%char :: rstrip text) ++ b) by (rewrite <- app_assoc; reflexivity).
      rewrite (rstrip_app _ b F). apply rstrip_id. intros [t [d [E2 W]]].
      destruct (rstrip text) as [|x u] eqn:R using rev_ind; [exact (N eq_refl)|]. clear IHu.
      apply (rstrip_ends text). rewrite R. exists u, x. split; [reflexivity|].
      replace (n ++ " "%char :: u ++ [x]) with ((n ++ " "%char :: u) ++ [x]) in E2 by (rewrite <- app_assoc; reflexivity).
      apply app_inj_tail in E2 as [_ ->]. exact W. }
    destruct R as [t [_ [_ R]]].
    rewrite (rstrip_prefix (B "# CONFIG_") _ "_"%char) by (try discriminate; try reflexivity; apply not_white_lit; reflexivity).
    rewrite R.
    assert (X : set_line (B "# CONFIG_" ++ n ++ " "%char :: t) v =
      match cut " "%char (skipn 9 (B "# CONFIG_" ++ n ++ " "%char :: t)) with None => None | Some (name, _) => Some (vardb_set v name (B "n")) end) by reflexivity.
    rewrite X, skipn_len by reflexivity. rewrite (cut_app _ _ _ S). reflexivity.
  - rewrite (rstrip_prefix (B "CONFIG_") _ "_"%char) by (try discriminate; try reflexivity; apply not_white_lit; reflexivity).
    replace (n ++ "="%char :: """"%char :: w ++ """"%char :: junk) with ((n ++ "="%char :: """"%char :: w) ++ """"%char :: junk)
      by (rewrite <- app_assoc; reflexivity).
    rewrite rstrip_keep by (apply not_white_lit; reflexivity).
    replace ((n ++ "="%char :: """"%char :: w) ++ """"%char :: rstrip junk) with (n ++ "="%char :: """"%char :: w ++ """"%char :: rstrip junk)
      by (rewrite <- app_assoc; reflexivity).
    assert (X : forall u, set_line (B "CONFIG_" ++ u) v = match cut "="%char (B "CONFIG_" ++ u) with
      | None => None | Some (pre, post) => match post with
        | q :: rest => if q =?c dquote then match cut dquote rest with None => None | Some (value, _) => Some (vardb_set v (skipn 7 pre) value) end
                       else Some (vardb_set v (skipn 7 pre) post)
        | [] => Some (vardb_set v (skipn 7 pre) []) end end) by reflexivity.
    rewrite X, app_assoc, cut_app.
    2: { intros I. apply in_app_iff in I as [I|I]; [cbn in I; repeat (destruct I as [I|I]; [discriminate|]); exact I|exact (S I)]. }
    change (""""%char =?c dquote) with true. cbn iota. rewrite (cut_app dquote _ _ Q), skipn_len by reflexivity. reflexivity.
  - rewrite (rstrip_prefix (B "CONFIG_") _ "_"%char) by (try discriminate; try reflexivity; apply not_white_lit; reflexivity).
    rewrite rstrip_keep by (apply not_white_lit; reflexivity). rewrite (rstrip_app _ _ T), (rstrip_id _ E).
    assert (X : forall u, set_line (B "CONFIG_" ++ u) v = match cut "="%char (B "CONFIG_" ++ u) with
      | None => None | Some (pre, post) => match post with
        | q :: rest => if q =?c dquote then match cut dquote rest with None => None | Some (value, _) => Some (vardb_set v (skipn 7 pre) value) end
                       else Some (vardb_set v (skipn 7 pre) post)
        | [] => Some (vardb_set v (skipn 7 pre) []) end end) by reflexivity.
    rewrite X, app_assoc, cut_app.
    2: { intros I. apply in_app_iff in I as [I|I]; [cbn in I; repeat (destruct I as [I|I]; [discriminate|]); exact I|exact (S I)]. }
    destruct w as [|q w]; [rewrite skipn_len by reflexivity; reflexivity|].
    assert (Y : (q =?c dquote) = false).
    { cbn [prefixb] in Q. rewrite andb_true_r in Q. rewrite Ascii.eqb_sym. exact Q. }
    rewrite Y, skipn_len by reflexivity. reflexivity.
Qed.

(** Whatever is accepted is one of these lines. *)
Lemma line_says_set l v v' : set_line (rstrip l) v = Some v' -> exists a, says l a /\ v' = assign a v.
Proof.
  intros H. destruct (rstrip_split l) as [b [E F]]. destruct (rstrip l) as [|c p] eqn:R.
  - exists None. split; [apply says_blank; rewrite E; exact F|cbn in H |- *; congruence].
  - cbn [set_line] in H. destruct (Ascii.eqb_spec c "#"%char) as [->|NC].
    + destruct (prefixb (B "# CONFIG_") ("#"%char :: p)) eqn:P.
      * apply prefixb_spec in P as [r P]. rewrite P in H. rewrite skipn_len in H by reflexivity.
        destruct (cut " "%char r) as [[n u]|] eqn:C; [|discriminate]. apply cut_inv in C as [-> N].
        exists (Some (n, B "n")). split; [|cbn [assign]; congruence]. rewrite E, P, <- !app_assoc. cbn [app].
        apply says_unset; [exact N|]. intros W. apply Forall_app in W as [W _].
        apply (rstrip_ends l). rewrite R, P. destruct u as [|x u] using rev_ind.
        -- exists (B "# CONFIG_" ++ n), " "%char. split; [rewrite app_assoc; reflexivity|left; reflexivity].
        -- clear IHu. exists (B "# CONFIG_" ++ n ++ " "%char :: u), x. split; [rewrite <- !app_assoc; reflexivity|].
           apply Forall_app in W as [_ W]. inversion W; assumption.
      * exists None. split; [|cbn [assign]; congruence]. rewrite E. cbn [app]. apply says_comment.
        destruct (prefixb (B "# CONFIG_") ("#"%char :: p ++ b)) eqn:X; [|reflexivity]. exfalso.
        (* the prefix ends in a character that is not white *)
        apply prefixb_spec in X as [r X].
        assert (Y : rstrip ("#"%char :: p ++ b) = B "# CONFIG_" ++ rstrip r).
        { rewrite X. apply (rstrip_prefix _ _ "_"%char); [discriminate|reflexivity|apply not_white_lit; reflexivity]. }
        change ("#"%char :: p ++ b) with (("#"%char :: p) ++ b) in Y. rewrite (rstrip_app _ _ F) in Y.
        rewrite rstrip_id in Y by (rewrite <- R; apply rstrip_ends).
        assert (Z : prefixb (B "# CONFIG_") ("#"%char :: p) = true) by (apply prefixb_spec; exists (rstrip r); exact Y). congruence.
    + destruct (prefixb (B "CONFIG_") (c :: p)) eqn:P; [|discriminate].
      apply prefixb_spec in P as [r P]. rewrite P in H, E.
      destruct (cut "="%char (B "CONFIG_" ++ r)) as [[pre post]|] eqn:C; [|discriminate]. apply cut_inv in C as [C N].
      assert (Q : exists n, pre = B "CONFIG_" ++ n /\ r = n ++ "="%char :: post).
      { destruct pre as [|x1 [|x2 [|x3 [|x4 [|x5 [|x6 [|x7 n]]]]]]]; cbn in C; try discriminate.
        injection C as <- <- <- <- <- <- <- ->. exists n. split; reflexivity. }
      destruct Q as [n [-> ->]]. rewrite !skipn_len in H by reflexivity.
      assert (Nn : ~ In "="%char n) by (intros I; apply N, in_app_iff; right; exact I).
      assert (RE := rstrip_ends l). rewrite R, P in RE.
      destruct post as [|q rest].
      * exists (Some (n, [])). split; [|cbn [assign]; congruence]. rewrite E, <- !app_assoc. cbn [app].
        apply (says_plain n [] b); [exact Nn|exact F|intros [t [d [X _]]]; destruct t; discriminate|reflexivity].
      * destruct (Ascii.eqb_spec q dquote) as [->|NQ].
        -- destruct (cut dquote rest) as [[w junk]|] eqn:C2; [|discriminate]. apply cut_inv in C2 as [-> N2].
           exists (Some (n, w)). split; [|cbn [assign]; congruence]. rewrite E. rewrite <- !app_assoc. cbn [app]. rewrite <- !app_assoc. cbn [app].
           apply says_quoted; [exact Nn|exact N2].
        -- exists (Some (n, q :: rest)). split; [|cbn [assign]; congruence]. rewrite E, <- !app_assoc. cbn [app].
           apply (says_plain n (q :: rest) b); [exact Nn|exact F| |].
           ++ intros [t [d [X W]]]. apply RE. exists (B "CONFIG_" ++ n ++ "="%char :: t), d. split; [|exact W].
              rewrite X, <- !app_assoc. reflexivity.
           ++ cbn [prefixb]. rewrite andb_true_r. destruct (Ascii.eqb_spec """"%char q); [subst q; elim NQ; reflexivity|reflexivity].
Qed.

Lemma says_fun l a b : says l a -> says l b -> a = b.
Proof.
  intros H K.
  assert (Ha := set_line_says _ _ [] H). assert (Kb := set_line_says _ _ [] K). rewrite Ha in Kb. injection Kb as E.
  destruct a as [[n v]|], b as [[m w]|]; cbn in E; congruence.
Qed.

(** The whole file *)
Lemma var_tree_white fuel ws rest v : Forall white ws -> ~ In newline ws -> length ws + 1 <= fuel ->
  var_tree fuel (ws ++ newline :: rest) v = var_tree (fuel - (length ws + 1)) rest v.
Proof.
  revert fuel. induction ws as [|c ws IH]; intros fuel F N L.
  - destruct fuel as [|f]; [cbn in L; lia|]. cbn. rewrite Nat.sub_0_r. reflexivity.
  - destruct fuel as [|f]; [cbn in L; lia|]. inversion F as [|? ? W F']; subst.
    assert (X : strchr newline ((c :: ws) ++ newline :: rest) = Chr (c :: ws)).
    { apply strchr_line; [exact N|]. intros I. assert (Z : white nul) by (rewrite Forall_forall in F; apply F, I).
      revert Z. apply not_white_lit. reflexivity. }
    cbn [var_tree app]. change (c :: ws ++ newline :: rest) with ((c :: ws) ++ newline :: rest). rewrite X, (rstrip_white _ F). cbn [set_line length skipn app].
    rewrite IH; [|exact F'|intros I; apply N; right; exact I|cbn in L; lia]. reflexivity.
Qed.

Lemma var_tree_line fuel l rest v : a_line l -> length l + 1 <= fuel ->
  var_tree fuel (l ++ newline :: rest) v =
  match set_line (rstrip l) v with None => Bad | Some v' => match rest with [] => Ok v' | _ => var_tree (fuel - (length l - length (rstrip l) + 1)) rest v' end end.
Proof.
  intros [N M] L. destruct fuel as [|f]; [lia|].
  assert (X : strchr newline (l ++ newline :: rest) = Chr l) by (apply strchr_line; assumption).
  assert (Y : var_tree (S f) (l ++ newline :: rest) v = match set_line (rstrip l) v with None => Bad | Some v' => var_tree f (skipn (S (length (rstrip l))) (l ++ newline :: rest)) v' end).
  { cbn [var_tree]. rewrite X. destruct (l ++ newline :: rest) eqn:Z; [destruct l; discriminate|reflexivity]. }
  rewrite Y. destruct (set_line (rstrip l) v) as [v'|]; [|reflexivity].
  destruct (rstrip_split l) as [b [E F]].
  assert (Le : length l = length (rstrip l) + length b) by (rewrite E at 1; apply app_length).
  destruct b as [|c b].
  - rewrite app_nil_r in E. rewrite <- E. replace (S (length l)) with (length (l ++ [newline])) by (rewrite app_length; cbn; lia).
    replace (l ++ newline :: rest) with ((l ++ [newline]) ++ rest) by (rewrite <- app_assoc; reflexivity).
    rewrite skipn_len by reflexivity. rewrite Nat.sub_diag. destruct rest; [destruct f; reflexivity|]. f_equal. lia.
  - replace (skipn (S (length (rstrip l))) (l ++ newline :: rest)) with (b ++ newline :: rest).
    2: { rewrite E at 2. replace ((rstrip l ++ c :: b) ++ newline :: rest) with ((rstrip l ++ [c]) ++ b ++ newline :: rest) by (rewrite <- !app_assoc; reflexivity).
         rewrite skipn_len; [reflexivity|rewrite app_length; cbn; lia]. }
    inversion F as [|? ? W F']; subst. rewrite var_tree_white.
    + cbn in Le. replace (length l - length (rstrip l)) with (S (length b)) by lia. destruct rest; [destruct (f - (length b + 1)); reflexivity|f_equal; lia].
    + exact F'.
    + intros I. apply N. rewrite E. apply in_app_iff. right. right. exact I.
    + cbn in Le. lia.
Qed.

Lemma file_cons l lines : file_of (l :: lines) = l ++ newline :: file_of lines.
Proof. unfold file_of. cbn [map concat]. rewrite <- app_assoc. reflexivity. Qed.

Lemma var_tree_file lines : forall fuel asg v tail, Forall a_line lines -> Forall2 says lines asg -> length (file_of lines ++ tail) <= fuel ->
  exists fuel', length tail <= fuel' /\
  var_tree fuel (file_of lines ++ tail) v = var_tree fuel' tail (fold_left (fun v a => assign a v) asg v).
Proof.
  induction lines as [|l lines IH]; intros fuel asg v tail A S L.
  - inversion S; subst. exists fuel. split; [exact L|reflexivity].
  - inversion S as [|? a ? asg' Sa S']; subst. inversion A as [|? ? Al A']; subst.
    rewrite file_cons in L |- *. rewrite <- app_assoc in L |- *. cbn [app] in L |- *.
    rewrite app_length in L. cbn [length] in L.
    rewrite (var_tree_line fuel l (file_of lines ++ tail) v Al) by lia.
    rewrite (set_line_says _ _ v Sa). cbn [fold_left].
    destruct (IH (fuel - (length l - length (rstrip l) + 1)) asg' (assign a v) tail A' S') as [f [Lf E]]; [lia|].
    exists f. split; [exact Lf|]. destruct (file_of lines ++ tail) as [|x y] eqn:Z; [|rewrite <- Z in *; exact E].
    rewrite <- E. destruct (fuel - (length l - length (rstrip l) + 1)); reflexivity.
Qed.

Lemma fold_assign asg : forall v n, ordered v ->
  ordered (fold_left (fun v a => assign a v) asg v) /\
  assoc (fold_left (fun v a => assign a v) asg v) n = match value_of asg n with Some w => Some w | None => assoc v n end.
Proof.
  induction asg as [|a asg IH]; intros v n O; cbn [fold_left value_of]; [split; [exact O|reflexivity]|].
  assert (O2 : ordered (assign a v)) by (destruct a as [[m w]|]; cbn; [apply set_ordered, O|exact O]).
  destruct (IH (assign a v) n O2) as [H1 H2]. split; [exact H1|]. rewrite H2. destruct (value_of asg n); [reflexivity|].
  destruct a as [[m w]|]; cbn [assign]; [|reflexivity]. rewrite (assoc_set _ _ _ _ O). destruct (bytes_eqb m n); reflexivity.
Qed.

Lemma bom_says l : prefixb bom (l ++ [newline]) = true -> forall a, ~ says l a.
Proof.
  intros P a S. apply prefixb_spec in P as [r P].
  inversion S as [l0 F|l0 Q|n t|n w j|n w t]; subst; cbn in P; try discriminate P.
  destruct l as [|x l]; cbn in P; [discriminate P|]. injection P as -> P. inversion F as [|? ? W]; subst. revert W.
  apply not_white_lit. reflexivity.
Qed.

Lemma slurp_says l lines a tail : says l a -> slurp (file_of (l :: lines) ++ tail) = file_of (l :: lines) ++ tail.
Proof.
  intros S. unfold slurp. destruct (prefixb bom (file_of (l :: lines) ++ tail)) eqn:P; [|reflexivity]. exfalso.
  rewrite file_cons in P. apply prefixb_spec in P as [r P].
  inversion S as [l0 F|l0 Q|n t|n w j|n w t]; subst; cbn in P; try discriminate P.
  destruct l as [|x l]; cbn in P; [discriminate P|]. injection P as -> P. inversion F as [|? ? W]; subst. revert W.
  apply not_white_lit. reflexivity.
Qed.
Lemma slurp_bom s : slurp (bom ++ s) = s.
Proof. reflexivity. Qed.

Lemma read_good lines asg : Forall a_line lines -> Forall2 says lines asg ->
  exists v, get_file_var_tree (file_of lines) = Ok v /\ get_file_var_tree (bom ++ file_of lines) = Ok v /\ ordered v /\ forall n, assoc v n = value_of asg n.
Proof.
  intros A S. exists (fold_left (fun v a => assign a v) asg []).
  assert (X : var_tree (length (file_of lines)) (file_of lines) [] = Ok (fold_left (fun v a => assign a v) asg [])).
  { destruct (var_tree_file lines (length (file_of lines)) asg [] [] A S) as [f [_ E]]; [rewrite app_nil_r; reflexivity|].
    rewrite app_nil_r in E. rewrite E. destruct f; reflexivity. }
  split; [|split; [|split]].
  - unfold get_file_var_tree. destruct lines as [|l lines]; [inversion S; subst; reflexivity|].
    inversion S as [|? a ? ? Sa]; subst. assert (Y := slurp_says l lines a [] Sa). rewrite app_nil_r in Y. rewrite Y. exact X.
  - unfold get_file_var_tree. rewrite slurp_bom. exact X.
  - apply (fold_assign asg [] []). constructor.
  - intros n. destruct (fold_assign asg [] n ord_nil) as [_ E]. rewrite E. destruct (value_of asg n); reflexivity.
Qed.

(** A file whose [k]-th line says nothing is rejected. *)
Lemma read_bad good asg l rest : Forall a_line good -> a_line l -> Forall2 says good asg -> (forall a, ~ says l a) ->
  prefixb bom (file_of (good ++ [l])) = false ->
  get_file_var_tree (file_of (good ++ [l]) ++ rest) = Bad.
Proof.
  intros A Al S N Bm. unfold get_file_var_tree.
  assert (E : file_of (good ++ [l]) ++ rest = file_of good ++ l ++ newline :: rest).
  { unfold file_of. rewrite map_app, concat_app. cbn. rewrite app_nil_r, <- !app_assoc. reflexivity. }
  assert (Sl : slurp (file_of (good ++ [l]) ++ rest) = file_of (good ++ [l]) ++ rest).
  { destruct good as [|g good].
    - unfold slurp. destruct (prefixb bom (file_of ([] ++ [l]) ++ rest)) eqn:P; [|reflexivity]. exfalso.
      apply prefixb_spec in P as [r P]. cbn [app] in *. rewrite file_cons in *. destruct Al as [Al _]. change (file_of []) with (@nil ascii) in *.
      (* the mark has no newline, so it lies within the line *)
      rewrite <- app_assoc in P. cbn [app] in P.
      destruct l as [|x [|y [|z l]]]; cbn in P; try (injection P; intros; discriminate).
      injection P as -> -> -> P. cbn in Bm. discriminate.
    - inversion S as [|? a ? ? Sa]; subst. replace (file_of ((g :: good) ++ [l]) ++ rest) with (file_of (g :: (good ++ [l])) ++ rest) by reflexivity.
      apply (slurp_says _ _ _ _ Sa). }
  rewrite Sl, E. destruct (var_tree_file good (length (file_of good ++ l ++ newline :: rest)) asg [] (l ++ newline :: rest) A S) as [f [L X]]; [reflexivity|].
  rewrite X. rewrite app_length in L. cbn in L. rewrite (var_tree_line f l rest _ Al) by lia.
  destruct (set_line (rstrip l) _) as [v'|] eqn:Q; [|reflexivity]. apply line_says_set in Q as [a [Q _]]. elim (N a Q).
Qed.

(** A file that does not end with a newline is read past its end. *)
Lemma read_over lines asg l : Forall a_line lines -> a_line l -> Forall2 says lines asg -> l <> [] -> prefixb bom (file_of lines ++ l) = false ->
  get_file_var_tree (file_of lines ++ l) = Over.
Proof.
  intros A [Al1 Al2] S N Bm. unfold get_file_var_tree, slurp. rewrite Bm.
  destruct (var_tree_file lines (length (file_of lines ++ l)) asg [] l A S) as [f [L X]]; [reflexivity|]. rewrite X.
  destruct l as [|c l]; [elim N; reflexivity|]. destruct f as [|f]; [cbn in L; lia|]. cbn [var_tree]. rewrite (strchr_over _ Al1 Al2). reflexivity.
Qed.

(** Writer *)
Lemma config_line_says e : writable e -> says (config_line e) (Some e) /\ a_line (config_line e).
Proof.
  destruct e as [n v]. intros [An [Av [Ne Q]]]. cbn [fst snd] in *. unfold config_line. cbn [fst snd].
  destruct (has_quote v) eqn:HQ.
  - assert (I : In """"%char v).
    { apply existsb_exists in HQ as [x [I E]]. apply Ascii.eqb_eq in E as ->. exact I. }
    destruct (Q I) as [W P]. split.
    + rewrite <- (app_nil_r v) at 1. apply says_plain; [exact Ne|constructor|exact W|exact P].
    + split; intros X; apply in_app_iff in X as [X|X]; try (cbn in X; repeat (destruct X as [X|X]; [discriminate|]); exact X);
        apply in_app_iff in X as [X|[X|X]]; try discriminate; [exact (proj1 An X)|exact (proj1 Av X)|exact (proj2 An X)|exact (proj2 Av X)].
  - assert (I : ~ In """"%char v).
    { intros I. assert (has_quote v = true) by (apply existsb_exists; exists """"%char; split; [exact I|reflexivity]). congruence. }
    split; [apply (says_quoted n v []); assumption|].
    split; intros X; apply in_app_iff in X as [X|X]; try (cbn in X; repeat (destruct X as [X|X]; [discriminate|]); exact X);
      apply in_app_iff in X as [X|[X|[X|X]]]; try discriminate;
      try (apply in_app_iff in X as [X|[X|[]]]; try discriminate);
      [exact (proj1 An X)|exact (proj1 Av X)|exact (proj2 An X)|exact (proj2 Av X)].
Qed.
Lemma round_trip cfg : Forall writable cfg ->
  exists v, get_file_var_tree (file_of (map config_line cfg)) = Ok v /\ ordered v /\ forall n, assoc v n = value_of (map Some cfg) n.
Proof.
  intros F. destruct (read_good (map config_line cfg) (map Some cfg)) as [v [E [_ [O V]]]].
  - induction F as [|e cfg W F IH]; cbn; constructor; [apply (config_line_says e W)|exact IH].
  - induction F as [|e cfg W F IH]; cbn; constructor; [apply (config_line_says e W)|exact IH].
  - exists v. auto.
Qed.
