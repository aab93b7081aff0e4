(** The invariants of a batch of operations. *)
From Verif Require Import Base MonModel MonSpec MonProofs MonProofs2 MonProofs3.

(** For files that exist. *)
Definition i1 (f r : option Z) (l : list ef) : Prop :=
  f <> None -> match rev l with [] => f = r | (Own KCreate | Own KTo | Own KModify) :: _ => True | _ => False end.
Lemma i1_ends f r l : f <> None -> i1 f r l -> ends f r l.
Proof. intros N H. specialize (H N). unfold ends. destruct (rev l) as [|[[]|] t]; auto; contradiction. Qed.
Lemma i1_dropg f r l l' : dropg l l' -> i1 f r l -> i1 f r l'.
Proof.
  intros D H N. specialize (H N). destruct (rev l) as [|x t] eqn:R.
  - assert (l = []) as -> by (rewrite <- (rev_involutive l), R; reflexivity). apply dropg_nil in D. rewrite D. exact H.
  - assert (E : l = rev t ++ [x]) by (rewrite <- (rev_involutive l), R; reflexivity). assert (Nx : x <> Gone) by (intros ->; exact H). destruct (dropg_last _ _ _ _ D E Nx) as [r' ->]. rewrite rev_app_distr. exact H.
Qed.
Lemma i1_snoc f r l m : (m = KCreate \/ m = KTo \/ m = KModify) -> i1 f r (l ++ [Own m]).
Proof. intros M _. rewrite rev_app_distr. cbn. destruct M as [->|[->| ->]]; exact I. Qed.
Lemma i1_none r l : i1 None r l. Proof. intros N. congruence. Qed.

Definition target (o : op) : key := match o with Create k _ | Write k _ | Remove k | MoveOut k | MoveIn k _ => k | Rename _ b => b end.

Lemma post_dropg e s s' x : x <> vkey e -> post e s s' -> dropg (eff x (q s)) (eff x (q s')).
Proof.
  intros N [[_ [-> _]]|[ke [rc [l [P Q]]]]]; [apply dropg_refl|].
  assert (D : dropg (eff x (q s)) (eff x l)).
  { unfold ephemeral in P. destruct (is_new (vmask e) || is_del (vmask e)); [|injection P as _ _ <-; apply dropg_refl]. pose proof (eph_dropg (vkey e) x (vmask e) false false (q s) N) as D. rewrite P in D. exact D. }
  destruct Q as [[_ ->]|[_ [i ->]]]; [exact D|]. rewrite eff_app, eff_one. unfold eff1. cbn [ent emask ekey efrom]. rewrite key_eqb_ne by auto. destruct ke; cbn; rewrite app_nil_r; exact D.
Qed.
Lemma post_snoc e s s' : apart (q s) -> is_del (vmask e) = false -> post e s s' -> exists l m, eff (vkey e) (q s') = l ++ [Own m] /\ (m = vmask e \/ m = KModify).
Proof.
  intros A D [[_ [-> [r R]]]|[ke [rc [l [P Q]]]]]; [exists r, (vmask e); auto|].
  assert (K : (ke = vmask e \/ ke = KModify) /\ rc = false).
  { unfold ephemeral in P. destruct (is_new (vmask e) || is_del (vmask e)); [|injection P as <- <- <-; auto]. pose proof (eph_cut (vkey e) (vmask e) false false (q s) A) as X. rewrite P in X.
    exact (cut_new_mask _ _ _ _ D _ _ _ X). }
  destruct K as [K ->]. destruct Q as [[X _]|[_ [i ->]]]; [discriminate|]. exists (eff (vkey e) l), ke. split; [|exact K]. rewrite eff_app, eff_one. f_equal. unfold eff1. cbn [ent emask ekey efrom]. rewrite key_eqb_refl. destruct ke; reflexivity.
Qed.

Definition inv1 (fs r : files) (s : mst) : Prop := forall x, i1 (fs x) (r x) (eff x (q s)).

Lemma single e s (c : nat) : queue_events [e] s = queue_event e s.
Proof. cbn. destruct (queue_event e s); reflexivity. Qed.

Lemma op_inv1 o c fs fs' r s : 1 <= c -> ok c s -> inv1 fs r s -> apply_op o fs = Some fs' ->
  exists s', queue_events (events_of c o) s = Some s' /\ ok (S c) s' /\ inv1 fs' r s'.
Proof.
  intros C O I1 A. pose proof O as [Ap _].
  assert (One : forall e, vcookie e <= c -> (vmask e = KTo -> vcookie e = c) ->
     (is_del (vmask e) = true -> fs' (vkey e) = None) -> (forall x, x <> vkey e -> fs' x = fs x) ->
     exists s', queue_events [e] s = Some s' /\ ok (S c) s' /\ inv1 fs' r s').
  { intros e V T D E. destruct (queue_first e s c O V T) as [s' [Q [Ok P]]]. exists s'. rewrite (single _ _ 0). split; [exact Q|]. split; [exact Ok|]. intros x. destruct (key_dec x (vkey e)) as [->|N].
    - destruct (is_del (vmask e)) eqn:Dl; [rewrite (D eq_refl); apply i1_none|]. destruct (post_snoc e s s' Ap Dl P) as [l [m [-> M]]]. apply i1_snoc. destruct M as [->| ->]; [|auto]. destruct (vmask e); try discriminate; auto.
    - rewrite (E x N). eapply i1_dropg; [eapply post_dropg; eauto|apply I1]. }
  destruct o as [k t|k t|k|a b|k|k t]; cbn [apply_op] in A.
  - destruct (fs k); [discriminate|]. injection A as <-. apply One; cbn; try lia; try discriminate. intros x N. apply set_ne, N.
  - destruct (fs k); [|discriminate]. injection A as <-. apply One; cbn; try lia; try discriminate. intros x N. apply set_ne, N.
  - destruct (fs k); [|discriminate]. injection A as <-. apply One; cbn; try lia; try discriminate. { intros _. apply set_eq. } intros x N. apply set_ne, N.
  - destruct (fs a) as [t|]; [|discriminate]. destruct (key_eqb a b) eqn:Eab; [discriminate|]. injection A as <-.
    assert (N : a <> b) by (intros ->; rewrite key_eqb_refl in Eab; discriminate).
    destruct (queue_rename a b c s O N) as [s' [ka [rca [la [kb [lb [Q [Ok [Ea [Eb [Kb E]]]]]]]]]]]. exists s'. split; [exact Q|]. split; [exact Ok|]. intros x. rewrite E.
    destruct (key_dec x a) as [->|Na]; [rewrite set_eq; apply i1_none|]. rewrite set_ne by auto. rewrite (key_eqb_ne a x) by auto. cbn [app].
    destruct (key_dec x b) as [->|Nb].
    + rewrite key_eqb_refl. apply i1_snoc. destruct Kb; auto.
    + rewrite set_ne by auto. rewrite (key_eqb_ne b x) by auto. rewrite app_nil_r. eapply i1_dropg; [|eapply i1_dropg; [|apply I1]].
      * pose proof (eph_dropg b x KTo false false la Nb) as D. rewrite Eb in D. exact D.
      * pose proof (eph_dropg a x KFrom false false (q s) Na) as D. rewrite Ea in D. exact D.
  - destruct (fs k); [|discriminate]. injection A as <-. apply One; cbn; try lia; try discriminate. { intros _. apply set_eq. } intros x N. apply set_ne, N.
  - injection A as <-. apply One; cbn; try lia; try discriminate. intros x N. apply set_ne, N.
Qed.
Lemma queue_app l1 l2 s s1 : queue_events l1 s = Some s1 -> queue_events (l1 ++ l2) s = queue_events l2 s1.
Proof. revert s. induction l1 as [|e l IH]; cbn; intros s H; [congruence|]. destruct (queue_event e s); [auto|discriminate]. Qed.
Lemma ops_inv1 l : forall c fs fs' r s, 1 <= c -> ok c s -> inv1 fs r s -> apply_ops l fs = Some fs' ->
  exists s', queue_events (all_events c l) s = Some s' /\ ok (c + length l) s' /\ inv1 fs' r s'.
Proof.
  induction l as [|o l IH]; cbn [apply_ops all_events length]; intros c fs fs' r s C O I1 A; [injection A as <-; exists s; rewrite Nat.add_0_r; auto|].
  destruct (apply_op o fs) as [f1|] eqn:A1; [|discriminate]. destruct (op_inv1 o c fs f1 r s C O I1 A1) as [s1 [Q1 [O1 J1]]].
  destruct (IH (S c) f1 fs' r s1 ltac:(lia) O1 J1 A) as [s' [Q' [O' J']]]. exists s'. rewrite (queue_app _ _ _ _ Q1). replace (c + S (length l)) with (S c + length l) by lia. auto.
Qed.

(** For all files, when names that came with a rename stay. *)
Record i2 (f r : option Z) (mv : Prop) (l p : list ef) : Prop := {
  e_end : ends f r l;
  e_cre : forall pre post, l = pre ++ Own KCreate :: post ->
    match rev pre with [] => r = None | (Own KModify | Gone) :: _ => True | _ => False end /\ Forall (fun e => e = Own KModify \/ e = Own KTo) post;
  e_x : In (Own KCreate) l \/ In (Own KTo) l -> f <> None /\ ~ In (Own KDelete) l /\ ~ In (Own KFrom) l;
  e_mv : In (Own KTo) l -> mv;
  e_p : r <> None -> (l = [] <-> p = []);
  e_pend : ends f r p;
  e_phd : r <> None -> hd_error p <> Some (Own KCreate)
}.
Lemma snoc_split {A} (l pre post : list A) x y : l ++ [x] = pre ++ y :: post -> (post = [] /\ x = y /\ l = pre) \/ exists post', post = post' ++ [x] /\ l = pre ++ y :: post'.
Proof.
  destruct (rev post) as [|z t] eqn:R.
  - assert (post = []) as -> by (rewrite <- (rev_involutive post), R; reflexivity). intros H. apply app_inj_tail in H. destruct H as [-> ->]. auto.
  - assert (post = rev t ++ [z]) as -> by (rewrite <- (rev_involutive post), R; reflexivity). intros H. right. exists (rev t).
    rewrite app_comm_cons, app_assoc in H. apply app_inj_tail in H. destruct H as [-> ->]. auto.
Qed.
Lemma snoc_nil {A} (l : list A) x : l ++ [x] <> []. Proof. destruct l; discriminate. Qed.
Lemma ends_snoc f r l x : ends f r (l ++ [x]) <-> match x with Own KCreate | Own KTo => f <> None | Own KModify => True | _ => f = None end.
Proof. unfold ends. rewrite rev_app_distr. cbn. destruct x as [[]|]; tauto. Qed.
Lemma hd_snoc (p : list ef) x e : hd_error (p ++ [x]) = Some e -> (p = [] /\ x = e) \/ hd_error p = Some e.
Proof. destruct p; cbn; auto. intros H. injection H as ->. auto. Qed.

(** The plain list after an operation on the file. *)
Lemma plain_step f f' r p x : ends f r p -> (r <> None -> hd_error p <> Some (Own KCreate)) ->
  (x = Own KCreate -> f = None) -> match x with Own KCreate | Own KTo => f' <> None | Own KModify => True | _ => f' = None end ->
  ends f' r (p ++ [x]) /\ (r <> None -> hd_error (p ++ [x]) <> Some (Own KCreate)).
Proof.
  intros E H C X. split; [apply ends_snoc, X|]. intros N K. destruct (hd_snoc _ _ _ K) as [[-> ->]|K']; [|exact (H N K')]. specialize (C eq_refl). cbn in E. congruence.
Qed.

Lemma i2_weaken f r (mv mv' : Prop) l p : (mv -> mv') -> i2 f r mv l p -> i2 f r mv' l p.
Proof. intros W [A B C D E F G]. split; auto. Qed.

Section Steps.
Context (f r : option Z) (mv : Prop) (l p : list ef) (H : i2 f r mv l p).

Lemma in_snoc (x y : ef) : In y (l ++ [x]) -> In y l \/ y = x.
Proof. intros I. apply in_app_or in I. destruct I as [I|[<-|[]]]; auto. Qed.
Lemma e_p_snoc (l1 : list ef) (x y : ef) : r <> None -> l1 ++ [x] = [] <-> p ++ [y] = [].
Proof. intros _. split; intros E; exfalso; exact (snoc_nil _ _ E). Qed.

(** Writing. *)
Lemma i2_write f' : f <> None -> f' <> None -> i2 f' r mv (l ++ [Own KModify]) (p ++ [Own KModify]).
Proof.
  intros N N'. destruct H as [A B C D E F G]. destruct (plain_step f f' r p (Own KModify) F G ltac:(discriminate) Logic.I) as [P1 P2]. split; auto.
  - apply ends_snoc. exact Logic.I.
  - intros pre post X. destruct (snoc_split _ _ _ _ _ X) as [[_ [Y _]]|[post' [-> ->]]]; [discriminate|]. destruct (B pre post' eq_refl) as [B1 B2]. split; [exact B1|]. apply Forall_app. auto.
  - intros X. destruct C as [_ [C1 C2]]; [destruct X as [X|X]; destruct (in_snoc _ _ X) as [Y|Y]; try discriminate; auto|]. split; [exact N'|]. split; intros Y; destruct (in_snoc _ _ Y) as [Z|Z]; try discriminate; auto.
  - intros X. destruct (in_snoc _ _ X) as [Y|Y]; [auto|discriminate].
  - apply e_p_snoc.
Qed.
Lemma i2_write_same f' t : f <> None -> f' <> None -> l = t ++ [Own KModify] -> i2 f' r mv l (p ++ [Own KModify]).
Proof.
  intros N N' L. destruct H as [A B C D E F G]. destruct (plain_step f f' r p (Own KModify) F G ltac:(discriminate) Logic.I) as [P1 P2]. split; auto.
  - rewrite L. apply ends_snoc. exact Logic.I.
  - intros X. destruct (C X) as [_ Y]. auto.
  - intros Nr. rewrite L. apply e_p_snoc, Nr.
Qed.

(** The first removal in the list. *)
Lemma first_del : (exists x, In (Own x) l /\ is_del x = true) -> exists pre d post, l = pre ++ Own d :: post /\ is_del d = true /\ (forall x, In (Own x) pre -> is_del x = false).
Proof.
  clear H. induction l as [|e t IH]; intros [x [I D]]; [destruct I|]. destruct e as [m|].
  - destruct (is_del m) eqn:Dm; [exists [], m, t; cbn; intuition|]. destruct IH as [pre [d [post [-> [D' P]]]]]; [exists x; destruct I as [I|I]; [congruence|auto]|].
    exists (Own m :: pre), d, post. split; [reflexivity|]. split; [exact D'|]. intros y [Y|Y]; [congruence|auto].
  - destruct IH as [pre [d [post [-> [D' P]]]]]; [exists x; destruct I as [I|I]; [congruence|auto]|].
    exists (Gone :: pre), d, post. split; [reflexivity|]. split; [exact D'|]. intros y [Y|Y]; [congruence|auto].
Qed.
Lemma no_del : (forall x, In (Own x) l -> is_del x = false) \/ (exists x, In (Own x) l /\ is_del x = true).
Proof.
  clear H. induction l as [|[m|] t IH]; [left; intros x []| |].
  - destruct (is_del m) eqn:D; [right; exists m; cbn; auto|]. destruct IH as [IH|[x [I X]]]; [left; intros x [Y|Y]; [congruence|auto]|right; exists x; cbn; auto].
  - destruct IH as [IH|[x [I X]]]; [left; intros x [Y|Y]; [congruence|auto]|right; exists x; cbn; auto].
Qed.

(** Creating, or moving over. *)
Lemma i2_new ke f' k1 l1 (mv' : Prop) : is_new ke = true -> (ke = KCreate -> f = None) -> f' <> None -> (mv -> mv') -> (ke = KTo -> mv') ->
  cut ke false false l = (k1, false, l1) -> i2 f' r mv' (l1 ++ [Own k1]) (p ++ [Own ke]).
Proof.
  intros N Nf Nf' W Wt C. destruct H as [A B X D E F G].
  assert (Pl : ends f' r (p ++ [Own ke]) /\ (r <> None -> hd_error (p ++ [Own ke]) <> Some (Own KCreate))) by (apply (plain_step f); auto; [intros Q; injection Q as ->; auto|destruct ke; try discriminate; auto]). destruct Pl as [P1 P2].
  destruct no_del as [ND|YD].
  - (* nothing to wipe *)
    assert (Q : cut ke false false l = (ke, false, l)).
    { clear - ND N. induction l as [|[m|] t IH]; cbn; [reflexivity| |]; [|rewrite IH; [reflexivity|intros x I; apply ND; right; exact I]].
      rewrite (ND m) by (left; reflexivity). replace (is_del ke) with false by (destruct ke; try discriminate; reflexivity). rewrite andb_false_r. cbn. rewrite IH; [reflexivity|intros x I; apply ND; right; exact I]. }
    rewrite Q in C. injection C as <- <-. split; auto.
    + apply ends_snoc. destruct ke; try discriminate; auto.
    + intros pre post Y. destruct (snoc_split _ _ _ _ _ Y) as [[-> [Z ->]]|[post' [-> ->]]].
      * injection Z as ->. split; [|constructor]. specialize (Nf eq_refl). unfold ends in A. destruct (rev pre) as [|x t] eqn:R; [congruence|].
        assert (I : In x pre) by (apply in_rev; rewrite R; left; reflexivity). destruct x as [[]|]; auto; try congruence; specialize (ND _ I); discriminate.
      * destruct (B pre post' eq_refl) as [B1 B2]. split; [exact B1|]. apply Forall_app. split; [exact B2|]. constructor; [|constructor]. destruct ke; try discriminate; auto.
        exfalso. destruct X as [X _]; [left; apply in_elt|]. auto.
    + intros _. split; [exact Nf'|]. split; intros I; destruct (in_snoc _ _ I) as [J|J]; try (specialize (ND _ J); discriminate); injection J as <-; discriminate.
    + intros I. destruct (in_snoc _ _ I) as [J|J]; [auto|]. injection J as <-. auto.
    + apply e_p_snoc.
  - (* a removal, which is wiped *)
    destruct (first_del YD) as [pre [d [post [L [Dd Pd]]]]].
    assert (NN : ~ In (Own KCreate) l /\ ~ In (Own KTo) l).
    { assert (In (Own d) l) as Id by (rewrite L; apply in_elt). split; intros I; (destruct X as [_ [X1 X2]]; [auto|]); destruct d; try discriminate; auto. }
    destruct NN as [N1 N2]. rewrite L in C. rewrite (cut_removed ke pre d post N Pd Dd) in C. injection C as <- <-.
    assert (Sub : forall m, In (Own m) (pre ++ filter is_gone post) -> In (Own m) pre).
    { intros m I. apply in_app_or in I. destruct I as [I|I]; [exact I|]. apply filter_In in I. destruct I as [_ I]. discriminate. }
    assert (SubL : forall m, In (Own m) pre -> In (Own m) l) by (intros m I; rewrite L; apply in_or_app; auto).
    assert (M : forall m, In (Own m) ((pre ++ filter is_gone post) ++ [Own KModify]) -> m = KModify \/ In (Own m) l).
    { intros m I. apply in_app_or in I. destruct I as [I|[I|[]]]; [right; auto|left; congruence]. }
    split; auto.
    + apply ends_snoc. exact Logic.I.
    + intros a b Y. exfalso. destruct (M KCreate) as [Z|Z]; [rewrite Y; apply in_elt|discriminate|auto].
    + intros [I|I]; destruct (M _ I) as [Z|Z]; try discriminate; contradiction.
    + intros I. destruct (M _ I) as [Z|Z]; [discriminate|contradiction].
    + apply e_p_snoc.
Qed.

(** Removing; y is how the removal is queued in the end. *)
Lemma i2_remove ke k1 rc l1 y py : is_del ke = true -> ~ In (Own KTo) l -> f <> None -> cut ke false false l = (k1, rc, l1) ->
  (y = Own KDelete \/ y = Own KFrom \/ y = Gone) -> py = Gone ->
  i2 None r mv (if rc then l1 else l1 ++ [y]) (p ++ [py]).
Proof.
  intros Dk NT Nf C Y ->. destruct H as [A B X D E F G].
  destruct (plain_step f None r p Gone F G ltac:(discriminate) eq_refl) as [P1 P2].
  assert (Cr : In (Own KCreate) l \/ ~ In (Own KCreate) l) by (destruct (in_dec (fun a b : ef => ltac:(decide equality; decide equality) : {a = b} + {a <> b}) (Own KCreate) l); auto).
  destruct Cr as [Cr|Cr].
  - apply in_split in Cr. destruct Cr as [pre [post L]]. destruct (B pre post L) as [B1 B2]. rewrite L in C.
    assert (Np : forall x, In (Own x) pre -> is_new x = false).
    { intros x I. destruct x; try reflexivity; exfalso.
      - apply in_split in I. destruct I as [p1 [p2 ->]]. rewrite <- app_assoc in L. cbn in L. destruct (B p1 _ L) as [_ B3]. rewrite Forall_app in B3. destruct B3 as [_ B3]. inversion B3 as [|? ? [Z|Z] _]; discriminate.
      - apply NT. rewrite L. apply in_or_app. auto. }
    rewrite (cut_created ke pre post Dk Np ltac:(eapply Forall_impl; [|exact B2]; cbn; intros ? [->| ->]; discriminate) KCreate eq_refl) in C. injection C as <- <- <-.
    assert (Nc : ~ In (Own KCreate) pre) by (intros I; specialize (Np _ I); discriminate).
    assert (Nt : ~ In (Own KTo) pre) by (intros I; specialize (Np _ I); discriminate).
    split; auto.
    + unfold ends. destruct (rev pre) as [|[[]|] t]; auto; contradiction.
    + intros a b Z. exfalso. apply Nc. rewrite Z. apply in_elt.
    + intros [I|I]; contradiction.
    + intros I. contradiction.
    + intros Nr. split; intros Z; exfalso; [|exact (snoc_nil _ _ Z)]. subst pre. cbn in B1. contradiction.
  - assert (Q : cut ke false false l = (ke, false, l)).
    { assert (Nn : forall x, In (Own x) l -> is_new x = false) by (intros x I; destruct x; try reflexivity; contradiction). clear - Nn Dk. induction l as [|[m|] t IH]; cbn; [reflexivity| |rewrite IH; [reflexivity|intros x I; apply Nn; right; exact I]].
      rewrite (Nn m) by (left; reflexivity). replace (is_new ke) with false by (destruct ke; try discriminate; reflexivity). rewrite andb_false_r. cbn. rewrite IH; [reflexivity|intros x I; apply Nn; right; exact I]. }
    rewrite Q in C. injection C as <- <- <-.
    assert (M : forall m, is_new m = true -> ~ In (Own m) (l ++ [y])).
    { intros m Nm I. destruct (in_snoc _ _ I) as [J|J]; [destruct m; try discriminate; contradiction|]. destruct Y as [->|[->| ->]]; try discriminate; injection J as ->; discriminate. }
    split; auto.
    + apply ends_snoc. destruct Y as [->|[->| ->]]; reflexivity.
    + intros a b Z. exfalso. apply (M KCreate eq_refl). rewrite Z. apply in_elt.
    + intros [I|I]; [destruct (M KCreate eq_refl I)|destruct (M KTo eq_refl I)].
    + intros I. destruct (M KTo eq_refl I).
    + apply e_p_snoc.
Qed.
End Steps.
