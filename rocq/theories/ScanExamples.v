(** Checks that decide the hypotheses of the theorems for a given database and tree, and the
    databases of the examples. *)
From Verif Require Import Base ConfigModel ParseModel PathModel DbModel DbSpec DbProofs DbProofs3 ScanModel ScanSpec ScanProofs ScanProofs2 ScanProofs3 ScanProofs6 ScanProofs7.
Require Import Lia.

Definition all {A} (f : A -> bool) (l : list A) := forallb f l.
Lemma all_in {A} (f : A -> bool) l : all f l = true -> forall a, In a l -> f a = true.
Proof. apply forallb_forall. Qed.
Fixpoint nodup_nat (l : list nat) : bool := match l with [] => true | x :: l => negb (existsb (Nat.eqb x) l) && nodup_nat l end.
Lemma nodup_nat_ok l : nodup_nat l = true -> NoDup l.
Proof.
  induction l as [|x l IH]; intros H; [constructor|]. cbn in H. apply andb_true_iff in H as [H1 H2]. constructor; [|auto]. intros I. apply negb_true_iff in H1.
  assert (existsb (Nat.eqb x) l = true); [|congruence]. apply existsb_exists. exists x. split; [exact I|apply Nat.eqb_refl].
Qed.
Definition there (d : db) (x : nat) : bool := is_some (lookup d x).
Lemma there_ok d x : there d x = true -> lookup d x <> None.
Proof. unfold there. destruct (lookup d x); [discriminate|discriminate]. Qed.

Definition sound_check (d : db) : bool :=
  nodup_nat (map fst (nodes d))
  && all (fun p => all (fun q => negb ((dir (snd p) =? dir (snd q)) && bytes_eqb (nname (snd p)) (nname (snd q))) || (fst p =? fst q)) (nodes d)) (nodes d)
  && match lookup d top with Some n => ntype_eqb (kind n) TDir && (dir n =? 0) | None => false end
  && all (fun p => (fst p =? top) || there d (dir (snd p)) && (dir (snd p) <? fst p)) (nodes d)
  && all (fun p => there d (fst p) && there d (snd p)) (normal d)
  && all (fun p => match src (snd p) with Some s => there d s | None => negb (ntype_eqb (kind (snd p)) TGenerated) end) (nodes d)
  && all (fun p => negb (real (kind (snd p))) || (fst p =? top) || match lookup d (dir (snd p)) with Some m => is_dir (kind m) | None => false end) (nodes d)
  && all (fun p => negb (bytes_eqb (nname (snd p)) (B "tup.config")) || negb (is_dir (kind (snd p)))) (nodes d).
Lemma ntype_eq a b : ntype_eqb a b = true -> a = b.
Proof. destruct a, b; (discriminate || reflexivity). Qed.
Lemma sound_ok d : sound_check d = true -> sound d.
Proof.
  unfold sound_check. intros H. repeat (apply andb_true_iff in H as [H ?]). split.
  - apply nodup_nat_ok. assumption.
  - intros x n y m Hx Hy D N. match goal with H : all (fun p => all _ _) _ = true |- _ => pose proof (all_in _ _ (all_in _ _ H (x, n) Hx) (y, m) Hy) as X end. cbn [fst snd] in X.
    rewrite D, N, Nat.eqb_refl, bytes_eqb_refl in X. cbn in X. apply Nat.eqb_eq in X. exact X.
  - match goal with H : match lookup d top with _ => _ end = true |- _ => revert H end. destruct (lookup d top) as [n|]; [|discriminate]. intros X. apply andb_true_iff in X as [X Y]. apply ntype_eq in X. apply Nat.eqb_eq in Y. eauto.
  - intros x n Hx T. match goal with H : all (fun p => (fst p =? top) || there d (dir (snd p)) && _) _ = true |- _ => pose proof (all_in _ _ H (x, n) Hx) as X end. cbn [fst snd] in X.
    apply orb_true_iff in X as [X|X]; [apply Nat.eqb_eq in X; congruence|]. apply andb_true_iff in X as [X Y]. apply Nat.ltb_lt in Y. split; [apply there_ok; exact X|exact Y].
  - intros x y Hx. match goal with H : all (fun p => there d (fst p) && _) _ = true |- _ => pose proof (all_in _ _ H (x, y) Hx) as X end. cbn [fst snd] in X. apply andb_true_iff in X as [X Y]. split; apply there_ok; assumption.
  - intros x n s Hx E. match goal with H : all (fun p => match src (snd p) with _ => _ end) _ = true |- _ => pose proof (all_in _ _ H (x, n) Hx) as X end. cbn [fst snd] in X. rewrite E in X. apply there_ok. exact X.
  - intros x n Hx K E. match goal with H : all (fun p => match src (snd p) with _ => _ end) _ = true |- _ => pose proof (all_in _ _ H (x, n) Hx) as X end. cbn [fst snd] in X. rewrite E, K in X. discriminate.
  - intros x n Hx R T. match goal with H : all (fun p => negb (real _) || _ || _) _ = true |- _ => pose proof (all_in _ _ H (x, n) Hx) as X end. cbn [fst snd] in X. rewrite R in X. cbn [negb orb] in X.
    apply orb_true_iff in X as [X|X]; [apply Nat.eqb_eq in X; congruence|]. destruct (lookup d (dir n)) as [m|]; [eauto|discriminate].
  - intros x n Hx E. match goal with H : all (fun p => negb (bytes_eqb _ _) || _) _ = true |- _ => pose proof (all_in _ _ H (x, n) Hx) as X end. cbn [fst snd] in X. rewrite E, bytes_eqb_refl in X. cbn in X. apply negb_true_iff in X. exact X.
Qed.

(** Every path of a tree. *)
Fixpoint paths (t : tree) : list (path * tree) :=
  ([], t) :: match t with
             | FDir l => (fix go l := match l with [] => [] | (a, s) :: l => map (fun p => (fst p ++ [a], snd p)) (paths s) ++ go l end) l
             | _ => []
             end.
Lemma paths_ok : forall t r s, on_disk t r = Some s -> In (r, s) (paths t).
Proof.
  apply (tree_rect' (fun t => forall r s, on_disk t r = Some s -> In (r, s) (paths t))).
  - intros m r s H. destruct r as [|a r]; [injection H as <-; left; reflexivity|]. exfalso. revert s H. clear. assert (forall k, k <> [] -> on_disk (FFile m) k = None) as X; [|intros s H; rewrite X in H; discriminate].
    induction k as [|b k IH]; [congruence|]. intros _. cbn. destruct k; [reflexivity|]. rewrite IH; [reflexivity|discriminate].
  - intros r s H. destruct r as [|a r]; [injection H as <-; left; reflexivity|]. exfalso. revert s H. clear. assert (forall k, k <> [] -> on_disk FOther k = None) as X; [|intros s H; rewrite X in H; discriminate].
    induction k as [|b k IH]; [congruence|]. intros _. cbn. destruct k; [reflexivity|]. rewrite IH; [reflexivity|discriminate].
  - intros l IH r s H. destruct r as [|a0 r0]; [injection H as <-; left; reflexivity|]. right. assert (a0 :: r0 <> []) as Nr by discriminate. destruct (exists_last Nr) as [u [a E]]. rewrite E in *. clear E Nr a0 r0.
    rewrite disk_snoc in H. destruct (named a l) as [t|] eqn:E; [|discriminate]. apply named_in in E. specialize (IH a t E u s H). clear H.
    induction l as [|[b t'] l IHl]; [destruct E|]. apply in_app_iff. destruct E as [E|E].
    + injection E as -> ->. left. apply in_map_iff. exists (u, s). auto.
    + right. apply IHl. exact E.
Qed.
Fixpoint nodup_names (l : list bytes) : bool := match l with [] => true | x :: l => negb (existsb (bytes_eqb x) l) && nodup_names l end.
Lemma nodup_names_ok l : nodup_names l = true -> NoDup l.
Proof.
  induction l as [|x l IH]; intros H; [constructor|]. cbn in H. apply andb_true_iff in H as [H1 H2]. constructor; [|auto]. intros I. apply negb_true_iff in H1.
  assert (existsb (bytes_eqb x) l = true); [|congruence]. apply existsb_exists. exists x. split; [exact I|apply bytes_eqb_refl].
Qed.
Definition scannable_check (t : tree) : bool :=
  all (fun p => match snd p with FDir l => nodup_names (map fst l) && match fst p with a :: _ => negb (bytes_eqb a (B "tup.config")) | [] => true end | _ => true end) (paths t).
Lemma scannable_ok t : scannable_check t = true -> scannable t.
Proof.
  intros H. split.
  - intros r l D. apply paths_ok in D. pose proof (all_in _ _ H _ D) as X. cbn in X. apply andb_true_iff in X as [X _]. apply nodup_names_ok. exact X.
  - intros r l D. apply paths_ok in D. pose proof (all_in _ _ H _ D) as X. cbn [fst snd] in X. rewrite bytes_eqb_refl in X. apply andb_true_iff in X as [_ X]. discriminate.
Qed.

(** The path of a node. *)
Fixpoint path_of (fuel : nat) (d : db) (x : nat) : path :=
  match fuel with
  | 0 => []
  | S fuel => if x =? top then [] else match lookup d x with Some n => nname n :: path_of fuel d (dir n) | None => [] end
  end.
Lemma path_of_ok d r : base d -> forall x n fuel, at_path d r x n -> x < fuel -> path_of fuel d x = r.
Proof.
  intros W. induction r as [|a r IH]; intros x n fuel G F; (destruct fuel as [|fuel]; [lia|]); cbn.
  - apply at_nil in G as [-> _]. reflexivity.
  - apply at_cons in G as [y [p [G [L [D [N T]]]]]]; auto. apply Nat.eqb_neq in T. rewrite T. apply Nat.eqb_neq in T. rewrite L, N, D. f_equal. apply (IH y p); [exact G|].
    destruct (b_parent _ W x n L T) as [_ X]. lia.
Qed.
Definition visible_check (r : path) : bool := forallb (fun a => negb (ignored a)) r.
Lemma visible_ok r : visible r <-> visible_check r = true.
Proof.
  unfold visible, visible_check. rewrite forallb_forall. split; intros H a I; specialize (H a I); [apply ignored_skipped in H; rewrite H; reflexivity|apply ignored_skipped; apply negb_true_iff in H; exact H].
Qed.
Definition clash_check (d : db) (t : tree) : bool :=
  all (fun p => let r := path_of (S (fst p)) d (fst p) in
                negb (visible_check r) || match on_disk t r with
                                          | Some FOther => negb (real (kind (snd p)))
                                          | Some _ => real (kind (snd p)) || ntype_eqb (kind (snd p)) TGhost
                                          | None => true end) (nodes d).
Lemma clash_ok d t : sound d -> clash_check d t = true -> no_clash d t.
Proof.
  intros S H r x n V G. apply sound_base in S as [W _]. pose proof (at_lookup _ _ _ _ W G) as L. apply lookup_in in L. pose proof (all_in _ _ H _ L) as X. cbn [fst snd] in X.
  rewrite (path_of_ok d r W x n _ G) in X by lia. apply visible_ok in V. rewrite V in X. cbn [negb orb] in X.
  destruct (on_disk t r) as [[m|l|]|]; [| | |exact I]; try (apply orb_true_iff in X as [X|X]; [auto|apply ntype_eq in X; auto]). apply negb_true_iff in X. exact X.
Qed.
Fixpoint find_path (d : db) (r : path) : option nat :=
  match r with [] => if there d top then Some top else None | a :: r => match find_path d r with Some x => child d x a | None => None end end.
Lemma find_path_ok d r : base d -> forall x, find_path d r = Some x -> exists n, at_path d r x n /\ lookup d x = Some n.
Proof.
  intros W. induction r as [|a r IH]; intros x H; cbn in H.
  - unfold there in H. destruct (lookup d top) as [n|] eqn:L; [|discriminate]. injection H as <-. exists n. split; [constructor; exact L|exact L].
  - destruct (find_path d r) as [y|] eqn:E; [|discriminate]. destruct (IH y eq_refl) as [p [G L]]. apply child_spec in H; auto. destruct H as [n [Ln [D N]]]. exists n. split; [eapply at_in; eauto|exact Ln].
Qed.
Definition node_at (d : db) (r : path) (f : node -> bool) : bool := match find_path d r with Some x => match lookup d x with Some n => f n | None => false end | None => false end.
Lemma node_at_ok d r f : base d -> node_at d r f = true -> exists x n, at_path d r x n /\ f n = true.
Proof. intros W H. unfold node_at in H. destruct (find_path d r) as [x|] eqn:E; [|discriminate]. destruct (find_path_ok d r W x E) as [n [G L]]. rewrite L in H. eauto. Qed.
Definition unchanged_check (d : db) (t : tree) : bool :=
  all (fun p => negb (visible_check (fst p)) || match snd p with
                                               | FFile m => node_at d (fst p) (fun n => is_file (kind n) && Z.eqb (time n) m)
                                               | FDir _ => node_at d (fst p) (fun n => is_dir (kind n))
                                               | FOther => true end) (paths t)
  && all (fun p => let r := path_of (S (fst p)) d (fst p) in
                   match r with
                   | a :: r0 => match on_disk t r0 with
                                | Some (FDir _) => negb (real (kind (snd p))) || (match r0 with [] => existsb (bytes_eqb a) [B "$"; B "/"; B "^"] | _ => false end) || is_some (on_disk t r)
                                | _ => true
                                end
                   | [] => true
                   end) (nodes d).
Lemma unchanged_ok d t : sound d -> unchanged_check d t = true -> unchanged d t.
Proof.
  intros S H. apply sound_base in S as [W _]. apply andb_true_iff in H as [H1 H2]. split.
  - intros r m V D. pose proof (all_in _ _ H1 _ (paths_ok _ _ _ D)) as X. apply visible_ok in V. cbn [fst snd] in X. rewrite V in X. cbn [negb orb] in X.
    apply node_at_ok in X as [x [n [G F]]]; auto. apply andb_true_iff in F as [F T]. apply Z.eqb_eq in T. eauto.
  - intros r l V D. pose proof (all_in _ _ H1 _ (paths_ok _ _ _ D)) as X. apply visible_ok in V. cbn [fst snd] in X. rewrite V in X. cbn [negb orb] in X.
    apply node_at_ok in X as [x [n [G F]]]; eauto.
  - intros r l nm x n D G R Sp N. pose proof (at_lookup _ _ _ _ W G) as L. apply lookup_in in L. pose proof (all_in _ _ H2 _ L) as X. cbn [fst snd] in X.
    rewrite (path_of_ok d _ W x n _ G) in X by lia. cbv zeta in X. cbv iota beta in X. rewrite D, R, N in X. cbn [negb orb is_some] in X. rewrite orb_false_r in X. destruct r; [|discriminate].
    apply (Sp eq_refl). apply existsb_exists in X as [b [I E]]. apply bytes_eqb_eq in E. subst b. exact I.
Qed.
