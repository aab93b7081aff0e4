(** The loop that converts directories. *)
From Verif Require Import Base ConfigModel ParseModel PathModel DbModel DbSpec DbProofs DbProofs3 ScanModel ScanSpec ScanProofs ScanProofs2 ScanProofs3 CleanModel CleanSpec CleanProofs ConvModel ConvSpec.
Require Import Lia.

Section P.
Variables (own : nat -> bool) (d : db) (parsed : list nat) (s0 : conv).
Hypothesis W : base d.
Hypothesis Ho : home d.
Hypothesis Pl : in_place d.
Hypothesis Env : has_environment d.
Hypothesis Pd : forall x, In x parsed -> exists n, lookup d x = Some n /\ kind n = TDir.
Hypothesis D0 : cv_db s0 = d.
Notation taken := (taken d parsed).
Notation within := (within d).

Lemma taken_rec (P : nat -> Prop) :
  (forall x, (In x parsed \/ exists y m, taken y /\ P y /\ within x y m) ->
     (forall y m, within x y m -> kind m <> TFile) ->
     (forall y m, within x y m -> kind m = TDir -> P y) ->
     (exists y m, within x y m /\ (foreign x m \/ taken y /\ P y)) -> P x) ->
  forall x, taken x -> P x.
Proof.
  intros H. fix IH 2. intros x [C F D E]. apply H.
  - destruct C as [C|[y [m [T Y]]]]; [left; exact C|right; exists y, m; split; [exact T|split; [exact (IH y T)|exact Y]]].
  - exact F.
  - intros y m Y K. exact (IH y (D y m Y K)).
  - destruct E as [y [m [Y E]]]. exists y, m. split; [exact Y|]. destruct E as [E|T]; [left; exact E|right; split; [exact T|exact (IH y T)]].
Qed.

Lemma no_zero : lookup d 0 = None.
Proof. destruct (lookup d 0) as [n|] eqn:L; [|reflexivity]. destruct (b_parent _ W 0 n L) as [_ X]; [unfold top; discriminate|lia]. Qed.
Lemma top_dir n : lookup d top = Some n -> kind n = TDir /\ dir n = 0.
Proof. intros L. destruct (b_top _ W) as [t [Lt X]]. rewrite L in Lt. injection Lt as <-. exact X. Qed.

Lemma taken_is_dir x : taken x -> forall n, lookup d x = Some n -> is_dir (kind n) = true.
Proof.
  revert x. apply (taken_rec (fun x => forall n, lookup d x = Some n -> is_dir (kind n) = true)). intros x C _ _ _ n L. destruct C as [C|[y [m [_ [P [Y X]]]]]].
  - destruct (Pd x C) as [n1 [L1 K]]. rewrite L in L1. injection L1 as <-. rewrite K. reflexivity.
  - pose proof (P m Y) as K. destruct (Nat.eq_dec y top) as [-> |T].
    + destruct (top_dir m Y) as [_ Z]. rewrite Z in X. subst x. rewrite no_zero in L. discriminate.
    + destruct (Ho y m Y) as [p [Lp Kp]]; [unfold real; rewrite K; apply orb_true_r|exact T|]. rewrite X, L in Lp. injection Lp as <-. exact Kp.
Qed.
Lemma taken_not_top : ~ taken top.
Proof.
  intros [_ _ D _]. destruct Env as [e [n [Y [_ [K V]]]]]. destruct (D e n Y K) as [_ _ _ [y [m [Z [F|T]]]]].
  - destruct F as [F _]. rewrite (V y m Z) in F. destruct F; discriminate.
  - pose proof (taken_is_dir y T m (proj1 Z)) as Q. rewrite (V y m Z) in Q. discriminate.
Qed.
Lemma taken_some x : taken x -> exists n, lookup d x = Some n.
Proof.
  intros [C _ _ _]. destruct C as [C|[y [m [T [L X]]]]]; [destruct (Pd x C) as [n [L _]]; eauto|].
  destruct (b_parent _ W y m L) as [P _]; [intros ->; exact (taken_not_top T)|]. rewrite X in P. destruct (lookup d x) as [n|]; [eauto|congruence].
Qed.

(** The .gitignore files that tup made in the directories of [K]. *)
Definition gitf (K : list nat) (g : nat) : Prop := exists n, lookup d g = Some n /\ kind n = TGenerated /\ nname n = B ".gitignore" /\ In (dir n) K.
(** What a node is now. *)
Definition isgit (K : list nat) (n : node) : bool := ntype_eqb (kind n) TGenerated && bytes_eqb (nname n) (B ".gitignore") && mem (dir n) K.
Definition now (K : list nat) (y : nat) (n : node) : node :=
  if mem y K then set_kind TGeneratedDir n
  else if isgit K n && own y then set_src None (set_kind TFile n) else n.
Lemma isgit_ok K n : isgit K n = true <-> kind n = TGenerated /\ nname n = B ".gitignore" /\ In (dir n) K.
Proof. unfold isgit. rewrite !andb_true_iff, ntype_eqb_eq, bytes_eqb_eq, mem_in. tauto. Qed.
Lemma now_dir K y n : dir (now K y n) = dir n.
Proof. unfold now. destruct (mem y K); [reflexivity|]. destruct (isgit K n && own y); reflexivity. Qed.
Lemma now_name K y n : nname (now K y n) = nname n.
Proof. unfold now. destruct (mem y K); [reflexivity|]. destruct (isgit K n && own y); reflexivity. Qed.

Definition cand (K : list nat) (x : nat) : Prop := In x parsed \/ exists y m, In y K /\ within x y m.
Definition ready (K : list nat) (x : nat) : Prop :=
  (forall y m, within x y m -> kind m <> TFile) /\ (forall y m, within x y m -> kind m = TDir -> In y K) /\
  exists y m, within x y m /\ (foreign x m \/ In y K).

Record Inv (K todo : list nat) (s : conv) : Prop := {
  i_ids : map fst (nodes (cv_db s)) = map fst (nodes d);
  i_nodes : forall y, lookup (cv_db s) y = option_map (now K y) (lookup d y);
  i_links : forall a b, In (a, b) (normal (cv_db s)) <-> In (a, b) (normal d) /\ ~ In a K /\ ~ In b K;
  i_rest : sticky (cv_db s) = sticky d /\ modify (cv_db s) = modify d /\ create (cv_db s) = create d /\ config (cv_db s) = config d;
  i_queue : forall z, In z (cv_queue s) -> In z (cv_queue s0) \/ exists x, In x K /\ In (z, x) (normal d) /\ queueable d z;
  i_queued : forall z, In z (cv_queue s0) \/ (exists x n, In x K /\ In (z, x) (normal d) /\ lookup d z = Some n /\ (kind n = TGhost \/ kind n = TGroup)) -> In z (cv_queue s);
  i_del : forall g, In g (cv_del s) <-> (In g (cv_del s0) \/ gitf K g) /\ ~ (gitf K g /\ own g = true);
  i_save : forall g, In g (cv_save s) <-> In g (cv_save s0) /\ ~ (gitf K g /\ own g = true);
  i_git : forall p, In p (cv_git s) <-> In p (cv_git s0) \/ exists x n, In x K /\ lookup d x = Some n /\ dir n = p;
  i_K : forall x, In x K -> taken x;
  i_todo : forall x, In x todo -> cand K x;
  i_done : forall x, cand K x -> In x todo \/ In x K \/ ~ ready K x }.

Lemma inv_base K todo s : Inv K todo s -> base (cv_db s).
Proof.
  intros I. apply (base_from d); auto.
  - rewrite (i_ids _ _ _ I). apply W.
  - intros y n' L. rewrite (i_nodes _ _ _ I) in L. destruct (lookup d y) as [n|] eqn:Ly; [|discriminate]. injection L as <-. exists n. split; [reflexivity|].
    split; [apply now_dir|]. split; [apply now_name|]. intros K'. unfold now in K'. destruct (mem y K) eqn:M.
    + apply mem_in in M. eapply taken_is_dir; [apply (i_K _ _ _ I); exact M|exact Ly].
    + destruct (isgit K n && own y); [discriminate|exact K'].
  - intros y L. rewrite (i_nodes _ _ _ I). destruct (lookup d y); [discriminate|congruence].
  - rewrite (i_nodes _ _ _ I). destruct (b_top _ W) as [t [Lt [Kt _]]]. rewrite Lt. cbn. unfold now. destruct (mem top K) eqn:M.
    + apply mem_in in M. exfalso. apply taken_not_top, (i_K _ _ _ I), M.
    + unfold isgit. rewrite Kt. reflexivity.
  - intros [a b] H. apply (i_links _ _ _ I) in H. apply H.
  - intros y n' z L E. rewrite (i_nodes _ _ _ I) in L. destruct (lookup d y) as [n|] eqn:Ly; [|discriminate]. injection L as <-. apply (b_source _ W y n z Ly).
    unfold now in E. destruct (mem y K); [exact E|]. destruct (isgit K n && own y); [discriminate|exact E].
  - intros y n' L Kn. rewrite (i_nodes _ _ _ I) in L. destruct (lookup d y) as [n|] eqn:Ly; [|discriminate]. injection L as <-.
    unfold now in *. destruct (mem y K); [discriminate|]. destruct (isgit K n && own y); [discriminate|]. apply (b_generated _ W y n Ly Kn).
Qed.

Lemma exists_node e (f : nat -> node -> bool) : NoDup (map fst (nodes e)) -> (existsb (fun p => f (fst p) (snd p)) (nodes e) = true <-> exists y n, lookup e y = Some n /\ f y n = true).
Proof.
  intros N. rewrite existsb_exists. split.
  - intros [[y n] [I F]]. exists y, n. split; [apply in_lookup; assumption|exact F].
  - intros [y [n [L F]]]. exists (y, n). split; [apply lookup_in; exact L|exact F].
Qed.

Lemma check K todo s x : Inv K todo s -> ~ In x K -> (is_generated_dir (cv_db s) x = true <-> ready K x).
Proof.
  intros I N. assert (NoDup (map fst (nodes (cv_db s)))) as U by (rewrite (i_ids _ _ _ I); apply W).
  unfold is_generated_dir, is_generated_dir1, is_generated_dir2. rewrite andb_true_iff, negb_true_iff.
  rewrite <- not_true_iff_false.
  rewrite (exists_node _ (fun _ n => (dir n =? x) && (ntype_eqb (kind n) TFile || ntype_eqb (kind n) TDir)) U).
  rewrite (exists_node _ (fun _ n => (dir n =? x) && negb (src_is (dir n) n) && (ntype_eqb (kind n) TGenerated || ntype_eqb (kind n) TGeneratedDir)) U).
  assert (forall y m, within x y m -> lookup (cv_db s) y = Some (if mem y K then set_kind TGeneratedDir m else m)) as Now.
  { intros y m [L D]. rewrite (i_nodes _ _ _ I), L. cbn. f_equal. unfold now. destruct (mem y K); [reflexivity|].
    destruct (isgit K m) eqn:G; [|reflexivity]. apply isgit_ok in G as [_ [_ G]]. rewrite D in G. contradiction. }
  assert (forall y n', lookup (cv_db s) y = Some n' -> dir n' = x -> exists m, within x y m /\ n' = if mem y K then set_kind TGeneratedDir m else m) as Back.
  { intros y n' L D. pose proof L as L2. rewrite (i_nodes _ _ _ I) in L2. destruct (lookup d y) as [m|] eqn:Ly; [|discriminate]. injection L2 as L2.
    assert (dir m = x) as D2 by (rewrite <- D, <- L2; symmetry; apply now_dir). exists m. split; [split; assumption|]. pose proof (Now y m (conj Ly D2)). congruence. }
  split.
  - intros [A C]. split; [|split].
    + intros y m Y Kf. apply A. exists y, (if mem y K then set_kind TGeneratedDir m else m). split; [apply Now; exact Y|].
      destruct (mem y K) eqn:M; [|rewrite (proj2 Y), Kf, Nat.eqb_refl; reflexivity]. exfalso. apply mem_in in M. pose proof (taken_is_dir y (i_K _ _ _ I y M) m (proj1 Y)). rewrite Kf in H. discriminate.
    + intros y m Y Kd. destruct (mem y K) eqn:M; [apply mem_in; exact M|]. exfalso. apply A. exists y, m. pose proof (Now y m Y) as L. rewrite M in L. split; [exact L|]. rewrite (proj2 Y), Kd, Nat.eqb_refl. reflexivity.
    + destruct C as [y [n' [L F]]]. apply andb_true_iff in F as [F Kk]. apply andb_true_iff in F as [F S]. apply Nat.eqb_eq in F. destruct (Back y n' L F) as [m [Y E]]. exists y, m. split; [exact Y|].
      destruct (mem y K) eqn:M; [right; apply mem_in; exact M|]. subst n'. left. split.
      * apply orb_true_iff in Kk as [Kk|Kk]; apply ntype_eqb_eq in Kk; auto.
      * intros E. unfold src_is in S. rewrite E, F, Nat.eqb_refl in S. discriminate.
  - intros [A [C E]]. split.
    + intros [y [n' [L F]]]. apply andb_true_iff in F as [F Kk]. apply Nat.eqb_eq in F. destruct (Back y n' L F) as [m [Y Q]]. destruct (mem y K) eqn:M; [subst n'; discriminate|]. subst n'.
      apply orb_true_iff in Kk as [Kk|Kk]; apply ntype_eqb_eq in Kk; [exact (A y m Y Kk)|]. pose proof (C y m Y Kk) as Q. apply mem_in in Q. congruence.
    + destruct E as [y [m [Y F]]]. exists y, (if mem y K then set_kind TGeneratedDir m else m). split; [apply Now; exact Y|]. destruct (mem y K) eqn:M.
      * apply mem_in in M. pose proof (taken_is_dir y (i_K _ _ _ I y M) m (proj1 Y)) as Q. pose proof (Pl y m (proj1 Y) Q) as S. cbn. unfold src_is. cbn. rewrite (proj2 Y), S, Nat.eqb_refl. reflexivity.
      * destruct F as [[Kk S]|F]; [|apply mem_in in F; congruence]. rewrite (proj2 Y), Nat.eqb_refl. unfold src_is. destruct (src m) as [z|].
        -- destruct (z =? x) eqn:Z; [apply Nat.eqb_eq in Z; congruence|]. cbn. destruct Kk as [-> | ->]; reflexivity.
        -- cbn. destruct Kk as [-> | ->]; reflexivity.
Qed.
End P.
