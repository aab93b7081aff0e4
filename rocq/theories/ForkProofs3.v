(** Proofs about [ForkModel]: what happened. *)
From Verif Require Import Base ForkModel ForkSpec ForkProofs ForkProofs2.
Require Import Lia.
Open Scope nat_scope.

Definition just (o : list nat) (before : list event) (e : event) : Prop :=
  match e with
  | Called i r => forall r', ~ In (Called i r') before
  | Refused i => exists r j r', In (Called i r) before /\ j <> i /\ In (Called j r') before /\ sid r' = sid r /\ forall st, ~ In (Returned j st) before
  | Forked k r => (exists i, nth_error o k = Some i /\ In (Called i r) before) /\ forall r', ~ In (Forked k r') before
  | Exited k st => (exists r, In (Forked k r) before) /\ forall st', ~ In (Exited k st') before
  | Returned i st => exists k r, nth_error o k = Some i /\ In (Called i r) before /\ In (Forked k r) before /\ In (Exited k st) before /\
      forall st', ~ In (Returned i st') before
  end.
Fixpoint justs (o : list nat) (h : list event) : Prop := match h with [] => True | e :: h' => just o h' e /\ justs o h' end.
Lemma justs_split o h : justs o h -> forall h1 e h2, h = h1 ++ e :: h2 -> just o h2 e.
Proof.
  induction h as [|a h IH]; intros J h1 e h2 E; [destruct h1; discriminate|]. destruct J as [J1 J2].
  destruct h1 as [|b h1]; cbn in E; injection E as -> E; [now rewrite E in J1|now apply (IH J2 h1)].
Qed.
Lemma justs_mono o x h : justs o h -> justs (o ++ [x]) h.
Proof.
  assert (M : forall k i, nth_error o k = Some i -> nth_error (o ++ [x]) k = Some i).
  { intros k i E. rewrite nth_error_app1; [exact E|]. apply nth_error_Some. congruence. }
  induction h as [|e h IH]; [auto|]. intros [J1 J2]. split; [|auto]. destruct e; auto.
  - destruct J1 as [[i [P Q]] R]. split; eauto.
  - destruct J1 as [k [r [P Q]]]. exists k, r. auto.
Qed.

Record invD (s : state) : Prop := {
  d_called : forall i r, In (Called i r) (hist s) <-> rq s i = Some r;
  d_forked : forall k r, In (Forked k r) (hist s) <-> k < forks s /\ exists i, nth_error (order s) k = Some i /\ rq s i = Some r;
  d_returned : forall i st, In (Returned i st) (hist s) -> ph s i = Some CDone;
  d_just : justs (order s) (hist s);
}.
Lemma invD_init : invD init.
Proof.
  constructor; cbn; try tauto.
  - intros i r. split; [intros []|]. unfold rq. destruct i; discriminate.
  - intros k r. split; [intros []|]. lia.
Qed.
Lemma invD_same s s' : (forall i, rq s' i = rq s i) -> (forall i, ph s i = Some CDone -> ph s' i = Some CDone) -> hist s' = hist s -> order s' = order s -> forks s' = forks s -> invD s -> invD s'.
Proof.
  intros E1 E2 E3 E4 E5 [P Q R J]. constructor; rewrite ?E3, ?E4, ?E5; auto.
  - intros i r. now rewrite E1.
  - intros k r. rewrite Q. split; intros [L [i [A C]]]; (split; [exact L|]); exists i; (split; [exact A|]); [now rewrite E1|now rewrite <- E1].
  - intros i st I. apply E2. eauto.
Qed.
Lemma fresh_call s : invD s -> forall r, ~ In (Called (length (calls s)) r) (hist s).
Proof.
  intros Iv r I. apply (d_called s Iv) in I. unfold rq in I. rewrite (proj2 (nth_error_None (calls s) (length (calls s)))) in I; [discriminate|lia].
Qed.

Lemma invD_step cap s s' : step cap s s' -> invA s -> invB s -> invC s -> invD s -> invD s'.
Proof.
  intros St IA IB IC Iv. destruct St as
    [r Hsh Hsid Hf | r i0 Hsh Hf | i c Hl Hn Hp | i c x rs Hn Hp Hc | i c Hn Hp | i c st Hn Hp Hse
    | h u Hm Hu Hsid | h l b u Hm Hu | got x u Hm Hu Hx | r pid Hm Hk | r pid k Hm Hf | r pid k e Hm Hf
    | a k b st Hk Hst | Hw Ht He | Hw He | a k b st Hw Hk Hst | Hw Hk | pid st k x k' Hw Hf | pid st k Hw Hf | x st k Hw Hd
    | x st k u i c Hnp Hd Hx Hf Hn | x st k u Hnp Hd Hx Hf | st k u Hnp Hd | Hsh Hfin Hc | u h Hm Hu Hsid | Hm Hc | Hm He | Hm He Hw];
  try (apply (invD_same s); [intros; reflexivity|intros; assumption|reflexivity..|exact Iv]).
  - (* S_call *)
    pose proof (fresh_call s Iv) as Fr. set (s' := note _ _).
    assert (Eph : forall j, ph s' j = if j =? length (calls s) then Some CNew else ph s j) by (intros j; unfold ph, s'; cbn; rewrite nth_snoc; now destruct (j =? _)).
    assert (Erq : forall j, rq s' j = if j =? length (calls s) then Some r else rq s j) by (intros j; unfold rq, s'; cbn; rewrite nth_snoc; now destruct (j =? _)).
    destruct Iv as [P Q R J]. constructor.
    + intros i r'. rewrite Erq. cbn [hist s' note In]. rewrite P. destruct (Nat.eqb_spec i (length (calls s))) as [->|N].
      * split; [intros [E|E]; [congruence|]|intros [= <-]; now left]. exfalso. apply P in E. exact (Fr _ E).
      * split; [intros [E|E]; [congruence|exact E]|now right].
    + intros k r'. cbn [hist s' note In]. change (forks s') with (forks s). change (order s') with (order s).
      transitivity (In (Forked k r') (hist s)); [split; [intros [E|E]; [discriminate|exact E]|now right]|]. rewrite Q.
      split; intros [L [i [A C]]]; (split; [exact L|]); exists i; (split; [exact A|]); pose proof (order_lt s k i IA A); rewrite Erq in *; destruct (Nat.eqb_spec i (length (calls s))); try lia; exact C.
    + intros i st [E|E]; [discriminate|]. rewrite Eph. pose proof (R i st E) as D. pose proof (ph_lt _ _ _ D). destruct (Nat.eqb_spec i (length (calls s))); [lia|exact D].
    + split; [exact Fr|exact J].
  - (* S_refuse *)
    pose proof (fresh_call s Iv) as Fr. set (s' := note _ _).
    assert (Eph : forall j, ph s' j = if j =? length (calls s) then Some CFail else ph s j) by (intros j; unfold ph, s'; cbn; rewrite nth_snoc; now destruct (j =? _)).
    assert (Erq : forall j, rq s' j = if j =? length (calls s) then Some r else rq s j) by (intros j; unfold rq, s'; cbn; rewrite nth_snoc; now destruct (j =? _)).
    destruct Iv as [P Q R J]. constructor.
    + intros i r'. rewrite Erq. cbn [hist s' note In]. rewrite P. destruct (Nat.eqb_spec i (length (calls s))) as [->|N].
      * split; [intros [E|[E|E]]; [discriminate|congruence|]|intros [= <-]; right; now left]. exfalso. apply P in E. exact (Fr _ E).
      * split; [intros [E|[E|E]]; [discriminate|congruence|exact E]|auto].
    + intros k r'. cbn [hist s' note In]. change (forks s') with (forks s). change (order s') with (order s).
      transitivity (In (Forked k r') (hist s)); [split; [intros [E|[E|E]]; [discriminate|discriminate|exact E]|auto]|]. rewrite Q.
      split; intros [L [i [A C]]]; (split; [exact L|]); exists i; (split; [exact A|]); pose proof (order_lt s k i IA A); rewrite Erq in *; destruct (Nat.eqb_spec i (length (calls s))); try lia; exact C.
    + intros i st [E|[E|E]]; [discriminate|discriminate|]. rewrite Eph. pose proof (R i st E) as D. pose proof (ph_lt _ _ _ D). destruct (Nat.eqb_spec i (length (calls s))); [lia|exact D].
    + apply find_sid_in in Hf. apply (b_root s IB) in Hf. destruct Hf as [r' [F1 [F2 [F3 _]]]].
      assert (Ni : i0 <> length (calls s)) by (intros ->; apply (Fr r'); now apply P).
      split; [|split; [exact Fr|exact J]]. exists r, i0, r'. split; [now left|]. split; [exact Ni|]. split; [right; now apply P|]. split; [exact F2|].
      intros st [E|E]; [discriminate|]. apply R in E. destruct (b_done s IB _ E) as [st' E']. congruence.
  - (* S_lock *)
    set (s' := set_order _ _).
    assert (Erq : forall j, rq s' j = rq s j) by (intros j; exact (upd_rq s i c (with_ph c _) Hn eq_refl j)).
    assert (Eph : forall j, ph s' j = if j =? i then Some (CWrite (enc (c_req c))) else ph s j) by (intros j; exact (upd_ph s i c (with_ph c _) Hn j)).
    destruct Iv as [P Q R J]. constructor.
    + intros j r. rewrite Erq. apply P.
    + intros k r. change (hist s') with (hist s). rewrite Q. change (forks s') with (forks s). change (order s') with (order s ++ [i]). pose proof (a_forks s IA).
      split; intros [L [j [A C]]]; (split; [exact L|]); exists j; rewrite Erq in *; (split; [|exact C]); rewrite nth_error_app1 in *; auto; lia.
    + intros j st I. rewrite Eph. pose proof (R j st I) as D. destruct (Nat.eqb_spec j i) as [->|N]; [|exact D]. rewrite (ph_of _ _ _ Hn), Hp in D. discriminate.
    + apply justs_mono. exact J.
  - (* S_write *)
    apply (invD_same s); try reflexivity; [intros j; exact (upd_rq s i c (with_ph c _) Hn eq_refl j)| |exact Iv].
    intros j E. transitivity (if j =? i then Some (CWrite rs) else ph s j); [exact (upd_ph s i c (with_ph c _) Hn j)|]. destruct (Nat.eqb_spec j i) as [->|N]; [|exact E].
    rewrite (ph_of _ _ _ Hn), Hp in E. discriminate.
  - (* S_unlock *)
    apply (invD_same s); try reflexivity; [intros j; exact (upd_rq s i c (with_ph c _) Hn eq_refl j)| |exact Iv].
    intros j E. transitivity (if j =? i then Some CWait else ph s j); [exact (upd_ph s i c (with_ph c _) Hn j)|]. destruct (Nat.eqb_spec j i) as [->|N]; [|exact E].
    rewrite (ph_of _ _ _ Hn), Hp in E. discriminate.
  - (* S_return *)
    set (s' := note _ _).
    assert (Erq : forall j, rq s' j = rq s j) by (intros j; exact (upd_rq s i c (with_ph c _) Hn eq_refl j)).
    assert (Eph : forall j, ph s' j = if j =? i then Some CDone else ph s j) by (intros j; exact (upd_ph s i c (with_ph c _) Hn j)).
    destruct Iv as [P Q R J]. constructor.
    + intros j r. rewrite Erq, <- P. cbn. split; [intros [E|E]; [discriminate|exact E]|now right].
    + intros k r. transitivity (In (Forked k r) (hist s)); [cbn; split; [intros [E|E]; [discriminate|exact E]|now right]|]. rewrite Q.
      split; intros [L [j [A C]]]; (split; [exact L|]); exists j; rewrite Erq in *; auto.
    + intros j st' I. rewrite Eph. destruct (Nat.eqb_spec j i) as [->|N]; [reflexivity|]. destruct I as [E|I]; [congruence|eauto].
    + split; [|exact J]. destruct (c_isset s IC i st) as [k [Q1 [Q2 Q3]]]; [now rewrite (se_of _ _ _ Hn), Hse|].
      pose proof (rq_of _ _ _ Hn) as Er. exists k, (c_req c). split; [exact Q1|]. split; [now apply P|]. split; [apply Q; eauto|]. split; [exact Q3|].
      intros st' I. apply R in I. rewrite (ph_of _ _ _ Hn), Hp in I. discriminate.
  - (* S_fork *)
    set (s' := note _ _). pose proof (a_reads s IA) as R0. unfold reads in R0. rewrite Hm in R0. destruct R0 as [[i [R1 R2]] _].
    destruct Iv as [P Q R J]. constructor.
    + intros j r'. change (rq s' j) with (rq s j). rewrite <- P. cbn. split; [intros [E|E]; [discriminate|exact E]|now right].
    + intros k r'. cbn [hist s' note In]. change (forks s') with (S (forks s)). change (order s') with (order s). split.
      * intros [E|E]; [injection E as <- <-; split; [lia|]; now exists i|]. apply Q in E. destruct E as [L E]. split; [lia|exact E].
      * intros [L [j [A C]]]. destruct (Nat.eq_dec k (forks s)) as [->|N].
        -- left. change (rq s' j) with (rq s j) in C. congruence.
        -- right. apply Q. split; [lia|]. now exists j.
    + intros j st [E|E]; [discriminate|eauto].
    + split; [|exact J]. split.
      * exists i. split; [exact R1|]. now apply P.
      * intros r' I. apply Q in I. lia.
  - (* S_exit *)
    set (s' := note _ _).
    assert (Hin : In k (kids s)) by (rewrite Hk; apply in_or_app; right; now left).
    pose proof (c_kid s IC k Hin) as Hex. rewrite Hst in Hex.
    assert (Hlt : k_no k < forks s) by (apply (c_lt s IC); unfold toks; apply in_or_app; left; now apply in_map).
    destruct Iv as [P Q R J]. constructor.
    + intros j r'. change (rq s' j) with (rq s j). rewrite <- P. cbn. split; [intros [E|E]; [discriminate|exact E]|now right].
    + intros n r'. transitivity (In (Forked n r') (hist s)); [|exact (Q n r')]. cbn. split; [intros [E|E]; [discriminate|exact E]|now right].
    + intros j st' [E|E]; [discriminate|eauto].
    + split; [|exact J]. split; [|exact Hex]. pose proof (a_forks s IA).
      destruct (nth_error (order s) (k_no k)) as [i|] eqn:En; [|apply nth_error_None in En; lia].
      pose proof (nth_error_In _ _ En) as Ho. apply (a_order s IA) in Ho. destruct Ho as [p [Ho _]]. destruct (ph_rq _ _ _ Ho) as [r Er].
      exists r. apply Q. split; [exact Hlt|]. now exists i.
  - (* S_notify *)
    set (c' := {| c_req := c_req c; c_ph := c_ph c; c_set := Some st |}).
    apply (invD_same s); try reflexivity; [intros j; exact (upd_rq s i c c' Hn eq_refl j)| |exact Iv].
    intros j E. transitivity (if j =? i then Some (c_ph c') else ph s j); [exact (upd_ph s i c c' Hn j)|]. destruct (Nat.eqb_spec j i) as [->|N]; [|exact E].
    now rewrite (ph_of _ _ _ Hn) in E.
Qed.

Definition inv (s : state) : Prop := invA s /\ invB s /\ invC s /\ invD s.
Lemma inv_step cap s s' : step cap s s' -> inv s -> inv s'.
Proof.
  intros St [IA [IB [IC ID]]]. split; [exact (invA_step cap s s' St IA)|]. split; [exact (invB_step cap s s' St IB)|].
  split; [exact (invC_step cap s s' St IA IB IC)|exact (invD_step cap s s' St IA IB IC ID)].
Qed.
Lemma inv_init : inv init.
Proof. split; [exact invA_init|]. split; [exact invB_init|]. split; [exact invC_init|exact invD_init]. Qed.
Lemma inv_steps cap s s' : steps cap s s' -> inv s -> inv s'.
Proof. induction 1; [auto|]. intros I. apply (inv_step cap s'); auto. Qed.

Fixpoint pos (i : nat) (o : list nat) : nat := match o with [] => i | j :: o' => if j =? i then 0 else S (pos i o') end.
Lemma pos_nth o i k : NoDup o -> nth_error o k = Some i -> pos i o = k.
Proof.
  revert k. induction o as [|j o IH]; intros [|k] N E; cbn in *; try discriminate.
  - injection E as ->. now rewrite Nat.eqb_refl.
  - inversion N; subst. destruct (Nat.eqb_spec j i) as [->|Nj]; [exfalso; apply H1; now apply nth_error_In in E|]. now rewrite (IH k).
Qed.
Lemma pos_in o i : In i o -> nth_error o (pos i o) = Some i.
Proof. induction o as [|j o IH]; cbn; [intros []|]. destruct (Nat.eqb_spec j i) as [->|N]; [reflexivity|]. intros [E|I]; [contradiction|]. cbn. auto. Qed.
Lemma pos_out o i : ~ In i o -> pos i o = length o + i.
Proof. induction o as [|j o IH]; cbn; [reflexivity|]. intros N. destruct (Nat.eqb_spec j i) as [->|Nj]; [exfalso; auto|]. rewrite IH; auto. Qed.
Lemma pos_inj o i j : pos i o = pos j o -> i = j.
Proof.
  intros E. destruct (in_dec Nat.eq_dec i o) as [I|I], (in_dec Nat.eq_dec j o) as [J|J].
  - apply pos_in in I, J. congruence.
  - pose proof (pos_in _ _ I) as Q. rewrite E, (pos_out _ _ J) in Q. assert (length o + j < length o) by (apply nth_error_Some; congruence). lia.
  - pose proof (pos_in _ _ J) as Q. rewrite <- E, (pos_out _ _ I) in Q. assert (length o + i < length o) by (apply nth_error_Some; congruence). lia.
  - rewrite !pos_out in E by assumption. lia.
Qed.

Theorem own_status_holds cap s : steps cap init s -> own_status (hist s).
Proof.
  intros R. destruct (inv_steps cap _ _ R inv_init) as [IA [_ [_ ID]]].
  exists (fun i => pos i (order s)). split; [apply pos_inj|].
  intros h1 e h2 E. pose proof (justs_split _ _ (d_just s ID) _ _ _ E) as J. destruct e; auto.
  - destruct J as [[i [P Q]] F]. split; [|exact F]. exists i. split; [|exact Q]. apply pos_nth; [exact (a_nodup s IA)|exact P].
  - destruct J as [k [r [P Q]]]. exists r. rewrite (pos_nth _ _ _ (a_nodup s IA) P). exact Q.
Qed.
