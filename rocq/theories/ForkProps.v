(** C60: every command gets its own exit status. *)
From Verif Require Import Base ForkModel ForkSpec ForkProofs ForkProofs2 ForkProofs3 ForkProofs4.
Require Import Lia.
Open Scope nat_scope.

(** Whatever the threads, the forking process and the children do, and in
    whatever portions the sockets are read and written: a child is only started
    for a call, with exactly what the call asked for, once; what a call returns is
    how its own child ended, after it ended, once; and a call is only refused
    while another one with the same id is not over. *)
Theorem C60_own_status : forall cap s, steps cap init s -> own_status (hist s).
Proof. exact own_status_holds. Qed.
Print Assumptions C60_own_status.

(** If no child ends, or gets a pid that is still in the tree, between its fork
    and its entry in the tree of children, then there is a bound on what can
    happen without new calls, and until all the calls have returned and both
    processes have ended there is something that can happen. So every call
    returns if its child ends. Without this, see below. *)
Theorem C60_every_call_returns_partial : forall cap s, 0 < cap -> timely cap init s ->
  exists bound, forall n s', goes_on cap n s s' -> n <= bound /\ (~ all_over s' -> exists s'', goes_on cap (S n) s s'').
Proof. exact returns. Qed.
Print Assumptions C60_every_call_returns_partial.

(** The status says how the child ended: with which exit code, or by which
    signal (with or without a core dump). *)
Theorem C60_status_meaning : forall n,
  ((0 <= n < 256)%Z -> decode (256 * n) = Exit n) /\
  ((0 < n < 127)%Z -> decode n = Signal n /\ decode (n + 128) = Signal n).
Proof.
  intros n. unfold decode. change 127%Z with (Z.ones 7). change 255%Z with (Z.ones 8). rewrite !Z.land_ones by lia. rewrite !Z.shiftr_div_pow2 by lia.
  change (2 ^ 7)%Z with 128%Z. change (2 ^ 8)%Z with 256%Z. split.
  - intros R. replace (256 * n)%Z with ((2 * n) * 128)%Z at 1 by lia. rewrite Z.mod_mul by lia. cbn [Z.eqb].
    replace (256 * n)%Z with (n * 256)%Z by lia. rewrite Z.div_mul by lia. rewrite Z.mod_small by lia. reflexivity.
  - change (Z.ones 7) with 127%Z. intros R. replace (n + 128)%Z with (n + 1 * 128)%Z by lia. rewrite Z.mod_add by lia. rewrite (Z.mod_small n 128) by lia.
    change (Z.ones 7) with 127%Z. destruct (Z.eqb_spec n 0); [lia|]. destruct (Z.eqb_spec n 127); [lia|]. auto.
Qed.
Print Assumptions C60_status_meaning.

(** ** Runs *)

Lemma steps_left cap s s' s'' : step cap s s' -> steps cap s' s'' -> steps cap s s''.
Proof. intros St R. induction R as [|s' s1 s2 R IH Q]; [eapply steps_step; [apply steps_refl|exact St]|]. eapply steps_step; [exact (IH St)|exact Q]. Qed.
Lemma timely_left cap s s' s'' : step cap s s' -> in_time s' -> timely cap s' s'' -> timely cap s s''.
Proof. intros St T R. induction R as [|s' s1 s2 R IH Q]; [eapply T_step; [apply T_refl|exact St|exact T]|]. eapply T_step; [exact (IH St T)|exact Q|assumption]. Qed.

Definition rq1 : req := {| sid := 5; flags := [0]%Z; job := B "j"; dir := []; cmd := B "a"; env := []; vardict := [] |}.
Definition rq2 : req := {| sid := 7; flags := [0]%Z; job := []; dir := []; cmd := B "b"; env := []; vardict := [] |}.

Ltac side := first [reflexivity | discriminate | (apply Nat.ltb_lt; reflexivity) | solve [cbn; intros ? []] | solve [cbn; intros ? [<-|[]]; discriminate]].
Ltac norm s := let s' := eval vm_compute in s in change s with s'.
Ltac go tac := eapply steps_left; [tac; side|]; match goal with |- steps _ ?s _ => norm s end.
Ltac quick := intros ? ? ?; cbn; first [discriminate | intros [= <- <- <-]; split; [reflexivity|eexists; split; [left; reflexivity|split; reflexivity]]].
Ltac tgo tac := eapply timely_left; [tac; side|quick|]; match goal with |- timely _ ?s _ => norm s end.

(** Two calls whose children are both started. *)
Ltac both g :=
  g ltac:(apply (S_call 9 _ rq1)); g ltac:(apply (S_call 9 _ rq2));
  g ltac:(eapply (S_lock 9 _ 0)); g ltac:(eapply (S_write 9 _ 0)); g ltac:(eapply (S_write 9 _ 0)); g ltac:(eapply (S_write 9 _ 0)); g ltac:(eapply (S_unlock 9 _ 0));
  g ltac:(eapply (S_lock 9 _ 1)); g ltac:(eapply (S_write 9 _ 1)); g ltac:(eapply (S_write 9 _ 1)); g ltac:(eapply (S_unlock 9 _ 1));
  g ltac:(eapply S_header); g ltac:(eapply S_byte); g ltac:(eapply S_byte); g ltac:(eapply (S_fork 9 _ _ 10)); g ltac:(eapply S_insert);
  g ltac:(eapply S_nonempty).
(** The second child ends first, with another status. *)
Ltac rest_of_run g :=
  g ltac:(eapply S_header); g ltac:(eapply S_byte); g ltac:(eapply (S_fork 9 _ _ 11)); g ltac:(eapply S_insert);
  g ltac:(eapply (S_exit 9 _ [] _ _ 256)); g ltac:(eapply (S_wait 9 _ [])); g ltac:(eapply S_found); g ltac:(eapply S_send); g ltac:(eapply S_nonempty);
  g ltac:(eapply S_notify); g ltac:(eapply (S_return 9 _ 1));
  g ltac:(eapply (S_exit 9 _ [] _ _ 0)); g ltac:(eapply (S_wait 9 _ [])); g ltac:(eapply S_found); g ltac:(eapply S_send);
  g ltac:(eapply S_notify); g ltac:(eapply (S_return 9 _ 0)).

Example ex_run : exists s, timely 9 init s /\ hist s =
  [Returned 0 0; Exited 0 0; Returned 1 256; Exited 1 256; Forked 1 rq2; Forked 0 rq1; Called 1 rq2; Called 0 rq1].
Proof. eexists. split; [both tgo; rest_of_run tgo; apply T_refl|reflexivity]. Qed.
Example ex_run_steps : exists s, steps 9 init s /\ hist s =
  [Returned 0 0; Exited 0 0; Returned 1 256; Exited 1 256; Forked 1 rq2; Forked 0 rq1; Called 1 rq2; Called 0 rq1].
Proof. eexists. split; [both go; rest_of_run go; apply steps_refl|reflexivity]. Qed.
Example ex_status : decode 256 = Exit 1 /\ decode 0 = Exit 0 /\ decode 139 = Signal 11.
Proof. repeat split. Qed.

(** Once the thread that waits for the children has ended, a call without status
    does not return. *)
Record lost (s : state) : Prop := {
  l_w : wph s = WDead;
  l_down : forall x st k, In (x, st, k) (down s) -> x = (-1)%Z;
}.
Lemma lost_step cap s s' i : step cap s s' -> lost s -> (exists c, nth_error (calls s) i = Some c /\ c_set c = None) ->
  (forall st, ~ In (Returned i st) (hist s)) -> lost s' /\ (exists c, nth_error (calls s') i = Some c /\ c_set c = None) /\ (forall st, ~ In (Returned i st) (hist s')).
Proof.
  intros St [Lw Ld] [c0 [Hc Hs]] Nr. destruct St as
    [r Hsh Hsid Hf | r i0 Hsh Hf | j c Hl Hn Hp | j c x rs Hn Hp Hcap | j c Hn Hp | j c st Hn Hp Hse
    | h u Hm Hu Hsid | h l b u Hm Hu | got x u Hm Hu Hx | r pid Hm Hk | r pid k Hm Hf | r pid k e Hm Hf
    | a k b st Hk Hst | Hw Ht He | Hw He | a k b st Hw Hk Hst | Hw Hk | pid st k x k' Hw Hf | pid st k Hw Hf | x st k Hw Hd
    | x st k u j c Hnp Hd Hx Hf Hn | x st k u Hnp Hd Hx Hf | st k u Hnp Hd | Hsh Hfin Hcap | u h Hm Hu Hsid | Hm Hcap | Hm He | Hm He Hw];
  try congruence;
  try (split; [constructor; [first [exact Lw|reflexivity]|exact Ld]|]; split; [exists c0; split; [exact Hc|exact Hs]|]; first [exact Nr|intros st0 [E|E]; [discriminate|exact (Nr _ E)]]).
  - assert (L : i < length (calls s)) by (apply nth_error_Some; congruence).
    split; [now constructor|]. split; [exists c0; cbn; rewrite nth_error_app1; auto|]. cbn. intros st0 [E|E]; [discriminate|exact (Nr _ E)].
  - assert (L : i < length (calls s)) by (apply nth_error_Some; congruence).
    split; [now constructor|]. split; [exists c0; cbn; rewrite nth_error_app1; auto|]. cbn. intros st0 [E|[E|E]]; [discriminate|discriminate|exact (Nr _ E)].
  - split; [now constructor|]. split; [|exact Nr]. cbn. rewrite (nth_set _ _ _ _ Hn). destruct (Nat.eqb_spec i j) as [->|N]; [|now exists c0]. eexists. split; [reflexivity|]. cbn. congruence.
  - split; [now constructor|]. split; [|exact Nr]. cbn. rewrite (nth_set _ _ _ _ Hn). destruct (Nat.eqb_spec i j) as [->|N]; [|now exists c0]. eexists. split; [reflexivity|]. cbn. congruence.
  - split; [now constructor|]. split; [|exact Nr]. cbn. rewrite (nth_set _ _ _ _ Hn). destruct (Nat.eqb_spec i j) as [->|N]; [|now exists c0]. eexists. split; [reflexivity|]. cbn. congruence.
  - assert (N : i <> j) by (intros ->; congruence).
    split; [now constructor|]. split; [|cbn; intros st0 [E|E]; [congruence|exact (Nr _ E)]]. cbn. rewrite (nth_set _ _ _ _ Hn). destruct (Nat.eqb_spec i j); [contradiction|]. now exists c0.
  - exfalso. apply Hx. apply (Ld x st k). rewrite Hd. now left.
  - exfalso. apply Hx. apply (Ld x st k). rewrite Hd. now left.
  - split; [constructor; [exact Lw|]|split; [now exists c0|exact Nr]]. cbn. intros x st' k' I. apply (Ld x st' k'). rewrite Hd. now right.
  - split; [constructor; [exact Lw|]|split; [now exists c0|exact Nr]]. cbn. intros x st' k' I. apply in_app_or in I. destruct I as [I|[I|[]]]; [exact (Ld _ _ _ I)|congruence].
Qed.
Lemma lost_for_ever cap s i : lost s -> (exists c, nth_error (calls s) i = Some c /\ c_set c = None) -> (forall st, ~ In (Returned i st) (hist s)) -> never_returns cap s i.
Proof.
  intros L C N s' st R. assert (Q : lost s' /\ (exists c, nth_error (calls s') i = Some c /\ c_set c = None) /\ (forall st, ~ In (Returned i st) (hist s'))).
  { induction R as [|s0 s1 s2 R IH St]; [auto|]. destruct (IH L C N) as [Q1 [Q2 Q3]]. exact (lost_step cap s1 s2 i St Q1 Q2 Q3). }
  destruct Q as [_ [_ Q]]. apply Q.
Qed.

(** The thread that waits for children may get one that the forking process has
    not yet entered in the tree, if it ends at once and another child is already
    there. It then ends, and neither command is ever reported: the first one, which
    is still running, and the second, which has ended with success. *)
Theorem C60_every_call_returns_refuted : exists cap s, steps cap init s /\
  hist s = [Exited 1 0%Z; Forked 1 rq2; Forked 0 rq1; Called 1 rq2; Called 0 rq1] /\ never_returns cap s 0 /\ never_returns cap s 1.
Proof.
  exists 9. eexists. split.
  - both go. go ltac:(eapply S_header). go ltac:(eapply S_byte). go ltac:(eapply (S_fork 9 _ _ 11)).
    go ltac:(eapply (S_exit 9 _ [] _ _ 0)). go ltac:(eapply (S_wait 9 _ [])). go ltac:(eapply S_lost). apply steps_refl.
  - split; [reflexivity|]. split; (apply lost_for_ever; [constructor; [reflexivity|intros x st k []]|eexists; split; reflexivity|]);
      cbn; intros st I; repeat (destruct I as [I|I]; [discriminate|]); exact I.
Qed.
Print Assumptions C60_every_call_returns_refuted.

(** A pid can be used again as soon as its child has been waited for, while the
    entry of that child is still in the tree: the forking process then gives up. *)
Theorem C60_pid_reuse_refuted : exists cap s, steps cap init s /\
  hist s = [Forked 1 rq2; Exited 0 0%Z; Forked 0 rq1; Called 1 rq2; Called 0 rq1] /\ mph s = MDead /\ never_returns cap s 0 /\ never_returns cap s 1.
Proof.
  exists 9. eexists. split.
  - both go. go ltac:(eapply (S_exit 9 _ [] _ _ 0)). go ltac:(eapply (S_wait 9 _ [])). go ltac:(eapply S_header). go ltac:(eapply S_byte). go ltac:(eapply (S_fork 9 _ _ 10)).
    go ltac:(eapply S_twice). apply steps_refl.
  - split; [reflexivity|]. split; [reflexivity|]. split; (apply lost_for_ever; [constructor; [reflexivity|intros x st k []]|eexists; split; reflexivity|]);
      cbn; intros st I; repeat (destruct I as [I|I]; [discriminate|]); exact I.
Qed.
Print Assumptions C60_pid_reuse_refuted.
