From Verif Require Import ProgressModel ProgressSpec.
Require Import ZArith List Permutation Lia Bool.
Import ListNotations.
Open Scope Z_scope.

Lemma int_small z : -2147483648 <= z < 2147483648 -> int z = z.
Proof. intros H. unfold int. rewrite Z.mod_small by lia. lia. Qed.
Lemma add_app a b : add (a ++ b) = add a + add b.
Proof. unfold add. induction a as [|x a IH]; cbn; [lia|]. rewrite IH. lia. Qed.
Lemma add_perm a b : Permutation a b -> add a = add b.
Proof. unfold add. induction 1; cbn; lia. Qed.
Lemma add_pos l : known l -> 0 <= add l.
Proof. unfold add. induction 1; cbn; lia. Qed.
Lemma ran_skipped h : ran h + skipped h = add (map time_of h).
Proof. unfold ran, skipped, add. induction h as [|[t|t] h IH]; cbn; lia. Qed.
Lemma ran_pos h : known (map time_of h) -> 0 <= ran h.
Proof. unfold ran, add, known. induction h as [|[t|t] h IH]; cbn; intros K; [lia|inversion K; subst; specialize (IH H2); lia..]. Qed.
Lemma skipped_pos h : known (map time_of h) -> 0 <= skipped h.
Proof. unfold skipped, add, known. induction h as [|[t|t] h IH]; cbn; intros K; [lia|inversion K; subst; specialize (IH H2); lia..]. Qed.
Lemma ran_app a b : ran (a ++ b) = ran a + ran b.
Proof. unfold ran. rewrite map_app. apply add_app. Qed.
Lemma skipped_app a b : skipped (a ++ b) = skipped a + skipped b.
Proof. unfold skipped. rewrite map_app. apply add_app. Qed.
Lemma after_snoc n t h e : progress_after n t (h ++ [e]) = step (progress_after n t h) e.
Proof. unfold progress_after. apply fold_left_app. Qed.
Lemma mtime_known_from js : forall a, 0 <= a -> known js ->
  fold_left (fun a t => if a =? -1 then a else if t =? -1 then -1 else a + t) js a = a + add js.
Proof.
  induction js as [|t js IH]; intros a A K; cbn [fold_left]; [cbn; lia|]. inversion K; subst. pose proof (add_pos js H2). cbn. fold (add js). destruct (a =? -1) eqn:Q; [apply Z.eqb_eq in Q; lia|]. destruct (t =? -1) eqn:Q2; [apply Z.eqb_eq in Q2; lia|].
  rewrite IH; [lia|lia|assumption].
Qed.
Lemma mtime_known js : known js -> total_mtime js = add js.
Proof. intros K. unfold total_mtime. rewrite mtime_known_from; [lia|lia|exact K]. Qed.

Lemma counts_sum n t h : Z.of_nat (length h) < 2147483648 -> sum (progress_after n t h) = Z.of_nat (length h) /\ total (progress_after n t h) = int n.
Proof.
  induction h as [|e h IH] using rev_ind; intros L; [split; reflexivity|]. rewrite app_length in *. cbn [length] in *. rewrite after_snoc. destruct IH as [S T]; [lia|]. destruct e; cbn [step show_result skip_result sum total]; rewrite S, int_small by lia; split; try exact T; lia.
Qed.
Lemma counts_known n t h : known (map time_of h) -> add (map time_of h) < 2147483648 -> 0 <= t < 2147483648 ->
  job_time (progress_after n t h) = ran h /\ total_time (progress_after n t h) = t - skipped h.
Proof.
  intros K L T. induction h as [|e h IH] using rev_ind; [split; [reflexivity|cbn; rewrite int_small by lia; lia]|]. rewrite map_app, add_app in *. apply Forall_app in K as [K1 K2]. pose proof (add_pos _ K2) as P2. pose proof (add_pos _ K1) as P1. destruct IH as [I J]; [exact K1|lia|].
  rewrite after_snoc, ran_app, skipped_app. pose proof (ran_skipped h) as RS. pose proof (ran_pos h K1). pose proof (skipped_pos h K1). destruct e as [u|u]; cbn [step show_result skip_result job_time total_time]; inversion K2; subst; cbn in L, P2 |- *; rewrite ?I, ?J; split; rewrite ?int_small; lia.
Qed.
Lemma unknown_time n h : known (map time_of h) -> add (map time_of h) < 2147483647 -> total_time (progress_after n (-1) h) = -1 - skipped h.
Proof.
  intros K L. induction h as [|e h IH] using rev_ind; [reflexivity|]. rewrite map_app, add_app in *. apply Forall_app in K as [K1 K2]. pose proof (add_pos _ K2) as P2. pose proof (add_pos _ K1) as P1. rewrite after_snoc, skipped_app. pose proof (ran_skipped h) as RS. pose proof (ran_pos h K1). pose proof (skipped_pos h K1).
  destruct e as [u|u]; cbn [step show_result skip_result total_time]; inversion K2; subst; cbn in L, P2; [change (skipped [Ran u]) with 0|replace (skipped [Skipped u]) with u by (unfold skipped; cbn; lia)]; rewrite IH by (assumption || lia); rewrite ?int_small; lia.
Qed.

Section J.
Variable js : list Z.
Hypothesis K : known js.
Hypothesis F : fits js.
Notation after h := (progress_after (Z.of_nat (length js)) (total_mtime js) h).
Lemma facts h rest : so_far js h rest -> known (map time_of h) /\ known rest /\ add js = ran h + skipped h + add rest /\ length js = (length h + length rest)%nat.
Proof.
  intros P. assert (known (map time_of h ++ rest)) as K' by (eapply Permutation_Forall; [apply Permutation_sym; exact P|exact K]). apply Forall_app in K' as [K1 K2]. split; [exact K1|]. split; [exact K2|]. split.
  - rewrite ran_skipped, <- add_app. symmetry. apply add_perm. exact P.
  - apply Permutation_length in P. rewrite app_length, map_length in P. lia.
Qed.
(** The percentage in terms of the history. *)
Lemma percent_is h rest : so_far js h rest -> js <> [] ->
  percent_complete (after h) = if 0 <? ran h + add rest then ran h * 100 / (ran h + add rest) else Z.of_nat (length h) * 100 / Z.of_nat (length js).
Proof.
  intros P Ne. destruct (facts h rest P) as [K1 [K2 [A L]]]. destruct F as [F1 F2]. pose proof (ran_pos h K1). pose proof (skipped_pos h K1). pose proof (add_pos rest K2). pose proof (ran_skipped h).
  rewrite mtime_known by exact K. destruct (counts_sum (Z.of_nat (length js)) (add js) h ltac:(lia)) as [S T]. destruct (counts_known (Z.of_nat (length js)) (add js) h K1 ltac:(lia) ltac:(lia)) as [J U].
  unfold percent_complete. rewrite S, T, J, U. rewrite int_small by lia. assert (Z.of_nat (length js) =? 0 = false) as -> by (apply Z.eqb_neq; destruct js; [contradiction|cbn; lia]).
  replace (add js - skipped h) with (ran h + add rest) by lia. rewrite !int_small by lia. destruct (0 <? ran h + add rest) eqn:Q.
  - apply Z.ltb_lt in Q. apply Z.quot_div_nonneg; lia.
  - apply Z.quot_div_nonneg; [lia|]. destruct js; [contradiction|cbn; lia].
Qed.
End J.
