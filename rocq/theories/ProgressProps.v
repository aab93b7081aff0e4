(** C74: the progress bar says how much of the work is done. *)
From Verif Require Import ProgressModel ProgressSpec ProgressProofs.
Require Import ZArith List Permutation Lia Bool.
Import ListNotations.
Open Scope Z_scope.

(** If the time of every command is known, the percentage is that of the time that has been worked off,
    without the commands that turned out to be superfluous; if these times are all 0, the commands
    are counted. *)
Theorem C74_exact js h rest : known js -> fits js -> js <> [] -> so_far js h rest ->
  let p := percent_complete (progress_after (Z.of_nat (length js)) (total_mtime js) h) in
  let work := ran h + add rest in
  (0 < work -> p * work <= 100 * ran h < (p + 1) * work) /\
  (work = 0 -> p * Z.of_nat (length js) <= 100 * Z.of_nat (length h) < (p + 1) * Z.of_nat (length js)).
Proof.
  intros K F Ne P p work. unfold p. rewrite (percent_is js K F h rest P Ne). fold work. split; intros W.
  - rewrite (proj2 (Z.ltb_lt 0 work) W). pose proof (Z.div_mod (ran h * 100) work ltac:(lia)). pose proof (Z.mod_pos_bound (ran h * 100) work W). nia.
  - rewrite W. change (0 <? 0) with false. cbn iota. assert (0 < Z.of_nat (length js)) as Q by (destruct js; [contradiction|cbn; lia]). pose proof (Z.div_mod (Z.of_nat (length h) * 100) (Z.of_nat (length js)) ltac:(lia)). pose proof (Z.mod_pos_bound (Z.of_nat (length h) * 100) _ Q). nia.
Qed.
Print Assumptions C74_exact.

(** It is never outside 0 and 100, and it is 100 when all is done. *)
Theorem C74_range js h rest : known js -> fits js -> js <> [] -> so_far js h rest ->
  let p := percent_complete (progress_after (Z.of_nat (length js)) (total_mtime js) h) in
  0 <= p <= 100 /\ (rest = [] -> p = 100).
Proof.
  intros K F Ne P p. destruct (facts js K h rest P) as [K1 [K2 [A L]]]. pose proof (ran_pos h K1) as R0. pose proof (add_pos rest K2) as A0. unfold p. rewrite (percent_is js K F h rest P Ne). destruct (0 <? ran h + add rest) eqn:Q.
  - apply Z.ltb_lt in Q. split; [split; [apply Z.div_pos; lia|apply Z.div_le_upper_bound; nia]|]. intros ->. cbn in *. rewrite Z.add_0_r in *. rewrite Z.mul_comm. apply Z.div_mul. lia.
  - assert (0 < Z.of_nat (length js)) as W by (destruct js; [contradiction|cbn; lia]). split; [split; [apply Z.div_pos; lia|apply Z.div_le_upper_bound; lia]|]. intros ->. cbn [length] in L. rewrite Nat.add_0_r in L. rewrite L, Z.mul_comm. apply Z.div_mul. lia.
Qed.
Print Assumptions C74_range.

(** It never goes back, whether the next command runs or is skipped. *)
Theorem C74_forward js h e rest : known js -> fits js -> so_far js (h ++ [e]) rest ->
  percent_complete (progress_after (Z.of_nat (length js)) (total_mtime js) h) <=
  percent_complete (progress_after (Z.of_nat (length js)) (total_mtime js) (h ++ [e])).
Proof.
  intros K F P. assert (js <> []) as Ne. { intros ->. apply Permutation_sym, Permutation_nil in P. rewrite map_app, <- app_assoc in P. destruct (map time_of h); discriminate. }
  assert (so_far js h (time_of e :: rest)) as P'. { unfold so_far in *. rewrite map_app, <- app_assoc in P. exact P. }
  destruct (facts js K h _ P') as [K1 [K2 [A L]]]. inversion K2 as [|? ? Ke K3]; subst. pose proof (ran_pos h K1) as R0. pose proof (add_pos rest K3) as A0.
  rewrite (percent_is js K F h _ P' Ne), (percent_is js K F _ rest P Ne). rewrite ran_app, app_length. change (add (time_of e :: rest)) with (time_of e + add rest). cbn [length].
  assert (0 < Z.of_nat (length js)) as W by (destruct js; [contradiction|cbn; lia]).
  assert (ran [e] = 0 \/ ran [e] = time_of e) as Re by (destruct e; unfold ran; cbn; lia).
  destruct (0 <? ran h + (time_of e + add rest)) eqn:Q; destruct (0 <? ran h + ran [e] + add rest) eqn:Q2; try apply Z.ltb_lt in Q; try apply Z.ltb_lt in Q2; try apply Z.ltb_ge in Q; try apply Z.ltb_ge in Q2.
  - destruct e as [t|t]; cbn [time_of] in *; [replace (ran [Ran t]) with t in * by (unfold ran; cbn; lia)|change (ran [Skipped t]) with 0 in *].
    + rewrite Z.add_assoc. apply Z.div_le_mono; lia.
    + rewrite !Z.add_0_r in *. apply Z.div_le_compat_l; lia.
  - assert (ran h = 0) as R1 by lia. rewrite R1, Z.mul_0_l, Z.div_0_l by lia. apply Z.div_pos; lia.
  - lia.
  - apply Z.div_le_mono; lia.
Qed.
Print Assumptions C74_forward.

(** If some command has no recorded time yet, the commands are counted. *)
Theorem C74_unknown n h : 0 < n -> 100 * n < 2147483648 -> Z.of_nat (length h) <= n -> known (map time_of h) -> add (map time_of h) < 2147483647 ->
  let p := percent_complete (progress_after n (-1) h) in
  p * n <= 100 * Z.of_nat (length h) < (p + 1) * n /\ 0 <= p <= 100.
Proof.
  intros N B L K A p. unfold p, percent_complete. destruct (counts_sum n (-1) h ltac:(lia)) as [-> ->]. rewrite (unknown_time n h K A). rewrite int_small by lia. rewrite (proj2 (Z.eqb_neq n 0)) by lia. pose proof (skipped_pos h K). destruct (0 <? -1 - skipped h) eqn:Q; [apply Z.ltb_lt in Q; lia|].
  rewrite int_small by lia. rewrite Z.quot_div_nonneg by lia. pose proof (Z.div_mod (Z.of_nat (length h) * 100) n ltac:(lia)). pose proof (Z.mod_pos_bound (Z.of_nat (length h) * 100) n N). split; [nia|]. split; [apply Z.div_pos; lia|apply Z.div_le_upper_bound; lia].
Qed.
Print Assumptions C74_unknown.

(** The part of the bar that is filled lies in the bar, and the bar in the console. *)
Theorem C74_bar js h rest w : known js -> fits js -> js <> [] -> so_far js h rest -> 10 <= w -> 100 * w < 2147483648 ->
  let (fill, len) := bar w (progress_after (Z.of_nat (length js)) (total_mtime js) h) in 0 <= fill <= len /\ 0 < len <= w - 9.
Proof.
  intros K F Ne P W W2. destruct (facts js K h rest P) as [K1 [K2 [A L]]]. destruct (C74_range js h rest K F Ne P) as [R _]. cbv zeta in R. pose proof F as [F1 F2].
  destruct (counts_sum (Z.of_nat (length js)) (total_mtime js) h ltac:(lia)) as [S T]. unfold bar. rewrite S, T, int_small by lia. set (q := percent_complete _) in *. assert (0 < Z.of_nat (length js)) as J by (destruct js; [contradiction|cbn; lia]).
  assert (forall m, 0 < m <= w - 9 -> 0 <= Z.quot (int (m * q)) 100 <= m) as X. { intros m Hm. rewrite int_small by nia. rewrite Z.quot_div_nonneg by nia. split; [apply Z.div_pos; nia|apply Z.div_le_upper_bound; nia]. }
  destruct (Z.of_nat (length js) <? w - 9) eqn:Q.
  - apply Z.ltb_lt in Q. rewrite Z.eqb_refl. lia.
  - apply Z.ltb_ge in Q. destruct (w - 9 =? Z.of_nat (length js)) eqn:Q2; [apply Z.eqb_eq in Q2; lia|]. split; [apply X|]; lia.
Qed.
Print Assumptions C74_bar.

(** C74_range and C74_bar fail for builds that take more than 5.97 hours of work (on all processors
    together): the percentage becomes negative, and so does the number of characters to fill. *)
Theorem C74_overflow_refuted : exists js h rest, known js /\ so_far js h rest /\ add js < 2147483648 /\
  let p := progress_after (Z.of_nat (length js)) (total_mtime js) h in
  percent_complete p < 0 /\ fst (bar 80 p) < 0.
Proof.
  exists (repeat 220000 100), (map Ran (repeat 220000 99)), [220000].
  split; [apply Forall_forall; intros t H; apply repeat_spec in H; lia|]. split; [|vm_compute; auto]. unfold so_far. rewrite map_map. cbn [time_of]. rewrite map_id. change 100%nat with (99 + 1)%nat. rewrite repeat_app. apply Permutation_refl.
Qed.
Print Assumptions C74_overflow_refuted.

(** With a command of unknown time the figures are marked as approximate, but only until a command is
    skipped; from then on they are taken for exact, and the total time is negative. *)
Theorem C74_approximate_refuted n : 
  approximate (progress_after n (total_mtime [-1; 5]) []) = true /\
  forall t, 0 < t < 2147483647 -> approximate (progress_after n (-1) [Skipped t]) = false /\ total_time (progress_after n (-1) [Skipped t]) < 0.
Proof.
  split; [reflexivity|]. intros t H. unfold approximate, progress_after. cbn [fold_left step skip_result start_progress total_time]. change (int (-1)) with (-1). rewrite int_small by lia. split; [apply Z.eqb_neq|]; lia.
Qed.
Print Assumptions C74_approximate_refuted.

(** The recorded time of a command is right up to a millisecond and a half; it is the nearest one if
    the microseconds do not go back by more than 500. *)
Theorem C74_milliseconds ts : normal (start ts) -> normal (end_ ts) ->
  -500 < 1000 * timespan_milliseconds ts - elapsed ts <= 1499 /\
  (tv_usec (start ts) - 500 <= tv_usec (end_ ts) -> 1000 * timespan_milliseconds ts - elapsed ts <= 500) /\
  (0 <= elapsed ts -> 0 <= timespan_milliseconds ts).
Proof.
  unfold normal, elapsed, us, timespan_milliseconds. destruct ts as [[s1 u1] [s2 u2]]; cbn [start end_ tv_sec tv_usec]. intros A C.
  pose proof (Z.quot_rem' (u2 - u1 + 500) 1000) as E. destruct (Z.le_gt_cases 0 (u2 - u1 + 500)) as [G|G].
  - pose proof (Z.rem_bound_pos (u2 - u1 + 500) 1000 G ltac:(lia)). lia.
  - pose proof (Z.rem_bound_pos (- (u2 - u1 + 500)) 1000 ltac:(lia) ltac:(lia)) as H. rewrite Z.rem_opp_l in H by lia. lia.
Qed.
Print Assumptions C74_milliseconds.

(** It is not always the nearest, as the comment in the code has it: 998.501 ms become 1000. *)
Theorem C74_nearest_refuted : exists ts, normal (start ts) /\ normal (end_ ts) /\ 0 <= elapsed ts /\
  exists m, Z.abs (1000 * m - elapsed ts) < Z.abs (1000 * timespan_milliseconds ts - elapsed ts) - 500.
Proof.
  exists {| start := {| tv_sec := 0; tv_usec := 1499 |}; end_ := {| tv_sec := 1; tv_usec := 0 |} |}. unfold normal. cbn [start end_ tv_sec tv_usec]. split; [lia|]. split; [lia|]. split; [vm_compute; discriminate|]. exists 999. vm_compute. reflexivity.
Qed.
Print Assumptions C74_nearest_refuted.

(** A span of time can be taken out of another one exactly. *)
Theorem C74_delta ts delta : normal (start ts) -> normal (end_ ts) -> normal (start delta) -> normal (end_ delta) ->
  elapsed (timespan_add_delta ts delta) = elapsed ts - elapsed delta /\ normal (start (timespan_add_delta ts delta)) /\ end_ (timespan_add_delta ts delta) = end_ ts.
Proof.
  unfold normal, elapsed, us, timespan_add_delta. destruct ts as [[s1 u1] [s2 u2]], delta as [[s3 u3] [s4 u4]]; cbn [start end_ tv_sec tv_usec]. intros A C D E.
  destruct (1000000 <=? u1 + (u4 - u3)) eqn:Q; [apply Z.leb_le in Q|apply Z.leb_gt in Q; destruct (u1 + (u4 - u3) <? 0) eqn:Q2; [apply Z.ltb_lt in Q2|apply Z.ltb_ge in Q2]]; cbn [tv_sec tv_usec]; repeat split; lia.
Qed.
Print Assumptions C74_delta.

(** Four commands: the first runs, the second is skipped, two are left. *)
Example C74_ex : let js := [300; 500; 100; 800] in let h := [Ran 300; Skipped 500] in
  (known js /\ fits js /\ so_far js h [100; 800]) /\
  percent_complete (progress_after 4 (total_mtime js) h) = 25 /\
  percent_complete (progress_after 4 (total_mtime js) (h ++ [Ran 800])) = 91 /\
  percent_complete (progress_after 4 (total_mtime js) (h ++ [Ran 800; Ran 100])) = 100 /\
  percent_complete (progress_after 4 (total_mtime [300; -1; 100; 800]) [Ran 300]) = 25 /\
  bar 12 (progress_after 4 (total_mtime js) h) = (0, 3) /\ bar 80 (progress_after 4 (total_mtime js) h) = (2, 4).
Proof.
  cbv zeta. split; [|vm_compute; auto 10]. split; [repeat constructor; lia|]. split; [split; reflexivity|apply Permutation_refl].
Qed.
(** 2.0015 s, of which 1.9 s are taken out. *)
Example C74_time_ex :
  let ts := {| start := {| tv_sec := 10; tv_usec := 999000 |}; end_ := {| tv_sec := 13; tv_usec := 500 |} |} in
  let delta := {| start := {| tv_sec := 11; tv_usec := 0 |}; end_ := {| tv_sec := 12; tv_usec := 900000 |} |} in
  elapsed ts = 2001500 /\ timespan_milliseconds ts = 2002 /\ start (timespan_add_delta ts delta) = {| tv_sec := 12; tv_usec := 899000 |} /\ elapsed (timespan_add_delta ts delta) = 101500.
Proof. vm_compute. auto. Qed.
