(** Proofs about [ForkModel]: every call returns. *)
From Verif Require Import Base ForkModel ForkSpec ForkProofs ForkProofs2 ForkProofs3.
Require Import Lia.
Open Scope nat_scope.

(** ** Work left *)

Definition w_cell (c : cell) : nat := match c with H _ => 13 | Bt _ => 1 end.
Definition w_cells (l : list cell) : nat := list_sum (map w_cell l).
Definition w_rest (l : list cell) : nat := w_cells l + length l.
Definition w_call (c : call) : nat :=
  match c_ph c with CNew => 3 + w_rest (enc (c_req c)) | CWrite l => 2 + w_rest l | CWait => 1 | CDone | CFail => 0 end.
Definition w_calls (l : list call) : nat := list_sum (map w_call l).
Definition w_mph (m : mphase) : nat :=
  match m with MRead [] => 1 | MRead _ => 12 | MFork _ => 11 | MIns _ _ _ => 2 | MClose => 6 | MJoin => 2 | MDone | MDead => 0 end.
Definition w_kid (k : kid) : nat := match k_st k with None => 8 | Some _ => 7 end.
Definition w_kids (l : list kid) : nat := list_sum (map w_kid l).
Definition w_wph (w : wphase) : nat := match w with WCheck => 2 | WWait => 1 | WGot _ _ _ => 7 | WSend _ _ _ => 6 | WDone | WDead => 0 end.
Definition work (s : state) : nat :=
  w_calls (calls s) + w_cells (up s) + w_mph (mph s) + w_kids (kids s) + w_wph (wph s) + 3 * length (down s) +
  (if shut s then 0 else 40) + (if exiting s then 0 else 1).

Lemma w_cells_app a b : w_cells (a ++ b) = w_cells a + w_cells b.
Proof. unfold w_cells. now rewrite map_app, list_sum_app. Qed.
Lemma w_kids_app a b : w_kids (a ++ b) = w_kids a + w_kids b.
Proof. unfold w_kids. now rewrite map_app, list_sum_app. Qed.
Lemma w_calls_set l i c c' : nth_error l i = Some c -> w_calls (set_nth l i c') + w_call c = w_calls l + w_call c'.
Proof.
  unfold set_nth. revert i. induction l as [|a l IH]; intros [|i] E; try discriminate.
  - injection E as ->. change (w_calls (c' :: l) + w_call c = w_calls (c :: l) + w_call c'). change (w_call c' + w_calls l + w_call c = w_call c + w_calls l + w_call c'). lia.
  - specialize (IH i E). change (w_call a + w_calls (firstn i l ++ c' :: skipn (S i) l) + w_call c = w_call a + w_calls l + w_call c'). lia.
Qed.
Lemma w_calls_lt s i c c' : nth_error (calls s) i = Some c -> w_call c' < w_call c -> w_calls (set_nth (calls s) i c') < w_calls (calls s).
Proof. intros E L. pose proof (w_calls_set _ _ _ c' E). lia. Qed.
Lemma length_set l i c c0 : nth_error l i = Some c0 -> length (set_nth l i c) = length l.
Proof.
  intros E. assert (L : i < length l) by (apply nth_error_Some; congruence). unfold set_nth. rewrite app_length, firstn_length. cbn [length]. rewrite skipn_length. lia.
Qed.

Lemma work_step cap s s' : step cap s s' -> length (calls s') = length (calls s) -> work s' < work s.
Proof.
  intros St L. destruct St as
    [r Hsh Hsid Hf | r i0 Hsh Hf | i c Hl Hn Hp | i c x rs Hn Hp Hc | i c Hn Hp | i c st Hn Hp Hse
    | h u Hm Hu Hsid | h l b u Hm Hu | got x u Hm Hu Hx | r pid Hm Hk | r pid k Hm Hf | r pid k e Hm Hf
    | a k b st Hk Hst | Hw Ht He | Hw He | a k b st Hw Hk Hst | Hw Hk | pid st k x k' Hw Hf | pid st k Hw Hf | x st k Hw Hd
    | x st k u i c Hnp Hd Hx Hf Hn | x st k u Hnp Hd Hx Hf | st k u Hnp Hd | Hsh Hfin Hc | u h Hm Hu Hsid | Hm Hc | Hm He | Hm He Hw];
  unfold work; cbn [calls up mph kids wph down shut exiting set_calls set_root set_lock set_up set_mph set_forks set_kids set_tree set_exiting set_wph set_down set_nph set_shut set_order note upd_call];
  rewrite ?Hm, ?Hw, ?Hu, ?Hd.
  - cbn in L. rewrite app_length in L. cbn in L. lia.
  - cbn in L. rewrite app_length in L. cbn in L. lia.
  - pose proof (w_calls_set _ _ _ (with_ph c (CWrite (enc (c_req c)))) Hn) as E. unfold w_call at 1 2 in E. rewrite Hp in E. cbn [c_ph with_ph] in E. lia.
  - pose proof (w_calls_set _ _ _ (with_ph c (CWrite rs)) Hn) as E. unfold w_call at 1 2 in E. rewrite Hp in E. cbn [c_ph with_ph] in E. rewrite w_cells_app.
    unfold w_rest, w_cells in *. cbn [map list_sum length] in *. change (list_sum (w_cell x :: map w_cell rs)) with (w_cell x + list_sum (map w_cell rs)) in E.
    change (list_sum [w_cell x]) with (w_cell x + 0). lia.
  - pose proof (w_calls_set _ _ _ (with_ph c CWait) Hn) as E. unfold w_call at 1 2 in E. rewrite Hp in E. cbn [c_ph with_ph] in E. cbn in E. lia.
  - pose proof (w_calls_set _ _ _ (with_ph c CDone) Hn) as E. unfold w_call at 1 2 in E. rewrite Hp in E. cbn [c_ph with_ph] in E. lia.
  - change (w_cells (H h :: u)) with (13 + w_cells u). destruct (total h =? 0); cbn [w_mph]; lia.
  - change (w_cells (Bt b :: u)) with (1 + w_cells u). destruct (S (length l) =? total h); cbn [w_mph]; lia.
  - destruct got; cbn [w_mph w_wph]; lia.
  - change (w_kids ({| k_no := forks s; k_pid := pid; k_st := None |} :: kids s)) with (8 + w_kids (kids s)). cbn [w_mph]. lia.
  - cbn [w_mph]. lia.
  - cbn [w_mph w_wph]. lia.
  - rewrite Hk, !w_kids_app. change (w_kids ({| k_no := k_no k; k_pid := k_pid k; k_st := Some st |} :: b)) with (7 + w_kids b).
    change (w_kids (k :: b)) with (w_kid k + w_kids b). unfold w_kid. rewrite Hst. lia.
  - cbn [w_wph]. lia.
  - cbn [w_wph]. lia.
  - rewrite Hk, !w_kids_app. change (w_kids (k :: b)) with (w_kid k + w_kids b). unfold w_kid. rewrite Hst. cbn [w_wph]. lia.
  - cbn [w_wph]. lia.
  - cbn [w_wph]. lia.
  - cbn [w_wph]. lia.
  - rewrite app_length. cbn [w_wph length]. lia.
  - pose proof (w_calls_set _ _ _ {| c_req := c_req c; c_ph := c_ph c; c_set := Some st |} Hn) as E.
    change (w_call {| c_req := c_req c; c_ph := c_ph c; c_set := Some st |}) with (w_call c) in E. cbn [length]. lia.
  - cbn [length]. lia.
  - cbn [length]. lia.
  - rewrite Hsh, w_cells_app. change (w_cells [H bye]) with 13. lia.
  - change (w_cells (H h :: u)) with (13 + w_cells u). cbn [w_mph]. lia.
  - rewrite app_length. cbn [w_mph length]. lia.
  - rewrite He. lia.
  - cbn [w_mph]. lia.
Qed.

Lemma goes_on_work cap n s s' : goes_on cap n s s' -> work s' + n <= work s.
Proof. induction 1 as [|n s s' s'' G IH St T L]; [lia|]. pose proof (work_step cap _ _ St L). lia. Qed.

(** ** No thread ends early *)

Record invE (s : state) : Prop := {
  e_w : wph s <> WDead;
  e_m : mph s <> MDead;
  e_tok : forall k i, nth_error (order s) k = Some i -> k < forks s -> se s i = Some None -> In k (toks s);
  e_wait : wph s = WWait -> tree s <> [];
  e_exit : exiting s = true -> mph s = MJoin \/ mph s = MDone;
  e_done : wph s = WDone -> exiting s = true;
  e_bye : mph s = MJoin \/ mph s = MDone -> nph s = NDone \/ exists st k, In ((-1)%Z, st, k) (down s);
  e_nodone : nph s = NDone -> mph s = MJoin \/ mph s = MDone;
  e_down : forall st k, In ((-1)%Z, st, k) (down s) -> mph s = MJoin \/ mph s = MDone;
}.

Lemma invE_init : invE init.
Proof. constructor; cbn; try discriminate; try tauto; try (intros; lia). intros [E|E]; discriminate. Qed.

Lemma no_misread s got x u : invA s -> mph s = MRead got -> up s = x :: u ->
  (match got, x with [], H _ => False | _ :: _, Bt _ => False | _, _ => True end) -> False.
Proof.
  intros IA Hm Hu Hx. pose proof (a_reads s IA) as R. unfold reads in R. rewrite Hm in R. destruct R as [[->|[h [l [-> Lt]]]] R].
  - destruct x as [h|b]; [exact Hx|]. cbn in R. rewrite Hu in R.
    destruct (skipn (forks s) (order s)) as [|i o] eqn:Eo.
    + unfold tail in R. cbn in R. destruct (shut s); discriminate.
    + assert (Hi : In i (order s)) by (apply (in_skipn (forks s)); rewrite Eo; now left).
      apply (a_order s IA) in Hi. destruct Hi as [p [Ep _]]. destruct (ph_rq s i p Ep) as [r Er]. rewrite (encs_cons s i r o Er) in R. discriminate.
  - destruct x as [h'|b]; [|exact Hx]. destruct (at_byte s h l (H h') u IA Hm Hu) as [i [r [o [e [_ [_ [_ [Ep _]]]]]]]].
    destruct (payload_bytes r (H h')) as [b E]; [rewrite Ep; apply in_or_app; right; now left|discriminate].
Qed.

Lemma sid_not_bye s k x : invA s -> sidof s k x -> x <> (-1)%Z.
Proof.
  intros IA [i [r [Q1 [Q2 <-]]]]. apply nth_error_In in Q1. apply (a_order s IA) in Q1. destruct Q1 as [p [Q1 Sp]].
  apply (a_sid s IA i r Q2). rewrite Q1. intros [= ->]. destruct Sp.
Qed.

Lemma e_same s s' : (forall k i, nth_error (order s') k = Some i -> k < forks s' -> nth_error (order s) k = Some i /\ k < forks s /\ se s' i = se s i) ->
  incl (toks s) (toks s') -> wph s' = wph s -> mph s' = mph s -> tree s' = tree s -> exiting s' = exiting s -> nph s' = nph s -> down s' = down s -> invE s -> invE s'.
Proof.
  intros Ho Ht E1 E2 E3 E4 E5 E6 Iv. destruct Iv. constructor; rewrite ?E1, ?E2, ?E3, ?E4, ?E5, ?E6; auto.
  intros k i Hk Hl Hs. destruct (Ho k i Hk Hl) as [Q1 [Q2 Q3]]. apply Ht. apply (e_tok0 k i); congruence.
Qed.

Lemma invE_step cap s s' : step cap s s' -> inv s -> in_time s -> invE s -> invE s'.
Proof.
  intros St [IA [IB [IC ID]]] Tm Iv. destruct St as
    [r Hsh Hsid Hf | r i0 Hsh Hf | i c Hl Hn Hp | i c x rs Hn Hp Hc | i c Hn Hp | i c st Hn Hp Hse
    | h u Hm Hu Hsid | h l b u Hm Hu | got x u Hm Hu Hx | r pid Hm Hk | r pid k Hm Hf | r pid k e Hm Hf
    | a k b st Hk Hst | Hw Ht He | Hw He | a k b st Hw Hk Hst | Hw Hk | pid st k x k' Hw Hf | pid st k Hw Hf | x st k Hw Hd
    | x st k u i c Hnp Hd Hx Hf Hn | x st k u Hnp Hd Hx Hf | st k u Hnp Hd | Hsh Hfin Hc | u h Hm Hu Hsid | Hm Hc | Hm He | Hm He Hw].
  - apply (e_same s); try reflexivity; [|apply incl_refl|exact Iv]. intros k i E L. split; [exact E|]. split; [exact L|].
    pose proof (order_lt s k i IA E). unfold se. cbn. now rewrite nth_error_app1.
  - apply (e_same s); try reflexivity; [|apply incl_refl|exact Iv]. intros k i E L. split; [exact E|]. split; [exact L|].
    pose proof (order_lt s k i IA E). unfold se. cbn. now rewrite nth_error_app1.
  - apply (e_same s); try reflexivity; [|apply incl_refl|exact Iv]. intros k j E L. change (order _) with (order s ++ [i]) in E. change (forks _) with (forks s) in L.
    pose proof (a_forks s IA). rewrite nth_error_app1 in E by lia. split; [exact E|]. split; [exact L|]. exact (upd_se s i c (with_ph c _) Hn eq_refl j).
  - apply (e_same s); try reflexivity; [|apply incl_refl|exact Iv]. intros k j E L. split; [exact E|]. split; [exact L|]. exact (upd_se s i c (with_ph c _) Hn eq_refl j).
  - apply (e_same s); try reflexivity; [|apply incl_refl|exact Iv]. intros k j E L. split; [exact E|]. split; [exact L|]. exact (upd_se s i c (with_ph c _) Hn eq_refl j).
  - apply (e_same s); try reflexivity; [|apply incl_refl|exact Iv]. intros k j E L. split; [exact E|]. split; [exact L|]. exact (upd_se s i c (with_ph c _) Hn eq_refl j).
  - (* S_header *)
    destruct Iv. constructor; auto; cbn; rewrite Hm in *.
    + destruct (total h =? 0); discriminate.
    + intros E. destruct (e_exit0 E); discriminate.
    + intros [E|E]; destruct (total h =? 0); discriminate.
    + intros E. destruct (e_nodone0 E); discriminate.
    + intros st k E. destruct (e_down0 _ _ E); discriminate.
  - (* S_byte *)
    destruct Iv. constructor; auto; cbn [mph set_mph set_up exiting nph down]; rewrite Hm in *.
    + destruct (S _ =? total h); discriminate.
    + intros E. destruct (e_exit0 E); discriminate.
    + intros [E|E]; destruct (S _ =? total h); discriminate.
    + intros E. destruct (e_nodone0 E); discriminate.
    + intros st k E. destruct (e_down0 _ _ E); discriminate.
  - exfalso. exact (no_misread s got x u IA Hm Hu Hx).
  - (* S_fork *)
    destruct Iv. constructor; auto; cbn [mph note set_mph exiting nph down]; rewrite ?Hm in *; try discriminate.
    + intros k i E L Hs. change (forks _) with (S (forks s)) in L. change (In k (forks s :: toks s)). destruct (Nat.eq_dec k (forks s)) as [->|N]; [now left|right].
      apply (e_tok0 k i); auto. lia.
    + intros E. destruct (e_exit0 E); discriminate.
    + intros [E|E]; discriminate.
    + intros E. destruct (e_nodone0 E); discriminate.
    + intros st k E. destruct (e_down0 _ _ E); discriminate.
  - (* S_insert *)
    destruct Iv. constructor; auto; cbn [mph note set_mph exiting nph down]; rewrite ?Hm in *; try discriminate.
    + intros E. destruct (e_exit0 E); discriminate.
    + intros [E|E]; discriminate.
    + intros E. destruct (e_nodone0 E); discriminate.
    + intros st k' E. destruct (e_down0 _ _ E); discriminate.
  - (* S_twice *) exfalso. destruct (Tm _ _ _ Hm) as [E _]. congruence.
  - (* S_exit *)
    apply (e_same s); try reflexivity; [|  |exact Iv]; [auto|].
    intros n. unfold toks. cbn. rewrite Hk, !map_app. auto.
  - (* S_nonempty *)
    destruct Iv. constructor; auto; cbn; try discriminate.
    intros k i. unfold toks in *. rewrite Hw in e_tok0. apply e_tok0.
  - (* S_exiting *)
    destruct Iv. constructor; auto; cbn; try discriminate.
    intros k i. unfold toks in *. rewrite Hw in e_tok0. apply e_tok0.
  - (* S_wait *)
    destruct Iv. constructor; auto; cbn; try discriminate.
    intros n i E L Hs. specialize (e_tok0 n i E L Hs). unfold toks in *. rewrite Hk, Hw, map_app in e_tok0. cbn in *. rewrite map_app. rewrite !in_app_iff in *. cbn in *. rewrite ?in_app_iff in *. tauto.
  - (* S_nochild *)
    exfalso. pose proof (e_wait s Iv Hw) as Ht. destruct (tree s) as [|[p [x k]] t] eqn:Et; [contradiction|].
    destruct (c_tree s IC p x k) as [_ [_ [_ [Q|[[st Q]|[c [Q _]]]]]]]; [rewrite Et; now left|congruence|congruence|]. rewrite Hk in Q. destruct Q.
  - (* S_found *)
    destruct Iv. constructor; auto; cbn; try discriminate.
    intros n i. unfold toks in *. rewrite Hw in e_tok0. apply e_tok0.
  - (* S_lost *)
    exfalso. destruct (c_wgot s IC _ _ _ Hw) as [_ [[x Q]|[r [Q _]]]]; [exact (find_pid_none _ _ _ Hf Q)|].
    destruct (Tm _ _ _ Q) as [_ [c [Q1 [Q2 _]]]]. pose proof (c_nodup s IC) as N. unfold toks in N. rewrite Hw in N. cbn in N. apply NoDup_remove_2 in N.
    apply N. apply in_or_app. left. rewrite <- Q2. now apply in_map.
  - (* S_send *)
    destruct (c_wsend s IC _ _ _ Hw) as [_ Hsid]. pose proof (sid_not_bye s k x IA Hsid) as Nx.
    destruct Iv. constructor; auto; cbn [wph mph set_wph set_down exiting nph down tree]; try discriminate.
    + intros n i E L Hs. specialize (e_tok0 n i E L Hs). unfold toks in *. rewrite Hw in e_tok0. cbn [kids wph down set_wph set_down wtok app] in *. rewrite dtoks_app.
      unfold dtoks at 2. cbn [filter fst snd map]. apply Z.eqb_neq in Nx. rewrite Nx. cbn [negb map snd]. rewrite !in_app_iff in *. cbn in *. tauto.
    + intros E. destruct (e_bye0 E) as [Q|[st' [k' Q]]]; [now left|]. right. exists st', k'. apply in_or_app. now left.
    + intros st' k' I. apply in_app_or in I. destruct I as [I|[I|[]]]; [exact (e_down0 _ _ I)|congruence].
  - (* S_notify *)
    set (s' := set_root _ _).
    assert (Ese : forall j, se s' j = if j =? i then Some (Some st) else se s j) by (intros j; unfold se, s'; cbn; rewrite (nth_set _ _ _ _ Hn); now destruct (j =? i)).
    destruct (c_down s IC x st k) as [E|[_ Hsid]]; [rewrite Hd; now left|contradiction|].
    destruct Iv. constructor; auto.
    + intros n j E L. change (order s') with (order s) in E. rewrite Ese. destruct (Nat.eqb_spec j i) as [->|N]; [discriminate|]. intros Hs. specialize (e_tok0 n j E L Hs).
      unfold toks in *. cbn [kids wph down s' set_root set_down upd_call set_calls]. rewrite Hd in e_tok0. unfold dtoks at 1 in e_tok0. cbn [filter fst] in e_tok0. apply Z.eqb_neq in Hx. rewrite Hx in e_tok0. cbn [negb map snd] in e_tok0.
      fold (dtoks u) in e_tok0. rewrite !in_app_iff in *. destruct e_tok0 as [Q|[Q|[Q|Q]]]; auto. subst n. exfalso. apply N.
      destruct Hsid as [j' [r [Q1 [Q2 Q3]]]]. assert (j' = j) as -> by congruence.
      apply (nodup_fst (root s) x j i (b_nodup s IB)); [|now apply find_sid_in]. apply (b_root s IB). exists r. split; [exact Q2|]. split; [exact Q3|]. split; [exact Hs|].
      apply nth_error_In in Q1. apply (a_order s IA) in Q1. destruct Q1 as [p [Q1 Sp]]. rewrite Q1. intros [= ->]. destruct Sp.
    + intros E. destruct (e_bye0 E) as [Q|[st' [k' Q]]]; [now left|]. right. exists st', k'. rewrite Hd in Q. destruct Q as [Q|Q]; [congruence|exact Q].
    + intros st' k' I. apply (e_down0 st' k'). rewrite Hd. now right.
  - (* S_unknown *)
    exfalso. destruct (c_down s IC x st k) as [E|[Hex Hsid]]; [rewrite Hd; now left|contradiction|].
    destruct Hsid as [j [r [Q1 [Q2 Q3]]]]. apply (find_sid_none _ _ j Hf). apply (b_root s IB). exists r. split; [exact Q2|]. split; [exact Q3|].
    split.
    + apply (c_unset s IC k j Q1). right. unfold toks. rewrite !in_app_iff. right. right. rewrite Hd. unfold dtoks. cbn. apply Z.eqb_neq in Hx. rewrite Hx. now left.
    + apply nth_error_In in Q1. apply (a_order s IA) in Q1. destruct Q1 as [p [Q1 Sp]]. rewrite Q1. intros [= ->]. destruct Sp.
  - (* S_bye *)
    assert (Q : mph s = MJoin \/ mph s = MDone) by (apply (e_down s Iv st k); rewrite Hd; now left).
    destruct Iv. constructor; auto.
    intros n i E L Hs. specialize (e_tok0 n i E L Hs). unfold toks in *. rewrite Hd in e_tok0. exact e_tok0.
  - (* S_shut *) apply (e_same s); try reflexivity; [auto|apply incl_refl|exact Iv].
  - (* S_last *)
    destruct Iv. constructor; auto; cbn; rewrite ?Hm in *; try discriminate.
    + intros E. destruct (e_exit0 E); discriminate.
    + intros [E|E]; discriminate.
    + intros E. destruct (e_nodone0 E); discriminate.
    + intros st k E. destruct (e_down0 _ _ E); discriminate.
  - (* S_close *)
    destruct Iv. constructor; auto; cbn [mph set_mph set_down exiting nph down]; rewrite ?Hm in *; try discriminate.
    + intros n i E L Hs. specialize (e_tok0 n i E L Hs). unfold toks in *. cbn [kids wph down set_mph set_down]. rewrite dtoks_app. rewrite !in_app_iff in *. tauto.
    + intros _. right. exists 0%Z, 0. apply in_or_app. right. now left.
  - (* S_quit *)
    destruct Iv. constructor; auto.
  - (* S_join *)
    destruct Iv. constructor; auto; cbn; rewrite ?Hm in *; try discriminate.
Qed.

(** ** There is always something to do *)

Lemma max_pid (l : list nat) : exists p, forall x, In x l -> x < p.
Proof.
  induction l as [|a l [p IH]]; [exists 0; intros x []|]. exists (S (a + p)). intros x [<-|I]; [lia|]. apply IH in I. lia.
Qed.

Lemma in_split_kid (l : list kid) c : In c l -> exists a b, l = a ++ c :: b.
Proof. apply in_split. Qed.

(** A step that leaves [MIns] alone is timely. *)
Definition moves (cap : nat) (s : state) : Prop := exists s', step cap s s' /\ in_time s' /\ length (calls s') = length (calls s).
Lemma not_ins s : (forall r p k, mph s <> MIns r p k) -> in_time s.
Proof. intros N r p k E. exfalso. exact (N _ _ _ E). Qed.

Section Progress.
Variable cap : nat.
Hypothesis cap_pos : 0 < cap.
Variable s : state.
Hypothesis Iv : inv s.
Hypothesis Ie : invE s.
Hypothesis Tm : in_time s.

Lemma ins_moves r p k : mph s = MIns r p k -> moves cap s.
Proof.
  intros E. destruct (Tm _ _ _ E) as [F _]. eexists. split; [eapply S_insert; eassumption|]. split; [|reflexivity]. apply not_ins. discriminate.
Qed.
Lemma fork_moves r : mph s = MFork r -> moves cap s.
Proof.
  intros E. destruct (max_pid (map k_pid (kids s) ++ map fst (tree s))) as [p Hp].
  eexists. split; [eapply (S_fork cap s r p E)|].
  - intros k I Ek. assert (k_pid k < p) by (apply Hp; apply in_or_app; left; now apply in_map). lia.
  - split; [|reflexivity]. intros r' p' k' [= <- <- <-]. split.
    + cbn. destruct (find_pid (tree s) p) as [e|] eqn:F; [exfalso|reflexivity]. apply find_pid_in in F.
      assert (p < p); [|lia]. apply Hp. apply in_or_app. right. change p with (fst (p, e)) at 1. now apply in_map.
    + eexists. split; [now left|]. split; reflexivity.
Qed.
(** Something in the socket: the forking process can go on. *)
Lemma up_moves : up s <> [] -> moves cap s.
Proof.
  intros Hu. destruct Iv as [IA _]. destruct (mph s) as [got|r|r p k| | | |] eqn:Em.
  - destruct (up s) as [|x u] eqn:Eu; [contradiction|]. destruct got as [|[h|b] l].
    + destruct x as [h|b]; [|exfalso; exact (no_misread s [] (Bt b) u IA Em Eu I)].
      destruct (Z.eq_dec (h_sid h) (-1)) as [E|N].
      * eexists. split; [eapply S_last; eassumption|]. split; [|reflexivity]. apply not_ins. discriminate.
      * eexists. split; [eapply S_header; eassumption|]. split; [|reflexivity]. apply not_ins. cbn. destruct (total h =? 0); discriminate.
    + destruct x as [h'|b]; [exfalso; exact (no_misread s (H h :: l) (H h') u IA Em Eu I)|].
      eexists. split; [eapply S_byte; eassumption|]. split; [|reflexivity]. apply not_ins. cbn [mph set_mph]. destruct (S _ =? total h); discriminate.
    + exfalso. pose proof (a_reads s IA) as R. unfold reads in R. rewrite Em in R. destruct R as [[E|[h [l' [E _]]]] _]; discriminate.
  - now apply (fork_moves r).
  - now apply (ins_moves r p k).
  - exfalso. pose proof (a_reads s IA) as R. unfold reads in R. rewrite Em in R. tauto.
  - exfalso. pose proof (a_reads s IA) as R. unfold reads in R. rewrite Em in R. tauto.
  - exfalso. pose proof (a_reads s IA) as R. unfold reads in R. rewrite Em in R. tauto.
  - exfalso. exact (e_m s Ie Em).
Qed.
Lemma step_moves s' : step cap s s' -> mph s' = mph s -> length (calls s') = length (calls s) -> moves cap s.
Proof.
  intros St Em El. destruct (mph s) as [got|r|r p k| | | |] eqn:E; [..|]; try (exists s'; split; [exact St|]; split; [apply not_ins; rewrite Em; discriminate|exact El]).
  now apply (ins_moves r p k).
Qed.
(** A call before or within its writing. *)
Lemma call_moves i c : nth_error (calls s) i = Some c -> c_ph c = CNew \/ (exists l, c_ph c = CWrite l) -> moves cap s.
Proof.
  intros Hn Hp. destruct Iv as [IA _].
  assert (Wr : forall i c l, nth_error (calls s) i = Some c -> c_ph c = CWrite l -> moves cap s).
  { clear i c Hn Hp. intros i c l Hn Hp. destruct l as [|x l].
    - eapply step_moves; [eapply S_unlock; eassumption|reflexivity|]. cbn. now apply (length_set _ _ _ c).
    - destruct (Nat.lt_ge_cases (length (up s)) cap) as [L|L].
      + eapply step_moves; [eapply S_write; eassumption|reflexivity|]. cbn. now apply (length_set _ _ _ c).
      + apply up_moves. intros E. rewrite E in L. cbn in L. lia. }
  destruct Hp as [Hp|[l Hp]]; [|now apply (Wr i c l)].
  destruct (lock s) as [j|] eqn:El.
  - apply (a_lock s IA) in El. destruct El as [l El]. unfold ph in El. destruct (nth_error (calls s) j) as [d|] eqn:Ej; [|discriminate]. cbn in El. injection El as El. now apply (Wr j d l).
  - eapply step_moves; [eapply S_lock; eassumption|reflexivity|]. cbn. now apply (length_set _ _ _ c).
Qed.
(** A child, or the status of one, that is not yet known to its call. *)
Lemma down_moves : down s <> [] -> nph s = NRead -> moves cap s.
Proof.
  intros Hd Hn. destruct (down s) as [|[[x st] k] u] eqn:Ed; [contradiction|]. destruct Iv as [IA [IB [IC ID]]].
  destruct (Z.eq_dec x (-1)) as [->|N].
  - eapply step_moves; [eapply S_bye; eassumption|reflexivity|reflexivity].
  - destruct (c_down s IC x st k) as [E|[_ [j [r [Q1 [Q2 Q3]]]]]]; [rewrite Ed; now left|contradiction|].
    assert (Hr : In (x, j) (root s)).
    { apply (b_root s IB). exists r. split; [exact Q2|]. split; [exact Q3|]. split.
      - apply (c_unset s IC k j Q1). right. unfold toks. rewrite !in_app_iff. right. right. rewrite Ed. unfold dtoks. cbn. apply Z.eqb_neq in N. rewrite N. now left.
      - apply nth_error_In in Q1. apply (a_order s IA) in Q1. destruct Q1 as [p [Q1 Sp]]. rewrite Q1. intros [= ->]. destruct Sp. }
    destruct (find_sid (root s) x) as [i|] eqn:Ef; [|exfalso; exact (find_sid_none _ _ _ Ef Hr)].
    pose proof (find_sid_in _ _ _ Ef) as Hi. apply (b_root s IB) in Hi. destruct Hi as [r' [Q4 _]]. unfold rq in Q4.
    destruct (nth_error (calls s) i) as [c|] eqn:Ec; [|discriminate].
    eapply step_moves; [eapply S_notify; eassumption|reflexivity|]. cbn. now apply (length_set _ _ _ c).
Qed.
Lemma tok_not_over k : In k (toks s) -> shut s = false.
Proof.
  intros I. destruct Iv as [IA [IB [IC ID]]]. destruct (shut s) eqn:Es; [exfalso|reflexivity].
  pose proof (c_lt s IC k I) as L. pose proof (a_forks s IA) as L'.
  destruct (nth_error (order s) k) as [i|] eqn:En; [|apply nth_error_None in En; lia].
  pose proof (c_unset s IC k i En (or_intror I)) as U.
  apply nth_error_In in En. apply (a_order s IA) in En. destruct En as [p [Ep Sp]].
  destruct (a_shut s IA Es i p Ep) as [->| ->]; [|destruct Sp]. destruct (b_done s IB i Ep) as [st E]. congruence.
Qed.
Lemma not_shut_phase : shut s = false -> mph s <> MClose /\ mph s <> MJoin /\ mph s <> MDone.
Proof.
  intros Hs. destruct Iv as [IA _]. pose proof (a_reads s IA) as R. unfold reads in R. repeat split; intros E; rewrite E in R; destruct R as [_ [_ [_ R]]]; congruence.
Qed.
Lemma not_shut_n : shut s = false -> nph s = NRead.
Proof.
  intros Hs. destruct (not_shut_phase Hs) as [_ [N1 N2]]. destruct Iv as [_ [_ [IC _]]]. destruct (nph s) eqn:E; [reflexivity| |exfalso; exact (c_nph s IC E)].
  exfalso. destruct (e_nodone s Ie E); contradiction.
Qed.
Lemma tok_moves k : In k (toks s) -> moves cap s.
Proof.
  intros I. pose proof (tok_not_over k I) as Hs. pose proof (not_shut_n Hs) as Hn. destruct (not_shut_phase Hs) as [N0 [N1 N2]]. destruct Iv as [IA [IB [IC ID]]].
  assert (Nx : exiting s = false) by (destruct (exiting s) eqn:E; [exfalso; destruct (e_exit s Ie E); contradiction|reflexivity]).
  destruct (down s) as [|e u] eqn:Ed.
  2: { apply down_moves; [now rewrite Ed|exact Hn]. }
  destruct (wph s) as [| |p st k'|x st k'| |] eqn:Ew.
  - (* WCheck *)
    unfold toks in I. rewrite Ew, Ed in I. cbn in I. rewrite app_nil_r in I. apply in_map_iff in I. destruct I as [c [_ I]].
    destruct (c_kidtree s IC c I) as [[x Q]|[[r Q]|Q]]; [|now apply (ins_moves r (k_pid c) (k_no c))|exfalso; exact (e_m s Ie Q)].
    eapply step_moves; [eapply S_nonempty; try assumption|reflexivity|reflexivity]. intros E. rewrite E in Q. destruct Q.
  - (* WWait *)
    unfold toks in I. rewrite Ew, Ed in I. cbn in I. rewrite app_nil_r in I. apply in_map_iff in I. destruct I as [c [_ I]]. apply in_split in I. destruct I as [a [b Ek]].
    destruct (k_st c) as [st|] eqn:Es.
    + eapply step_moves; [eapply S_wait; eassumption|reflexivity|reflexivity].
    + eapply step_moves; [eapply (S_exit cap s a c b 0%Z); eassumption|reflexivity|reflexivity].
  - (* WGot *)
    destruct (find_pid (tree s) p) as [[x k2]|] eqn:Ef.
    + eapply step_moves; [eapply S_found; eassumption|reflexivity|reflexivity].
    + eapply step_moves; [eapply S_lost; eassumption|reflexivity|reflexivity].
  - eapply step_moves; [eapply S_send; [exact Ew|]|reflexivity|reflexivity]. rewrite Ed. exact cap_pos.
  - exfalso. pose proof (e_done s Ie Ew). congruence.
  - exfalso. exact (e_w s Ie Ew).
Qed.

Lemma not_finished : forallb finished (calls s) = false -> exists i c, nth_error (calls s) i = Some c /\ finished c = false.
Proof.
  clear. intros E. induction (calls s) as [|c l IH]; [discriminate|]. cbn in E. destruct (finished c) eqn:F.
  - destruct (IH E) as [i [d [P Q]]]. now exists (S i), d.
  - now exists 0, c.
Qed.
(** What is left to read when nothing is pending. *)
Lemma all_read : forallb finished (calls s) = true -> (forall r p k, mph s <> MIns r p k) -> (forall r, mph s <> MFork r) ->
  skipn (forks s) (order s) = [] /\ rest s = [] /\ forall got, mph s = MRead got -> got = [] /\ up s = tail s.
Proof.
  intros F N1 N2. destruct Iv as [IA [IB [IC ID]]].
  assert (Fi : forall i p, ph s i = Some p -> p = CDone \/ p = CFail).
  { intros i p. unfold ph. destruct (nth_error (calls s) i) as [c|] eqn:En; [|discriminate]. cbn. intros [= <-].
    rewrite forallb_forall in F. specialize (F c (nth_error_In _ _ En)). unfold finished in F. destruct (c_ph c); auto; discriminate. }
  assert (Eo : skipn (forks s) (order s) = []).
  { destruct (skipn (forks s) (order s)) as [|i o] eqn:Eo; [reflexivity|exfalso]. destruct (skipn_nth _ _ _ _ Eo) as [En _].
    pose proof (c_unset s IC (forks s) i En (or_introl (le_n _))) as U. apply nth_error_In in En. apply (a_order s IA) in En. destruct En as [p [Ep Sp]].
    destruct (Fi i p Ep) as [->| ->]; [|destruct Sp]. destruct (b_done s IB i Ep) as [st E]. congruence. }
  assert (Er : rest s = []).
  { unfold rest. destruct (lock s) as [i|] eqn:El; [|reflexivity]. apply (a_lock s IA) in El. destruct El as [l El]. destruct (Fi _ _ El); discriminate. }
  split; [exact Eo|]. split; [exact Er|]. intros got Em. pose proof (a_reads s IA) as R. unfold reads in R. rewrite Em, Eo, Er, app_nil_r in R. destruct R as [P R]. cbn in R.
  destruct P as [->|[h [l [-> Lt]]]]; [auto|exfalso]. unfold tail in R. destruct (shut s); [|discriminate]. cbn in R. injection R as -> R. destruct l; [|discriminate]. cbn in Lt. lia.
Qed.

Theorem progress : ~ all_over s -> moves cap s.
Proof.
  intros No. destruct (forallb finished (calls s)) eqn:F.
  - (* all the calls are over *)
    assert (Nt : shut s = true -> forall k, ~ In k (toks s)) by (intros Hs k I; pose proof (tok_not_over k I); congruence).
    destruct (mph s) as [got|r|r p k| | | |] eqn:Em.
    + destruct all_read as [Eo [Er Q]]; [exact F|rewrite Em; discriminate|rewrite Em; discriminate|]. destruct (Q got Em) as [-> Eu]. unfold tail in Eu. destruct (shut s) eqn:Es.
      * apply up_moves. rewrite Eu. discriminate.
      * eapply step_moves; [eapply S_shut; try assumption|reflexivity|reflexivity]. rewrite Eu. exact cap_pos.
    + now apply (fork_moves r).
    + now apply (ins_moves r p k).
    + (* MClose *)
      destruct Iv as [IA [IB [IC ID]]]. assert (Hs : shut s = true) by (pose proof (a_reads s IA) as R; unfold reads in R; rewrite Em in R; tauto).
      assert (Ed : down s = []).
      { destruct (down s) as [|[[x st] k] u] eqn:Ed; [reflexivity|exfalso]. destruct (Z.eq_dec x (-1)) as [->|N].
        - destruct (e_down s Ie st k) as [E|E]; [rewrite Ed; now left|congruence|congruence].
        - apply (Nt Hs k). unfold toks. rewrite !in_app_iff. right. right. rewrite Ed. unfold dtoks. cbn. apply Z.eqb_neq in N. rewrite N. now left. }
      eexists. split; [eapply S_close; [exact Em|rewrite Ed; exact cap_pos]|]. split; [apply not_ins; discriminate|reflexivity].
    + (* MJoin *)
      destruct Iv as [IA [IB [IC ID]]]. assert (Hs : shut s = true) by (pose proof (a_reads s IA) as R; unfold reads in R; rewrite Em in R; tauto).
      destruct (exiting s) eqn:Ex; [|eapply step_moves; [eapply S_quit; assumption|reflexivity|reflexivity]].
      destruct (wph s) as [| |p st k'|x st k'| |] eqn:Ew.
      * eapply step_moves; [eapply S_exiting; assumption|reflexivity|reflexivity].
      * exfalso. pose proof (e_wait s Ie Ew) as Ht. destruct (tree s) as [|[p [x k]] t] eqn:Et; [contradiction|].
        destruct (c_tree s IC p x k) as [_ [_ [_ [Q|[[st Q]|[c [Q _]]]]]]]; [rewrite Et; now left|congruence|congruence|].
        apply (Nt Hs (k_no c)). unfold toks. apply in_or_app. left. now apply in_map.
      * exfalso. apply (Nt Hs k'). unfold toks. rewrite Ew, !in_app_iff. right. left. now left.
      * exfalso. apply (Nt Hs k'). unfold toks. rewrite Ew, !in_app_iff. right. left. now left.
      * eexists. split; [eapply S_join; assumption|]. split; [apply not_ins; discriminate|reflexivity].
      * exfalso. exact (e_w s Ie Ew).
    + (* MDone *)
      destruct (nph s) eqn:En.
      * apply down_moves; [|exact En]. destruct (e_bye s Ie (or_intror Em)) as [E|[st [k E]]]; [congruence|]. intros Ed. rewrite Ed in E. destruct E.
      * exfalso. apply No. split; [exact F|]. now split.
      * exfalso. destruct Iv as [_ [_ [IC _]]]. exact (c_nph s IC En).
    + exfalso. exact (e_m s Ie Em).
  - (* a call that is not *)
    destruct (not_finished F) as [i [c [Hn Fc]]]. unfold finished in Fc. destruct (c_ph c) eqn:Ep; try discriminate.
    + apply (call_moves i c Hn). now left.
    + apply (call_moves i c Hn). right. eauto.
    + destruct (c_set c) as [st|] eqn:Es.
      * eapply step_moves; [eapply S_return; eassumption|reflexivity|]. cbn. now apply (length_set _ _ _ c).
      * destruct Iv as [IA [IB [IC ID]]].
        assert (Ho : In i (order s)) by (apply (a_order s IA); exists CWait; rewrite (ph_of _ _ _ Hn), Ep; split; [reflexivity|exact I]).
        apply In_nth_error in Ho. destruct Ho as [k Ho].
        destruct (Nat.lt_ge_cases k (forks s)) as [L|L].
        -- apply (tok_moves k). apply (e_tok s Ie k i Ho L). now rewrite (se_of _ _ _ Hn), Es.
        -- (* still to be read *)
           destruct (mph s) as [got|r|r p k'| | | |] eqn:Em; [|now apply (fork_moves r)|now apply (ins_moves r p k')| | | |].
           ++ destruct (up s) as [|x u] eqn:Eu; [|apply up_moves; congruence].
              destruct (rest s) as [|x l] eqn:Er.
              ** exfalso. pose proof (a_reads s IA) as R. unfold reads in R. rewrite Em, Eu, Er in R. cbn in R. rewrite app_nil_r in R. destruct R as [P R].
                 destruct (skipn (forks s) (order s)) as [|j o] eqn:Eo.
                 { assert (E : length (skipn (forks s) (order s)) = 0) by (now rewrite Eo). rewrite skipn_length in E.
                   assert (k < length (order s)) by (apply nth_error_Some; congruence). lia. }
                 assert (Hj : In j (order s)) by (apply (in_skipn (forks s)); rewrite Eo; now left).
                 apply (a_order s IA) in Hj. destruct Hj as [p [Ej _]]. destruct (ph_rq s j p Ej) as [r Hr]. rewrite (encs_cons s j r o Hr), enc_payload in R.
                 destruct P as [->|[h [l' [-> Lt]]]]; [discriminate|]. cbn in R. injection R as -> R. rewrite total_payload in Lt. rewrite R in Lt. rewrite !app_length in Lt. lia.
              ** unfold rest in Er. destruct (lock s) as [j|] eqn:El; [|discriminate]. destruct (a_lock s IA j) as [_ Q]. destruct (Q El) as [l' El'].
                 unfold ph in El'. destruct (nth_error (calls s) j) as [d|] eqn:Ej; [|discriminate]. cbn in El'. injection El' as El'. apply (call_moves j d Ej). right. eauto.
           ++ exfalso. pose proof (a_reads s IA) as R. unfold reads in R. rewrite Em in R. assert (k < length (order s)) by (apply nth_error_Some; congruence). lia.
           ++ exfalso. pose proof (a_reads s IA) as R. unfold reads in R. rewrite Em in R. assert (k < length (order s)) by (apply nth_error_Some; congruence). lia.
           ++ exfalso. pose proof (a_reads s IA) as R. unfold reads in R. rewrite Em in R. assert (k < length (order s)) by (apply nth_error_Some; congruence). lia.
           ++ exfalso. exact (e_m s Ie Em).
Qed.
End Progress.

Lemma timely_inv cap s s' : timely cap s s' -> inv s -> invE s -> in_time s -> inv s' /\ invE s' /\ in_time s'.
Proof.
  induction 1 as [|s s' s'' T IH St Q]; [auto|]. intros I1 I2 I3. destruct (IH I1 I2 I3) as [J1 [J2 J3]].
  split; [exact (inv_step cap _ _ St J1)|]. split; [exact (invE_step cap _ _ St J1 J3 J2)|exact Q].
Qed.
Lemma goes_on_timely cap n s s' : goes_on cap n s s' -> forall s0, timely cap s0 s -> timely cap s0 s'.
Proof. induction 1 as [|n s s' s'' G IH St Q L]; [auto|]. intros s0 T. eapply T_step; [apply IH; exact T|exact St|exact Q]. Qed.
Lemma in_time_init : in_time init.
Proof. intros r p k E. discriminate. Qed.

Theorem returns cap s : 0 < cap -> timely cap init s ->
  exists bound, forall n s', goes_on cap n s s' -> n <= bound /\
    (~ all_over s' -> exists s'', goes_on cap (S n) s s'').
Proof.
  intros Hc T. exists (work s). intros n s' G. split; [pose proof (goes_on_work cap n s s' G); lia|]. intros No.
  pose proof (goes_on_timely cap n s s' G init T) as T'.
  destruct (timely_inv cap init s' T' inv_init invE_init in_time_init) as [I1 [I2 I3]].
  destruct (progress cap Hc s' I1 I2 I3 No) as [s'' [St [Q L]]]. exists s''. eapply G_step; eauto.
Qed.
