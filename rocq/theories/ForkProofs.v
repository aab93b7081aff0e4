(** Proofs about [ForkModel]: what is in the socket, and whose turn it is. *)
From Verif Require Import Base ForkModel.
Require Import Lia.
Open Scope nat_scope.

Definition rq (s : state) (i : nat) : option req := option_map c_req (nth_error (calls s) i).
Definition ph (s : state) (i : nat) : option phase := option_map c_ph (nth_error (calls s) i).
Definition se (s : state) (i : nat) : option (option Z) := option_map c_set (nth_error (calls s) i).

Lemma nth_set (l : list call) (i : nat) (c c0 : call) : nth_error l i = Some c0 ->
  forall j, nth_error (set_nth l i c) j = if j =? i then Some c else nth_error l j.
Proof.
  unfold set_nth. revert i. induction l as [|a l IH]; intros [|i] E j; cbn in E |- *; try discriminate.
  - destruct j; cbn; try reflexivity.
  - destruct j; cbn; [reflexivity|]. now apply IH.
Qed.
Lemma nth_snoc {A} (l : list A) (c : A) j : nth_error (l ++ [c]) j = if j =? length l then Some c else nth_error l j.
Proof.
  revert j. induction l as [|a l IH]; intros [|j]; cbn; try reflexivity.
  - now destruct j.
  - apply IH.
Qed.

(** ** Reading back what was written *)

Definition payload (r : req) : list cell := map Bt (job r) ++ map Bt (dir r) ++ map Bt (cmd r) ++ map Bt (env r) ++ map Bt (vardict r).
Lemma enc_payload r : enc r = H (header r) :: payload r.
Proof. reflexivity. Qed.
Lemma total_payload r : total (header r) = length (payload r).
Proof. unfold total, payload. cbn. rewrite !app_length, !map_length. lia. Qed.
Lemma firstn_map_app (a : bytes) l : firstn (length a) (map Bt a ++ l) = map Bt a.
Proof. rewrite <- (map_length Bt a) at 1. rewrite firstn_app, Nat.sub_diag, firstn_all. cbn. now rewrite app_nil_r. Qed.
Lemma skipn_map_app (a : bytes) l : skipn (length a) (map Bt a ++ l) = l.
Proof. rewrite <- (map_length Bt a) at 1. now rewrite skipn_app, Nat.sub_diag, skipn_all. Qed.
Lemma map_byte a : map byte (map Bt a) = a.
Proof. rewrite map_map. apply map_id. Qed.
Lemma parts_payload r : parts (header r) (payload r) = r.
Proof.
  destruct r as [x f j d c e v]. unfold parts, payload, take, header. cbn [h_sid h_flags h_job h_dir h_cmd h_env h_var sid flags job dir cmd env vardict].
  rewrite !skipn_map_app, !firstn_map_app.
  assert (E : firstn (length v) (map Bt v) = map Bt v) by (rewrite <- (map_length Bt v); apply firstn_all).
  rewrite E, !map_byte. reflexivity.
Qed.
Lemma payload_bytes r x : In x (payload r) -> exists b, x = Bt b.
Proof. unfold payload. rewrite !in_app_iff, !in_map_iff. intros [[b [<- _]]|[[b [<- _]]|[[b [<- _]]|[[b [<- _]]|[b [<- _]]]]]]; eauto. Qed.

(** ** The socket *)

Definition encs (s : state) (l : list nat) : list cell := flat_map (fun i => match rq s i with Some r => enc r | None => [] end) l.
Definition rest (s : state) : list cell :=
  match lock s with Some i => match ph s i with Some (CWrite l) => l | _ => [] end | None => [] end.
Definition tail (s : state) : list cell := if shut s then [H bye] else [].
Definition partial (got : list cell) : Prop := got = [] \/ exists h l, got = H h :: l /\ length l < total h.
Definition started (p : phase) : Prop := match p with CWrite _ | CWait | CDone => True | _ => False end.

Definition reads (s : state) : Prop :=
  match mph s with
  | MRead got => partial got /\ got ++ up s ++ rest s = encs s (skipn (forks s) (order s)) ++ tail s
  | MFork r => (exists i, nth_error (order s) (forks s) = Some i /\ rq s i = Some r) /\
      up s ++ rest s = encs s (skipn (S (forks s)) (order s)) ++ tail s
  | MIns r p k => S k = forks s /\ (exists i, nth_error (order s) k = Some i /\ rq s i = Some r) /\
      up s ++ rest s = encs s (skipn (forks s) (order s)) ++ tail s
  | MClose | MJoin | MDone => forks s = length (order s) /\ up s = [] /\ rest s = [] /\ shut s = true
  | MDead => True
  end.

Record invA (s : state) : Prop := {
  a_nodup : NoDup (order s);
  a_order : forall i, In i (order s) <-> exists p, ph s i = Some p /\ started p;
  a_lock : forall i, (exists l, ph s i = Some (CWrite l)) <-> lock s = Some i;
  a_last : forall i, lock s = Some i -> exists o, order s = o ++ [i];
  a_forks : forks s <= length (order s);
  a_reads : reads s;
  a_sid : forall i r, rq s i = Some r -> ph s i <> Some CFail -> sid r <> (-1)%Z;
  a_shut : shut s = true -> forall i p, ph s i = Some p -> p = CDone \/ p = CFail;
}.

Lemma encs_ext s s' l : (forall i, In i l -> rq s' i = rq s i) -> encs s' l = encs s l.
Proof. intros E. unfold encs. induction l as [|a l IH]; cbn; [reflexivity|]. rewrite (E a (or_introl eq_refl)), IH; [reflexivity|]. intros i Hi. apply E. now right. Qed.
Lemma encs_app s l l' : encs s (l ++ l') = encs s l ++ encs s l'.
Proof. apply flat_map_app. Qed.

Lemma encs_cons s i r o : rq s i = Some r -> encs s (i :: o) = enc r ++ encs s o.
Proof. intros E. unfold encs. cbn. now rewrite E. Qed.

Lemma ph_rq s i p : ph s i = Some p -> exists r, rq s i = Some r.
Proof. unfold ph, rq. destruct (nth_error (calls s) i); cbn; [eauto|discriminate]. Qed.
Lemma ph_lt s i p : ph s i = Some p -> i < length (calls s).
Proof. unfold ph. destruct (nth_error (calls s) i) eqn:E; cbn; [|discriminate]. intros _. apply nth_error_Some. congruence. Qed.

Lemma in_skipn {A} n (l : list A) x : In x (skipn n l) -> In x l.
Proof. rewrite <- (firstn_skipn n l) at 2. intros I. apply in_or_app. now right. Qed.
Lemma skipn_snoc {A} n (l : list A) x : n <= length l -> skipn n (l ++ [x]) = skipn n l ++ [x].
Proof. intros L. rewrite skipn_app. replace (n - length l) with 0 by lia. reflexivity. Qed.
Lemma skipn_nth {A} n (l : list A) x t : skipn n l = x :: t -> nth_error l n = Some x /\ skipn (S n) l = t.
Proof.
  revert l. induction n as [|n IH]; intros [|a l] E; cbn in E; try discriminate.
  - injection E as -> ->. now split.
  - destruct (IH _ E) as [P Q]. split; [exact P|exact Q].
Qed.
Lemma nth_skipn {A} n (l : list A) x : nth_error l n = Some x -> skipn n l = x :: skipn (S n) l.
Proof.
  revert l. induction n as [|n IH]; intros [|a l] E; cbn in E; try discriminate.
  - now injection E as ->.
  - cbn [skipn]. rewrite (IH _ E). reflexivity.
Qed.
Lemma app_prefix {A} (a b c d : list A) : a ++ b = c ++ d -> length a <= length c -> exists e, c = a ++ e /\ b = e ++ d.
Proof.
  revert c. induction a as [|x a IH]; intros c E L; cbn in *.
  - now exists c.
  - destruct c as [|y c]; cbn in *; [lia|]. injection E as -> E. destruct (IH c E) as [e [-> ->]]; [lia|]. now exists e.
Qed.

(** What the next unit in the socket is. *)
Lemma at_header s h u : invA s -> mph s = MRead [] -> up s = H h :: u ->
  (exists i r o, skipn (forks s) (order s) = i :: o /\ rq s i = Some r /\ h = header r /\ u ++ rest s = payload r ++ encs s o ++ tail s) \/
  (skipn (forks s) (order s) = [] /\ shut s = true /\ h = bye /\ u = [] /\ rest s = []).
Proof.
  intros Iv Em Eu. pose proof (a_reads s Iv) as R. unfold reads in R. rewrite Em, Eu in R. destruct R as [_ R].
  destruct (skipn (forks s) (order s)) as [|i o] eqn:Eo; cbn [app] in R.
  - right. cbn in R. unfold tail in R. destruct (shut s); cbn in R; [|discriminate].
    injection R as -> R. apply app_eq_nil in R. now destruct R.
  - left. assert (Hi : In i (order s)) by (apply (in_skipn (forks s)); rewrite Eo; now left).
    apply (a_order s Iv) in Hi. destruct Hi as [p [Ep _]]. destruct (ph_rq s i p Ep) as [r Er].
    exists i, r, o. split; [reflexivity|]. split; [exact Er|].
    rewrite (encs_cons s i r o Er), enc_payload in R. cbn [app] in R. injection R as -> R. split; [reflexivity|].
    rewrite R. now rewrite <- app_assoc.
Qed.
Lemma at_byte s h l x u : invA s -> mph s = MRead (H h :: l) -> up s = x :: u ->
  exists i r o e, skipn (forks s) (order s) = i :: o /\ rq s i = Some r /\ h = header r /\ payload r = l ++ x :: e /\ u ++ rest s = e ++ encs s o ++ tail s.
Proof.
  intros Iv Em Eu. pose proof (a_reads s Iv) as R. unfold reads in R. rewrite Em, Eu in R. destruct R as [[P|[h' [l' [P Lt]]]] R]; [discriminate|].
  injection P as <- <-.
  destruct (skipn (forks s) (order s)) as [|i o] eqn:Eo; cbn [app] in R.
  - exfalso. cbn in R. unfold tail in R. destruct (shut s); cbn in R; [|discriminate].
    injection R as -> R. destruct l; discriminate.
  - assert (Hi : In i (order s)) by (apply (in_skipn (forks s)); rewrite Eo; now left).
    apply (a_order s Iv) in Hi. destruct Hi as [p [Ep _]]. destruct (ph_rq s i p Ep) as [r Er].
    rewrite (encs_cons s i r o Er), enc_payload in R. cbn [app] in R. injection R as -> R.
    rewrite <- app_assoc in R. rewrite total_payload in Lt.
    replace (l ++ x :: u ++ rest s) with ((l ++ [x]) ++ u ++ rest s) in R by (now rewrite <- app_assoc).
    destruct (app_prefix _ _ _ _ R) as [e [Ee R']]; [rewrite app_length; cbn; lia|].
    exists i, r, o, e. rewrite <- app_assoc in Ee. cbn in Ee. repeat split; auto.
Qed.

Lemma upd_rq s i c c' : nth_error (calls s) i = Some c -> c_req c' = c_req c -> forall j, option_map c_req (nth_error (set_nth (calls s) i c') j) = rq s j.
Proof. intros E Er j. rewrite (nth_set _ _ _ _ E). unfold rq. destruct (Nat.eqb_spec j i) as [->|N]; [rewrite E; cbn; now rewrite Er|reflexivity]. Qed.

Lemma ph_of s i c : nth_error (calls s) i = Some c -> ph s i = Some (c_ph c).
Proof. intros E. unfold ph. now rewrite E. Qed.
Lemma rq_of s i c : nth_error (calls s) i = Some c -> rq s i = Some (c_req c).
Proof. intros E. unfold rq. now rewrite E. Qed.
Lemma se_of s i c : nth_error (calls s) i = Some c -> se s i = Some (c_set c).
Proof. intros E. unfold se. now rewrite E. Qed.

(** The steps leave alone, or change in one place, what call [i] is doing. *)
Definition same_calls (s s' : state) := forall i, rq s' i = rq s i /\ ph s' i = ph s i.

Lemma reads_ext s s' : mph s' = mph s -> forks s' = forks s -> order s' = order s -> up s' ++ rest s' = up s ++ rest s ->
  (mph s = MClose \/ mph s = MJoin \/ mph s = MDone -> up s' = [] /\ rest s' = []) ->
  shut s' = shut s -> (forall i, In i (order s) -> rq s' i = rq s i) -> reads s -> reads s'.
Proof.
  intros E1 E2 E3 E4 E5 E6 E7. unfold reads. rewrite E1, E2, E3, E6.
  assert (Tl : tail s' = tail s) by (unfold tail; now rewrite E6).
  assert (En : forall n, encs s' (skipn n (order s)) = encs s (skipn n (order s))) by (intros n; apply encs_ext; intros i Hi; apply E7; revert Hi; apply in_skipn).
  destruct (mph s) eqn:Em; try rewrite E4; try rewrite Tl; try rewrite En; auto.
  - intros [[i [Q1 Q2]] Q3]. split; [|exact Q3]. exists i. split; [exact Q1|]. rewrite E7; [exact Q2|]. now apply nth_error_In in Q1.
  - intros [Q0 [[i [Q1 Q2]] Q3]]. split; [exact Q0|]. split; [|exact Q3]. exists i. split; [exact Q1|]. rewrite E7; [exact Q2|]. now apply nth_error_In in Q1.
  - intros [Q1 [Q2 [Q3 Q4]]]. destruct E5; auto.
  - intros [Q1 [Q2 [Q3 Q4]]]. destruct E5; auto.
  - intros [Q1 [Q2 [Q3 Q4]]]. destruct E5; auto.
Qed.

Lemma invA_init : invA init.
Proof.
  constructor.
  - constructor.
  - intros i. cbn. split; [intros []|]. unfold ph. destruct i; intros [p [E _]]; discriminate.
  - intros i. unfold ph. split; [|discriminate]. destruct i; intros [l E]; discriminate.
  - discriminate.
  - cbn. lia.
  - cbn. split; [now left|reflexivity].
  - intros i r. unfold rq. destruct i; discriminate.
  - discriminate.
Qed.

(** A step that changes nothing of this part. *)
Lemma invA_same s s' : calls s' = calls s -> lock s' = lock s -> up s' = up s -> mph s' = mph s -> forks s' = forks s -> shut s' = shut s -> order s' = order s ->
  invA s -> invA s'.
Proof.
  intros E1 E2 E3 E4 E5 E6 E7 Iv.
  assert (Eph : forall i, ph s' i = ph s i) by (intros i; unfold ph; now rewrite E1).
  assert (Erq : forall i, rq s' i = rq s i) by (intros i; unfold rq; now rewrite E1).
  assert (Ers : rest s' = rest s) by (unfold rest; rewrite E2; destruct (lock s); [now rewrite Eph|reflexivity]).
  destruct Iv. constructor.
  - now rewrite E7.
  - intros i. rewrite E7, Eph. apply a_order0.
  - intros i. rewrite E2, Eph. apply a_lock0.
  - intros i. rewrite E2, E7. apply a_last0.
  - now rewrite E5, E7.
  - apply (reads_ext s); auto; try congruence.
    unfold reads in a_reads0. intros [E|[E|E]]; rewrite E in a_reads0; destruct a_reads0 as [_ [Q1 [Q2 _]]]; rewrite E3, Ers; auto.
  - intros i r. rewrite Eph, Erq. apply a_sid0.
  - intros Hs i p. rewrite Eph. rewrite E6 in Hs. now apply a_shut0.
Qed.
(** A step of the forking process only. *)
Lemma invA_master s s' : calls s' = calls s -> lock s' = lock s -> shut s' = shut s -> order s' = order s ->
  forks s' <= length (order s) -> reads s' -> invA s -> invA s'.
Proof.
  intros E1 E2 E6 E7 L R Iv.
  assert (Eph : forall i, ph s' i = ph s i) by (intros i; unfold ph; now rewrite E1).
  destruct Iv. constructor.
  - now rewrite E7.
  - intros i. rewrite E7, Eph. apply a_order0.
  - intros i. rewrite E2, Eph. apply a_lock0.
  - intros i. rewrite E2, E7. apply a_last0.
  - now rewrite E7.
  - exact R.
  - intros i r. rewrite Eph. unfold rq. rewrite E1. apply a_sid0.
  - intros Hs i p. rewrite Eph. rewrite E6 in Hs. now apply a_shut0.
Qed.

Lemma rest_same s s' : calls s' = calls s -> lock s' = lock s -> rest s' = rest s.
Proof. intros E1 E2. unfold rest, ph. now rewrite E1, E2. Qed.
Lemma encs_same s s' l : calls s' = calls s -> encs s' l = encs s l.
Proof. intros E1. apply encs_ext. intros i _. unfold rq. now rewrite E1. Qed.

Lemma last_inj {A} (a b : list A) x y : a ++ [x] = b ++ [y] -> x = y.
Proof. intros E. apply app_inj_tail in E. now destruct E. Qed.

Lemma invA_step cap s s' : step cap s s' -> invA s -> invA s'.
Proof.
  intros St Iv. destruct St as
    [r Hsh Hsid Hf | r i0 Hsh Hf | i c Hl Hn Hp | i c x rs Hn Hp Hc | i c Hn Hp | i c st Hn Hp Hse
    | h u Hm Hu Hsid | h l b u Hm Hu | got x u Hm Hu Hx | r pid Hm Hk | r pid k Hm Hf | r pid k e Hm Hf
    | a k b st Hk Hst | Hw Ht He | Hw He | a k b st Hw Hk Hst | Hw Hk | pid st k x k' Hw Hf | pid st k Hw Hf | x st k Hw Hd
    | x st k u i c Hnp Hd Hx Hf Hn | x st k u Hnp Hd Hx Hf | st k u Hnp Hd | Hsh Hfin Hc | u h Hm Hu Hsid | Hm Hc | Hm He | Hm He Hw];
  try (apply (invA_same s); [reflexivity..|exact Iv]).
  - (* S_call *)
    set (s' := note _ _).
    assert (Eph : forall j, ph s' j = if j =? length (calls s) then Some CNew else ph s j).
    { intros j. unfold ph, s'. cbn. rewrite nth_snoc. now destruct (j =? _). }
    assert (Erq : forall j, In j (order s) -> rq s' j = rq s j).
    { intros j Hj. apply (a_order s Iv) in Hj. destruct Hj as [p [Ej _]]. apply ph_lt in Ej. unfold rq, s'. cbn. rewrite nth_snoc.
      destruct (Nat.eqb_spec j (length (calls s))); [lia|reflexivity]. }
    assert (Ers : rest s' = rest s).
    { unfold rest. change (lock s') with (lock s). destruct (lock s) as [i|] eqn:El; [|reflexivity]. rewrite Eph.
      apply (a_lock s Iv) in El. destruct El as [l El]. pose proof (ph_lt _ _ _ El). destruct (Nat.eqb_spec i (length (calls s))); [lia|reflexivity]. }
    destruct Iv. constructor; auto.
    + intros i. rewrite Eph. cbn [order s' note set_root set_calls]. rewrite a_order0. destruct (Nat.eqb_spec i (length (calls s))) as [->|N]; [|reflexivity].
      split; intros [p [Ep Sp]]; [apply ph_lt in Ep; lia|injection Ep as <-; destruct Sp].
    + intros i. rewrite Eph. cbn [lock s' note set_root set_calls]. rewrite <- a_lock0. destruct (Nat.eqb_spec i (length (calls s))) as [->|N]; [|reflexivity].
      split; intros [p Ep]; [discriminate|apply ph_lt in Ep; lia].
    + apply (reads_ext s); auto. now rewrite Ers.
      unfold reads in a_reads0. intros [E|[E|E]]; rewrite E in a_reads0; destruct a_reads0 as [_ [Q1 [Q2 _]]]; rewrite Ers; auto.
    + intros j r'. rewrite Eph. unfold rq, s'. cbn. rewrite nth_snoc. destruct (Nat.eqb_spec j (length (calls s))) as [->|N]; [|apply a_sid0].
      cbn. now intros [= <-] _.
    + cbn. congruence.
  - (* S_refuse *)
    set (s' := note _ _).
    assert (Eph : forall j, ph s' j = if j =? length (calls s) then Some CFail else ph s j).
    { intros j. unfold ph, s'. cbn. rewrite nth_snoc. now destruct (j =? _). }
    assert (Erq : forall j, In j (order s) -> rq s' j = rq s j).
    { intros j Hj. apply (a_order s Iv) in Hj. destruct Hj as [p [Ej _]]. apply ph_lt in Ej. unfold rq, s'. cbn. rewrite nth_snoc.
      destruct (Nat.eqb_spec j (length (calls s))); [lia|reflexivity]. }
    assert (Ers : rest s' = rest s).
    { unfold rest. change (lock s') with (lock s). destruct (lock s) as [i|] eqn:El; [|reflexivity]. rewrite Eph.
      apply (a_lock s Iv) in El. destruct El as [l El]. pose proof (ph_lt _ _ _ El). destruct (Nat.eqb_spec i (length (calls s))); [lia|reflexivity]. }
    destruct Iv. constructor; auto.
    + intros i. rewrite Eph. cbn [order s' note set_root set_calls]. rewrite a_order0. destruct (Nat.eqb_spec i (length (calls s))) as [->|N]; [|reflexivity].
      split; intros [p [Ep Sp]]; [apply ph_lt in Ep; lia|injection Ep as <-; destruct Sp].
    + intros i. rewrite Eph. cbn [lock s' note set_root set_calls]. rewrite <- a_lock0. destruct (Nat.eqb_spec i (length (calls s))) as [->|N]; [|reflexivity].
      split; intros [p Ep]; [discriminate|apply ph_lt in Ep; lia].
    + apply (reads_ext s); auto. now rewrite Ers.
      unfold reads in a_reads0. intros [E|[E|E]]; rewrite E in a_reads0; destruct a_reads0 as [_ [Q1 [Q2 _]]]; rewrite Ers; auto.
    + intros j r'. rewrite Eph. unfold rq, s'. cbn. rewrite nth_snoc. destruct (Nat.eqb_spec j (length (calls s))) as [->|N]; [|apply a_sid0].
      congruence.
    + cbn. congruence.
  - (* S_lock *)
    set (s' := set_order _ _).
    assert (Eph : forall j, ph s' j = if j =? i then Some (CWrite (enc (c_req c))) else ph s j).
    { intros j. unfold ph, s'. cbn. rewrite (nth_set _ _ _ _ Hn). now destruct (j =? i). }
    assert (Erq : forall j, rq s' j = rq s j) by (intros j; exact (upd_rq s i c (with_ph c _) Hn eq_refl j)).
    assert (Ni : ~ In i (order s)).
    { intros Hi. apply (a_order s Iv) in Hi. destruct Hi as [p [Ep Sp]]. rewrite (ph_of _ _ _ Hn), Hp in Ep. injection Ep as <-. destruct Sp. }
    assert (Ers : rest s' = enc (c_req c)) by (unfold rest; cbn [lock s' set_order set_lock]; rewrite Eph, Nat.eqb_refl; reflexivity).
    assert (Ers0 : rest s = []) by (unfold rest; now rewrite Hl).
    assert (Nsh : shut s = false).
    { destruct (shut s) eqn:Es; [|reflexivity]. destruct (a_shut s Iv Es i _ (ph_of _ _ _ Hn)) as [E|E]; congruence. }
    assert (Tl : tail s' = [] /\ tail s = []) by (unfold tail; cbn; rewrite Nsh; auto).
    assert (En : forall n, n <= length (order s) -> encs s' (skipn n (order s')) = encs s (skipn n (order s)) ++ enc (c_req c)).
    { intros n L. cbn [order s' set_order]. rewrite skipn_snoc; [|exact L]. rewrite (encs_ext s s'); [|intros; apply Erq]. rewrite encs_app. f_equal.
      cbn. now rewrite (rq_of _ _ _ Hn), app_nil_r. }
    destruct Tl as [Tl Tl0]. destruct Iv. constructor; auto.
    + cbn. rewrite <- rev_involutive. apply NoDup_rev. rewrite rev_app_distr. cbn. constructor; [rewrite <- in_rev; exact Ni|]. now apply NoDup_rev.
    + intros j. rewrite Eph. cbn [order s' set_order]. rewrite in_app_iff, a_order0. cbn [In]. destruct (Nat.eqb_spec j i) as [->|N].
      * split; [|now auto]. intros _. eexists. split; [reflexivity|exact I].
      * split; [intros [P|[P|[]]]; [exact P|congruence]|auto].
    + intros j. rewrite Eph. cbn [lock s' set_order set_lock]. destruct (Nat.eqb_spec j i) as [->|N].
      * split; [reflexivity|]. intros _. eauto.
      * rewrite a_lock0, Hl. split; [discriminate|congruence].
    + cbn. intros j [= <-]. eauto.
    + cbn. rewrite app_length. cbn. lia.
    + unfold reads in a_reads0 |- *. change (mph s') with (mph s). change (forks s') with (forks s). change (up s') with (up s). change (shut s') with (shut s).
      rewrite Ers, Tl. rewrite Ers0, Tl0, !app_nil_r in a_reads0. rewrite !app_nil_r.
      destruct (mph s); auto.
      * destruct a_reads0 as [Q1 Q2]. split; [exact Q1|]. rewrite En by exact a_forks0. rewrite <- Q2. now rewrite app_assoc.
      * destruct a_reads0 as [[j [Q1 Q2]] Q3]. pose proof (proj1 (nth_error_Some (order s) (forks s)) ltac:(congruence)). split; [|rewrite En by lia; now rewrite Q3].
        exists j. split; [cbn; rewrite nth_error_app1; auto|]. now rewrite Erq.
      * destruct a_reads0 as [Q0 [[j [Q1 Q2]] Q3]]. pose proof (proj1 (nth_error_Some (order s) k) ltac:(congruence)). split; [exact Q0|]. split; [|rewrite En by lia; now rewrite Q3].
        exists j. split; [cbn; rewrite nth_error_app1; auto|]. now rewrite Erq.
      * destruct a_reads0 as [_ [_ [_ Q]]]. congruence.
      * destruct a_reads0 as [_ [_ [_ Q]]]. congruence.
      * destruct a_reads0 as [_ [_ [_ Q]]]. congruence.
    + intros j r'. rewrite Eph, Erq. destruct (Nat.eqb_spec j i) as [->|N]; [|apply a_sid0]. intros E _. apply (a_sid0 i r' E). rewrite (ph_of _ _ _ Hn), Hp. discriminate.
    + cbn. congruence.
  - (* S_write *)
    set (s' := set_up _ _).
    assert (Hl : lock s = Some i) by (apply (a_lock s Iv); exists (x :: rs); now rewrite (ph_of _ _ _ Hn), Hp).
    assert (Eph : forall j, ph s' j = if j =? i then Some (CWrite rs) else ph s j).
    { intros j. unfold ph, s'. cbn. rewrite (nth_set _ _ _ _ Hn). now destruct (j =? i). }
    assert (Erq : forall j, rq s' j = rq s j) by (intros j; exact (upd_rq s i c (with_ph c _) Hn eq_refl j)).
    assert (Ers : rest s' = rs) by (unfold rest; cbn [lock s' set_up upd_call set_calls]; rewrite Hl, Eph, Nat.eqb_refl; reflexivity).
    assert (Ers0 : rest s = x :: rs) by (unfold rest; rewrite Hl, (ph_of _ _ _ Hn), Hp; reflexivity).
    destruct Iv. constructor; auto.
    + intros j. rewrite Eph. change (order s') with (order s). rewrite a_order0. destruct (Nat.eqb_spec j i) as [->|N]; [|reflexivity].
      rewrite (ph_of _ _ _ Hn), Hp. split; intros [p [[= <-] _]]; eexists; (split; [reflexivity|exact I]).
    + intros j. rewrite Eph. change (lock s') with (lock s). destruct (Nat.eqb_spec j i) as [->|N]; [|apply a_lock0]. split; eauto.
    + apply (reads_ext s); auto.
      * rewrite Ers, Ers0. cbn. now rewrite <- app_assoc.
      * unfold reads in a_reads0. intros [E|[E|E]]; rewrite E in a_reads0; destruct a_reads0 as [_ [_ [Q _]]]; congruence.
    + intros j r'. rewrite Eph, Erq. destruct (Nat.eqb_spec j i) as [->|N]; [|apply a_sid0]. intros E _. apply (a_sid0 i r' E). rewrite (ph_of _ _ _ Hn), Hp. discriminate.
    + intros Sh j p. rewrite Eph. destruct (Nat.eqb_spec j i) as [->|N]; [|now apply a_shut0].
      exfalso. destruct (a_shut0 Sh i _ (ph_of _ _ _ Hn)) as [E|E]; congruence.
  - (* S_unlock *)
    set (s' := set_lock _ _).
    assert (Hl : lock s = Some i) by (apply (a_lock s Iv); exists []; now rewrite (ph_of _ _ _ Hn), Hp).
    assert (Eph : forall j, ph s' j = if j =? i then Some CWait else ph s j).
    { intros j. unfold ph, s'. cbn. rewrite (nth_set _ _ _ _ Hn). now destruct (j =? i). }
    assert (Erq : forall j, rq s' j = rq s j) by (intros j; exact (upd_rq s i c (with_ph c _) Hn eq_refl j)).
    assert (Ers0 : rest s = []) by (unfold rest; rewrite Hl, (ph_of _ _ _ Hn), Hp; reflexivity).
    destruct Iv. constructor; auto.
    + intros j. rewrite Eph. change (order s') with (order s). rewrite a_order0. destruct (Nat.eqb_spec j i) as [->|N]; [|reflexivity].
      rewrite (ph_of _ _ _ Hn), Hp. split; intros [p [[= <-] _]]; eexists; (split; [reflexivity|exact I]).
    + intros j. rewrite Eph. cbn [lock s' set_lock]. split; [|discriminate]. intros [l E]. exfalso. destruct (Nat.eqb_spec j i) as [->|N]; [discriminate|].
      assert (lock s = Some j) by (apply a_lock0; eauto). congruence.
    + discriminate.
    + apply (reads_ext s); auto.
      * now rewrite Ers0.
      * unfold reads in a_reads0. intros [E|[E|E]]; rewrite E in a_reads0; destruct a_reads0 as [_ [Q _]]; auto.
    + intros j r'. rewrite Eph, Erq. destruct (Nat.eqb_spec j i) as [->|N]; [|apply a_sid0]. intros E _. apply (a_sid0 i r' E). rewrite (ph_of _ _ _ Hn), Hp. discriminate.
    + intros Sh j p. rewrite Eph. destruct (Nat.eqb_spec j i) as [->|N]; [|now apply a_shut0].
      exfalso. destruct (a_shut0 Sh i _ (ph_of _ _ _ Hn)) as [E|E]; congruence.
  - (* S_return *)
    set (s' := note _ _).
    assert (Eph : forall j, ph s' j = if j =? i then Some CDone else ph s j).
    { intros j. unfold ph, s'. cbn. rewrite (nth_set _ _ _ _ Hn). now destruct (j =? i). }
    assert (Erq : forall j, rq s' j = rq s j) by (intros j; exact (upd_rq s i c (with_ph c _) Hn eq_refl j)).
    assert (Ers : rest s' = rest s).
    { unfold rest. change (lock s') with (lock s). destruct (lock s) as [j|] eqn:El; [|reflexivity]. rewrite Eph. destruct (Nat.eqb_spec j i) as [->|N]; [|reflexivity].
      now rewrite (ph_of _ _ _ Hn), Hp. }
    destruct Iv. constructor; auto.
    + intros j. rewrite Eph. change (order s') with (order s). rewrite a_order0. destruct (Nat.eqb_spec j i) as [->|N]; [|reflexivity].
      rewrite (ph_of _ _ _ Hn), Hp. split; intros [p [[= <-] _]]; eexists; (split; [reflexivity|exact I]).
    + intros j. rewrite Eph. change (lock s') with (lock s). rewrite <- a_lock0. destruct (Nat.eqb_spec j i) as [->|N]; [|reflexivity].
      rewrite (ph_of _ _ _ Hn), Hp. split; intros [l E]; discriminate.
    + apply (reads_ext s); auto.
      * now rewrite Ers.
      * unfold reads in a_reads0. intros [E|[E|E]]; rewrite E in a_reads0; destruct a_reads0 as [_ [Q1 [Q2 _]]]; rewrite Ers; auto.
    + intros j r'. rewrite Eph, Erq. destruct (Nat.eqb_spec j i) as [->|N]; [|apply a_sid0]. intros E _. apply (a_sid0 i r' E). rewrite (ph_of _ _ _ Hn), Hp. discriminate.
    + intros Sh j p. rewrite Eph. destruct (Nat.eqb_spec j i) as [->|N]; [|now apply a_shut0]. intros [= <-]. now left.
  - (* S_header *)
    set (s' := set_mph _ _).
    assert (Ers : rest s' = rest s) by (apply rest_same; reflexivity).
    apply (invA_master s); try reflexivity; [exact (a_forks s Iv)| |exact Iv].
    destruct (at_header s h u Iv Hm Hu) as [[i [r [o [Eo [Er [-> R]]]]]]|[_ [_ [-> _]]]]; [|now cbn in Hsid].
    unfold reads. cbn [mph s' set_mph]. change (order s') with (order s). change (forks s') with (forks s). change (up s') with u. change (tail s') with (tail s).
    rewrite Ers, total_payload.
    destruct (skipn_nth _ _ _ _ Eo) as [En Es]. rewrite Eo.
    destruct (Nat.eqb_spec (length (payload r)) 0) as [E0|E0].
    + assert (Ep : payload r = []) by (destruct (payload r); [reflexivity|discriminate]). split.
      * exists i. split; [exact En|]. change (rq s' i) with (rq s i). rewrite Er. f_equal. rewrite <- (parts_payload r) at 1. now rewrite Ep.
      * rewrite R, Ep, (encs_same s s') by reflexivity. now rewrite Es.
    + split; [right; exists (header r), []; split; [reflexivity|rewrite total_payload; cbn; lia]|].
      cbn [app]. rewrite R. rewrite (encs_cons s' i r o Er), enc_payload. cbn [app]. now rewrite <- app_assoc, (encs_same s s') by reflexivity.
  - (* S_byte *)
    set (s' := set_mph _ _).
    assert (Ers : rest s' = rest s) by (apply rest_same; reflexivity).
    apply (invA_master s); try reflexivity; [exact (a_forks s Iv)| |exact Iv].
    destruct (at_byte s h l (Bt b) u Iv Hm Hu) as [i [r [o [e [Eo [Er [-> [Ep R]]]]]]]].
    pose proof (a_reads s Iv) as Q. unfold reads in Q. rewrite Hm in Q. destruct Q as [[Q|[h' [l' [Q Lt]]]] _]; [discriminate|]. injection Q as <- <-.
    unfold reads. cbn [mph s' set_mph]. change (order s') with (order s). change (forks s') with (forks s). change (up s') with u. change (tail s') with (tail s).
    rewrite Ers. rewrite total_payload in *.
    destruct (skipn_nth _ _ _ _ Eo) as [En Es]. rewrite Eo.
    destruct (Nat.eqb_spec (S (length l)) (length (payload r))) as [E0|E0].
    + assert (e = []) as ->. { rewrite Ep, app_length in E0. cbn in E0. destruct e; [reflexivity|cbn in E0; lia]. }
      split.
      * exists i. split; [exact En|]. change (rq s' i) with (rq s i). rewrite Er. f_equal. rewrite <- (parts_payload r) at 1. now rewrite Ep.
      * rewrite R, (encs_same s s') by reflexivity. now rewrite Es.
    + split.
      * right. exists (header r), (l ++ [Bt b]). split; [reflexivity|]. rewrite total_payload, app_length. cbn. lia.
      * cbn [app]. rewrite R. rewrite (encs_cons s' i r o Er), enc_payload, Ep. cbn [app]. rewrite <- !app_assoc. cbn [app].
        rewrite (encs_same s s') by reflexivity. now rewrite <- ?app_assoc.
  - (* S_misread *) apply (invA_master s); try reflexivity; first [exact (a_forks s Iv)|exact Iv|exact I].
  - (* S_fork *)
    set (s' := note _ _). pose proof (a_reads s Iv) as Q. unfold reads in Q. rewrite Hm in Q. destruct Q as [[i [Q1 Q2]] Q3].
    assert (Ers : rest s' = rest s) by (apply rest_same; reflexivity).
    apply (invA_master s); try reflexivity; [|  |exact Iv].
    + cbn. pose proof (proj1 (nth_error_Some (order s) (forks s)) ltac:(congruence)). lia.
    + unfold reads. cbn [mph s' set_mph note]. split; [reflexivity|]. split; [now exists i|]. rewrite Ers, (encs_same s s') by reflexivity. exact Q3.
  - (* S_insert *)
    set (s' := set_mph _ _). pose proof (a_reads s Iv) as Q. unfold reads in Q. rewrite Hm in Q. destruct Q as [Q0 [[i [Q1 Q2]] Q3]].
    assert (Ers : rest s' = rest s) by (apply rest_same; reflexivity).
    apply (invA_master s); try reflexivity; [exact (a_forks s Iv)| |exact Iv].
    unfold reads. cbn [mph s' set_mph note]. split; [now left|]. rewrite Ers, (encs_same s s') by reflexivity. exact Q3.
  - (* S_twice *) apply (invA_master s); try reflexivity; first [exact (a_forks s Iv)|exact Iv|exact I].
  - (* S_notify *)
    set (s' := set_root _ _).
    assert (Eph : forall j, ph s' j = ph s j).
    { intros j. unfold ph, s'. cbn. rewrite (nth_set _ _ _ _ Hn). destruct (Nat.eqb_spec j i) as [->|N]; [now rewrite Hn|reflexivity]. }
    assert (Erq : forall j, rq s' j = rq s j) by (intros j; exact (upd_rq s i c {| c_req := c_req c; c_ph := c_ph c; c_set := Some st |} Hn eq_refl j)).
    assert (Ers : rest s' = rest s).
    { unfold rest. change (lock s') with (lock s). destruct (lock s) as [j|]; [now rewrite Eph|reflexivity]. }
    destruct Iv. constructor; auto.
    + intros j. rewrite Eph. apply a_order0.
    + intros j. rewrite Eph. apply a_lock0.
    + apply (reads_ext s); auto.
      * now rewrite Ers.
      * unfold reads in a_reads0. intros [E|[E|E]]; rewrite E in a_reads0; destruct a_reads0 as [_ [Q1 [Q2 _]]]; rewrite Ers; auto.
    + intros j r'. rewrite Eph, Erq. apply a_sid0.
    + intros Sh j p. rewrite Eph. now apply a_shut0.
  - (* S_shut *)
    set (s' := set_shut _).
    assert (Hfa : forall i p, ph s i = Some p -> p = CDone \/ p = CFail).
    { intros i p. unfold ph. destruct (nth_error (calls s) i) as [c|] eqn:En; [|discriminate]. cbn. intros [= <-].
      rewrite forallb_forall in Hfin. specialize (Hfin c (nth_error_In _ _ En)). unfold finished in Hfin. destruct (c_ph c); auto; discriminate. }
    assert (Hl : lock s = None).
    { destruct (lock s) as [i|] eqn:El; [|reflexivity]. apply (a_lock s Iv) in El. destruct El as [l El]. destruct (Hfa _ _ El); discriminate. }
    assert (Ers : rest s' = []) by (unfold rest; change (lock s') with (lock s); now rewrite Hl).
    assert (Ers0 : rest s = []) by (unfold rest; now rewrite Hl).
    destruct Iv. constructor; auto.
    unfold reads in a_reads0 |- *. change (mph s') with (mph s). change (order s') with (order s). change (forks s') with (forks s). change (up s') with (up s ++ [H bye]).
    rewrite Ers. rewrite Ers0, !app_nil_r in a_reads0. rewrite !app_nil_r. unfold tail in *. rewrite Hsh in a_reads0. cbn [shut s' set_shut]. rewrite (encs_same s s') by reflexivity.
    rewrite !app_nil_r in a_reads0.
    destruct (mph s); auto.
    + destruct a_reads0 as [Q1 Q2]. split; [exact Q1|]. rewrite <- Q2. now rewrite <- app_assoc.
    + destruct a_reads0 as [Q1 Q2]. split; [exact Q1|]. rewrite (encs_same s s') by reflexivity. now rewrite <- Q2.
    + destruct a_reads0 as [Q0 [Q1 Q2]]. split; [exact Q0|]. split; [exact Q1|]. now rewrite <- Q2.
    + destruct a_reads0 as [_ [_ [_ Q]]]. congruence.
    + destruct a_reads0 as [_ [_ [_ Q]]]. congruence.
    + destruct a_reads0 as [_ [_ [_ Q]]]. congruence.
  - (* S_last *)
    set (s' := set_mph _ _).
    assert (Ers : rest s' = rest s) by (apply rest_same; reflexivity).
    destruct (at_header s h u Iv Hm Hu) as [[i [r [o [Eo [Er [-> R]]]]]]|[Eo [Sh [-> [-> R]]]]].
    + exfalso. assert (Hi : In i (order s)) by (apply (in_skipn (forks s)); rewrite Eo; now left).
      apply (a_order s Iv) in Hi. destruct Hi as [p [Ep Sp]]. apply (a_sid s Iv i r Er); [rewrite Ep; intros [= ->]; destruct Sp|exact Hsid].
    + apply (invA_master s); try reflexivity; [exact (a_forks s Iv)| |exact Iv].
      unfold reads. cbn [mph s' set_mph]. rewrite Ers. repeat split; auto.
      cbn. pose proof (a_forks s Iv). assert (L : length (skipn (forks s) (order s)) = 0) by (now rewrite Eo). rewrite skipn_length in L. lia.
  - (* S_close *) apply (invA_master s); try reflexivity; [exact (a_forks s Iv)| |exact Iv].
    pose proof (a_reads s Iv) as Q. unfold reads in Q |- *. rewrite Hm in Q. cbn. exact Q.
  - (* S_join *) apply (invA_master s); try reflexivity; [exact (a_forks s Iv)| |exact Iv].
    pose proof (a_reads s Iv) as Q. unfold reads in Q |- *. rewrite Hm in Q. cbn. exact Q.
Qed.
