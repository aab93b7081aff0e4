(** Every execution is finite. *)
From Verif Require Import Base ExecModel ExecSpec ExecProofs ExecProofs2 ExecProofs3.
From Coq Require Import Permutation.

Definition weight (g : graph) (e : edge) : nat := if is_tproc (trans g (src e)) then 2 else 1.
Fixpoint sum (f : edge -> nat) (l : list edge) : nat := match l with [] => 0 | e :: l => f e + sum f l end.

Lemma sum_filter f p l : sum f l = sum f (filter p l) + sum f (filter (fun e => negb (p e)) l).
Proof. induction l as [|e l IH]; [reflexivity|]. cbn [sum filter]. rewrite IH.
  destruct (p e); cbn [negb sum]; lia. Qed.
Lemma sum_ge f l : (forall e, 1 <= f e) -> length l <= sum f l.
Proof. intros H. induction l as [|e l IH]; [cbn; lia|]. cbn [sum length]. specialize (H e). lia. Qed.
Lemma sum_ext f h l : (forall e, In e l -> f e = h e) -> sum f l = sum h l.
Proof. induction l as [|e l IH]; intros H; [reflexivity|]. cbn [sum].
  rewrite (H e (or_introl eq_refl)), IH; [reflexivity|]. intros x Hx. apply H. right. exact Hx. Qed.
Lemma sum_app f a b : sum f (a ++ b) = sum f a + sum f b.
Proof. induction a as [|e a IH]; [reflexivity|]. cbn [sum app]. lia. Qed.

Lemma remove_edge_len n e l r : from n e = true -> filter (from n) l = e :: r ->
  filter (fun x => negb (from n x)) (remove_edge e l) = filter (fun x => negb (from n x)) l.
Proof.
  intros Fe. revert r. induction l as [|y l IH]; intros r H; [reflexivity|]. cbn [filter remove_edge] in *.
  destruct (from n y) eqn:Fy.
  - injection H as -> H. rewrite (proj2 (edge_eqb_eq e e) eq_refl). reflexivity.
  - destruct (edge_eqb y e) eqn:Q; [apply edge_eqb_eq in Q; congruence|]. cbn [filter]. rewrite Fy. cbn [negb].
    f_equal. exact (IH _ H).
Qed.

Lemma pop_edges_count n es : forall g g',
  filter (from n) (edges g) = es -> (forall e, In e es -> dst e <> n) ->
  pop_edges g n es = Some g' ->
  length (plist g') <= length (plist g) + length es /\ trans g' = trans g /\
  sum (weight g) (filter (fun e => negb (from n e)) (edges g')) =
    sum (weight g) (if is_tproc (trans g n) then map flip es else []) +
    sum (weight g) (filter (fun e => negb (from n e)) (edges g)) /\
  filter (from n) (edges g') = [].
Proof.
  induction es as [|e es IH]; intros g g' F Nd H; cbn [pop_edges] in H.
  - injection H as <-. cbn [length map]. split; [lia|]. split; [reflexivity|]. split; [|exact F].
    destruct (is_tproc (trans g n)); reflexivity.
  - assert (from n e = true) as Fe.
    { assert (In e (filter (from n) (edges g))) as C by (rewrite F; left; reflexivity).
      apply filter_In in C. exact (proj2 C). }
    assert (src e = n) as Se by (apply Nat.eqb_eq; exact Fe).
    assert (dst e <> n) as De by (apply Nd; left; reflexivity).
    destruct (if is_processing (state g (dst e)) then Some g else _) as [g1|] eqn:G1; [|discriminate].
    cbn [obind] in H.
    assert (length (plist g1) <= S (length (plist g)) /\ edges g1 = edges g /\ trans g1 = trans g) as [L1 [E1 T1]].
    { destruct (is_processing (state g (dst e))); [injection G1 as <-; auto|].
      unfold off_nodes in G1. destruct (inb (dst e) (node_list g)); [|discriminate]. cbn [obind] in G1.
      unfold to_plist_head in G1. cbn [plist node_list] in G1.
      destruct (inb (dst e) (plist g) || _); [discriminate|]. cbn [obind] in G1. injection G1 as <-.
      cbn. auto. }
    set (es1 := if is_tproc (trans g1 n)
                then {| src := dst e; dst := n; normal := true |} :: edges g1 else edges g1) in *.
    assert (filter (from n) es1 = e :: es) as F1.
    { unfold es1. rewrite E1. destruct (is_tproc (trans g1 n)); [|exact F].
      cbn [filter]. unfold from at 1. cbn [src].
      destruct (Nat.eqb_spec (dst e) n) as [C|_]; [congruence|exact F]. }
    destruct (remove_edge_from n e es1 es Fe F1) as [R1 _].
    pose proof (remove_edge_len n e es1 es Fe F1) as R2.
    destruct (IH (set_edges g1 (remove_edge e es1)) g' R1) as [A1 [A2 [A3 A4]]].
    { intros x Hx. apply Nd. right. exact Hx. }
    { exact H. }
    cbn [set_edges plist trans edges] in A1, A2, A3.
    split; [cbn [length]; lia|]. split; [congruence|]. split; [|exact A4].
    assert (weight (set_edges g1 (remove_edge e es1)) = weight g1) as Wg by reflexivity.
    rewrite Wg in A3. assert (forall l, sum (weight g1) l = sum (weight g) l) as Wl.
    { intros l. apply sum_ext. intros x _. unfold weight. rewrite T1. reflexivity. }
    rewrite !Wl in A3. rewrite A3, R2. unfold es1. rewrite T1, E1.
    destruct (is_tproc (trans g n)) eqn:Tn; [|reflexivity].
    cbn [filter map sum]. unfold from at 1. cbn [src].
    destruct (Nat.eqb_spec (dst e) n) as [C|_]; [congruence|]. cbn [negb sum]. unfold flip at 2. rewrite Se. lia.
Qed.

Section Term.
Context {WS : Type}.
Variable work : graph -> id -> WS -> WS -> bool -> Prop.
Variable keep_going : bool.
Variable g0 : graph.
Variable root : id.
Variable nodes : list id.
Hypothesis P0 : prepared g0 root nodes.
Variable jobs : nat.
Hypothesis Jpos : 0 < jobs.
Notation Inv := (Inv keep_going g0 root nodes jobs).

Definition cntT (g : graph) : nat := length (filter (fun x => is_tproc (trans g x)) nodes).
Definition mu (g : graph) : nat := length (plist g) + sum (weight g) (edges g) + cntT g.

Definition pcw (p : pc) : nat := match p with Loop => 5 | Check => 6 | _ => 0 end.
Definition total (s : @exec WS) : nat :=
  10 * mu (gr s) + 3 * length (running s) + 2 * length (fin s) + pcw (at_ s) + (if dead s then 0 else 1).

Lemma cnt_le (f h : id -> bool) l : (forall x, h x = true -> f x = true) ->
  length (filter h l) <= length (filter f l).
Proof.
  intros H. induction l as [|x l IH]; [cbn; lia|]. cbn [filter]. specialize (H x).
  destruct (h x), (f x); cbn [length]; try lia; specialize (H eq_refl); discriminate H.
Qed.
Lemma cnt_lt (f h : id -> bool) l n : (forall x, h x = true -> f x = true) -> In n l ->
  f n = true -> h n = false -> length (filter h l) < length (filter f l).
Proof.
  intros H. induction l as [|x l IH]; intros Hn Fn Hh; [destruct Hn|]. cbn [filter].
  pose proof (cnt_le f h l H) as L. destruct Hn as [->|Hn].
  - rewrite Fn, Hh. cbn [length]. lia.
  - specialize (IH Hn Fn Hh). pose proof (H x) as Hx. destruct (h x), (f x); cbn [length]; try lia.
    all: specialize (Hx eq_refl); discriminate Hx.
Qed.

Lemma pop_mu (s : @exec WS) g' n : Inv s -> In (n, true) (fin s) -> pop_node (gr s) n = Some g' -> mu g' <= mu (gr s).
Proof.
  intros I Nf H.
  assert (In n nodes) as Nn by (apply (i_sub _ _ _ _ _ _ I); apply live_in; eauto).
  assert (~ In n (lists (gr s))) as NL.
  { intros D. exact (proj2 (in_lists_not_busy s n (i_nodup _ _ _ _ _ _ I) D) true Nf). }
  unfold pop_node, out_edges in H.
  change (filter (fun e => src e =? n) (edges (gr s))) with (filter (from n) (edges (gr s))) in H.
  destruct (pop_edges (gr s) n (filter (from n) (edges (gr s)))) as [g1|] eqn:G1; [|discriminate].
  cbn [obind] in H.
  assert (forall e, In e (filter (from n) (edges (gr s))) -> In e (edges (gr s)) /\ src e = n) as FI.
  { intros e He. apply filter_In in He. destruct He as [H1 H2]. apply Nat.eqb_eq in H2. auto. }
  destruct (pop_edges_count n _ (gr s) g1 eq_refl) with (2 := G1) as [L1 [T1 [W1 F1]]].
  { intros e He D. apply NL. rewrite <- D. apply (i_dst _ _ _ _ _ _ I). apply FI. exact He. }
  assert (forall e, from n e = true -> src e = n) as FS by (intros e He; apply Nat.eqb_eq; exact He).
  assert (sum (weight (gr s)) (edges g1) =
          sum (weight (gr s)) (filter (fun e => negb (from n e)) (edges g1))) as Q1.
  { rewrite (sum_filter _ (from n)), F1. reflexivity. }
  pose proof (sum_filter (weight (gr s)) (from n) (edges (gr s))) as Q2.
  set (es := filter (from n) (edges (gr s))) in *.
  destruct (is_tproc (trans g1 n)) eqn:Tp; rewrite T1 in Tp; rewrite Tp in W1.
  - assert (sum (weight (gr s)) es = 2 * length es) as Q3.
    { assert (forall l, (forall e, In e l -> src e = n) -> sum (weight (gr s)) l = 2 * length l) as Q.
      { induction l as [|e l IH]; intros Hl; [reflexivity|]. cbn [sum length].
        rewrite IH by (intros x Hx; apply Hl; right; exact Hx). unfold weight at 1.
        rewrite (Hl e (or_introl eq_refl)), Tp. lia. }
      apply Q. intros e He. apply FI. exact He. }
    assert (sum (weight (gr s)) (map flip es) = length es) as Q4.
    { assert (forall l, (forall e, In e l -> is_tproc (trans (gr s) (dst e)) = false) ->
        sum (weight (gr s)) (map flip l) = length l) as Q.
      { induction l as [|e l IH]; intros Hl; [reflexivity|]. cbn [sum length map].
        rewrite IH by (intros x Hx; apply Hl; right; exact Hx). unfold weight at 1. cbn [flip src].
        rewrite (Hl e (or_introl eq_refl)). lia. }
      apply Q. intros e He. destruct (FI e He) as [He1 He2].
      assert (trans g0 n = TProcessing) as T0.
      { destruct (i_trans _ _ _ _ _ _ I n) as [[D _]|D]; destruct (trans (gr s) n); try discriminate; congruence. }
      destruct (i_edge _ _ _ _ _ _ I e He1) as [[D _]|[_ D]]; [|congruence].
      pose proof (p_flip _ _ _ P0 e D) as D2. rewrite He2 in D2. specialize (D2 T0).
      destruct (i_trans _ _ _ _ _ _ I (dst e)) as [[_ [D3 _]]|D3]; [congruence|]. rewrite D3, D2. reflexivity. }
    assert (cntT (set_trans (set_state g1 n Finished) n TDelete) < cntT (gr s)) as CT.
    { unfold cntT. apply cnt_lt with n; [|exact Nn|exact Tp|].
      - intros x. cbn. unfold upd. destruct (x =? n); [discriminate|]. rewrite T1. auto.
      - cbn. rewrite upd_same. reflexivity. }
    assert (forall g2, trans g2 = upd (trans g1) n TDelete -> edges g2 = edges g1 ->
        sum (weight g2) (edges g2) = sum (weight (gr s)) (edges g1)) as WW.
    { intros g2 Tg Eg. rewrite Eg. apply sum_ext. intros e He. unfold weight. rewrite Tg, T1.
      unfold upd. destruct (Nat.eqb_spec (src e) n) as [E|_]; [|reflexivity].
      exfalso. assert (In e (filter (from n) (edges g1))) as C.
      { apply filter_In. split; [exact He|apply Nat.eqb_eq; exact E]. }
      rewrite F1 in C. exact C. }
    assert (sum (weight (gr s)) (edges g1) + length es <= sum (weight (gr s)) (edges (gr s))) as Q5 by lia.
    unfold to_plist_head, to_nodes_head in H. cbn [plist node_list set_trans set_state] in H.
    destruct es as [|e0 es0] eqn:Ee; destruct (inb n (plist g1) || inb n (node_list g1)); try discriminate;
      cbn [obind] in H; injection H as <-; unfold mu; rewrite WW by reflexivity;
      cbn [plist set_trans set_state length] in *.
    all: match type of CT with ?a < _ => match goal with |- context [cntT (set_trans ?x ?y ?z)] => change (cntT (set_trans x y z)) with a end end; lia.
  - injection H as <-. unfold mu.
    assert (sum (weight g1) (edges g1) = sum (weight (gr s)) (edges g1)) as WW.
    { apply sum_ext. intros e _. unfold weight. rewrite T1. reflexivity. }
    assert (cntT g1 = cntT (gr s)) as CT by (unfold cntT; rewrite T1; reflexivity).
    cbn [sum] in W1. pose proof (sum_ge (weight (gr s)) es) as Q3.
    assert (forall e, 1 <= weight (gr s) e) as W by (intros e; unfold weight; destruct (is_tproc (trans (gr s) (src e))); lia).
    specialize (Q3 W). lia.
Qed.

Lemma total_decreases (s s' : @exec WS) : Inv s -> step work keep_going s s' -> total s' < total s.
Proof.
  intros I S. pose proof (step_inv work keep_going g0 root nodes P0 jobs Jpos _ _ I S) as I'.
  destruct S as [s n p At C Pl|s At C|s n ok r At C Fi|s At C|s n l r ws' ok Ru W|s De].
  - unfold loop_body in *. unfold off_plist in *.
    assert (inb n (plist (gr s)) = true) as Np by (apply inb_In; rewrite Pl; left; reflexivity).
    rewrite Np in *. cbn [obind] in *.
    assert (length (rm n (plist (gr s))) < length (plist (gr s))) as Lr.
    { rewrite Pl. cbn [rm length]. rewrite Nat.eqb_refl.
      assert (forall l, length (rm n l) <= length l) as Q.
      { induction l as [|x l IH]; [cbn; lia|]. cbn [rm length]. destruct (x =? n); cbn [length]; lia. }
      specialize (Q p). lia. }
    destruct (has_incoming (gr s) n) eqn:HI.
    + unfold to_nodes_head in *. cbn [plist node_list] in *.
      destruct (inb n (rm n (plist (gr s))) || inb n (node_list (gr s))).
      * cbn in I'. exfalso. apply (proj2 (i_pc _ _ _ _ _ _ I')). reflexivity.
      * cbn [obind with_graph]. unfold total. cbn [set_pc set_gr gr running fin at_ dead]. rewrite At. cbn [pcw].
        unfold mu. cbn [set_state plist edges]. unfold weight, cntT. cbn [set_state trans]. unfold cntT in *. lia.
    + assert (In n (live s)) as Nl by (apply live_in; left; rewrite Pl; left; reflexivity).
      rewrite (i_exp _ _ _ _ _ _ I), (p_expanded _ _ _ P0 n (i_sub _ _ _ _ _ _ I n Nl)) in *. cbn [negb] in *.
      destruct (free s) eqn:Fr; [exfalso; apply (proj1 (i_pc _ _ _ _ _ _ I')); reflexivity|].
      unfold total. cbn [gr running fin at_ dead]. rewrite At. cbn [pcw length].
      unfold mu. cbn [plist edges]. unfold weight, cntT. cbn [trans]. lia.
  - unfold total. cbn [set_pc gr running fin at_ dead]. rewrite At. cbn [pcw]. lia.
  - unfold reap in *. destruct ok.
    + destruct (pop_node (gr s) n) as [g'|] eqn:Pn.
      * assert (In (n, true) (fin s)) as Nf by (rewrite Fi; left; reflexivity).
        pose proof (pop_mu s g' n I Nf Pn) as M.
        cbn [with_graph]. unfold total. cbn [set_pc set_gr gr running fin at_ dead]. rewrite At, Fi. cbn [pcw length]. lia.
      * exfalso. apply (proj2 (i_pc _ _ _ _ _ _ I')). reflexivity.
    + unfold to_nodes_tail in *. destruct (inb n (plist (gr s)) || inb n (node_list (gr s))).
      * exfalso. apply (proj2 (i_pc _ _ _ _ _ _ I')). reflexivity.
      * cbn [with_graph]. unfold total. cbn [set_pc set_gr gr running fin at_ dead]. rewrite At, Fi. cbn [pcw length].
        unfold mu. cbn [plist edges]. unfold weight, cntT. cbn [trans]. lia.
  - unfold total. cbn [set_pc gr running fin at_ dead]. rewrite At. cbn [pcw]. lia.
  - unfold total. cbn [gr running fin at_ dead]. rewrite Ru, !app_length. cbn [length]. lia.
  - unfold total. cbn [gr running fin at_ dead]. rewrite De. lia.
Qed.

Inductive nsteps : nat -> exec -> exec -> Prop :=
| ns_refl s : nsteps 0 s s
| ns_step k s s' s'' : nsteps k s s' -> step work keep_going s' s'' -> nsteps (S k) s s''.

Lemma nsteps_bound k s s' : Inv s -> nsteps k s s' -> k + total s' <= total s /\ Inv s'.
Proof.
  intros I H. induction H as [|k s s' s'' H IH S]; [split; [lia|exact I]|].
  destruct (IH I) as [L I']. pose proof (total_decreases _ _ I' S).
  split; [lia|]. exact (step_inv work keep_going g0 root nodes P0 jobs Jpos _ _ I' S).
Qed.

Lemma finite w : exists bound, forall k s, nsteps k (start jobs g0 w) s -> k <= bound.
Proof.
  exists (total (start jobs g0 w)). intros k s H.
  destruct (nsteps_bound k _ s (start_inv work keep_going g0 root nodes P0 jobs Jpos w) H). lia.
Qed.
End Term.
