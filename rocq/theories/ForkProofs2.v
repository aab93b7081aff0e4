(** Proofs about [ForkModel]: which child belongs to which call. *)
From Verif Require Import Base ForkModel ForkProofs.
Require Import Lia.
Open Scope nat_scope.

Lemma upd_se s i c c' : nth_error (calls s) i = Some c -> c_set c' = c_set c -> forall j, option_map c_set (nth_error (set_nth (calls s) i c') j) = se s j.
Proof. intros E Er j. rewrite (nth_set _ _ _ _ E). unfold se. destruct (Nat.eqb_spec j i) as [->|N]; [rewrite E; cbn; now rewrite Er|reflexivity]. Qed.
Lemma upd_ph s i c c' : nth_error (calls s) i = Some c -> forall j, option_map c_ph (nth_error (set_nth (calls s) i c') j) = if j =? i then Some (c_ph c') else ph s j.
Proof. intros E j. rewrite (nth_set _ _ _ _ E). now destruct (j =? i). Qed.

(** ** The entries of status_root *)

Record invB (s : state) : Prop := {
  b_root : forall x i, In (x, i) (root s) <-> exists r, rq s i = Some r /\ sid r = x /\ se s i = Some None /\ ph s i <> Some CFail;
  b_nodup : NoDup (map fst (root s));
  b_done : forall i, ph s i = Some CDone -> exists st, se s i = Some (Some st);
}.

Lemma find_sid_in l x i : find_sid l x = Some i -> In (x, i) l.
Proof.
  unfold find_sid. destruct (find _ l) as [[y j]|] eqn:E; [|discriminate]. cbn. intros [= ->]. apply find_some in E. destruct E as [I E]. cbn in E.
  apply Z.eqb_eq in E. now subst.
Qed.
Lemma find_sid_none l x i : find_sid l x = None -> ~ In (x, i) l.
Proof.
  unfold find_sid. destruct (find _ l) as [[y j]|] eqn:E; [discriminate|]. intros _ I. apply (find_none _ _ E) in I. cbn in I. now rewrite Z.eqb_refl in I.
Qed.
Lemma rm_sid_in l x p : In p (rm_sid l x) <-> In p l /\ fst p <> x.
Proof. unfold rm_sid. rewrite filter_In, Bool.negb_true_iff, Z.eqb_neq. reflexivity. Qed.
Lemma find_pid_in l p e : find_pid l p = Some e -> In (p, e) l.
Proof.
  unfold find_pid. destruct (find _ l) as [[y j]|] eqn:E; [|discriminate]. cbn. intros [= ->]. apply find_some in E. destruct E as [I E]. cbn in E.
  apply Nat.eqb_eq in E. now subst.
Qed.
Lemma find_pid_none l p e : find_pid l p = None -> ~ In (p, e) l.
Proof.
  unfold find_pid. destruct (find _ l) as [[y j]|] eqn:E; [discriminate|]. intros _ I. apply (find_none _ _ E) in I. cbn in I. now rewrite Nat.eqb_refl in I.
Qed.
Lemma rm_pid_in l x p : In p (rm_pid l x) <-> In p l /\ fst p <> x.
Proof. unfold rm_pid. rewrite filter_In, Bool.negb_true_iff, Nat.eqb_neq. reflexivity. Qed.
Lemma nodup_filter {A B} (f : A -> B) g l : NoDup (map f l) -> NoDup (map f (filter g l)).
Proof.
  induction l as [|a l IH]; cbn; [auto|]. intros N. inversion N; subst. destruct (g a); cbn; auto. constructor; auto.
  intros I. apply H1. apply in_map_iff in I. destruct I as [b [E I]]. apply filter_In in I. apply in_map_iff. exists b. tauto.
Qed.
Lemma nodup_fst {A B} (l : list (A * B)) a b c : NoDup (map fst l) -> In (a, b) l -> In (a, c) l -> b = c.
Proof.
  induction l as [|[x y] l IH]; cbn; [intros _ []|]. intros N [E|I1] [F|I2]; inversion N; subst.
  - congruence.
  - injection E as -> ->. exfalso. apply H1. change a with (fst (a, c)). now apply in_map.
  - injection F as -> ->. exfalso. apply H1. change a with (fst (a, b)). now apply in_map.
  - now apply IH.
Qed.

Lemma invB_init : invB init.
Proof.
  constructor.
  - intros x i. cbn. split; [intros []|]. intros [r [E _]]. unfold rq in E. destruct i; discriminate.
  - constructor.
  - intros i. unfold ph. destruct i; discriminate.
Qed.
Lemma invB_same s s' : calls s' = calls s -> root s' = root s -> invB s -> invB s'.
Proof. intros E1 E2 [P Q R]. unfold rq, se, ph in *. constructor; unfold rq, se, ph in *; rewrite ?E1, ?E2; auto. Qed.
(** A step that changes only the phase of a call. *)
Lemma invB_phase s s' i c p : nth_error (calls s) i = Some c -> c_ph c <> CFail -> p <> CFail -> (p = CDone -> exists st, c_set c = Some st) ->
  calls s' = set_nth (calls s) i (with_ph c p) -> root s' = root s -> invB s -> invB s'.
Proof.
  intros Hn N1 N2 Hd E1 E2 Iv. destruct Iv as [P Q R].
  assert (Erq : forall j, rq s' j = rq s j) by (intros j; unfold rq; rewrite E1; exact (upd_rq s i c (with_ph c p) Hn eq_refl j)).
  assert (Ese : forall j, se s' j = se s j) by (intros j; unfold se; rewrite E1; exact (upd_se s i c (with_ph c p) Hn eq_refl j)).
  assert (Eph : forall j, ph s' j = if j =? i then Some p else ph s j) by (intros j; unfold ph; rewrite E1; exact (upd_ph s i c (with_ph c p) Hn j)).
  constructor.
  - intros x j. rewrite E2, P. rewrite Erq, Ese, Eph. destruct (Nat.eqb_spec j i) as [->|N]; [|reflexivity].
    rewrite (ph_of _ _ _ Hn). split; intros [r [Q1 [Q2 [Q3 Q4]]]]; exists r; repeat split; auto; congruence.
  - now rewrite E2.
  - intros j. rewrite Eph, Ese. destruct (Nat.eqb_spec j i) as [->|N]; [|apply R]. intros [= ->]. destruct (Hd eq_refl) as [st Es]. exists st. now rewrite (se_of _ _ _ Hn), Es.
Qed.

Lemma invB_step cap s s' : step cap s s' -> invB s -> invB s'.
Proof.
  intros St Iv. destruct St as
    [r Hsh Hsid Hf | r i0 Hsh Hf | i c Hl Hn Hp | i c x rs Hn Hp Hc | i c Hn Hp | i c st Hn Hp Hse
    | h u Hm Hu Hsid | h l b u Hm Hu | got x u Hm Hu Hx | r pid Hm Hk | r pid k Hm Hf | r pid k e Hm Hf
    | a k b st Hk Hst | Hw Ht He | Hw He | a k b st Hw Hk Hst | Hw Hk | pid st k x k' Hw Hf | pid st k Hw Hf | x st k Hw Hd
    | x st k u i c Hnp Hd Hx Hf Hn | x st k u Hnp Hd Hx Hf | st k u Hnp Hd | Hsh Hfin Hc | u h Hm Hu Hsid | Hm Hc | Hm He | Hm He Hw];
  try (apply (invB_same s); [reflexivity..|exact Iv]).
  - (* S_call *)
    set (s' := note _ _). destruct Iv as [P Q R].
    assert (Eph : forall j, ph s' j = if j =? length (calls s) then Some CNew else ph s j) by (intros j; unfold ph, s'; cbn; rewrite nth_snoc; now destruct (j =? _)).
    assert (Erq : forall j, rq s' j = if j =? length (calls s) then Some r else rq s j) by (intros j; unfold rq, s'; cbn; rewrite nth_snoc; now destruct (j =? _)).
    assert (Ese : forall j, se s' j = if j =? length (calls s) then Some None else se s j) by (intros j; unfold se, s'; cbn; rewrite nth_snoc; now destruct (j =? _)).
    assert (Fr : rq s (length (calls s)) = None) by (unfold rq; rewrite (proj2 (nth_error_None (calls s) (length (calls s)))); [reflexivity|lia]).
    constructor.
    + intros x i. rewrite Erq, Ese, Eph. change (root s') with ((sid r, length (calls s)) :: root s). cbn [In]. rewrite P.
      destruct (Nat.eqb_spec i (length (calls s))) as [->|N].
      * split.
        -- intros [[= <-]|[r' [E _]]]; [|congruence]. exists r. repeat split; discriminate.
        -- intros [r' [[= <-] [<- _]]]. now left.
      * split; [intros [[= _ E]|E]; [congruence|exact E]|auto].
    + change (root s') with ((sid r, length (calls s)) :: root s). cbn. constructor; [|exact Q]. intros I. apply in_map_iff in I. destruct I as [[y j] [E I]]. cbn in E. subst y.
      exact (find_sid_none _ _ _ Hf I).
    + intros i. rewrite Eph, Ese. destruct (Nat.eqb_spec i (length (calls s))) as [->|N]; [discriminate|apply R].
  - (* S_refuse *)
    set (s' := note _ _). destruct Iv as [P Q R].
    assert (Eph : forall j, ph s' j = if j =? length (calls s) then Some CFail else ph s j) by (intros j; unfold ph, s'; cbn; rewrite nth_snoc; now destruct (j =? _)).
    assert (Erq : forall j, rq s' j = if j =? length (calls s) then Some r else rq s j) by (intros j; unfold rq, s'; cbn; rewrite nth_snoc; now destruct (j =? _)).
    assert (Ese : forall j, se s' j = if j =? length (calls s) then Some None else se s j) by (intros j; unfold se, s'; cbn; rewrite nth_snoc; now destruct (j =? _)).
    assert (Fr : rq s (length (calls s)) = None) by (unfold rq; rewrite (proj2 (nth_error_None (calls s) (length (calls s)))); [reflexivity|lia]).
    constructor.
    + intros x i. rewrite Erq, Ese, Eph. change (root s') with (root s). rewrite P.
      destruct (Nat.eqb_spec i (length (calls s))) as [->|N]; [|reflexivity].
      split; [intros [r' [E _]]; congruence|intros [r' [_ [_ [_ E]]]]; congruence].
    + exact Q.
    + intros i. rewrite Eph, Ese. destruct (Nat.eqb_spec i (length (calls s))) as [->|N]; [discriminate|apply R].
  - eapply (invB_phase s); [exact Hn|congruence| | |reflexivity|reflexivity|exact Iv]; discriminate.
  - eapply (invB_phase s); [exact Hn|congruence| | |reflexivity|reflexivity|exact Iv]; discriminate.
  - eapply (invB_phase s); [exact Hn|congruence| | |reflexivity|reflexivity|exact Iv]; discriminate.
  - eapply (invB_phase s); [exact Hn|congruence| | |reflexivity|reflexivity|exact Iv]; [discriminate|eauto].
  - (* S_notify *)
    set (s' := set_root _ _). destruct Iv as [P Q R].
    set (c' := {| c_req := c_req c; c_ph := c_ph c; c_set := Some st |}).
    assert (Erq : forall j, rq s' j = rq s j) by (intros j; exact (upd_rq s i c c' Hn eq_refl j)).
    assert (Eph : forall j, ph s' j = ph s j).
    { intros j. transitivity (if j =? i then Some (c_ph c') else ph s j); [exact (upd_ph s i c c' Hn j)|]. destruct (Nat.eqb_spec j i) as [->|N]; [now rewrite (ph_of _ _ _ Hn)|reflexivity]. }
    assert (Ese : forall j, se s' j = if j =? i then Some (Some st) else se s j) by (intros j; unfold se, s'; cbn; rewrite (nth_set _ _ _ _ Hn); now destruct (j =? i)).
    pose proof (find_sid_in _ _ _ Hf) as Hin.
    constructor.
    + intros y j. rewrite Erq, Eph, Ese. change (root s') with (rm_sid (root s) x). rewrite rm_sid_in. cbn [fst].
      destruct (Nat.eqb_spec j i) as [->|N].
      * split; [|intros [r [_ [_ [E _]]]]; discriminate]. intros [I N]. exfalso. apply P in I. apply P in Hin. destruct I as [r1 [E1 [<- _]]], Hin as [r2 [E2 [<- _]]]. congruence.
      * rewrite P. split; [tauto|]. intros E. split; [exact E|]. intros ->. apply N. apply P in E. exact (nodup_fst _ _ _ _ Q E Hin).
    + apply nodup_filter. exact Q.
    + intros j. rewrite Eph, Ese. destruct (j =? i); [eauto|apply R].
Qed.

(** ** The children *)

Definition wtok (w : wphase) : list nat := match w with WGot _ _ k => [k] | WSend _ _ k => [k] | _ => [] end.
Definition dtoks (d : list (Z * Z * nat)) : list nat := map snd (filter (fun e => negb (Z.eqb (fst (fst e)) (-1))) d).
Definition toks (s : state) : list nat := map k_no (kids s) ++ wtok (wph s) ++ dtoks (down s).
Definition sidof (s : state) (k : nat) (x : Z) : Prop := exists i r, nth_error (order s) k = Some i /\ rq s i = Some r /\ sid r = x.

Record invC (s : state) : Prop := {
  c_nodup : NoDup (toks s);
  c_lt : forall k, In k (toks s) -> k < forks s;
  c_unset : forall k i, nth_error (order s) k = Some i -> forks s <= k \/ In k (toks s) -> se s i = Some None;
  c_isset : forall i st, se s i = Some (Some st) -> exists k, nth_error (order s) k = Some i /\ k < forks s /\ In (Exited k st) (hist s);
  c_pids : NoDup (map k_pid (kids s));
  c_kid : forall k, In k (kids s) -> match k_st k with Some st => In (Exited (k_no k) st) (hist s) | None => forall st, ~ In (Exited (k_no k) st) (hist s) end;
  c_kidtree : forall k, In k (kids s) -> (exists x, In (k_pid k, (x, k_no k)) (tree s)) \/ (exists r, mph s = MIns r (k_pid k) (k_no k)) \/ mph s = MDead;
  c_treend : NoDup (map fst (tree s));
  c_tree : forall p x k, In (p, (x, k)) (tree s) -> sidof s k x /\ k < forks s /\ (forall r p', mph s <> MIns r p' k) /\
     (wph s = WDead \/ (exists st, wph s = WGot p st k) \/ exists c, In c (kids s) /\ k_no c = k /\ k_pid c = p);
  c_ins : forall r p k, mph s = MIns r p k -> wph s = WDead \/ (exists st, wph s = WGot p st k) \/ exists c, In c (kids s) /\ k_no c = k /\ k_pid c = p;
  c_wgot : forall p st k, wph s = WGot p st k -> In (Exited k st) (hist s) /\
     ((exists x, In (p, (x, k)) (tree s)) \/ (exists r, mph s = MIns r p k /\ find_pid (tree s) p = None));
  c_wsend : forall x st k, wph s = WSend x st k -> In (Exited k st) (hist s) /\ sidof s k x;
  c_down : forall x st k, In (x, st, k) (down s) -> x = (-1)%Z \/ (In (Exited k st) (hist s) /\ sidof s k x);
  c_nph : nph s <> NDead;
  c_dead : mph s = MDead -> wph s = WDead;
  c_exited : forall k st, In (Exited k st) (hist s) -> k < forks s;
}.

Lemma invC_init : invC init.
Proof.
  constructor; cbn; try constructor; try tauto; try discriminate.
  - intros k i E. destruct k; discriminate.
  - intros i st E. unfold se in E. destruct i; discriminate.
Qed.

Lemma dtoks_app a b : dtoks (a ++ b) = dtoks a ++ dtoks b.
Proof. unfold dtoks. now rewrite filter_app, map_app. Qed.

Definition ext (s s' : state) : Prop :=
  (forall k i, nth_error (order s) k = Some i -> nth_error (order s') k = Some i) /\
  (forall i r, rq s i = Some r -> rq s' i = Some r) /\ incl (hist s) (hist s').
Lemma sidof_ext s s' k x : ext s s' -> sidof s k x -> sidof s' k x.
Proof. intros [E1 [E2 _]] [i [r [P [Q R]]]]. exists i, r. auto. Qed.

(** Steps of the threads of tup: the children and what is known of them are the
    same. *)
Lemma invC_calls s s' : ext s s' -> (forall k st, In (Exited k st) (hist s') -> In (Exited k st) (hist s)) ->
  mph s' = mph s -> forks s' = forks s -> kids s' = kids s -> tree s' = tree s -> wph s' = wph s -> down s' = down s -> nph s' = nph s ->
  (forall k i, nth_error (order s') k = Some i -> (nth_error (order s) k = Some i /\ se s' i = se s i) \/ se s' i = Some None) ->
  (forall i st, se s' i = Some (Some st) -> se s i = Some (Some st)) ->
  invC s -> invC s'.
Proof.
  intros Ex Eh E1 E2 E3 E4 E5 E6 E7 Hord Hse Iv.
  assert (Et : toks s' = toks s) by (unfold toks; now rewrite E3, E5, E6).
  destruct Ex as [X1 [X2 X3]]. assert (Ex : ext s s') by (split; [|split]; assumption).
  destruct Iv. constructor; rewrite ?Et, ?E1, ?E2, ?E3, ?E4, ?E5, ?E6, ?E7; auto.
  - intros k i Hk Hd. destruct (Hord k i Hk) as [[Q1 ->]|Q]; [|exact Q]. now apply (c_unset0 k).
  - intros i st E. destruct (c_isset0 i st (Hse i st E)) as [k [Q1 [Q2 Q3]]]. exists k. auto.
  - intros k Hk. specialize (c_kid0 k Hk). destruct (k_st k); auto. intros st I. apply (c_kid0 st). auto.
  - intros p x k I. destruct (c_tree0 p x k I) as [Q1 Q2]. split; [|exact Q2]. now apply (sidof_ext s).
  - intros p st k E. destruct (c_wgot0 p st k E) as [Q1 Q2]. split; [auto|exact Q2].
  - intros x st k E. destruct (c_wsend0 x st k E) as [Q1 Q2]. split; [auto|]. now apply (sidof_ext s).
  - intros x st k E. destruct (c_down0 x st k E) as [Q|[Q1 Q2]]; [now left|]. right. split; [auto|]. now apply (sidof_ext s).
  - intros k st I. apply (c_exited0 k st). auto.
Qed.

(** A step that only moves the forking process, not into or out of the time
    between fork and the entry in the tree. *)
Lemma invC_master s s' : calls s' = calls s -> order s' = order s -> hist s' = hist s -> forks s' = forks s -> kids s' = kids s -> tree s' = tree s -> wph s' = wph s -> down s' = down s -> nph s' = nph s ->
  (forall r p k, mph s <> MIns r p k) -> (forall r p k, mph s' <> MIns r p k) -> mph s <> MDead -> mph s' <> MDead -> invC s -> invC s'.
Proof.
  intros E1 E2 E3 E4 E5 E6 E7 E8 E9 N N' D D' Iv.
  assert (Et : toks s' = toks s) by (unfold toks; now rewrite E5, E7, E8).
  assert (Ex : ext s s') by (split; [|split]; [now rewrite E2|unfold rq; now rewrite E1|rewrite E3; apply incl_refl]).
  destruct Iv. constructor; rewrite ?Et, ?E2, ?E3, ?E4, ?E5, ?E6, ?E7, ?E8, ?E9; auto.
  - intros k i. unfold se. rewrite E1. apply c_unset0.
  - intros i st. unfold se. rewrite E1. apply c_isset0.
  - intros k Hk. destruct (c_kidtree0 k Hk) as [Q|[[r Q]|Q]]; [now left|exfalso; now apply (N _ _ _ Q)|contradiction].
  - intros p x k I. destruct (c_tree0 p x k I) as [Q1 [Q2 [_ Q3]]]. split; [now apply (sidof_ext s)|auto].
  - intros r p k E. exfalso. now apply (N' r p k).
  - intros p st k E. destruct (c_wgot0 p st k E) as [Q1 [Q2|[r [Q2 _]]]]; [auto|exfalso; now apply (N _ _ _ Q2)].
  - intros x st k E. destruct (c_wsend0 x st k E) as [Q1 Q2]. split; [auto|]. now apply (sidof_ext s).
  - intros x st k E. destruct (c_down0 x st k E) as [Q|[Q1 Q2]]; [now left|]. right. split; [auto|]. now apply (sidof_ext s).
  - congruence.
Qed.

Lemma nodup_mid {A} (a : list A) x b : NoDup (a ++ x :: b) -> NoDup (a ++ b) /\ ~ In x (a ++ b).
Proof. intros N. split; [exact (NoDup_remove_1 _ _ _ N)|exact (NoDup_remove_2 _ _ _ N)]. Qed.
Lemma nodup_pids (l : list kid) c d : NoDup (map k_pid l) -> In c l -> In d l -> k_pid c = k_pid d -> c = d.
Proof.
  induction l as [|e l IH]; cbn; [intros _ []|]. intros N Hc Hd E. inversion N; subst. destruct Hc as [->|Hc], Hd as [->|Hd]; auto.
  - exfalso. apply H1. rewrite E. now apply in_map.
  - exfalso. apply H1. rewrite <- E. now apply in_map.
Qed.

Lemma died s s' : calls s' = calls s -> order s' = order s -> hist s' = hist s -> forks s' = forks s -> kids s' = kids s -> tree s' = tree s -> down s' = down s -> nph s' = nph s ->
  wph s' = WDead -> (mph s' = mph s /\ (wph s = WWait \/ exists p st k, wph s = WGot p st k) \/ mph s' = MDead) -> invC s -> invC s'.
Proof.
  intros E1 E2 E3 E4 E5 E6 E8 E9 Ew Em Iv.
  assert (Ex : ext s s') by (split; [|split]; [now rewrite E2|unfold rq; now rewrite E1|rewrite E3; apply incl_refl]).
  assert (Ti : forall k, In k (toks s') -> In k (toks s)).
  { intros k. unfold toks. rewrite E5, E8, Ew. cbn [wtok app]. rewrite !in_app_iff. tauto. }
  destruct Iv. constructor; rewrite ?E2, ?E3, ?E4, ?E5, ?E6, ?E8, ?E9, ?Ew; auto; try discriminate.
  - unfold toks in *. rewrite E5, E8, Ew. cbn [wtok app]. clear - c_nodup0. induction (map k_no (kids s)) as [|a l IH]; cbn in *.
    + destruct (wph s); cbn in c_nodup0; auto; now inversion c_nodup0.
    + inversion c_nodup0; subst. constructor; [|auto]. rewrite !in_app_iff in *. tauto.
  - intros k i. unfold se. rewrite E1. intros H [H1|H1]; apply (c_unset0 k i H); auto.
  - intros i st. unfold se. rewrite E1. apply c_isset0.
  - intros k Hk. destruct Em as [[Em _]|Em]; [|now right; right]. rewrite Em. now apply c_kidtree0.
  - intros p x k I. destruct (c_tree0 p x k I) as [Q1 [Q2 [Q3 _]]]. split; [now apply (sidof_ext s)|]. split; [exact Q2|]. split; [|now left].
    destruct Em as [[Em _]|Em]; rewrite Em; [exact Q3|discriminate].
  - intros x st k E. destruct (c_down0 x st k E) as [Q|[Q1 Q2]]; [now left|]. right. split; [auto|]. now apply (sidof_ext s).
Qed.

Lemma se_none_lt s i : se s i <> None -> i < length (calls s).
Proof. unfold se. destruct (nth_error (calls s) i) eqn:E; cbn; [|congruence]. intros _. apply nth_error_Some. congruence. Qed.
Lemma order_lt s k i : invA s -> nth_error (order s) k = Some i -> i < length (calls s).
Proof. intros Iv E. apply nth_error_In in E. apply (a_order s Iv) in E. destruct E as [p [E _]]. exact (ph_lt _ _ _ E). Qed.

Lemma invC_append s s' c : calls s' = calls s ++ [c] -> c_set c = None -> order s' = order s -> incl (hist s) (hist s') ->
  (forall k st, In (Exited k st) (hist s') -> In (Exited k st) (hist s)) ->
  mph s' = mph s -> forks s' = forks s -> kids s' = kids s -> tree s' = tree s -> wph s' = wph s -> down s' = down s -> nph s' = nph s -> invA s -> invC s -> invC s'.
Proof.
  intros E1 Hc E2 Hi He F1 F2 F3 F4 F5 F6 F7 IA Iv.
  assert (Ese : forall j, se s' j = if j =? length (calls s) then Some None else se s j) by (intros j; unfold se; rewrite E1, nth_snoc; destruct (j =? _); cbn; congruence).
  apply (invC_calls s); auto.
  - split; [now rewrite E2|]. split; [|exact Hi]. intros i r. unfold rq. rewrite E1. intros E. rewrite nth_error_app1; [exact E|].
    apply nth_error_Some. intros E'. now rewrite E' in E.
  - intros k i. rewrite E2. intros Hk. left. split; [exact Hk|]. rewrite Ese. pose proof (order_lt s k i IA Hk). destruct (Nat.eqb_spec i (length (calls s))); [lia|reflexivity].
  - intros i st. rewrite Ese. destruct (i =? _); [discriminate|auto].
Qed.
Lemma invC_phase s s' i c p : nth_error (calls s) i = Some c -> calls s' = set_nth (calls s) i (with_ph c p) ->
  (order s' = order s \/ (order s' = order s ++ [i] /\ c_set c = None)) -> incl (hist s) (hist s') ->
  (forall k st, In (Exited k st) (hist s') -> In (Exited k st) (hist s)) ->
  mph s' = mph s -> forks s' = forks s -> kids s' = kids s -> tree s' = tree s -> wph s' = wph s -> down s' = down s -> nph s' = nph s -> invC s -> invC s'.
Proof.
  intros Hn E1 Ho Hi He F1 F2 F3 F4 F5 F6 F7 Iv.
  assert (Erq : forall j, rq s' j = rq s j) by (intros j; unfold rq; rewrite E1; exact (upd_rq s i c (with_ph c p) Hn eq_refl j)).
  assert (Ese : forall j, se s' j = se s j) by (intros j; unfold se; rewrite E1; exact (upd_se s i c (with_ph c p) Hn eq_refl j)).
  apply (invC_calls s); auto.
  - split; [|split; [|exact Hi]].
    + intros k j E. destruct Ho as [->|[-> _]]; [exact E|]. rewrite nth_error_app1; [exact E|]. apply nth_error_Some. congruence.
    + intros j r. now rewrite Erq.
  - intros k j E. destruct Ho as [Ho|[Ho Hs]]; rewrite Ho in E; [left; auto|]. rewrite nth_snoc in E. destruct (k =? _); [|left; auto].
    injection E as <-. right. now rewrite Ese, (se_of _ _ _ Hn), Hs.
  - intros j st. now rewrite Ese.
Qed.

Lemma invC_step cap s s' : step cap s s' -> invA s -> invB s -> invC s -> invC s'.
Proof.
  intros St IA IB Iv. destruct St as
    [r Hsh Hsid Hf | r i0 Hsh Hf | i c Hl Hn Hp | i c x rs Hn Hp Hc | i c Hn Hp | i c st Hn Hp Hse
    | h u Hm Hu Hsid | h l b u Hm Hu | got x u Hm Hu Hx | r pid Hm Hk | r pid k Hm Hf | r pid k e Hm Hf
    | a k b st Hk Hst | Hw Ht He | Hw He | a k b st Hw Hk Hst | Hw Hk | pid st k x k' Hw Hf | pid st k Hw Hf | x st k Hw Hd
    | x st k u i c Hnp Hd Hx Hf Hn | x st k u Hnp Hd Hx Hf | st k u Hnp Hd | Hsh Hfin Hc | u h Hm Hu Hsid | Hm Hc | Hm He | Hm He Hw].
  - eapply (invC_append s); try reflexivity; try exact IA; try exact Iv; cbn.
    + intros y Hy. now right.
    + intros k st [E|E]; [discriminate|exact E].
  - eapply (invC_append s); try reflexivity; try exact IA; try exact Iv; cbn.
    + intros y Hy. now right; right.
    + intros k st [E|[E|E]]; [discriminate|discriminate|exact E].
  - eapply (invC_phase s); try reflexivity; try exact Iv; try exact Hn.
    + right. split; [reflexivity|]. destruct (c_set c) as [st|] eqn:Es; [exfalso|reflexivity].
      destruct (c_isset s Iv i st) as [k [Q _]]; [now rewrite (se_of _ _ _ Hn), Es|]. apply nth_error_In in Q. apply (a_order s IA) in Q.
      destruct Q as [p [Q1 Q2]]. rewrite (ph_of _ _ _ Hn), Hp in Q1. injection Q1 as <-. destruct Q2.
    + apply incl_refl.
    + auto.
  - eapply (invC_phase s); try reflexivity; try exact Iv; try exact Hn; [now left|apply incl_refl|auto].
  - eapply (invC_phase s); try reflexivity; try exact Iv; try exact Hn; [now left|apply incl_refl|auto].
  - eapply (invC_phase s); try reflexivity; try exact Iv; try exact Hn; [now left|intros y Hy; now right|].
    cbn. intros k st' [E|E]; [discriminate|exact E].
  - apply (invC_master s); try reflexivity; try exact Iv; rewrite ?Hm; cbn; try discriminate; destruct (total h =? 0); discriminate.
  - apply (invC_master s); try reflexivity; try exact Iv; rewrite ?Hm; cbn [mph set_mph]; try discriminate; destruct (S _ =? total h); discriminate.
  - apply (died s); try reflexivity; [now right|exact Iv].
  - (* S_fork *)
    set (s' := note _ _). set (kd := {| k_no := forks s; k_pid := pid; k_st := None |}).
    assert (Et : toks s' = forks s :: toks s) by reflexivity.
    assert (Ex : ext s s') by (split; [|split]; [auto|auto|intros y Hy; now right]).
    pose proof (a_reads s IA) as R. unfold reads in R. rewrite Hm in R. destruct R as [[i [R1 R2]] _].
    destruct Iv. constructor.
    + rewrite Et. constructor; [|exact c_nodup0]. intros I. apply c_lt0 in I. lia.
    + intros k. rewrite Et. cbn [In]. change (forks s') with (S (forks s)). intros [<-|I]; [lia|]. apply c_lt0 in I. lia.
    + intros k j. rewrite Et. cbn [In]. change (forks s') with (S (forks s)). intros E D. apply (c_unset0 k j E). destruct D as [D|[<-|D]]; [left; lia|left; lia|now right].
    + intros j st E. destruct (c_isset0 j st E) as [k [Q1 [Q2 Q3]]]. exists k. cbn. split; [exact Q1|]. split; [lia|now right].
    + cbn. constructor; [|exact c_pids0]. intros I. apply in_map_iff in I. destruct I as [c [E I]]. exact (Hk c I E).
    + intros k. cbn [kids s' note set_mph set_forks set_kids hist]. intros [<-|I]; cbn.
      * intros st [E|E]; [discriminate|]. apply c_exited0 in E. lia.
      * specialize (c_kid0 k I). destruct (k_st k); [now right|]. intros st [E|E]; [discriminate|]. now apply (c_kid0 st).
    + intros k. cbn [kids s' note set_mph set_forks set_kids tree mph]. intros [<-|I]; cbn; [right; left; eauto|].
      destruct (c_kidtree0 k I) as [Q|[[r' Q]|Q]]; [now left|congruence|congruence].
    + exact c_treend0.
    + intros p x k I. destruct (c_tree0 p x k I) as [Q1 [Q2 [_ Q3]]]. split; [now apply (sidof_ext s)|]. split; [cbn; lia|]. split; [cbn; intros r' p' [= _ _ E]; lia|].
      destruct Q3 as [Q3|[Q3|[c [Q3 Q4]]]]; [now left|right; now left|]. right. right. exists c. split; [now right|exact Q4].
    + cbn. intros r' p' k [= <- <- <-]. right. right. exists kd. split; [now left|]. split; reflexivity.
    + intros p st k E. destruct (c_wgot0 p st k E) as [Q1 [Q2|[r' [Q2 _]]]]; [|congruence]. split; [now right|now left].
    + intros x st k E. destruct (c_wsend0 x st k E) as [Q1 Q2]. split; [now right|]. now apply (sidof_ext s).
    + intros x st k E. destruct (c_down0 x st k E) as [Q|[Q1 Q2]]; [now left|]. right. split; [now right|]. now apply (sidof_ext s).
    + exact c_nph0.
    + discriminate.
    + cbn. intros k st [E|E]; [discriminate|]. apply c_exited0 in E. lia.
  - (* S_insert *)
    set (s' := set_mph _ _).
    assert (Et : toks s' = toks s) by reflexivity.
    pose proof (a_reads s IA) as R. unfold reads in R. rewrite Hm in R. destruct R as [R0 [[i [R1 R2]] _]].
    destruct Iv. constructor; auto; try (cbn; discriminate).
    + intros c I. change (kids s') with (kids s) in I. destruct (c_kidtree0 c I) as [[x Q]|[[r' Q]|Q]].
      * left. exists x. now right.
      * left. exists (sid r). cbn. left. rewrite Hm in Q. injection Q as -> -> ->. reflexivity.
      * congruence.
    + cbn. constructor; [|exact c_treend0]. intros I. apply in_map_iff in I. destruct I as [[p e] [E I]]. cbn in E. subst p. exact (find_pid_none _ _ _ Hf I).
    + intros p x k' [E|I].
      * injection E as <- <- <-. split; [now exists i, r|]. split; [cbn; lia|]. split; [discriminate|].
        exact (c_ins0 _ _ _ Hm).
      * destruct (c_tree0 p x k' I) as [Q1 [Q2 [_ Q3]]]. split; [exact Q1|]. split; [exact Q2|]. split; [discriminate|exact Q3].
    + intros p st k' E. destruct (c_wgot0 p st k' E) as [Q1 Q2]. split; [exact Q1|]. left. destruct Q2 as [[x Q2]|[r' [Q2 _]]].
      * exists x. now right.
      * exists (sid r). left. rewrite Hm in Q2. injection Q2 as -> -> ->. reflexivity.
  - apply (died s); try reflexivity; [now right|exact Iv].
  - (* S_exit *)
    set (kd := {| k_no := k_no k; k_pid := k_pid k; k_st := Some st |}). set (s' := note _ _).
    assert (Et : toks s' = toks s) by (unfold toks, s'; cbn; rewrite Hk, !map_app; reflexivity).
    assert (Ep : map k_pid (kids s') = map k_pid (kids s)) by (unfold s'; cbn; rewrite Hk, !map_app; reflexivity).
    assert (Ek : forall c, In c (kids s') -> c = kd \/ In c (kids s)).
    { intros c I. change (kids s') with (a ++ kd :: b) in I. rewrite Hk. rewrite in_app_iff in *. cbn in *. intuition. }
    assert (Ek' : forall c, In c (kids s) -> exists c', In c' (kids s') /\ k_no c' = k_no c /\ k_pid c' = k_pid c).
    { intros c I. change (kids s') with (a ++ kd :: b). rewrite Hk in I. apply in_app_or in I. destruct I as [I|[<-|I]].
      - exists c. split; [apply in_or_app; now left|auto].
      - exists kd. split; [apply in_or_app; right; now left|auto].
      - exists c. split; [apply in_or_app; right; now right|auto]. }
    assert (Hin : In k (kids s)) by (rewrite Hk; apply in_or_app; right; now left).
    assert (Ex : ext s s') by (split; [|split]; [auto|auto|intros y Hy; now right]).
    assert (Hlt : k_no k < forks s) by (apply (c_lt s Iv); unfold toks; apply in_or_app; left; now apply in_map).
    assert (Nk : forall c, In c (a ++ b) -> k_no c <> k_no k).
    { pose proof (c_nodup s Iv) as N. unfold toks in N. rewrite Hk, map_app in N. cbn in N. rewrite <- app_assoc in N. cbn in N. apply nodup_mid in N. destruct N as [_ N].
      intros c I E. apply N. rewrite app_assoc, <- map_app. apply in_or_app. left. rewrite <- E. now apply in_map. }
    destruct Iv. constructor; rewrite ?Et, ?Ep; auto.
    + intros j st' E. destruct (c_isset0 j st' E) as [n [Q1 [Q2 Q3]]]. exists n. split; [exact Q1|]. split; [exact Q2|now right].
    + intros c I. change (kids s') with (a ++ kd :: b) in I. apply in_app_or in I. assert (D : c = kd \/ In c (a ++ b)) by (rewrite in_app_iff; cbn in I; intuition). clear I.
      destruct D as [->|I]; [now left|]. assert (I' : In c (kids s)) by (rewrite Hk; rewrite in_app_iff in *; cbn; tauto).
      specialize (c_kid0 c I'). destruct (k_st c); [now right|]. intros st' [E|E]; [|now apply (c_kid0 st')]. injection E as E _. exact (Nk c I (eq_sym E)).
    + intros c I. destruct (Ek c I) as [->|I']; [exact (c_kidtree0 k Hin)|exact (c_kidtree0 c I')].
    + intros p x n I. destruct (c_tree0 p x n I) as [Q1 [Q2 [Q3 Q4]]]. split; [now apply (sidof_ext s)|]. split; [exact Q2|]. split; [exact Q3|].
      destruct Q4 as [Q4|[Q4|[c [Q4 [<- <-]]]]]; auto.
    + intros r p n E. destruct (c_ins0 r p n E) as [Q4|[Q4|[c [Q4 [<- <-]]]]]; auto.
    + intros p st' n E. destruct (c_wgot0 p st' n E) as [Q1 Q2]. split; [now right|exact Q2].
    + intros x st' n E. destruct (c_wsend0 x st' n E) as [Q1 Q2]. split; [now right|]. now apply (sidof_ext s).
    + intros x st' n E. destruct (c_down0 x st' n E) as [Q|[Q1 Q2]]; [now left|]. right. split; [now right|]. now apply (sidof_ext s).
    + cbn. intros n st' [E|E]; [|now apply c_exited0 in E]. injection E as <- <-. exact Hlt.
  - (* S_nonempty *)
    destruct Iv. constructor; auto; cbn; try discriminate.
    + unfold toks in *. rewrite Hw in c_nodup0. exact c_nodup0.
    + unfold toks in *. rewrite Hw in c_lt0. exact c_lt0.
    + unfold toks in *. rewrite Hw in c_unset0. exact c_unset0.
    + intros p x k I. destruct (c_tree0 p x k I) as [Q1 [Q2 [Q3 [Q4|[[st Q4]|Q4]]]]]; try congruence. split; [exact Q1|]. split; [exact Q2|]. split; [exact Q3|]. right. now right.
    + intros r p k E. destruct (c_ins0 r p k E) as [Q|[[st Q]|Q]]; try congruence. auto.
    + intros E. apply c_dead0 in E. congruence.
  - (* S_exiting *)
    destruct Iv. constructor; auto; cbn; try discriminate.
    + unfold toks in *. rewrite Hw in c_nodup0. exact c_nodup0.
    + unfold toks in *. rewrite Hw in c_lt0. exact c_lt0.
    + unfold toks in *. rewrite Hw in c_unset0. exact c_unset0.
    + intros p x k I. destruct (c_tree0 p x k I) as [Q1 [Q2 [Q3 [Q4|[[st Q4]|Q4]]]]]; try congruence. split; [exact Q1|]. split; [exact Q2|]. split; [exact Q3|]. right. now right.
    + intros r p k E. destruct (c_ins0 r p k E) as [Q|[[st Q]|Q]]; try congruence. auto.
    + intros E. apply c_dead0 in E. congruence.
  - (* S_wait *)
    set (s' := set_wph _ _).
    assert (Hin : In k (kids s)) by (rewrite Hk; apply in_or_app; right; now left).
    assert (Ek : forall c, In c (a ++ b) -> In c (kids s)) by (intros c I; rewrite Hk; rewrite in_app_iff in *; cbn; tauto).
    assert (Ek' : forall c, In c (kids s) -> c = k \/ In c (a ++ b)) by (intros c I; rewrite Hk in I; rewrite in_app_iff in *; cbn in I; intuition).
    assert (Et : toks s = map k_no a ++ k_no k :: map k_no b ++ dtoks (down s)) by (unfold toks; rewrite Hk, Hw, map_app; cbn; now rewrite <- app_assoc).
    assert (Et' : toks s' = (map k_no a ++ map k_no b) ++ k_no k :: dtoks (down s)) by (unfold toks; cbn; now rewrite map_app).
    assert (Ei : forall n, In n (toks s') <-> In n (toks s)) by (intros n; rewrite Et, Et'; rewrite !in_app_iff; cbn; rewrite in_app_iff; tauto).
    pose proof (c_kid s Iv k Hin) as Hex. rewrite Hst in Hex.
    destruct Iv. constructor; auto; try (cbn; discriminate).
    + rewrite Et in c_nodup0. rewrite Et'. apply nodup_mid in c_nodup0. destruct c_nodup0 as [N1 N2]. rewrite app_assoc in N1, N2.
      apply (NoDup_Add (a := k_no k) (l := (map k_no a ++ map k_no b) ++ dtoks (down s))); [apply Add_app|]. auto.
    + intros n. rewrite Ei. apply c_lt0.
    + intros n i. rewrite Ei. apply c_unset0.
    + cbn. rewrite Hk, map_app in c_pids0. cbn in c_pids0. rewrite map_app. now apply NoDup_remove_1 in c_pids0.
    + intros c I. exact (c_kid0 c (Ek c I)).
    + intros p x n I. destruct (c_tree0 p x n I) as [Q1 [Q2 [Q3 Q4]]]. split; [exact Q1|]. split; [exact Q2|]. split; [exact Q3|].
      destruct Q4 as [Q4|[[st' Q4]|[c [Q4 [<- <-]]]]]; try congruence. destruct (Ek' c Q4) as [->|I']; [right; left; now exists st|right; right; now exists c].
    + intros r p n E. destruct (c_ins0 r p n E) as [Q4|[[st' Q4]|[c [Q4 [<- <-]]]]]; try congruence. destruct (Ek' c Q4) as [->|I']; [right; left; now exists st|right; right; now exists c].
    + cbn. intros p st' n [= <- <- <-]. split; [exact Hex|]. destruct (c_kidtree0 k Hin) as [[x Q]|[[r Q]|Q]].
      * left. eauto.
      * right. exists r. split; [exact Q|]. destruct (find_pid (tree s) (k_pid k)) as [[x n]|] eqn:Ef; [exfalso|reflexivity].
        apply find_pid_in in Ef. destruct (c_tree0 _ _ _ Ef) as [_ [_ [Q3 Q4]]]. destruct Q4 as [Q4|[[st' Q4]|[c [Q4 [Q5 Q6]]]]]; try congruence.
        assert (c = k) as -> by (apply (nodup_pids (kids s)); auto). subst n. exact (Q3 _ _ Q).
      * apply c_dead0 in Q. congruence.
    + cbn. intros E. apply c_dead0 in E. congruence.
  - apply (died s); try reflexivity; [left; auto|exact Iv].
  - (* S_found *)
    set (s' := set_wph _ _).
    assert (Et : toks s' = toks s) by (unfold toks, s'; cbn; now rewrite Hw).
    pose proof (find_pid_in _ _ _ Hf) as Hin.
    destruct (c_wgot s Iv pid st k Hw) as [Hex Hal].
    assert (Hk : k' = k /\ In (pid, (x, k)) (tree s) /\ forall r p, mph s <> MIns r p k).
    { destruct Hal as [[y Hy]|[r [_ E]]]; [|congruence]. pose proof (nodup_fst _ _ _ _ (c_treend s Iv) Hin Hy) as E. injection E as <- <-.
      destruct (c_tree s Iv _ _ _ Hy) as [_ [_ [Q3 _]]]. auto. }
    destruct Hk as [-> [_ Nm]].
    assert (Nk : forall c, In c (kids s) -> k_no c <> k).
    { pose proof (c_nodup s Iv) as N. unfold toks in N. rewrite Hw in N. cbn in N. apply nodup_mid in N. destruct N as [_ N].
      intros c I E. apply N. apply in_or_app. left. rewrite <- E. now apply in_map. }
    destruct (c_tree s Iv _ _ _ Hin) as [Hsid _].
    destruct Iv. constructor; rewrite ?Et; auto; try (cbn; discriminate).
    + intros c I. destruct (c_kidtree0 c I) as [[y Q]|Q]; [|now right]. left. exists y. cbn. apply rm_pid_in. split; [exact Q|]. cbn. intros E. rewrite E in Q.
      pose proof (nodup_fst _ _ _ _ c_treend0 Hin Q) as E'. injection E' as _ E'. exact (Nk c I (eq_sym E')).
    + cbn. now apply nodup_filter.
    + intros p y n I. cbn in I. apply rm_pid_in in I. destruct I as [I Np]. cbn in Np. destruct (c_tree0 p y n I) as [Q1 [Q2 [Q3 Q4]]]. split; [exact Q1|]. split; [exact Q2|]. split; [exact Q3|].
      destruct Q4 as [Q4|[[st' Q4]|Q4]]; [congruence|congruence|]. right. now right.
    + intros r p n E. destruct (c_ins0 r p n E) as [Q|[[st' Q]|Q]]; [congruence| |right; now right].
      exfalso. rewrite Hw in Q. injection Q as -> -> ->. exact (Nm _ _ E).
    + cbn. intros y st' n [= <- <- <-]. split; [exact Hex|exact Hsid].
    + cbn. intros E. apply c_dead0 in E. congruence.
  - apply (died s); try reflexivity; [left; split; [reflexivity|right; eauto]|exact Iv].
  - (* S_send *)
    set (s' := set_wph _ _).
    destruct (c_wsend s Iv x st k Hw) as [Hex Hsid].
    assert (Nx : x <> (-1)%Z).
    { destruct Hsid as [i [r [Q1 [Q2 <-]]]]. apply nth_error_In in Q1. apply (a_order s IA) in Q1. destruct Q1 as [p [Q1 Sp]].
      apply (a_sid s IA i r Q2). rewrite Q1. intros [= ->]. destruct Sp. }
    assert (Et : toks s = map k_no (kids s) ++ k :: dtoks (down s)) by (unfold toks; now rewrite Hw).
    assert (Et' : toks s' = map k_no (kids s) ++ dtoks (down s) ++ [k]).
    { unfold toks, s'. cbn [kids wph down set_wph set_down wtok app]. rewrite dtoks_app. unfold dtoks at 2. cbn [filter fst snd map negb]. apply Z.eqb_neq in Nx. now rewrite Nx. }
    assert (Ei : forall n, In n (toks s') <-> In n (toks s)) by (intros n; rewrite Et, Et'; rewrite !in_app_iff; cbn; tauto).
    destruct Iv. constructor; auto; try (cbn; discriminate).
    + rewrite Et in c_nodup0. rewrite Et'. apply nodup_mid in c_nodup0. destruct c_nodup0 as [N1 N2]. rewrite app_assoc.
      apply (NoDup_Add (a := k) (l := map k_no (kids s) ++ dtoks (down s))); [|auto]. rewrite <- (app_nil_r (map k_no (kids s) ++ dtoks (down s))) at 1. apply Add_app.
    + intros n. rewrite Ei. apply c_lt0.
    + intros n i. rewrite Ei. apply c_unset0.
    + intros p y n I. destruct (c_tree0 p y n I) as [Q1 [Q2 [Q3 Q4]]]. split; [exact Q1|]. split; [exact Q2|]. split; [exact Q3|].
      destruct Q4 as [Q4|[[st' Q4]|Q4]]; [congruence|congruence|]. right. now right.
    + intros r p n E. destruct (c_ins0 r p n E) as [Q|[[st' Q]|Q]]; [congruence|congruence|right; now right].
    + intros y st' n I. cbn in I. apply in_app_or in I. destruct I as [I|[E|[]]]; [exact (c_down0 y st' n I)|]. injection E as <- <- <-. right. now split.
    + cbn. intros E. apply c_dead0 in E. congruence.
  - (* S_notify *)
    set (s' := set_root _ _).
    destruct (c_down s Iv x st k) as [E|[Hex Hsid]]; [rewrite Hd; now left|contradiction|].
    assert (Et : toks s = map k_no (kids s) ++ wtok (wph s) ++ k :: dtoks u).
    { unfold toks. rewrite Hd. unfold dtoks at 1. cbn. apply Z.eqb_neq in Hx. now rewrite Hx. }
    assert (Et' : toks s' = map k_no (kids s) ++ wtok (wph s) ++ dtoks u) by reflexivity.
    assert (Ki : nth_error (order s) k = Some i).
    { destruct Hsid as [j [r [Q1 [Q2 Q3]]]]. assert (i = j) as ->; [|exact Q1].
      apply (nodup_fst (root s) x i j (b_nodup s IB)); [now apply find_sid_in|]. apply (b_root s IB). exists r. split; [exact Q2|]. split; [exact Q3|].
      split; [apply (c_unset s Iv k j Q1); right; rewrite Et; rewrite !in_app_iff; cbn; tauto|].
      apply nth_error_In in Q1. apply (a_order s IA) in Q1. destruct Q1 as [p [Q1 Sp]]. rewrite Q1. intros [= ->]. destruct Sp. }
    assert (Hlt : k < forks s) by (apply (c_lt s Iv); rewrite Et; rewrite !in_app_iff; cbn; tauto).
    pose proof (c_nodup s Iv) as N. rewrite Et, app_assoc in N. apply nodup_mid in N. destruct N as [N1 N2]. rewrite <- app_assoc in N1, N2. rewrite <- Et' in N1, N2.
    set (c' := {| c_req := c_req c; c_ph := c_ph c; c_set := Some st |}).
    assert (Erq : forall j, rq s' j = rq s j) by (intros j; exact (upd_rq s i c c' Hn eq_refl j)).
    assert (Ese : forall j, se s' j = if j =? i then Some (Some st) else se s j) by (intros j; unfold se, s'; cbn; rewrite (nth_set _ _ _ _ Hn); now destruct (j =? i)).
    assert (Ex : ext s s') by (split; [auto|]; split; [intros j r; now rewrite Erq|apply incl_refl]).
    assert (Ti : forall n, In n (toks s') -> In n (toks s)) by (intros n; rewrite Et, Et'; rewrite !in_app_iff; cbn; tauto).
    destruct Iv. constructor; auto.
    + intros n j Hnj D. change (order s') with (order s) in Hnj. change (forks s') with (forks s) in D. rewrite Ese. destruct (Nat.eqb_spec j i) as [->|Nj]; [exfalso|].
      * assert (n = k) as ->. { apply (proj1 (NoDup_nth_error (order s)) (a_nodup s IA)); [apply nth_error_Some; congruence|congruence]. }
        destruct D as [D|D]; [lia|contradiction].
      * apply (c_unset0 n j Hnj). destruct D; auto.
    + intros j st'. rewrite Ese. destruct (Nat.eqb_spec j i) as [->|Nj]; [intros [= <-]; now exists k|apply c_isset0].
    + intros p y n I. destruct (c_tree0 p y n I) as [Q1 Q2]. split; [now apply (sidof_ext s)|exact Q2].
    + intros y st' n E. destruct (c_wsend0 y st' n E) as [Q1 Q2]. split; [auto|]. now apply (sidof_ext s).
    + intros y st' n E. destruct (c_down0 y st' n) as [Q|[Q1 Q2]]; [rewrite Hd; now right|now left|]. right. split; [auto|]. now apply (sidof_ext s).
  - (* S_unknown *)
    exfalso. destruct (c_down s Iv x st k) as [E|[Hex Hsid]]; [rewrite Hd; now left|contradiction|].
    destruct Hsid as [j [r [Q1 [Q2 Q3]]]]. apply (find_sid_none _ _ j Hf). apply (b_root s IB). exists r. split; [exact Q2|]. split; [exact Q3|].
    split.
    + apply (c_unset s Iv k j Q1). right. unfold toks. rewrite !in_app_iff. right. right. rewrite Hd. unfold dtoks. cbn. apply Z.eqb_neq in Hx. rewrite Hx. now left.
    + apply nth_error_In in Q1. apply (a_order s IA) in Q1. destruct Q1 as [p [Q1 Sp]]. rewrite Q1. intros [= ->]. destruct Sp.
  - (* S_bye *)
    set (s' := set_nph _ _).
    assert (Et : toks s' = toks s) by (unfold toks, s'; cbn; rewrite Hd; reflexivity).
    destruct Iv. constructor; rewrite ?Et; auto; try (cbn; discriminate).
    intros y st' n E. apply (c_down0 y st' n). rewrite Hd. now right.
  - (* S_shut *) apply (invC_calls s); try reflexivity; auto. split; [auto|split; [auto|apply incl_refl]].
  - apply (invC_master s); try reflexivity; try exact Iv; rewrite ?Hm; cbn; discriminate.
  - (* S_close *)
    set (s' := set_mph _ _).
    assert (Et : toks s' = toks s) by (unfold toks, s'; cbn [kids wph down set_mph set_down]; rewrite dtoks_app; change (dtoks [((-1)%Z, 0%Z, 0)]) with (@nil nat); now rewrite (app_nil_r (dtoks (down s)))).
    destruct Iv. constructor; rewrite ?Et; auto; try (cbn; discriminate).
    + intros c I. destruct (c_kidtree0 c I) as [Q|[[r Q]|Q]]; [now left|congruence|congruence].
    + intros p y n I. destruct (c_tree0 p y n I) as [Q1 [Q2 [_ Q4]]]. split; [exact Q1|]. split; [exact Q2|]. split; [discriminate|exact Q4].
    + intros p st' n E. destruct (c_wgot0 p st' n E) as [Q1 [Q2|[r [Q2 _]]]]; [auto|congruence].
    + intros y st' n I. cbn in I. apply in_app_or in I. destruct I as [I|[E|[]]]; [exact (c_down0 y st' n I)|]. injection E as <- <- <-. now left.
  - (* S_quit *) apply (invC_calls s); try reflexivity; auto. split; [auto|split; [auto|apply incl_refl]].
  - apply (invC_master s); try reflexivity; try exact Iv; rewrite ?Hm; cbn; discriminate.
Qed.
