(** C71: records from a pool never overlap. *)
From Verif Require Import PoolModel PoolSpec PoolProofs PoolProofs2.
Require Import ZArith List Bool Lia.
Import ListNotations.
Open Scope Z_scope.

(** Whatever is allocated and freed, by whichever threads: two items that are in use do not
    overlap. *)
Theorem C71_apart size align s i j p k p' k' : types_ok size align -> reach size align s -> small s ->
  nth_error (live s) i = Some (p, k) -> nth_error (live s) j = Some (p', k') -> i <> j -> p + size k <= p' \/ p' + size k' <= p.
Proof.
  intros T R Sm Hi Hj N. pose proof (reach_inv size align T s R Sm) as I. apply (i_dis _ _ _ I (OLive p k) (OLive p' k')).
  - cbn. eapply nth_error_In; exact Hi.
  - cbn. eapply nth_error_In; exact Hj.
  - intros E. injection E as <- <-. apply N. apply (NoDup_nth_error (live s)); [apply (i_live _ _ _ I)|apply nth_error_Some; congruence|congruence].
Qed.
Print Assumptions C71_apart.

(** An item is aligned, lies in a block that malloc gave, and overlaps neither the links by which the
    blocks are found again, nor an item that is on a list of free ones. *)
Theorem C71_inside size align s p k : types_ok size align -> reach size align s -> small s -> In (p, k) (live s) ->
  0 < p /\ (align k | p) /\ (exists k' b n, In (k', b, n) (blocks s) /\ b <= p /\ p + size k <= b + n) /\
  (forall k' b n, In (k', b, n) (blocks s) -> apart p (size k) b 8) /\
  (forall k' q, In q (free_list (pools s k')) -> apart p (size k) q (size k')).
Proof.
  intros T R Sm L. pose proof (reach_inv size align T s R Sm) as I. destruct (i_in _ _ _ I (OLive p k) L) as [k' [b [n [X [Y Z]]]]]. cbn in Y, Z. pose proof (i_big _ _ _ I _ _ _ X) as [Bn B0]. destruct (T k) as [_ [_ [S8 _]]].
  split; [lia|]. split; [exact (i_al _ _ _ I (OLive p k) L)|]. split; [exists k', b, n; split; [exact X|lia]|]. split.
  - intros k2 b2 n2 X2. apply In_nth_error in X as [i Hi]. apply In_nth_error in X2 as [j Hj]. destruct (Nat.eq_dec i j) as [->|Nij].
    + rewrite Hi in Hj. injection Hj as <- <- <-. unfold apart. lia.
    + pose proof (i_blocks _ _ _ I i j _ _ Hi Hj Nij) as Q. apply nth_error_In in Hj. apply (i_big _ _ _ I) in Hj. unfold apart, addr in *. cbn in Q. lia.
  - intros k2 q Q. apply (i_dis _ _ _ I (OLive p k) (OFree k2 q) L Q). discriminate.
Qed.
Print Assumptions C71_inside.

(** An allocation fails only if malloc does; else there is one more item in use, which overlaps no other. *)
Theorem C71_alloc size align s k m : types_ok size align -> reach size align s -> (forall b, m = Some b -> malloc_ok align k (next_size (pools s k)) s b) ->
  small (snd (mempool_alloc size align k m s)) ->
  match mempool_alloc size align k m s with
  | (Some p, s') => live s' = (p, k) :: live s /\ (align k | p) /\ forall p' k', In (p', k') (live s) -> apart p (size k) p' (size k')
  | (None, s') => m = None /\ s' = s
  end.
Proof.
  intros T R M Sm. pose proof (reach_inv size align T s R (small_before size align s k m R Sm)) as I.
  destruct (alloc_cases size align T s k m I M Sm) as [I' H]. destruct (mempool_alloc size align k m s) as [r s']. cbn [fst snd] in *.
  destruct H as [[p [-> L]]|[-> [_ [_ E]]]]; [|injection E as -> ->; auto]. split; [exact L|]. assert (has s' (OLive p k)) as H by (cbn; rewrite L; left; reflexivity). split; [exact (i_al _ _ _ I' _ H)|].
  intros p' k' X. apply (i_dis _ _ _ I' (OLive p k) (OLive p' k') H); [cbn; rewrite L; right; exact X|]. intros E. injection E as <- <-. pose proof (i_live _ _ _ I') as N. rewrite L in N. inversion N. contradiction.
Qed.
Print Assumptions C71_alloc.

(** An item that is freed is used again, without a call to malloc. *)
Theorem C71_reuse size align s k p m : let s' := mempool_free k p s in
  fst (mempool_alloc size align k m s') = Some p /\ blocks (snd (mempool_alloc size align k m s')) = blocks s.
Proof. unfold mempool_alloc, mempool_free. cbn [pools blocks]. rewrite set_same. cbn. auto. Qed.
Print Assumptions C71_reuse.

(** At the end, every block that malloc gave is freed once. *)
Theorem C71_clear size align s : types_ok size align -> reach size align s -> small s ->
  NoDup (mempool_clear s) /\ forall b, In b (mempool_clear s) <-> exists k n, In (k, b, n) (blocks s).
Proof.
  intros T R Sm. pose proof (reach_inv size align T s R Sm) as I. split.
  - apply NoDup_nth_error. intros i j Hi E. unfold mempool_clear, block_list in *. rewrite (map_length addr (blocks s)) in Hi. destruct (Nat.eq_dec i j) as [X|X]; [exact X|exfalso].
    rewrite !nth_error_map in E. destruct (nth_error (blocks s) i) as [x|] eqn:Ei; [|apply nth_error_None in Ei; lia]. destruct (nth_error (blocks s) j) as [y|] eqn:Ej; [|discriminate]. injection E as E.
    pose proof (i_blocks _ _ _ I i j x y Ei Ej X) as Q. apply nth_error_In in Ei, Ej. destruct x as [[k b] n], y as [[k' b'] n']. apply (i_big _ _ _ I) in Ei, Ej. unfold apart, addr in *. cbn in *. lia.
  - intros b. unfold mempool_clear, block_list. rewrite in_map_iff. split.
    + intros [[[k b'] n] [E X]]. unfold addr in E. cbn in E. subst b'. eauto.
    + intros [k [n X]]. exists (k, b, n). auto.
Qed.
Print Assumptions C71_clear.

(** A pool calls malloc fewer than 20 times. *)
Fixpoint calls (k : nat) (l : list (nat * Z * Z)) : nat := match l with [] => O | (k', _, _) :: l => ((if Nat.eqb k' k then 1 else 0) + calls k l)%nat end.
Theorem C71_blocks size align s k : types_ok size align -> reach size align s -> small s -> bytes k (blocks s) + 4096 = 4096 * 2 ^ Z.of_nat (calls k (blocks s)) /\ (calls k (blocks s) < 20)%nat.
Proof.
  intros T R Sm. assert (bytes k (blocks s) + 4096 = 4096 * 2 ^ Z.of_nat (calls k (blocks s))) as E.
  { induction R as [|s k' m R IH M|s k' k2 p R IH L Sz Al]; [reflexivity| |exact (IH Sm)]. pose proof (small_before size align s k' m R Sm) as Sb. specialize (IH Sb). pose proof (i_next _ _ _ (reach_inv size align T s R Sb) k') as Nx.
    destruct (blocks_grow size align s k' m) as [l [-> [->|[b ->]]]]; [exact IH|]. cbn [app bytes calls]. destruct (Nat.eqb k' k) eqn:Q; [|cbn [Nat.add]; lia]. apply Nat.eqb_eq in Q. subst k'. rewrite Nx. cbn [Nat.add]. rewrite Nat2Z.inj_succ, Z.pow_succ_r by lia. lia. }
  split; [exact E|]. specialize (Sm k). destruct (Nat.lt_ge_cases (calls k (blocks s)) 20) as [X|X]; [exact X|exfalso]. assert (2 ^ 20 <= 2 ^ Z.of_nat (calls k (blocks s))) by (apply Z.pow_le_mono_r; lia). lia.
Qed.
Print Assumptions C71_blocks.

(** Example: two threads with records of 16 bytes; the second frees what the first allocated. *)
Definition ex1 : st := snd (mempool_alloc size16 align8 0 None (snd (mempool_alloc size16 align8 0 (Some 4096) start))).
Lemma ex1_reach : reach16 ex1.
Proof. unfold ex1. apply r_alloc; [apply r_alloc; [apply r_new|]|discriminate]. intros b E. injection E as <-. split; [lia|]. split; [exists 512; reflexivity|intros ? ? ? []]. Qed.
Example ex1_live : live ex1 = [(4120, O); (4104, O)] /\ small ex1.
Proof. split; [vm_compute; reflexivity|]. intros [|k]; vm_compute; reflexivity. Qed.
Definition ex2 : st := mempool_free 1 4104 ex1.
Lemma ex2_reach : reach16 ex2.
Proof. unfold ex2. apply (r_free _ _ ex1 1%nat O 4104); [exact ex1_reach|vm_compute; auto|reflexivity|reflexivity]. Qed.
Example ex2_next : fst (mempool_alloc size16 align8 1 None ex2) = Some 4104 /\ fst (mempool_alloc size16 align8 0 None ex2) = Some 4136.
Proof. vm_compute. auto. Qed.

(** Records that do not fit into the first block are not refused: the first goes beyond its end. *)
Theorem C71_large_refuted :
  ~ forall size align s p k, (forall k, (exists e, 0 <= e /\ align k = 2 ^ e) /\ (align k | size k) /\ 8 <= size k) -> reach size align s -> small s -> In (p, k) (live s) ->
    exists k' b n, In (k', b, n) (blocks s) /\ b <= p /\ p + size k <= b + n.
Proof.
  intros H. set (s := snd (mempool_alloc (fun _ => 4096) align8 0 (Some 4096) start)).
  assert (reach (fun _ => 4096) align8 s) as R. { apply r_alloc; [apply r_new|]. intros b E. injection E as <-. split; [lia|]. split; [exists 512; reflexivity|intros ? ? ? []]. }
  destruct (H (fun _ => 4096) align8 s 4104 O) as [k [b [n [X [Y Z]]]]].
  - intros k. split; [exists 3; split; [lia|reflexivity]|]. split; [exists 512; reflexivity|lia].
  - exact R.
  - intros [|k]; vm_compute; reflexivity.
  - vm_compute. auto.
  - vm_compute in X. destruct X as [X|[]]. injection X as <- <- <-. lia.
Qed.
Print Assumptions C71_large_refuted.

(** The size of the next block is kept in 32 bits: a pool that has got 4 GB less 4096 bytes calls
    malloc(0), and gives out what is behind it. *)
Theorem C71_4gb_refuted :
  ~ forall size align s p k, types_ok size align -> reach size align s -> In (p, k) (live s) -> exists k' b n, In (k', b, n) (blocks s) /\ b <= p /\ p + size k <= b + n.
Proof. intros H. destruct overrun as [s [p [R [L N]]]]. apply N. exact (H size16 align8 s p O types16 R L). Qed.
Print Assumptions C71_4gb_refuted.
