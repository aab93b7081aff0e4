(** A pool that has got 4 GB. *)
From Verif Require Import PoolModel PoolSpec PoolProofs.
Require Import ZArith List Bool Lia.
Import ListNotations.
Open Scope Z_scope.

Definition size16 (_ : nat) : Z := 16.
Definition align8 (_ : nat) : Z := 8.
Lemma types16 : types_ok size16 align8.
Proof. intros k. split; [exists 3; split; [lia|reflexivity]|]. split; [exists 2; reflexivity|]. split; [unfold size16; lia|]. vm_compute. discriminate. Qed.
Notation reach16 := (reach size16 align8).

Lemma next16 s k : (8 | mem (pools s k)) -> next_item size16 align8 k s = (Some (mem (pools s k)), {| pools := set_pool (pools s) k (Pool (free_list (pools s k)) (next_size (pools s k)) (free_count (pools s k) - 1) (mem (pools s k) + 16)); blocks := blocks s; live := (mem (pools s k), k) :: live s |}).
Proof. intros D. unfold next_item. pose proof (proj2 (land_ok size16 align8 types16 k (mem (pools s k))) D) as E. rewrite E. reflexivity. Qed.

Lemma drain : forall c s, reach16 s -> free_list (pools s O) = [] -> free_count (pools s O) = Z.of_nat c -> (8 | mem (pools s O)) ->
  exists s', reach16 s' /\ free_list (pools s' O) = [] /\ free_count (pools s' O) = 0 /\ next_size (pools s' O) = next_size (pools s O) /\ blocks s' = blocks s.
Proof.
  induction c as [|c IH]; intros s R F C D; [exists s; auto|].
  assert (reach16 (snd (mempool_alloc size16 align8 O None s))) as R' by (apply r_alloc; [exact R|discriminate]).
  unfold mempool_alloc in R'. rewrite F in R'. replace (free_count (pools s O) =? 0) with false in R' by (symmetry; apply Z.eqb_neq; lia). rewrite next16 in R' by exact D. cbn [snd] in R'.
  destruct (IH _ R') as [s' [H1 [H2 [H3 [H4 H5]]]]]; cbn [pools blocks]; rewrite ?set_same; cbn [free_list free_count mem]; auto; [lia|apply Z.divide_add_r; [exact D|exists 2; reflexivity]|].
  exists s'. split; [exact H1|]. split; [exact H2|]. split; [exact H3|]. cbn [pools blocks] in *. rewrite set_same in H4. auto.
Qed.

Lemma filled : forall n, (n <= 20)%nat -> exists s, reach16 s /\ free_list (pools s O) = [] /\ free_count (pools s O) = 0 /\ next_size (pools s O) = to_uint (4096 * 2 ^ Z.of_nat n) /\
  forall k b m, In (k, b, m) (blocks s) -> b + m <= 4096 * 2 ^ Z.of_nat n.
Proof.
  induction n as [|n IH]; intros L.
  - exists start. split; [apply r_new|]. split; [reflexivity|]. split; [reflexivity|]. split; [reflexivity|]. intros k b m [].
  - destruct IH as [s [R [F [C [N Bl]]]]]; [lia|]. set (z := 4096 * 2 ^ Z.of_nat n) in *. assert (2 ^ Z.of_nat n <= 2 ^ 19) as P19 by (apply Z.pow_le_mono_r; lia). assert (1 <= 2 ^ Z.of_nat n) as P1 by (change 1 with (2 ^ 0); apply Z.pow_le_mono_r; lia).
    assert (4096 * 2 ^ Z.of_nat (S n) = z * 2) as Zs by (rewrite Nat2Z.inj_succ, Z.pow_succ_r by lia; unfold z; lia).
    assert (4096 <= z <= 2 ^ 31) as Zb by (unfold z; lia). assert (next_size (pools s O) = z) as N' by (rewrite N; unfold to_uint, two32; apply Z.mod_small; lia).
    assert (reach16 (snd (mempool_alloc size16 align8 O (Some z) s))) as R'.
    { apply r_alloc; [exact R|]. intros b E. injection E as <-. split; [lia|]. split; [exists (512 * 2 ^ Z.of_nat n); unfold z, align8; lia|]. intros k b m X. apply Bl in X. right. exact X. }
    unfold mempool_alloc in R'. rewrite F, C in R'. cbn [Z.eqb] in R'. change (size16 O <? entry_size) with false in R'. cbn [option_map] in R'.
    set (c := (z - 8) / 16). assert (1 <= c < 2 ^ 31) as Cb. { unfold c. split; [apply Z.div_le_lower_bound; lia|apply Z.div_lt_upper_bound; lia]. }
    assert (pools (new_block size16 align8 O z s) O = Pool [] (to_uint (z * 2)) c (z + 8)) as Pk.
    { unfold new_block. cbn [pools]. rewrite set_same, F, N'. change (mem_offset align8 O) with 8. unfold to_size. rewrite (Z.mod_small (z - 8)) by lia. change (size16 O) with 16. fold c. unfold to_int, two32. rewrite (Z.mod_small (c + 2 ^ 31)) by lia. f_equal. lia. }
    assert (8 | z + 8) as D by (exists (512 * 2 ^ Z.of_nat n + 1); unfold z; lia).
    rewrite next16 in R' by (rewrite Pk; exact D). cbn [snd] in R'. rewrite Pk in R'. cbn [free_list next_size free_count mem] in R'.
    destruct (drain (Z.to_nat (c - 1)) _ R') as [s' [H1 [H2 [H3 [H4 H5]]]]]; cbn [pools]; rewrite ?set_same; cbn [free_list free_count mem]; [reflexivity|lia|replace (z + 8 + 16) with (z + 8 + 2 * 8) by lia; apply Z.divide_add_r; [exact D|exists 2; reflexivity]|].
    exists s'. split; [exact H1|]. split; [exact H2|]. split; [exact H3|]. cbn [pools blocks] in H4, H5. rewrite set_same in H4. cbn [next_size] in H4. rewrite Zs. split; [exact H4|].
    intros k b m X. rewrite H5 in X. cbn [new_block blocks] in X. destruct X as [X|X]; [injection X as <- <- <-; rewrite N'; lia|]. apply Bl in X. lia.
Qed.

Definition inside (size : nat -> Z) (s : st) (p : Z) (k : nat) : Prop := exists k' b n, In (k', b, n) (blocks s) /\ b <= p /\ p + size k <= b + n.
Lemma overrun : exists s p, reach16 s /\ In (p, O) (live s) /\ ~ inside size16 s p O.
Proof.
  destruct (filled 20 (le_n _)) as [s [R [F [C [N Bl]]]]]. change (4096 * 2 ^ Z.of_nat 20) with (2 ^ 32) in *. change (to_uint (2 ^ 32)) with 0 in N.
  assert (reach16 (snd (mempool_alloc size16 align8 O (Some (2 ^ 32)) s))) as R'.
  { apply r_alloc; [exact R|]. intros b E. injection E as <-. split; [lia|]. split; [exists (2 ^ 29); reflexivity|]. intros k b m X. apply Bl in X. right. exact X. }
  unfold mempool_alloc in R'. rewrite F, C in R'. cbn [Z.eqb] in R'. change (size16 O <? entry_size) with false in R'. cbn [option_map] in R'.
  assert (mem (pools (new_block size16 align8 O (2 ^ 32) s) O) = 2 ^ 32 + 8) as M by (unfold new_block; cbn [pools]; rewrite set_same; reflexivity).
  rewrite next16 in R' by (rewrite M; exists (2 ^ 29 + 1); reflexivity). cbn [snd] in R'. rewrite M in R'. eexists. exists (2 ^ 32 + 8). split; [exact R'|]. split; [left; reflexivity|].
  intros [k' [b [n [X [Y Z]]]]]. cbn [new_block blocks] in X. destruct X as [X|X]; [injection X as <- <- <-; rewrite N in Z; unfold size16 in Z; lia|]. apply Bl in X. unfold size16 in Z. lia.
Qed.
