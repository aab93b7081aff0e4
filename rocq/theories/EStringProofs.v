From Verif Require Import Base EStringModel.
Local Open Scope Z_scope.
Ltac Zify.zify_post_hook ::= Z.div_mod_to_equations.

(** The buffer holds the text [t]. *)
Definition holds (e : estring) (t : bytes) : Prop :=
  len e = Z.of_nat (length t) /\
  Z.of_nat (length (mem e)) = maxlen e /\
  len e + 1 <= maxlen e /\
  (exists rest, mem e = map Some t ++ Some "000"%char :: rest) /\
  4096 <= maxlen e /\ (exists k, maxlen e = 4096 * 2 ^ k /\ 0 <= k) /\ maxlen e <= 2 ^ 30.

Lemma mem_write_ok m a x r bs :
  m = a ++ x ++ r -> length x = length bs ->
  mem_write m (Z.of_nat (length a)) bs = Ok (a ++ map Some bs ++ r).
Proof.
  intros -> L. unfold mem_write.
  assert ((0 <=? Z.of_nat (length a)) && (Z.of_nat (length a) + Z.of_nat (length bs) <=? Z.of_nat (length (a ++ x ++ r))) = true) as ->.
  { rewrite !app_length. apply andb_true_intro; split; apply Z.leb_le; lia. }
  rewrite Nat2Z.id, firstn_app, Nat.sub_diag, firstn_O, app_nil_r, firstn_all.
  rewrite skipn_app. rewrite (skipn_all2 a) by lia.
  replace (length a + length bs - length a)%nat with (length x) by lia.
  rewrite skipn_app, skipn_all, Nat.sub_diag. reflexivity.
Qed.

Lemma init_holds ok e : estring_init ok = Ok e -> holds e [].
Proof.
  unfold estring_init. destruct (ok 4096); [|discriminate].
  replace (Z.to_nat 4096) with (S (Z.to_nat 4095)) by lia.
  assert (Z.of_nat (Z.to_nat 4095) = 4095) as E by lia. revert E.
  generalize (Z.to_nat 4095). intros n E. cbn [repeat].
  rewrite (mem_write_ok _ [] [None] (repeat None n)) by reflexivity.
  cbn [bind]. intros H; injection H as <-. unfold holds; cbn [mem len maxlen app map length].
  rewrite repeat_length. repeat split; try lia.
  - exists (repeat None n). reflexivity.
  - exists 0. split; [reflexivity|lia].
Qed.

(** Doubling stays within 2^30 when the need does. *)
Lemma grow_ok fuel need : forall cur k, cur = 4096 * 2 ^ k -> 0 <= k -> k + Z.of_nat fuel >= 18 ->
  cur <= 2 ^ 30 -> need <= 2 ^ 30 ->
  exists mx k', grow fuel need cur = Ok mx /\ mx = 4096 * 2 ^ k' /\ 0 <= k' /\ mx <= 2 ^ 30 /\
    need <= mx /\ cur <= mx.
Proof.
  induction fuel as [|f IH]; intros cur k Hc Hk Hf Hle Hn; cbn [grow];
    destruct (need >? cur) eqn:G.
  - exfalso. apply Z.gtb_lt in G.
    assert (2 ^ 18 <= 2 ^ k) by (apply Z.pow_le_mono_r; lia). lia.
  - exists cur, k. rewrite Z.gtb_ltb, Z.ltb_ge in G. repeat split; lia.
  - apply Z.gtb_lt in G.
    assert (k < 18) as K.
    { destruct (Z.lt_ge_cases k 18) as [|K]; [assumption|].
      assert (2 ^ 18 <= 2 ^ k) by (apply Z.pow_le_mono_r; lia). lia. }
    assert (2 ^ k <= 2 ^ 17) by (apply Z.pow_le_mono_r; lia).
    assert (cur * 2 >? INT_MAX = false) as -> by (rewrite Z.gtb_ltb; apply Z.ltb_ge; unfold INT_MAX; lia).
    destruct (IH (cur * 2) (k + 1)) as [mx [k' H2]]; try lia.
    { rewrite Z.pow_add_r by lia. lia. }
    exists mx, k'. intuition lia.
  - exists cur, k. rewrite Z.gtb_ltb, Z.ltb_ge in G. repeat split; lia.
Qed.

Lemma append_holds ok e t src : holds e t ->
  Z.of_nat (length t + length src) + 1 <= 2 ^ 30 ->
  match estring_append ok e src with
  | Ok e' => holds e' (t ++ src)
  | Err => exists n, ok n = false
  | UB => False
  end.
Proof.
  intros [Hl [Hm [Hlm [[rest Hr] [H4 [[k [Hk Hk0]] H30]]]]]] Hb.
  unfold estring_append.
  assert (len e + Z.of_nat (length src) + 1 >? INT_MAX = false) as ->.
  { rewrite Z.gtb_ltb; apply Z.ltb_ge; unfold INT_MAX; lia. }
  assert (forall m mx, (exists rest, m = map Some t ++ Some "000"%char :: rest) ->
    Z.of_nat (length m) = mx -> len e + Z.of_nat (length src) + 1 <= mx -> 4096 <= mx ->
    (exists k, mx = 4096 * 2 ^ k /\ 0 <= k) -> mx <= 2 ^ 30 ->
    exists m2 m1, mem_write m (len e) src = Ok m1 /\
      mem_write m1 (len e + Z.of_nat (length src)) ["000"%char] = Ok m2 /\
      holds {| mem := m2; len := len e + Z.of_nat (length src); maxlen := mx |} (t ++ src)) as W.
  { intros m mx [r2 Em] Lm Hf H4' Hk' H30'.
    assert (exists x y z, Some "000"%char :: r2 = x ++ y :: z /\ length x = length src) as [x [y [z [Exyz Lx]]]].
    { pose proof Lm as Lm2. rewrite Em, app_length, map_length in Lm2. cbn [length] in Lm2.
      exists (firstn (length src) (Some "000"%char :: r2)).
      destruct (skipn (length src) (Some "000"%char :: r2)) as [|y z] eqn:Sk.
      - exfalso. apply (f_equal (@length _)) in Sk. rewrite skipn_length in Sk. cbn [length] in Sk. lia.
      - exists y, z. rewrite <- Sk, firstn_skipn. split; [reflexivity|].
        apply firstn_length_le. cbn [length]. lia. }
    rewrite Exyz in Em.
    assert (mem_write m (len e) src = Ok (map Some t ++ map Some src ++ y :: z)) as W1.
    { rewrite Hl. rewrite <- (map_length Some t). apply mem_write_ok with (x := x); assumption. }
    assert (mem_write (map Some t ++ map Some src ++ y :: z) (len e + Z.of_nat (length src)) ["000"%char]
        = Ok (map Some (t ++ src) ++ Some "000"%char :: z)) as W2.
    { rewrite app_assoc, <- map_app.
      replace (len e + Z.of_nat (length src)) with (Z.of_nat (length (map (@Some ascii) (t ++ src)))).
      - apply (mem_write_ok _ _ [y] z); reflexivity.
      - rewrite map_length, app_length, Hl. lia. }
    eexists; eexists; split; [exact W1|split; [exact W2|]].
    unfold holds; cbn [mem len maxlen]. rewrite Em in Lm.
    rewrite !app_length, !map_length in *. cbn [length] in *. rewrite app_length in *. repeat split; try lia.
    + eexists; reflexivity.
    + exact Hk'. }
  destruct (len e + Z.of_nat (length src) + 1 >? maxlen e) eqn:G.
  - apply Z.gtb_lt in G.
    destruct (grow_ok 32 (len e + Z.of_nat (length src) + 1) (maxlen e) k) as [mx [k' [E [Hmx [Hk'0 [Hmx30 [Hneed Hge]]]]]]]; try lia.
    rewrite E. cbn [bind]. destruct (ok mx) eqn:O; [|cbn; exists mx; exact O]. cbn [bind mem len maxlen].
    destruct (W (mem e ++ repeat None (Z.to_nat mx - length (mem e))) mx) as [m2 [m1 [W1 [W2 Hh]]]].
    + rewrite Hr. exists (rest ++ repeat None (Z.to_nat mx - length (map Some t ++ Some "000"%char :: rest))).
      rewrite <- app_assoc. reflexivity.
    + rewrite app_length, repeat_length. lia.
    + lia.
    + lia.
    + exists k'; lia.
    + lia.
    + rewrite W1. cbn [bind]. rewrite W2. cbn [bind]. exact Hh.
  - rewrite Z.gtb_ltb, Z.ltb_ge in G. cbn [bind].
    destruct (W (mem e) (maxlen e)) as [m2 [m1 [W1 [W2 Hh]]]]; try lia; eauto.
    rewrite W1. cbn [bind]. rewrite W2. cbn [bind]. exact Hh.
Qed.

Lemma appends_holds ok l : forall e t, holds e t ->
  Z.of_nat (length t + length (concat l)) + 1 <= 2 ^ 30 ->
  match appends ok e l with
  | Ok e' => holds e' (t ++ concat l)
  | Err => exists n, ok n = false
  | UB => False
  end.
Proof.
  induction l as [|x l IH]; intros e t H Hb; cbn [appends concat]; [rewrite app_nil_r; exact H|].
  cbn [concat] in Hb. rewrite app_length in Hb.
  pose proof (append_holds ok e t x H ltac:(lia)) as A.
  destruct (estring_append ok e x) as [e1| |]; cbn [bind]; [|exact A|exact A].
  specialize (IH e1 (t ++ x) A). rewrite app_length, <- app_assoc in IH. apply IH. lia.
Qed.

Lemma c_string_holds e t : holds e t -> no_nul t -> c_string (mem e) = Some t.
Proof.
  intros [_ [_ [_ [[rest ->] _]]]] Hn. induction t as [|c t IH]; cbn; [reflexivity|].
  destruct (Ascii.eqb_spec c "000"%char) as [->|_]; [exfalso; apply Hn; left; reflexivity|].
  cbn in IH. rewrite IH; [reflexivity|]. intros h; apply Hn; right; exact h.
Qed.

(** estring_append_escape appends exactly the escaped text. *)
Lemma memchr_spec p c : match memchr p c with
  | None => ~ In c p
  | Some k => exists a r, p = a ++ c :: r /\ length a = k /\ ~ In c a
  end.
Proof.
  induction p as [|x p IH]; cbn [memchr]; [auto|].
  destruct (Ascii.eqb_spec x c) as [->|N].
  - exists [], p. repeat split; auto.
  - destruct (memchr p c) as [k|]; cbn [option_map].
    + destruct IH as [a [r [-> [<- H]]]]. exists (x :: a), r. repeat split; auto.
      intros [E|E]; auto.
    + intros [E|E]; auto.
Qed.

Lemma escape_app c a b : escape_text c (a ++ b) = escape_text c a ++ escape_text c b.
Proof. apply flat_map_app. Qed.
Lemma escape_none c a : ~ In c a -> escape_text c a = a.
Proof.
  unfold escape_text. induction a as [|x a IH]; [reflexivity|]. intros H. cbn [flat_map].
  destruct (Ascii.eqb_spec x c) as [->|N]; [exfalso; apply H; left; reflexivity|].
  cbn [app]. f_equal. apply IH. intros h; apply H; right; exact h.
Qed.

Lemma append_escape_holds ok c fuel : forall e t p, (length p <= fuel)%nat -> holds e t ->
  Z.of_nat (length t + length (escape_text c p)) + 1 <= 2 ^ 30 ->
  match append_escape_loop ok fuel e p c with
  | Ok e' => holds e' (t ++ escape_text c p)
  | Err => exists n, ok n = false
  | UB => False
  end.
Proof.
  induction fuel as [|f IH]; intros e t p Hf H Hb.
  - destruct p; [|cbn in Hf; lia]. cbn. rewrite app_nil_r. exact H.
  - destruct p as [|x p0]; [cbn; rewrite app_nil_r; exact H|].
    cbn [append_escape_loop].
    set (p := x :: p0) in *. pose proof (memchr_spec p c) as M.
    destruct (memchr p c) as [k|].
    + destruct M as [a [r [E [L Ha]]]].
      assert (firstn k p = a) as -> by (rewrite E, <- L, firstn_app, Nat.sub_diag, firstn_O, app_nil_r; apply firstn_all).
      assert (skipn (S k) p = r) as ->.
      { rewrite E, <- L. replace (S (length a)) with (length (a ++ [c])) by (rewrite app_length; cbn; lia).
        change (a ++ c :: r) with (a ++ [c] ++ r). rewrite app_assoc, skipn_app, skipn_all, Nat.sub_diag. reflexivity. }
      set (q := if c =?c "'"%char then B "'""'""'" else B "\""").
      assert (escape_text c p = a ++ q ++ escape_text c r) as Ep.
      { rewrite E, escape_app, escape_none by exact Ha. cbn [escape_text flat_map].
        rewrite Ascii.eqb_refl. reflexivity. }
      rewrite Ep in *. rewrite !app_length in Hb.
      pose proof (append_holds ok e t a H ltac:(lia)) as A1.
      destruct (estring_append ok e a) as [e1| |]; cbn [bind]; [|exact A1|exact A1].
      pose proof (append_holds ok e1 (t ++ a) q A1 ltac:(rewrite app_length; lia)) as A2.
      destruct (estring_append ok e1 q) as [e2| |]; cbn [bind]; [|exact A2|exact A2].
      specialize (IH e2 ((t ++ a) ++ q) r). rewrite !app_assoc. rewrite !app_length in IH. apply IH; [|exact A2|lia].
      assert (length p = length a + S (length r))%nat by (rewrite E, app_length; cbn; lia). lia.
    + rewrite escape_none in * by exact M. apply append_holds; assumption.
Qed.
