From Verif Require Import Base EStringModel EStringProofs ShellSpec.
Local Open Scope Z_scope.

(** parser.c:3973-3982 and 3994-4003: the text %'f, %"f, %'o, %"o insert for a
    list of paths: each one quoted, separated by single spaces. *)
Definition quoted (q : ascii) (n : bytes) : bytes := [q] ++ escape_text q n ++ [q].
Fixpoint quoted_list (q : ascii) (names : list bytes) : bytes :=
  match names with
  | [] => []
  | [n] => quoted q n
  | n :: rest => quoted q n ++ B " " ++ quoted_list q rest
  end.

Lemma estring_appends_spec alloc_ok l :
  Z.of_nat (length (concat l)) + 1 <= 2 ^ 30 ->
  Forall no_nul l ->
  match bind (estring_init alloc_ok) (fun e => appends alloc_ok e l) with
  | Ok e => c_string (mem e) = Some (concat l) /\
            len e = Z.of_nat (length (concat l)) /\
            Z.of_nat (length (mem e)) = maxlen e /\ len e < maxlen e
  | Err => exists n, alloc_ok n = false
  | UB => False
  end.
Proof.
  intros Hb Hn. destruct (estring_init alloc_ok) as [e| |] eqn:I; cbn [bind].
  - pose proof (appends_holds alloc_ok l e [] (init_holds _ _ I) ltac:(cbn [length]; lia)) as A.
    destruct (appends alloc_ok e l) as [e'| |]; [|exact A|exact A]. cbn [app] in A.
    split; [apply c_string_holds; [exact A|]|].
    + unfold no_nul. rewrite in_concat. intros [x [Hx Hc]].
      rewrite Forall_forall in Hn. exact (Hn x Hx Hc).
    + destruct A as [A1 [A2 [A3 _]]]. repeat split; lia.
  - unfold estring_init in I. destruct (alloc_ok 4096) eqn:O; [|eauto].
    exfalso. unfold mem_write in I. destruct (_ && _); discriminate.
  - unfold estring_init in I. destruct (alloc_ok 4096) eqn:O; [|discriminate].
    unfold mem_write in I. rewrite repeat_length in I.
    destruct ((0 <=? 0) && (0 + Z.of_nat (length ["000"%char]) <=? Z.of_nat (Z.to_nat 4096))) eqn:E; [discriminate|].
    cbn [length] in E. rewrite Z2Nat.id in E by lia. discriminate.
Qed.

Lemma grow_overflow fuel need : 2 ^ 30 < need -> forall cur k, cur = 2 ^ k -> 0 < k <= 30 ->
  grow fuel need cur = UB.
Proof.
  intros Hn. induction fuel as [|f IH]; intros cur k Hc Hk; cbn [grow].
  - assert (2 ^ k <= 2 ^ 30) by (apply Z.pow_le_mono_r; lia).
    assert (need >? cur = true) as -> by (apply Z.gtb_lt; lia). reflexivity.
  - assert (2 ^ k <= 2 ^ 30) by (apply Z.pow_le_mono_r; lia).
    assert (need >? cur = true) as -> by (apply Z.gtb_lt; lia).
    destruct (cur * 2 >? INT_MAX) eqn:G; [reflexivity|].
    rewrite Z.gtb_ltb, Z.ltb_ge in G. unfold INT_MAX in G.
    apply (IH _ (k + 1)).
    + rewrite Z.pow_add_r by lia. lia.
    + destruct (Z.eq_dec k 30) as [->|]; [|lia]. subst cur. cbn in G. lia.
Qed.

Lemma estring_overflow alloc_ok e src :
  len e = 0 -> maxlen e = 4096 -> Z.of_nat (length src) = 2 ^ 30 ->
  estring_append alloc_ok e src = UB.
Proof.
  intros H0 Hm Hs. unfold estring_append. rewrite H0, Hm, Hs.
  change (0 + 2 ^ 30 + 1 >? INT_MAX) with false. cbn iota.
  change (0 + 2 ^ 30 + 1 >? 4096) with true. cbn iota.
  rewrite (grow_overflow 32 (0 + 2 ^ 30 + 1) eq_refl 4096 12) by (reflexivity || lia). reflexivity.
Qed.

Lemma append_escape_spec alloc_ok e t src c : holds e t ->
  Z.of_nat (length t + length (escape_text c src)) + 1 <= 2 ^ 30 ->
  match estring_append_escape alloc_ok e src c with
  | Ok e' => holds e' (t ++ escape_text c src)
  | Err => exists n, alloc_ok n = false
  | UB => False
  end.
Proof. intros H Hb. apply append_escape_holds; auto. Qed.

(** Shell reading. *)
Lemma escape_cons q c n : escape_text q (c :: n) =
  (if c =?c q then (if q =?c "'"%char then B "'""'""'" else B "\""") else [c]) ++ escape_text q n.
Proof. reflexivity. Qed.

Lemma sh_single n : forall w r, sh Single (Some w) (escape_text "'"%char n ++ r) = sh Single (Some (w ++ n)) r.
Proof.
  induction n as [|c n IH]; intros w r; [rewrite app_nil_r; reflexivity|].
  rewrite escape_cons, <- app_assoc. destruct (Ascii.eqb_spec c "'"%char) as [->|N].
  - transitivity (sh Single (Some (w ++ ["'"%char])) (escape_text "'"%char n ++ r)); [reflexivity|].
    rewrite IH, <- app_assoc. reflexivity.
  - cbn [app sh]. apply Ascii.eqb_neq in N. rewrite N.
    change (add (Some w) c) with (Some (w ++ [c])). rewrite IH, <- app_assoc. reflexivity.
Qed.

Definition dq_safe (n : bytes) := ~ In "\"%char n /\ ~ In "$"%char n /\ ~ In "`"%char n.

Lemma sh_double n : dq_safe n ->
  forall w r, sh Double (Some w) (escape_text """"%char n ++ r) = sh Double (Some (w ++ n)) r.
Proof.
  induction n as [|c n IH]; intros [H1 [H2 H3]] w r; [rewrite app_nil_r; reflexivity|].
  assert (dq_safe n) as Hn by (repeat split; intros h; [apply H1|apply H2|apply H3]; right; exact h).
  assert (c <> "\"%char /\ c <> "$"%char /\ c <> "`"%char) as [N1 [N2 N3]].
  { repeat split; intros ->; [apply H1|apply H2|apply H3]; left; reflexivity. }
  rewrite escape_cons, <- app_assoc. destruct (Ascii.eqb_spec c """"%char) as [->|N].
  - transitivity (sh Double (Some (w ++ [""""%char])) (escape_text """"%char n ++ r)); [reflexivity|].
    rewrite (IH Hn), <- app_assoc. reflexivity.
  - cbn [app sh]. apply Ascii.eqb_neq in N, N1, N2, N3. rewrite N, N1, N2, N3. cbn [orb].
    change (add (Some w) c) with (Some (w ++ [c])).
    rewrite (IH Hn), <- app_assoc. reflexivity.
Qed.

Lemma single_quoted_words names : sh_words (quoted_list "'"%char names) = Some names.
Proof.
  unfold sh_words. induction names as [|n names IH]; [reflexivity|].
  assert (forall r, sh Unquoted None (quoted "'"%char n ++ r) = sh Unquoted (Some n) r) as Q.
  { intros r. unfold quoted. rewrite <- !app_assoc. 
    transitivity (sh Single (Some []) (escape_text "'"%char n ++ ["'"%char] ++ r)); [reflexivity|].
    rewrite sh_single. reflexivity. }
  destruct names as [|n2 names].
  - cbn [quoted_list]. rewrite <- (app_nil_r (quoted _ _)), Q. reflexivity.
  - change (quoted_list "'"%char (n :: n2 :: names)) with
      (quoted "'"%char n ++ B " " ++ quoted_list "'"%char (n2 :: names)).
    rewrite Q. cbn [B list_ascii_of_string app].
    change (sh Unquoted (Some n) (" "%char :: quoted_list "'"%char (n2 :: names)))
      with (option_map (app [n]) (sh Unquoted None (quoted_list "'"%char (n2 :: names)))).
    rewrite IH. reflexivity.
Qed.

Lemma double_quoted_words names : Forall dq_safe names ->
  sh_words (quoted_list """"%char names) = Some names.
Proof.
  unfold sh_words. induction 1 as [|n names Hn Hr IH]; [reflexivity|].
  assert (forall r, sh Unquoted None (quoted """"%char n ++ r) = sh Unquoted (Some n) r) as Q.
  { intros r. unfold quoted. rewrite <- !app_assoc. 
    transitivity (sh Double (Some []) (escape_text """"%char n ++ [""""%char] ++ r)); [reflexivity|].
    rewrite (sh_double n Hn). reflexivity. }
  destruct names as [|n2 names].
  - cbn [quoted_list]. rewrite <- (app_nil_r (quoted _ _)), Q. reflexivity.
  - change (quoted_list """"%char (n :: n2 :: names)) with
      (quoted """"%char n ++ B " " ++ quoted_list """"%char (n2 :: names)).
    rewrite Q. cbn [B list_ascii_of_string app].
    change (sh Unquoted (Some n) (" "%char :: quoted_list """"%char (n2 :: names)))
      with (option_map (app [n]) (sh Unquoted None (quoted_list """"%char (n2 :: names)))).
    rewrite IH. reflexivity.
Qed.
