(** C26, C27: the growable string and shell quoting. *)
From Verif Require Import Base EStringModel EStringProofs EStringProofs2 ShellSpec.
Local Open Scope Z_scope.

(** C27. Whatever is appended, in whatever pieces, up to a total of 2^30 - 1
    bytes: no byte is written outside of the allocation, and the result is the
    concatenation, NUL-terminated. An error is only reported when an
    allocation fails. *)
Theorem C27_estring_append : forall alloc_ok l,
  Z.of_nat (length (concat l)) + 1 <= 2 ^ 30 ->
  Forall no_nul l ->
  match bind (estring_init alloc_ok) (fun e => appends alloc_ok e l) with
  | Ok e => c_string (mem e) = Some (concat l) /\
            len e = Z.of_nat (length (concat l)) /\
            Z.of_nat (length (mem e)) = maxlen e /\ len e < maxlen e
  | Err => exists n, alloc_ok n = false
  | UB => False
  end.
Proof. exact estring_appends_spec. Qed.
Print Assumptions C27_estring_append.
Example C27_estring_append_ex :
  match bind (estring_init (fun _ => true)) (fun e => appends (fun _ => true) e
     [repeat "a"%char 4095; B "bc"]) with
  | Ok e => maxlen e = 8192 /\ len e = 4097
  | _ => False
  end.
Proof. vm_compute. split; reflexivity. Qed.

(** C27, the full statement has no bound on the total length. It fails: the
    capacity is an int that is doubled, so a total of 2^30 bytes is undefined
    behaviour. *)
Theorem C27_estring_unbounded_refuted : forall alloc_ok e src,
  len e = 0 -> maxlen e = 4096 -> Z.of_nat (length src) = 2 ^ 30 ->
  estring_append alloc_ok e src = UB.
Proof. exact estring_overflow. Qed.
Print Assumptions C27_estring_unbounded_refuted.
Example C27_estring_unbounded_ex : exists src : bytes, Z.of_nat (length src) = 2 ^ 30.
Proof. exists (repeat "a"%char (Z.to_nat (2 ^ 30))). rewrite repeat_length. lia. Qed.

(** C26. The escaping inserted for a quote character in the buffer is the
    text [escape_text]. *)
Theorem C26_escape_appends : forall alloc_ok e t src c, holds e t ->
  Z.of_nat (length t + length (escape_text c src)) + 1 <= 2 ^ 30 ->
  match estring_append_escape alloc_ok e src c with
  | Ok e' => holds e' (t ++ escape_text c src)
  | Err => exists n, alloc_ok n = false
  | UB => False
  end.
Proof. exact append_escape_spec. Qed.
Print Assumptions C26_escape_appends.
Example C26_escape_appends_ex :
  match bind (estring_init (fun _ => true)) (fun e =>
        estring_append_escape (fun _ => true) e (B "it's") "'"%char) with
  | Ok e => c_string (mem e) = Some (B "it'""'""'s")
  | _ => False
  end.
Proof. vm_compute. reflexivity. Qed.

(** C26. A shell reads the single-quoted list back as exactly the names. *)
Theorem C26_single_quotes : forall names : list bytes,
  sh_words (quoted_list "'"%char names) = Some names.
Proof. exact single_quoted_words. Qed.
Print Assumptions C26_single_quotes.
Example C26_single_quotes_ex :
  quoted_list "'"%char [B "it's"; B "a b"] = B "'it'""'""'s' 'a b'".
Proof. vm_compute. reflexivity. Qed.

(** C26, full statement for double quotes:
      forall names, sh_words (quoted_list """" names) = Some names.
    It fails for names with backslash, dollar or backquote. *)
Theorem C26_double_quotes_refuted : exists name other : bytes,
  sh_words (quoted_list """"%char [name]) = Some [other] /\ other <> name.
Proof. exists (B "a\\b"), (B "a\b"). split; [vm_compute; reflexivity|discriminate]. Qed.
Print Assumptions C26_double_quotes_refuted.

(** C26, what holds for double quotes. *)
Theorem C26_double_quotes_partial : forall names : list bytes,
  Forall (fun n => ~ In "\"%char n /\ ~ In "$"%char n /\ ~ In "`"%char n) names ->
  sh_words (quoted_list """"%char names) = Some names.
Proof. exact double_quoted_words. Qed.
Print Assumptions C26_double_quotes_partial.
Example C26_double_quotes_ex :
  sh_words (quoted_list """"%char [B "a""b"; B "c d"]) = Some [B "a""b"; B "c d"].
Proof. vm_compute. reflexivity. Qed.
