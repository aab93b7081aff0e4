(** Proofs about the lines of a Tupfile. *)
From Verif Require Import Base ConfigModel ConfigSpec ConfigProofs ParseModel ParseSpec ParseProofs IfModel TextModel TextSpec.
From Coq Require Import ZArith.

Lemma ends_with_app m s : ends_with m (s ++ m) = true.
Proof. unfold ends_with. rewrite rev_app_distr. apply prefixb_spec. eexists. reflexivity. Qed.
Lemma ends_with_inv m s : ends_with m s = true -> exists t, s = t ++ m.
Proof.
  unfold ends_with. intros H. apply prefixb_spec in H. destruct H as [r H]. exists (rev r).
  rewrite <- (rev_involutive s), H, rev_app_distr, rev_involutive. reflexivity.
Qed.
Lemma chop_app n s m : length m = n -> chop n (s ++ m) = s.
Proof. intros <-. unfold chop. rewrite app_length, Nat.add_sub. rewrite firstn_app, Nat.sub_diag, firstn_O, app_nil_r. apply firstn_all. Qed.
Lemma ends_one a s : ends_with [a] s = true <-> exists t, s = t ++ [a].
Proof. split; [apply ends_with_inv|]. intros [t ->]. apply ends_with_app. Qed.
Lemma continued_spec l : continued l = true <-> unfinished l.
Proof.
  unfold continued, unfinished. rewrite orb_true_iff. split.
  - intros [H|H]; apply ends_with_inv in H; destruct H as [t H]; exists t; [left|right]; exact H.
  - intros [t [->| ->]]; [left|right]; apply ends_with_app.
Qed.
Definition gap (crlf : bool) : bytes := if crlf then [" "; " "; " "]%char else [" "; " "]%char.
Lemma piece_continued a (crlf : bool) : continued (a ++ (if crlf then [backslash; cr] else [backslash])) = true.
Proof. apply continued_spec. exists a. destruct crlf; [right|left]; reflexivity. Qed.
Lemma piece_blank a (crlf : bool) : blank_out (a ++ (if crlf then [backslash; cr] else [backslash])) = a ++ gap crlf.
Proof.
  unfold blank_out. destruct crlf.
  - destruct (ends_with [backslash] (a ++ [backslash; cr])) eqn:E.
    + apply ends_one in E. destruct E as [t E]. change [backslash; cr] with ([backslash] ++ [cr]) in E. rewrite app_assoc in E.
      apply app_inj_tail in E. destruct E as [_ E]. discriminate.
    + rewrite chop_app by reflexivity. reflexivity.
  - rewrite ends_with_app, chop_app by reflexivity. reflexivity.
Qed.

(** The text up to the end of a line. *)
Definition ending (r : option bytes) : bytes := match r with Some t => newline :: t | None => [] end.
Lemma get_newline_line l r : one_line l -> get_newline (l ++ ending r) = (l, r).
Proof.
  induction l as [|c l IH]; intros [N Z]; cbn [app get_newline].
  - destruct r as [t|]; reflexivity.
  - assert (c <> newline /\ c <> nul) as [C1 C2] by (split; intros ->; [apply N|apply Z]; left; reflexivity).
    apply Ascii.eqb_neq in C1, C2. rewrite C1, C2. cbn [orb]. rewrite IH; [reflexivity|]. split; intros H; [apply N|apply Z]; right; exact H.
Qed.
Lemma one_line_app a b : one_line (a ++ b) <-> one_line a /\ one_line b.
Proof.
  unfold one_line. split.
  - intros [N Z]. repeat split; intros H; first [apply N; apply in_or_app; auto; fail | apply Z; apply in_or_app; auto; fail].
  - intros [[N Z] [N' Z']]. split; intros H; apply in_app_or in H; destruct H; auto.
Qed.
Lemma piece_get p r : one_line (fst p) ->
  get_newline (piece_text p ++ r) = (fst p ++ (if snd p then [backslash; cr] else [backslash]), Some r).
Proof.
  intros O. destruct p as [a k]. unfold piece_text. cbn [fst snd] in *.
  pose proof (get_newline_line (a ++ (if k then [backslash; cr] else [backslash])) (Some r)) as G.
  etransitivity; [|apply G].
  - f_equal. destruct k; cbn [ending]; rewrite <- !app_assoc; reflexivity.
  - apply one_line_app. split; [exact O|]. split; destruct k; cbn; intuition discriminate.
Qed.
Lemma ends_last {A} (a b : list A) x t : a ++ b = t ++ [x] -> b <> [] -> exists u, b = u ++ [x].
Proof.
  intros E N. destruct (exists_last N) as [u [y ->]]. rewrite app_assoc in E. apply app_inj_tail in E. destruct E as [_ ->]. exists u. reflexivity.
Qed.
Lemma white_not_backslash : ~ white backslash. Proof. apply not_white_lit. reflexivity. Qed.
Lemma not_continued acc l tr : (acc = [] \/ exists a, acc = a ++ [space]) -> ~ ends_white l -> Forall white tr ->
  (forall t, l = t ++ [backslash] -> tr <> [] /\ tr <> [cr]) -> continued (acc ++ l ++ tr) = false.
Proof.
  intros Hacc He Hw Hb. destruct (continued (acc ++ l ++ tr)) eqn:C; [|reflexivity]. exfalso.
  apply continued_spec in C. destruct C as [t C].
  assert (W : forall c u, tr = u ++ [c] -> white c) by (intros c u ->; rewrite Forall_app in Hw; destruct Hw as [_ Hw]; inversion Hw; assumption).
  destruct tr as [|w tr'] eqn:Etr.
  - rewrite app_nil_r in C. destruct l as [|c l'] eqn:El.
    + rewrite app_nil_r in C. destruct Hacc as [->|[a ->]].
      * destruct C as [C|C]; destruct t; discriminate.
      * destruct C as [C|C]; [|change ["\"; "013"]%char with (["\"%char] ++ ["013"%char]) in C; rewrite app_assoc in C];
          apply app_inj_tail in C; destruct C as [_ C]; discriminate.
    + destruct C as [C|C].
      * apply ends_last in C; [|discriminate]. destruct C as [u C]. apply Hb in C. destruct C; congruence.
      * change ["\"; "013"]%char with (["\"%char] ++ ["013"%char]) in C. rewrite app_assoc in C. apply ends_last in C; [|discriminate].
        destruct C as [u C]. apply He. exists u, "013"%char. split; [exact C|]. do 5 right. left. reflexivity.
  - rewrite <- Etr in *. assert (tr <> []) as N by (rewrite Etr; discriminate). rewrite app_assoc in C. destruct C as [C|C].
    + apply ends_last in C; [|exact N]. destruct C as [u C]. apply W in C. exact (white_not_backslash C).
    + pose proof C as C0. change ["\"; "013"]%char with (["\"%char] ++ ["013"%char]) in C. rewrite app_assoc in C. apply ends_last in C; [|exact N].
      destruct C as [u C]. rewrite C in C0. rewrite app_assoc in C0. change ["\"; "013"]%char with (["\"%char] ++ ["013"%char]) in C0. rewrite app_assoc in C0.
      apply app_inj_tail in C0. destruct C0 as [C0 _]. destruct u as [|x u'].
      * rewrite app_nil_r in C0. cbn [app] in C. destruct l as [|c l'] eqn:El.
        -- rewrite app_nil_r in C0. destruct Hacc as [->|[a ->]]; [destruct t; discriminate|].
           apply app_inj_tail in C0. destruct C0 as [_ C0]. discriminate.
        -- apply ends_last in C0; [|discriminate]. destruct C0 as [v C0]. destruct (Hb v C0) as [_ Hc]. apply Hc; exact C.
      * apply ends_last in C0; [|discriminate]. destruct C0 as [v C0]. rewrite C0, <- app_assoc in C. rewrite C in Hw.
        rewrite Forall_app in Hw. destruct Hw as [_ Hw]. inversion Hw. exact (white_not_backslash H1).
Qed.

Lemma take_line_pieces ps : forall fuel n acc l tr r,
  Forall (fun p => one_line (fst p)) ps -> one_line l -> one_line tr ->
  (acc = [] \/ exists a, acc = a ++ [space]) -> ~ ends_white l -> Forall white tr ->
  (forall t, l = t ++ [backslash] -> tr <> [] /\ tr <> [cr]) ->
  length ps < fuel ->
  take_line fuel n acc (concat (map piece_text ps) ++ (l ++ tr) ++ ending r) = Got (S (n + length ps)) (acc ++ said ps l ++ tr) r.
Proof.
  induction ps as [|p ps IH]; intros fuel n acc l tr r Hp Hl Ht Ha He Hw Hb F; (destruct fuel as [|fuel]; [cbn in F; lia|]).
  - cbn [map concat app take_line length said]. rewrite get_newline_line by (apply one_line_app; auto).
    rewrite (not_continued acc l tr Ha He Hw Hb), Nat.add_0_r. reflexivity.
  - inversion Hp as [|? ? O Hp']; subst. cbn [map concat take_line]. rewrite <- app_assoc, (piece_get p _ O), app_assoc.
    rewrite piece_continued, piece_blank. rewrite (IH fuel (S n) _ l tr r Hp' Hl Ht); [| |assumption|assumption|assumption|cbn in F; lia].
    + cbn [length]. replace (S n + length ps) with (n + S (length ps)) by lia. f_equal. unfold said. cbn [map concat]. unfold gap. rewrite <- !app_assoc. reflexivity.
    + right. unfold gap. destruct (snd p).
      * exists (acc ++ fst p ++ [space; space]). rewrite <- !app_assoc. reflexivity.
      * exists (acc ++ fst p ++ [space]). rewrite <- !app_assoc. reflexivity.
Qed.
Lemma take_line_unfinished ps : forall fuel n acc u (k : bool),
  Forall (fun p => one_line (fst p)) ps -> one_line u -> length ps < fuel ->
  take_line fuel n acc (concat (map piece_text ps) ++ u ++ (if k then [backslash; cr] else [backslash])) = Overrun.
Proof.
  induction ps as [|p ps IH]; intros fuel n acc u k Hp Hu F; (destruct fuel as [|fuel]; [cbn in F; lia|]).
  - cbn [map concat app take_line].
    assert (one_line (u ++ (if k then [backslash; cr] else [backslash]))) as O
      by (apply one_line_app; split; [exact Hu|]; split; destruct k; cbn; intuition discriminate).
    pose proof (get_newline_line _ None O) as G. cbn [ending] in G. rewrite app_nil_r in G. rewrite G, app_assoc, piece_continued. reflexivity.
  - inversion Hp as [|? ? O Hp']; subst. cbn [map concat take_line]. rewrite <- app_assoc, (piece_get p _ O), app_assoc.
    rewrite piece_continued, piece_blank. apply IH; [assumption|assumption|cbn in F; lia].
Qed.

Lemma white_one_line_skip ws n r : Forall white ws -> one_line ws -> skip_blank n (ws ++ r) = skip_blank n r.
Proof.
  induction ws as [|c ws IH]; intros W O; [reflexivity|]. inversion W; subst. cbn [app skip_blank].
  assert (isspace c = true) as -> by (apply isspace_white; assumption).
  assert (c =?c newline = false) as -> by (apply Ascii.eqb_neq; intros ->; apply (proj1 O); left; reflexivity).
  apply IH; [assumption|]. destruct O as [N Z]. split; intros H; [apply N|apply Z]; right; exact H.
Qed.
Lemma skip_stop n r : ~ starts_white r -> skip_blank n r = (n, r).
Proof.
  destruct r as [|c r]; [reflexivity|]. intros H. cbn [skip_blank]. destruct (isspace c) eqn:E; [|reflexivity].
  exfalso. apply H. exists c, r. split; [reflexivity|apply isspace_white, E].
Qed.

(** ** All lines *)
Fixpoint lines (fuel n : nat) (r : bytes) : list (nat * bytes) * bool :=
  match fuel with
  | 0 => ([], false)
  | S fuel =>
      match next_line (S (length r)) n r with
      | Ended => ([], true)
      | Broken => ([], false)
      | Next m l rest => let '(x, b) := lines fuel m rest in ((m, l) :: x, b)
      end
  end.

(** Fuel. *)
Lemma get_newline_len r a b : get_newline r = (a, Some b) -> length a + S (length b) = length r.
Proof.
  revert a b. induction r as [|c r IH]; intros a b; cbn [get_newline]; [discriminate|].
  destruct ((c =?c newline) || (c =?c nul)); [intros [= <- <-]; reflexivity|].
  destruct (get_newline r) as [x [y|]] eqn:E; intros H; [|discriminate]. injection H as <- <-. cbn [length]. specialize (IH _ _ eq_refl). lia.
Qed.
Lemma take_line_len fuel : forall n acc r m l t, take_line fuel n acc r = Got m l (Some t) -> length t < length r.
Proof.
  induction fuel as [|fuel IH]; intros n acc r m l t; cbn [take_line]; [discriminate|].
  destruct (get_newline r) as [a b] eqn:G. destruct (continued (acc ++ a)).
  - destruct b as [b|]; [|discriminate]. intros H. apply IH in H. apply get_newline_len in G. lia.
  - intros [= <- <- ->]. apply get_newline_len in G. lia.
Qed.
Lemma skip_blank_len r : forall n, length (snd (skip_blank n r)) <= length r.
Proof. induction r as [|c r IH]; intros n; cbn [skip_blank]; [cbn; lia|]. destruct (isspace c); [specialize (IH (if c =?c newline then S n else n)); cbn [length]; lia|cbn; lia]. Qed.
Lemma next_line_len fuel : forall n r m l t, next_line fuel n r = Next m l t -> length t < length r.
Proof.
  induction fuel as [|fuel IH]; intros n r m l t; cbn [next_line]; [discriminate|].
  pose proof (skip_blank_len r n) as L. destruct (skip_blank n r) as [k r1]. cbn [snd] in L. destruct r1 as [|c r1]; [discriminate|].
  destruct (take_line (S (length (c :: r1))) k [] (c :: r1)) as [| |k1 line [rest|]] eqn:T; try discriminate.
  - apply take_line_len in T. destruct (c =?c "#"%char); [intros H; apply IH in H; lia|intros [= <- <- <-]; lia].
  - destruct (c =?c "#"%char); [intros H; apply IH in H; cbn [length] in *; lia|intros [= <- <- <-]; cbn [length] in *; lia].
Qed.
Lemma next_line_fuel f : forall n r g, length r < f -> length r < g -> next_line f n r = next_line g n r.
Proof.
  induction f as [|f IH]; intros n r g F G; [lia|]. destruct g as [|g]; [lia|]. cbn [next_line].
  pose proof (skip_blank_len r n) as L. destruct (skip_blank n r) as [k r1]. cbn [snd] in L. destruct r1 as [|c r1]; [reflexivity|].
  destruct (take_line (S (length (c :: r1))) k [] (c :: r1)) as [| |k1 line rest] eqn:T; try reflexivity.
  destruct (c =?c "#"%char); [|reflexivity]. destruct rest as [t|].
  - apply take_line_len in T. apply IH; lia.
  - apply IH; cbn [length] in *; lia.
Qed.
Lemma lines_fuel f : forall n r g, length r < f -> length r < g -> lines f n r = lines g n r.
Proof.
  induction f as [|f IH]; intros n r g F G; [lia|]. destruct g as [|g]; [lia|]. cbn [lines].
  destruct (next_line (S (length r)) n r) as [| |m l t] eqn:E; try reflexivity. apply next_line_len in E. rewrite (IH m t g) by lia. reflexivity.
Qed.
Definition all_lines (n : nat) (r : bytes) := lines (S (length r)) n r.

Lemma blank_step n ws r : Forall white ws -> one_line ws -> all_lines n (ws ++ newline :: r) = all_lines (S n) r.
Proof.
  intros W O. unfold all_lines. rewrite (lines_fuel (S (length r)) (S n) r (S (length (ws ++ newline :: r)))) by (rewrite ?app_length; cbn [length]; lia).
  cbn [lines]. assert (forall f, next_line (S f) n (ws ++ newline :: r) = next_line (S f) (S n) r) as K.
  { intros f. cbn [next_line]. rewrite white_one_line_skip by assumption. reflexivity. }
  rewrite K. rewrite (next_line_fuel (S (length (ws ++ newline :: r))) (S n) r (S (length r))) by (rewrite ?app_length; cbn [length]; lia). reflexivity.
Qed.
Lemma blank_last n ws : Forall white ws -> one_line ws -> all_lines n ws = ([], true).
Proof.
  intros W O. unfold all_lines. cbn [lines next_line]. pose proof (white_one_line_skip ws n [] W O) as K. rewrite app_nil_r in K. rewrite K. reflexivity.
Qed.
Lemma said_head ps l c t : concat (map piece_text ps) ++ l = c :: t -> (c =?c "#"%char = true <-> comment (said ps l)).
Proof.
  intros E. unfold said, comment. destruct ps as [|[p k] ps].
  - cbn [map concat app] in *. subst l. rewrite Ascii.eqb_eq. split; [intros ->; eexists; reflexivity|intros [u [= -> _]]; reflexivity].
  - cbn [map concat fst snd] in *. unfold piece_text in E. cbn [fst snd] in E. destruct p as [|d p].
    + cbn [app] in *. assert (c = backslash) as -> by (destruct k; injection E as <- _; reflexivity).
      split; [discriminate|]. intros [u H]. destruct k; discriminate.
    + cbn [app] in *. injection E as -> _. rewrite Ascii.eqb_eq. split; [intros ->; eexists; reflexivity|intros [u [= -> _]]; reflexivity].
Qed.
Lemma trimmed_end_rstrip s tr : Forall white tr -> trimmed_end s (rstrip (s ++ tr)).
Proof. intros W. rewrite rstrip_app by exact W. destruct (rstrip_split s) as [a [E A]]. exists a. repeat split; [exact E|exact A|apply rstrip_ends]. Qed.
Lemma trimmed_end_fun s t u : trimmed_end s t -> trimmed_end s u -> t = u.
Proof.
  assert (forall t, trimmed_end s t -> t = rstrip s) as K; [|intros A B; rewrite (K t A), (K u B); reflexivity].
  intros v [a [E [A H]]]. rewrite E, rstrip_app, rstrip_id by assumption. reflexivity.
Qed.

Lemma statement_step n indent ps l tr r : item_ok (Statement indent ps l tr) ->
  let rest := match r with Some t => t | None => [] end in
  let n' := S (n + length ps) in
  exists t, trimmed_end (said ps l) t /\
  (comment (said ps l) -> all_lines n (item_text (Statement indent ps l tr) ++ ending r) = all_lines n' rest) /\
  (~ comment (said ps l) -> all_lines n (item_text (Statement indent ps l tr) ++ ending r) =
    let '(x, b) := all_lines n' rest in ((n', t) :: x, b)).
Proof.
  intros [Hi [Hi1 [Hp [Hl [He [Hw [Ht [Hn [Hs Hb]]]]]]]]] rest n'.
  exists (rstrip (said ps l ++ tr)). split; [apply trimmed_end_rstrip, Hw|].
  set (X := concat (map piece_text ps) ++ l) in *.
  assert (E : item_text (Statement indent ps l tr) ++ ending r = indent ++ X ++ tr ++ ending r) by (unfold X; cbn [item_text]; rewrite <- !app_assoc; reflexivity).
  rewrite E. set (T := indent ++ X ++ tr ++ ending r).
  destruct X as [|c X'] eqn:EX; [congruence|].
  assert (Len : length rest < length T).
  { unfold T. rewrite !app_length. cbn [length]. unfold rest. destruct r; cbn [ending length]; lia. }
  assert (Lp : length ps <= length (c :: X')).
  { rewrite <- EX. unfold X. rewrite app_length. clear. induction ps as [|p ps IH]; [cbn; lia|]. cbn [map concat]. rewrite app_length.
    assert (1 <= length (piece_text p)) by (unfold piece_text; rewrite app_length; destruct (snd p); cbn; lia). cbn [length]. lia. }
  assert (NL : forall f, length T <= f -> next_line (S f) n T =
    if c =?c "#"%char then next_line f n' rest else Next n' (rstrip (said ps l ++ tr)) rest).
  { intros f F. cbn [next_line]. unfold T at 1. rewrite white_one_line_skip by assumption.
    rewrite skip_stop by (intros [d [u [U W]]]; cbn [app] in U; injection U as -> _; apply Hs; exists d, X'; auto).
    cbn [app]. change (c :: X' ++ tr ++ ending r) with ((c :: X') ++ tr ++ ending r).
    assert (S1 : (c :: X') ++ tr ++ ending r = concat (map piece_text ps) ++ (l ++ tr) ++ ending r) by (rewrite <- EX; unfold X; rewrite <- !app_assoc; reflexivity).
    rewrite S1 at 2. rewrite take_line_pieces; try assumption; [|left; reflexivity|rewrite app_length; cbn [length] in *; lia].
    cbn [app]. unfold rest. destruct r; reflexivity. }
  split; intros C.
  - assert (c =?c "#"%char = true) as CC by (eapply said_head; [unfold X in EX; exact EX|exact C]).
    unfold all_lines. cbn [lines]. rewrite NL by lia. rewrite CC.
    rewrite (next_line_fuel (length T) n' rest (S (length rest))) by lia.
    destruct (next_line (S (length rest)) n' rest) as [| |m q t] eqn:G; try reflexivity.
    apply next_line_len in G. rewrite (lines_fuel (length T) m t (length rest)) by lia. reflexivity.
  - assert (c =?c "#"%char = false) as CC.
    { destruct (c =?c "#"%char) eqn:F; [|reflexivity]. exfalso. apply C. eapply said_head; [unfold X in EX; exact EX|exact F]. }
    unfold all_lines. cbn [lines]. rewrite NL by lia. rewrite CC.
    rewrite (lines_fuel (length T) n' rest (S (length rest))) by lia. reflexivity.
Qed.

Lemma statements_fun items : forall n a b, statements n items a -> statements n items b -> a = b.
Proof.
  induction items as [|i items IH]; intros n a b A C; inversion A; subst; inversion C; subst; try reflexivity; try contradiction.
  - eapply IH; eassumption.
  - eapply IH; eassumption.
  - f_equal; [f_equal; eapply trimmed_end_fun; eassumption|eapply IH; eassumption].
Qed.
Lemma comment_dec s : comment s \/ ~ comment s.
Proof. destruct s as [|c s]; [right; intros [t H]; discriminate|]. destruct (ascii_dec c "#"%char) as [->|N]; [left; eexists; reflexivity|right; intros [t [= H _]]; contradiction]. Qed.
Lemma lines_items items : forall n, Forall item_ok items ->
  exists st, statements (S n) items st /\ all_lines n (file_text items) = (st, true).
Proof.
  induction items as [|i items IH]; intros n O.
  - exists []. split; [constructor|reflexivity].
  - inversion O as [|? ? Oi Or]; subst. destruct i as [ws|indent ps l tr].
    + destruct (IH (S n) Or) as [st [S1 S2]]. exists st. split; [constructor; exact S1|]. destruct Oi as [W O1].
      destruct items as [|j items'].
      * cbn [file_text item_text]. inversion S1; subst. apply blank_last; assumption.
      * change (file_text (Blank ws :: j :: items')) with (ws ++ newline :: file_text (j :: items')). rewrite blank_step by assumption. exact S2.
    + destruct (IH (S (n + length ps)) Or) as [st [S1 S2]].
      destruct items as [|j items'].
      * destruct (statement_step n indent ps l tr None Oi) as [t [T1 [T2 T3]]]. cbn [ending] in T2, T3. rewrite app_nil_r in T2, T3.
        cbn [file_text]. cbn [file_text] in S2. inversion S1; subst.
        destruct (comment_dec (said ps l)) as [C|C].
        -- exists []. split; [apply st_comment; [exact C|constructor]|]. rewrite (T2 C). exact S2.
        -- exists [(S n + length ps, t)]. split; [apply st_statement; [exact C|exact T1|constructor]|]. rewrite (T3 C), S2. reflexivity.
      * destruct (statement_step n indent ps l tr (Some (file_text (j :: items'))) Oi) as [t [T1 [T2 T3]]].
        change (file_text (Statement indent ps l tr :: j :: items')) with (item_text (Statement indent ps l tr) ++ ending (Some (file_text (j :: items')))).
        destruct (comment_dec (said ps l)) as [C|C].
        -- exists st. split; [apply st_comment; [exact C|exact S1]|]. rewrite (T2 C). exact S2.
        -- exists ((S n + length ps, t) :: st). split; [apply st_statement; [exact C|exact T1|exact S1]|]. rewrite (T3 C), S2. reflexivity.
Qed.
