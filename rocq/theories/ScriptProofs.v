From Verif Require Import Base ConfigModel ConfigSpec ParseSpec TextSpec ScriptModel ScriptSpec.
Require Import Lia.

Lemma newline_some l r : one_line l -> to_newline (l ++ newline :: r) = Some (l, r).
Proof.
  induction l as [|c l IH]; intros [O1 O2]; cbn [to_newline app]; [reflexivity|]. destruct (c =?c newline) eqn:Q; [apply Ascii.eqb_eq in Q; destruct O1; left; exact Q|]. destruct (c =?c nul) eqn:Q2; [apply Ascii.eqb_eq in Q2; destruct O2; left; exact Q2|].
  rewrite IH; [reflexivity|]. split; intros Z; [apply O1|apply O2]; right; exact Z.
Qed.
Lemma newline_inv r l t : to_newline r = Some (l, t) -> one_line l /\ r = l ++ newline :: t.
Proof.
  revert l t. induction r as [|c r IH]; intros l t; cbn [to_newline]; [discriminate|]. destruct (c =?c newline) eqn:Q; [intros H; injection H as <- <-; apply Ascii.eqb_eq in Q; subst; split; [split; intros []|reflexivity]|].
  destruct (c =?c nul) eqn:Q2; [discriminate|]. destruct (to_newline r) as [[a b]|] eqn:N; cbn [option_map]; [|discriminate]. intros H. injection H as <- <-. destruct (IH a b eq_refl) as [[O1 O2] ->]. apply Ascii.eqb_neq in Q, Q2. cbn. split; [|reflexivity].
  split; intros [Z|Z]; auto.
Qed.
Lemma newline_none r : to_newline r = None -> ~ In nul r -> ~ In newline r.
Proof.
  induction r as [|c r IH]; cbn [to_newline]; [intros _ _ []|]. destruct (c =?c newline) eqn:Q; [discriminate|]. destruct (c =?c nul) eqn:Q2; [intros _ N; exfalso; apply N; left; apply Ascii.eqb_eq; exact Q2|].
  destruct (to_newline r); [discriminate|]. intros _ N [Z|Z]; [apply Ascii.eqb_neq in Q; auto|]. apply IH; auto. intros W. apply N. right. exact W.
Qed.
Lemma text_app a b : text (a ++ b) = text a ++ text b.
Proof. unfold text. rewrite map_app, concat_app. reflexivity. Qed.

Lemma prefixb_app m s : prefixb m s = true -> exists t, s = m ++ t.
Proof.
  revert s. induction m as [|c m IH]; intros s; [exists s; reflexivity|]. destruct s as [|d s]; cbn; [discriminate|]. destruct (c =?c d) eqn:Q; cbn; [|discriminate]. intros H. destruct (IH s H) as [t ->]. apply Ascii.eqb_eq in Q. subst. exists t. reflexivity.
Qed.
Lemma body_slurp out r : body out r -> slurp out = r.
Proof.
  intros [->|[-> N]]; [reflexivity|]. unfold slurp. destruct (prefixb bom r) eqn:Q; [|reflexivity]. apply prefixb_app in Q as [t ->]. exfalso. apply (N t). reflexivity.
Qed.
Lemma body_nul out r : body out r -> ~ In nul out -> ~ In nul r.
Proof. intros [->|[-> _]] N; [intros Z; apply N; do 3 right; exact Z|exact N]. Qed.

Section P.
Variable St : Type.
Variable parse_rule : St -> bytes -> St * bool.
Notation obeys := (obeys St parse_rule).
Notation lines_ := (script_lines St parse_rule).

(** What the loop comes to, for a text without NULs. *)
Definition result (n : nat) (s : St) (r : bytes) (s' : St) (o : outcome) : Prop :=
  exists a c, Forall one_line a /\ r = text a ++ c /\ exists s1, obeys s a s1 /\
  match o with
  | Done => c = [] /\ s' = s1
  | NoNewline => c <> [] /\ one_line c /\ s' = s1
  | BadRule m => m = S (n + length a) /\ exists t d, c = (":"%char :: t) ++ newline :: d /\ one_line t /\ parse_rule s1 t = (s', false)
  | NotRule m => m = S (n + length a) /\ s' = s1 /\ exists l d, c = l ++ newline :: d /\ one_line l /\ other_line l
  | Failed | OutOfFuel => False
  end.
Lemma result_cons l n s s1 r s' o : one_line l -> (forall ls s2, obeys s1 ls s2 -> obeys s (l :: ls) s2) -> result (S n) s1 r s' o -> result n s (l ++ newline :: r) s' o.
Proof.
  intros O H [a [c [A [-> [s2 [Ob R]]]]]]. exists (l :: a), c. split; [constructor; assumption|]. split; [change (l :: a) with ([l] ++ a); rewrite text_app; unfold text at 2; cbn; rewrite app_nil_r, <- !app_assoc; reflexivity|]. exists s2. split; [apply H; exact Ob|].
  cbn [length]. destruct o as [| |m|m| |]; try exact R; replace (n + S (length a)) with (S n + length a) by lia; exact R.
Qed.
Lemma lines_ok : forall fuel n s r s' o, length r < fuel -> ~ In nul r -> lines_ fuel n s r = (s', o) -> result n s r s' o.
Proof.
  induction fuel as [|fuel IH]; intros n s r s' o L N; [lia|]. destruct r as [|c0 r0] eqn:Er.
  { cbn [script_lines]. intros H. injection H as <- <-. exists [], []. split; [constructor|]. split; [reflexivity|]. exists s. split; [constructor|auto]. }
  rewrite <- Er in *. assert (lines_ (S fuel) n s r = match to_newline r with
          | None => (s, NoNewline)
          | Some (line, rest) =>
              match line with
              | [] => lines_ fuel (S n) s rest
              | c :: t => if c =?c ":"%char then match parse_rule s t with (s, true) => lines_ fuel (S n) s rest | (s, false) => (s, BadRule (S n)) end else if c =?c "#"%char then lines_ fuel (S n) s rest else (s, NotRule (S n))
              end end) as ->.
  { rewrite Er. cbn [script_lines]. destruct (c0 =?c nul) eqn:Q; [apply Ascii.eqb_eq in Q; destruct N; rewrite Er; left; exact Q|reflexivity]. }
  destruct (to_newline r) as [[l rest]|] eqn:T.
  - apply newline_inv in T as [O Eq]. clear Er. subst r. assert (length rest < fuel) as L' by (rewrite app_length in L; cbn in L; lia). assert (~ In nul rest) as N' by (intros Z; apply N, in_or_app; right; right; exact Z).
    destruct l as [|c t].
    + intros H. apply (result_cons [] n s s); [exact O|intros; constructor; assumption|]. eapply IH; eassumption.
    + destruct (c =?c ":"%char) eqn:Q; [apply Ascii.eqb_eq in Q; subst c|].
      * destruct (parse_rule s t) as [s1 ok] eqn:P. destruct ok.
        -- intros H. apply (result_cons _ n s s1); [exact O|intros; eapply o_rule; eassumption|]. eapply IH; eassumption.
        -- intros H. injection H as <- <-. exists [], ((":"%char :: t) ++ newline :: rest). split; [constructor|]. split; [reflexivity|]. exists s. split; [constructor|]. split; [cbn; lia|]. exists t, rest. split; [reflexivity|]. split; [destruct O as [O1 O2]; split; intros Z; [apply O1|apply O2]; right; exact Z|exact P].
      * destruct (c =?c "#"%char) eqn:Q2; [apply Ascii.eqb_eq in Q2; subst c|].
        -- intros H. apply (result_cons _ n s s); [exact O|intros; constructor; assumption|]. eapply IH; eassumption.
        -- intros H. injection H as <- <-. apply Ascii.eqb_neq in Q, Q2. exists [], ((c :: t) ++ newline :: rest). split; [constructor|]. split; [reflexivity|]. exists s. split; [constructor|]. split; [cbn; lia|]. split; [reflexivity|]. exists (c :: t), rest. split; [reflexivity|]. split; [exact O|]. exists c, t. auto.
  - intros H. injection H as <- <-. exists [], r. split; [constructor|]. split; [reflexivity|]. exists s. split; [constructor|]. split; [rewrite Er; discriminate|]. split; [split; [apply newline_none; assumption|exact N]|reflexivity].
Qed.
Lemma lines_text : forall ls fuel n s s', length (text ls) < fuel -> Forall one_line ls -> obeys s ls s' -> lines_ fuel n s (text ls) = (s', Done).
Proof.
  intros ls fuel n s s' L F O. revert fuel n L F. induction O as [s|s ls s' O IH|s t ls s' O IH|s t s1 ls s' P O IH]; intros fuel n L F; destruct fuel as [|fuel]; try lia; [reflexivity|inversion F as [|? ? F1 F2]; subst..]; unfold text in *; cbn [map concat] in *; rewrite <- app_assoc in *; cbn [app] in L |- *; rewrite ?app_length in L; cbn [length] in L.
  - cbn [script_lines]. cbn. apply IH; [lia|exact F2].
  - cbn [script_lines]. change ("#"%char =?c nul) with false. cbn iota. change ("#"%char :: t ++ "010"%char :: concat (map (fun l : list ascii => l ++ ["010"%char]) ls)) with (("#"%char :: t) ++ newline :: concat (map (fun l : list ascii => l ++ ["010"%char]) ls)). rewrite newline_some by exact F1. cbn. apply IH; [rewrite app_length in L; cbn in L; lia|exact F2].
  - cbn [script_lines]. change (":"%char =?c nul) with false. cbn iota. change (":"%char :: t ++ "010"%char :: concat (map (fun l : list ascii => l ++ ["010"%char]) ls)) with ((":"%char :: t) ++ newline :: concat (map (fun l : list ascii => l ++ ["010"%char]) ls)). rewrite newline_some by exact F1. cbn. rewrite P. apply IH; [rewrite app_length in L; cbn in L; lia|exact F2].
Qed.
(** A NUL at the start of a line ends the loop. *)
Lemma nul_text : forall ls fuel n s s' x, length (text ls ++ nul :: x) < fuel -> Forall one_line ls -> obeys s ls s' -> lines_ fuel n s (text ls ++ nul :: x) = (s', Done).
Proof.
  intros ls fuel n s s' x L F O. revert fuel n L F. induction O as [s|s ls s' O IH|s t ls s' O IH|s t s1 ls s' P O IH]; intros fuel n L F; destruct fuel as [|fuel]; try lia; [reflexivity|inversion F as [|? ? F1 F2]; subst..].
  - change (text ([] :: ls) ++ nul :: x) with ([] ++ newline :: text ls ++ nul :: x) in *. cbn [script_lines app] in *. cbn. apply IH; [cbn [length] in L; lia|exact F2].
  - assert (text (("#"%char :: t) :: ls) ++ nul :: x = ("#"%char :: t) ++ newline :: text ls ++ nul :: x) as E by (unfold text; cbn [map concat]; rewrite <- !app_assoc; reflexivity). rewrite E in *.
    cbn [script_lines app]. change ("#"%char =?c nul) with false. cbn iota. change ("#"%char :: t ++ newline :: text ls ++ nul :: x) with (("#"%char :: t) ++ newline :: text ls ++ nul :: x). rewrite newline_some by exact F1. cbn. apply IH; [rewrite app_length in L; cbn [length] in L; lia|exact F2].
  - assert (text ((":"%char :: t) :: ls) ++ nul :: x = (":"%char :: t) ++ newline :: text ls ++ nul :: x) as E by (unfold text; cbn [map concat]; rewrite <- !app_assoc; reflexivity). rewrite E in *.
    cbn [script_lines app]. change (":"%char =?c nul) with false. cbn iota. change (":"%char :: t ++ newline :: text ls ++ nul :: x) with ((":"%char :: t) ++ newline :: text ls ++ nul :: x). rewrite newline_some by exact F1. cbn. rewrite P. apply IH; [rewrite app_length in L; cbn [length] in L; lia|exact F2].
Qed.
End P.
Lemma text_inj : forall ls a, Forall one_line ls -> Forall one_line a -> text ls = text a -> ls = a.
Proof.
  intros ls a F. revert a. induction F as [|l ls L F IH]; intros a A E.
  - destruct A as [|b a Ba A]; [reflexivity|]. destruct b; discriminate.
  - destruct A as [|b a Ba A]; [destruct l; discriminate|]. unfold text in E. cbn [map concat] in E. rewrite <- !app_assoc in E.
    pose proof (newline_some l (text ls) L) as N1. pose proof (newline_some b (text a) Ba) as N2. unfold text in N1, N2. change newline with "010"%char in N1, N2. cbn [app] in E. rewrite E, N2 in N1. injection N1 as -> E2. f_equal. apply IH; [exact A|symmetry; exact E2].
Qed.
