From Verif Require Import Base IfModel IfSpec.

(** Stack view: innermost block first, [true] = selected. *)
Fixpoint mask (st : list bool) : N :=
  match st with
  | [] => 0
  | b :: r => (mask r + if b then 0 else 2 ^ N.of_nat (length r))%N
  end.
Definition lev (st : list bool) : N :=
  match st with [] => 0%N | _ :: r => (2 ^ N.of_nat (length r))%N end.
Definition repr (st : list bool) : if_stmt := {| ifness := mask st; level := lev st |}.

(** Finite sweep: all stacks of length at most 8. *)
Fixpoint stacks (n : nat) : list (list bool) :=
  match n with
  | O => [[]]
  | S k => [] :: map (cons true) (stacks k) ++ map (cons false) (stacks k)
  end.

Lemma in_stacks n st : length st <= n -> In st (stacks n).
Proof.
  revert st; induction n as [|n IH]; intros [|b st] H; cbn in *; try lia; auto.
  right. apply in_or_app. destruct b; [left|right]; apply in_map, IH; lia.
Qed.

Definition if_stmt_eqb (a b : if_stmt) : bool :=
  ((ifness a =? ifness b) && (level a =? level b))%N.
Lemma if_stmt_eqb_eq a b : if_stmt_eqb a b = true -> a = b.
Proof.
  destruct a, b; unfold if_stmt_eqb; cbn. rewrite andb_true_iff, !N.eqb_eq. intros [-> ->]; reflexivity.
Qed.
Definition oeqb (a b : option if_stmt) : bool :=
  match a, b with Some x, Some y => if_stmt_eqb x y | None, None => true | _, _ => false end.
Lemma oeqb_eq a b : oeqb a b = true -> a = b.
Proof. destruct a, b; cbn; try discriminate; auto. intros H; f_equal; apply if_stmt_eqb_eq, H. Qed.

Lemma sweep (P : list bool -> bool) : forallb P (stacks 8) = true ->
  forall st, length st <= 8 -> P st = true.
Proof. intros H st L. rewrite forallb_forall in H. apply H, in_stacks, L. Qed.

Lemma add_repr st b : length st <= 8 ->
  if_add (repr st) b = if length st <? 8 then Some (repr (b :: st)) else None.
Proof.
  intros L. apply oeqb_eq. revert st L.
  destruct b; apply (sweep (fun st => oeqb (if_add (repr st) _)
       (if length st <? 8 then Some (repr (_ :: st)) else None))); vm_compute; reflexivity.
Qed.

Lemma else_repr st : length st <= 8 ->
  if_else (repr st) = match st with [] => None | b :: r => Some (repr (negb b :: r)) end.
Proof.
  intros L. apply oeqb_eq. revert st L.
  apply (sweep (fun st => oeqb (if_else (repr st)) match st with [] => None | b :: r => Some (repr (negb b :: r)) end)).
  vm_compute; reflexivity.
Qed.

Lemma endif_repr st : length st <= 8 ->
  if_endif (repr st) = match st with [] => None | b :: r => Some (repr r) end.
Proof.
  intros L. apply oeqb_eq. revert st L.
  apply (sweep (fun st => oeqb (if_endif (repr st)) match st with [] => None | b :: r => Some (repr r) end)).
  vm_compute; reflexivity.
Qed.

Lemma true_repr st : length st <= 8 -> if_true (repr st) = forallb (fun b => b) st.
Proof.
  intros L. apply eqb_prop. revert st L.
  apply (sweep (fun st => Bool.eqb (if_true (repr st)) (forallb (fun b => b) st))).
  vm_compute; reflexivity.
Qed.

Lemma check_repr st : length st <= 8 ->
  if_check (repr st) = match st with [] => true | _ => false end.
Proof.
  intros L. apply eqb_prop. revert st L.
  apply (sweep (fun st => Bool.eqb (if_check (repr st)) (match st with [] => true | _ => false end))).
  vm_compute; reflexivity.
Qed.

Section P.
Variable St : Type.
Variable eval_eq var_ifdef : St -> bytes -> St * option bool.
Variable other : St -> bytes -> St * bool.

Notation PL := (parse_lines St eval_eq var_ifdef other).
Notation DL := (do_line St eval_eq var_ifdef other).

Notation cond_of := (if_meaning eval_eq var_ifdef).

Lemma prefix_kw kw l : prefixb kw l = true <-> starts kw l.
Proof. apply prefixb_spec. Qed.

Lemma is_if_lineb l : if_lineb l = true <-> is_if l.
Proof.
  unfold if_lineb, is_if. rewrite !orb_true_iff, !prefix_kw. tauto.
Qed.

Lemma plain_class l : is_plain l -> classify l = LOther.
Proof.
  intros [H1 [H2 H3]]. unfold classify.
  destruct (bytes_eqb_spec l (B "else")); [contradiction|].
  destruct (bytes_eqb_spec l (B "endif")); [contradiction|].
  rewrite <- is_if_lineb in H1. unfold if_lineb in H1. apply not_true_is_false in H1.
  rewrite !orb_false_iff in H1. destruct H1 as [[[-> ->] ->] ->]. reflexivity.
Qed.

Lemma if_not_else l : is_if l -> bytes_eqb l (B "else") = false /\ bytes_eqb l (B "endif") = false.
Proof.
  intros H. split.
  - destruct (bytes_eqb_spec l (B "else")) as [->|]; [|reflexivity].
    destruct H as [[a H]|[[a H]|[[a H]|[a H]]]]; discriminate.
  - destruct (bytes_eqb_spec l (B "endif")) as [->|]; [|reflexivity].
    destruct H as [[a H]|[[a H]|[[a H]|[a H]]]]; discriminate.
Qed.

Definition alltrue (st : list bool) := forallb (fun b => b) st.

(** An if line in the stack view; in an inactive part the pushed value is
    irrelevant but determined by the keyword. *)
Lemma do_line_if s st l : length st <= 8 -> is_if l ->
  exists w, DL s (repr st) l =
  (let (s1, c) := if alltrue st then cond_of s l else (s, Some w) in
   match c with
   | None => (s1, None)
   | Some v => (s1, if length st <? 8 then Some (repr (v :: st)) else None)
   end).
Proof.
  intros L H. unfold do_line, if_meaning, do_if, classify.
  destruct (if_not_else l H) as [-> ->]. apply is_if_lineb in H. unfold if_lineb in H.
  destruct (prefixb (B "ifeq ") l).
  { exists false. rewrite true_repr by exact L. fold (alltrue st). destruct (alltrue st).
    + destruct (eval_eq s _) as [s1 [v|]]; [|reflexivity].
      rewrite add_repr by exact L. destruct v; reflexivity.
    + rewrite add_repr by exact L. reflexivity. }
  destruct (prefixb (B "ifneq ") l).
  { exists true. rewrite true_repr by exact L. fold (alltrue st). destruct (alltrue st).
    + destruct (eval_eq s _) as [s1 [v|]]; [|reflexivity].
      cbn [fst snd option_map]. rewrite add_repr by exact L. destruct v; reflexivity.
    + rewrite add_repr by exact L. reflexivity. }
  destruct (prefixb (B "ifdef ") l).
  { exists false. rewrite true_repr by exact L. fold (alltrue st). destruct (alltrue st).
    + destruct (var_ifdef s _) as [s1 [v|]]; [|reflexivity].
      rewrite add_repr by exact L. destruct v; reflexivity.
    + rewrite add_repr by exact L. reflexivity. }
  destruct (prefixb (B "ifndef ") l); [|discriminate].
  exists true. rewrite true_repr by exact L. fold (alltrue st). destruct (alltrue st).
  + destruct (var_ifdef s _) as [s1 [v|]]; [|reflexivity].
    cbn [fst snd option_map]. rewrite add_repr by exact L. destruct v; reflexivity.
  + rewrite add_repr by exact L. reflexivity.
Qed.

Notation RUN := (run St cond_of other).

Lemma run_inactive b s : RUN false b s = (s, true).
Proof.
  revert s; induction b as [|l r IHr|l t IHt r IHr|l t IHt e IHe r IHr]; intros s; cbn [run andb];
    rewrite ?IHt, ?IHe, ?IHr; reflexivity.
Qed.

(** Parsing a flattened block from a stack continues with what follows, in the
    state the block's meaning produces. *)
Lemma parse_flatten b : wf b -> forall st s k, length st + depth b <= 8 ->
  PL s (repr st) (flatten b ++ k) =
  (let (s1, ok) := RUN (alltrue st) b s in
   if ok then PL s1 (repr st) k else (s1, false)).
Proof.
  induction b as [|l r IHr|l t IHt r IHr|l t IHt e IHe r IHr]; cbn [wf flatten depth run];
    intros W st s k D; [reflexivity| | |].
  - destruct W as [Wl Wr]. cbn [app parse_lines]. unfold do_line at 1.
    rewrite (plain_class l Wl), true_repr by lia. fold (alltrue st).
    destruct (alltrue st) eqn:A.
    + destruct (other s l) as [s1 []]; [|reflexivity]. rewrite IHr by (auto; lia). rewrite A; reflexivity.
    + rewrite IHr by (auto; lia). rewrite A; reflexivity.
  - destruct W as [Wl [Wt Wr]]. cbn [app parse_lines].
    destruct (do_line_if s st l ltac:(lia) Wl) as [w ->].
    assert (length st <? 8 = true) as -> by (apply Nat.ltb_lt; lia).
    assert (forall v s1, PL s1 (repr (v :: st)) (flatten t ++ B "endif" :: flatten r ++ k) =
      (let (s2, ok) := RUN (alltrue st && v) t s1 in
       if ok then let (s3, ok3) := RUN (alltrue st) r s2 in
                  if ok3 then PL s3 (repr st) k else (s3, false)
       else (s2, false))) as G.
    { intros v s1. rewrite IHt by (cbn [length]; auto; lia). cbn [alltrue forallb].
      rewrite (andb_comm v). fold (alltrue st).
      destruct (RUN (alltrue st && v) t s1) as [s2 []]; [|reflexivity].
      cbn [parse_lines]. unfold do_line at 1. cbn [classify bytes_eqb].
      change (classify (B "endif")) with LEndif. cbn iota.
      rewrite endif_repr by (cbn; lia). apply IHr; auto; lia. }
    rewrite <- app_assoc. cbn [app]. destruct (alltrue st) eqn:A.
    + destruct (cond_of s l) as [s1 [v|]]; [|reflexivity]. rewrite G. cbn [andb].
      destruct (RUN v t s1) as [s2 []]; reflexivity.
    + rewrite G. cbn [andb]. rewrite run_inactive, !run_inactive. reflexivity.
  - destruct W as [Wl [Wt [We Wr]]]. cbn [app parse_lines].
    destruct (do_line_if s st l ltac:(lia) Wl) as [w ->].
    assert (length st <? 8 = true) as -> by (apply Nat.ltb_lt; lia).
    assert (forall v s1, PL s1 (repr (v :: st))
        (flatten t ++ B "else" :: flatten e ++ B "endif" :: flatten r ++ k) =
      (let (s2, ok) := RUN (alltrue st && v) t s1 in
       if ok then
         let (s2', ok2) := RUN (alltrue st && negb v) e s2 in
         if ok2 then
                  let (s3, ok3) := RUN (alltrue st) r s2' in
                  if ok3 then PL s3 (repr st) k else (s3, false)
         else (s2', false)
       else (s2, false))) as G.
    { intros v s1. rewrite IHt by (cbn [length]; auto; lia). cbn [alltrue forallb].
      rewrite (andb_comm v). fold (alltrue st).
      destruct (RUN (alltrue st && v) t s1) as [s2 []]; [|reflexivity].
      cbn [parse_lines]. unfold do_line at 1.
      change (classify (B "else")) with LElse. cbn iota.
      rewrite else_repr by (cbn; lia).
      rewrite IHe by (cbn [length]; auto; lia). cbn [alltrue forallb].
      rewrite (andb_comm (negb v)). fold (alltrue st).
      destruct (RUN (alltrue st && negb v) e s2) as [s3 []]; [|reflexivity].
      cbn [parse_lines]. unfold do_line at 1.
      change (classify (B "endif")) with LEndif. cbn iota.
      rewrite endif_repr by (cbn; lia). apply IHr; auto; lia. }
    rewrite <- app_assoc. cbn [app]. rewrite <- app_assoc. cbn [app].
    destruct (alltrue st) eqn:A.
    + destruct (cond_of s l) as [s1 [v|]]; [|reflexivity]. rewrite G. cbn [andb].
      destruct (RUN v t s1) as [s2 []]; [|reflexivity].
      destruct (RUN (negb v) e s2) as [s3 []]; reflexivity.
    + rewrite G. cbn [andb]. rewrite !run_inactive. reflexivity.
Qed.

Lemma parse_blocks b s : wf b -> depth b <= 8 ->
  PL s if_init (flatten b) = RUN true b s.
Proof.
  intros W D. change if_init with (repr []).
  rewrite <- (app_nil_r (flatten b)), parse_flatten by (auto; cbn; lia).
  cbn [alltrue forallb]. destruct (RUN true b s) as [s1 []]; reflexivity.
Qed.

(** Arbitrary line sequences. *)
Lemma parse_nesting ls : forall st s s', length st <= 8 ->
  PL s (repr st) ls = (s', true) -> nesting 8 (length st) ls = Some 0.
Proof.
  induction ls as [|l ls IH]; intros st s s' L H.
  - cbn in H. rewrite check_repr in H by exact L. destruct st; [reflexivity|discriminate].
  - cbn [parse_lines] in H. cbn [nesting].
    destruct (bytes_eqb_spec l (B "else")) as [->|N1].
    { unfold do_line in H. change (classify (B "else")) with LElse in H. cbn iota in H.
      rewrite else_repr in H by exact L. destruct st as [|b st]; [discriminate|].
      exact (IH (negb b :: st) _ _ L H). }
    destruct (bytes_eqb_spec l (B "endif")) as [->|N2].
    { unfold do_line in H. change (classify (B "endif")) with LEndif in H. cbn iota in H.
      rewrite endif_repr in H by exact L. destruct st as [|b st]; [discriminate|].
      cbn in L. refine (IH st _ _ _ H). lia. }
    destruct (if_lineb l) eqn:I.
    { apply is_if_lineb in I. destruct (do_line_if s st l L I) as [w E]. rewrite E in H.
      destruct (if alltrue st then cond_of s l else (s, Some w)) as [s1 [v|]]; [|discriminate].
      destruct (length st <? 8) eqn:LT; [|discriminate].
      apply Nat.ltb_lt in LT. refine (IH (v :: st) _ _ _ H). cbn; lia. }
    assert (is_plain l) as P.
    { repeat split; auto. rewrite <- is_if_lineb, I; discriminate. }
    unfold do_line in H. rewrite (plain_class l P), true_repr in H by exact L.
    destruct (forallb _ st).
    + destruct (other s l) as [s1 []]; [|discriminate]. exact (IH _ _ _ L H).
    + exact (IH _ _ _ L H).
Qed.

(** If no directive fails, correct nesting is also sufficient. *)
Lemma nesting_parse : (forall s l, is_if l -> snd (cond_of s l) <> None) ->
  (forall s l, snd (other s l) = true) ->
  forall ls st s, length st <= 8 -> nesting 8 (length st) ls = Some 0 ->
  snd (PL s (repr st) ls) = true.
Proof.
  intros Hc Ho. induction ls as [|l ls IH]; intros st s L H.
  - cbn in *. injection H as H. destruct st; [|discriminate]. reflexivity.
  - cbn [nesting] in H. cbn [parse_lines].
    destruct (bytes_eqb_spec l (B "else")) as [->|N1].
    { unfold do_line. change (classify (B "else")) with LElse. cbn iota.
      rewrite else_repr by exact L. destruct st as [|b st]; [discriminate|]. apply IH; assumption. }
    destruct (bytes_eqb_spec l (B "endif")) as [->|N2].
    { unfold do_line. change (classify (B "endif")) with LEndif. cbn iota.
      rewrite endif_repr by exact L. destruct st as [|b st]; [discriminate|].
      cbn in L, H. apply IH; [lia|assumption]. }
    destruct (if_lineb l) eqn:I.
    { apply is_if_lineb in I. destruct (do_line_if s st l L I) as [w ->].
      destruct (length st <? 8) eqn:LT; [|discriminate]. apply Nat.ltb_lt in LT.
      destruct (alltrue st).
      - pose proof (Hc s l I) as Hv. destruct (cond_of s l) as [s' [v|]]; [|contradiction].
        apply IH; [cbn; lia|exact H].
      - apply IH; [cbn; lia|exact H]. }
    assert (is_plain l) as P.
    { repeat split; auto. rewrite <- is_if_lineb, I; discriminate. }
    unfold do_line. rewrite (plain_class l P), true_repr by exact L.
    destruct (forallb _ st).
    + pose proof (Ho s l) as O. destruct (other s l) as [s1 ok]; cbn in O; subst ok. apply IH; assumption.
    + apply IH; assumption.
Qed.

Lemma parse_ok_nesting ls s s' : PL s if_init ls = (s', true) -> nesting 8 0 ls = Some 0.
Proof. apply (parse_nesting ls []); cbn; lia. Qed.

Lemma nesting_ok_parse : (forall s l, is_if l -> snd (cond_of s l) <> None) ->
  (forall s l, snd (other s l) = true) ->
  forall ls s, nesting 8 0 ls = Some 0 -> snd (PL s if_init ls) = true.
Proof. intros Hc Ho ls s. apply (nesting_parse Hc Ho ls []); cbn; lia. Qed.
End P.
