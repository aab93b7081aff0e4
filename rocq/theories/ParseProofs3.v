(** The %-flags expand as specified. *)
From Verif Require Import Base ConfigModel ConfigSpec ConfigProofs ConfigProofs2 ParseModel ParseSpec ParseProofs ParseProofs2.
From Coq Require Import ZArith Sorted.
From Verif Require EStringModel.

(** The lists of the code hold the inputs and outputs of the rule. *)
Definition input_of (e : nle) (i : item) : Prop := exists t, e = file_entry (it_dir i) (it_name i) (it_number i) (it_pattern i) t.
Definition output_of (e : nle) (i : item) : Prop := exists t, e = output_entry (it_path i) (it_number i) t.
Definition oo_of (e : nle) (i : item) : Prop := n_path e = it_path i /\ n_order e = it_number i.
Definition holds_list (R : nle -> item -> Prop) (nl : option name_list) (l : option (list item)) : Prop :=
  match nl, l with
  | None, None => True
  | Some nl, Some l => Forall2 R (nl_entries nl) l
  | _, _ => False
  end.
Definition in_order (l : list item) : Prop := StronglySorted le (map it_number l).
Record describes (E : penv) (R : rule_env) : Prop := {
  d_in : Forall2 input_of (nl_entries (p_in E)) (r_in R);
  d_glob : forall e, nl_entries (p_in E) = [e] -> nl_globcnt (p_in E) = length (n_globs e);
  d_out : holds_list output_of (p_out E) (r_out R);
  d_oo : holds_list oo_of (p_oo E) (r_oo R);
  d_ext : p_ext E = r_ext R;
  d_dir : p_dir E = r_dir R;
  d_wf : Forall well_formed (r_in R) /\ (forall l, r_out R = Some l -> Forall well_formed l);
  d_ord : in_order (r_in R) /\ (forall l, r_out R = Some l -> in_order l) /\ (forall l, r_oo R = Some l -> in_order l) }.

(** What a text must not contain for the flags to be right: the number 99,
    numbers of 2^31 and more, %O for an output without extension, a numbered %o where there
    are no outputs yet, and %g for an unusual pattern. *)
Definition clear_flag (R : rule_env) (f : bytes) : Prop :=
  (forall n, value f n -> (n < 2 ^ 31)%Z /\ n <> 99%Z) /\
  (f = B "O" -> forall i, r_out R = Some [i] -> exists stem ext, name_parts (it_name i) stem (Some ext)) /\
  (forall d n, f = d ++ B "o" -> d <> [] -> value d n -> r_out R <> None) /\
  (f = B "g" -> forall i, r_in R = [i] -> usual_pattern i).
Definition clear_text (R : rule_env) (s : bytes) : Prop := forall a f b, s = a ++ "%"%char :: f ++ b -> clear_flag R f.

Lemma add_all_entries l : nl_entries (add_all l) = l.
Proof.
  assert (forall l nl, nl_entries (fold_left add_name_list_entry l nl) = nl_entries nl ++ l) as K.
  { clear. induction l as [|e l IH]; intros nl; cbn [fold_left]; [symmetry; apply app_nil_r|]. rewrite IH. cbn. rewrite <- app_assoc. reflexivity. }
  unfold add_all. rewrite K. reflexivity.
Qed.

Definition letter_fun (c : ascii) : nle -> outcome bytes :=
  if c =?c "b"%char then base_text else if c =?c "B"%char then extless_text else path_text.
Definition letter_list (E : penv) (c : ascii) : option name_list :=
  if c =?c "o"%char then p_out E else if c =?c "i"%char then p_oo E else Some (p_in E).
Definition letters : list ascii := ["f"; "b"; "B"; "o"; "i"]%char.
Definition rel (c : ascii) (e : nle) (i : item) : Prop :=
  n_path e = it_path i /\ n_order e = it_number i /\ (In c ["b"; "B"]%char -> input_of e i /\ well_formed i).

Lemma F2_weaken {A C} (P Q : A -> C -> Prop) l m : Forall2 P l m -> (forall a c, In c m -> P a c -> Q a c) -> Forall2 Q l m.
Proof.
  induction 1 as [|a c l m H F IH]; intros K; [constructor|]. constructor; [apply K; [left; reflexivity|exact H]|].
  apply IH. intros x y I. apply K. right. exact I.
Qed.
Lemma in_rel c E R : describes E R -> In c ["f"; "b"; "B"]%char -> Forall2 (rel c) (nl_entries (p_in E)) (r_in R).
Proof.
  intros D I. apply (F2_weaken _ _ _ _ (d_in _ _ D)).
  intros e i Ii [t ->]. repeat split; [exists t; reflexivity| | |]; destruct (d_wf _ _ D) as [W _]; rewrite Forall_forall in W; apply (W i Ii).
Qed.
Lemma letter_rel c E R l : describes E R -> list_for R c l -> exists nl, letter_list E c = Some nl /\ Forall2 (rel c) (nl_entries nl) l.
Proof.
  intros D [[I ->]|[[-> L]|[-> L]]].
  - exists (p_in E). split; [destruct I as [<-|[<-|[<-|[]]]]; reflexivity|]. apply in_rel; assumption.
  - pose proof (d_out _ _ D) as O. rewrite L in O. cbn in O. destruct (p_out E) as [nl|] eqn:P; [|destruct O]. exists nl. split; [exact P|].
    apply (F2_weaken _ _ _ _ O). intros e i _ [t ->]. repeat split; destruct H as [H|[H|[]]]; discriminate.
  - pose proof (d_oo _ _ D) as O. rewrite L in O. cbn in O. destruct (p_oo E) as [nl|] eqn:P; [|destruct O]. exists nl. split; [exact P|].
    apply (F2_weaken _ _ _ _ O). intros e i _ [H1 H2]. split; [exact H1|]. split; [exact H2|]. intros [H|[H|[]]]; discriminate.
Qed.
Lemma letter_rel_inv c E R nl : describes E R -> In c letters -> letter_list E c = Some nl ->
  exists l, list_for R c l /\ Forall2 (rel c) (nl_entries nl) l.
Proof.
  intros D I L.
  assert (forall l, list_for R c l -> exists l, list_for R c l /\ Forall2 (rel c) (nl_entries nl) l) as K.
  { intros l H. exists l. split; [exact H|]. destruct (letter_rel c E R l D H) as [nl' [L' F]]. rewrite L in L'. injection L' as <-. exact F. }
  destruct I as [<-|[<-|[<-|[<-|[<-|[]]]]]].
  - apply (K (r_in R)). left. cbn. auto.
  - apply (K (r_in R)). left. cbn. auto.
  - apply (K (r_in R)). left. cbn. auto.
  - cbn in L. pose proof (d_out _ _ D) as O. rewrite L in O. destruct (r_out R) as [l|] eqn:Ro; [|destruct O]. apply (K l). right; left. auto.
  - cbn in L. pose proof (d_oo _ _ D) as O. rewrite L in O. destruct (r_oo R) as [l|] eqn:Ro; [|destruct O]. apply (K l). right; right. auto.
Qed.
Lemma list_letter E c l : list_for E c l -> In c letters.
Proof. intros [[[<-|[<-|[<-|[]]]] _]|[[-> _]|[-> _]]]; cbn; auto 6. Qed.

(** Values for a list. *)
Lemma letter_names c es l : In c letters -> Forall2 (rel c) es l ->
  exists names, names_of c l names /\ Forall2 (fun e w => letter_fun c e = Ok w) es names.
Proof.
  intros I F. destruct I as [<-|[<-|[<-|[<-|[<-|[]]]]]].
  - exists (map it_path l). split; [apply no_path; cbn; auto|]. induction F as [|e i es l [H _] F IH]; constructor; [cbn; unfold path_text; congruence|exact IH].
  - exists (map it_name l). split; [apply no_base|]. induction F as [|e i es l [_ [_ H]] F IH]; constructor; [|exact IH].
    destruct H as [[t ->] W]; [cbn; auto|]. apply file_base, W.
  - induction F as [|e i es l [_ [_ H]] F IH]; [exists []; split; [apply no_stem; constructor|constructor]|].
    destruct IH as [names [N G]]. destruct H as [[t ->] W]; [cbn; auto|]. destruct (name_parts_total (it_name i)) as [stem [x P]].
    exists (stem :: names). split.
    + inversion N; subst; [exfalso; cbn in H; intuition discriminate|]. apply no_stem. constructor; [exists x; exact P|assumption].
    + constructor; [|exact G]. eapply (file_stem i _ _ t); eassumption.
  - exists (map it_path l). split; [apply no_path; cbn; auto|]. induction F as [|e i es l [H _] F IH]; constructor; [cbn; unfold path_text; congruence|exact IH].
  - exists (map it_path l). split; [apply no_path; cbn; auto|]. induction F as [|e i es l [H _] F IH]; constructor; [cbn; unfold path_text; congruence|exact IH].
Qed.
Lemma names_fun c l n1 n2 : names_of c l n1 -> names_of c l n2 -> n1 = n2.
Proof.
  intros P Q. inversion P as [c1 l1 I1|l1|l1 st1 F1]; inversion Q as [c2 l2 I2|l2|l2 st2 F2]; subst; try reflexivity; try discriminate;
    try (exfalso; cbn in *; intuition congruence).
  clear - F1 F2. revert n2 F2. induction F1 as [|i st l n1 [e P] F IH]; intros n2 F2; inversion F2 as [|? st2 ? n2' [e2 P2] F2']; subst; [reflexivity|].
  destruct (name_parts_fun _ _ _ _ _ P P2) as [-> _]. f_equal. apply IH. assumption.
Qed.
Lemma letter_joined c es l names : In c letters -> Forall2 (rel c) es l -> names_of c l names -> Forall2 (fun e w => letter_fun c e = Ok w) es names.
Proof. intros I F N. destruct (letter_names c es l I F) as [n2 [N2 G]]. rewrite (names_fun _ _ _ _ N N2). exact G. Qed.

Lemma flag_letter E pp c r : In c letters ->
  flag E pp (c :: r) = with_list (letter_fun c) (letter_list E c) r.
Proof. intros [<-|[<-|[<-|[<-|[<-|[]]]]]]; reflexivity. Qed.
Lemma F2_nil {A C} (P : A -> C -> Prop) l m : Forall2 P l m -> (l = [] <-> m = []).
Proof. intros H. inversion H; split; intros; congruence. Qed.
Lemma F2_filter {A C} (P : A -> C -> Prop) f g l m : Forall2 P l m -> (forall a c, P a c -> f a = g c) -> Forall2 P (filter f l) (filter g m).
Proof.
  intros H K. induction H as [|a c l m H F IH]; [constructor|]. cbn [filter]. rewrite <- (K a c H). destruct (f a); [constructor|]; assumption.
Qed.
Lemma rel_order c es l : Forall2 (rel c) es l -> map n_order es = map it_number l.
Proof. induction 1 as [|e i es l [_ [H _]] F IH]; [reflexivity|]. cbn. congruence. Qed.
Lemma rel_pick c es l n : Forall2 (rel c) es l -> in_order l -> Forall2 (rel c) (pick n es) (with_number n l).
Proof.
  intros F S. rewrite pick_filter by (rewrite (rel_order _ _ _ F); exact S). apply F2_filter; [exact F|].
  intros e i [_ [-> _]]. reflexivity.
Qed.
Lemma list_order E R c l : describes E R -> list_for R c l -> in_order l.
Proof. intros D [[_ ->]|[[_ H]|[_ H]]]; destruct (d_ord _ _ D) as [D1 [D2 D3]]; auto. Qed.

Lemma quoted_rel q c es l : Forall2 (rel c) es l ->
  Forall2 (fun e w => quoted_text q e = Ok w) es (map (fun i => q :: EStringModel.escape_text q (it_path i) ++ [q]) l).
Proof. induction 1 as [|e i es l [H _] F IH]; constructor; [unfold quoted_text; rewrite H; reflexivity|exact IH]. Qed.

Local Notation one_flag := (one_flag EStringModel.escape_text).
Local Notation expands := (expands EStringModel.escape_text).

Lemma digits_span d c r : Forall (fun c => isdigit c = true) d -> isdigit c = false -> span isdigit (d ++ c :: r) = (d, c :: r).
Proof. intros F N. apply span_stop; assumption. Qed.

Definition sel_text (E : penv) (c : ascii) (num : Z) (nl : name_list) (rest : bytes) : outcome (bytes * bytes) :=
  obind (joined (letter_fun c) true (pick num (nl_entries nl))) (fun a => Ok (a, rest)).
Lemma number_flag_eq E d r :
  Forall (fun c => isdigit c = true) d -> match r with [] => True | c :: _ => isdigit c = false end ->
  number_flag E (d ++ r) =
  if (LONG_MAX <? number d)%Z then Bad
  else
    let num := to_int (number d) in
    match r with
    | [] => Bad
    | c :: rest =>
        if c =?c "t"%char then Ok (percent :: d ++ [c], rest)
        else if ((num <=? 0) || (99 <=? num))%Z then Bad
        else if existsb (Ascii.eqb c) letters then
          match letter_list E c with
          | Some nl => sel_text E c num nl rest
          | None => if c =?c "o"%char then Ok ([], rest) else Bad
          end
        else Bad
    end.
Proof.
  intros F S. unfold number_flag.
  assert (span isdigit (d ++ r) = (d, r)) as ->.
  { destruct r as [|c r]; [rewrite app_nil_r; apply span_full, F|]. apply digits_span; assumption. }
  destruct (LONG_MAX <? number d)%Z; [reflexivity|]. cbv zeta.
  destruct r as [|c rest]; [destruct ((to_int (number d) <=? 0) || (99 <=? to_int (number d)))%Z; reflexivity|].
  destruct (c =?c "t"%char) eqn:T.
  - apply Ascii.eqb_eq in T as ->. rewrite andb_false_r. reflexivity.
  - cbn [negb]. rewrite andb_true_r. destruct ((to_int (number d) <=? 0) || (99 <=? to_int (number d)))%Z; [reflexivity|].
    unfold letters, sel_text, letter_fun, letter_list. cbn [existsb].
    destruct (c =?c "f"%char) eqn:C1; [apply Ascii.eqb_eq in C1 as ->; reflexivity|].
    destruct (c =?c "B"%char) eqn:C2; [apply Ascii.eqb_eq in C2 as ->; reflexivity|].
    destruct (c =?c "b"%char) eqn:C3; [apply Ascii.eqb_eq in C3 as ->; reflexivity|].
    destruct (c =?c "o"%char) eqn:C4; [apply Ascii.eqb_eq in C4 as ->; cbn; destruct (p_out E); reflexivity|].
    destruct (c =?c "i"%char) eqn:C5; [apply Ascii.eqb_eq in C5 as ->; cbn; destruct (p_oo E); reflexivity|].
    reflexivity.
Qed.
Lemma flag_number E pp c s : isdigit c = true -> flag E pp (c :: s) = number_flag E (c :: s).
Proof.
  intros H. assert (forall x, isdigit x = false -> c =?c x = false) as K by (intros x X; apply Ascii.eqb_neq; intros ->; congruence).
  cbn [flag]. rewrite !K by reflexivity. cbn [orb]. rewrite H. reflexivity.
Qed.
Lemma letters_in c : existsb (Ascii.eqb c) letters = true <-> In c letters.
Proof.
  rewrite existsb_exists. split; [intros [x [I E]]; apply Ascii.eqb_eq in E as ->; exact I|]. intros I. exists c. split; [exact I|apply Ascii.eqb_refl].
Qed.
Lemma letter_not_digit c : In c letters -> isdigit c = false /\ c <> "t"%char.
Proof. intros [<-|[<-|[<-|[<-|[<-|[]]]]]]; split; try reflexivity; discriminate. Qed.

Section flags.
Variables (E : penv) (R : rule_env) (pp : bool).
Hypothesis D : describes E R.

Lemma flag_complete f a r : one_flag R pp f a -> clear_flag R f -> clear_flag R (removelast f) -> flag E pp (f ++ r) = Ok (a, r).
Proof.
  intros H C1 C2. inversion H; subst; clear H.
  - pose proof (list_letter _ _ _ H0) as L. cbn [app]. rewrite flag_letter by exact L.
    destruct (letter_rel c E R l D H0) as [nl [-> F]]. unfold with_list.
    rewrite (listed_ok _ _ names); [reflexivity|exact (letter_joined _ _ _ _ L F H2)|].
    intros ->. pose proof (letter_joined _ _ _ _ L F H2) as G. inversion G as [G1|]; subst. rewrite <- G1 in F. inversion F. congruence.
  - destruct (letter_rel c E R l D H2) as [nl [Ll F]].
    assert (flag E pp ([q; c] ++ r) = with_list (quoted_text q) (letter_list E c) r) as ->.
    { destruct H0 as [<-|[<-|[]]]; destruct H1 as [<-|[<-|[]]]; reflexivity. }
    rewrite Ll. unfold with_list. rewrite (listed_ok _ _ _ (quoted_rel q c _ _ F)); [reflexivity|].
    destruct l; [congruence|discriminate].
  - cbn. rewrite (d_ext _ _ D), H0. reflexivity.
  - destruct C1 as [_ [C1 _]]. destruct (C1 eq_refl i H0) as [st [ex P]]. destruct (name_parts_fun _ _ _ _ _ P H1) as [-> _].
    pose proof (d_out _ _ D) as O. rewrite H0 in O. cbn in O. destruct (p_out E) as [nl|] eqn:Po; [|destruct O].
    inversion O as [|e ? es ? [t He] F2 X Y]; subst. inversion F2; subst. cbn. rewrite Po, <- X. f_equal. f_equal.
    apply (output_stem i _ t stem ex); [|exact P]. destruct (d_wf _ _ D) as [_ W]. specialize (W _ H0). inversion W; assumption.
  - cbn. rewrite (d_dir _ _ D). reflexivity.
  - destruct C1 as [_ [_ [_ C1]]]. specialize (C1 eq_refl i H0). pose proof (d_in _ _ D) as F. rewrite H0 in F.
    destruct (nl_entries (p_in E)) as [|e es] eqn:Pe; [inversion F|]. inversion F as [|? ? ? ? [t He] F2]; subst. inversion F2; subst.
    cbn. rewrite Pe, (d_glob _ _ D _ Pe). cbn.
    destruct (usual_glob i C1) as [[_ N]|[at_ [len [Gp Ge]]]]; [exfalso; exact (N _ H1)|].
    rewrite Gp. cbn. f_equal. f_equal. apply Ge in H1 as ->. rewrite base_offset_file.
    + rewrite skipn_len by reflexivity. reflexivity.
    + destruct (d_wf _ _ D) as [W _]. rewrite H0 in W. inversion W as [|? ? [W1 _] _]; exact W1.
    + destruct (d_wf _ _ D) as [W _]. rewrite H0 in W. inversion W as [|? ? [_ [W1 _]] _]; exact W1.
  - pose proof (list_letter _ _ _ H3) as L. destruct (letter_not_digit c L) as [Nd Nt]. apply value_number in H0 as [Fd Hn].
    rewrite <- app_assoc. cbn [app]. destruct d as [|x d]; [congruence|]. cbn [app].
    rewrite flag_number by (inversion Fd; assumption). change (x :: d ++ c :: r) with ((x :: d) ++ c :: r).
    rewrite number_flag_eq by assumption. rewrite Hn. unfold LONG_MAX. destruct (Z.ltb_spec 9223372036854775807 n); [lia|].
    rewrite to_int_small by lia. cbv zeta. apply Ascii.eqb_neq in Nt. rewrite Nt.
    assert (n <> 99%Z) as N99 by (destruct C2 as [C2 _]; apply C2; rewrite removelast_last; apply value_number; auto).
    destruct (Z.leb_spec n 0); [lia|]. destruct (Z.leb_spec 99 n); [lia|]. cbn [orb].
    pose proof (proj2 (letters_in c) L) as ->. destruct (letter_rel c E R l D H3) as [nl [-> F]]. unfold sel_text.
    rewrite (joined_true _ _ names); [reflexivity|].
    apply (letter_joined c _ (with_number n l) names L); [|exact H4]. apply rel_pick; [exact F|exact (list_order _ _ _ _ D H3)].
  - apply value_number in H0 as [Fd Hn]. rewrite <- app_assoc. change (B "t" ++ r) with ("t"%char :: r).
    destruct d as [|x d]; [congruence|]. cbn [app]. rewrite flag_number by (inversion Fd; assumption).
    change (x :: d ++ "t"%char :: r) with ((x :: d) ++ "t"%char :: r). rewrite number_flag_eq by (try assumption; reflexivity).
    rewrite Hn. unfold LONG_MAX. destruct (Z.ltb_spec 9223372036854775807 n); [lia|]. reflexivity.
  - reflexivity.
  - destruct pp; reflexivity.
Qed.

(** A flag that is accepted is one of the documented ones, and nothing else
    happens than acceptance or an error. *)
Lemma flag_sound t : (forall f b, t = f ++ b -> clear_flag R f) ->
  match flag E pp t with
  | Ok (a, r) => exists f, t = f ++ r /\ f <> [] /\ one_flag R pp f a
  | Bad => True
  | Over | NoFuel => False
  end.
Proof.
  intros C. destruct t as [|c s]; [exact I|].
  destruct (existsb (Ascii.eqb c) letters) eqn:L.
  { apply letters_in in L. rewrite flag_letter by exact L. unfold with_list. destruct (letter_list E c) as [nl|] eqn:Ll; [|exact I].
    destruct (letter_rel_inv c E R nl D L Ll) as [l [Lf F]]. destruct (letter_names c _ _ L F) as [names [N G]].
    destruct (nl_entries nl) eqn:En; [rewrite listed_nil by exact En; exact I|].
    assert (names <> []) as Nn by (intros ->; inversion G).
    rewrite <- En in G. rewrite (listed_ok _ _ _ G Nn). cbn. exists [c]. split; [reflexivity|]. split; [discriminate|].
    apply (of_list _ _ _ c l names); [exact Lf|intros ->; inversion F|exact N]. }
  destruct (c =?c "e"%char) eqn:C1.
  { apply Ascii.eqb_eq in C1 as ->. cbn. destruct (p_ext E) as [x|] eqn:Px; [|exact I]. exists (B "e"). split; [reflexivity|]. split; [discriminate|].
    apply of_ext. rewrite <- (d_ext _ _ D). exact Px. }
  destruct (c =?c "O"%char) eqn:C2.
  { apply Ascii.eqb_eq in C2 as ->. cbn. destruct (p_out E) as [nl|] eqn:Po; [|exact I].
    destruct (nl_entries nl) as [|e [|]] eqn:En; try exact I. exists (B "O"). split; [reflexivity|]. split; [discriminate|].
    pose proof (d_out _ _ D) as O. rewrite Po in O. destruct (r_out R) as [l|] eqn:Ro; [|destruct O]. cbn in O. rewrite En in O.
    inversion O as [|? i ? l' [t He] F2]; subst. inversion F2; subst.
    destruct (C (B "O") s eq_refl) as [_ [Co _]]. destruct (Co eq_refl i Ro) as [st [ex P]].
    replace (firstn (n_extless (output_entry (it_path i) (it_number i) t)) (n_path (output_entry (it_path i) (it_number i) t))) with (it_dir i ++ st).
    - eapply of_stem; [exact Ro|exact P].
    - symmetry. apply (output_stem i _ t st ex); [|exact P]. destruct (d_wf _ _ D) as [_ W]. specialize (W _ Ro). inversion W; assumption. }
  destruct ((c =?c "'"%char) || (c =?c dquote)) eqn:C3.
  { assert (In c ["'"; """"]%char) as Q by (apply orb_true_iff in C3 as [H|H]; apply Ascii.eqb_eq in H as ->; cbn; auto).
    destruct s as [|x s]; [destruct Q as [<-|[<-|[]]]; exact I|].
    destruct (existsb (Ascii.eqb x) ["f"; "o"]%char) eqn:X.
    - assert (In x ["f"; "o"]%char) as Ix.
      { apply existsb_exists in X as [y [Iy Ey]]. apply Ascii.eqb_eq in Ey as ->. exact Iy. }
      assert (In x letters) as L2 by (destruct Ix as [<-|[<-|[]]]; cbn; auto).
      assert (flag E pp (c :: x :: s) = with_list (quoted_text c) (letter_list E x) s) as ->.
      { destruct Q as [<-|[<-|[]]]; destruct Ix as [<-|[<-|[]]]; reflexivity. }
      unfold with_list. destruct (letter_list E x) as [nl|] eqn:Ll; [|exact I].
      destruct (letter_rel_inv x E R nl D L2 Ll) as [l [Lf F]].
      destruct (nl_entries nl) eqn:En; [rewrite listed_nil by exact En; exact I|].
      assert (l <> []) as Nl by (intros ->; inversion F). rewrite <- En in F.
      rewrite (listed_ok _ _ _ (quoted_rel c x _ _ F)) by (destruct l; [congruence|discriminate]). cbn.
      exists [c; x]. split; [reflexivity|]. split; [discriminate|]. apply of_quoted; assumption.
    - assert (x =?c "f"%char = false /\ x =?c "o"%char = false) as [Xf Xo].
      { cbn in X. apply orb_false_iff in X as [X1 X2]. apply orb_false_iff in X2 as [X2 _]. auto. }
      destruct Q as [<-|[<-|[]]]; cbn; rewrite Xf, Xo; exact I. }
  destruct (c =?c "d"%char) eqn:C4.
  { apply Ascii.eqb_eq in C4 as ->. cbn. exists (B "d"). split; [reflexivity|]. split; [discriminate|]. rewrite (d_dir _ _ D). apply of_dir. }
  destruct (c =?c "g"%char) eqn:C5.
  { apply Ascii.eqb_eq in C5 as ->. cbn. pose proof (d_in _ _ D) as F. destruct (nl_entries (p_in E)) as [|e [|]] eqn:Pe; try exact I. rewrite (d_glob _ _ D _ Pe). destruct (r_in R) as [|i l] eqn:Ri; [inversion F|].
    inversion F as [|? ? ? ? [t He] F2]; subst. inversion F2; subst.
    destruct (C (B "g") s eq_refl) as [_ [_ [_ Cg]]]. specialize (Cg eq_refl i Ri).
    cbn. destruct (usual_glob i Cg) as [[-> _]|[at_ [len [Gp Ge]]]]; [exact I|]. rewrite Gp. cbn. exists (B "g"). split; [reflexivity|].
    split; [discriminate|]. apply (of_glob _ _ _ i); [exact Ri|]. apply Ge.
    assert (well_formed i) as [W1 [W2 _]] by (destruct (d_wf _ _ D) as [W _]; rewrite Forall_forall in W; apply W; rewrite Ri; left; reflexivity).
    rewrite base_offset_file by assumption. rewrite skipn_len by reflexivity. reflexivity. }
  destruct (isdigit c) eqn:C6.
  { rewrite flag_number by exact C6. destruct (span isdigit (c :: s)) as [d r] eqn:Sp. apply span_spec in Sp as [Es [Fd Sr]].
    assert (d <> []) as Nd by (intros ->; cbn in Es; subst r; congruence).
    rewrite Es. rewrite number_flag_eq by assumption.
    assert (value d (number d)) as V by (apply value_number; auto).
    destruct (Z.ltb_spec LONG_MAX (number d)) as [|Hm]; [exact I|]. cbv zeta.
    destruct r as [|x rest]; [exact I|]. destruct (x =?c "t"%char) eqn:T.
    - apply Ascii.eqb_eq in T as ->. exists (d ++ B "t"). split; [rewrite <- app_assoc; reflexivity|]. split; [destruct d; discriminate|].
      apply (of_node _ _ _ d (number d)); [exact V|exact Nd|]. unfold LONG_MAX in Hm. lia.
    - destruct (C d (x :: rest) Es) as [Cv _]. destruct (Cv _ V) as [Cv1 Cv2]. rewrite to_int_small by (pose proof (number_nonneg d); lia).
      destruct (Z.leb_spec (number d) 0); [exact I|]. destruct (Z.leb_spec 99 (number d)); [exact I|]. cbn [orb].
      destruct (existsb (Ascii.eqb x) letters) eqn:Lx; [|exact I]. apply letters_in in Lx.
      destruct (letter_list E x) as [nl|] eqn:Ll.
      + destruct (letter_rel_inv x E R nl D Lx Ll) as [l [Lf F]].
        pose proof (rel_pick x _ _ (number d) F (list_order _ _ _ _ D Lf)) as Fp.
        destruct (letter_names x _ _ Lx Fp) as [names [N G]]. unfold sel_text. rewrite (joined_true _ _ _ G). cbn.
        exists (d ++ [x]). split; [rewrite <- app_assoc; reflexivity|]. split; [destruct d; discriminate|].
        apply (of_number _ _ _ d (number d) x l names); try assumption. lia.
      + destruct (x =?c "o"%char) eqn:Xo; [|exact I]. exfalso. apply Ascii.eqb_eq in Xo as ->. cbn in Ll.
        assert (c :: s = (d ++ B "o") ++ rest) as Es2 by (rewrite <- app_assoc; exact Es).
        destruct (C _ _ Es2) as [_ [_ [Co _]]]. apply (Co d (number d) eq_refl Nd V).
        pose proof (d_out _ _ D) as O. rewrite Ll in O. destruct (r_out R); [destruct O|reflexivity]. }
  destruct (c =?c "<"%char) eqn:C7.
  { apply Ascii.eqb_eq in C7 as ->. cbn. exists (B "<"). split; [reflexivity|]. split; [discriminate|]. apply of_group. }
  destruct (c =?c percent) eqn:C8.
  { apply Ascii.eqb_eq in C8 as ->. cbn. exists (B "%"). split; [reflexivity|]. split; [discriminate|].
    replace (if pp then [percent] else [percent; percent]) with (if pp then B "%" else B "%%") by (destruct pp; reflexivity). apply of_percent. }
  assert (flag E pp (c :: s) = Bad) as ->; [|exact I].
  unfold letters in L. cbn [existsb] in L.
  apply orb_false_iff in L as [L1 L]. apply orb_false_iff in L as [L2 L]. apply orb_false_iff in L as [L3 L].
  apply orb_false_iff in L as [L4 L]. apply orb_false_iff in L as [L5 _].
  cbn [flag]. rewrite L1, L2, L3, L5, C1, L4, C2, C3, C4, C5, C6, C7, C8. reflexivity.
Qed.

Lemma clear_suffix a s : clear_text R (a ++ s) -> clear_text R s.
Proof. intros C x f b ->. apply (C (a ++ x) f b). rewrite <- app_assoc. reflexivity. Qed.

Lemma printf_complete s o : expands R pp s o -> clear_text R s -> forall fuel, length s < fuel -> printf fuel E pp s = Ok o.
Proof.
  induction 1 as [|c s o N H IH|f a s o F H IH]; intros C fuel L; (destruct fuel as [|fuel]; [lia|]).
  - reflexivity.
  - cbn [printf]. apply Ascii.eqb_neq in N. change percent with "%"%char. rewrite N. rewrite IH; [reflexivity| |cbn in L; lia].
    exact (clear_suffix [c] s C).
  - cbn [printf]. change ("%"%char =?c percent) with true. cbn match.
    rewrite (flag_complete f a s F); [| |].
    + cbn [obind]. rewrite IH; [reflexivity| |]. 2:{ cbn in L. rewrite app_length in L. lia. }
      apply (clear_suffix ("%"%char :: f) s). exact C.
    + apply (C [] f s). reflexivity.
    + assert (f <> []) as Nf by (inversion F; subst; try discriminate; destruct d; discriminate).
      apply (C [] (removelast f) ([last f nul] ++ s)). cbn [app]. f_equal. rewrite (app_removelast_last nul Nf) at 1. rewrite <- app_assoc. reflexivity.
Qed.
Lemma printf_sound fuel : forall s, clear_text R s -> length s < fuel ->
  match printf fuel E pp s with Ok o => expands R pp s o | Bad => True | _ => False end.
Proof.
  induction fuel as [|fuel IH]; intros s C L; [lia|]. destruct s as [|c s]; [apply ex_end|]. cbn [printf].
  destruct (c =?c percent) eqn:P.
  - apply Ascii.eqb_eq in P as ->.
    pose proof (flag_sound s) as K. specialize (K (fun f b Hs => C [] f b ltac:(rewrite Hs; reflexivity))).
    destruct (flag E pp s) as [[a r]| | |]; try exact K; try exact I. cbn [obind]. destruct K as [f [-> [Nf Of]]].
    assert (length r < fuel) as Lr by (cbn in L; rewrite app_length in L; lia).
    specialize (IH r (clear_suffix (percent :: f) r C) Lr). destruct (printf fuel E pp r); try exact IH. cbn [obind]. apply ex_flag; assumption.
  - assert (length s < fuel) as Ls by (cbn in L; lia). specialize (IH s (clear_suffix [c] s C) Ls).
    destruct (printf fuel E pp s); try exact IH. cbn [obind]. apply ex_char; [apply Ascii.eqb_neq, P|exact IH].
Qed.
Lemma printf_text_spec s : clear_text R s ->
  (forall o, printf_text E pp s = Ok o <-> expands R pp s o) /\
  (printf_text E pp s = Bad <-> forall o, ~ expands R pp s o) /\
  printf_text E pp s <> Over /\ printf_text E pp s <> NoFuel.
Proof.
  intros C. assert (length s < S (length s)) as L by lia.
  assert (forall o, expands R pp s o -> printf_text E pp s = Ok o) as K1 by (intros o H; apply (printf_complete s o H C _ L)).
  pose proof (printf_sound _ s C L) as K2. fold (printf_text E pp s) in K2.
  split; [|split; [|split]].
  - intros o. split; [|apply K1]. intros H. rewrite H in K2. exact K2.
  - split.
    + intros H o X. apply K1 in X. congruence.
    + intros H. destruct (printf_text E pp s); [exfalso; exact (H _ K2)|reflexivity|destruct K2|destruct K2].
  - intros H. rewrite H in K2. exact K2.
  - intros H. rewrite H in K2. exact K2.
Qed.
End flags.
Lemma printf_literal E pp s : ~ In "%"%char s -> printf_text E pp s = Ok s.
Proof.
  unfold printf_text. intros H. assert (forall fuel, length s < fuel -> printf fuel E pp s = Ok s) as K; [|apply K; lia].
  induction s as [|c s IH]; intros fuel L; (destruct fuel; [lia|]); [reflexivity|]. cbn [printf].
  destruct (c =?c percent) eqn:P; [apply Ascii.eqb_eq in P as ->; exfalso; apply H; left; reflexivity|].
  rewrite IH; [reflexivity| |cbn in L; lia]. intros I. apply H. right. exact I.
Qed.

(** A text whose flags are not numbered is clear. *)
Lemma clear_unnumbered R s : (forall a c b, s = a ++ "%"%char :: c :: b -> isdigit c = false) ->
  (forall i, r_out R = Some [i] -> exists stem ext, name_parts (it_name i) stem (Some ext)) ->
  (forall i, r_in R = [i] -> usual_pattern i) -> clear_text R s.
Proof.
  intros Hd Ho Hg a f b E.
  assert (forall n d, value d n -> forall r, f = d ++ r -> d = []) as K.
  { intros n d V r ->. destruct d as [|c d]; [reflexivity|]. exfalso. apply value_number in V as [V _]. inversion V; subst.
    specialize (Hd a c ((d ++ r) ++ b) eq_refl). congruence. }
  split; [|split; [|split]].
  - intros n V. assert (f = []) as -> by (apply (K n f V []); symmetry; apply app_nil_r). apply value_number in V as [_ <-].
    change (number []) with 0%Z. split; [lia|discriminate].
  - intros _. exact Ho.
  - intros d n -> Nd V. exfalso. apply Nd. apply (K n d V (B "o") eq_refl).
  - intros _. exact Hg.
Qed.
Fixpoint unnumbered (s : bytes) : bool :=
  match s with
  | c :: t => (match t with d :: _ => negb ((c =?c "%"%char) && isdigit d) | [] => true end) && unnumbered t
  | [] => true
  end.
Lemma unnumbered_spec s : unnumbered s = true -> forall a c b, s = a ++ "%"%char :: c :: b -> isdigit c = false.
Proof.
  induction s as [|x s IH]; intros H a c b E; [destruct a; discriminate|]. cbn [unnumbered] in H. apply andb_true_iff in H as [H1 H2].
  destruct a as [|y a].
  - cbn in E. injection E as -> ->. apply negb_true_iff in H1. change ("%"%char =?c "%"%char) with true in H1. exact H1.
  - injection E as -> E. exact (IH H2 a c b E).
Qed.
