(** Variable expansion. *)
From Verif Require Import Base ConfigModel ConfigSpec ConfigProofs ConfigProofs2 ParseModel ParseSpec ParseProofs ParseProofs2.
From Coq Require Import ZArith.

Section ev.
Variables dollar atvar amp : bytes -> option bytes.
Notation ev := (eval_vars dollar atvar amp).
Notation evaluates := (evaluates dollar atvar amp).

Lemma lookup_table c f : In (c, f) [("$"%char, dollar); ("@"%char, atvar); ("&"%char, amp)] -> lookup dollar atvar amp c = f.
Proof. intros [H|[H|[H|[]]]]; injection H as <- <-; reflexivity. Qed.
Lemma sigil c : (c =?c "$"%char) || (c =?c "@"%char) || (c =?c "&"%char) = true <-> In c ["$"; "@"; "&"]%char.
Proof. rewrite !orb_true_iff, !Ascii.eqb_eq. cbn [In]. split; [intros [[->| ->]| ->]; auto|intros [<-|[<-|[<-|[]]]]; auto]. Qed.
Lemma sigil_lookup c : In c ["$"; "@"; "&"]%char -> In (c, lookup dollar atvar amp c) [("$"%char, dollar); ("@"%char, atvar); ("&"%char, amp)].
Proof. intros [<-|[<-|[<-|[]]]]; cbn; auto. Qed.

Lemma eval_step_var fuel c name v s : In c ["$"; "@"; "&"]%char -> ~ In ")"%char name -> lookup dollar atvar amp c name = v ->
  ev (S fuel) (c :: "("%char :: name ++ ")"%char :: s) = match v with Some v => obind (ev fuel s) (fun o => Ok (v ++ o)) | None => Bad end.
Proof.
  intros I N Lk. cbn [eval_vars].
  assert (c =?c backslash = false) as -> by (destruct I as [<-|[<-|[<-|[]]]]; reflexivity).
  pose proof (proj2 (sigil c) I) as ->. change ("("%char =?c "("%char) with true. cbn match. rewrite cut_app by exact N. rewrite Lk. destruct v; reflexivity.
Qed.
Lemma eval_step_open fuel c s : In c ["$"; "@"; "&"]%char -> ~ In ")"%char s -> ev (S fuel) (c :: "("%char :: s) = Bad.
Proof.
  intros I N. cbn [eval_vars]. assert (c =?c backslash = false) as -> by (destruct I as [<-|[<-|[<-|[]]]]; reflexivity).
  pose proof (proj2 (sigil c) I) as ->. change ("("%char =?c "("%char) with true. cbn match. rewrite cut_nin by exact N. reflexivity.
Qed.
Lemma eval_step_lone fuel c s : In c ["$"; "@"; "&"]%char -> (forall t, s <> "("%char :: t) -> ev (S fuel) (c :: s) = obind (ev fuel s) (fun o => Ok (c :: o)).
Proof.
  intros I N. cbn [eval_vars]. assert (c =?c backslash = false) as -> by (destruct I as [<-|[<-|[<-|[]]]]; reflexivity).
  pose proof (proj2 (sigil c) I) as ->. destruct s as [|p r]; [reflexivity|].
  destruct (p =?c "("%char) eqn:E; [apply Ascii.eqb_eq in E as ->; exfalso; exact (N r eq_refl)|reflexivity].
Qed.
Lemma eval_step_char fuel c s : ~ In c ["\"; "$"; "@"; "&"]%char -> ev (S fuel) (c :: s) = obind (ev fuel s) (fun o => Ok (c :: o)).
Proof.
  intros N. cbn [eval_vars].
  destruct (c =?c backslash) eqn:E1; [apply Ascii.eqb_eq in E1 as ->; exfalso; apply N; cbn; auto|].
  destruct ((c =?c "$"%char) || (c =?c "@"%char) || (c =?c "&"%char)) eqn:E2; [|reflexivity].
  exfalso. apply N. right. apply sigil, E2.
Qed.
Lemma eval_step_escaped fuel c s : In c ["$"; "@"]%char -> ev (S fuel) ("\"%char :: c :: "("%char :: s) = obind (ev fuel ("("%char :: s)) (fun o => Ok (c :: o)).
Proof. intros [<-|[<-|[]]]; reflexivity. Qed.
Lemma eval_step_backslash fuel s : (forall c t, In c ["$"; "@"]%char -> s <> c :: "("%char :: t) ->
  ev (S fuel) ("\"%char :: s) = obind (ev fuel s) (fun o => Ok ("\"%char :: o)).
Proof.
  intros N. cbn [eval_vars]. change ("\"%char =?c backslash) with true. cbn match.
  destruct s as [|d [|p r]]; try reflexivity.
  destruct (((d =?c "$"%char) || (d =?c "@"%char)) && (p =?c "("%char)) eqn:E; [|reflexivity].
  exfalso. apply andb_true_iff in E as [E1 E2]. apply Ascii.eqb_eq in E2 as ->. apply (N d r); [|reflexivity].
  apply orb_true_iff in E1 as [E1|E1]; apply Ascii.eqb_eq in E1 as ->; cbn; auto.
Qed.

Lemma eval_complete s o : evaluates s o -> forall fuel, length s < fuel -> ev fuel s = Ok o.
Proof.
  induction 1 as [|c s o N H IH|c f name v s o I N Lk H IH|c s o I N H IH|c s o I H IH|s o N H IH]; intros fuel L; (destruct fuel as [|fuel]; [lia|]).
  - reflexivity.
  - rewrite eval_step_char by exact N. rewrite IH by (cbn in L; lia). reflexivity.
  - rewrite (eval_step_var fuel c name (Some v)).
    + rewrite IH; [reflexivity|]. cbn in L. rewrite app_length in L. cbn in L. lia.
    + destruct I as [I|[I|[I|[]]]]; injection I as <- _; cbn; auto.
    + exact N.
    + rewrite (lookup_table c f I). exact Lk.
  - rewrite eval_step_lone by assumption. rewrite IH by (cbn in L; lia). reflexivity.
  - rewrite eval_step_escaped by exact I. rewrite IH by (cbn in *; lia). reflexivity.
  - rewrite eval_step_backslash by exact N. rewrite IH by (cbn in L; lia). reflexivity.
Qed.

Lemma eval_sound fuel : forall s, length s < fuel ->
  match ev fuel s with Ok o => evaluates s o | Bad => True | _ => False end.
Proof.
  induction fuel as [|fuel IH]; intros s L; [lia|]. destruct s as [|c s]; [apply ev_end|].
  assert (length s < fuel) as Ls by (cbn in L; lia).
  destruct (c =?c backslash) eqn:E1.
  - apply Ascii.eqb_eq in E1 as ->.
    assert ((exists d t, In d ["$"; "@"]%char /\ s = d :: "("%char :: t) \/ (forall d t, In d ["$"; "@"]%char -> s <> d :: "("%char :: t)) as [[d [t [I ->]]]|N].
    { destruct s as [|d [|p r]]; try (right; intros ? ? _ G; discriminate).
      destruct (((d =?c "$"%char) || (d =?c "@"%char)) && (p =?c "("%char)) eqn:E.
      - left. apply andb_true_iff in E as [E1 E2]. apply Ascii.eqb_eq in E2 as ->. exists d, r. split; [|reflexivity].
        apply orb_true_iff in E1 as [E1|E1]; apply Ascii.eqb_eq in E1 as ->; cbn; auto.
      - right. intros d' t I G. injection G as <- -> <-. destruct I as [<-|[<-|[]]]; discriminate. }
    + change backslash with "\"%char. rewrite eval_step_escaped by exact I. specialize (IH ("("%char :: t) ltac:(cbn in *; lia)).
      destruct (ev fuel ("("%char :: t)); try exact IH. cbn [obind]. apply ev_escaped; assumption.
    + change backslash with "\"%char. rewrite eval_step_backslash by exact N. specialize (IH s Ls).
      destruct (ev fuel s); try exact IH. cbn [obind]. apply ev_backslash; assumption.
  - destruct ((c =?c "$"%char) || (c =?c "@"%char) || (c =?c "&"%char)) eqn:E2.
    + apply sigil in E2. destruct s as [|p r].
      * rewrite eval_step_lone by (try exact E2; discriminate). specialize (IH [] Ls). destruct (ev fuel []); try exact IH.
        cbn [obind]. apply ev_lone; [exact E2|discriminate|exact IH].
      * destruct (p =?c "("%char) eqn:P.
        -- apply Ascii.eqb_eq in P as ->. destruct (cut ")"%char r) as [[name rest]|] eqn:C.
           ++ apply cut_inv in C as [-> N]. rewrite (eval_step_var fuel c name (lookup dollar atvar amp c name)); [|exact E2|exact N|reflexivity].
              destruct (lookup dollar atvar amp c name) as [v|] eqn:Lk; [|exact I].
              assert (length rest < fuel) as Lr by (cbn in Ls; rewrite app_length in Ls; cbn in Ls; lia).
              specialize (IH rest Lr). destruct (ev fuel rest); try exact IH. cbn [obind].
              apply (ev_var _ _ _ c (lookup dollar atvar amp c)); [apply sigil_lookup, E2|exact N|exact Lk|exact IH].
           ++ apply cut_none in C. rewrite eval_step_open by assumption. exact I.
        -- apply Ascii.eqb_neq in P. assert (forall t, p :: r <> "("%char :: t) as N by (intros t G; injection G as -> _; exact (P eq_refl)).
           rewrite eval_step_lone by assumption. specialize (IH _ Ls). destruct (ev fuel (p :: r)); try exact IH. cbn [obind]. apply ev_lone; assumption.
    + assert (~ In c ["\"; "$"; "@"; "&"]%char) as N.
      { intros [<-|H]; [discriminate|]. apply sigil in H. congruence. }
      rewrite eval_step_char by exact N. specialize (IH s Ls). destruct (ev fuel s); try exact IH. cbn [obind]. apply ev_char; assumption.
Qed.
Lemma eval_spec s :
  (forall o, ev (S (length s)) s = Ok o <-> evaluates s o) /\
  ev (S (length s)) s <> Over /\ ev (S (length s)) s <> NoFuel.
Proof.
  assert (length s < S (length s)) as L by lia. pose proof (eval_sound _ s L) as K. split; [|split].
  - intros o. split; [intros H; rewrite H in K; exact K|]. intros H. apply eval_complete; [exact H|exact L].
  - intros H. rewrite H in K. exact K.
  - intros H. rewrite H in K. exact K.
Qed.

(** Expansion of a concatenation. *)
Lemma evaluates_app a x b y : evaluates a x -> evaluates b y ->
  (forall t c, a = t ++ [c] -> ~ In c ["\"; "$"; "@"; "&"]%char) -> evaluates (a ++ b) (x ++ y).
Proof.
  intros Ha Hb.
  assert (forall c s, (forall t d, c :: s = t ++ [d] -> ~ In d ["\"; "$"; "@"; "&"]%char) -> (s = [] -> ~ In c ["\"; "$"; "@"; "&"]%char) /\
    (forall t d, s = t ++ [d] -> ~ In d ["\"; "$"; "@"; "&"]%char)) as K.
  { intros c s H. split; [intros ->; exact (H [] c eq_refl)|]. intros t d ->. exact (H (c :: t) d eq_refl). }
  induction Ha as [|c s o N H IH|c f name v s o I N Lk H IH|c s o I N H IH|c s o I H IH|s o N H IH]; intros S.
  - exact Hb.
  - cbn [app]. apply ev_char; [exact N|]. apply IH. apply (K c s S).
  - cbn [app]. rewrite <- !app_assoc. cbn [app]. apply (ev_var _ _ _ c f); try assumption. apply IH.
    intros t d ->. apply (S (c :: "("%char :: name ++ ")"%char :: t) d). cbn. rewrite <- app_assoc. reflexivity.
  - cbn [app]. destruct (K c s S) as [K1 K2]. apply ev_lone; [exact I| |apply IH, K2].
    intros t E. destruct s as [|d s]; [exact (K1 eq_refl (or_intror I))|]. injection E as -> _. exact (N s eq_refl).
  - cbn [app]. apply ev_escaped; [exact I|]. apply IH. intros t d E. apply (S ("\"%char :: c :: t) d). cbn. rewrite E. reflexivity.
  - cbn [app]. destruct (K _ s S) as [K1 K2]. apply ev_backslash; [|apply IH, K2].
    intros c t I E. destruct s as [|d [|e s]].
    + apply K1; [reflexivity|left; reflexivity].
    + injection E as -> E. apply (K2 [] c eq_refl). destruct I as [<-|[<-|[]]]; cbn; auto.
    + injection E as -> -> E. exact (N c s I eq_refl).
Qed.
Lemma evaluates_plain s : (forall c, In c s -> ~ In c ["\"; "$"; "@"; "&"]%char) -> evaluates s s.
Proof. induction s as [|c s IH]; intros H; [apply ev_end|]. apply ev_char; [apply H; left; reflexivity|]. apply IH. intros d I. apply H. right. exact I. Qed.
Lemma evaluates_fun s o1 o2 : evaluates s o1 -> evaluates s o2 -> o1 = o2.
Proof. intros H1 H2. assert (length s < S (length s)) as L by lia. pose proof (eval_complete s o1 H1 _ L). pose proof (eval_complete s o2 H2 _ L). congruence. Qed.

(** Inversions, through the function. *)
Lemma evaluates_ex s : (exists o, evaluates s o) <-> exists o, ev (S (length s)) s = Ok o.
Proof. destruct (eval_spec s) as [K _]. split; intros [o H]; exists o; apply K, H. Qed.
Lemma ev_fuel s f : length s < f -> ev f s = ev (S (length s)) s.
Proof.
  intros L. assert (length s < S (length s)) as L2 by lia. pose proof (eval_sound f s L) as K1. pose proof (eval_sound _ s L2) as K2.
  destruct (ev f s) as [o| | |] eqn:E1; [|destruct (ev (S (length s)) s) as [o2| | |] eqn:E2; [|reflexivity|destruct K2|destruct K2]|destruct K1|destruct K1].
  - symmetry. apply eval_complete; [exact K1|exact L2].
  - pose proof (eval_complete s o2 K2 f L). congruence.
Qed.
Lemma evaluates_char_inv c s z : evaluates (c :: s) z -> ~ In c ["\"; "$"; "@"; "&"]%char -> exists z', evaluates s z'.
Proof.
  intros H N. apply eval_complete with (fuel := S (S (length s))) in H; [|cbn; lia]. rewrite eval_step_char in H by exact N.
  apply evaluates_ex. destruct (ev (S (length s)) s) as [o| | |]; try discriminate. exists o. reflexivity.
Qed.
Lemma evaluates_lone_inv c s z : evaluates (c :: s) z -> In c ["$"; "@"; "&"]%char -> (forall t, s <> "("%char :: t) -> exists z', evaluates s z'.
Proof.
  intros H I N. apply eval_complete with (fuel := S (S (length s))) in H; [|cbn; lia]. rewrite eval_step_lone in H by assumption.
  apply evaluates_ex. destruct (ev (S (length s)) s) as [o| | |]; try discriminate. exists o. reflexivity.
Qed.
Lemma evaluates_backslash_inv s z : evaluates ("\"%char :: s) z -> (forall c t, In c ["$"; "@"]%char -> s <> c :: "("%char :: t) -> exists z', evaluates s z'.
Proof.
  intros H N. apply eval_complete with (fuel := S (S (length s))) in H; [|cbn; lia]. rewrite eval_step_backslash in H by exact N.
  apply evaluates_ex. destruct (ev (S (length s)) s) as [o| | |]; try discriminate. exists o. reflexivity.
Qed.
Lemma evaluates_escaped_inv c s z : evaluates ("\"%char :: c :: "("%char :: s) z -> In c ["$"; "@"]%char -> exists z', evaluates ("("%char :: s) z'.
Proof.
  intros H I. apply eval_complete with (fuel := S (S (S (S (length s))))) in H; [|cbn; lia]. rewrite eval_step_escaped in H by exact I.
  apply evaluates_ex. rewrite <- (ev_fuel _ (S (S (S (length s))))) by (cbn; lia).
  destruct (ev (S (S (S (length s)))) ("("%char :: s)) as [o| | |]; try discriminate. exists o. reflexivity.
Qed.
Lemma evaluates_var_inv c name s z : evaluates (c :: "("%char :: name ++ ")"%char :: s) z -> In c ["$"; "@"; "&"]%char -> ~ In ")"%char name -> exists z', evaluates s z'.
Proof.
  intros H I N. set (f := S (S (length (name ++ ")"%char :: s)))) in *.
  apply eval_complete with (fuel := S f) in H; [|subst f; cbn; lia].
  rewrite (eval_step_var f c name _ s I N eq_refl) in H. apply evaluates_ex. rewrite <- (ev_fuel s f) by (subst f; rewrite app_length; cbn; lia).
  destruct (lookup dollar atvar amp c name); [|discriminate]. destruct (ev f s) as [o| | |]; try discriminate. exists o. reflexivity.
Qed.
Lemma eval_before a o b : evaluates a o -> (forall t c, a = t ++ [c] -> ~ In c ["\"; "$"; "@"; "&"]%char) ->
  forall fuel, length (a ++ b) < fuel -> ev fuel (a ++ b) = Bad <-> ev (S (length b)) b = Bad.
Proof.
  intros Ha S fuel L. assert (length b < Datatypes.S (length b)) as Lb by lia.
  pose proof (eval_sound fuel (a ++ b) L) as K1. pose proof (eval_sound _ b Lb) as K2.
  assert (forall s o f, evaluates s o -> length s < f -> ev f s = Ok o) as C by (intros; apply eval_complete; assumption).
  split; intros H.
  - destruct (ev (Datatypes.S (length b)) b) as [y| | |] eqn:E; [|reflexivity|destruct K2|destruct K2].
    pose proof (C _ _ fuel (evaluates_app a o b y Ha K2 S) L). congruence.
  - destruct (ev fuel (a ++ b)) as [z| | |] eqn:E; [|reflexivity|destruct K1|destruct K1]. exfalso. clear K2.
    assert (exists y, evaluates b y) as [y Hy].
    { clear - Ha K1 S. revert z K1. induction Ha as [|c s o N H IH|c f name v s o I N Lk H IH|c s o I N H IH|c s o I H IH|s o N H IH]; intros z K1.
      - exists z. exact K1.
      - apply evaluates_char_inv in K1 as [z' K1]; [|exact N]. apply (IH ltac:(intros t d ->; exact (S (c :: t) d eq_refl)) z' K1).
      - cbn [app] in K1. rewrite <- app_assoc in K1. cbn [app] in K1.
        assert (forall t d, s = t ++ [d] -> ~ In d ["\"; "$"; "@"; "&"]%char) as S2.
        { intros t d ->. apply (S (c :: "("%char :: name ++ ")"%char :: t) d). cbn. rewrite <- app_assoc. reflexivity. }
        apply evaluates_var_inv in K1 as [z' K1]; [exact (IH S2 _ K1)| |exact N]. destruct I as [I|[I|[I|[]]]]; injection I as <- _; cbn; auto.
      - cbn [app] in K1. assert (forall t d, s = t ++ [d] -> ~ In d ["\"; "$"; "@"; "&"]%char) as S2 by (intros t d ->; exact (S (c :: t) d eq_refl)).
        apply evaluates_lone_inv in K1 as [z' K1]; [exact (IH S2 _ K1)|exact I|].
        intros t E. destruct s as [|x s]; [exact (S [] c eq_refl (or_intror I))|]. injection E as -> _. exact (N s eq_refl).
      - cbn [app] in K1. assert (forall t d, "("%char :: s = t ++ [d] -> ~ In d ["\"; "$"; "@"; "&"]%char) as S2.
        { intros t d E. apply (S ("\"%char :: c :: t) d). cbn. rewrite E. reflexivity. }
        apply evaluates_escaped_inv in K1 as [z' K1]; [exact (IH S2 _ K1)|exact I].
      - cbn [app] in K1. assert (forall t d, s = t ++ [d] -> ~ In d ["\"; "$"; "@"; "&"]%char) as S2 by (intros t d ->; exact (S ("\"%char :: t) d eq_refl)).
        apply evaluates_backslash_inv in K1 as [z' K1]; [exact (IH S2 _ K1)|].
        intros c t I E. destruct s as [|x [|x2 s]].
        + exact (S [] "\"%char eq_refl (or_introl eq_refl)).
        + injection E as -> E. apply (S2 [] c eq_refl). destruct I as [<-|[<-|[]]]; cbn; auto.
        + injection E as -> -> E. exact (N c s I eq_refl). }
    assert (ev (Datatypes.S (length b)) b = Ok y) as G by (apply C; [exact Hy|exact Lb]). congruence.
Qed.
Lemma eval_unclosed a o c s : evaluates a o -> (forall t d, a = t ++ [d] -> ~ In d ["\"; "$"; "@"; "&"]%char) ->
  In c ["$"; "@"; "&"]%char -> ~ In ")"%char s -> ev (S (length (a ++ c :: "("%char :: s))) (a ++ c :: "("%char :: s) = Bad.
Proof.
  intros Ha S I N. apply (eval_before a o (c :: "("%char :: s) Ha S); [lia|]. apply eval_step_open; assumption.
Qed.
End ev.

(** Node references: text without one is left alone. *)
Lemma expand_nodes_none node s : (forall a d b, s <> a ++ "%"%char :: d :: b \/ isdigit d = false) ->
  forall fuel, length s < fuel -> expand_nodes node fuel s = Ok s.
Proof.
  induction s as [|c s IH]; intros H fuel L; (destruct fuel as [|fuel]; [lia|]); [reflexivity|]. cbn [expand_nodes].
  assert (expand_nodes node fuel s = Ok s) as R.
  { apply IH; [|cbn in L; lia]. intros a d b. destruct (H (c :: a) d b) as [N|N]; [left; intros ->; exact (N eq_refl)|right; exact N]. }
  rewrite R. cbn [obind]. destruct (c =?c percent) eqn:P; [|reflexivity]. apply Ascii.eqb_eq in P as ->.
  destruct s as [|d s]; [reflexivity|]. destruct (H [] d s) as [N|N]; [exfalso; exact (N eq_refl)|].
  cbn [span]. rewrite N. reflexivity.
Qed.

(** The extension of a foreach input. *)
Lemma foreach_ext_file i o p t stem x : well_formed i -> name_parts (it_name i) stem x ->
  foreach_ext (file_entry (it_dir i) (it_name i) o p t) = x.
Proof.
  intros [D [N _]] P. apply name_parts_dot in P. cbv zeta in P. unfold foreach_ext, file_entry. cbn [n_base n_path n_extless].
  rewrite base_offset_file by assumption. destruct (last_dot_spec (it_name i) (length (it_name i))) as [K [_ K3]].
  set (k := last_dot (it_name i) (length (it_name i))) in *. rewrite app_length. destruct (k =? 0) eqn:K0.
  - destruct P as [_ ->]. destruct (Z.eqb_spec (Z.of_nat (length (it_dir i) + length (it_name i) - length (it_dir i)) - (Z.of_nat (length (it_dir i) + length (it_name i)) - Z.of_nat (length (it_dir i) + length (it_name i)))) (Z.of_nat (length (it_dir i) + length (it_name i) - length (it_dir i)))) as [|X]; [reflexivity|]. exfalso. apply X. lia.
  - destruct P as [_ ->]. apply Nat.eqb_neq in K0.
    assert (k < length (it_name i)) as L.
    { destruct (lt_dec k (length (it_name i))) as [L|L]; [exact L|]. specialize (K3 K0). rewrite nth_overflow in K3 by lia. exfalso. exact (nul_not_dot K3). }
    destruct (Z.eqb_spec (Z.of_nat (length (it_dir i) + length (it_name i) - length (it_dir i)) - (Z.of_nat (length (it_dir i) + length (it_name i)) - Z.of_nat (length (it_dir i) + k))) (Z.of_nat (length (it_dir i) + length (it_name i) - length (it_dir i)))) as [X|X]; [lia|].
    f_equal.
    replace (Z.of_nat (length (it_dir i) + length (it_name i) - length (it_dir i)) - (Z.of_nat (length (it_dir i) + length (it_name i)) - Z.of_nat (length (it_dir i) + k)))%Z with (Z.of_nat k) by lia.
    replace (Z.to_nat (Z.of_nat k + 1)) with (S k) by lia.
    assert (skipn (length (it_dir i) + S k) (it_dir i ++ it_name i) = skipn (S k) (it_name i)) as ->.
    { rewrite skipn_app. rewrite skipn_all2 by lia. cbn [app]. f_equal. lia. }
    apply firstn_all2. rewrite skipn_length. lia.
Qed.

(** Node references. *)
Lemma digit_table c v : In (c, v) (combine (B "0123456789") [0; 1; 2; 3; 4; 5; 6; 7; 8; 9]%Z) <-> isdigit c = true /\ digit c = v.
Proof.
  split.
  - cbn. intros H. repeat (destruct H as [H|H]; [injection H as <- <-; vm_compute; auto|]). destruct H.
  - intros [D <-]. destruct c as [[] [] [] [] [] [] [] []]; vm_compute in D; try discriminate; vm_compute; tauto.
Qed.
Lemma decimal_number s n : decimal s n <-> Forall (fun c => isdigit c = true) s /\ number s = n.
Proof.
  split.
  - induction 1 as [|s n c v D [F N] T]; [split; [constructor|reflexivity]|]. apply digit_table in T. destruct T as [Dc <-]. split; [apply Forall_app; auto|]. subst n. unfold number. rewrite fold_left_app. reflexivity.
  - revert n. induction s as [|c s IH] using rev_ind; intros n [F <-]; [constructor|]. apply Forall_app in F. destruct F as [F Fc]. inversion Fc; subst.
    unfold number. rewrite fold_left_app. cbn [fold_left]. apply dec_digit; [apply IH; auto|]. apply digit_table. auto.
Qed.
Lemma node_ref_span c t n r : node_ref (c :: t) n r <->
  c = "%"%char /\ exists d ds, span isdigit t = (d :: ds, "t"%char :: r) /\ n = number (d :: ds) /\ (n <= LLONG_MAX)%Z.
Proof.
  unfold node_ref. change (2 ^ 63)%Z with (LLONG_MAX + 1)%Z. split.
  - intros [d [E [Nd [D L]]]]. injection E as -> ->. apply decimal_number in D. destruct D as [F <-]. split; [reflexivity|]. destruct d as [|x d]; [congruence|]. exists x, d. split; [apply span_stop; [exact F|reflexivity]|]. split; [reflexivity|lia].
  - intros [-> [d [ds [S [-> L]]]]]. apply span_spec in S. destruct S as [-> [F _]]. exists (d :: ds). split; [reflexivity|]. split; [discriminate|]. split; [apply decimal_number; auto|lia].
Qed.
Lemma node_ref_len s n r : node_ref s n r -> length r < length s.
Proof. intros [d [-> _]]. cbn. rewrite app_length. cbn. lia. Qed.
Lemma node_ref_fun s n r n' r' : node_ref s n r -> node_ref s n' r' -> n = n' /\ r = r'.
Proof.
  intros H H'. destruct s as [|c t]; [destruct H as [d [E _]]; discriminate|]. apply node_ref_span in H, H'. destruct H as [_ [d [ds [S [-> _]]]]], H' as [_ [d' [ds' [S' [-> _]]]]]. rewrite S in S'. injection S' as -> -> ->. auto.
Qed.
Lemma expand_step node fuel s : (exists n r, node_ref s n r /\ expand_nodes node (S fuel) s = match node n with Some p => obind (expand_nodes node fuel r) (fun o => Ok (p ++ o)) | None => Bad end) \/
  ((forall n r, ~ node_ref s n r) /\ expand_nodes node (S fuel) s = match s with [] => Ok [] | c :: t => obind (expand_nodes node fuel t) (fun o => Ok (c :: o)) end).
Proof.
  destruct s as [|c t]; [right; split; [intros n r [d [E _]]; discriminate|reflexivity]|]. cbn [expand_nodes].
  destruct (c =?c percent) eqn:P.
  - apply Ascii.eqb_eq in P. destruct (span isdigit t) as [[|d ds] [|x r]] eqn:S; try (right; split; [intros n r' H; apply node_ref_span in H; destruct H as [_ [d' [ds' [S' _]]]]; congruence|reflexivity]).
    destruct ((x =?c "t"%char) && (number (d :: ds) <=? LLONG_MAX)%Z) eqn:Q.
    + left. apply andb_prop in Q. destruct Q as [Q1 Q2]. apply Ascii.eqb_eq in Q1. apply Z.leb_le in Q2. subst x. exists (number (d :: ds)), r. split; [|reflexivity]. apply node_ref_span. split; [exact P|]. exists d, ds. auto.
    + right. split; [|reflexivity]. intros n r' H. apply node_ref_span in H. destruct H as [_ [d' [ds' [S' [-> L]]]]]. rewrite S in S'. injection S' as -> -> -> ->. apply Z.leb_le in L. rewrite L in Q. discriminate.
  - right. split; [|reflexivity]. intros n r H. apply node_ref_span in H. destruct H as [-> _]. discriminate.
Qed.
Lemma expand_resolved node s : forall fuel, length s < fuel ->
  (forall o, expand_nodes node fuel s = Ok o <-> resolved node s o) /\ (expand_nodes node fuel s = Bad \/ exists o, expand_nodes node fuel s = Ok o).
Proof.
  induction s as [s IH] using (induction_ltof1 _ (@length ascii)). unfold ltof in IH. intros [|fuel] L; [lia|].
  destruct (expand_step node fuel s) as [[n [r [R E]]]|[N E]]; rewrite E.
  - pose proof (node_ref_len _ _ _ R) as Lr. destruct (IH r Lr fuel ltac:(lia)) as [I1 I2].
    assert (Inv : forall o, resolved node s o -> exists p o', node n = Some p /\ resolved node r o' /\ o = p ++ o').
    { intros o H. inversion H; subst.
      - destruct R as [d [X _]]. discriminate.
      - match goal with G : node_ref s _ _ |- _ => destruct (node_ref_fun _ _ _ _ _ R G) as [-> ->] end. eauto.
      - match goal with G : forall n r, ~ _ |- _ => destruct (G _ _ R) end. }
    destruct (node n) as [p|] eqn:Nn.
    + split.
      * intros o. split; intros H.
        { destruct (expand_nodes node fuel r) as [o'| | |] eqn:X; try discriminate. injection H as <-. eapply res_node; [exact R|exact Nn|apply I1; reflexivity]. }
        { destruct (Inv o H) as [p' [o' [Y [G ->]]]]. injection Y as <-. apply I1 in G. rewrite G. reflexivity. }
      * destruct I2 as [->|[o ->]]; cbn; eauto.
    + split; [|auto]. intros o. split; [discriminate|]. intros H. destruct (Inv o H) as [p [o' [Y _]]]. discriminate.
  - destruct s as [|c t].
    + split; [|eauto]. intros o. split; intros H; [injection H as <-; constructor|]. inversion H; subst; [reflexivity|]. match goal with G : node_ref [] _ _ |- _ => destruct G as [d [X _]]; discriminate end.
    + cbn in L. destruct (IH t ltac:(cbn; lia) fuel ltac:(lia)) as [I1 I2]. split.
      * intros o. split; intros H.
        { destruct (expand_nodes node fuel t) as [o'| | |] eqn:X; try discriminate. injection H as <-. apply res_char; [exact N|apply I1; reflexivity]. }
        { inversion H; subst; [match goal with G : node_ref _ _ _ |- _ => destruct (N _ _ G) end|]. match goal with G : resolved node t _ |- _ => apply I1 in G; rewrite G end. reflexivity. }
      * destruct I2 as [->|[o ->]]; cbn; eauto.
Qed.
