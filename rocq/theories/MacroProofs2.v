(** The text of a rule, and a macro against the rule written out. *)
From Verif Require Import Base ConfigModel ConfigSpec ConfigProofs ParseModel ParseSpec ParseProofs MacroModel MacroSpec MacroProofs.

Lemma prefix_bar p : forall s t r, ~ In "|"%char p -> s ++ "|"%char :: t = p ++ r -> exists u, s = p ++ u.
Proof.
  induction p as [|c p IH]; intros s t r N E; [exists s; reflexivity|].
  destruct s as [|d s]; cbn [app] in E.
  - injection E as E _. exfalso. apply N. left. symmetry. exact E.
  - injection E as -> E. destruct (IH s t r) as [u ->]; [intros X; apply N; right; exact X|exact E|]. exists u. reflexivity.
Qed.
Definition no_names (i : bytes) : bool := match i with c :: _ => c =?c "|"%char | [] => false end.
Lemma head_not_bar s t : s <> [] -> ~ In "|"%char s -> no_names (s ++ t) = false.
Proof. intros N B. destruct s as [|c s]; [congruence|]. cbn [app no_names]. destruct (c =?c "|"%char) eqn:C; [|reflexivity]. apply Ascii.eqb_eq in C. subst c. exfalso. apply B. left. reflexivity. Qed.

Lemma plain_inputs oi fe n names oo : inputs_text oi fe n names oo -> fe = false -> forall i, oi = Some i ->
  (forall r, i <> B "foreach" ++ r) /\ no_names i = n /\
  forall acc, short_names acc (names ++ oo) -> parse_input_pattern acc i = Ok (numbered names, numbered oo).
Proof.
  intros H. destruct H as [|s names N L NB F|s names sp t oo N L NB F W M|sp t oo W M|sp s n names oo W SP S H|]; intros FE i E; try discriminate.
  - assert (i = s) as -> by congruence. clear E. split; [exact F|]. split.
    + rewrite <- (app_nil_r s). apply head_not_bar; assumption.
    + intros acc A. unfold parse_input_pattern. rewrite cut_nin by assumption. rewrite app_nil_r in A. rewrite (get_path_list_listed acc _ _ L A). reflexivity.
  - assert (i = s ++ "|"%char :: sp ++ t) as -> by congruence. clear E. split; [|split].
    + intros r R. apply prefix_bar in R; [destruct R as [u R]; exact (F u R)|]. intros X. repeat (destruct X as [X|X]; [discriminate X|]). exact X.
    + apply head_not_bar; assumption.
    + intros acc A. exact (input_pattern_both acc names s oo sp t L NB W M A).
  - assert (i = "|"%char :: sp ++ t) as -> by congruence. split; [exact (bar_not_foreach _)|]. split; [reflexivity|].
    intros acc A. exact (input_pattern_both acc [] [] oo sp t la_nil (fun x => x) W M A).
Qed.
Lemma inputs_take oi fe n names oo : inputs_text oi fe n names oo -> forall i, oi = Some i ->
  exists r, take_foreach i = (fe, r) /\ no_names r = n /\
  forall acc, short_names acc (names ++ oo) -> parse_input_pattern acc r = Ok (numbered names, numbered oo).
Proof.
  intros H. pose proof H as H0. destruct H as [|s names N L NB F|s names sp t oo N L NB F W M|sp t oo W M|sp s n names oo W SP S H|]; intros i E; try discriminate.
  1-3: destruct (plain_inputs _ _ _ _ _ H0 eq_refl i E) as [F' P]; exists i; rewrite (take_foreach_no i F'); split; [reflexivity|exact P].
  - assert (i = B "foreach" ++ sp ++ s) as -> by congruence. exists s. rewrite (take_foreach_yes sp s W S). split; [reflexivity|].
    destruct (plain_inputs _ _ _ _ _ H eq_refl s eq_refl) as [_ P]. exact P.
  - assert (i = B "foreach") as -> by congruence. exists []. split; [reflexivity|]. split; [reflexivity|]. intros acc _. reflexivity.
Qed.

Lemma command_split c cmd more : command_text c cmd more ->
  (if starts_bang c then match cut " "%char c with Some (x, e) => (x, Some e) | None => (c, None) end else (c, None)) = (cmd, more).
Proof.
  intros H. inversion H as [c' N|c' M N|c' e M N]; subst.
  - destruct (starts_bang cmd) eqn:S; [apply starts_bang_spec in S; contradiction|reflexivity].
  - apply starts_bang_spec in M. rewrite M. rewrite cut_nin by assumption. reflexivity.
  - destruct M as [m ->]. cbn [app starts_bang]. replace ("!"%char =?c "!"%char) with true by reflexivity.
    change ("!"%char :: m ++ " "%char :: e) with (("!"%char :: m) ++ " "%char :: e). rewrite cut_app by assumption. reflexivity.
Qed.

Section text.
Variable St : Type.
Variable do_rule : St -> request -> outcome St.
Variable expand : St -> plist -> option (list nle) -> bool -> outcome (St * list nle).
Variable add_bin : St -> bytes -> outcome St.
Variable accepts : St -> bytes -> bool.
Variable plain : bytes -> bool.
Variable d : macros.

Lemma parse_rule_reads s p s1 w s' : reads_as St expand add_bin accepts plain s p s1 w ->
  (parse_rule St do_rule expand add_bin accepts plain d s p = Ok s' <-> rule_does St do_rule expand plain (fun n => find_macro n d) w s1 s').
Proof.
  intros H. destruct H as [s p i c o b s0 fe nothing names oo s1 ins outs extra cmd more RL WB IT SN EX OT SO CT].
  unfold parse_rule. apply split_line_spec in RL. rewrite RL.
  assert ((match b with None => Ok s | Some b => add_bin s b end) = Ok s0) as -> by (unfold with_bin in WB; destruct b; congruence).
  cbn [obind]. pose proof (output_pattern plain o outs extra OT SO) as OP. pose proof (command_split c cmd more CT) as CS.
  set (w := {| w_each := fe; w_bin := b; w_command := cmd; w_more := more; w_inputs := ins; w_nothing := nothing; w_oo := numbered oo; w_outputs := numbered outs; w_extra := numbered extra |}).
  destruct i as [i|].
  - destruct (inputs_take _ _ _ _ _ IT i eq_refl) as [r [T [NN P]]]. rewrite T. cbn iota. rewrite (P (accepts s0) SN). cbn [obind].
    destruct EX as [[X _]|[_ EX]]; [discriminate|]. rewrite EX. cbn [obind]. rewrite OP. cbn [obind]. rewrite CS. cbn [fst snd].
    replace (match r with [] => false | c0 :: _ => c0 =?c "|"%char end) with nothing by (rewrite <- NN; destruct r; reflexivity).
    exact (execute_ok St do_rule expand plain d w s1 s').
  - destruct EX as [[_ [-> ->]]|[X _]]; [|congruence]. inversion IT; subst. cbn [obind]. rewrite OP. cbn [obind]. rewrite CS. cbn [fst snd].
    exact (execute_ok St do_rule expand plain d w s0 s').
Qed.

(** A rule that uses a macro without order-only inputs and extra outputs, and
    the rule with the macro written out. *)
Definition write_out (w : written) (m : macro) : written :=
  {| w_each := w_each w || m_foreach m; w_bin := w_bin w; w_command := m_command m; w_more := w_more w; w_inputs := w_inputs w;
     w_nothing := w_nothing w; w_oo := w_oo w; w_outputs := match w_outputs w with [] => m_outputs m | o => o end; w_extra := w_extra w |}.
Lemma asked_written_out w m ins ext oo : m_extra m = [] ->
  asked w (Some m) ins ext oo [] = asked (write_out w m) None ins ext oo [].
Proof. intros E. unfold asked, write_out. cbn. rewrite E. destruct (w_outputs w); [destruct (m_outputs m)|]; reflexivity. Qed.

Lemma written_out known w m s s' : names_macro (w_command w) -> known (w_command w) = Some m ->
  (forall e, known (w_command w ++ B "." ++ e) = None) ->
  m_input m = None -> m_extra m = [] -> ~ names_macro (m_command m) ->
  (rule_does St do_rule expand plain known w s s' <-> rule_does St do_rule expand plain known (write_out w m) s s').
Proof.
  intros NM K NE I E C.
  assert (forall ext x, chosen known w ext (Some x) -> x = m) as CH.
  { intros ext x [[X _]|[_ [y [Y F]]]]; [contradiction|]. injection Y as <-. inversion F as [e m' K'|e m' _ K']; subst; [rewrite NE in K'; discriminate|congruence]. }
  assert (forall ext, ~ chosen known w ext None) as CN by (intros ext [[X _]|[_ [y [Y _]]]]; [contradiction|discriminate]).
  assert (forall ext, chosen known w ext (Some m)) as CM by (intros ext; right; split; [exact NM|exists m; split; [reflexivity|apply mf_any; [intros x _; apply NE|exact K]]]).
  assert (forall ext x, chosen known (write_out w m) ext x -> x = None) as DN by (intros ext x [[_ X]|[X _]]; [exact X|contradiction]).
  assert (forall ext, chosen known (write_out w m) ext None) as DM by (intros ext; left; split; [exact C|reflexivity]).
  assert (each known w <-> each known (write_out w m)) as EA.
  { unfold each. cbn [w_each w_command write_out]. rewrite orb_true_iff. split.
    - intros [X|[_ [m' [K' X]]]]; left; [left; exact X|right; congruence].
    - intros [[X|X]|[X _]]; [left; exact X|right; split; [exact NM|exists m; auto]|contradiction]. }
  assert (forall l t, for_each St do_rule expand plain known w t l s' <-> for_each St do_rule expand plain known (write_out w m) t l s') as FE.
  { induction l as [|e l IH]; intros t.
    - split; intros F; inversion F; constructor.
    - split; intros F; inversion F as [|a b c x s1 moo s2 oo s3 s4 HC HM HX HD HF]; subst.
      + destruct x as [x|]; [|exfalso; exact (CN _ HC)]. apply CH in HC. subst x. apply macro_oo_inv in HM.
        destruct HM as [[_ [-> ->]]|[u [v [X _]]]]; [|congruence].
        eapply fe_cons; [apply DM|apply mo_none|exact HX| |apply IH; exact HF]. rewrite <- asked_written_out by exact E. exact HD.
      + pose proof (DN _ _ HC) as ->. inversion HM; subst.
        eapply fe_cons; [apply CM|apply mo_no_text; exact I|exact HX| |apply IH; exact HF]. rewrite asked_written_out by exact E. exact HD. }
  assert (known (w_command w ++ B ".EMPTY") = None) as NEM by exact (NE (B "EMPTY")).
  assert (forall l, once St do_rule expand plain known w s l s' <-> once St do_rule expand plain known (write_out w m) s l s') as ON.
  { intros l. split; intros F.
    - inversion F as [a ins x s1 oo s2 moo s3 R X HC HM D e1 e2 e3|a x s1 oo s2 moo s3 W N K' X HM D e1 e2 e3|a s1 oo W N X e1 e2 e3]; subst.
      + destruct x as [x|]; [|exfalso; exact (CN _ HC)]. apply CH in HC. subst x. apply macro_oo_inv in HM.
        destruct HM as [[_ [-> ->]]|[u [v [Y _]]]]; [|congruence].
        eapply on_run; [exact R|exact X|apply DM|apply mo_none|]. rewrite <- asked_written_out by exact E. exact D.
      + congruence.
      + apply (on_none St do_rule expand plain known (write_out w m) s s' oo W); [intros Y; contradiction|exact X].
    - inversion F as [a ins x s1 oo s2 moo s3 R X HC HM D e1 e2 e3|a x s1 oo s2 moo s3 W N K' X HM D e1 e2 e3|a s1 oo W N X e1 e2 e3]; subst.
      + pose proof (DN _ _ HC) as ->. inversion HM; subst.
        eapply on_run; [exact R|exact X|apply CM|apply mo_no_text; exact I|]. rewrite asked_written_out by exact E. exact D.
      + contradiction.
      + apply (on_none St do_rule expand plain known w s s' oo W); [intros _; exact NEM|exact X]. }
  unfold rule_does. change (w_inputs (write_out w m)) with (w_inputs w). split; intros [ins [D [[A B]|[A B]]]]; exists ins; (split; [exact D|]).
  - left. split; [apply EA; exact A|apply FE; exact B].
  - right. split; [intros X; apply A, EA, X|apply ON; exact B].
  - left. split; [apply EA; exact A|apply FE; exact B].
  - right. split; [intros X; apply A, EA, X|apply ON; exact B].
Qed.
End text.
