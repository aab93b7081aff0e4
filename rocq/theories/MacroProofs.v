(** Proofs about !-macros. *)
From Verif Require Import Base ConfigModel ConfigSpec ConfigProofs ParseModel ParseSpec ParseProofs MacroModel MacroSpec.

(** ** The table *)
Lemma find_drop n k d : find_macro k (drop_macro n d) = if bytes_eqb n k then None else find_macro k d.
Proof.
  induction d as [|[a m] d IH]; cbn [drop_macro filter find_macro fst].
  - destruct (bytes_eqb n k); reflexivity.
  - fold (drop_macro n d). destruct (bytes_eqb a n) eqn:E; cbn [negb].
    + rewrite IH. apply bytes_eqb_eq in E. subst a. destruct (bytes_eqb n k) eqn:F; reflexivity.
    + cbn [find_macro]. rewrite IH. destruct (bytes_eqb a k) eqn:F; [|reflexivity].
      apply bytes_eqb_eq in F. subst a. destruct (bytes_eqb n k) eqn:G; [|reflexivity].
      apply bytes_eqb_eq in G. subst n. rewrite bytes_eqb_refl in E. discriminate.
Qed.
Lemma find_put n m k d : find_macro k (put_macro n m d) = if bytes_eqb n k then Some m else find_macro k d.
Proof. unfold put_macro. cbn [find_macro]. rewrite find_drop. destruct (bytes_eqb n k); reflexivity. Qed.

(** ** Texts *)
Lemma split_eq_line p n v : definition_line p n v -> split_eq p = Some (n, v).
Proof.
  intros H. inversion H as [n' sp1 sp2 v' N E W1 W2 V]. subst. unfold split_eq.
  rewrite app_assoc, cut_app.
  - rewrite rstrip_app by assumption. rewrite rstrip_id by assumption. rewrite lstrip_white by assumption. rewrite lstrip_fix by assumption. reflexivity.
  - rewrite in_app_iff. intros [X|X]; [contradiction|]. rewrite Forall_forall in W1. apply W1 in X. revert X. apply not_white_lit. reflexivity.
Qed.
Lemma prefixb_app p s : prefixb p (p ++ s) = true.
Proof. apply prefixb_spec. exists s. reflexivity. Qed.
Lemma take_foreach_yes sp s : Forall white sp -> ~ starts_white s -> take_foreach (B "foreach" ++ sp ++ s) = (true, s).
Proof. intros W S. unfold take_foreach. rewrite prefixb_app. change (skipn 7 (B "foreach" ++ sp ++ s)) with (sp ++ s). rewrite lstrip_ws by assumption. reflexivity. Qed.
Lemma take_foreach_no s : (forall r, s <> B "foreach" ++ r) -> take_foreach s = (false, s).
Proof.
  intros H. unfold take_foreach. destruct (prefixb (B "foreach") s) eqn:E; [|reflexivity].
  apply prefixb_spec in E. destruct E as [r E]. exfalso. exact (H r E).
Qed.
Lemma bar_not_foreach s r : "|"%char :: s <> B "foreach" ++ r.
Proof. discriminate. Qed.

Lemma spelled_head n c w : spelled false n (c :: w) -> ~ white c.
Proof.
  intros S C. remember false as q eqn:Q. remember (c :: w) as cw eqn:E. destruct S as [|q x n v S|q x n v N1 N2 O S|q n v S]; [discriminate| | |].
  - injection E as <- _. exact (not_white_lit "\"%char eq_refl C).
  - injection E as <- _. destruct O as [O|O]; [congruence|exact (O C)].
  - injection E as <- _. exact (not_white_lit """"%char eq_refl C).
Qed.
Lemma listed_nil_white names s : listed_as names s -> starts_white s -> False.
Proof.
  intros L. induction L as [|n w sp S W|n w sp ns s S W]; intros [c [t [E C]]].
  - discriminate.
  - destruct w as [|x w]; [congruence|]. injection E as -> _. exact (spelled_head _ _ _ S C).
  - destruct w as [|x w]; [congruence|]. injection E as -> _. exact (spelled_head _ _ _ S C).
Qed.
Lemma listed_starts names s : listed_as names s -> ~ starts_white s.
Proof. intros L W. exact (listed_nil_white names s L W). Qed.

Lemma output_pattern plain o outs extra : outputs_text o outs extra -> short_names plain (outs ++ extra) ->
  parse_output_pattern plain o = Ok (numbered outs, numbered extra).
Proof.
  intros H F. unfold parse_output_pattern, short_names in *. inversion H as [s ns L N|s ns sp t ex L N W X]; subst.
  - rewrite cut_nin by assumption. rewrite app_nil_r in F. rewrite (get_path_list_listed plain _ _ L F). reflexivity.
  - rewrite cut_app by assumption. apply Forall_app in F. destruct F as [F1 F2].
    rewrite lstrip_ws by (try assumption; exact (listed_starts _ _ X)).
    rewrite (get_path_list_listed plain _ _ X F2). cbn [obind]. rewrite (get_path_list_listed plain _ _ L F1). reflexivity.
Qed.

(** ** Definitions *)
Lemma rule_line_head v i c o b : rule_line v i c o b -> v <> [].
Proof. intros H. inversion H. destruct I; discriminate. Qed.

Lemma define_macro plain d p n v m : definition_line p n v -> (forall r, v <> "!"%char :: r) -> macro_text plain v m ->
  parse_bang_definition plain d p = Ok (put_macro n m d).
Proof.
  intros L V H. unfold parse_bang_definition. rewrite (split_eq_line _ _ _ L).
  inversion H as [v' i c o fe oo outs extra RL MB OT SN]. subst v' m.
  apply split_line_spec in RL as SP. destruct v as [|x v]; [exfalso; exact (rule_line_head _ _ _ _ _ RL eq_refl)|].
  destruct (x =?c "!"%char) eqn:X; [apply Ascii.eqb_eq in X; subst x; exfalso; exact (V v eq_refl)|].
  rewrite SP.
  pose proof (output_pattern plain o outs extra OT SN) as OP.
  inversion MB as [|e1 e2 e3|sp t W T e1|sp0 sp t W0 W T e1]; subst.
  - rewrite OP. reflexivity.
  - replace (take_foreach (B "foreach")) with (true, @nil ascii) by reflexivity. rewrite OP. reflexivity.
  - rewrite (take_foreach_no _ (bar_not_foreach _)). cbn [fst snd]. rewrite OP.
    replace ("|"%char =?c "|"%char) with true by reflexivity. rewrite lstrip_ws by assumption. reflexivity.
  - rewrite (take_foreach_yes sp0 ("|"%char :: sp ++ t)) by (try assumption; intros [c0 [t0 [E C]]]; injection E as <- _; exact (not_white_lit "|"%char eq_refl C)).
    rewrite OP. replace ("|"%char =?c "|"%char) with true by reflexivity. rewrite lstrip_ws by assumption. reflexivity.
Qed.

Lemma alias_macro plain d p n v m : definition_line p n ("!"%char :: v) -> n <> "!"%char :: v -> find_macro ("!"%char :: v) d = Some m ->
  parse_bang_definition plain d p = Ok (put_macro n m (drop_macro n d)).
Proof.
  intros L N F. unfold parse_bang_definition. rewrite (split_eq_line _ _ _ L).
  replace ("!"%char =?c "!"%char) with true by reflexivity. rewrite find_drop.
  destruct (bytes_eqb n ("!"%char :: v)) eqn:E; [apply bytes_eqb_eq in E; contradiction|]. rewrite F. reflexivity.
Qed.
Lemma alias_find plain d d' p n v m : definition_line p n ("!"%char :: v) -> n <> "!"%char :: v -> find_macro ("!"%char :: v) d = Some m ->
  parse_bang_definition plain d p = Ok d' -> forall k, find_macro k d' = if bytes_eqb n k then Some m else find_macro k d.
Proof.
  intros L N F E k. rewrite (alias_macro plain d p n v m L N F) in E. injection E as <-.
  rewrite find_put, find_drop. destruct (bytes_eqb n k); reflexivity.
Qed.
Lemma alias_self plain d p v : definition_line p ("!"%char :: v) ("!"%char :: v) -> parse_bang_definition plain d p = Bad.
Proof.
  intros L. unfold parse_bang_definition. rewrite (split_eq_line _ _ _ L).
  replace ("!"%char =?c "!"%char) with true by reflexivity. rewrite find_drop, bytes_eqb_refl. reflexivity.
Qed.

(** ** Distinct inputs *)
Lemma unique_distinct l : forall seen ids, (forall i, In i ids <-> exists f, In f seen /\ n_tent f = Some i) ->
  forall r, distinct_inputs seen l r <-> unique_entries ids l = r.
Proof.
  induction l as [|e l IH]; intros seen ids H r; cbn [unique_entries].
  - split; [intros D; inversion D; reflexivity|intros <-; constructor].
  - destruct (n_tent e) as [i|] eqn:T.
    + destruct (existsb (Nat.eqb i) ids) eqn:X.
      * apply existsb_exists in X. destruct X as [j [J E]]. apply Nat.eqb_eq in E. subst j. apply H in J. destruct J as [f [F1 F2]].
        rewrite <- (IH seen ids H). split.
        -- intros D. inversion D as [|a f' e' l' r' FI O D'|a e' l' r' NF D']; subst; [exact D'|]. exfalso. apply (NF f F1). exists i. split; assumption.
        -- intros D. apply (di_again seen f); [exact F1|exists i; split; assumption|exact D].
      * assert (forall f, In f seen -> ~ one_file e f) as NF.
        { intros f F [j [J1 J2]]. rewrite T in J1. injection J1 as <-. assert (existsb (Nat.eqb i) ids = true) as Y; [|congruence].
          apply existsb_exists. exists i. split; [apply H; exists f; split; assumption|apply Nat.eqb_refl]. }
        assert (forall j, In j (i :: ids) <-> exists f, In f (e :: seen) /\ n_tent f = Some j) as H'.
        { intros j. cbn [In]. rewrite H. split.
          - intros [<-|[f [F1 F2]]]; [exists e; auto|exists f; auto].
          - intros [f [[<-|F1] F2]]; [left; congruence|right; exists f; auto]. }
        split.
        -- intros D. inversion D as [|a f' e' l' r' FI O D'|a e' l' r' NF' D']; subst; [exfalso; exact (NF f' FI O)|].
           f_equal. apply (IH (e :: seen) (i :: ids) H'). exact D'.
        -- intros <-. apply di_new; [exact NF|]. apply (IH (e :: seen) (i :: ids) H'). reflexivity.
    + assert (forall f, ~ one_file e f) as NF by (intros f [j [J _]]; congruence).
      assert (forall j, In j ids <-> exists f, In f (e :: seen) /\ n_tent f = Some j) as H'.
      { intros j. rewrite H. split.
        - intros [f [F1 F2]]. exists f. split; [right|]; assumption.
        - intros [f [[<-|F1] F2]]; [congruence|exists f; auto]. }
      split.
      * intros D. inversion D as [|a f' e' l' r' FI O D'|a e' l' r' NF' D']; subst; [exfalso; exact (NF f' O)|].
        f_equal. apply (IH (e :: seen) ids H'). exact D'.
      * intros <-. apply di_new; [intros f _; apply NF|]. apply (IH (e :: seen) ids H'). reflexivity.
Qed.
Lemma distinct_unique l r : distinct_inputs [] l r <-> unique_entries [] l = r.
Proof. apply unique_distinct. intros i. split; [intros []|intros [f [[] _]]]. Qed.
Lemma add_all_entries l : nl_entries (add_all l) = l.
Proof.
  unfold add_all. assert (forall acc, nl_entries (fold_left add_name_list_entry l acc) = nl_entries acc ++ l) as H.
  { induction l as [|e l IH]; intros acc; cbn [fold_left]; [rewrite app_nil_r; reflexivity|].
    rewrite IH. cbn [add_name_list_entry nl_entries]. rewrite <- app_assoc. reflexivity. }
  rewrite H. reflexivity.
Qed.

(** ** Execution *)
Lemma starts_bang_spec c : starts_bang c = true <-> names_macro c.
Proof.
  unfold starts_bang, names_macro. destruct c as [|x c]; [split; [discriminate|intros [n E]; discriminate]|].
  split; [intros E; apply Ascii.eqb_eq in E; subst; exists c; reflexivity|intros [n E]; injection E as -> _; reflexivity].
Qed.

Section use.
Variable St : Type.
Variable do_rule : St -> request -> outcome St.
Variable expand : St -> plist -> option (list nle) -> bool -> outcome (St * list nle).
Variable plain : bytes -> bool.
Variable d : macros.
Variable w : written.
Notation known := (fun n => find_macro n d).
(** The rule when execute_rule gets it, and in the middle of the loop. *)
Definition rule_of (ins : name_list) : rule :=
  {| r_foreach := w_each w; r_bin := w_bin w; r_command := w_command w; r_extra_command := w_more w; r_inputs := ins;
     r_oo_paths := w_oo w; r_oo := []; r_outputs := w_outputs w; r_extra := w_extra w; r_bang_extra := []; r_bang_oo := [];
     r_empty_input := w_nothing w |}.

Definition with_macro (r : rule) (m : option macro) (moo : list nle) : rule :=
  match m with
  | None => r
  | Some m =>
      {| r_foreach := r_foreach r; r_bin := r_bin r; r_command := m_command m; r_extra_command := r_extra_command r; r_inputs := r_inputs r;
         r_oo_paths := r_oo_paths r; r_oo := r_oo r; r_outputs := match r_outputs r with [] => m_outputs m | o => o end; r_extra := r_extra r;
         r_bang_extra := r_bang_extra r ++ m_extra m; r_bang_oo := r_bang_oo r ++ moo; r_empty_input := r_empty_input r |}
  end.
Lemma macro_oo_inv m arg s s' oo : macro_oo St expand plain (Some m) arg s s' oo ->
  m_input m = None /\ s' = s /\ oo = [] \/ exists t l, m_input m = Some t /\ get_path_list plain t = Ok l /\ expand s l arg false = Ok (s', oo).
Proof.
  intros M. remember (Some m) as om eqn:E. destruct M as [arg s|m0 arg s I|m0 arg s t l s' oo I G X]; [discriminate| |].
  - injection E as ->. left. auto.
  - injection E as ->. right. exists t, l. auto.
Qed.
Lemma use_macro_ok s r m nl s' r' : use_macro St expand plain s r m nl = Ok (s', r') <->
  exists moo, macro_oo St expand plain (Some m) nl s s' moo /\ r' = with_macro r (Some m) moo.
Proof.
  unfold use_macro. split.
  - intros H. destruct (m_input m) as [t|] eqn:I.
    + destruct (get_path_list plain t) as [l| | |] eqn:G; try discriminate. cbn [obind] in H.
      destruct (expand s l nl false) as [[s1 oo]| | |] eqn:X; try discriminate. cbn [obind fst snd] in H. injection H as <- <-.
      exists oo. split; [exact (mo_text St expand plain m nl s t l s1 oo I G X)|].
      unfold with_macro, set_bang_extra, set_outputs, set_command, set_bang_oo. cbn. destruct (r_outputs r); reflexivity.
    + cbn [obind] in H. injection H as <- <-. exists []. split; [exact (mo_no_text St expand plain m nl s I)|].
      unfold with_macro, set_bang_extra, set_outputs, set_command, set_bang_oo. cbn. rewrite app_nil_r. destruct (r_outputs r); reflexivity.
  - intros [moo [M ->]]. apply macro_oo_inv in M. destruct M as [[-> [-> ->]]|[t [l [-> [G X]]]]].
    + cbn [obind]. unfold with_macro, set_bang_extra, set_outputs, set_command, set_bang_oo. cbn. rewrite app_nil_r. destruct (r_outputs r); reflexivity.
    + rewrite G. cbn [obind]. rewrite X. cbn [obind fst snd].
      unfold with_macro, set_bang_extra, set_outputs, set_command, set_bang_oo. cbn. destruct (r_outputs r); reflexivity.
Qed.

Lemma parse_bang_rule_ok s r nl ext s' r' : parse_bang_rule St expand plain d s r nl ext = Ok (s', r') <->
  exists m moo, macro_for known (r_command r) ext m /\ macro_oo St expand plain (Some m) nl s s' moo /\ r' = with_macro r (Some m) moo.
Proof.
  unfold parse_bang_rule. destruct (match ext with None => None | Some e => find_macro (r_command r ++ B "." ++ e) d end) as [m|] eqn:E.
  - destruct ext as [e|]; [|discriminate]. rewrite use_macro_ok. split.
    + intros [moo [M R]]. exists m, moo. split; [apply mf_ext; exact E|split; assumption].
    + intros [m' [moo [F [M R]]]]. exists moo. inversion F as [e' m1 K|e' m1 NK K]; subst.
      * rewrite E in K. injection K as <-. split; [exact M|reflexivity].
      * specialize (NK e eq_refl). cbn beta in NK. congruence.
  - assert (forall x, ext = Some x -> find_macro (r_command r ++ B "." ++ x) d = None) as NE by (intros x ->; exact E).
    destruct (find_macro (r_command r) d) as [m|] eqn:G.
    + rewrite use_macro_ok. split.
      * intros [moo [M R]]. exists m, moo. split; [apply mf_any; assumption|split; assumption].
      * intros [m' [moo [F [M R]]]]. exists moo. inversion F as [e' m1 K|e' m1 NK K]; subst.
        -- cbn beta in K. rewrite (NE e' eq_refl) in K. discriminate.
        -- cbn beta in K. rewrite G in K. injection K as <-. split; [exact M|reflexivity].
    + split; [discriminate|]. intros [m' [moo [F _]]]. inversion F as [e' m1 K|e' m1 NK K]; subst; cbn beta in K; [rewrite (NE e' eq_refl) in K|]; congruence.
Qed.

Lemma maybe_macro_ok s r nl ext s' r' : r_command r = w_command w ->
  (if starts_bang (w_command w) then parse_bang_rule St expand plain d s r nl ext else Ok (s, r)) = Ok (s', r') <->
  exists m moo, chosen known w ext m /\ macro_oo St expand plain m nl s s' moo /\ r' = with_macro r m moo.
Proof.
  intros C. destruct (starts_bang (w_command w)) eqn:SB.
  - apply starts_bang_spec in SB. rewrite parse_bang_rule_ok, C. split.
    + intros [m [moo [F [M R]]]]. exists (Some m), moo. split; [right; split; [exact SB|exists m; auto]|split; assumption].
    + intros [m [moo [[[NM _]|[_ [x [-> F]]]] [M R]]]]; [contradiction|]. exists x, moo. split; [exact F|split; assumption].
  - assert (~ names_macro (w_command w)) as NM by (intros X; apply starts_bang_spec in X; congruence). split.
    + intros E. injection E as <- <-. exists None, []. split; [left; auto|split; [constructor|reflexivity]].
    + intros [m [moo [[[_ ->]|[X _]] [M R]]]]; [|contradiction]. subst r'. inversion M; subst. reflexivity.
Qed.

Lemma request_asked ins l m moo oo ext :
  request_of (set_oo (with_macro (rule_of ins) m moo) (r_oo (with_macro (rule_of ins) m moo) ++ oo)) l ext = asked w m l ext oo (match m with None => [] | Some _ => moo end).
Proof. destruct m as [m|]; unfold request_of, set_oo, with_macro, rule_of, asked; cbn; [reflexivity|destruct (w_outputs w); reflexivity]. Qed.
Lemma macro_oo_none nl s s' moo : macro_oo St expand plain None nl s s' moo -> moo = [] /\ s' = s.
Proof. intros M. inversion M. auto. Qed.
Lemma rule_ext a b : r_foreach a = r_foreach b -> r_bin a = r_bin b -> r_command a = r_command b -> r_extra_command a = r_extra_command b ->
  r_inputs a = r_inputs b -> r_oo_paths a = r_oo_paths b -> r_oo a = r_oo b -> r_outputs a = r_outputs b -> r_extra a = r_extra b ->
  r_bang_extra a = r_bang_extra b -> r_bang_oo a = r_bang_oo b -> r_empty_input a = r_empty_input b -> a = b.
Proof. destruct a, b. cbn. intros; subst. reflexivity. Qed.
Lemma restored ins m moo oo ext : chosen known w ext m ->
  let is_bang := starts_bang (w_command w) in
  let r := set_oo (with_macro (rule_of ins) m moo) (r_oo (with_macro (rule_of ins) m moo) ++ oo) in
  set_oo (if is_bang then
            set_bang_oo (set_bang_extra (if match w_outputs w with [] => true | _ => false end then set_outputs (set_command r (w_command w)) [] else set_command r (w_command w)) []) []
          else r) [] = rule_of ins.
Proof.
  intros C. assert (starts_bang (w_command w) = false -> m = None) as H.
  { intros SB. assert (~ names_macro (w_command w)) as NM by (intros X; apply starts_bang_spec in X; congruence).
    destruct C as [[_ E]|[X _]]; [exact E|contradiction]. }
  cbv zeta. destruct (starts_bang (w_command w)) eqn:SB.
  - destruct (w_outputs w) as [|o l] eqn:O; apply rule_ext; try (destruct m; reflexivity).
    + symmetry. exact O.
    + destruct m as [m|]; [|reflexivity]. change (match w_outputs w with [] => m_outputs m | o => o end = w_outputs w). rewrite O. reflexivity.
  - rewrite (H eq_refl). apply rule_ext; reflexivity.
Qed.

Lemma foreach_ok ins l : forall s s',
  foreach_loop St do_rule expand plain d (starts_bang (w_command w)) (match w_outputs w with [] => true | _ => false end) l s (rule_of ins) = Ok s' <->
  for_each St do_rule expand plain known w s l s'.
Proof.
  induction l as [|e l IH]; intros s s'.
  - cbn [foreach_loop]. split; [intros E; injection E as <-; constructor|intros F; inversion F; reflexivity].
  - cbn [foreach_loop]. cbv zeta. change (r_command (rule_of ins)) with (w_command w).
    split.
    + intros H. destruct (if starts_bang (w_command w) then parse_bang_rule St expand plain d s (rule_of ins) (Some [e]) (foreach_ext e) else Ok (s, rule_of ins)) as [[s1 r1]| | |] eqn:P; try discriminate.
      apply (maybe_macro_ok s (rule_of ins) (Some [e]) (foreach_ext e) s1 r1 eq_refl) in P. destruct P as [m [moo [C [M ->]]]]. cbn [obind] in H.
      replace (r_oo_paths (with_macro (rule_of ins) m moo)) with (w_oo w) in H by (destruct m; reflexivity).
      destruct (expand s1 (w_oo w) (Some [e]) false) as [[s2 oo]| | |] eqn:X; try discriminate. cbn [obind] in H.
      rewrite request_asked in H.
      destruct (do_rule s2 _) as [s3| | |] eqn:D in H; try discriminate. cbn [obind] in H.
      rewrite (restored ins m moo oo _ C) in H. apply IH in H.
      apply (fe_cons St do_rule expand plain known w s e l m s1 moo s2 oo s3 s' C M X); [|exact H].
      destruct m; [exact D|]. destruct (macro_oo_none _ _ _ _ M) as [-> _]. exact D.
    + intros F. inversion F as [|s0 e0 l0 m s1 moo s2 oo s3 s4 C M X D F']; subst.
      assert ((if starts_bang (w_command w) then parse_bang_rule St expand plain d s (rule_of ins) (Some [e]) (foreach_ext e) else Ok (s, rule_of ins)) = Ok (s1, with_macro (rule_of ins) m moo)) as ->.
      { apply (maybe_macro_ok s (rule_of ins) (Some [e]) (foreach_ext e) _ _ eq_refl). exists m, moo. auto. }
      cbn [obind]. replace (r_oo_paths (with_macro (rule_of ins) m moo)) with (w_oo w) by (destruct m; reflexivity).
      rewrite X. cbn [obind]. rewrite request_asked.
      assert ((match m with None => [] | Some _ => moo end) = moo) as -> by (destruct m; [reflexivity|symmetry; exact (proj1 (macro_oo_none _ _ _ _ M))]).
      rewrite D. cbn [obind]. rewrite (restored ins m moo oo _ C). apply IH. exact F'.
Qed.

Lemma each_dec : (if w_each w then true else if starts_bang (w_command w) then match find_macro (w_command w) d with Some m => m_foreach m | None => false end else false) = true <-> each known w.
Proof.
  unfold each. destruct (w_each w); [split; auto|]. destruct (starts_bang (w_command w)) eqn:SB.
  - apply starts_bang_spec in SB. destruct (find_macro (w_command w) d) as [m|] eqn:F.
    + split; [intros E; right; split; [exact SB|exists m; auto]|intros [X|[_ [m' [E1 E2]]]]; [discriminate|congruence]].
    + split; [discriminate|intros [X|[_ [m' [E1 E2]]]]; [discriminate|congruence]].
  - split; [discriminate|]. intros [X|[X _]]; [discriminate|]. apply starts_bang_spec in X. congruence.
Qed.

Lemma oo_after r m moo oo : with_macro (set_oo r oo) m moo = set_oo (with_macro r m moo) oo.
Proof. destruct m; reflexivity. Qed.

Lemma execute_ok s s' : execute_rule St do_rule expand plain d s (rule_of (add_all (w_inputs w))) = Ok s' <-> rule_does St do_rule expand plain known w s s'.
Proof.
  unfold execute_rule, rule_does. cbv zeta.
  set (ins := unique_entries [] (w_inputs w)).
  set (nl := make_name_list_unique (add_all (w_inputs w))).
  assert (nl_entries nl = ins) as NL by (unfold nl, make_name_list_unique; cbn [nl_entries]; rewrite add_all_entries; reflexivity).
  change (set_inputs (rule_of (add_all (w_inputs w))) (make_name_list_unique (r_inputs (rule_of (add_all (w_inputs w)))))) with (rule_of nl).
  change (r_command (rule_of nl)) with (w_command w). change (r_foreach (rule_of nl)) with (w_each w).
  change (r_inputs (rule_of nl)) with nl. change (r_outputs (rule_of nl)) with (w_outputs w). rewrite NL.
  pose proof each_dec as ED.
  destruct (if w_each w then true else if starts_bang (w_command w) then match find_macro (w_command w) d with Some m => m_foreach m | None => false end else false) eqn:E.
  - rewrite foreach_ok. split.
    + intros F. exists ins. split; [apply distinct_unique; reflexivity|]. left. split; [apply ED; reflexivity|exact F].
    + intros [ins' [D [[_ F]|[N _]]]]; [|exfalso; apply N; apply ED; reflexivity]. apply distinct_unique in D. fold ins in D. subst ins'. exact F.
  - assert (~ each known w) as NE by (intros X; apply ED in X; discriminate).
    assert (forall P, (exists ins', distinct_inputs [] (w_inputs w) ins' /\ (each known w /\ for_each St do_rule expand plain known w s ins' s' \/ ~ each known w /\ P ins')) <-> P ins) as ->.
    { intros P. split.
      - intros [ins' [D [[X _]|[_ Q]]]]; [contradiction|]. apply distinct_unique in D. fold ins in D. subst ins'. exact Q.
      - intros Q. exists ins. split; [apply distinct_unique; reflexivity|right; auto]. }
    clear ED E. change (r_oo_paths (rule_of nl)) with (w_oo w). change (r_oo (rule_of nl) ++ ?x) with x.
    destruct (expand s (w_oo w) (Some ins) false) as [[s1 oo]| | |] eqn:X; cbn [obind].
    2-4: split; [discriminate|intros O; inversion O; subst; congruence].
    change (r_empty_input (set_oo (rule_of nl) oo)) with (w_nothing w).
    destruct ((match ins with [] => false | _ => true end) || w_nothing w) eqn:G.
    + assert (ins <> [] \/ w_nothing w = true) as RUN.
      { apply orb_true_iff in G. destruct G as [G|G]; [left; destruct ins; [discriminate|discriminate]|right; exact G]. }
      split.
      * intros H. destruct (if starts_bang (w_command w) then parse_bang_rule St expand plain d s1 (set_oo (rule_of nl) oo) None None else Ok (s1, set_oo (rule_of nl) oo)) as [[s2 r2]| | |] eqn:P; try discriminate.
        apply (maybe_macro_ok s1 (set_oo (rule_of nl) oo) None None s2 r2 eq_refl) in P. destruct P as [m [moo [C [M ->]]]]. cbn [obind] in H.
        rewrite oo_after in H. replace (set_oo (with_macro (rule_of nl) m moo) oo) with (set_oo (with_macro (rule_of nl) m moo) (r_oo (with_macro (rule_of nl) m moo) ++ oo)) in H by (destruct m; reflexivity).
        rewrite request_asked in H. apply (on_run St do_rule expand plain known w s ins m s1 oo s2 moo s' RUN X C M).
        destruct m; [exact H|]. destruct (macro_oo_none _ _ _ _ M) as [-> _]. exact H.
      * intros O. inversion O as [s0 ins0 m s1' oo' s2 moo s3 R X' C M D e1 e2 e3|s0 m s1' oo' s2 moo s3 W N K X' M D e1 e2 e3|s0 s1' oo' W N X' e1 e2 e3]; subst.
        -- rewrite X in X'. injection X' as <- <-.
           assert ((if starts_bang (w_command w) then parse_bang_rule St expand plain d s1 (set_oo (rule_of nl) oo) None None else Ok (s1, set_oo (rule_of nl) oo)) = Ok (s2, with_macro (set_oo (rule_of nl) oo) m moo)) as ->.
           { apply (maybe_macro_ok s1 (set_oo (rule_of nl) oo) None None _ _ eq_refl). exists m, moo. auto. }
           cbn [obind]. rewrite oo_after. replace (set_oo (with_macro (rule_of nl) m moo) oo) with (set_oo (with_macro (rule_of nl) m moo) (r_oo (with_macro (rule_of nl) m moo) ++ oo)) by (destruct m; reflexivity).
           rewrite request_asked. assert ((match m with None => [] | Some _ => moo end) = moo) as -> by (destruct m; [reflexivity|symmetry; exact (proj1 (macro_oo_none _ _ _ _ M))]).
           exact D.
        -- rewrite <- e2 in RUN. destruct RUN as [RUN|RUN]; congruence.
        -- rewrite <- e2 in RUN. destruct RUN as [RUN|RUN]; congruence.
    + apply orb_false_iff in G. destruct G as [G1 G2]. assert (ins = []) as I by (destruct ins; [reflexivity|discriminate]). rewrite I in *.
      destruct (starts_bang (w_command w)) eqn:SB.
      * apply starts_bang_spec in SB. unfold parse_empty_bang_rule. change (r_command (set_oo (rule_of nl) oo)) with (w_command w).
        destruct (find_macro (w_command w ++ B ".EMPTY") d) as [m|] eqn:F; cbn [obind].
        -- split.
           ++ intros H. destruct (use_macro St expand plain s1 (set_oo (rule_of nl) oo) m None) as [[s2 r2]| | |] eqn:P; try discriminate.
              apply use_macro_ok in P. destruct P as [moo [M ->]]. cbn [obind] in H. rewrite oo_after in H.
              replace (set_oo (with_macro (rule_of nl) (Some m) moo) oo) with (set_oo (with_macro (rule_of nl) (Some m) moo) (r_oo (with_macro (rule_of nl) (Some m) moo) ++ oo)) in H by reflexivity.
              rewrite request_asked in H. exact (on_empty St do_rule expand plain known w s m s1 oo s2 moo s' G2 SB F X M H).
           ++ intros O. inversion O as [s0 ins0 m' s1' oo' s2 moo s3 R X' C M D e1 e2 e3|s0 m' s1' oo' s2 moo s3 W N K X' M D e1 e2 e3|s0 s1' oo' W N X' e1 e2 e3]; subst.
              ** destruct R as [R|R]; congruence.
              ** rewrite X in X'. injection X' as <- <-. cbn beta in K. rewrite F in K. injection K as <-.
                 assert (use_macro St expand plain s1 (set_oo (rule_of nl) oo) m None = Ok (s2, with_macro (set_oo (rule_of nl) oo) (Some m) moo)) as -> by (apply use_macro_ok; exists moo; auto).
                 cbn [obind]. rewrite oo_after.
                 replace (set_oo (with_macro (rule_of nl) (Some m) moo) oo) with (set_oo (with_macro (rule_of nl) (Some m) moo) (r_oo (with_macro (rule_of nl) (Some m) moo) ++ oo)) by reflexivity.
                 rewrite request_asked. exact D.
              ** specialize (N SB). cbn beta in N. congruence.
        -- split.
           ++ intros H. injection H as <-. exact (on_none St do_rule expand plain known w s s1 oo G2 (fun _ => F) X).
           ++ intros O. inversion O as [s0 ins0 m' s1' oo' s2 moo s3 R X' C M D e1 e2 e3|s0 m' s1' oo' s2 moo s3 W N K X' M D e1 e2 e3|s0 s1' oo' W N X' e1 e2 e3]; subst.
              ** destruct R as [R|R]; congruence.
              ** cbn beta in K. congruence.
              ** rewrite X in X'. injection X' as -> _. reflexivity.
      * assert (~ names_macro (w_command w)) as NM by (intros Y; apply starts_bang_spec in Y; congruence). split.
        -- intros H. injection H as <-. exact (on_none St do_rule expand plain known w s s1 oo G2 (fun Y => False_ind _ (NM Y)) X).
        -- intros O. inversion O as [s0 ins0 m' s1' oo' s2 moo s3 R X' C M D e1 e2 e3|s0 m' s1' oo' s2 moo s3 W N K X' M D e1 e2 e3|s0 s1' oo' W N X' e1 e2 e3]; subst.
           ** destruct R as [R|R]; congruence.
           ** contradiction.
           ** rewrite X in X'. injection X' as -> _. reflexivity.
Qed.
End use.
