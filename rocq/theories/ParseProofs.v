(** Proofs about splitting rule lines, commands and path lists. *)
From Verif Require Import Base ConfigModel ConfigSpec ConfigProofs ConfigProofs2 ParseModel ParseSpec.

(** ** Searching *)
Lemma strstr_inv m s a b : m <> [] -> strstr m s = Some (a, b) -> s = a ++ m ++ b.
Proof.
  intros Hm. revert a b. induction s as [|c s IH]; intros a b; cbn [strstr].
  - destruct m; [congruence|]. cbn. discriminate.
  - destruct (prefixb m (c :: s)) eqn:P.
    + intros [= <- <-]. apply prefixb_spec in P. destruct P as [r Hr]. rewrite Hr. rewrite skipn_len by reflexivity. reflexivity.
    + destruct (strstr m s) as [[a' b']|] eqn:E; [|discriminate]. intros [= <- <-]. cbn. f_equal. apply IH. reflexivity.
Qed.
Lemma strstr_none m s : strstr m s = None -> forall a b, s <> a ++ m ++ b.
Proof.
  induction s as [|c s IH]; cbn [strstr]; intros H a b E.
  - destruct m; [discriminate|]. destruct a; discriminate.
  - destruct (prefixb m (c :: s)) eqn:P; [discriminate|].
    destruct (strstr m s) as [[]|] eqn:F; [discriminate|].
    destruct a as [|x a].
    + cbn in E. assert (prefixb m (c :: s) = true) as Q by (apply prefixb_spec; exists b; exact E). congruence.
    + injection E as -> E. exact (IH eq_refl a b E).
Qed.
Lemma strstr_first a b : ~ has_marker a -> strstr marker (a ++ marker ++ b) = Some (a, b).
Proof.
  induction a as [|c a IH]; intros H.
  - cbn [app]. change (marker ++ b) with ("|"%char :: ">"%char :: b). cbn [strstr].
    change (prefixb marker ("|"%char :: ">"%char :: b)) with true. reflexivity.
  - cbn [app strstr]. destruct (prefixb marker (c :: a ++ marker ++ b)) eqn:P.
    + exfalso. apply prefixb_spec in P. destruct P as [r Hr]. change (marker ++ r) with ("|"%char :: ">"%char :: r) in Hr.
      injection Hr as -> Hr. destruct a as [|d a].
      * cbn in Hr. discriminate.
      * injection Hr as -> Hr. apply H. exists [], a. reflexivity.
    + rewrite IH; [reflexivity|]. intros [x [y E]]. apply H. exists (c :: x), y. cbn. f_equal. exact E.
Qed.
Lemma strstr_marker_inv s a b : strstr marker s = Some (a, b) -> s = a ++ marker ++ b /\ ~ has_marker a.
Proof.
  intros H. assert (s = a ++ marker ++ b) as -> by (apply strstr_inv; [discriminate|exact H]). split; [reflexivity|].
  revert H. induction a as [|c a IH]; intros H [x [y E]].
  - destruct x; discriminate.
  - cbn [app strstr] in H. destruct (prefixb marker (c :: a ++ marker ++ b)) eqn:P; [discriminate|].
    destruct (strstr marker (a ++ marker ++ b)) as [[a' b']|] eqn:F; [|discriminate]. injection H as -> ->.
    destruct x as [|d x].
    + cbn [app] in E. assert (prefixb marker (c :: a ++ marker ++ b) = true) as Q by
        (apply prefixb_spec; exists (y ++ marker ++ b); change (c :: a ++ marker ++ b) with ((c :: a) ++ marker ++ b); rewrite E, <- app_assoc; reflexivity). congruence.
    + injection E as -> E. apply IH; [reflexivity|]. exists x, y. exact E.
Qed.

(** ** Trimming *)
Lemma lstrip_starts s : ~ starts_white (lstrip s).
Proof. intros [c [t [E W]]]. exact (lstrip_head _ _ _ E W). Qed.
Lemma lstrip_fix s : ~ starts_white s -> lstrip s = s.
Proof.
  destruct s as [|c s]; [reflexivity|]. intros H. cbn. destruct (isspace c) eqn:E; [|reflexivity].
  exfalso. apply H. exists c, s. split; [reflexivity|]. apply isspace_white, E.
Qed.
Lemma lstrip_ws a s : Forall white a -> ~ starts_white s -> lstrip (a ++ s) = s.
Proof. intros A H. rewrite lstrip_white by exact A. apply lstrip_fix, H. Qed.
Lemma rstrip_starts s : ~ starts_white s -> ~ starts_white (rstrip s).
Proof.
  intros H [c [t [E W]]]. apply H. destruct (rstrip_split s) as [a [S _]]. exists c, (t ++ a).
  rewrite S, E. split; [reflexivity|exact W].
Qed.
Lemma trimmed_strip s : trimmed s (rstrip (lstrip s)).
Proof.
  destruct (lstrip_split s) as [a [E A]]. destruct (rstrip_split (lstrip s)) as [b [F Bw]].
  exists a, b. split; [rewrite <- F; exact E|]. repeat split; try assumption.
  - apply rstrip_starts, lstrip_starts.
  - apply rstrip_ends.
Qed.
Lemma trimmed_fun s t : trimmed s t -> t = rstrip (lstrip s).
Proof.
  intros [a [b [-> [A [Bw [S E]]]]]]. rewrite lstrip_white by exact A.
  destruct t as [|c t].
  - cbn [app]. assert (lstrip b = []) as -> by (rewrite <- (app_nil_r b); rewrite lstrip_white by exact Bw; reflexivity).
    reflexivity.
  - rewrite lstrip_fix.
    + rewrite rstrip_app by exact Bw. symmetry. apply rstrip_id, E.
    + intros [d [r [F W]]]. injection F as <- <-. apply S. exists c, t. split; [reflexivity|exact W].
Qed.
Lemma lstrip_nil s : lstrip s = [] <-> Forall white s.
Proof.
  split.
  - intros H. destruct (lstrip_split s) as [a [E A]]. rewrite H, app_nil_r in E. rewrite E. exact A.
  - intros H. rewrite <- (app_nil_r s). rewrite lstrip_white by exact H. reflexivity.
Qed.
Lemma rstrip_nonempty s : s <> [] -> ~ starts_white s -> rstrip s <> [].
Proof.
  intros N S E. apply rstrip_nil in E. destruct s as [|c s]; [congruence|]. apply S. exists c, s.
  split; [reflexivity|]. inversion E; assumption.
Qed.

(** ** Bins *)
Definition first_or_white (first : bool) (a : bytes) : Prop := (a = [] /\ first = true) \/ ends_white a.
Lemma ends_cons c a : ends_white (c :: a) <-> (a = [] /\ white c) \/ ends_white a.
Proof.
  split.
  - intros [t [d [E W]]]. destruct t as [|x t]; cbn in E.
    + injection E as -> ->. left; split; [reflexivity|exact W].
    + injection E as -> ->. right. exists t, d. split; [reflexivity|exact W].
  - intros [[-> W]|[t [d [-> W]]]]; [exists [], c; split; [reflexivity|exact W]|].
    exists (c :: t), d. split; [reflexivity|exact W].
Qed.
Lemma open_brace_inv s : forall first a b, open_brace first s = Some (a, b) ->
  s = a ++ lbrace :: b /\ first_or_white first a /\
  forall x y, a = x ++ lbrace :: y -> ~ first_or_white first x.
Proof.
  induction s as [|c s IH]; intros first a b; cbn [open_brace]; [discriminate|].
  destruct ((c =?c lbrace) && first) eqn:T.
  - intros [= <- <-]. apply andb_true_iff in T as [T1 T2]. apply Ascii.eqb_eq in T1 as ->. split; [reflexivity|].
    split; [left; split; [reflexivity|exact T2]|]. intros x y E. destruct x; discriminate.
  - destruct (open_brace (isspace c) s) as [[a' b']|] eqn:F; [|discriminate]. intros [= <- <-].
    destruct (IH _ _ _ F) as [E [W N]]. subst s. split; [reflexivity|]. split.
    + right. apply ends_cons. destruct W as [[-> S]|W]; [left; split; [reflexivity|apply isspace_white, S]|right; exact W].
    + intros x y E. destruct x as [|d x].
      * cbn in E. injection E as -> _. rewrite Ascii.eqb_refl in T. cbn in T. intros [[_ G]|[t [e [G _]]]]; [congruence|]. destruct t; discriminate.
      * injection E as <- E. intros [[G _]|G]; [discriminate|]. apply ends_cons in G.
        apply (N x y E). destruct G as [[-> G]|G]; [left; split; [reflexivity|apply isspace_white, G]|right; exact G].
Qed.
Lemma open_brace_none s : forall first, open_brace first s = None ->
  forall x y, s = x ++ lbrace :: y -> ~ first_or_white first x.
Proof.
  induction s as [|c s IH]; intros first; cbn [open_brace]; intros H x y E; [destruct x; discriminate|].
  destruct ((c =?c lbrace) && first) eqn:T; [discriminate|].
  destruct (open_brace (isspace c) s) as [[]|] eqn:F; [discriminate|].
  destruct x as [|d x].
  - cbn in E. injection E as -> _. rewrite Ascii.eqb_refl in T. cbn in T. intros [[_ G]|[t [e [G _]]]]; [congruence|]. destruct t; discriminate.
  - injection E as <- E. intros [[G _]|G]; [discriminate|]. apply ends_cons in G.
    apply (IH _ F x y E). destruct G as [[-> G]|G]; [left; split; [reflexivity|apply isspace_white, G]|right; exact G].
Qed.
Lemma open_brace_here a b : forall first, first_or_white first a ->
  (forall x y, a = x ++ lbrace :: y -> ~ first_or_white first x) -> open_brace first (a ++ lbrace :: b) = Some (a, b).
Proof.
  induction a as [|c a IH]; intros first W N.
  - cbn [app open_brace]. rewrite Ascii.eqb_refl. destruct W as [[_ ->]|[t [d [E _]]]]; [reflexivity|destruct t; discriminate].
  - cbn [app open_brace]. destruct ((c =?c lbrace) && first) eqn:T.
    + exfalso. apply andb_true_iff in T as [T1 T2]. apply Ascii.eqb_eq in T1 as ->. apply (N [] a eq_refl). left; split; [reflexivity|exact T2].
    + rewrite IH; [reflexivity| |].
      * destruct W as [[E _]|W]; [discriminate|]. apply ends_cons in W.
        destruct W as [[-> G]|G]; [left; split; [reflexivity|apply isspace_white, G]|right; exact G].
      * intros x y -> G. apply (N (c :: x) y eq_refl). right. apply ends_cons.
        destruct G as [[-> G]|G]; [left; split; [reflexivity|apply isspace_white, G]|right; exact G].
Qed.
Lemma opens_first a : opens_bin a <-> exists x y, a = x ++ lbrace :: y /\ first_or_white true x.
Proof.
  split; intros [x [y [E W]]]; exists x, y; (split; [exact E|]); destruct W as [W|W].
  - left; auto. - right; exact W. - left; apply W. - right; exact W.
Qed.
Lemma cut_none c s : cut c s = None -> ~ In c s.
Proof.
  induction s as [|d s IH]; cbn [cut]; [intros _ []|]. destruct (d =?c c) eqn:E; [discriminate|].
  destruct (cut c s) as [[]|] eqn:F; [discriminate|]. intros _ [->|H]; [rewrite Ascii.eqb_refl in E; discriminate|]. exact (IH eq_refl H).
Qed.
Lemma white_nonempty_ends sp : Forall white sp -> sp <> [] -> ends_white sp.
Proof.
  intros W N. destruct (exists_last N) as [t [c ->]]. exists t, c. split; [reflexivity|].
  apply Forall_app in W as [_ W]. inversion W; assumption.
Qed.
Lemma ends_app_l a b : b <> [] -> (ends_white (a ++ b) <-> ends_white b).
Proof.
  intros N. destruct (exists_last N) as [t [c ->]]. split.
  - intros [u [d [E W]]]. rewrite app_assoc in E. apply app_inj_tail in E as [_ ->]. exists t, d. split; [reflexivity|exact W].
  - intros [u [d [E W]]]. apply app_inj_tail in E as [-> ->]. exists (a ++ u), d. rewrite app_assoc. split; [reflexivity|exact W].
Qed.
Lemma white_lbrace : ~ white lbrace.
Proof. apply not_white_lit. reflexivity. Qed.

Lemma split_bin_spec O o b : split_bin (lstrip O) = Some (o, b) <-> output_part O o b.
Proof.
  split.
  - unfold split_bin. destruct (lstrip_split O) as [ws [EO W]]. pose proof (lstrip_starts O) as S.
    remember (lstrip O) as L eqn:EL. clear EL. destruct (open_brace true L) as [[outs t]|] eqn:F.
    + destruct (open_brace_inv _ _ _ _ F) as [-> [Wo No]]. destruct (cut rbrace t) as [[bin rest]|] eqn:C; [|discriminate].
      destruct rest; [|discriminate]. intros [= <- <-]. apply cut_inv in C as [-> C]. subst O.
      destruct (rstrip_split outs) as [sp [E2 W2]].
      assert (~ starts_white outs) as So.
      { intros [c [r [-> Wc]]]. apply S. exists c, (r ++ lbrace :: bin ++ [rbrace]). split; [reflexivity|exact Wc]. }
      replace (outs ++ lbrace :: bin ++ [rbrace]) with (rstrip outs ++ sp ++ lbrace :: bin ++ [rbrace]) by (rewrite app_assoc, <- E2; reflexivity).
      apply op_bin; try assumption.
      * apply rstrip_starts, So.
      * apply rstrip_ends.
      * intros H. apply opens_first in H as [x [y [H Hx]]]. apply (No x (y ++ sp)); [|exact Hx]. rewrite E2, H, <- app_assoc. reflexivity.
      * split.
        -- intros R. rewrite R in E2. cbn in E2. destruct outs as [|c outs]; [congruence|]. exfalso. apply So. exists c, outs.
           split; [reflexivity|]. rewrite <- E2 in W2. inversion W2; assumption.
        -- intros ->. rewrite app_nil_r in E2. destruct Wo as [[-> _]|Wo]; [reflexivity|]. exfalso. rewrite E2 in Wo. exact (rstrip_ends _ Wo).
    + intros [= <- <-]. subst O. apply op_plain; try assumption. intros H. apply opens_first in H as [x [y [H Hx]]].
      exact (open_brace_none _ _ F _ _ H Hx).
  - intros H. unfold split_bin. inversion H; subst; clear H.
    + rewrite lstrip_ws by assumption. destruct (open_brace true o) as [[a b]|] eqn:F; [|reflexivity].
      exfalso. destruct (open_brace_inv _ _ _ _ F) as [-> [Wo _]]. apply H2. apply opens_first. exists a, b. split; [reflexivity|exact Wo].
    + rewrite lstrip_white by assumption.
      assert (~ starts_white (o ++ sp ++ lbrace :: b0 ++ [rbrace])) as S.
      { destruct o as [|c o].
        - destruct H5 as [H5 _]. rewrite (H5 eq_refl). cbn [app]. intros [c [r [E Wc]]]. injection E as <- _. exact (white_lbrace Wc).
        - intros [d [r [E Wc]]]. injection E as <- _. apply H1. exists c, o. split; [reflexivity|exact Wc]. }
      change (o ++ sp ++ "{"%char :: b0 ++ ["}"%char]) with (o ++ sp ++ lbrace :: b0 ++ [rbrace]).
      rewrite lstrip_fix by exact S. rewrite app_assoc.
      rewrite open_brace_here.
      * change (b0 ++ [rbrace]) with (b0 ++ rbrace :: []). rewrite cut_app by assumption. f_equal. f_equal. rewrite rstrip_app by assumption. apply rstrip_id; assumption.
      * destruct o as [|c o].
        -- destruct H5 as [H5 _]. rewrite (H5 eq_refl). left; split; reflexivity.
        -- right. apply ends_app_l; [intros E; apply H5 in E; discriminate|]. apply white_nonempty_ends; [assumption|intros E; apply H5 in E; discriminate].
      * intros x y E G. apply H3. apply opens_first. assert (exists y', o = x ++ lbrace :: y') as [y' Ey].
        { clear - E H4. revert x E. induction o as [|c o IH]; intros x E.
          - exfalso. cbn in E. rewrite Forall_forall in H4. apply white_lbrace, H4. rewrite E. apply in_app_iff. right; left; reflexivity.
          - destruct x as [|d x]; cbn in E.
            + injection E as -> E. exists o. reflexivity.
            + injection E as -> E. destruct (IH _ E) as [y' ->]. exists y'. reflexivity. }
        exists x, y'. split; [exact Ey|exact G].
Qed.

Lemma split_line_spec s i c o b : split_input_pattern s = Some (i, c, o, b) <-> rule_line s i c o b.
Proof.
  split.
  - unfold split_input_pattern. destruct (strstr marker s) as [[I p1]|] eqn:F1; [|discriminate].
    destruct (strstr marker p1) as [[C O]|] eqn:F2; [|discriminate].
    destruct (split_bin (lstrip O)) as [[outs bin]|] eqn:F3; [|discriminate].
    intros [= <- <- <- <-]. apply strstr_marker_inv in F1 as [-> N1]. apply strstr_marker_inv in F2 as [-> N2].
    change marker with (B "|>"). apply rl; try assumption.
    + destruct (lstrip I) as [|x r] eqn:L.
      * left. split; [apply lstrip_nil, L|reflexivity].
      * right. exists (rstrip (x :: r)). rewrite <- L. split; [apply trimmed_strip|]. split; [|reflexivity].
        apply rstrip_nonempty; [congruence|apply lstrip_starts].
    + apply trimmed_strip.
    + apply split_bin_spec, F3.
  - intros H. inversion H; subst; clear H. unfold split_input_pattern.
    change (B "|>") with marker. rewrite strstr_first by assumption. rewrite strstr_first by assumption.
    apply split_bin_spec in H4. rewrite H4. rewrite <- (trimmed_fun _ _ H3).
    destruct H2 as [[W ->]|[t [T [N ->]]]].
    + apply lstrip_nil in W. rewrite W. reflexivity.
    + rewrite (trimmed_fun _ _ T). destruct (lstrip I) as [|x r] eqn:L; [|reflexivity].
      exfalso. apply N. rewrite (trimmed_fun _ _ T), L. reflexivity.
Qed.
Lemma split_two_markers s : (forall a b c, s <> a ++ B "|>" ++ b ++ B "|>" ++ c) -> split_input_pattern s = None.
Proof.
  intros H. destruct (split_input_pattern s) as [[[[i c] o] b]|] eqn:E; [|reflexivity].
  apply split_line_spec in E. inversion E; subst. exfalso. exact (H _ _ _ eq_refl).
Qed.

(** ** Commands *)
Lemma span_all f s a b : span f s = (a, b) -> Forall (fun c => f c = true) a.
Proof. intros H. apply span_spec in H as [_ [H _]]. exact H. Qed.
Lemma span_stop f a c b : Forall (fun x => f x = true) a -> f c = false -> span f (a ++ c :: b) = (a, c :: b).
Proof.
  intros H N. induction H as [|x a X H IH]; cbn [app span].
  - rewrite N. reflexivity.
  - rewrite X, IH. reflexivity.
Qed.
Lemma flag_char c : negb ((c =?c space) || (c =?c caret)) = true <-> c <> " "%char /\ c <> "^"%char.
Proof. rewrite negb_true_iff, orb_false_iff, !Ascii.eqb_neq. reflexivity. Qed.
Lemma flag_chars f : Forall (fun c => negb ((c =?c space) || (c =?c caret)) = true) f <-> ~ In " "%char f /\ ~ In "^"%char f.
Proof.
  rewrite Forall_forall. split.
  - intros H. split; intros I; apply H, flag_char in I; tauto.
  - intros [H1 H2] c I. apply flag_char. split; intros ->; tauto.
Qed.
Lemma white_caret : ~ white caret. Proof. apply not_white_lit. reflexivity. Qed.
Lemma white_space : white space. Proof. left. reflexivity. Qed.

Lemma split_command_spec s f d c :
  split_command_string s = Some {| cs_flags := f; cs_display := d; cs_cmd := c |} <-> command_parts s f d c.
Proof.
  split.
  - intros H. destruct s as [|x s].
    + injection H as <- <- <-. apply (cp_plain [] []); [discriminate|constructor|]. intros [c [t [E _]]]. discriminate.
    + cbn [split_command_string] in H. destruct (x =?c caret) eqn:X.
      * apply Ascii.eqb_eq in X as ->. destruct (span _ s) as [flags s1] eqn:Sp.
        apply span_spec in Sp as [-> [Fl St]]. apply flag_chars in Fl as [F1 F2].
        destruct s1 as [|y s2]; [discriminate|]. destruct (y =?c caret) eqn:Y.
        -- apply Ascii.eqb_eq in Y as ->. injection H as <- <- <-.
           destruct (lstrip_split s2) as [ws [E W]]. rewrite E at 1. apply cp_flags; try assumption. apply lstrip_starts.
        -- destruct (cut caret (lstrip (y :: s2))) as [[disp s3]|] eqn:C; [|discriminate]. injection H as <- <- <-.
           assert (y = " "%char) as ->.
           { apply negb_false_iff, orb_true_iff in St as [St|St]; [apply Ascii.eqb_eq in St; exact St|congruence]. }
           change (lstrip (" "%char :: s2)) with (lstrip s2) in C.
           apply cut_inv in C as [C N]. destruct (lstrip_split s2) as [sp [E W]]. rewrite C in E. rewrite E.
           destruct (lstrip_split s3) as [ws [E3 W3]]. rewrite E3 at 1.
           apply cp_text; try assumption; try apply lstrip_starts.
           intros [z [t [-> Wz]]]. apply (lstrip_starts s2). rewrite C. exists z, (t ++ caret :: s3). split; [reflexivity|exact Wz].
      * injection H as <- <- <-. change (if isspace x then lstrip s else x :: s) with (lstrip (x :: s)).
        destruct (lstrip_split (x :: s)) as [ws [E W]]. rewrite E at 1. apply cp_plain; [|exact W|apply lstrip_starts].
        rewrite <- E. intros r G. injection G as -> _. discriminate.
  - intros H. inversion H; subst; clear H.
    + destruct (ws ++ c) as [|x s] eqn:E.
      * apply app_eq_nil in E as [-> ->]. reflexivity.
      * cbn [split_command_string]. destruct (x =?c caret) eqn:X; [apply Ascii.eqb_eq in X as ->; exfalso; exact (H0 s eq_refl)|].
        rewrite <- E. rewrite lstrip_ws by assumption. reflexivity.
    + cbn [split_command_string]. change ("^"%char =?c caret) with true. cbn match.
      rewrite (span_stop _ f "^"%char) by (try reflexivity; apply flag_chars; tauto).
      change ("^"%char =?c caret) with true. cbn match. rewrite lstrip_ws by assumption. reflexivity.
    + cbn [split_command_string]. change ("^"%char =?c caret) with true. cbn match.
      rewrite (span_stop _ f " "%char) by (try reflexivity; apply flag_chars; tauto).
      change (" "%char =?c caret) with false. cbn match.
      replace (lstrip (" "%char :: sp ++ text ++ "^"%char :: ws ++ c)) with (text ++ "^"%char :: ws ++ c).
      * change "^"%char with caret. rewrite cut_app by assumption. rewrite lstrip_ws by assumption. reflexivity.
      * change (" "%char :: sp ++ text ++ "^"%char :: ws ++ c) with ((" "%char :: sp) ++ text ++ "^"%char :: ws ++ c).
        symmetry. apply lstrip_ws; [constructor; [exact white_space|assumption]|].
        destruct text as [|t text].
        -- intros [z [r [E W]]]. injection E as <- _. exact (white_caret W).
        -- intros [z [r [E W]]]. injection E as <- _. apply H3. exists t, text. split; [reflexivity|exact W].
Qed.
Lemma split_command_error s : split_command_string s = None <-> exists r, s = "^"%char :: r /\ ~ In "^"%char r.
Proof.
  split.
  - destruct s as [|x s]; [discriminate|]. cbn [split_command_string]. destruct (x =?c caret) eqn:X; [|discriminate].
    apply Ascii.eqb_eq in X as ->. destruct (span _ s) as [flags s1] eqn:Sp. apply span_spec in Sp as [-> [Fl St]].
    apply flag_chars in Fl as [F1 F2]. intros H. exists (flags ++ s1). split; [reflexivity|].
    destruct s1 as [|y s2]; [rewrite app_nil_r; exact F2|]. destruct (y =?c caret) eqn:Y; [discriminate|].
    destruct (cut caret (lstrip (y :: s2))) as [[]|] eqn:C; [discriminate|]. apply cut_none in C.
    intros I. apply in_app_iff in I as [I|I]; [tauto|]. destruct (lstrip_split (y :: s2)) as [a [E A]]. rewrite E in I.
    apply in_app_iff in I as [I|I]; [|exact (C I)]. rewrite Forall_forall in A. exact (white_caret (A _ I)).
  - intros [r [-> N]]. cbn [split_command_string]. change ("^"%char =?c caret) with true. cbn match.
    destruct (span _ r) as [flags s1] eqn:Sp. apply span_spec in Sp as [-> [Fl St]].
    destruct s1 as [|y s2]; [reflexivity|]. destruct (y =?c caret) eqn:Y.
    + apply Ascii.eqb_eq in Y as ->. exfalso. apply N, in_app_iff. right; left; reflexivity.
    + destruct (cut caret (lstrip (y :: s2))) as [[a b]|] eqn:C; [|reflexivity]. exfalso.
      apply cut_inv in C as [C _]. apply N, in_app_iff. right. destruct (lstrip_split (y :: s2)) as [w [E _]]. rewrite E, C.
      apply in_app_iff. right. apply in_app_iff. right. left. reflexivity.
Qed.

(** ** Path lists *)
Lemma next_path_spelled n w q : spelled q n w -> forall rest, (rest = [] \/ starts_white rest) ->
  next_path false q (w ++ rest) = Some (n, rest).
Proof.
  induction 1 as [|q c n w H IH|q c n w N1 N2 Q H IH|q n w H IH]; intros rest R.
  - destruct R as [->|[c [t [-> W]]]]; [reflexivity|]. cbn [app next_path].
    destruct (c =?c backslash) eqn:E1; [apply Ascii.eqb_eq in E1 as ->; exfalso; revert W; apply not_white_lit; reflexivity|].
    destruct (c =?c dquote) eqn:E2; [apply Ascii.eqb_eq in E2 as ->; exfalso; revert W; apply not_white_lit; reflexivity|].
    apply isspace_white in W. rewrite W. reflexivity.
  - cbn [app next_path]. change ("\"%char =?c backslash) with true. cbn match. rewrite IH by exact R. reflexivity.
  - cbn [app next_path]. apply Ascii.eqb_neq in N1, N2. change backslash with "\"%char. change dquote with """"%char. rewrite N1, N2.
    assert (isspace c && negb q = false) as ->.
    { destruct Q as [->|Q]; [apply andb_false_r|]. destruct (isspace c) eqn:E; [apply isspace_white in E; tauto|reflexivity]. }
    rewrite IH by exact R. reflexivity.
  - cbn [app next_path]. change (""""%char =?c backslash) with false. change (""""%char =?c dquote) with true. cbn match. apply IH, R.
Qed.

Lemma white_starts sp s : Forall white sp -> sp <> [] -> starts_white (sp ++ s).
Proof. intros W N. destruct sp as [|c sp]; [congruence|]. exists c, (sp ++ s). split; [reflexivity|]. inversion W; assumption. Qed.

Lemma listed_not_white ns s : listed_as ns s -> ~ starts_white s.
Proof.
  assert (forall n w, spelled false n w -> w <> [] -> ~ starts_white w) as K.
  { intros n w H N [c [t [-> W]]]. inversion H; subst.
    - revert W. apply not_white_lit. reflexivity.
    - match goal with Q : false = true \/ _ |- _ => destruct Q; [discriminate|tauto] end.
    - revert W. apply not_white_lit. reflexivity. }
  assert (forall n w r, spelled false n w -> w <> [] -> ~ starts_white (w ++ r)) as K2.
  { intros n w r H N [c [t [E W]]]. destruct w as [|d w]; [congruence|]. injection E as -> E.
    apply (K n (c :: w) H N). exists c, w. split; [reflexivity|exact W]. }
  intros H. inversion H; subst; [intros [c [t [E _]]]; discriminate| |]; eapply K2; eauto.
Qed.

Section plist.
Variable accepts : bytes -> bool.
Lemma path_list_listed ns s : listed_as ns s -> Forall (fun n => accepts n = true /\ (N.of_nat (length n) < PATH_MAX)%N) ns ->
  forall fuel k, length s < fuel -> path_list accepts fuel k s = Ok (combine ns (seq k (length ns))).
Proof.
  induction 1 as [|n w sp H N W|n w sp ns s H N W NS NN L IH]; intros A fuel k F.
  - destruct fuel; [lia|]. reflexivity.
  - destruct fuel as [|fuel]; [lia|]. inversion A as [|? ? [A1 A2] _]; subst. cbn [path_list].
    destruct (w ++ sp) as [|c t] eqn:E; [destruct w; [congruence|discriminate]|]. rewrite <- E.
    rewrite (next_path_spelled n w false H).
    + apply N.leb_gt in A2. rewrite A2, A1. assert (lstrip sp = []) as -> by (apply lstrip_nil, W).
      destruct fuel; [|reflexivity]. exfalso. cbn [length] in F. lia.
    + destruct sp; [left; reflexivity|right]. rewrite <- (app_nil_r (_ :: _)). apply white_starts; [exact W|discriminate].
  - destruct fuel as [|fuel]; [lia|]. inversion A as [|? ? [A1 A2] A3]; subst. cbn [path_list].
    destruct (w ++ sp ++ s) as [|c t] eqn:E; [destruct w; [congruence|discriminate]|]. rewrite <- E.
    rewrite (next_path_spelled n w false H).
    + apply N.leb_gt in A2. rewrite A2, A1. rewrite lstrip_ws; [|exact W|exact (listed_not_white _ _ L)].
      rewrite IH; [reflexivity|exact A3|]. rewrite <- E in F. rewrite !app_length in F.
      destruct w; [congruence|]. destruct sp; [congruence|]. cbn [length] in F. lia.
    + right. apply white_starts; assumption.
Qed.
Lemma get_path_list_listed ns s : listed_as ns s -> Forall (fun n => accepts n = true /\ (N.of_nat (length n) < PATH_MAX)%N) ns ->
  get_path_list accepts s = Ok (numbered ns).
Proof. intros L A. unfold get_path_list. apply path_list_listed; [exact L|exact A|lia]. Qed.

(** The two writers. *)
Lemma in_quotes_spelled n : spelled false n (in_quotes n).
Proof.
  unfold in_quotes. apply sp_quote. cbn [negb]. induction n as [|c n IH].
  - apply sp_quote. apply sp_end.
  - cbn [flat_map]. destruct ((c =?c "\"%char) || (c =?c """"%char)) eqn:E.
    + apply sp_escape. exact IH.
    + apply orb_false_iff in E as [E1 E2]. apply Ascii.eqb_neq in E1, E2. apply sp_char; auto.
Qed.
Lemma with_backslashes_spelled n : spelled false n (with_backslashes n).
Proof. induction n as [|c n IH]; [apply sp_end|]. cbn. apply sp_escape. exact IH. Qed.

Fixpoint spaced (l : list bytes) : bytes := match l with [] => [] | [w] => w | w :: t => w ++ [" "%char] ++ spaced t end.
Lemma spaced_listed ns ws : Forall2 (fun n w => spelled false n w /\ w <> []) ns ws -> listed_as ns (spaced ws).
Proof.
  induction 1 as [|n w ns ws [H N] F IH]; [apply la_nil|]. destruct ws as [|w2 ws].
  - inversion F; subst. cbn [spaced]. rewrite <- (app_nil_r w). apply la_last; [exact H|exact N|constructor].
  - change (spaced (w :: w2 :: ws)) with (w ++ [" "%char] ++ spaced (w2 :: ws)). apply la_cons; try assumption.
    + constructor; [exact white_space|constructor]. + discriminate. + inversion F; subst. discriminate.
Qed.

(** A list with order-only inputs. *)
Lemma cut_nin c s : ~ In c s -> cut c s = None.
Proof.
  induction s as [|d s IH]; intros H; [reflexivity|]. cbn [cut]. destruct (d =?c c) eqn:E.
  - apply Ascii.eqb_eq in E as ->. exfalso. apply H. left. reflexivity.
  - rewrite IH; [reflexivity|]. intros I. apply H. right. exact I.
Qed.
Lemma input_pattern_listed ns s : listed_as ns s -> ~ In "|"%char s ->
  Forall (fun n => accepts n = true /\ (N.of_nat (length n) < PATH_MAX)%N) ns ->
  parse_input_pattern accepts s = Ok (numbered ns, []).
Proof. intros L N A. unfold parse_input_pattern. rewrite cut_nin by exact N. rewrite (get_path_list_listed _ _ L A). reflexivity. Qed.
Lemma input_pattern_both ns s ms sp t : listed_as ns s -> ~ In "|"%char s -> Forall white sp -> listed_as ms t ->
  Forall (fun n => accepts n = true /\ (N.of_nat (length n) < PATH_MAX)%N) (ns ++ ms) ->
  parse_input_pattern accepts (s ++ "|"%char :: sp ++ t) = Ok (numbered ns, numbered ms).
Proof.
  intros L N W M A. apply Forall_app in A as [A1 A2]. unfold parse_input_pattern. rewrite cut_app by exact N.
  rewrite lstrip_ws; [|exact W|exact (listed_not_white _ _ M)].
  rewrite (get_path_list_listed _ _ M A2), (get_path_list_listed _ _ L A1). reflexivity.
Qed.
(** Nothing is split without a buffer: too long a name runs over it. *)
Lemma path_list_over n w rest : spelled false n w -> w <> [] -> (rest = [] \/ starts_white rest) -> (PATH_MAX <= N.of_nat (length n))%N ->
  get_path_list accepts (w ++ rest) = Over.
Proof.
  intros H N R L. unfold get_path_list. cbn [path_list]. destruct (w ++ rest) as [|c t] eqn:E; [destruct w; [congruence|discriminate]|].
  rewrite <- E, (next_path_spelled n w false H rest R). apply N.leb_le in L. rewrite L. reflexivity.
Qed.
End plist.

(** ** Duplicate inputs *)
Inductive sublist {A} : list A -> list A -> Prop :=
| sub_nil : sublist [] []
| sub_skip x a b : sublist a b -> sublist a (x :: b)
| sub_keep x a b : sublist a b -> sublist (x :: a) (x :: b).
Definition same_file (e f : nle) : Prop := exists i, n_tent e = Some i /\ n_tent f = Some i.
Lemma existsb_in i seen : existsb (Nat.eqb i) seen = true <-> In i seen.
Proof.
  rewrite existsb_exists. split.
  - intros [x [H E]]. apply Nat.eqb_eq in E as ->. exact H.
  - intros H. exists i. split; [exact H|apply Nat.eqb_refl].
Qed.
Lemma unique_snoc l e : forall seen,
  unique_entries seen (l ++ [e]) =
  unique_entries seen l ++
  match n_tent e with
  | None => [e]
  | Some i => if existsb (Nat.eqb i) seen || existsb (fun f => match n_tent f with Some j => i =? j | None => false end) l then [] else [e]
  end.
Proof.
  induction l as [|f l IH]; intros seen.
  - cbn [app unique_entries existsb]. destruct (n_tent e) as [i|]; [|reflexivity]. rewrite orb_false_r.
    destruct (existsb (Nat.eqb i) seen); reflexivity.
  - cbn [app unique_entries]. destruct (n_tent f) as [j|] eqn:F.
    + destruct (existsb (Nat.eqb j) seen) eqn:S.
      * rewrite IH. f_equal. destruct (n_tent e) as [i|]; [|reflexivity]. cbn [existsb]. rewrite F.
        destruct (i =? j) eqn:E; [|reflexivity]. apply Nat.eqb_eq in E as ->. rewrite S. reflexivity.
      * rewrite IH. cbn [app]. f_equal. f_equal. destruct (n_tent e) as [i|]; [|reflexivity]. cbn [existsb]. rewrite F.
        rewrite (orb_comm (i =? j)), <- orb_assoc. rewrite (orb_comm (i =? j)). reflexivity.
    + rewrite IH. cbn [app]. f_equal. f_equal. destruct (n_tent e) as [i|]; [|reflexivity]. cbn [existsb]. rewrite F. reflexivity.
Qed.
Lemma unique_dup l e f : In f l -> same_file e f -> unique_entries [] (l ++ [e]) = unique_entries [] l.
Proof.
  intros I [i [Ee Ef]]. rewrite unique_snoc, Ee. cbn [existsb orb].
  assert (existsb (fun f => match n_tent f with Some j => i =? j | None => false end) l = true) as ->.
  { apply existsb_exists. exists f. split; [exact I|]. rewrite Ef. apply Nat.eqb_refl. }
  apply app_nil_r.
Qed.
Lemma unique_new l e : (forall f, In f l -> ~ same_file e f) -> unique_entries [] (l ++ [e]) = unique_entries [] l ++ [e].
Proof.
  intros H. rewrite unique_snoc. f_equal. destruct (n_tent e) as [i|] eqn:Ee; [|reflexivity]. cbn [existsb orb].
  destruct (existsb _ l) eqn:X; [|reflexivity]. exfalso. apply existsb_exists in X as [f [I E]].
  destruct (n_tent f) as [j|] eqn:Ef; [|discriminate]. apply Nat.eqb_eq in E as ->. exact (H f I (ex_intro _ j (conj Ee Ef))).
Qed.
Lemma unique_sublist l : forall seen, sublist (unique_entries seen l) l.
Proof.
  induction l as [|e l IH]; intros seen; cbn [unique_entries]; [constructor|].
  destruct (n_tent e); [destruct (existsb _ seen)|]; constructor; apply IH.
Qed.
Lemma unique_first l : forall seen r e s, unique_entries seen l = r ++ e :: s ->
  forall i, n_tent e = Some i -> ~ In i seen /\ (forall f, In f r -> n_tent f <> Some i) /\ forall f, In f s -> n_tent f <> Some i.
Proof.
  induction l as [|x l IH]; intros seen r e s; cbn [unique_entries]; [destruct r; discriminate|].
  destruct (n_tent x) as [j|] eqn:X.
  - destruct (existsb (Nat.eqb j) seen) eqn:S; [apply IH|]. intros H i Ei. destruct r as [|y r].
    + injection H as -> H. assert (j = i) as -> by congruence. split; [rewrite <- existsb_in; congruence|]. split; [intros f []|].
      subst s. clear -l. intros f If. assert (forall l seen, In i seen -> In f (unique_entries seen l) -> n_tent f <> Some i) as K.
      { clear. induction l as [|y l IH]; intros seen Hs; cbn [unique_entries]; [intros []|]. destruct (n_tent y) as [k|] eqn:Y.
        - destruct (existsb (Nat.eqb k) seen) eqn:S; [apply IH, Hs|]. intros [->|H]; [|eapply IH; [|exact H]; right; exact Hs].
          intros E. assert (k = i) as -> by congruence. apply existsb_in in Hs. congruence.
        - intros [->|H]; [congruence|exact (IH _ Hs H)]. }
      exact (K l (i :: seen) (or_introl eq_refl) If).
    + injection H as -> H. destruct (IH _ _ _ _ H i Ei) as [H1 [H2 H3]]. split; [intros G; apply H1; right; exact G|]. split; [|exact H3].
      intros f [<-|If]; [|exact (H2 f If)]. intros G. apply H1. left. congruence.
  - intros H i Ei. destruct r as [|y r].
    + injection H as -> H. congruence.
    + injection H as -> H. destruct (IH _ _ _ _ H i Ei) as [H1 [H2 H3]]. split; [exact H1|]. split; [|exact H3].
      intros f [<-|If]; [congruence|exact (H2 f If)].
Qed.
Lemma unique_keeps l e : In e l -> n_tent e = None \/ (exists f, In f (unique_entries [] l) /\ same_file e f).
Proof.
  intros I. destruct (n_tent e) as [i|] eqn:E; [right|left; reflexivity].
  assert (forall l seen, In e l -> In i seen \/ exists f, In f (unique_entries seen l) /\ n_tent f = Some i) as K.
  { clear I l. induction l as [|x l IH]; intros seen I; [destruct I|]. cbn [unique_entries]. destruct I as [->|I].
    - rewrite E. destruct (existsb (Nat.eqb i) seen) eqn:S; [left; apply existsb_in, S|right; exists e; split; [left; reflexivity|exact E]].
    - destruct (n_tent x) as [j|] eqn:X.
      + destruct (existsb (Nat.eqb j) seen) eqn:S; [apply IH, I|]. destruct (IH (j :: seen) I) as [[->|H]|[f [H F]]].
        * right. exists x. split; [left; reflexivity|exact X].
        * left. exact H.
        * right. exists f. split; [right; exact H|exact F].
      + destruct (IH seen I) as [H|[f [H F]]]; [left; exact H|right; exists f; split; [right; exact H|exact F]]. }
  destruct (K l [] I) as [[]|[f [H F]]]. exists f. split; [exact H|]. exists i. split; assumption.
Qed.
