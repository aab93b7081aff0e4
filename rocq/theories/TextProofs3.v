(** Proofs about assignments. *)
From Verif Require Import Base ConfigModel ConfigSpec ConfigProofs ParseModel ParseSpec ParseProofs ParseProofs4 ParseProps IfModel TextModel TextSpec TextProofs TextProofs2.
From Coq Require Import ZArith.

(** ** Values *)
Lemma to_table_nonempty f s : 0 < f -> to_table f s <> [].
Proof. destruct f; [lia|]. intros _. cbn [to_table]. destruct (cut space s) as [[a b]|]; discriminate. Qed.
Lemma to_string_cons a l : l <> [] -> table_to_string (a :: l) = a ++ space :: table_to_string l.
Proof. destruct l; [congruence|reflexivity]. Qed.
Lemma to_string_app a b : a <> [] -> b <> [] -> table_to_string (a ++ b) = table_to_string a ++ space :: table_to_string b.
Proof.
  intros A Hb. induction a as [|x a IH]; [congruence|]. destruct a as [|y a].
  - cbn [app]. rewrite to_string_cons by exact Hb. reflexivity.
  - change ((x :: y :: a) ++ b) with (x :: (y :: a) ++ b). rewrite !to_string_cons by discriminate. rewrite IH by discriminate. rewrite <- app_assoc. reflexivity.
Qed.
Lemma squeezed_plain a s o : ~ In space a -> squeezed s o -> squeezed (a ++ s) (a ++ o).
Proof.
  induction a as [|c a IH]; intros N H; [exact H|]. cbn [app]. constructor; [intros ->; apply N; left; reflexivity|]. apply IH; [intros K; apply N; right; exact K|exact H].
Qed.
Lemma lstrip_len s : length (lstrip s) <= length s.
Proof. destruct (lstrip_split s) as [a [E _]]. rewrite E at 2. rewrite app_length. lia. Qed.
Lemma table_squeezed f : forall s, length s < f -> squeezed s (table_to_string (to_table f s)).
Proof.
  induction f as [|f IH]; intros s L; [lia|]. cbn [to_table]. destruct (cut space s) as [[a b]|] eqn:C.
  - apply cut_inv in C. destruct C as [-> N]. rewrite app_length in L. cbn [length] in L. pose proof (lstrip_len b) as Lb.
    rewrite to_string_cons by (apply to_table_nonempty; lia). apply squeezed_plain; [exact N|].
    destruct (lstrip_split b) as [ws [E W]]. rewrite E at 1. apply sq_space; [exact W|apply lstrip_starts|]. apply IH. lia.
  - apply cut_none in C. cbn [table_to_string]. rewrite <- (app_nil_r s). apply squeezed_plain; [exact C|constructor].
Qed.
Lemma squeezed_fun s : forall a b, squeezed s a -> squeezed s b -> a = b.
Proof.
  intros a b A. revert b. induction A as [|c s o N A IH|ws s o W S A IH]; intros b Hb.
  - inversion Hb. reflexivity.
  - inversion Hb; subst; [f_equal; apply IH; assumption|congruence].
  - inversion Hb; subst; [congruence|]. f_equal. apply IH.
    assert (forall x y, Forall white x -> ~ starts_white y -> lstrip (x ++ y) = y) as K by (intros; apply lstrip_ws; assumption).
    match goal with E : _ ++ _ = _ ++ _ |- _ => apply (f_equal lstrip) in E; rewrite !K in E by assumption; congruence end.
Qed.
Lemma lua_squeezed s w : squeezed s w <-> w = table_to_string (string_to_lua s).
Proof.
  assert (squeezed s (table_to_string (string_to_lua s))) as H by (apply table_squeezed; lia).
  split; [intros K; eapply squeezed_fun; eassumption|intros ->; exact H].
Qed.

(** ** Stores *)
Definition tables_ok (l : vars) : Prop := forall x t, find_var x l = Some t -> t <> [].
Definition agrees (l : vars) (st : store) : Prop := forall x, st x = option_map table_to_string (find_var x l).
Lemma find_put {A} x (v : A) l y : find_var y (put_var x v l) = if bytes_eq_dec y x then Some v else find_var y l.
Proof.
  unfold put_var. cbn [find_var]. destruct (bytes_eqb x y) eqn:E.
  - apply bytes_eqb_eq in E. subst y. destruct (bytes_eq_dec x x); [reflexivity|congruence].
  - destruct (bytes_eq_dec y x) as [->|N]; [rewrite bytes_eqb_refl in E; discriminate|].
    induction l as [|[z w] l IH]; [reflexivity|]. cbn [filter find_var fst]. destruct (bytes_eqb z x) eqn:Z; cbn [negb].
    + apply bytes_eqb_eq in Z. subst z. destruct (bytes_eqb x y) eqn:F; [apply bytes_eqb_eq in F; congruence|]. exact IH.
    + cbn [find_var]. destruct (bytes_eqb z y); [reflexivity|exact IH].
Qed.
Lemma put_agrees x (app : bool) v w l st : tables_ok l -> agrees l st -> squeezed v w ->
  let l' := if app then luadb_append x v l else luadb_set x v l in
  tables_ok l' /\ agrees l' (update st x (match app, st x with true, Some o => o ++ " "%char :: w | _, _ => w end)).
Proof.
  intros T A S. apply lua_squeezed in S. assert (string_to_lua v <> []) as N by (apply to_table_nonempty; lia).
  destruct app; cbn zeta; unfold luadb_append, luadb_set; split; intros y; rewrite find_put; unfold update; destruct (bytes_eq_dec y x) as [->|D].
  - intros t [= <-] E. apply app_eq_nil in E. destruct E; contradiction.
  - apply T.
  - rewrite A. cbn [option_map]. f_equal. destruct (find_var x l) as [o|] eqn:F; cbn [option_map].
    + rewrite to_string_app; [rewrite S; reflexivity|exact (T _ _ F)|exact N].
    + exact S.
  - apply A.
  - intros t [= <-]. exact N.
  - apply T.
  - cbn [option_map]. f_equal. exact S.
  - apply A.
Qed.
Lemma copy_value l st x : agrees l st -> luadb_copy l x = value_in st x.
Proof. intros A. unfold luadb_copy, value_in. rewrite A. destruct (find_var x l); reflexivity. Qed.

(** ** Texts *)
Lemma evaluates_ext d d' at_ at_' amp amp' s o : (forall x, d x = d' x) -> (forall x, at_ x = at_' x) -> (forall x, amp x = amp' x) ->
  evaluates d at_ amp s o -> evaluates d' at_' amp' s o.
Proof.
  intros D A P H. induction H; try (constructor; auto; fail).
  match goal with I : In _ _ |- _ => destruct I as [I|[I|[I|[]]]]; injection I as <- <- end.
  - eapply ev_var; [left; reflexivity|assumption|rewrite <- D; assumption|assumption].
  - eapply ev_var; [right; left; reflexivity|assumption|rewrite <- A; assumption|assumption].
  - eapply ev_var; [right; right; left; reflexivity|assumption|rewrite <- P; assumption|assumption].
Qed.
Lemma dollar_ext cwd v o c f g : (forall x, f x = g x) -> forall x, dollar_lookup cwd v o c f x = dollar_lookup cwd v o c g x.
Proof. intros H x. unfold dollar_lookup. rewrite H. reflexivity. Qed.

(** ** Lines *)
Lemma strstr_at2 x y a b : ~ In x a -> x <> y -> strstr [x; y] (a ++ x :: y :: b) = Some (a, b).
Proof.
  intros N D. induction a as [|c a IH]; cbn [app strstr].
  - cbn [prefixb]. rewrite !Ascii.eqb_refl. reflexivity.
  - cbn [prefixb]. destruct (x =?c c) eqn:E; [apply Ascii.eqb_eq in E; subst; exfalso; apply N; left; reflexivity|]. cbn [andb].
    rewrite IH by (intros K; apply N; right; exact K). reflexivity.
Qed.
Lemma strstr_absent m s : m <> [] -> ~ contains m s -> strstr m s = None.
Proof. intros M N. destruct (strstr m s) as [[a b]|] eqn:E; [|reflexivity]. apply strstr_inv in E; [|exact M]. exfalso. apply N. exists a, b. exact E. Qed.
Lemma contains2_app x y a b : contains [x; y] (a ++ b) -> ~ In x a -> contains [x; y] b.
Proof.
  intros [u [v E]] N. revert u E. induction a as [|c a IH]; intros u E; [exists u, v; exact E|].
  apply (IH (fun K => N (or_intror K)) (tl u)). destruct u as [|d u]; cbn [app tl] in *.
  - injection E as -> E. exfalso. apply N. left. reflexivity.
  - injection E as -> E. exact E.
Qed.
Lemma contains2_skip x y c b : contains [x; y] (c :: b) -> c <> x -> contains [x; y] b.
Proof. intros H N. apply (contains2_app x y [c] b); [exact H|]. intros [K|[]]. congruence. Qed.
Lemma white_lit c : white c -> existsb (Ascii.eqb c) [" "; "009"; "010"; "011"; "012"; "013"]%char = true.
Proof. intros H. apply existsb_exists. exists c. split; [exact H|apply Ascii.eqb_refl]. Qed.
Lemma white_no c l : Forall white l -> existsb (Ascii.eqb c) [" "; "009"; "010"; "011"; "012"; "013"]%char = false -> ~ In c l.
Proof. intros F E I. rewrite Forall_forall in F. apply F, white_lit in I. congruence. Qed.
Lemma keep_first_name n sp : n <> [] -> ~ ends_white n -> Forall white sp -> keep_first (n ++ sp) = n.
Proof.
  intros N E W. destruct n as [|c n]; [congruence|]. cbn [app keep_first]. f_equal. rewrite rstrip_app by exact W. apply rstrip_id.
  intros [t [d [H K]]]. apply E. exists (c :: t), d. split; [cbn; congruence|exact K].
Qed.
Definition app_flag (o : operator) : bool := match o with Extend => true | _ => false end.
Lemma split_assignment_ok a : assignment_ok a -> split_assignment (assignment_text a) = Some (a_name a, app_flag (a_op a), a_value a).
Proof.
  intros [Hn [Hne [Hb [Hk [W1 [W2 [Sv [C1 C2]]]]]]]]. destruct a as [n sp1 op sp2 v]. cbn [a_name a_before a_op a_after a_value] in *.
  assert (En : ~ ends_white n) by (intros [t [c [-> W]]]; destruct (Hn c) as [K _]; [apply in_or_app; right; left; reflexivity|contradiction]).
  assert (Nc : forall c, In c ["="; "+"; ":"]%char -> ~ In c (n ++ sp1)).
  { intros c I K. apply in_app_or in K. destruct K as [K|K]; [destruct (Hn c K); contradiction|].
    revert K. apply white_no; [exact W1|]. destruct I as [<-|[<-|[<-|[]]]]; reflexivity. }
  assert (Keep : keep_first (n ++ sp1) = n) by (apply keep_first_name; assumption).
  assert (Val : lstrip (sp2 ++ v) = v) by (apply lstrip_ws; assumption).
  assert (NoP : op <> Extend -> ~ contains (B "+=") (sp2 ++ v)).
  { intros D K. apply contains2_app in K; [apply C1 in K; contradiction|]. apply white_no; [exact W2|reflexivity]. }
  assert (NoC : op = Assign -> ~ contains (B ":=") (sp2 ++ v)).
  { intros D K. apply contains2_app in K; [apply C2 in K; contradiction|]. apply white_no; [exact W2|reflexivity]. }
  unfold assignment_text, split_assignment. cbn [a_name a_before a_op a_after a_value]. rewrite (app_assoc n sp1). destruct op; cbn [operator_text app_flag].
  - change (B "=" ++ sp2 ++ v) with ("="%char :: sp2 ++ v).
    rewrite strstr_absent; [|discriminate|].
    2: { intros K. apply contains2_app in K; [|apply Nc; cbn; auto]. apply contains2_skip in K; [|discriminate]. revert K. apply NoP. discriminate. }
    rewrite strstr_absent; [|discriminate|].
    2: { intros K. apply contains2_app in K; [|apply Nc; cbn; auto]. apply contains2_skip in K; [|discriminate]. revert K. apply NoC. reflexivity. }
    rewrite cut_app by (apply Nc; cbn; auto). rewrite Keep, Val. reflexivity.
  - change (B ":=" ++ sp2 ++ v) with (":"%char :: "="%char :: sp2 ++ v).
    rewrite strstr_absent; [|discriminate|].
    2: { intros K. apply contains2_app in K; [|apply Nc; cbn; auto]. apply contains2_skip in K; [|discriminate]. apply contains2_skip in K; [|discriminate]. revert K. apply NoP. discriminate. }
    change (B ":=") with [":"; "="]%char. rewrite strstr_at2; [|apply Nc; cbn; auto|discriminate]. rewrite Keep, Val. reflexivity.
  - change (B "+=" ++ sp2 ++ v) with ("+"%char :: "="%char :: sp2 ++ v). change (B "+=") with ["+"; "="]%char.
    rewrite strstr_at2; [|apply Nc; cbn; auto|discriminate]. rewrite Keep, Val. reflexivity.
Qed.

(** No assignment is taken for another directive. *)
Definition stops (c : ascii) : bool := existsb (Ascii.eqb c) [" "; "009"; "010"; "011"; "012"; "013"; "="; "+"; ":"]%char.
Lemma word_prefix n : forall c rest kw, (forall d, In d n -> stops d = false) -> stops c = true -> forallb (fun d => negb (stops d)) kw = true ->
  prefixb (kw ++ [space]) (n ++ c :: rest) = true -> n = kw.
Proof.
  induction n as [|d n IH]; intros c rest kw N C K P; destruct kw as [|k kw]; [reflexivity| | |].
  - cbn [app prefixb] in P. apply andb_prop in P. destruct P as [P _]. apply Ascii.eqb_eq in P. subst k. cbn [forallb] in K. rewrite C in K. discriminate.
  - cbn [app prefixb] in P. apply andb_prop in P. destruct P as [P _]. apply Ascii.eqb_eq in P. subst d.
    specialize (N space (or_introl eq_refl)). discriminate.
  - cbn [app prefixb] in P. apply andb_prop in P. destruct P as [P Q]. apply Ascii.eqb_eq in P. subst k. f_equal.
    cbn [forallb] in K. apply andb_prop in K. apply (IH c rest kw); [intros e I; apply N; right; exact I|exact C|apply K|exact Q].
Qed.
Lemma assignment_shape a : assignment_ok a -> exists c rest, stops c = true /\ assignment_text a = a_name a ++ c :: rest /\ In "="%char (c :: rest).
Proof.
  intros [_ [_ [_ [_ [W _]]]]]. unfold assignment_text. destruct (a_before a) as [|w sp] eqn:E.
  - cbn [app]. destruct (a_op a); cbn [operator_text]; [exists "="%char, (a_after a ++ a_value a)|exists ":"%char, ("="%char :: a_after a ++ a_value a)|exists "+"%char, ("="%char :: a_after a ++ a_value a)];
      (split; [reflexivity|split; [reflexivity|cbn [In]; auto]]).
  - exists w, (sp ++ operator_text (a_op a) ++ a_after a ++ a_value a). split; [|split; [reflexivity|]].
    + inversion W as [|? ? Hw]; subst. apply white_lit in Hw. unfold stops. apply existsb_exists in Hw. destruct Hw as [x [I X]]. apply existsb_exists. exists x. split; [|exact X].
      cbn [In] in *. intuition.
    + right. apply in_or_app. right. apply in_or_app. left. destruct (a_op a); cbn; auto.
Qed.
Lemma name_stops a : assignment_ok a -> forall d, In d (a_name a) -> stops d = false.
Proof.
  intros [H _] d I. destruct (H d I) as [N E]. destruct (stops d) eqn:S; [|reflexivity]. exfalso. unfold stops in S. apply existsb_exists in S.
  destruct S as [x [J X]]. apply Ascii.eqb_eq in X. subst x. cbn [In] in J. unfold white in N. cbn [In] in N, E. intuition.
Qed.
Lemma keyword_no kw a : assignment_ok a -> In kw keywords -> prefixb (kw ++ [space]) (assignment_text a) = false.
Proof.
  intros O I. destruct (assignment_shape a O) as [c [rest [C [E _]]]]. rewrite E. destruct (prefixb _ _) eqn:P; [|reflexivity]. exfalso.
  assert (a_name a = kw) as Q; [|destruct O as [_ [_ [_ [K _]]]]; rewrite Q in K; contradiction].
  eapply word_prefix; [apply name_stops, O|exact C| |exact P]. cbn in I. repeat (destruct I as [<-|I]; [reflexivity|]). destruct I.
Qed.
Lemma not_equal_line a l : assignment_ok a -> ~ In "="%char l -> bytes_eqb (assignment_text a) l = false.
Proof.
  intros O N. destruct (assignment_shape a O) as [c [rest [C [E I]]]]. destruct (bytes_eqb _ l) eqn:Q; [|reflexivity]. apply bytes_eqb_eq in Q. exfalso. apply N. rewrite <- Q, E.
  apply in_or_app. right. exact I.
Qed.
Lemma keyword_in k : In k ["ifeq"; "ifneq"; "ifdef"; "ifndef"; "error"; "include"; "preload"; "run"; "export"; "import"]%string -> In (B k) keywords.
Proof. intros I. unfold keywords. apply in_map. exact I. Qed.
Lemma classify_assignment a : assignment_ok a -> classify (assignment_text a) = LOther.
Proof.
  intros O. unfold classify. rewrite !not_equal_line by (try exact O; cbn; intuition discriminate).
  change (B "ifeq ") with (B "ifeq" ++ [space]). change (B "ifneq ") with (B "ifneq" ++ [space]).
  change (B "ifdef ") with (B "ifdef" ++ [space]). change (B "ifndef ") with (B "ifndef" ++ [space]).
  rewrite !keyword_no; try exact O; try (apply keyword_in; cbn; tauto). reflexivity.
Qed.

Section Run.
Variable cwd variantdir outputdir : bytes.
Variable config : bytes -> option bytes.
Variable node_ref : bytes -> option bytes.
Variable node_path : Z -> option bytes.
Variable getenv : bytes -> option bytes.
Variable others : env -> bytes -> env * bool.
Notation direct := (directive cwd variantdir outputdir config node_ref node_path getenv others).
Notation setv := (set_variable cwd variantdir outputdir config node_ref node_path).
Notation ev := (eval_text cwd variantdir outputdir config node_path).
Definition text_in (nodes : list (bytes * bytes)) (st : store) (s o : bytes) : Prop :=
  evaluates (dollar_lookup cwd variantdir outputdir config (value_in st)) config (vardb_copy nodes) s o.

Lemma eval_text_spec s t o : ev s t = Some o <-> evaluates (dollar_lookup cwd variantdir outputdir config (luadb_copy (e_vars s))) config (vardb_copy (e_nodes s)) t o.
Proof.
  unfold eval_text. destruct (C29_expansion (dollar_lookup cwd variantdir outputdir config (luadb_copy (e_vars s))) config (vardb_copy (e_nodes s)) node_path t) as [K _].
  rewrite <- K. destruct (eval _ _ _ _ _ _); split; congruence.
Qed.
Lemma eval_text_store s st t o : agrees (e_vars s) st -> (ev s t = Some o <-> text_in (e_nodes s) st t o).
Proof.
  intros A. rewrite eval_text_spec. unfold text_in. split; apply evaluates_ext; try reflexivity; apply dollar_ext; intros x; [|symmetry]; apply copy_value, A.
Qed.
Lemma directive_assignment s a : assignment_ok a -> direct s (assignment_text a) = setv s (assignment_text a).
Proof.
  intros O. unfold directive. rewrite !not_equal_line by (try exact O; cbn; intuition discriminate).
  change (B "error ") with (B "error" ++ [space]). change (B "include ") with (B "include" ++ [space]). change (B "preload ") with (B "preload" ++ [space]).
  change (B "run ") with (B "run" ++ [space]). change (B "export ") with (B "export" ++ [space]). change (B "import ") with (B "import" ++ [space]).
  rewrite !keyword_no; try exact O; try (apply keyword_in; cbn; tauto).
  destruct (assignment_shape a O) as [c [rest [C [E _]]]]. rewrite E. destruct O as [Hn [Hne [Hb _]]]. destruct (a_name a) as [|d n] eqn:N; [congruence|]. cbn [app].
  assert (d =?c ":"%char = false) as -> by (apply Ascii.eqb_neq; intros ->; destruct (Hn ":"%char (or_introl eq_refl)) as [_ K]; apply K; cbn; auto).
  assert (d =?c "!"%char = false) as -> by (apply Ascii.eqb_neq; intros ->; apply (Hb n); reflexivity). reflexivity.
Qed.
Lemma starts_prefixb m s : prefixb m s = true <-> starts_with m s.
Proof. apply prefixb_spec. Qed.
Lemma set_variable_ok s st a x v w : assignment_ok a -> tables_ok (e_vars s) -> agrees (e_vars s) st ->
  text_in (e_nodes s) st (a_name a) x -> ~ starts_with (B "CONFIG_") x -> ~ starts_with (B "&") x ->
  text_in (e_nodes s) st (a_value a) v -> squeezed v w ->
  exists s', setv s (assignment_text a) = (s', true) /\ e_nodes s' = e_nodes s /\ e_done s' = e_done s /\ tables_ok (e_vars s') /\
  agrees (e_vars s') (update st x (match a_op a, st x with Extend, Some o => o ++ " "%char :: w | _, _ => w end)).
Proof.
  intros O T A X NC NA V W. apply (eval_text_store s st _ _ A) in X. apply (eval_text_store s st _ _ A) in V.
  exists (set_plain s x (app_flag (a_op a)) v). split.
  - unfold set_variable. rewrite split_assignment_ok by exact O. rewrite X, V. destruct (prefixb config_prefix x) eqn:P; [apply starts_prefixb in P; contradiction|].
    destruct x as [|c y]; [reflexivity|]. destruct (c =?c "&"%char) eqn:Q; [|reflexivity]. apply Ascii.eqb_eq in Q. subst c. exfalso. apply NA. exists y. reflexivity.
  - split; [reflexivity|]. split; [reflexivity|]. unfold set_plain. cbn [e_vars].
    destruct (put_agrees x (app_flag (a_op a)) v w (e_vars s) st T A W) as [K1 K2]. split; [exact K1|]. intros y. rewrite <- (K2 y).
    unfold app_flag. destruct (a_op a); reflexivity.
Qed.
Variable defined : bytes -> option bool.
Notation dl := (do_line env (eval_eq cwd variantdir outputdir config node_path) (var_ifdef defined) direct).
Lemma run_assignments l : forall s st st', Forall assignment_ok l -> tables_ok (e_vars s) -> agrees (e_vars s) st -> assigned (text_in (e_nodes s)) st l st' ->
  exists s', through env if_stmt dl s if_init (map assignment_text l) s' if_init /\
  e_nodes s' = e_nodes s /\ e_done s' = e_done s /\ tables_ok (e_vars s') /\ agrees (e_vars s') st'.
Proof.
  induction l as [|a l IH]; intros s st st' O T A H.
  - inversion H; subst. exists s. repeat split; auto. constructor.
  - inversion O as [|? ? Oa Ol]; subst. inversion H as [|? ? ? x v w ? X NC NA V W R]; subst.
    destruct (set_variable_ok s st a x v w Oa T A X NC NA V W) as [s1 [S1 [S2 [S3 [S4 S5]]]]].
    rewrite <- S2 in R. destruct (IH s1 _ st' Ol S4 S5 R) as [s' [R1 [R2 [R3 [R4 R5]]]]].
    exists s'. split; [|rewrite R2, R3; auto]. cbn [map]. eapply th_cons; [|exact R1].
    unfold do_line. rewrite classify_assignment by exact Oa. change (if_true if_init) with true. cbn iota. rewrite directive_assignment by exact Oa. rewrite S1. reflexivity.
Qed.
End Run.

(** A test for [assignment_ok]. *)
Definition assignment_okb (a : assignment) : bool :=
  forallb (fun c => negb (isspace c) && negb (existsb (Ascii.eqb c) ["="; "+"; ":"]%char)) (a_name a) &&
  match a_name a with [] => false | c :: _ => negb (c =?c "!"%char) end &&
  negb (existsb (bytes_eqb (a_name a)) keywords) && forallb isspace (a_before a) && forallb isspace (a_after a) &&
  bytes_eqb (lstrip (a_value a)) (a_value a) &&
  (match strstr (B "+=") (a_value a) with None => true | Some _ => app_flag (a_op a) end) &&
  (match strstr (B ":=") (a_value a) with None => true | Some _ => match a_op a with Assign => false | _ => true end end).
Lemma assignment_okb_ok a : assignment_okb a = true -> assignment_ok a.
Proof.
  unfold assignment_okb. rewrite !andb_true_iff. intros [[[[[[[H1 H2] H3] H4] H5] H6] H7] H8]. unfold assignment_ok.
  split. { intros c I. rewrite forallb_forall in H1. specialize (H1 c I). apply andb_prop in H1. rewrite !negb_true_iff in H1. destruct H1 as [W E].
    split; [intros K; apply isspace_white in K; congruence|]. intros K. assert (existsb (Ascii.eqb c) ["="; "+"; ":"]%char = true); [|congruence].
    apply existsb_exists. exists c. split; [exact K|apply Ascii.eqb_refl]. }
  split. { intros K. rewrite K in H2. discriminate. }
  split. { intros t K. rewrite K in H2. discriminate. }
  split. { intros K. apply negb_true_iff in H3. assert (existsb (bytes_eqb (a_name a)) keywords = true); [|congruence].
    apply existsb_exists. exists (a_name a). split; [exact K|apply bytes_eqb_refl]. }
  split; [apply forallb_white, H4|]. split; [apply forallb_white, H5|].
  split. { apply bytes_eqb_eq in H6. rewrite <- H6. apply lstrip_starts. }
  split; intros [u [w K]].
  - destruct (strstr (B "+=") (a_value a)) eqn:E; [destruct (a_op a); cbn in H7; congruence|]. exfalso. exact (strstr_none _ _ E u w K).
  - destruct (strstr (B ":=") (a_value a)) eqn:E; [destruct (a_op a); cbn in H8; congruence|]. exfalso. exact (strstr_none _ _ E u w K).
Qed.
