(** Properties of reading a Tupfile (C47, C48). *)
From Verif Require Import Base ConfigModel ConfigSpec ConfigProofs ParseModel ParseSpec ParseProofs ParseProofs4 ParseProps IfModel TextModel TextSpec TextProofs TextProofs2 TextProofs3.
From Coq Require Import ZArith.

(** C47. Every text without NUL bytes that does not end in a backslash is a
    sequence of items, so the theorems about items are about all such files. *)
Theorem C47_every_text_has_items : forall f, no_nul f ->
  (~ unfinished f <-> exists items, items <> [] /\ Forall item_ok items /\ f = file_text items).
Proof. exact every_text. Qed.
Print Assumptions C47_every_text_has_items.

(** C47. A Tupfile is obeyed statement by statement: its statements, in their
    order, each as one line. The first that fails ends it, and the number in the
    message is that of the last line of this statement. *)
Theorem C47_obeyed_as_written_partial : forall St eval_eq var_ifdef other items (s s' : St) v,
  items <> [] -> Forall item_ok items -> prefixb bom (file_text items) = false ->
  let obey := do_line St eval_eq var_ifdef other in
  exists st, statements 1 items st /\ (forall st2, statements 1 items st2 -> st2 = st) /\
  (parse_tupfile St eval_eq var_ifdef other s (file_text items) = (s', v) <->
   (exists i, through St if_stmt obey s if_init (map snd st) s' i /\ v = (if if_check i then Parsed else MissingEndif)) \/
   (exists a n l c s1 i1, st = a ++ (n, l) :: c /\ through St if_stmt obey s if_init (map snd a) s1 i1 /\
      obey s1 i1 l = (s', None) /\ v = ErrorAt n)).
Proof.
  intros St eval_eq var_ifdef other items s s' v N O Bm obey. destruct (parse_finished St eval_eq var_ifdef other items s s' v N O Bm) as [st [S1 S2]].
  exists st. split; [exact S1|]. split; [intros st2 H; eapply statements_fun; eassumption|exact S2].
Qed.
Print Assumptions C47_obeyed_as_written_partial.
(** C47. So a file is accepted exactly if the lines of its statements are (C22 says
    which are), with the same effect. *)
Theorem C47_accepted_partial : forall St eval_eq var_ifdef other items (s s' : St) st,
  items <> [] -> Forall item_ok items -> prefixb bom (file_text items) = false -> statements 1 items st ->
  (parse_tupfile St eval_eq var_ifdef other s (file_text items) = (s', Parsed) <->
   parse_lines St eval_eq var_ifdef other s if_init (map snd st) = (s', true)).
Proof.
  intros St eval_eq var_ifdef other items s s' st N O Bm H. destruct (lines_items items 0 O) as [st' [S1 S2]].
  assert (st' = st) as -> by (eapply statements_fun; eassumption).
  unfold parse_tupfile, slurp. rewrite Bm, loop_obey by lia. unfold all_lines in S2. rewrite S2. clear. generalize if_init as i. revert s.
  induction st as [|[n l] st IH]; intros s i; cbn [obey map snd parse_lines].
  - unfold final. destruct (if_check i); split; congruence.
  - destruct (do_line _ _ _ _ s i l) as [s1 [i1|]]; [apply IH|split; discriminate].
Qed.
Print Assumptions C47_accepted_partial.
(** The items of
      # two \
      comment lines
      (a blank line)
        X = 1 \
        2
      Y = 3 *)
Definition ex_items : list item :=
  [Statement [] [(B "# two ", false)] (B "comment lines") []; Blank (B "  ");
   Statement (B "  ") [(B "X = 1 ", true)] (B "  2") (B " "); Statement [] [] (B "Y = 3") ["013"%char]; Blank []].
Example C47_ex :
  Forall item_ok ex_items /\ prefixb bom (file_text ex_items) = false /\
  statements 1 ex_items [(5, B "X = 1      2"); (6, B "Y = 3")] /\
  parse_tupfile (list bytes) (fun s _ => (s, None)) (fun s _ => (s, None)) (fun s l => (s ++ [l], negb (bytes_eqb l (B "Y = 3")))) [] (file_text ex_items) =
  ([B "X = 1      2"; B "Y = 3"], ErrorAt 6).
Proof.
  split; [apply items_okb; vm_compute; reflexivity|]. split; [reflexivity|]. split; [|vm_compute; reflexivity].
  assert (E : forall (s : bytes) c, existsb (Ascii.eqb c) [" "; "009"; "010"; "011"; "012"; "013"]%char = false -> trimmed_end (s ++ [c]) (s ++ [c])).
  { intros s c H. exists []. split; [symmetry; apply app_nil_r|]. split; [constructor|]. intros [t [d [K W]]]. apply app_inj_tail in K. destruct K as [_ ->]. exact (not_white_lit d H W). }
  apply st_comment; [exists (B " two   comment lines"); reflexivity|]. apply st_blank.
  apply st_statement; [intros [t K]; discriminate|apply (E (B "X = 1      ")); reflexivity|].
  apply st_statement; [intros [t K]; discriminate|apply (E (B "Y = ")); reflexivity|apply st_blank, st_nil].
Qed.

(** C47. A byte order mark at the start changes nothing. *)
Theorem C47_byte_order_mark : forall St eval_eq var_ifdef other (s : St) f, prefixb bom f = false ->
  parse_tupfile St eval_eq var_ifdef other s (bom ++ f) = parse_tupfile St eval_eq var_ifdef other s f.
Proof. intros St eval_eq var_ifdef other s f H. unfold parse_tupfile. rewrite slurp_bom. unfold slurp. rewrite H. reflexivity. Qed.
Print Assumptions C47_byte_order_mark.

(** C47 fails for every file that ends in a backslash (or a backslash and a carriage
    return): if no earlier statement fails, tup reads past the end of the text. *)
Theorem C47_end_of_file_refuted : forall St eval_eq var_ifdef other f (s s' : St) v, no_nul f -> unfinished f -> prefixb bom f = false ->
  let obey := do_line St eval_eq var_ifdef other in
  exists items st t, f = concat (map (fun i => item_text i ++ [newline]) items) ++ t /\ Forall item_ok items /\ statements 1 items st /\
  (parse_tupfile St eval_eq var_ifdef other s f = (s', v) <->
   (exists i, through St if_stmt obey s if_init (map snd st) s' i /\ v = OutOfBounds) \/
   (exists a n l c s1 i1, st = a ++ (n, l) :: c /\ through St if_stmt obey s if_init (map snd a) s1 i1 /\
      obey s1 i1 l = (s', None) /\ v = ErrorAt n)).
Proof. intros. exact (parse_torn St eval_eq var_ifdef other f s s' v H H0 H1). Qed.
Print Assumptions C47_end_of_file_refuted.
Example C47_end_of_file_ex : forall St eval_eq var_ifdef other (s : St),
  parse_tupfile St eval_eq var_ifdef other s (B "# the end \") = (s, OutOfBounds).
Proof. reflexivity. Qed.
(** C47 fails for a first line of one byte: the byte before the text is read. *)
Theorem C47_first_byte_refuted : exists f, f = B "x" /\ reads_before f = true.
Proof. eexists. split; [reflexivity|]. reflexivity. Qed.
Print Assumptions C47_first_byte_refuted.
(** C47 fails for a rule after an empty continued line: indentation is only removed
    before the first line of a statement, so it is not taken for a rule. *)
Theorem C47_rule_after_break_refuted :
  let f := B "\" ++ newline :: B ": |> echo |>" in
  let others := fun s l => ({| e_vars := []; e_nodes := []; e_done := e_done s ++ [l] |}, true) in
  let run := run_tupfile [] [] [] (fun _ => None) (fun _ => None) (fun _ => None) (fun _ => None) (fun _ => None) others in
  run {| e_vars := []; e_nodes := []; e_done := [] |} (B ": |> echo |>") = ({| e_vars := []; e_nodes := []; e_done := [B ": |> echo |>"] |}, Parsed) /\
  run {| e_vars := []; e_nodes := []; e_done := [] |} f = ({| e_vars := []; e_nodes := []; e_done := [] |}, ErrorAt 2).
Proof. vm_compute. split; reflexivity. Qed.
Print Assumptions C47_rule_after_break_refuted.

(** ** Assignments *)
(** C48. A Tupfile of assignments, however it is laid out, leaves the variables as
    if they were made one after the other, each with the values at that point. It
    does nothing else. *)
Theorem C48_assignments_in_order_partial :
  forall cwd variantdir outputdir config node_ref node_path getenv defined others items st l s vs vs',
  items <> [] -> Forall item_ok items -> prefixb bom (file_text items) = false -> statements 1 items st ->
  map snd st = map assignment_text l -> Forall assignment_ok l ->
  (forall x t, find_var x (e_vars s) = Some t -> t <> []) ->
  (forall x, vs x = option_map join (find_var x (e_vars s))) ->
  assigned (fun vars => evaluates (dollar_lookup cwd variantdir outputdir config (value_in vars)) config (vardb_copy (e_nodes s))) vs l vs' ->
  exists s', run_tupfile cwd variantdir outputdir config node_ref node_path getenv defined others s (file_text items) = (s', Parsed) /\
  e_nodes s' = e_nodes s /\ e_done s' = e_done s /\ forall x, luadb_copy (e_vars s') x = value_in vs' x.
Proof.
  intros cwd variantdir outputdir config node_ref node_path getenv defined others items st l s vs vs' N O Bm S E Ol T A H.
  assert (J : forall t, join t = table_to_string t) by reflexivity.
  assert (A' : agrees (e_vars s) vs) by (intros x; rewrite A; destruct (find_var x (e_vars s)); cbn [option_map]; [rewrite J|]; reflexivity).
  destruct (run_assignments cwd variantdir outputdir config node_ref node_path getenv others defined l s vs vs' Ol T A' H) as [s' [R1 [R2 [R3 [R4 R5]]]]].
  exists s'. split; [|split; [exact R2|split; [exact R3|intros x; apply copy_value, R5]]].
  unfold run_tupfile. apply (proj2 (C47_accepted_partial env _ _ _ items s s' st N O Bm S)). rewrite E.
  pose proof (through_lines _ _ _ _ _ _ _ _ _ R1) as K. exact K.
Qed.
Print Assumptions C48_assignments_in_order_partial.
(** C48. The value never depends on what is assigned later, and no assignment
    changes another variable. *)
Theorem C48_only_the_named_variable : forall cwd variantdir outputdir config node_ref node_path s line s' b,
  set_variable cwd variantdir outputdir config node_ref node_path s line = (s', b) ->
  (b = false -> s' = s) /\ e_done s' = e_done s /\
  exists x, (forall y, y <> x -> find_var y (e_vars s') = find_var y (e_vars s)) /\
            (forall y, "&"%char :: y <> x -> find_var y (e_nodes s') = find_var y (e_nodes s)).
Proof.
  intros cwd variantdir outputdir config node_ref node_path s line s' b. unfold set_variable.
  destruct (split_assignment line) as [[[name app] value]|]; [|intros [= <- <-]; repeat split; exists []; auto].
  destruct (eval_text _ _ _ _ _ s name) as [x|]; [|intros [= <- <-]; repeat split; exists []; auto].
  destruct (eval_text _ _ _ _ _ s value) as [v|]; [|intros [= <- <-]; repeat split; exists []; auto].
  destruct (prefixb config_prefix x); [intros [= <- <-]; repeat split; exists []; auto|].
  assert (P : (set_plain s x app v, true) = (s', b) -> (b = false -> s' = s) /\ e_done s' = e_done s /\
    exists x, (forall y, y <> x -> find_var y (e_vars s') = find_var y (e_vars s)) /\ (forall y, "&"%char :: y <> x -> find_var y (e_nodes s') = find_var y (e_nodes s))).
  { intros [= <- <-]. split; [discriminate|]. split; [reflexivity|]. exists x. split; [|reflexivity]. intros y Y. unfold set_plain. cbn [e_vars].
    destruct app; unfold luadb_append, luadb_set; rewrite find_put; destruct (bytes_eq_dec y x); congruence. }
  destruct x as [|c x]; [exact P|]. destruct (c =?c "&"%char) eqn:C; [|exact P]. apply Ascii.eqb_eq in C. subst c.
  destruct (node_ref v) as [r|]; intros [= <- <-]; [|repeat split; exists []; auto].
  split; [discriminate|]. split; [reflexivity|]. exists ("&"%char :: x). split; [reflexivity|]. intros y Y. cbn [e_nodes].
  destruct app; unfold vardb_append; rewrite find_put; (destruct (bytes_eq_dec y x); [congruence|reflexivity]).
Qed.
Print Assumptions C48_only_the_named_variable.
(** C48. The variables of tup.config cannot be assigned, by whatever expression
    the name is given. *)
Theorem C48_config_cannot_be_assigned : forall cwd variantdir outputdir config node_ref node_path getenv others s a x,
  assignment_ok a -> starts_with (B "CONFIG_") x ->
  evaluates (dollar_lookup cwd variantdir outputdir config (luadb_copy (e_vars s))) config (vardb_copy (e_nodes s)) (a_name a) x ->
  directive cwd variantdir outputdir config node_ref node_path getenv others s (assignment_text a) = (s, false).
Proof.
  intros cwd variantdir outputdir config node_ref node_path getenv others s a x O P X. rewrite directive_assignment by exact O.
  apply eval_text_spec with (node_path := node_path) in X. unfold set_variable. rewrite split_assignment_ok by exact O. rewrite X.
  destruct (eval_text _ _ _ _ _ s (a_value a)); [|reflexivity]. apply starts_prefixb in P. unfold config_prefix. rewrite P. reflexivity.
Qed.
Print Assumptions C48_config_cannot_be_assigned.
(** C48. A &-variable holds references to the files it was given, the later ones
    after the earlier ones. *)
Theorem C48_node_variables : forall cwd variantdir outputdir config node_ref node_path getenv others s a x v,
  assignment_ok a ->
  evaluates (dollar_lookup cwd variantdir outputdir config (luadb_copy (e_vars s))) config (vardb_copy (e_nodes s)) (a_name a) ("&"%char :: x) ->
  evaluates (dollar_lookup cwd variantdir outputdir config (luadb_copy (e_vars s))) config (vardb_copy (e_nodes s)) (a_value a) v ->
  match node_ref v with
  | None => directive cwd variantdir outputdir config node_ref node_path getenv others s (assignment_text a) = (s, false)
  | Some r => exists s', directive cwd variantdir outputdir config node_ref node_path getenv others s (assignment_text a) = (s', true) /\
      e_vars s' = e_vars s /\ e_done s' = e_done s /\
      forall y, find_var y (e_nodes s') =
        if bytes_eq_dec y x then Some (match a_op a, find_var x (e_nodes s) with Extend, Some o => o ++ " "%char :: r | _, _ => r end)
        else find_var y (e_nodes s)
  end.
Proof.
  intros cwd variantdir outputdir config node_ref node_path getenv others s a x v O X V. rewrite directive_assignment by exact O.
  apply eval_text_spec with (node_path := node_path) in X, V. unfold set_variable. rewrite split_assignment_ok by exact O. rewrite X, V.
  change (prefixb config_prefix ("&"%char :: x)) with false. cbn iota. rewrite Ascii.eqb_refl.
  destruct (node_ref v) as [r|]; [|reflexivity]. eexists. split; [reflexivity|]. split; [reflexivity|]. split; [reflexivity|]. intros y. cbn [e_nodes].
  destruct (a_op a); cbn [app_flag]; unfold vardb_append; rewrite find_put; (destruct (bytes_eq_dec y x); reflexivity).
Qed.
Print Assumptions C48_node_variables.
(** C48. import takes the value from the environment, or the default if there is
    none; with neither the variable is no longer set. *)
Theorem C48_import : forall cwd variantdir outputdir config node_ref node_path getenv others s x d,
  x <> [] -> ~ In "="%char x ->
  let after := fun line => directive cwd variantdir outputdir config node_ref node_path getenv others s line in
  let set := fun s' o => (forall y, y <> x -> find_var y (e_vars s') = find_var y (e_vars s)) /\ e_nodes s' = e_nodes s /\ e_done s' = e_done s /\
    match o with Some v => exists w, squeezed v w /\ option_map join (find_var x (e_vars s')) = Some w | None => find_var x (e_vars s') = None end in
  (exists s', after (B "import " ++ x) = (s', true) /\ set s' (getenv x)) /\
  (exists s', after (B "import " ++ x ++ B "=" ++ d) = (s', true) /\ set s' (Some (match getenv x with Some v => v | None => d end))).
Proof.
  intros cwd variantdir outputdir config node_ref node_path getenv others s x d Ne Nx after set.
  assert (J : forall t, join t = table_to_string t) by reflexivity.
  assert (D : forall r, after (B "import " ++ r) = import getenv s r).
  { intros r. unfold after, directive. destruct (bytes_eqb (B "import " ++ r) (B "include_rules")) eqn:E; [apply bytes_eqb_eq in E; discriminate|]. reflexivity. }
  assert (P : forall v s1, s1 = {| e_vars := luadb_set x v (e_vars s); e_nodes := e_nodes s; e_done := e_done s |} -> set s1 (Some v)).
  { intros v s1 ->. unfold set. cbn [e_vars e_nodes e_done]. split; [|split; [reflexivity|split; [reflexivity|]]].
    - intros y Y. unfold luadb_set. rewrite find_put. destruct (bytes_eq_dec y x); [congruence|reflexivity].
    - exists (table_to_string (string_to_lua v)). split; [apply lua_squeezed; reflexivity|]. unfold luadb_set. rewrite find_put. destruct (bytes_eq_dec x x); [cbn [option_map]; rewrite J; reflexivity|congruence]. }
  assert (I1 : import getenv s x = match getenv x with
    | Some v => ({| e_vars := luadb_set x v (e_vars s); e_nodes := e_nodes s; e_done := e_done s |}, true)
    | None => ({| e_vars := filter (fun e => negb (bytes_eqb (fst e) x)) (e_vars s); e_nodes := e_nodes s; e_done := e_done s |}, true) end).
  { clear - Ne Nx. unfold import. rewrite cut_nin by exact Nx. destruct x; [congruence|]. destruct (getenv _); reflexivity. }
  assert (I2 : import getenv s (x ++ B "=" ++ d) =
    ({| e_vars := luadb_set x (match getenv x with Some v => v | None => d end) (e_vars s); e_nodes := e_nodes s; e_done := e_done s |}, true)).
  { clear - Ne Nx. unfold import. change (B "=" ++ d) with ("="%char :: d). rewrite cut_app by exact Nx.
    destruct x; [congruence|]. cbn [app]. destruct (getenv _); reflexivity. }
  split; rewrite D; [rewrite I1|rewrite I2].
  - destruct (getenv x) as [v|].
    + eexists. split; [reflexivity|]. apply P. reflexivity.
    + eexists. split; [reflexivity|]. unfold set. cbn [e_vars e_nodes e_done].
      assert (F : forall y, find_var y (filter (fun e : bytes * list bytes => negb (bytes_eqb (fst e) x)) (e_vars s)) = if bytes_eq_dec y x then None else find_var y (e_vars s)).
      { intros y. clear. induction (e_vars s) as [|[z w] l IH]; [destruct (bytes_eq_dec y x); reflexivity|]. cbn [filter fst]. destruct (bytes_eqb z x) eqn:E; cbn [negb find_var].
        - apply bytes_eqb_eq in E. subst z. rewrite IH. destruct (bytes_eq_dec y x) as [->|N]; [reflexivity|]. destruct (bytes_eqb x y) eqn:G; [apply bytes_eqb_eq in G; congruence|reflexivity].
        - rewrite IH. destruct (bytes_eqb z y) eqn:G; [|reflexivity]. apply bytes_eqb_eq in G. subst z. destruct (bytes_eq_dec y x) as [->|N]; [rewrite bytes_eqb_refl in E; discriminate|reflexivity]. }
      split; [intros y Y; rewrite F; destruct (bytes_eq_dec y x); [congruence|reflexivity]|]. split; [reflexivity|]. split; [reflexivity|]. rewrite F. destruct (bytes_eq_dec x x); [reflexivity|congruence].
  - eexists. split; [reflexivity|]. apply P. reflexivity.
Qed.
Print Assumptions C48_import.
(** C48. ifeq (a,b) holds exactly if the two texts have the same value. *)
Theorem C48_condition : forall cwd variantdir outputdir config node_path s before l r rest x y,
  ~ In "("%char before -> ~ In ","%char l -> ~ In ")"%char rest ->
  evaluates (dollar_lookup cwd variantdir outputdir config (luadb_copy (e_vars s))) config (vardb_copy (e_nodes s)) l x ->
  evaluates (dollar_lookup cwd variantdir outputdir config (luadb_copy (e_vars s))) config (vardb_copy (e_nodes s)) r y ->
  exists b, eval_eq cwd variantdir outputdir config node_path s (before ++ B "(" ++ l ++ B "," ++ r ++ B ")" ++ rest) = (s, Some b) /\ (b = true <-> x = y).
Proof.
  intros cwd variantdir outputdir config node_path s before l r rest x y Nb Nl Nr X Y. exists (bytes_eqb x y). split; [|apply bytes_eqb_eq].
  apply eval_text_spec with (node_path := node_path) in X, Y.
  assert (L : forall a, last_index ")"%char (a ++ ")"%char :: rest) = Some (length a)).
  { induction a as [|c a IH]; cbn [app last_index length].
    - assert (last_index ")"%char rest = None) as ->; [|reflexivity]. clear - Nr. induction rest as [|c t IH]; [reflexivity|]. cbn [last_index]. rewrite IH by (intros K; apply Nr; right; exact K).
      destruct (c =?c ")"%char) eqn:E; [|reflexivity]. apply Ascii.eqb_eq in E. subst c. exfalso. apply Nr. left. reflexivity.
    - rewrite IH. reflexivity. }
  assert (P : eq_parts (before ++ B "(" ++ l ++ B "," ++ r ++ B ")" ++ rest) = Some (l, r)).
  { unfold eq_parts. change (before ++ B "(" ++ l ++ B "," ++ r ++ B ")" ++ rest) with (before ++ "("%char :: l ++ ","%char :: r ++ ")"%char :: rest).
    rewrite cut_app by exact Nb. rewrite cut_app by exact Nl.
    replace (before ++ "("%char :: l ++ ","%char :: r ++ ")"%char :: rest) with ((before ++ "("%char :: l ++ ","%char :: r) ++ ")"%char :: rest)
      by (rewrite <- app_assoc; cbn [app]; rewrite <- app_assoc; reflexivity).
    rewrite L. rewrite app_length. cbn [length]. rewrite app_length. cbn [length].
    set (n := length before + S (length l + S (length r))). destruct n as [|n'] eqn:En; [unfold n in En; lia|]. rewrite <- En. clear En n'.
    assert (n <? S (length before) + S (length l) = false) as -> by (apply Nat.ltb_ge; unfold n; lia). rewrite andb_false_r.
    assert (S (length before) + S (length l) <=? n = true) as -> by (apply Nat.leb_le; unfold n; lia).
    replace (n - (S (length before) + S (length l))) with (length r) by (unfold n; lia). rewrite firstn_app, Nat.sub_diag, firstn_O, app_nil_r, firstn_all. reflexivity. }
  unfold eval_eq. rewrite P, X, Y. reflexivity.
Qed.
Print Assumptions C48_condition.

Definition ex_assignments : list assignment :=
  [{| a_name := B "CC"; a_before := B " "; a_op := Assign; a_after := B " "; a_value := B "gcc  -O2" |};
   {| a_name := B "CC"; a_before := []; a_op := Extend; a_after := []; a_value := B "-g" |};
   {| a_name := B "LD"; a_before := B " "; a_op := AssignNow; a_after := B " "; a_value := B "$(CC) -s" |};
   {| a_name := B "CC"; a_before := B " "; a_op := Assign; a_after := B " "; a_value := B "tcc" |}].
Definition ex_run := run_tupfile [] [] [] (fun _ => Some []) (fun _ => None) (fun _ => None) (fun _ => None) (fun _ => None) (fun s _ => (s, true)).
Definition ex_empty : env := {| e_vars := []; e_nodes := []; e_done := [] |}.
Example C48_ex :
  Forall assignment_ok ex_assignments /\
  (exists vs', assigned (fun vars => evaluates (dollar_lookup [] [] [] (fun _ => Some []) (value_in vars)) (fun _ => Some []) (vardb_copy [])) (fun _ => None) ex_assignments vs' /\
    vs' (B "LD") = Some (B "gcc -O2 -g -s") /\ vs' (B "CC") = Some (B "tcc")) /\
  (let s := fst (ex_run ex_empty (concat (map (fun a => assignment_text a ++ [newline]) ex_assignments))) in
   luadb_copy (e_vars s) (B "LD") = Some (B "gcc -O2 -g -s") /\ luadb_copy (e_vars s) (B "CC") = Some (B "tcc")).
Proof.
  split; [|split; [|vm_compute; split; reflexivity]].
  - apply Forall_forall. intros a I. apply assignment_okb_ok. cbn in I. repeat (destruct I as [<-|I]; [vm_compute; reflexivity|]). destruct I.
  - assert (V : forall vs s o, eval (dollar_lookup [] [] [] (fun _ => Some []) (value_in vs)) (fun _ => Some []) (vardb_copy []) (fun _ => None) true s = Ok o ->
      evaluates (dollar_lookup [] [] [] (fun _ => Some []) (value_in vs)) (fun _ => Some []) (vardb_copy []) s o) by (intros; eapply C29_expansion; eassumption).
    eexists. split.
    + unfold ex_assignments.
      do 4 (eapply as_cons; [apply V; vm_compute; reflexivity|intros [t K]; discriminate|intros [t K]; discriminate|apply V; vm_compute; reflexivity|apply lua_squeezed; vm_compute; reflexivity|]).
      apply as_nil.
    + split; vm_compute; reflexivity.
Qed.

(** C48 fails for values with += or := in them: the line is split there. *)
Theorem C48_operator_in_value_refuted :
  let s := fst (ex_run ex_empty (B "FLAGS = -DX+=1")) in
  luadb_copy (e_vars s) (B "FLAGS") = Some [] /\ luadb_copy (e_vars s) (B "FLAGS = -DX") = Some (B "1").
Proof. vm_compute. split; reflexivity. Qed.
Print Assumptions C48_operator_in_value_refuted.
(** C48 fails for several spaces in a row: they become one. *)
Theorem C48_spaces_kept_refuted :
  luadb_copy (e_vars (fst (ex_run ex_empty (B "X = a   b")))) (B "X") = Some (B "a b").
Proof. vm_compute. reflexivity. Qed.
Print Assumptions C48_spaces_kept_refuted.
(** C48 fails for appending to a variable that was set to nothing: the value begins
    with a space, so it is not equal to the same value assigned at once. *)
Theorem C48_append_to_empty_refuted :
  luadb_copy (e_vars (fst (ex_run ex_empty (B "X =" ++ newline :: B "X += a")))) (B "X") = Some (B " a") /\
  luadb_copy (e_vars (fst (ex_run ex_empty (B "X += a")))) (B "X") = Some (B "a").
Proof. vm_compute. split; reflexivity. Qed.
Print Assumptions C48_append_to_empty_refuted.
(** C48 fails for variables that are named like a directive. *)
Theorem C48_directive_name_refuted :
  snd (ex_run ex_empty (B "error = 1")) = ErrorAt 1 /\ snd (ex_run ex_empty (B "error= 1")) = Parsed.
Proof. vm_compute. split; reflexivity. Qed.
Print Assumptions C48_directive_name_refuted.
