(** Properties of the rule syntax (C28, C29, C30, C38, C41, C42, C43). *)
From Verif Require Import Base ConfigModel ConfigSpec ConfigProofs ParseModel ParseSpec ParseProofs ParseProofs2 ParseProofs3 ParseProofs4 ShellSpec EStringProofs2.
From Verif Require EStringModel.
From Coq Require Import ZArith Sorted.

(** C43. A rule line is split into inputs, command, outputs and bin exactly as
    [rule_line] says; every other line is an error. *)
Theorem C43_rule_line_split : forall s i c o b,
  split_input_pattern s = Some (i, c, o, b) <-> rule_line s i c o b.
Proof. exact split_line_spec. Qed.
Print Assumptions C43_rule_line_split.
Example C43_rule_line_split_ex :
  split_input_pattern (B " a.c | b.h |>  gcc {x} -c %f |> out{1}.o f.o  {objs}") =
  Some (Some (B "a.c | b.h"), B "gcc {x} -c %f", B "out{1}.o f.o", Some (B "objs")).
Proof. vm_compute. reflexivity. Qed.
(** C43. A line without two separators is an error. *)
Theorem C43_two_separators : forall s,
  (forall a b c, s <> a ++ B "|>" ++ b ++ B "|>" ++ c) -> split_input_pattern s = None.
Proof. exact split_two_markers. Qed.
Print Assumptions C43_two_separators.
Example C43_two_separators_ex : split_input_pattern (B "a.c |> gcc") = None.
Proof. vm_compute. reflexivity. Qed.

(** C42. The flags, the display text and the command are the three parts. *)
Theorem C42_command_parts : forall s f d c,
  split_command_string s = Some {| cs_flags := f; cs_display := d; cs_cmd := c |} <-> command_parts s f d c.
Proof. exact split_command_spec. Qed.
Print Assumptions C42_command_parts.
Example C42_command_parts_ex :
  split_command_string (B "^co  CC %f^ gcc ^ x") = Some {| cs_flags := B "co"; cs_display := Some (B "CC %f"); cs_cmd := B "gcc ^ x" |}.
Proof. vm_compute. reflexivity. Qed.
(** C42. An unterminated ^ is an error, and the only one. *)
Theorem C42_unterminated : forall s,
  split_command_string s = None <-> exists r, s = "^"%char :: r /\ ~ In "^"%char r.
Proof. exact split_command_error. Qed.
Print Assumptions C42_unterminated.
(** C42. A command that does not start with ^ or a blank is unchanged. *)
Theorem C42_plain_unchanged : forall s, (forall r, s <> "^"%char :: r) -> ~ starts_white s ->
  split_command_string s = Some {| cs_flags := []; cs_display := None; cs_cmd := s |}.
Proof. intros s N W. apply split_command_spec. exact (cp_plain [] s N (Forall_nil _) W). Qed.
Print Assumptions C42_plain_unchanged.
Example C42_unterminated_ex : split_command_string (B "^c gcc") = None /\ split_command_string (B "gcc ^") = Some {| cs_flags := []; cs_display := None; cs_cmd := B "gcc ^" |}.
Proof. split; vm_compute; reflexivity. Qed.

(** C30, full statement: for every list of names, any spelling of the names
    with quotes and backslashes, separated by blanks, is split into the names,
    numbered from 1. What is missing: a name of PATH_MAX bytes or more runs
    over a buffer, see [C30_long_name_refuted]. [accepts] is the check of a
    single path (bins, exclusions, groups). *)
Theorem C30_split_partial : forall accepts names s,
  listed_as names s ->
  Forall (fun n => accepts n = true /\ (N.of_nat (length n) < 4096)%N) names ->
  get_path_list accepts s = Ok (numbered names).
Proof. exact get_path_list_listed. Qed.
Print Assumptions C30_split_partial.
(** C30. Writing every name in double quotes, or with a backslash before every
    byte, and splitting gives the names back. *)
Theorem C30_quotes_round_trip_partial : forall accepts names,
  Forall (fun n => accepts n = true /\ (N.of_nat (length n) < 4096)%N) names ->
  get_path_list accepts (spaced (map in_quotes names)) = Ok (numbered names).
Proof.
  intros accepts names A. apply get_path_list_listed; [|exact A]. apply spaced_listed.
  clear A. induction names as [|n names IH]; constructor; [split; [apply in_quotes_spelled|discriminate]|exact IH].
Qed.
Print Assumptions C30_quotes_round_trip_partial.
Theorem C30_backslashes_round_trip_partial : forall accepts names,
  Forall (fun n => n <> [] /\ accepts n = true /\ (N.of_nat (length n) < 4096)%N) names ->
  get_path_list accepts (spaced (map with_backslashes names)) = Ok (numbered names).
Proof.
  intros accepts names A. apply get_path_list_listed.
  - apply spaced_listed. induction A as [|n names [N _] A IH]; constructor; [split; [apply with_backslashes_spelled|destruct n; [congruence|discriminate]]|exact IH].
  - apply (Forall_impl _ (fun n H => proj2 H) A).
Qed.
Print Assumptions C30_backslashes_round_trip_partial.
(** C30. Inputs and order-only inputs are separated at the first |. *)
Theorem C30_order_only_partial : forall accepts names s others sp t,
  listed_as names s -> ~ In "|"%char s -> Forall white sp -> listed_as others t ->
  Forall (fun n => accepts n = true /\ (N.of_nat (length n) < 4096)%N) (names ++ others) ->
  parse_input_pattern accepts (s ++ "|"%char :: sp ++ t) = Ok (numbered names, numbered others).
Proof. exact input_pattern_both. Qed.
Print Assumptions C30_order_only_partial.
Example C30_ex :
  parse_input_pattern (fun _ => true) (B "a\ b ""c ""d\"" e | x y") = Ok ([(B "a b", 1); (B "c d""", 2); (B "e", 3)], [(B "x", 1); (B "y", 2)]) /\
  listed_as [B "a b"; B "c d"""] (B "a\ b ""c ""d\""").
Proof.
  split; [vm_compute; reflexivity|].
  change (B "a\ b ""c ""d\""") with (B "a\ b" ++ B " " ++ B """c ""d\""").
  apply la_cons; [|discriminate|apply Forall_cons; [left; reflexivity|apply Forall_nil]|discriminate|discriminate|].
  - apply sp_char; [discriminate|discriminate|right; apply not_white_lit; reflexivity|]. apply sp_escape.
    apply sp_char; [discriminate|discriminate|right; apply not_white_lit; reflexivity|]. apply sp_end.
  - rewrite <- (app_nil_r (B """c ""d\""")). apply la_last; [|discriminate|apply Forall_nil].
    apply sp_quote. apply sp_char; [discriminate|discriminate|left; reflexivity|]. apply sp_char; [discriminate|discriminate|left; reflexivity|].
    apply sp_quote. apply sp_char; [discriminate|discriminate|right; apply not_white_lit; reflexivity|]. apply sp_escape. apply sp_end.
Qed.
(** C30 fails for long names: they are written past the end of a buffer. *)
Theorem C30_long_name_refuted : forall accepts n, (4096 <= N.of_nat (length n))%N ->
  get_path_list accepts (in_quotes n) = Over.
Proof.
  intros accepts n L. rewrite <- (app_nil_r (in_quotes n)). apply (path_list_over accepts n); [apply in_quotes_spelled|discriminate|left; reflexivity|exact L].
Qed.
Print Assumptions C30_long_name_refuted.
Example C30_long_name_ex : exists n : bytes, (4096 <= N.of_nat (length n))%N.
Proof. exists (repeat "a"%char (N.to_nat 4096)). rewrite repeat_length, N2Nat.id. lia. Qed.
(** C30 fails for a | in quotes: the list is divided before quotes are read. *)
Theorem C30_quoted_bar_refuted : parse_input_pattern (fun _ => true) (in_quotes (B "a|b")) = Bad /\
  get_path_list (fun _ => true) (in_quotes (B "a|b")) = Ok [(B "a|b", 1)].
Proof. split; vm_compute; reflexivity. Qed.
Print Assumptions C30_quoted_bar_refuted.

(** C38. The input list grows by an entry exactly if no earlier entry is the
    same file; the order is kept. *)
Theorem C38_unique_inputs : forall l e g,
  let result l := nl_entries (make_name_list_unique {| nl_entries := l; nl_globcnt := g |}) in
  result [] = [] /\
  ((exists f, In f l /\ same_file e f) -> result (l ++ [e]) = result l) /\
  ((forall f, In f l -> ~ same_file e f) -> result (l ++ [e]) = result l ++ [e]).
Proof.
  intros l e g. cbv zeta. split; [reflexivity|]. split; [|exact (unique_new l e)]. intros [f [I S]]. exact (unique_dup l e f I S).
Qed.
Print Assumptions C38_unique_inputs.
(** C38. The result is a part of the list in the same order, has every file
    once, and lacks nothing. *)
Theorem C38_each_file_once : forall nl,
  let r := nl_entries (make_name_list_unique nl) in
  sublist r (nl_entries nl) /\
  (forall a e b f, r = a ++ e :: b -> In f (a ++ b) -> ~ same_file e f) /\
  (forall e, In e (nl_entries nl) -> n_tent e = None \/ exists f, In f r /\ same_file e f).
Proof.
  intros nl. cbv zeta. split; [apply unique_sublist|]. split; [|intros e; apply unique_keeps].
  intros a e b f E I [i [He Hf]]. destruct (unique_first _ _ _ _ _ E i He) as [_ [H1 H2]].
  apply in_app_iff in I as [I|I]; [exact (H1 f I Hf)|exact (H2 f I Hf)].
Qed.
Print Assumptions C38_each_file_once.
Example C38_ex : let f n t := path_entry (B n) 1 t in
  nl_entries (make_name_list_unique (add_all [f "a" (Some 1); f "/x" None; f "b" (Some 2); f "a" (Some 1); f "/x" None]%string)) =
  [f "a" (Some 1); f "/x" None; f "b" (Some 2); f "/x" None]%string.
Proof. vm_compute. reflexivity. Qed.

(** C41. What %g stands for with a single input. *)
Definition one_input (e : nle) : penv := {| p_in := add_all [e]; p_out := None; p_oo := None; p_ext := None; p_dir := [] |}.
(** C41, full statement: for every pattern with one star and every matching
    name, %g is what the star matched. What is missing: the part may not start
    with a star itself, see [C41_star_in_name_refuted]. *)
Theorem C41_star_partial : forall dir pre suf g order tent,
  (dir = [] \/ exists d, dir = d ++ ["/"%char]) -> ~ In "/"%char (pre ++ g ++ suf) ->
  Forall (fun c => ~ wild c) suf -> (forall r, g <> "*"%char :: r) ->
  printf_text (one_input (file_entry dir (pre ++ g ++ suf) order (pre ++ "*"%char :: suf) tent)) true (B "%g") = Ok g.
Proof.
  intros dir pre suf g order tent D N F H. unfold printf_text. cbn. rewrite (glob_star pre suf g F H). cbn.
  rewrite base_offset_file by assumption. rewrite skipn_len by reflexivity. rewrite skipn_len by reflexivity.
  rewrite firstn_app, Nat.sub_diag, firstn_all, firstn_O, !app_nil_r. reflexivity.
Qed.
Print Assumptions C41_star_partial.
(** C41. A ? or a set stands for one byte. *)
Theorem C41_one_byte_partial : forall dir pre w rest c s order tent,
  (dir = [] \/ exists d, dir = d ++ ["/"%char]) -> ~ In "/"%char (pre ++ c :: s) ->
  In w ["?"; "["]%char -> c <> w ->
  printf_text (one_input (file_entry dir (pre ++ c :: s) order (pre ++ w :: rest) tent)) true (B "%g") = Ok [c].
Proof.
  intros dir pre w rest c s order tent D N W H. unfold printf_text. cbn. rewrite (glob_one pre w rest c s W H). cbn.
  rewrite base_offset_file by assumption. rewrite skipn_len by reflexivity. rewrite skipn_len by reflexivity. reflexivity.
Qed.
Print Assumptions C41_one_byte_partial.
Example C41_ex :
  printf_text (one_input (file_entry (B "src/") (B "a.txt.txt") 1 (B "*.txt") 5)) true (B "out/%g.o") = Ok (B "out/a.txt.o") /\
  printf_text (one_input (file_entry [] (B "x_y") 1 (B "[xy]_y") 5)) true (B "%g") = Ok (B "x").
Proof. split; vm_compute; reflexivity. Qed.
Theorem C41_star_in_name_refuted :
  printf_text (one_input (file_entry [] (B "a*xb") 1 (B "a*b") 5)) true (B "%g") = Ok (B "xb") /\
  glob_part (B "a*b") (B "a*xb") (B "*x") /\
  printf_text (one_input (file_entry [] (B "a*b") 1 (B "a*b") 5)) true (B "%g") = Bad /\
  glob_part (B "a*b") (B "a*b") (B "*").
Proof.
  assert (Forall (fun c => ~ wild c) (B "a") /\ Forall (fun c => ~ wild c) (B "b")) as [Fa Fb].
  { split; (apply Forall_cons; [cbn; intuition discriminate|apply Forall_nil]). }
  repeat split; try (vm_compute; reflexivity).
  - exact (gp_star (B "a") (B "b") (B "*x") Fa Fb).
  - exact (gp_star (B "a") (B "b") (B "*") Fa Fb).
Qed.
Print Assumptions C41_star_in_name_refuted.
(** C41. Two stars in a row leave the length unset; so does a file that was
    also listed by name before the pattern (with the pattern first, %g is an
    error instead). *)
Theorem C41_unset_length_refuted :
  printf_text (one_input (file_entry [] (B "ab.c") 1 (B "**.c") 5)) true (B "%g") = Over /\
  let by_name := file_entry [] (B "abc.c") 1 (B "abc.c") 5 in
  let by_star n := file_entry [] (B "abc.c") n (B "a*.c") 5 in
  let env l := {| p_in := make_name_list_unique (add_all l); p_out := None; p_oo := None; p_ext := None; p_dir := [] |} in
  printf_text (env [by_name; by_star 2]) true (B "%g") = Over /\
  printf_text (env [by_star 1; by_name]) true (B "%g") = Bad.
Proof. repeat split; vm_compute; reflexivity. Qed.
Print Assumptions C41_unset_length_refuted.

(** C28, full statement: for every command text and all lists, the result is
    the one [expands] describes, and there is an error exactly if it describes
    none. What is missing: the cases that [clear_text] excludes, for each of
    which there is a counterexample below; and inputs that are not files of
    the project (bins and external paths), see [C28_bin_stem_refuted]. *)
Theorem C28_flags_partial : forall E R percperc s,
  describes E R -> clear_text R s ->
  (forall o, printf_text E percperc s = Ok o <-> expands EStringModel.escape_text R percperc s o) /\
  (printf_text E percperc s = Bad <-> forall o, ~ expands EStringModel.escape_text R percperc s o) /\
  printf_text E percperc s <> Over /\ printf_text E percperc s <> NoFuel.
Proof. intros E R pp s D C. exact (printf_text_spec E R pp D s C). Qed.
Print Assumptions C28_flags_partial.
(** C28. The command is followed by what the rule adds to that of a macro (r->extra_command), with a space
    between; in what is added %% is always %. *)
Theorem C28_two_parts_partial : forall E R percperc cmd extra o,
  describes E R -> clear_text R cmd -> clear_text R extra ->
  tup_printf E percperc cmd (Some extra) = Ok o <->
  exists a b, expands EStringModel.escape_text R percperc cmd a /\ expands EStringModel.escape_text R true extra b /\ o = a ++ " "%char :: b.
Proof.
  intros E R pp cmd extra o D C1 C2. destruct (printf_text_spec E R pp D cmd C1) as [K1 _]. destruct (printf_text_spec E R true D extra C2) as [K2 _]. unfold tup_printf. split.
  - destruct (printf_text E pp cmd) as [a| | |] eqn:A; try discriminate. cbn [obind]. destruct (printf_text E true extra) as [b| | |] eqn:X; try discriminate. cbn [obind]. intros H. injection H as <-.
    exists a, b. split; [apply K1; reflexivity|]. split; [apply K2; reflexivity|reflexivity].
  - intros [a [b [A [X ->]]]]. apply K1 in A. apply K2 in X. rewrite A, X. reflexivity.
Qed.
Print Assumptions C28_two_parts_partial.
(** C28. Text without % is unchanged. *)
Theorem C28_text_unchanged : forall E percperc s, ~ In "%"%char s -> printf_text E percperc s = Ok s.
Proof. exact printf_literal. Qed.
Print Assumptions C28_text_unchanged.
(** C28. %e in a foreach rule is the input's extension. *)
Theorem C28_foreach_extension : forall i order pattern tent stem x,
  well_formed i -> name_parts (it_name i) stem x ->
  foreach_ext (file_entry (it_dir i) (it_name i) order pattern tent) = x.
Proof. exact foreach_ext_file. Qed.
Print Assumptions C28_foreach_extension.
(** C28 with C26: the shell reads %'f as the input paths. *)
Theorem C28_quoted_inputs_are_words : forall E R percperc,
  describes E R -> r_in R <> [] ->
  exists o, printf_text E percperc (B "%'f") = Ok o /\ sh_words o = Some (map it_path (r_in R)).
Proof.
  intros E R pp D N. exists (quoted_list "'"%char (map it_path (r_in R))). split; [|apply single_quoted_words].
  assert (clear_text R (B "%'f")) as C.
  { intros a f b Ef. destruct a as [|a0 [|a1 [|a2 [|a3 a]]]]; try discriminate. injection Ef as Ef.
    assert (f = [] \/ f = B "'" \/ f = B "'f") as K.
    { destruct f as [|f0 [|f1 [|f2 f]]]; cbn in Ef; try discriminate; [auto|injection Ef as <- _; auto|injection Ef as <- <- _; auto]. }
    assert (forall n, value f n -> f = []) as V.
    { intros n V. apply value_number in V as [V _]. destruct K as [->|[->| ->]]; [reflexivity| |]; inversion V; discriminate. }
    split; [|split; [|split]].
    - intros n Vn. pose proof (V n Vn) as ->. apply value_number in Vn as [_ <-]. cbn. split; [lia|discriminate].
    - intros ->. destruct K as [K|[K|K]]; discriminate.
    - intros d n -> Nd _. exfalso. destruct K as [K|[K|K]]; destruct d as [|d0 [|d1 d]]; try congruence; try discriminate. destruct d; discriminate.
    - intros ->. destruct K as [K|[K|K]]; discriminate. }
  apply (printf_text_spec E R pp D _ C).
  replace (quoted_list "'"%char (map it_path (r_in R))) with (join (map (fun i => "'"%char :: EStringModel.escape_text "'"%char (it_path i) ++ ["'"%char]) (r_in R)) ++ []).
  - apply (ex_flag EStringModel.escape_text R pp (B "'f") _ []).
    + apply of_quoted; [left; reflexivity|left; reflexivity|left; split; [left; reflexivity|reflexivity]|exact N].
    + apply ex_end.
  - rewrite app_nil_r. generalize (r_in R). intros l. induction l as [|i [|j l] IH]; [reflexivity|reflexivity|].
    change (map it_path (i :: j :: l)) with (it_path i :: map it_path (j :: l)).
    change (quoted_list "'"%char (it_path i :: map it_path (j :: l))) with (quoted "'"%char (it_path i) ++ B " " ++ quoted_list "'"%char (map it_path (j :: l))).
    rewrite <- IH. reflexivity.
Qed.
Print Assumptions C28_quoted_inputs_are_words.

Definition ex_in : item := {| it_dir := B "src/"; it_name := B "foo.tab.c"; it_number := 1; it_pattern := B "*.c" |}.
Definition ex_out : item := {| it_dir := []; it_name := B "foo.o"; it_number := 1; it_pattern := [] |}.
Definition ex_R : rule_env := {| r_in := [ex_in]; r_out := Some [ex_out]; r_oo := None; r_ext := Some (B "c"); r_dir := B "lib" |}.
Definition ex_E : penv := {| p_in := add_all [file_entry (B "src/") (B "foo.tab.c") 1 (B "*.c") 7];
  p_out := Some (add_all [output_entry (B "foo.o") 1 8]); p_oo := None; p_ext := Some (B "c"); p_dir := B "lib" |}.
Example C28_describes_ex : describes ex_E ex_R /\ clear_text ex_R (B "cc %f %b %B %e %o %O %d %g %% %'f").
Proof.
  split.
  - split.
    + apply Forall2_cons; [exists 7; reflexivity|apply Forall2_nil].
    + intros e H. injection H as <-. reflexivity.
    + apply Forall2_cons; [exists 8; reflexivity|apply Forall2_nil].
    + exact I.
    + reflexivity.
    + reflexivity.
    + split; [apply Forall_cons; [|apply Forall_nil]|intros l H; injection H as <-; apply Forall_cons; [|apply Forall_nil]].
      * split; [right; exists (B "src"); reflexivity|]. split; [cbn; intuition discriminate|discriminate].
      * split; [left; reflexivity|]. split; [cbn; intuition discriminate|discriminate].
    + split; [|split]; [|intros l H; injection H as <-|discriminate]; (apply SSorted_cons; [apply SSorted_nil|apply Forall_nil]).
  - apply clear_unnumbered.
    + apply unnumbered_spec. vm_compute. reflexivity.
    + intros i H. injection H as <-. exists (B "foo"), (B "o"). exact (np_ext (B "foo") (B "o") ltac:(discriminate) ltac:(cbn; intuition discriminate)).
    + intros i H. injection H as <-. right; left. exists [], (B ".c"), (B "foo.tab"). split; [reflexivity|]. split; [reflexivity|].
      split; [apply Forall_nil|]. split; [|intros r G; discriminate].
      apply Forall_cons; [cbn; intuition discriminate|]. apply Forall_cons; [cbn; intuition discriminate|apply Forall_nil].
Qed.
Example C28_ex : printf_text ex_E true (B "cc %f %b %B %e %o %O %d %g %% %'f %1b") =
  Ok (B "cc src/foo.tab.c foo.tab.c foo.tab c foo.o foo lib foo.tab % 'src/foo.tab.c' foo.tab.c").
Proof. vm_compute. reflexivity. Qed.

(** C28 fails for %B of a file from a bin (or an external file) whose
    directory has a dot and whose name has none: a negative length. *)
Theorem C28_bin_stem_refuted :
  printf_text (one_input (path_entry (B "../foo") 1 (Some 5))) true (B "%B") = Over /\
  printf_text (one_input (path_entry (B "sub/.profile") 1 (Some 5))) true (B "%B") = Ok [] /\
  printf_text (one_input (file_entry (B "sub/") (B ".profile") 1 (B ".profile") 5)) true (B "%B") = Ok (B ".profile").
Proof. repeat split; vm_compute; reflexivity. Qed.
Print Assumptions C28_bin_stem_refuted.
(** C28 fails for %O of an output without extension: it is empty, or cut at a
    dot of the directory. *)
Theorem C28_output_stem_refuted :
  let env path := {| p_in := add_all []; p_out := Some (add_all [output_entry path 1 5]); p_oo := None; p_ext := None; p_dir := [] |} in
  printf_text (env (B "prog")) true (B "%O.map") = Ok (B ".map") /\
  printf_text (env (B "out.d/prog")) true (B "%O.map") = Ok (B "out.map").
Proof. split; vm_compute; reflexivity. Qed.
Print Assumptions C28_output_stem_refuted.
(** C28 fails for some numbers: 99 is rejected although the message allows it,
    4294967297 is taken for 1, and %1o where there are no outputs yet is not
    an error. *)
Theorem C28_numbers_refuted :
  let env n := one_input (file_entry [] (B "a") n (B "a") 5) in
  printf_text (env 99) true (B "%99f") = Bad /\
  printf_text (env 1) true (B "%4294967297f") = Ok (B "a") /\
  printf_text (env 1) true (B "%1o") = Ok [] /\ printf_text (env 1) true (B "%o") = Bad.
Proof. repeat split; vm_compute; reflexivity. Qed.
Print Assumptions C28_numbers_refuted.

(** C29. A text is expanded exactly as [evaluates] says (before node
    references are resolved); anything else is an error. *)
Theorem C29_expansion : forall dollar atvar amp node s,
  (forall o, eval dollar atvar amp node true s = Ok o <-> evaluates dollar atvar amp s o) /\
  (eval dollar atvar amp node true s = Bad <-> forall o, ~ evaluates dollar atvar amp s o).
Proof.
  intros dollar atvar amp node s. destruct (eval_spec dollar atvar amp s) as [K [K2 K3]]. unfold eval.
  assert (obind (eval_vars dollar atvar amp (S (length s)) s) (fun o => Ok o) = eval_vars dollar atvar amp (S (length s)) s) as ->
    by (destruct (eval_vars _ _ _ _ s); reflexivity).
  split; [exact K|]. split.
  - intros H o G. apply K in G. congruence.
  - intros H. destruct (eval_vars dollar atvar amp (S (length s)) s) as [o| | |] eqn:E; [|reflexivity|congruence|congruence].
    exfalso. apply (H o), K. reflexivity.
Qed.
Print Assumptions C29_expansion.
(** C29. A missing parenthesis is an error. *)
Theorem C29_missing_parenthesis : forall dollar atvar amp node keep a o c s,
  evaluates dollar atvar amp a o -> (forall t d, a = t ++ [d] -> ~ In d ["\"; "$"; "@"; "&"]%char) ->
  In c ["$"; "@"; "&"]%char -> ~ In ")"%char s ->
  eval dollar atvar amp node keep (a ++ c :: "("%char :: s) = Bad.
Proof. intros dollar atvar amp node keep a o c s H S I N. unfold eval. rewrite (eval_unclosed dollar atvar amp a o c s H S I N). reflexivity. Qed.
Print Assumptions C29_missing_parenthesis.
(** C29. Text without the four characters is unchanged, also by the
    resolution of node references if it has no % before a digit. *)
Theorem C29_text_unchanged : forall dollar atvar amp node s,
  (forall c, In c s -> ~ In c ["\"; "$"; "@"; "&"]%char) ->
  eval dollar atvar amp node true s = Ok s /\
  ((forall a d b, s <> a ++ "%"%char :: d :: b \/ isdigit d = false) -> eval dollar atvar amp node false s = Ok s).
Proof.
  intros dollar atvar amp node s H. pose proof (evaluates_plain dollar atvar amp s H) as E.
  apply (eval_complete dollar atvar amp) with (fuel := S (length s)) in E; [|lia]. unfold eval. rewrite E. cbn [obind].
  split; [reflexivity|]. intros N. apply expand_nodes_none; [exact N|lia].
Qed.
Print Assumptions C29_text_unchanged.
(** C29. Then references to nodes are resolved, as [resolved] says and nothing else; one to
    a node that does not exist is an error. *)
Theorem C29_nodes_resolved : forall dollar atvar amp node s o,
  eval dollar atvar amp node false s = Ok o <-> exists m, evaluates dollar atvar amp s m /\ resolved node m o.
Proof.
  intros dollar atvar amp node s o. destruct (eval_spec dollar atvar amp s) as [K _]. unfold eval. split.
  - destruct (eval_vars dollar atvar amp (S (length s)) s) as [m| | |] eqn:E; try discriminate. cbn [obind]. intros H. exists m. split; [apply K; reflexivity|].
    apply (expand_resolved node m (S (length m)) (Nat.lt_succ_diag_r _)). exact H.
  - intros [m [E R]]. apply K in E. rewrite E. cbn [obind]. apply (expand_resolved node m (S (length m)) (Nat.lt_succ_diag_r _)). exact R.
Qed.
Print Assumptions C29_nodes_resolved.
Example C29_nodes_ex : resolved (fun n => if Z.eqb n 12 then Some (B "dir") else None) (B "%12t/f %12 %t") (B "dir/f %12 %t").
Proof. apply (expand_resolved _ (B "%12t/f %12 %t") 20); [vm_compute; lia|]. vm_compute. reflexivity. Qed.
(** C29. What $(...) stands for: three fixed names, the variables of tup.config after CONFIG_,
    and otherwise the variable of the Tupfile. *)
Theorem C29_names : forall cwd variantdir outputdir config vars,
  let value := dollar_lookup cwd variantdir outputdir config vars in
  value (B "TUP_CWD") = Some cwd /\ value (B "TUP_VARIANTDIR") = Some variantdir /\ value (B "TUP_VARIANT_OUTPUTDIR") = Some outputdir /\
  (forall x, x <> [] -> value (B "CONFIG_" ++ x) = config x) /\
  (forall n, ~ In n [B "TUP_CWD"; B "TUP_VARIANTDIR"; B "TUP_VARIANT_OUTPUTDIR"] -> (forall x, n = B "CONFIG_" ++ x -> x = []) -> value n = vars n).
Proof.
  intros cwd variantdir outputdir config vars value. repeat split.
  - intros [|c x] N; [congruence|]. reflexivity.
  - intros n N C. unfold value, dollar_lookup.
    assert (F : forall m, In m [B "TUP_CWD"; B "TUP_VARIANTDIR"; B "TUP_VARIANT_OUTPUTDIR"] -> bytes_eqb n m = false).
    { intros m I. destruct (bytes_eqb n m) eqn:E; [|reflexivity]. apply bytes_eqb_eq in E. subst m. contradiction. }
    rewrite !F by (cbn; auto). destruct (prefixb (B "CONFIG_") n) eqn:P; [|rewrite andb_false_r; reflexivity].
    apply prefixb_spec in P. destruct P as [x P]. rewrite (C x P) in P. rewrite P. reflexivity.
Qed.
Print Assumptions C29_names.
Example C29_names_ex : dollar_lookup [] [] [] (fun n => if bytes_eqb n (B "DEBUG") then Some (B "y") else None) (fun _ => Some []) (B "CONFIG_DEBUG") = Some (B "y").
Proof. reflexivity. Qed.
(** C29. Expansion of a concatenation at a safe point is the concatenation of
    the expansions. *)
Theorem C29_concatenation : forall dollar atvar amp node a x b y,
  eval dollar atvar amp node true a = Ok x -> eval dollar atvar amp node true b = Ok y ->
  (forall t c, a = t ++ [c] -> ~ In c ["\"; "$"; "@"; "&"]%char) ->
  eval dollar atvar amp node true (a ++ b) = Ok (x ++ y).
Proof.
  intros dollar atvar amp node a x b y Ha Hb S. apply C29_expansion in Ha, Hb. apply C29_expansion. apply evaluates_app; assumption.
Qed.
Print Assumptions C29_concatenation.
Example C29_ex :
  let dollar := fun n => if bytes_eqb n (B "CC") then Some (B "gcc") else Some [] in
  let atvar := fun n => Some (B "y") in
  eval dollar atvar atvar (fun _ => Some (B "dir")) false (B "$(CC) -D@(X)$(none) \$(CC) $x a\b %12t/f") =
  Ok (B "gcc -Dy $(CC) $x a\b dir/f").
Proof. vm_compute. reflexivity. Qed.
(** C29 fails for values that look like node references: they are resolved
    again. *)
Theorem C29_value_resolved_again_refuted :
  let dollar := fun _ : bytes => Some (B "100%1t") in
  evaluates dollar dollar dollar (B "$(X)") (B "100%1t") /\
  eval dollar dollar dollar (fun _ => Some (B "dir")) false (B "$(X)") = Ok (B "100dir").
Proof.
  intros dollar. split; [|vm_compute; reflexivity]. rewrite <- (app_nil_r (B "100%1t")).
  apply (ev_var dollar dollar dollar "$"%char dollar (B "X") (B "100%1t") [] []); [left; reflexivity|cbn; intuition discriminate|reflexivity|apply ev_end].
Qed.
Print Assumptions C29_value_resolved_again_refuted.
(** C29 fails for an escaped &( : the backslash stays and the variable is
    expanded. *)
Theorem C29_escaped_ampersand_refuted :
  eval (fun _ => None) (fun _ => None) (fun _ => Some (B "v")) (fun _ => None) true (B "\&(x)") = Ok (B "\v").
Proof. vm_compute. reflexivity. Qed.
Print Assumptions C29_escaped_ampersand_refuted.
