(** C19, C20, C21, C39, C45: configuration variables. *)
From Verif Require Import Base ConfigModel ConfigSpec ConfigProofs ConfigProofs2.

(** C19. A file whose lines are assignments, "is not set" lines, comments or
    blank gives exactly the assignments (the last one counts), with or without a
    byte-order mark. *)
Theorem C19_config_read_as_written : forall lines asg, Forall a_line lines -> Forall2 says lines asg ->
  exists v, get_file_var_tree (file_of lines) = Ok v /\ get_file_var_tree (bom ++ file_of lines) = Ok v /\ ordered v /\
    forall n, assoc v n = value_of asg n.
Proof. exact read_good. Qed.
(** The first other line makes the file be rejected, whatever follows. *)
Theorem C19_other_lines_rejected : forall good asg l rest, Forall a_line good -> a_line l -> Forall2 says good asg -> (forall a, ~ says l a) ->
  prefixb bom (file_of (good ++ [l])) = false ->
  get_file_var_tree (file_of (good ++ [l]) ++ rest) = Bad.
Proof. exact read_bad. Qed.
(** A line says at most one thing. *)
Theorem C19_lines_unambiguous : forall l a b, says l a -> says l b -> a = b.
Proof. exact says_fun. Qed.
(** Every configuration whose values can be written is read back. *)
Theorem C19_round_trip : forall cfg, Forall writable cfg ->
  exists v, get_file_var_tree (file_of (map config_line cfg)) = Ok v /\ ordered v /\ forall n, assoc v n = value_of (map Some cfg) n.
Proof. exact round_trip. Qed.
(** A last line without a newline is not rejected: strchr() runs past the end of
    the buffer, which is not terminated. *)
Theorem C19_last_line_refuted : forall lines asg l, Forall a_line lines -> a_line l -> Forall2 says lines asg -> l <> [] ->
  prefixb bom (file_of lines ++ l) = false -> get_file_var_tree (file_of lines ++ l) = Over.
Proof. exact read_over. Qed.
(** "The value is everything immediately after the '=' sign until the newline":
    not if it ends with a blank. *)
Theorem C19_trailing_blank_refuted :
  get_file_var_tree (B "CONFIG_A=x " ++ [newline]) = Ok [(B "A", B "x")].
Proof. reflexivity. Qed.

Example c19_file :
  Forall2 says [B "CONFIG_FOO=y"; B "# CONFIG_BAR is not set"; B "# a comment"; []; B "CONFIG_NAME=""a b "" rest"; B "CONFIG_FOO=m "]
    [Some (B "FOO", B "y"); Some (B "BAR", B "n"); None; None; Some (B "NAME", B "a b "); Some (B "FOO", B "m")].
Proof.
  apply Forall2_cons; [|apply Forall2_cons; [|apply Forall2_cons; [|apply Forall2_cons; [|apply Forall2_cons; [|apply Forall2_cons; [|constructor]]]]]].
  - apply (says_plain (B "FOO") (B "y") []); [cbn; intuition discriminate|constructor| |reflexivity].
    intros [t [c [E W]]]. assert (c = "y"%char) as -> by (destruct t as [|? [|]]; cbn in E; congruence). revert W. apply not_white_lit. reflexivity.
  - apply (says_unset (B "BAR") (B "is not set")); [cbn; intuition discriminate|].
    intros F. inversion F as [|? ? W]; subst. revert W. apply not_white_lit. reflexivity.
  - apply (says_comment (B " a comment")). reflexivity.
  - apply says_blank. constructor.
  - apply (says_quoted (B "NAME") (B "a b ") (B " rest")); cbn; intuition discriminate.
  - apply (says_plain (B "FOO") (B "m") (B " ")); [cbn; intuition discriminate|constructor; [left; reflexivity|constructor]| |reflexivity].
    intros [t [c [E W]]]. assert (c = "m"%char) as -> by (destruct t as [|? [|]]; cbn in E; congruence). revert W. apply not_white_lit. reflexivity.
Qed.
Example c19_writable : Forall writable [(B "A", B "a ""b"" c"); (B "B", B " x ")].
Proof.
  assert (AL : forall s, existsb (fun c => (c =?c "010"%char) || (c =?c "000"%char)) s = false -> a_line s).
  { intros s H. split; intros I; (assert (X : existsb (fun c => (c =?c "010"%char) || (c =?c "000"%char)) s = true);
      [apply existsb_exists; eexists; split; [exact I|reflexivity]|congruence]). }
  constructor; [|constructor; [|constructor]]; (split; [apply AL; reflexivity|split; [apply AL; reflexivity|split; [cbn; intuition discriminate|intros H]]]).
  - split; [|reflexivity]. intros [t [c [E W]]].
    assert (c = "c"%char) as ->. { assert (X : last (t ++ [c]) c = "c"%char) by (rewrite <- E; reflexivity). rewrite last_last in X. exact X. }
    revert W. apply not_white_lit. reflexivity.
  - cbn in H. intuition discriminate.
Qed.
Example c19_run : get_file_var_tree (file_of [B "CONFIG_FOO=y"; B "# CONFIG_BAR is not set"; B "CONFIG_FOO=""m"""]) = Ok [(B "BAR", B "n"); (B "FOO", B "m")].
Proof. reflexivity. Qed.
Example c19_bad_line : forall a, ~ says (B "FOO=1") a.
Proof.
  intros a H. inversion H as [l0 F|l0 P|n t|n w j|n w t]; subst. inversion F as [|? ? W]; subst. revert W. apply not_white_lit. reflexivity.
Qed.

(** C20. What was stored is found, and nothing else, if the names are ASCII. *)
Theorem C20_lookup_partial : forall v key, ordered v -> Forall good_entry v -> Forall (fun e => ascii7 (fst e)) v ->
  (4 + 4 * N.of_nat (length v) + N.of_nat (total v) < 2 ^ 32)%N ->
  config_var (vardict_bytes v) key = match assoc v key with Some w => Hit w | None => Miss end.
Proof. intros v key. apply lookup_exact. Qed.
(** For all names: a value that is found is the right one, and the dictionary is
    never read out of bounds. *)
Theorem C20_never_wrong : forall v key, ordered v -> Forall good_entry v -> (4 + 4 * N.of_nat (length v) + N.of_nat (total v) < 2 ^ 32)%N ->
  config_var (vardict_bytes v) key = Miss \/ exists w, assoc v key = Some w /\ config_var (vardict_bytes v) key = Hit w.
Proof. exact lookup_sound. Qed.
(** With other names a variable can be missed: the entries are sorted as unsigned
    bytes and searched as signed ones. *)
Theorem C20_lookup_refuted : exists v key w, ordered v /\ Forall good_entry v /\ assoc v key = Some w /\ config_var (vardict_bytes v) key = Miss.
Proof.
  exists [(B "A", B "1"); (["195"; "164"]%char, B "2"); (["195"; "165"]%char, B "3")], (B "A"), (B "1").
  split; [apply ordb_ok; reflexivity|split; [repeat (apply Forall_cons; [split; cbn; intuition discriminate|]); apply Forall_nil|split; reflexivity]].
Qed.
Example c20_case : let v := [(B "A", B "1"); (B "AB", B "2"); (B "B", B "")] in
  ordered v /\ Forall good_entry v /\ Forall (fun e => ascii7 (fst e)) v /\ (4 + 4 * N.of_nat (length v) + N.of_nat (total v) < 2 ^ 32)%N /\
  config_var (vardict_bytes v) (B "AB") = Hit (B "2") /\ config_var (vardict_bytes v) (B "B") = Hit [] /\ config_var (vardict_bytes v) (B "AA") = Miss.
Proof.
  cbv zeta. split; [apply ordb_ok; reflexivity|split; [repeat (apply Forall_cons; [split; cbn; intuition discriminate|]); apply Forall_nil|split; [repeat constructor; cbn; lia|repeat split]]].
Qed.

(** C21. Re-reading the configuration changes the stored variables to the new
    ones, and treats exactly the variables with a different value as changed (its
    node is flagged, or its users are because it is gone); whether anything
    changed is known. *)
Theorem C21_exactly_the_changed_variables : forall old new s, ordered old -> ordered new ->
  (forall n, stored s n = option_map fst (assoc old n)) -> (forall n, vflag s n = false) -> (forall n, users_flag s n = false) -> changed s = 0 ->
  let t := apply_config old new s in
  (forall n, stored t n = assoc new n) /\
  (forall n, vflag t n || users_flag t n = differs (assoc old n) (assoc new n)) /\
  (changed t = 0 <-> forall n, differs (assoc old n) (assoc new n) = false).
Proof. exact apply_spec. Qed.
(** For variables that are stored as such, [differs] is the difference of values. *)
Theorem C21_differs_is_difference : forall v w n, differs (assoc (plain_db v) n) (assoc w n) = false <-> assoc v n = assoc w n.
Proof. exact differs_plain. Qed.
Example c21_case : let old := plain_db [(B "A", B "1"); (B "B", B "2"); (B "D", B "3")] in let new := [(B "B", B "5"); (B "C", B "1"); (B "D", B "3")] in
  ordered old /\ ordered new /\ vardb_compare old new = [RemoveVar (B "A"); SameVar (B "B") (B "2") (B "5") true; AddVar (B "C") (B "1"); SameVar (B "D") (B "3") (B "3") true].
Proof. cbv zeta. split; [|split]; [apply ordb_ok; reflexivity|apply ordb_ok; reflexivity|reflexivity]. Qed.

(** C39. varsed replaces @NAME@ by the value of the variable, or by nothing if it
    is not set, and leaves everything else unchanged, for files that do not start
    with a byte-order mark. *)
Theorem C39_varsed_partial : forall lookup binmode file, prefixb bom file = false ->
  exists o, var_replace lookup binmode file = Some o /\ substituted (shown lookup binmode) file o.
Proof. intros lookup binmode file P. unfold var_replace, slurp. rewrite P. apply replace_sub. lia. Qed.
(** That determines the output. *)
Theorem C39_result_unique : forall value p o o', substituted value p o -> substituted value p o' -> o = o'.
Proof. exact substituted_fun. Qed.
(** A byte-order mark is not copied. *)
Theorem C39_mark_refuted : forall lookup binmode file, var_replace lookup binmode (bom ++ file) = replace (S (length file)) lookup binmode file.
Proof. reflexivity. Qed.
Example c39_case : var_replace (fun n => if bytes_eqb n (B "ARCH") then Some (B "arm") else None) false (B "a@b x@ARCH@y @NO@z") = Some (B "a@b xarmy z").
Proof. reflexivity. Qed.

(** C45. After an update that succeeded, the dictionary that commands read has the
    values of tup.config, if no earlier update was aborted. *)
Theorem C45_dictionary_current_partial : forall w, chistory false w -> forall n, assoc (dict (read_config w)) n = assoc (config (read_config w)) n.
Proof. intros w H n. apply ch_read, dict_current in H as [_ [_ H]]. exact (H n). Qed.
(** If one was aborted it need not: the dictionary was written before the
    database was rolled back, and going back to the old configuration is then no
    change. *)
Theorem C45_dictionary_current_refuted : exists w n, chistory true w /\ assoc (dict (read_config w)) n <> assoc (config (read_config w)) n.
Proof.
  set (one := [(B "A", B "1")]). set (two := [(B "A", B "2")]).
  exists {| config := one; committed := one; dict := two |}, (B "A"). split; [|vm_compute; discriminate].
  apply (ch_edit true {| config := two; committed := one; dict := two |} (B "CONFIG_A=1" ++ [newline])); [|reflexivity].
  apply (ch_abort true {| config := two; committed := one; dict := one |} eq_refl).
  apply (ch_edit true {| config := one; committed := one; dict := one |} (B "CONFIG_A=2" ++ [newline])); [|reflexivity].
  apply (ch_read true {| config := one; committed := []; dict := [] |}).
  apply (ch_edit true {| config := []; committed := []; dict := [] |} (B "CONFIG_A=1" ++ [newline])); [|reflexivity].
  apply ch_init.
Qed.
Example c45_case : chistory false (read_config {| config := [(B "A", B "1")]; committed := []; dict := [] |}).
Proof.
  apply ch_read. apply (ch_edit false {| config := []; committed := []; dict := [] |} (B "CONFIG_A=1" ++ [newline])); [|reflexivity]. apply ch_init.
Qed.

Print Assumptions C19_config_read_as_written.
Print Assumptions C19_other_lines_rejected.
Print Assumptions C19_lines_unambiguous.
Print Assumptions C19_round_trip.
Print Assumptions C19_last_line_refuted.
Print Assumptions C19_trailing_blank_refuted.
Print Assumptions C20_lookup_partial.
Print Assumptions C20_never_wrong.
Print Assumptions C20_lookup_refuted.
Print Assumptions C21_exactly_the_changed_variables.
Print Assumptions C21_differs_is_difference.
Print Assumptions C39_varsed_partial.
Print Assumptions C39_result_unique.
Print Assumptions C39_mark_refuted.
Print Assumptions C45_dictionary_current_partial.
Print Assumptions C45_dictionary_current_refuted.
