(** Properties of !-macros (C49). *)
From Verif Require Import Base ConfigModel ConfigSpec ConfigProofs ParseModel ParseSpec ParseProofs MacroModel MacroSpec MacroProofs MacroProofs2.
From Coq Require Import ZArith.

(** C49, full statement: a line [!name = foreach | order-only |> command |>
    outputs | extra] defines the macro with these parts, in place of an earlier
    one of the same name, and changes no other macro. What is missing: a name
    in the lists of PATH_MAX bytes or more (C30_long_name_refuted). *)
Theorem C49_definition_partial : forall plain d p n v m,
  definition_line p n v -> (forall r, v <> "!"%char :: r) -> macro_text plain v m ->
  exists d', parse_bang_definition plain d p = Ok d' /\
    find_macro n d' = Some m /\ forall k, k <> n -> find_macro k d' = find_macro k d.
Proof.
  intros plain d p n v m L V M. exists (put_macro n m d). split; [exact (define_macro plain d p n v m L V M)|]. split.
  - rewrite find_put, bytes_eqb_refl. reflexivity.
  - intros k K. rewrite find_put. destruct (bytes_eqb n k) eqn:E; [apply bytes_eqb_eq in E; congruence|reflexivity].
Qed.
Print Assumptions C49_definition_partial.

(** C49. A macro has no inputs of its own other than order-only ones, and no bin:
    such definitions are rejected. *)
Theorem C49_inputs_rejected : forall plain d p n v x i c o b,
  definition_line p n v -> (forall r, v <> "!"%char :: r) -> rule_line v (Some (x :: i)) c o b ->
  x <> "|"%char -> (forall r, x :: i <> B "foreach" ++ r) -> parse_bang_definition plain d p = Bad.
Proof.
  intros plain d p n v x i c o b L V RL X F. unfold parse_bang_definition. rewrite (split_eq_line _ _ _ L).
  apply split_line_spec in RL as SP. destruct v as [|y v]; [reflexivity|].
  destruct (y =?c "!"%char) eqn:Y; [apply Ascii.eqb_eq in Y; subst y; exfalso; exact (V v eq_refl)|].
  rewrite SP. destruct b as [b|]; [reflexivity|].
  rewrite (take_foreach_no _ F).
  cbn [fst snd]. destruct (x =?c "|"%char) eqn:E; [apply Ascii.eqb_eq in E; contradiction|reflexivity].
Qed.
Print Assumptions C49_inputs_rejected.
Theorem C49_bin_rejected : forall plain d p n v i c o b,
  definition_line p n v -> (forall r, v <> "!"%char :: r) -> rule_line v i c o (Some b) -> parse_bang_definition plain d p = Bad.
Proof.
  intros plain d p n v i c o b L V RL. unfold parse_bang_definition. rewrite (split_eq_line _ _ _ L).
  apply split_line_spec in RL as SP. destruct v as [|y v]; [reflexivity|].
  destruct (y =?c "!"%char) eqn:Y; [apply Ascii.eqb_eq in Y; subst y; exfalso; exact (V v eq_refl)|].
  rewrite SP. reflexivity.
Qed.
Print Assumptions C49_bin_rejected.
Example C49_rejected_ex :
  rule_line (B "x.c |> cc %f |> %B.o") (Some (B "x.c")) (B "cc %f") (B "%B.o") None /\ rule_line (B "|> cc %f |> %B.o {objs}") None (B "cc %f") (B "%B.o") (Some (B "objs")).
Proof. split; apply split_line_spec; vm_compute; reflexivity. Qed.

(** C49. [!name = !other] makes [name] what [other] is at that moment. *)
Theorem C49_alias : forall plain d p n o m,
  definition_line p n ("!"%char :: o) -> n <> "!"%char :: o -> find_macro ("!"%char :: o) d = Some m ->
  exists d', parse_bang_definition plain d p = Ok d' /\
    find_macro n d' = Some m /\ forall k, k <> n -> find_macro k d' = find_macro k d.
Proof.
  intros plain d p n o m L N F. exists (put_macro n m (drop_macro n d)). split; [exact (alias_macro plain d p n o m L N F)|]. split.
  - rewrite find_put, bytes_eqb_refl. reflexivity.
  - intros k K. rewrite find_put, find_drop. destruct (bytes_eqb n k) eqn:E; [apply bytes_eqb_eq in E; congruence|reflexivity].
Qed.
Print Assumptions C49_alias.

(** C49, full statement: an alias of a known macro is always accepted. Refuted:
    the old definition is deleted before the other macro is looked up, so
    [!a = !a] is an error. *)
Theorem C49_self_alias_refuted :
  exists d p m, definition_line p (B "!cc") (B "!cc") /\ find_macro (B "!cc") d = Some m /\
    forall plain, parse_bang_definition plain d p = Bad.
Proof.
  exists [(B "!cc", {| m_foreach := false; m_input := None; m_command := B "gcc"; m_outputs := []; m_extra := [] |})], (B "!cc = !cc"), {| m_foreach := false; m_input := None; m_command := B "gcc"; m_outputs := []; m_extra := [] |}.
  assert (definition_line (B "!cc = !cc") (B "!cc") (B "!cc")) as L.
  { apply (dl (B "!cc") (B " ") (B " ") (B "!cc")).
    - intros X. repeat (destruct X as [X|X]; [discriminate X|]). exact X.
    - intros [a [c [E W]]]. destruct a as [|x1 [|x2 [|x3 [|x4 a]]]]; cbn in E; try discriminate E. injection E as _ _ <-. exact (not_white_lit "c"%char eq_refl W).
    - constructor; [left; reflexivity|constructor].
    - constructor; [left; reflexivity|constructor].
    - intros [c [t [E W]]]. injection E as <- _. exact (not_white_lit "!"%char eq_refl W). }
  split; [exact L|]. split; [reflexivity|]. intros plain. exact (alias_self plain _ _ _ L).
Qed.
Print Assumptions C49_self_alias_refuted.

(** C49. What a rule does, with or without a macro ([rule_does]): which command
    for which inputs, and with what outputs. [do_rule] makes the command,
    [expand] finds the files a list of names stands for; both may depend on,
    and change, everything else the parser knows. *)
Theorem C49_rule : forall St do_rule expand plain d w (s s' : St),
  execute_rule St do_rule expand plain d s (rule_of w (add_all (w_inputs w))) = Ok s' <->
  rule_does St do_rule expand plain (fun n => find_macro n d) w s s'.
Proof. exact execute_ok. Qed.
Print Assumptions C49_rule.

(** C49, full statement: the same from the text of the rule. What is missing:
    names of PATH_MAX bytes or more, as above. *)
Theorem C49_rule_text_partial : forall St do_rule expand add_bin accepts plain d (s : St) p s1 w s',
  reads_as St expand add_bin accepts plain s p s1 w ->
  (parse_rule St do_rule expand add_bin accepts plain d s p = Ok s' <->
   rule_does St do_rule expand plain (fun n => find_macro n d) w s1 s').
Proof. exact parse_rule_reads. Qed.
Print Assumptions C49_rule_text_partial.

(** C49. A macro is shorthand: if it has no order-only inputs or extra outputs
    of its own, and no variants for extensions, the rule means what it would
    mean with the macro's command and outputs written in its place. *)
Theorem C49_written_out : forall St do_rule expand plain known w m (s s' : St),
  names_macro (w_command w) -> known (w_command w) = Some m ->
  (forall e, known (w_command w ++ B "." ++ e) = None) ->
  m_input m = None -> m_extra m = [] -> ~ names_macro (m_command m) ->
  (rule_does St do_rule expand plain known w s s' <->
   rule_does St do_rule expand plain known
     {| w_each := w_each w || m_foreach m; w_bin := w_bin w; w_command := m_command m; w_more := w_more w; w_inputs := w_inputs w;
        w_nothing := w_nothing w; w_oo := w_oo w; w_outputs := match w_outputs w with [] => m_outputs m | o => o end; w_extra := w_extra w |} s s').
Proof. exact written_out. Qed.
Print Assumptions C49_written_out.

(** Recorders for the examples: the state is the list of requests so far; every
    name is a file; the number of a file is its length. *)
Definition note (s : list request) (q : request) : outcome (list request) := Ok (s ++ [q]).
Definition all_files (s : list request) (l : plist) (_ : option (list nle)) (_ : bool) : outcome (list request * list nle) :=
  Ok (s, map (fun x : bytes * nat => file_entry [] (fst x) (snd x) [] (length (fst x))) l).
Definition run (d : macros) (p : bytes) : outcome (list request) :=
  parse_rule (list request) note all_files (fun s _ => Ok s) (fun _ _ => true) (fun _ => true) d [] p.
Definition short (q : request) := (q_command q, q_extra_command q, map n_path (q_inputs q), map fst (q_outputs q), map fst (q_extra q ++ q_macro_extra q), map n_path (q_oo q ++ q_macro_oo q)).
Definition shorts (o : outcome (list request)) := match o with Ok l => Some (map short l) | _ => None end.
Definition example_macros : macros :=
  match parse_bang_definition (fun _ => true) [] (B "!cc = foreach | gen.h |> gcc -c %f |> %B.o | %B.d") with
  | Ok d => match parse_bang_definition (fun _ => true) d (B "!cc.S =|> as %f |>%B.o") with
            | Ok d => match parse_bang_definition (fun _ => true) d (B "!ld = |> ld %f |> out") with
                      | Ok d => match parse_bang_definition (fun _ => true) d (B "!ld.EMPTY = |> touch %o |> out") with Ok d => d | _ => [] end
                      | _ => [] end
            | _ => [] end
  | _ => [] end.
(** The rule of a macro for each input: the extension picks the macro, and
    nothing is left over from one input to the next. *)
Example C49_each_ex :
  shorts (run example_macros (B " a.c bb.S ccc.c | ex |> !cc -O2 |>")) =
  Some [(B "gcc -c %f", Some (B "-O2"), [B "a.c"], [B "%B.o"], [B "%B.d"], [B "ex"; B "gen.h"]);
        (B "as %f", Some (B "-O2"), [B "bb.S"], [B "%B.o"], [], [B "ex"]);
        (B "gcc -c %f", Some (B "-O2"), [B "ccc.c"], [B "%B.o"], [B "%B.d"], [B "ex"; B "gen.h"])].
Proof. vm_compute. reflexivity. Qed.
Example C49_once_ex :
  shorts (run example_macros (B "a.o bb.o a.o |> !ld |> prog | map")) =
  Some [(B "ld %f", None, [B "a.o"; B "bb.o"], [B "prog"], [B "map"], [])] /\
  shorts (run example_macros (B "foreach a.c |> cp %f %o |> copy {all}")) = Some [(B "cp %f %o", None, [B "a.c"], [B "copy"], [], [])].
Proof. split; vm_compute; reflexivity. Qed.
(** No inputs: a rule that asks for some does nothing, or uses .EMPTY. *)
Definition no_files (s : list request) (l : plist) (_ : option (list nle)) (_ : bool) : outcome (list request * list nle) := Ok (s, []).
Example C49_empty_ex :
  let go p := shorts (parse_rule (list request) note no_files (fun s _ => Ok s) (fun _ _ => true) (fun _ => true) example_macros [] p) in
  go (B "*.o |> !ld |> prog") = Some [(B "touch %o", None, [], [B "prog"], [], [])] /\
  go (B "*.o |> ld |> prog") = Some [] /\ go (B "|> !ld |> prog") = Some [(B "ld %f", None, [], [B "prog"], [], [])] /\
  go (B "*.c |> !cc |>") = Some [].
Proof. repeat split; vm_compute; reflexivity. Qed.
(** The hypotheses of C49_rule_text_partial hold of such a text. *)
Lemma listed_one n : spelled false n n -> n <> [] -> listed_as [n] n.
Proof. intros S N. rewrite <- (app_nil_r n) at 2. apply la_last; [exact S|exact N|constructor]. Qed.
Ltac plain_name := repeat (apply sp_char; [discriminate|discriminate|right; apply not_white_lit; reflexivity|]); apply sp_end.
Ltac no_byte := let X := fresh in intros X; repeat (destruct X as [X|X]; [discriminate X|]); exact X.
Lemma run_listed : listed_as [B "a.c"] (B "a.c").
Proof. apply listed_one; [plain_name|discriminate]. Qed.
Example C49_rule_text_ex :
  exists w, reads_as (list request) all_files (fun s _ => Ok s) (fun _ _ => true) (fun _ => true) [] (B "foreach a.c |> !cc -O2 |>") [] w /\
    w_each w = true /\ w_command w = B "!cc" /\ w_more w = Some (B "-O2") /\ map n_path (w_inputs w) = [B "a.c"].
Proof.
  eexists. split; [|split; [|split; [|split]]].
  - eapply (ra _ _ _ _ _ _ _ (Some (B "foreach a.c")) (B "!cc -O2") [] None _ true false [B "a.c"] [] _ _ [] [] (B "!cc") (Some (B "-O2"))).
    + apply split_line_spec. vm_compute. reflexivity.
    + reflexivity.
    + apply (it_each (B " ") (B "a.c")); [constructor; [left; reflexivity|constructor]|discriminate| |].
      * intros [c [t [E W]]]. injection E as <- _. exact (not_white_lit "a"%char eq_refl W).
      * apply it_names; [discriminate|exact run_listed|no_byte|]. intros r E. discriminate E.
    + constructor; [split; [reflexivity|vm_compute; reflexivity]|constructor].
    + right. split; [discriminate|reflexivity].
    + apply ot_plain; [constructor|intros []].
    + constructor.
    + apply (ct_more (B "!cc") (B "-O2")); [exists (B "cc"); reflexivity|no_byte].
  - reflexivity.
  - reflexivity.
  - reflexivity.
  - reflexivity.
Qed.
Example C49_definition_ex :
  find_macro (B "!cc") example_macros = Some {| m_foreach := true; m_input := Some (B "gen.h"); m_command := B "gcc -c %f"; m_outputs := [(B "%B.o", 1)]; m_extra := [(B "%B.d", 1)] |} /\
  macro_text (fun _ => true) (B "foreach | gen.h |> gcc -c %f |> %B.o") {| m_foreach := true; m_input := Some (B "gen.h"); m_command := B "gcc -c %f"; m_outputs := [(B "%B.o", 1)]; m_extra := [] |}.
Proof.
  split; [vm_compute; reflexivity|].
  apply (mt _ _ (Some (B "foreach | gen.h")) _ (B "%B.o") true (Some (B "gen.h")) [B "%B.o"] []).
  - apply split_line_spec. vm_compute. reflexivity.
  - apply (mb_each_oo (B " ") (B " ") (B "gen.h")); [constructor; [left; reflexivity|constructor]|constructor; [left; reflexivity|constructor]|].
    intros [c [t [E W]]]. injection E as <- _. exact (not_white_lit "g"%char eq_refl W).
  - apply ot_plain; [apply listed_one; [plain_name|discriminate]|no_byte].
  - constructor; [split; [reflexivity|vm_compute; reflexivity]|constructor].
Qed.

(** C49, full statement: a rule is a foreach rule only if it has the word
    foreach before its inputs. Refuted: only seven bytes are compared, so an
    input whose name starts with them loses them. *)
Theorem C49_foreach_word_refuted :
  exists name, spelled false name name /\ name <> B "foreach" /\ ~ In " "%char name /\
    shorts (run [] (name ++ B " |> cat %f |> out")) = Some [(B "cat %f", None, [B "_list.txt"], [B "out"], [], [])].
Proof. exists (B "foreach_list.txt"). split; [plain_name|]. split; [discriminate|]. split; [no_byte|vm_compute; reflexivity]. Qed.
Print Assumptions C49_foreach_word_refuted.

(** C49, full statement: blanks after the name of a macro end it. Refuted: only
    a space does; after a tab the macro is not found. *)
Theorem C49_tab_refuted :
  shorts (run example_macros (B "a.o |> !ld x |> p")) = Some [(B "ld %f", Some (B "x"), [B "a.o"], [B "p"], [], [])] /\
  run example_macros (B "a.o |> !ld" ++ ["009"%char] ++ B "x |> p") = Bad.
Proof. split; vm_compute; reflexivity. Qed.
Print Assumptions C49_tab_refuted.

(** The command of a macro is not looked at again: the name of another macro in
    it stays as it is. *)
Example C49_macro_in_macro :
  exists d, parse_bang_definition (fun _ => true) example_macros (B "!link = |> !ld |>") = Ok d /\
    shorts (run d (B "a.o |> !link |> p")) = Some [(B "!ld", None, [B "a.o"], [B "p"], [], [])].
Proof. eexists. split; vm_compute; reflexivity. Qed.
Example C49_written_out_ex :
  exists d m, parse_bang_definition (fun _ => true) [] (B "!ld = |> ld %f |> out") = Ok d /\ find_macro (B "!ld") d = Some m /\
    (forall e, find_macro (B "!ld" ++ B "." ++ e) d = None) /\ m_input m = None /\ m_extra m = [] /\ ~ names_macro (m_command m) /\
    shorts (run d (B "a.o |> !ld |>")) = shorts (run d (B "a.o |> ld %f |> out")).
Proof.
  eexists. eexists. split; [vm_compute; reflexivity|]. split; [vm_compute; reflexivity|]. split; [intros e; reflexivity|].
  split; [reflexivity|]. split; [reflexivity|]. split; [intros [n E]; discriminate E|vm_compute; reflexivity].
Qed.
(** An alias keeps its meaning when the other macro changes. *)
Example C49_alias_ex :
  exists d d', parse_bang_definition (fun _ => true) example_macros (B "!x = !ld") = Ok d /\
    parse_bang_definition (fun _ => true) d (B "!ld = |> lld %f |>") = Ok d' /\
    shorts (run d' (B "a.o |> !x |> p")) = Some [(B "ld %f", None, [B "a.o"], [B "p"], [], [])] /\
    shorts (run d' (B "a.o |> !ld |> p")) = Some [(B "lld %f", None, [B "a.o"], [B "p"], [], [])].
Proof. eexists. eexists. split; [vm_compute; reflexivity|]. split; [vm_compute; reflexivity|]. split; vm_compute; reflexivity. Qed.
