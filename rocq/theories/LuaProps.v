(** Properties of Tupfiles in Lua (C67). *)
From Verif Require Import Base ConfigModel ConfigSpec ParseModel ParseSpec ParseProofs TextModel MacroModel MacroSpec MacroProofs MacroProofs2 MacroProps LuaModel LuaSpec LuaProofs LuaProofs2.
From Coq Require Import ZArith.

(** C67. Another Tupfile that is parsed, before this one goes on, does what it
    does as the first Tupfile of a parser with the same other state and the
    same _G: nothing of this Tupfile's variables and tables is seen by it,
    and it changes none of them. *)
Theorem C67_own_variables :
  forall St do_rule resolve flags ev add_bin accepts plain d returned getenv (l : lua St) body,
  let exec := exec St do_rule resolve flags ev add_bin accepts plain d returned getenv in
  let alone := exec_all St do_rule resolve flags ev add_bin accepts plain d returned getenv (start St (globs St l) (st St l)) body in
  (forall r, alone = Ret r -> exists l', exec l (SOther body) = Ret l' /\ st St l' = st St r /\ globs St l' = globs St r) /\
  (alone = Error <-> exec l (SOther body) = Error) /\
  (forall l', exec l (SOther body) = Ret l' ->
     frames St l' = frames St l /\ (forall a t, nth_error (tabs St l) a = Some t -> nth_error (tabs St l') a = Some t) /\
     exists r, alone = Ret r /\ st St l' = st St r /\ globs St l' = globs St r).
Proof.
  intros. unfold exec. rewrite other_alone. fold alone. destruct alone as [r| |]; cbn [mapr].
  - split; [intros r' [= <-]; eexists; split; [reflexivity|split; reflexivity]|]. split; [split; discriminate|].
    intros l' [= <-]. cbn [frames tabs st globs]. split; [reflexivity|]. split; [|exists r; auto].
    intros a t T. rewrite nth_error_app1; [exact T|]. apply nth_error_Some. congruence.
  - split; [discriminate|]. split; [split; reflexivity|discriminate].
  - split; [discriminate|]. split; [split; discriminate|discriminate].
Qed.
Print Assumptions C67_own_variables.

(** C67. A Tupfile that uses neither tup.import nor tup.ext leaves _G as it is, so
    that a later Tupfile depends on it only through the rest of the parser. *)
Theorem C67_quiet :
  forall St do_rule resolve flags ev add_bin accepts plain d returned getenv (l l' : lua St) s,
  quiet s -> exec St do_rule resolve flags ev add_bin accepts plain d returned getenv l s = Ret l' -> globs St l' = globs St l.
Proof. intros. eapply quiet_exec; eauto. Qed.
Print Assumptions C67_quiet.

(** C67. [x += v] for a string, a list or nothing on either side always works,
    makes [x] a list of what it was followed by [v], and changes no other
    variable and no other table. *)
Theorem C67_append :
  forall St do_rule resolve flags ev add_bin accepts plain d returned getenv (l : lua St) x a old more,
  frames St l <> [] -> elements (tabs St l) (get_var St l x) old -> elements (tabs St l) (atom_val St l a) more ->
  exists l' y t, exec St do_rule resolve flags ev add_bin accepts plain d returned getenv l (SAppend x (EAtom a)) = Ret l' /\
    get_var St l' x = Tab y /\ nth_error (tabs St l') y = Some t /\ t_arr t = old ++ more /\
    (forall z, z <> x -> get_var St l' z = get_var St l z) /\
    (forall z u, get_var St l x <> Tab z -> nth_error (tabs St l) z = Some u -> nth_error (tabs St l') z = Some u) /\
    st St l' = st St l /\ globs St l' = globs St l.
Proof.
  intros St do_rule resolve flags ev add_bin accepts plain d returned getenv l x a old more F EO EM.
  destruct (append_ok _ _ _ _ _ EO EM) as [[m r] E].
  assert (exists_in (tabs St l) (atom_val St l a)) as V. { intros y Y. rewrite Y in EM. inversion EM; subst. apply nth_error_Some. congruence. }
  destruct (append_spec _ _ _ _ _ V E) as [la [lb [y [t [A [C [-> [T [TA [_ [W [_ O]]]]]]]]]]]].
  assert (forall m v p q, elements m v p -> elements m v q -> p = q) as U by (intros m0 v p q P Q; destruct P; inversion Q; subst; congruence).
  rewrite (U _ _ _ _ A EO) in TA. rewrite (U _ _ _ _ C EM) in TA.
  eexists _, y, t. split; [cbn [exec eval_expr rbind fst snd]; rewrite E; reflexivity|]. cbn [fst snd].
  split; [rewrite get_set; [rewrite bytes_eqb_refl; reflexivity|exact F|discriminate]|]. split; [exact T|]. split; [exact TA|].
  split. { intros z Z. rewrite get_set; [|exact F|discriminate]. destruct (bytes_eqb_spec x z); [congruence|reflexivity]. }
  split; [|split; reflexivity]. intros z u NZ ZU. change (nth_error m z = Some u). apply O; [|exact ZU]. intros <-.
  destruct W as [W|[_ W]]; [congruence|]. assert (nth_error (tabs St l) (length (tabs St l)) = None) as X by (apply nth_error_None; lia). congruence.
Qed.
Print Assumptions C67_append.

(** C67. tup.rule and tup.foreach_rule, in each of their forms, make the rule
    with these parts: exactly what C49 says of it, with references to the
    variables of the Tupfile replaced in the names. The value is the list of the outputs. *)
Theorem C67_rule :
  forall St do_rule resolve flags ev add_bin accepts plain d returned (l : lua St) each a b c i cmd o ins0 exi0 outs0 exo0 ins exi outs exo bin,
  called a b c i cmd o -> given_inputs (tabs St l) i ins0 exi0 -> given_outputs (tabs St l) o outs0 exo0 bin ->
  stands_for St ev accepts l ins0 ins -> stands_for St ev accepts l exi0 exi -> stands_for St ev accepts l outs0 outs -> stands_for St ev accepts l exo0 exo ->
  exists vs, sees St l vs /\
  let made s1 s2 := exists s0 nl, with_bin St add_bin bin (st St l) s0 /\ resolve s0 (numbered ins) (bytes_eqb cmd (B "!tup_preserve")) = Ok (s1, nl) /\
     rule_does St do_rule (path_list_to_nl St resolve flags ev plain vs) plain (fun n => find_macro n d) (asked_rule each bin cmd nl ins exi outs exo) s1 s2 in
  let call := rule St do_rule resolve flags ev add_bin accepts plain d returned l each a b c in
  (forall l' v, call = Ret (l', v) ->
     exists s1, made s1 (st St l') /\ names_in (tabs St l') v (returned s1 (st St l')) /\
       frames St l' = frames St l /\ globs St l' = globs St l /\ keeps (tabs St l) (tabs St l')) /\
  (forall s1 s2, made s1 s2 -> exists l' v, call = Ret (l', v) /\ st St l' = s2).
Proof.
  intros St do_rule resolve flags ev add_bin accepts plain d returned l each a b c i cmd o ins0 exi0 outs0 exo0 ins exi outs exo bin C GI GO S1 S2 S3 S4.
  destruct (rule_spec St do_rule resolve flags ev add_bin accepts plain d returned l each a b c i cmd o ins0 exi0 outs0 exo0 ins exi outs exo bin C GI GO S1 S2 S3 S4) as [vs [SV R]].
  exists vs. split; [exact SV|]. cbv zeta. split.
  - intros l' v E. destruct (proj1 (R l' v) E) as [s0 [s1 [nl [WB [RS [RD [F [G [[x [-> N]] K]]]]]]]]]. exists s1. split; [exists s0, nl; auto|]. auto.
  - intros s1 s2 [s0 [nl [WB [RS RD]]]]. exact (proj2 (R l Nil) s0 s1 nl s2 WB RS RD).
Qed.
Print Assumptions C67_rule.

(** C67, full statement: a rule in Lua and a rule in a Tupfile with the same
    parts do the same. What is missing: names with references to variables,
    names of PATH_MAX bytes or more, and text after the name of a macro
    (C67_macro_text_refuted). *)
Theorem C67_same_as_text_partial :
  forall St do_rule resolve flags ev add_bin accepts plain d returned (l : lua St) each a b c i cmd o ins exi outs exo bin p it ot nothing,
  called a b c i cmd o -> given_inputs (tabs St l) i ins exi -> given_outputs (tabs St l) o outs exo bin ->
  (forall s, settled St ev accepts s (ins ++ exi ++ outs ++ exo)) -> short_names (fun _ => true) (ins ++ exi ++ outs ++ exo) -> Forall (fun n => plain n = true) (outs ++ exo) ->
  (forall s k, resolve s [] k = Ok (s, [])) ->
  rule_line p it cmd ot bin -> inputs_text it each nothing ins exi -> (nothing = true <-> ins = []) -> outputs_text ot outs exo -> command_text cmd cmd None ->
  exists vs, sees St l vs /\ forall s',
    (exists l' v, rule St do_rule resolve flags ev add_bin accepts plain d returned l each a b c = Ret (l', v) /\ st St l' = s') <->
    parse_rule St do_rule (path_list_to_nl St resolve flags ev plain vs) add_bin accepts plain d (st St l) p = Ok s'.
Proof. intros. eapply rule_text; eauto. Qed.
Print Assumptions C67_same_as_text_partial.

(** C67. Every other combination of arguments is an error. *)
Theorem C67_rejected :
  forall St do_rule resolve flags ev add_bin accepts plain d returned (l : lua St) each a b c,
  (forall i cmd o, ~ called a b c i cmd o) -> rule St do_rule resolve flags ev add_bin accepts plain d returned l each a b c = Error.
Proof. exact rule_rejects. Qed.
Print Assumptions C67_rejected.

(** C67. tup.file, tup.base and tup.ext of a path. *)
Theorem C67_file : forall dir n, directory_part dir -> (forall c, In c n -> ~ separator c) -> tup_file (dir ++ n) = n.
Proof. exact file_spec. Qed.
Print Assumptions C67_file.
Theorem C67_base : forall dir n, directory_part dir -> (forall c, In c n -> ~ separator c) ->
  (forall e, letters_and_digits e -> (forall c, In c e -> ~ separator c) -> tup_base (dir ++ n ++ "."%char :: e) = n) /\
  (~ In "."%char n -> tup_base (dir ++ n) = n).
Proof.
  intros dir n D N. split.
  - intros e L NE. unfold tup_base. rewrite (file_spec dir); [rewrite (dot_end_last n e L); reflexivity|exact D|].
    intros c I. apply in_app_or in I. destruct I as [I|[<- |I]]; [exact (N c I)|intros [X|[X|[]]]; discriminate X|exact (NE c I)].
  - intros ND. unfold tup_base. rewrite (file_spec dir n D N), (dot_end_none n ND). reflexivity.
Qed.
Print Assumptions C67_base.
Theorem C67_ext :
  forall St do_rule resolve flags ev add_bin accepts plain d returned (l : lua St) p,
  let ext p := eval_expr St do_rule resolve flags ev add_bin accepts plain d returned l (EExt (AStr p)) in
  (forall e, letters_and_digits e -> exists l', ext (p ++ "."%char :: e) = Ret (l', Str e)) /\
  (~ In "."%char p -> exists l', ext p = Ret (l', Str [])).
Proof.
  intros. unfold ext. split; intros; cbn [eval_expr atom_val scalar rbind].
  - rewrite (dot_end_last p e H). eexists. reflexivity.
  - rewrite (dot_end_none p H). eexists. reflexivity.
Qed.
Print Assumptions C67_ext.
Example C67_names_ex :
  tup_file (B "src/lib/a.tar.gz") = B "a.tar.gz" /\ tup_base (B "src/lib/a.tar.gz") = B "a.tar" /\ tup_base (B "src.d/Makefile") = B "Makefile" /\
  directory_part (B "src/lib/") /\ letters_and_digits (B "gz").
Proof.
  split; [vm_compute; reflexivity|]. split; [vm_compute; reflexivity|]. split; [vm_compute; reflexivity|]. split; [right; exists (B "src/lib"), "/"%char; split; [reflexivity|left; reflexivity]|].
  unfold letters_and_digits. repeat constructor; vm_compute; tauto.
Qed.

(** The functions for the examples, as in MacroProps.v: the state is the list of
    requests; every name is a file; names have no references. *)
Definition files (s : list request) (l : plist) (_ : bool) : outcome (list request * list nle) :=
  Ok (s, map (fun x : bytes * nat => file_entry [] (fst x) (snd x) [] (length (fst x))) l).
Definition outs_of (s s' : list request) : list bytes := flat_map (fun q => map fst (q_outputs q)) (skipn (length s) s').
Definition no_env (x : bytes) : option bytes := if bytes_eqb x (B "HOME") then Some (B "/root") else None.
Definition script (b : list stmt) : res (lua (list request)) :=
  exec_all (list request) note files (fun _ p => Some p) (fun _ _ t => Some t) (fun s _ => Ok s) (fun _ _ => true) (fun _ => true) example_macros outs_of no_env (start _ [] []) b.
Definition rules_of (r : res (lua (list request))) := match r with Ret l => Some (map short (st _ l)) | _ => None end.
Definition var_of (r : res (lua (list request))) (x : bytes) := match r with Ret l => Some (get_var _ l x) | _ => None end.
Definition list_of (r : res (lua (list request))) (x : bytes) : option (list val) :=
  match r with Ret l => match get_var _ l x with Tab a => match nth_error (tabs _ l) a with Some t => Some (t_arr t) | None => None end | _ => None end | _ => None end.
Definition V := AVar. Definition S_ := AStr.

(** Objects are collected and linked; another Tupfile in between has variables
    of the same names. *)
Example C67_script_ex :
  let r := script [SSet (B "ins") (ETab [S_ (B "a.c"); S_ (B "bb.c")] [(B "extra_inputs", S_ (B "gen.h"))]);
                   SSet (B "objs") (ERule true (V (B "ins")) (S_ (B "gcc -c %f")) (S_ (B "%B.o")));
                   SOther [SSet (B "objs") (EAtom (S_ (B "x"))); SAppend (B "objs") (EAtom (S_ (B "y")))];
                   SAppend (B "objs") (EAtom (S_ (B "lib.o")));
                   SSet (B "prog") (ERule false (V (B "objs")) (S_ (B "ld %f -o %o")) (S_ (B "prog")))] in
  rules_of r = Some [(B "gcc -c %f", None, [B "a.c"], [B "%B.o"], [], [B "gen.h"]); (B "gcc -c %f", None, [B "bb.c"], [B "%B.o"], [], [B "gen.h"]);
                     (B "ld %f -o %o", None, [B "%B.o"; B "lib.o"], [B "prog"], [], [])] /\
  list_of r (B "objs") = Some [Str (B "%B.o"); Str (B "%B.o"); Str (B "lib.o")] /\ list_of r (B "prog") = Some [Str (B "prog")].
Proof. vm_compute. repeat split. Qed.
(** The hypotheses of C67_rule and C67_same_as_text_partial hold of such a call. *)
Example C67_rule_ex :
  exists l, script [SSet (B "ins") (ETab [S_ (B "a.c")] [(B "extra_inputs", S_ (B "gen.h"))]); SSet (B "outs") (ETab [S_ (B "a.o")] [(B "bin", S_ (B "{objs}"))])] = Ret l /\
    called (get_var _ l (B "ins")) (Str (B "gcc -c %f")) (get_var _ l (B "outs")) (get_var _ l (B "ins")) (B "gcc -c %f") (get_var _ l (B "outs")) /\
    given_inputs (tabs _ l) (get_var _ l (B "ins")) [B "a.c"] [B "gen.h"] /\ given_outputs (tabs _ l) (get_var _ l (B "outs")) [B "a.o"] [] (Some (B "objs")) /\
    (forall s, settled (list request) (fun _ _ t => Some t) (fun _ _ => true) s [B "a.c"; B "gen.h"; B "a.o"]) /\
    rule_line (B "a.c | gen.h |> gcc -c %f |> a.o {objs}") (Some (B "a.c | gen.h")) (B "gcc -c %f") (B "a.o") (Some (B "objs")) /\
    inputs_text (Some (B "a.c | gen.h")) false false [B "a.c"] [B "gen.h"] /\ outputs_text (B "a.o") [B "a.o"] [] /\ command_text (B "gcc -c %f") (B "gcc -c %f") None.
Proof.
  eexists. split; [vm_compute; reflexivity|]. split; [apply ca_ico; discriminate|].
  split. { eapply (gi_tab _ 0 _ [B "a.c"] [B "gen.h"]); [reflexivity|reflexivity| |]. { intros k v [X|[]]. injection X as <- _. left. reflexivity. }
    eapply nn_some; [reflexivity|]. apply ni_str. }
  split. { eapply (go_tab _ 1 _ [B "a.o"] [] (Some (B "objs"))); [reflexivity|reflexivity| | |]. { intros k v [X|[]]. injection X as <- _. right. left. reflexivity. }
    { apply nn_none. reflexivity. } eapply (nb_some _ (B "{objs}")); [reflexivity|]. right. split; [reflexivity|]. split; no_byte. }
  split; [intros s; repeat constructor|]. split; [apply split_line_spec; vm_compute; reflexivity|].
  split. { apply (it_both (B "a.c ") [B "a.c"] (B " ") (B "gen.h") [B "gen.h"]); [discriminate| |no_byte|intros r E; discriminate E|constructor; [left; reflexivity|constructor]|].
    - apply (la_last (B "a.c") (B "a.c") (B " ")); [plain_name|discriminate|constructor; [left; reflexivity|constructor]].
    - apply listed_one; [plain_name|discriminate]. }
  split; [apply ot_plain; [apply listed_one; [plain_name|discriminate]|no_byte]|]. apply ct_plain. intros [n E]. discriminate E.
Qed.
(** Names with a reference: here the reference is to the variable x, whose
    value is a.c. *)
Definition ev_x (s : list request) (vs : list (bytes * res bytes)) (t : bytes) : option bytes :=
  if bytes_eqb t (B "$(x)") then match vs with (_, Ret v) :: _ => Some v | _ => None end else Some t.
Example C67_reference_ex :
  exists l, script [SSet (B "x") (EAtom (S_ (B "a.c")))] = Ret l /\ stands_for (list request) ev_x (fun _ _ => true) l [B "$(x)"; B "b.c"] [B "a.c"; B "b.c"].
Proof.
  eexists. split; [vm_compute; reflexivity|]. constructor; [|constructor; [|constructor]]; (split; [|reflexivity]); intros vs H; [|reflexivity].
  unfold ev_x. cbn [bytes_eqb]. change (bytes_eqb (B "$(x)") (B "$(x)")) with true. inversion H as [|e r es rs [E1 E2] H2 E3]; subst. destruct r as [y v]. cbn [snd fst] in *.
  rewrite (E2 (B "a.c") eq_refl). reflexivity.
Qed.
Example C67_rejected_ex : (forall i cmd o, ~ called (Str (B "cc")) (Str (B "a.o")) Nil i cmd o) /\ (forall i cmd o, ~ called (Tab 0) (Tab 1) (Str (B "a.o")) i cmd o).
Proof. split; intros i cmd o H; inversion H; congruence. Qed.
Example C67_append_ex :
  exists l, script [SSet (B "x") (EAtom (S_ (B "a"))); SSet (B "y") (ETab [S_ (B "b"); S_ (B "c")] [])] = Ret l /\
    elements (tabs _ l) (get_var _ l (B "x")) [Str (B "a")] /\ elements (tabs _ l) (get_var _ l (B "y")) [Str (B "b"); Str (B "c")] /\ frames _ l <> [].
Proof.
  eexists. split; [vm_compute; reflexivity|]. split; [apply el_str|]. split; [|discriminate].
  apply (el_tab _ 0 {| t_arr := [Str (B "b"); Str (B "c")]; t_named := []; t_meta := false |}). reflexivity.
Qed.

(** C67, full statement: two rules with the same arguments differ in nothing
    but what the caller changed. Refuted: tup.rule takes extra_inputs out of the
    caller's table, so a second rule with the same table has none. *)
Theorem C67_table_twice_refuted :
  let x := V (B "x") in
  rules_of (script [SSet (B "x") (ETab [S_ (B "a.c")] [(B "extra_inputs", S_ (B "gen.h"))]);
                    SSet (B "o") (ERule false x (S_ (B "cc")) (S_ (B "a.o"))); SSet (B "o") (ERule false x (S_ (B "lint")) (S_ (B "a.txt")))]) =
  Some [(B "cc", None, [B "a.c"], [B "a.o"], [], [B "gen.h"]); (B "lint", None, [B "a.c"], [B "a.txt"], [], [])].
Proof. vm_compute. reflexivity. Qed.
Print Assumptions C67_table_twice_refuted.

(** C67, full statement: += changes the variable that is named and no other.
    Refuted: two variables can be one table. *)
Theorem C67_alias_refuted :
  list_of (script [SSet (B "all") (ETab [S_ (B "a.c")] []); SSet (B "mine") (EAtom (V (B "all"))); SAppend (B "mine") (EAtom (S_ (B "b.c")))]) (B "all") =
  Some [Str (B "a.c"); Str (B "b.c")].
Proof. vm_compute. reflexivity. Qed.
Print Assumptions C67_alias_refuted.

(** C67, full statement: Tupfiles see nothing of each other's variables, and
    what depends on the environment is recorded. Refuted: tup.import leaves the
    value in _G, where a later Tupfile finds it without depending on it;
    tup.ext leaves the last extension there. *)
Theorem C67_globals_refuted :
  (exists r, script [SOther [SImport (B "HOME")]; SSet (B "x") (EAtom (V (B "HOME")))] = Ret r /\
     get_var _ r (B "x") = Str (B "/root") /\ f_env (top _ r) = []) /\
  var_of (script [SSet (B "x") (EAtom (V (B "HOME")))]) (B "x") = Some Nil /\
  var_of (script [SOther [SSet (B "e") (EExt (S_ (B "a.c")))]; SSet (B "x") (EAtom (V (B "match")))]) (B "x") = Some (Str (B "c")).
Proof. split; [eexists; split; [vm_compute; reflexivity|split; vm_compute; reflexivity]|]. split; vm_compute; reflexivity. Qed.
Print Assumptions C67_globals_refuted.

(** C67, full statement: the extension is what follows the last dot. Refuted:
    only letters and digits are taken for one. *)
Theorem C67_extension_refuted :
  exists s, dot_end (B "a.c++") = None /\ tup_base (B "a.c++") = s /\ s = B "a.c++" /\ tup_base (B "lib.x_y") = B "lib.x_y".
Proof. eexists. split; [vm_compute; reflexivity|]. split; [reflexivity|]. split; vm_compute; reflexivity. Qed.
Print Assumptions C67_extension_refuted.

(** C67, full statement: text after the name of a macro is given to it, as in a
    Tupfile. Refuted: in Lua there is no such macro. *)
Theorem C67_macro_text_refuted :
  shorts (run example_macros (B "a.o |> !ld -x |> p")) = Some [(B "ld %f", Some (B "-x"), [B "a.o"], [B "p"], [], [])] /\
  script [SSet (B "p") (ERule false (S_ (B "a.o")) (S_ (B "!ld -x")) (S_ (B "p")))] = Error.
Proof. split; vm_compute; reflexivity. Qed.
Print Assumptions C67_macro_text_refuted.

(** C67, full statement: each name in a list of inputs is one input. Refuted: a
    list that += made, put in another list, is one name with spaces. *)
Theorem C67_nested_refuted :
  rules_of (script [SAppend (B "objs") (EAtom (S_ (B "a.o"))); SAppend (B "objs") (EAtom (S_ (B "b.o")));
                    SSet (B "all") (ETab [V (B "objs"); S_ (B "main.o")] []); SSet (B "p") (ERule false (V (B "all")) (S_ (B "ld")) (S_ (B "p")))]) =
  Some [(B "ld", None, [B "a.o b.o"; B "main.o"], [B "p"], [], [])].
Proof. vm_compute. reflexivity. Qed.
Print Assumptions C67_nested_refuted.
