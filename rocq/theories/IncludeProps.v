(** Properties of include and include_rules (C50). *)
From Verif Require Import Base ConfigModel ParseModel PathModel IfModel TextModel IncludeModel IncludeSpec IncludeProofs.

Section props.
Variable St : Type.
Variable top : bytes.
Variable eval_eq : dir -> St -> bytes -> St * option bool.
Variable var_ifdef : dir -> St -> bytes -> St * option bool.
Variable eval_name : dir -> St -> bytes -> St * option bytes.
Variable rest : dir -> St -> bytes -> St * bool.
Variable lua : dir -> St -> bytes -> St * bool.
Variable is_node : dir -> bool.
Variable on_disk : dir -> bool.
Variable note_read : St -> dir -> St * bool.
Variable open_file : St -> dir -> St * option bytes.
Notation directive := (directive St top eval_eq var_ifdef eval_name rest lua is_node on_disk note_read open_file).
Notation obeys := (obeys St top eval_eq var_ifdef eval_name rest lua is_node on_disk note_read open_file).
Notation does := (does St top eval_eq var_ifdef eval_name rest lua is_node on_disk note_read open_file).
Notation parse_text := (parse_text St eval_eq var_ifdef).

(** C50. include_rules obeys the Tuprules.tup of every directory from the top of
    the project down to the current one, in this order, each in its own directory,
    and notes all of them, also those that do not exist; it is an error inside a
    Tuprules.tup. *)
Theorem C50_include_rules : forall c b u u',
  does c b (B "include_rules") u u' <->
  b = false /\ each_level St obeys is_node on_disk note_read open_file (levels c) u u'.
Proof. apply include_rules_ok. Qed.

(** C50. include obeys the named file, in the directory of this file; a Lua file is
    run as Lua. *)
Theorem C50_include : forall c b text u u',
  does c b (B "include " ++ text) u u' <->
  exists u1 file d name u2 contents, eval_name c u text = (u1, Some file) /\ names_file top is_node c file d name /\
    is_node (d ++ [name]) = true /\ open_file u1 (d ++ [name]) = (u2, Some contents) /\
    (lua_name file /\ lua d u2 contents = (u', true) \/ ~ lua_name file /\ obeys d b contents u2 u').
Proof.
  intros c b text u u'. rewrite include_ok. split; intros [u1 [file [d [name [u2 [contents [H1 [H2 [H3 [H4 H5]]]]]]]]]];
    exists u1, file, d, name, u2, contents; repeat (split; [assumption|]); rewrite <- is_lua_name in *.
  - destruct H5 as [[H5 H6]|[H5 H6]]; [left|right]; (split; [|assumption]); [exact H5|congruence].
  - destruct H5 as [[H5 H6]|[H5 H6]]; [left|right]; (split; [|assumption]); [exact H5|]. destruct (is_lua file); congruence.
Qed.

(** C50. Whatever a directive that succeeds includes, afterwards the current
    directory is the same as before, and so is whether we are in a Tuprules.tup. *)
Theorem C50_place_kept : forall fuel s line s', directive fuel s line = (s', true) ->
  cur St s' = cur St s /\ incl St s' = incl St s.
Proof. intros fuel s line s' H. apply directive_keeps in H. destruct H as [H1 [H2 H3]]. auto. Qed.

(** C50. A larger bound on the depth of includes changes nothing, so what a
    directive does is well defined. *)
Theorem C50_one_result : forall c b line u u1 u2, does c b line u u1 -> does c b line u u2 -> u1 = u2.
Proof.
  intros c b line u u1 u2 [f H1] [g H2].
  assert (directive (max f g) (state_at St c b u) line = (state_at St c b u1, true)) as E1 by (apply (directive_more _ _ _ _ _ _ _ _ _ _ _ f (max f g)); [lia|assumption]).
  assert (directive (max f g) (state_at St c b u) line = (state_at St c b u2, true)) as E2 by (apply (directive_more _ _ _ _ _ _ _ _ _ _ _ g (max f g)); [lia|assumption]).
  rewrite E1 in E2. unfold state_at in E2. congruence.
Qed.

(** C50. No Tuprules.tup, nor a file that it includes, can use include_rules. *)
Theorem C50_no_nested_rules : forall c u u', ~ does c true (B "include_rules") u u'.
Proof. intros c u u' H. apply include_rules_ok in H. destruct H; discriminate. Qed.

(** C50. Full statement: every Tupfile is parsed to its end or rejected. It is
    false: nothing stops a file that includes itself. *)
Lemma self_include : forall name d u b,
  (forall v, eval_name d v name = (v, Some name)) -> include_target top is_node d name = Some (d, name) -> is_lua name = false ->
  is_node (d ++ [name]) = true -> (forall v, open_file v (d ++ [name]) = (v, Some (B "include " ++ name ++ B "
"))) ->
  name = B "f" ->
  forall fuel, directive fuel (state_at St d b u) (B "include " ++ name) = ({| cur := d; incl := b; stuck := true; user := u |}, false).
Proof.
  intros name d u b E T L N O -> fuel. induction fuel as [|fuel IH].
  - cbn. rewrite E. reflexivity.
  - change (directive (S fuel) (state_at St d b u) (B "include " ++ B "f")) with
      (match eval_name d u (B "f") with
       | (u, None) => (state_at St d b u, false)
       | (u, Some file) => include_file St top eval_eq var_ifdef lua is_node open_file (directive fuel) (state_at St d b u) file end).
    rewrite E. unfold include_file. change (cur St (state_at St d b u)) with d. change (user St (state_at St d b u)) with u. rewrite T, N, O, L.
    change (set_cur St (set_user St (state_at St d b u) u) d) with (state_at St d b u).
    assert (parse_text (directive fuel) (state_at St d b u) (B "include " ++ B "f" ++ B "
") = ({| cur := d; incl := b; stuck := true; user := u |}, false)) as ->; [|reflexivity].
    change (B "include " ++ B "f") with (B "include f") in IH. revert IH. generalize (directive fuel) as f. intros f IH. unfold IncludeModel.parse_text.
    vm_compute in IH |- *. rewrite IH. reflexivity.
Qed.
Theorem C50_cycle_refuted : forall d b u,
  (forall v, eval_name d v (B "f") = (v, Some (B "f"))) -> is_node (d ++ [B "f"]) = true ->
  (forall v, open_file v (d ++ [B "f"]) = (v, Some (B "include f
"))) ->
  forall fuel, stuck St (fst (directive fuel (state_at St d b u) (B "include f"))) = true.
Proof.
  intros d b u E N O fuel. change (B "include f") with (B "include " ++ B "f"). rewrite (self_include (B "f") d u b); auto. unfold include_target, get_path_elements.
  change (split_path_elements (B "f")) with (Some {| pl := [B "f"]; num := 1 |}). cbn [pl]. destruct (match_top top [B "f"]). reflexivity.
Qed.
End props.
Print Assumptions C50_include_rules.
Print Assumptions C50_include.
Print Assumptions C50_place_kept.
Print Assumptions C50_one_result.
Print Assumptions C50_no_nested_rules.
Print Assumptions C50_cycle_refuted.

(** C50. Full statement: the files that are run as Lua are those whose name ends in
    .lua. It is false: .lua in an earlier place counts. *)
Theorem C50_lua_refuted : ~ (forall a, lua_name (a ++ B ".lua")).
Proof. intros H. destruct (H (B "x.lua.d/y")) as [_ H1]. specialize (H1 (B "x") (B ".d/y.lua") eq_refl). discriminate. Qed.
Print Assumptions C50_lua_refuted.

(** A project with the directories a and a/b, Tuprules.tup at the top and in a/b,
    and a Tupfile in a/b that uses them and includes ../defs.tup, which is in a. The
    state lists the files that were noted and the lines with their directories. *)
Definition ex_files : list (dir * bytes) :=
  [([B "Tuprules.tup"], B "top rule"); ([B "a"; B "b"; B "Tuprules.tup"], B "include ../x.lua
inner rule"); ([B "a"; B "defs.tup"], B "a def"); ([B "a"; B "x.lua"], B "a lua line")].
Definition dir_eqb (c d : dir) : bool := if list_eq_dec (list_eq_dec Ascii.ascii_dec) c d then true else false.
Definition ex_node (d : dir) : bool := existsb (dir_eqb d) ([B "a"] :: [B "a"; B "b"] :: map fst ex_files).
Definition ex_disk (d : dir) : bool := existsb (dir_eqb d) (map fst ex_files).
Definition ex_open (u : list (bytes * dir)) (d : dir) : list (bytes * dir) * option bytes :=
  (u ++ [(B "opened", d)], option_map snd (find (fun f => dir_eqb (fst f) d) ex_files)).
Definition ex_says (how : bytes) (d : dir) (u : list (bytes * dir)) (l : bytes) : list (bytes * dir) * bool := (u ++ [(how ++ l, d)], true).
Definition ex_does := does (list (bytes * dir)) (B "/p") (fun _ u _ => (u, None)) (fun _ u _ => (u, None)) (fun _ u x => (u, Some x))
  (ex_says (B "line: ")) (ex_says (B "lua: ")) ex_node ex_disk (fun u d => (u ++ [(B "noted", d)], true)) ex_open.
Example C50_include_rules_ex :
  ex_does [B "a"; B "b"] false (B "include_rules") []
    [(B "noted", [B "Tuprules.tup"]); (B "opened", [B "Tuprules.tup"]); (B "line: top rule", []);
     (B "noted", [B "a"; B "Tuprules.tup"]);
     (B "noted", [B "a"; B "b"; B "Tuprules.tup"]); (B "opened", [B "a"; B "b"; B "Tuprules.tup"]);
     (B "opened", [B "a"; B "x.lua"]); (B "lua: a lua line", [B "a"]); (B "line: inner rule", [B "a"; B "b"])].
Proof. exists 2. vm_compute. reflexivity. Qed.
Example C50_include_ex : ex_does [B "a"; B "b"] false (B "include ../defs.tup") [] [(B "opened", [B "a"; B "defs.tup"]); (B "line: a def", [B "a"])].
Proof. exists 1. vm_compute. reflexivity. Qed.
Example C50_lua_ex : lua_name (B "../x.lua") /\ ~ lua_name (B "../x.lua.d/y.lua") /\ ~ lua_name (B "../defs.tup").
Proof. rewrite <- !is_lua_name. repeat split; vm_compute; congruence. Qed.
(** The hypotheses of the cycle hold in a project whose only file includes itself. *)
Example C50_cycle_ex : stuck _ (fst (directive nat (B "/p") (fun _ u _ => (u, None)) (fun _ u _ => (u, None)) (fun _ u x => (u, Some x)) (fun _ u _ => (u, true)) (fun _ u _ => (u, true))
  (fun _ => true) (fun _ => true) (fun u _ => (u, true)) (fun u _ => (u, Some (B "include f
"))) 5 (state_at nat [] false 0) (B "include f"))) = true.
Proof. apply C50_cycle_refuted; reflexivity. Qed.
