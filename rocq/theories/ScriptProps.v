(** C73: the rules that a run script prints are obeyed. *)
From Verif Require Import Base ConfigModel ConfigSpec ParseSpec IfModel TextModel TextSpec TextProps ScriptModel ScriptSpec ScriptProofs ScriptProofs2.
Require Import Lia.

(** The output of a script that succeeds is accepted exactly if it is made of whole lines that are
    blank, comments, or rules that can be obeyed one after the other; what is done is what these
    rules do. *)
Theorem C73_accepts St parse_rule (s s' : St) output r : ~ In "000"%char output -> body output r ->
  (exec_run_script St parse_rule (Exited 0) output s = (s', Done) <->
   exists ls, Forall one_line ls /\ r = text ls /\ obeys St parse_rule s ls s').
Proof.
  intros N Bd. unfold exec_run_script. rewrite (body_slurp _ _ Bd). split.
  - intros H. apply lines_ok in H; [|lia|exact (body_nul _ _ Bd N)]. destruct H as [a [c [A [-> [s1 [O [-> ->]]]]]]]. exists a. rewrite app_nil_r. auto.
  - intros [ls [F [-> O]]]. apply lines_text; [lia|exact F|exact O].
Qed.
Print Assumptions C73_accepts.

(** Otherwise there is an error, which names the first line that is at fault; the rules before it,
    and no others, have been obeyed. *)
Theorem C73_error St parse_rule (s s' : St) output r o : ~ In "000"%char output -> body output r ->
  exec_run_script St parse_rule (Exited 0) output s = (s', o) ->
  exists before rest s1, Forall one_line before /\ r = text before ++ rest /\ obeys St parse_rule s before s1 /\
  match o with
  | Done => rest = [] /\ s' = s1
  | NoNewline => rest <> [] /\ one_line rest /\ s' = s1
  | BadRule n => n = S (length before) /\ exists t after, rest = (":"%char :: t) ++ "010"%char :: after /\ one_line t /\ parse_rule s1 t = (s', false)
  | NotRule n => n = S (length before) /\ s' = s1 /\ exists l after, rest = l ++ "010"%char :: after /\ one_line l /\ other_line l
  | Failed | OutOfFuel => False
  end.
Proof.
  intros N Bd. unfold exec_run_script. rewrite (body_slurp _ _ Bd). intros H. apply lines_ok in H; [|lia|exact (body_nul _ _ Bd N)].
  destruct H as [a [c [A [E [s1 [O R]]]]]]. exists a, c, s1. auto.
Qed.
Print Assumptions C73_error.

(** If the script fails, nothing of what it printed is obeyed; it fails exactly if its exit status is
    not 0 or it did not exit. *)
Theorem C73_failed St parse_rule (s : St) e output : ~ In "000"%char output ->
  (e <> Exited 0 -> exec_run_script St parse_rule e output s = (s, Failed)) /\
  (snd (exec_run_script St parse_rule e output s) = Failed -> e <> Exited 0).
Proof.
  intros N. split; [destruct e as [[|n]| |]; intros H; try reflexivity; contradiction|]. intros H ->. unfold exec_run_script in H. destruct (script_lines St parse_rule _ 0 s (slurp output)) as [s' o] eqn:R. cbn in H. subst o.
  apply lines_ok in R; [|lia|]; [destruct R as [a [c [_ [_ [s1 [_ []]]]]]]|]. intros Z. apply N. unfold slurp in Z. destruct (prefixb bom output); [|exact Z]. rewrite <- (firstn_skipn 3 output). apply in_or_app. right. exact Z.
Qed.
Print Assumptions C73_failed.

(** Lines without white space around them that are no part of a longer statement mean the same in a
    Tupfile. *)
Theorem C73_same_as_tupfile St eval_eq var_ifdef other parse_rule (s s' : St) ls :
  (forall s t, other s (":"%char :: t) = parse_rule s t) -> Forall plain ls -> Forall (fun l => ~ other_line l) ls ->
  (exec_run_script St parse_rule (Exited 0) (text ls) s = (s', Done) <-> parse_tupfile St eval_eq var_ifdef other s (text ls) = (s', Parsed)).
Proof.
  intros Sm P O. destruct (items_statements St eval_eq var_ifdef other parse_rule Sm ls 1 P O) as [st [S1 S2]].
  assert (Forall one_line ls) as F by (eapply Forall_impl; [|exact P]; intros l Hl; apply Hl).
  pose proof (text_no_bom ls O) as Nb. rewrite <- (items_text ls) at 2. rewrite (C47_accepted_partial St eval_eq var_ifdef other (items_of ls) s s' st); [rewrite S2|destruct ls; discriminate|apply items_good; exact P|rewrite items_text; exact Nb|exact S1].
  unfold exec_run_script, slurp. rewrite Nb. split; [|intros Ob; apply lines_text; [lia|exact F|exact Ob]].
  assert (~ In nul (text ls)) as Nn.
  { unfold text. intros Z. apply in_concat in Z as [x [Hx Z]]. apply in_map_iff in Hx as [l [<- Hl]]. apply in_app_or in Z as [Z|[Z|[]]]; [|discriminate]. rewrite Forall_forall in F. apply (F l Hl). exact Z. }
  intros H. apply lines_ok in H; [|lia|exact Nn]. destruct H as [a [c [A [E [s1 [Ob [-> ->]]]]]]]. rewrite app_nil_r in E.
  assert (ls = a) as -> by (apply text_inj; assumption). exact Ob.
Qed.
Print Assumptions C73_same_as_tupfile.

(** C73_accepts fails for outputs with NUL bytes: what follows one at the start of a line is ignored
    without a message. *)
Theorem C73_nul_refuted St parse_rule (s s' : St) ls x : ls <> [] -> Forall one_line ls -> obeys St parse_rule s ls s' -> 
  exec_run_script St parse_rule (Exited 0) (text ls ++ "000"%char :: x) s = (s', Done).
Proof.
  intros Ne F O. assert (prefixb bom (text ls ++ "000"%char :: x) = false) as Nb by (destruct O as [|s ls s' O|s t ls s' O|s t s1 ls s' P O]; [contradiction|reflexivity..]).
  unfold exec_run_script, slurp. rewrite Nb. apply nul_text; [apply PeanoNat.Nat.lt_succ_diag_r|exact F|exact O].
Qed.
Print Assumptions C73_nul_refuted.

(** C73_same_as_tupfile fails for rules that go on in a further line, and for indented ones: no
    parse_rule whatever makes them acceptable in a script that prints them. *)
Theorem C73_continued_refuted St parse_rule (s : St) l m : one_line l -> one_line m -> other_line m -> (forall t, l <> "239"%char :: t) ->
  snd (exec_run_script St parse_rule (Exited 0) (text [l; m]) s) <> Done.
Proof.
  intros L M O Nb H. destruct (exec_run_script St parse_rule (Exited 0) (text [l; m]) s) as [s' o] eqn:R. cbn in H. subst o.
  apply (C73_accepts St parse_rule s s' (text [l; m]) (text [l; m])) in R.
  - destruct R as [ls [F [E Ob]]]. assert (ls = [l; m]) as -> by (apply text_inj; [exact F|constructor; [exact L|constructor; [exact M|constructor]]|symmetry; exact E]).
    assert (forall s1, ~ obeys St parse_rule s1 [m] s') as X. { intros s1 Y. destruct O as [c [t [-> [C1 C2]]]]. inversion Y; subst; contradiction. }
    inversion Ob; subst; eapply X; eassumption.
  - unfold text. cbn. rewrite app_nil_r, <- !app_assoc. cbn [app]. intros Z. apply in_app_or in Z as [Z|[Z|Z]]; [apply L; exact Z|discriminate|]. apply in_app_or in Z as [Z|[Z|[]]]; [apply M; exact Z|discriminate].
  - right. split; [reflexivity|]. intros t E. destruct l as [|c l]; [discriminate|]. injection E as -> _. apply (Nb l). reflexivity.
Qed.
Print Assumptions C73_continued_refuted.

(** A script that prints a comment, a blank line and two rules, of which parse_rule takes the ones that
    are not too long. *)
Definition note (s : list bytes) (t : bytes) : list bytes * bool := (s ++ [t], length t <? 20).
Definition tup_other (s : list bytes) (l : bytes) : list bytes * bool := match l with ":"%char :: t => note s t | _ => (s, false) end.
Definition no_if (s : list bytes) (_ : bytes) : list bytes * option bool := (s, None).
Definition ex_lines : list bytes := [B "# from gen.sh"; []; B ": a |> cc |> b"; B ": b |> ld |> c"].
Example C73_ex :
  body (text ex_lines) (text ex_lines) /\ Forall one_line ex_lines /\ Forall plain ex_lines /\ Forall (fun l => ~ other_line l) ex_lines /\
  obeys _ note [] ex_lines [B " a |> cc |> b"; B " b |> ld |> c"] /\
  exec_run_script _ note (Exited 0) (text ex_lines) [] = ([B " a |> cc |> b"; B " b |> ld |> c"], Done) /\
  parse_tupfile _ no_if no_if tup_other [] (text ex_lines) = ([B " a |> cc |> b"; B " b |> ld |> c"], Parsed) /\
  exec_run_script _ note (Exited 1) (text ex_lines) [] = ([], Failed) /\
  exec_run_script _ note (Exited 0) (text [B "# x"; B ": a |> cc |> b"; B "y = 1"; B ": c"]) [] = ([B " a |> cc |> b"], NotRule 3) /\
  exec_run_script _ note (Exited 0) (text [B "# x"; B ": a |> much too long |> b"; B ": c"]) [] = ([B " a |> much too long |> b"], BadRule 2) /\
  exec_run_script _ note (Exited 0) (text [B ": a"] ++ B ": b") [] = ([B " a"], NoNewline).
Proof.
  split; [right; split; [reflexivity|intros t; vm_compute; discriminate]|].
  assert (O : Forall one_line ex_lines).
  { repeat constructor; intros Z; vm_compute in Z; repeat (destruct Z as [Z|Z]; [discriminate|]); exact Z. }
  split; [exact O|]. split; [|split].
  - assert (forall l, one_line l -> existsb (Ascii.eqb (hd "a"%char l)) [" "; "009"; "010"; "011"; "012"; "013"]%char = false -> existsb (Ascii.eqb (last l "a"%char)) ["\"; " "; "009"; "010"; "011"; "012"; "013"]%char = false -> plain l) as H.
    { intros l L Q1 Q2. split; [exact L|]. assert (forall c l, In c l -> existsb (Ascii.eqb c) l = true) as X by (intros c k I; apply existsb_exists; exists c; split; [exact I|apply Ascii.eqb_refl]).
      split; [|split].
      - intros [t [c [-> W]]]. rewrite last_last, X in Q2 by (right; exact W). discriminate.
      - intros [c [t [-> W]]]. cbn [hd] in Q1. rewrite X in Q1 by exact W. discriminate.
      - intros t ->. rewrite last_last in Q2. discriminate. }
    rewrite Forall_forall in *. intros l I. apply H; [apply O; exact I|..]; destruct I as [<-|[<-|[<-|[<-|[]]]]]; vm_compute; reflexivity.
  - repeat constructor; intros [c [t [E [A C]]]]; try discriminate; injection E as <- _; contradiction.
  - split; [apply o_comment, o_blank; eapply o_rule; [reflexivity|]; eapply o_rule; [reflexivity|]; apply o_nil|]. repeat split; vm_compute; reflexivity.
Qed.

(** A rule in two lines and an indented one are fine in a Tupfile. *)
Example C73_continued_ex :
  (one_line (B ": a |> cc \") /\ one_line (B " |> b") /\ other_line (B " |> b")) /\
  parse_tupfile _ no_if no_if tup_other [] (text [B ": a |> cc \"; B " |> b"]) = ([B " a |> cc    |> b"], Parsed) /\
  exec_run_script _ note (Exited 0) (text [B ": a |> cc \"; B " |> b"]) [] = ([B " a |> cc \"], NotRule 2) /\
  parse_tupfile _ no_if no_if tup_other [] (text [B "# x"; B " : a"]) = ([B " a"], Parsed) /\
  exec_run_script _ note (Exited 0) (text [B "# x"; B " : a"]) [] = ([], NotRule 2).
Proof.
  split; [|repeat split; vm_compute; reflexivity]. split; [split; intros Z; vm_compute in Z; repeat (destruct Z as [Z|Z]; [discriminate|]); exact Z|].
  split; [split; intros Z; vm_compute in Z; repeat (destruct Z as [Z|Z]; [discriminate|]); exact Z|]. exists " "%char, (B "|> b"). repeat split; discriminate.
Qed.
(** The second rule is lost. *)
Example C73_nul_ex : exec_run_script _ note (Exited 0) (text [B ": a"] ++ "000"%char :: text [B ": b"]) [] = ([B " a"], Done).
Proof. vm_compute. reflexivity. Qed.
