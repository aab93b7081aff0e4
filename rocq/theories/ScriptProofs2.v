From Verif Require Import Base ConfigModel ConfigSpec ConfigProofs ParseModel ParseSpec IfModel TextModel TextSpec TextProofs TextProofs2 TextProofs3 TextProps ScriptModel ScriptSpec ScriptProofs.
Require Import Lia.

Definition item_of (l : bytes) : item := match l with [] => Blank [] | _ => Statement [] [] l [] end.
Definition items_of (ls : list bytes) : list item := map item_of ls ++ [Blank []].
Lemma items_text ls : file_text (items_of ls) = text ls.
Proof.
  induction ls as [|l ls IH]; [reflexivity|]. unfold items_of in *. change (text (l :: ls)) with ((l ++ ["010"%char]) ++ text ls). rewrite <- app_assoc, <- IH. cbn [map app]. destruct (map item_of ls ++ [Blank []]) as [|i r] eqn:Q; [destruct (map item_of ls); discriminate|].
  change (file_text (item_of l :: i :: r)) with (item_text (item_of l) ++ "010"%char :: file_text (i :: r)). f_equal. destruct l; cbn; [reflexivity|]. rewrite app_nil_r. reflexivity.
Qed.
Lemma items_good ls : Forall plain ls -> Forall item_ok (items_of ls).
Proof.
  intros F. assert (one_line []) as O by (split; intros []). apply Forall_app. split; [|constructor; [split; [constructor|exact O]|constructor]].
  apply Forall_map. eapply Forall_impl; [|exact F]. intros l [L1 [L2 [L3 L4]]]. destruct l as [|c l]; cbn [item_of item_ok]; [split; [constructor|exact O]|].
  cbn [map concat app]. split; [constructor|]. split; [exact O|]. split; [constructor|]. split; [exact L1|]. split; [exact L2|]. split; [constructor|]. split; [exact O|]. split; [discriminate|]. split; [exact L3|]. intros t E. destruct (L4 t E).
Qed.
Section T.
Variable St : Type.
Variable eval_eq : St -> bytes -> St * option bool.
Variable var_ifdef : St -> bytes -> St * option bool.
Variable other : St -> bytes -> St * bool.
Variable parse_rule : St -> bytes -> St * bool.
Hypothesis same : forall s t, other s (":"%char :: t) = parse_rule s t.
Lemma kinds l : ~ other_line l -> l = [] \/ (exists t, l = "#"%char :: t) \/ exists t, l = ":"%char :: t.
Proof.
  intros N. destruct l as [|c t]; [auto|]. destruct (Ascii.ascii_dec c "#") as [->|A]; [eauto|]. destruct (Ascii.ascii_dec c ":") as [->|C]; [eauto|]. destruct N. exists c, t. auto.
Qed.
Lemma items_statements : forall ls n, Forall plain ls -> Forall (fun l => ~ other_line l) ls ->
  exists st, statements n (items_of ls) st /\ forall s s', parse_lines St eval_eq var_ifdef other s if_init (map snd st) = (s', true) <-> obeys St parse_rule s ls s'.
Proof.
  induction ls as [|l ls IH]; intros n P O.
  { exists []. split; [apply st_blank, st_nil|]. intros s s'. cbn. split; [intros H; injection H as <-; constructor|intros H; inversion H; reflexivity]. }
  inversion P as [|? ? P1 P2]; subst. inversion O as [|? ? O1 O2]; subst. destruct (kinds l O1) as [->|[[t ->]|[t ->]]]; unfold items_of; cbn [map app item_of].
  - destruct (IH (S n) P2 O2) as [st [S1 S2]]. exists st. split; [apply st_blank; exact S1|]. intros s s'. rewrite S2. split; [constructor; assumption|intros H; inversion H; assumption].
  - destruct (IH (S (n + 0)) P2 O2) as [st [S1 S2]]. exists st. split; [apply st_comment; [exists t; reflexivity|exact S1]|]. intros s s'. rewrite S2. split; [constructor; assumption|intros H; inversion H; assumption].
  - destruct (IH (S (n + 0)) P2 O2) as [st [S1 S2]]. exists ((n + 0, ":"%char :: t) :: st). split.
    + apply st_statement; [intros [u K]; discriminate| |exact S1]. exists []. rewrite app_nil_r. split; [reflexivity|]. split; [constructor|]. apply P1.
    + intros s s'. cbn [map snd parse_lines]. unfold do_line. assert (classify (":"%char :: t) = LOther) as -> by reflexivity. change (if_true if_init) with true. cbn iota. rewrite same. destruct (parse_rule s t) as [s1 ok] eqn:R. destruct ok; [rewrite S2|].
      * split; [intros H; eapply o_rule; eassumption|]. intros H. inversion H as [| | |? ? s2 ? ? E Ob]; subst. rewrite R in E. injection E as <-. exact Ob.
      * split; [discriminate|]. intros H. inversion H as [| | |? ? s2 ? ? E Ob]; subst. rewrite R in E. discriminate.
Qed.
Lemma text_no_bom ls : Forall (fun l => ~ other_line l) ls -> prefixb bom (text ls) = false.
Proof.
  intros O. destruct ls as [|l ls]; [reflexivity|]. inversion O as [|? ? O1 O2]; subst. destruct (kinds l O1) as [->|[[t ->]|[t ->]]]; reflexivity.
Qed.
End T.
