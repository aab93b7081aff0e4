From Verif Require Import Base EntryModel EntrySpec EntryProofs ExecModel ExecSpec ExecProofs2 ExecProofs3 ExecProps GraphModel ExpandModel ExpandSpec GenModel GenSpec GenProofs GenProofs2.

(** ** The little shell does one thing only *)
Lemma run_fun T top member there : directory_tree T top member -> forall made d ls a, run T there made d ls a -> forall b, run T there made d ls b -> a = b.
Proof.
  intros D made d ls a H.
  assert (forall (w w' q : bytes) (p : bytes), p ++ w ++ q = p ++ w' ++ q -> w = w') as Inv.
  { intros w w' q p E. apply app_inv_head in E. apply app_inv_tail in E. exact E. }
  assert (forall w w', bare w -> B "mkdir -p " ++ w ++ B "/" = B "mkdir -p """ ++ w' ++ B """" -> False) as Mix.
  { intros w w' Bw E. change (B "mkdir -p " ++ w ++ B "/" = B "mkdir -p " ++ B """" ++ w' ++ B """") in E. apply app_inv_head in E.
    destruct w as [|c w]; [discriminate|]. injection E as -> _. destruct Bw as [_ [Bw _]]. discriminate. }
  induction H as [made d|made d x ls a H IH|made d x ls a H IH|made d w e ls a Qw L Pe H IH|made d w e ls a Qw L H IH|made d w e ls a Bw L H IH|made d c ls a Cc H IH]; intros b Hb.
  - inversion Hb. reflexivity.
  - remember (("#"%char :: x) :: ls) as l eqn:El. destruct Hb; try discriminate El. injection El as _ ->. auto.
  - remember ((B "export tup_vardict=" ++ x) :: ls) as l eqn:El. destruct Hb; try discriminate El. injection El as _ ->. auto.
  - remember ((B "cd """ ++ w ++ B """") :: ls) as l eqn:El. destruct Hb as [| | |made d w2 e2 l2 b Q2 L2 P2 H2| | |]; try discriminate El.
    assert (w2 = w) as -> by (apply (Inv w2 w (B """") (B "cd """)); congruence). assert (l2 = ls) as -> by congruence.
    assert (e2 = e) as -> by (eapply leads_fun; eauto). auto.
  - remember ((B "mkdir -p """ ++ w ++ B """") :: ls) as l eqn:El. destruct Hb as [| | | |made d w2 e2 l2 b Q2 L2 H2|made d w2 e2 l2 b Q2 L2 H2|]; try discriminate El.
    + assert (w2 = w) as -> by (apply (Inv w2 w (B """") (B "mkdir -p """)); congruence). assert (l2 = ls) as -> by congruence.
      assert (e2 = e) as -> by (eapply leads_fun; eauto). f_equal. auto.
    + exfalso. apply (Mix w2 w Q2). congruence.
  - remember ((B "mkdir -p " ++ w ++ B "/") :: ls) as l eqn:El. destruct Hb as [| | | |made d w2 e2 l2 b Q2 L2 H2|made d w2 e2 l2 b Q2 L2 H2|]; try discriminate El.
    + exfalso. apply (Mix w w2 Bw). congruence.
    + assert (w2 = w) as -> by (apply (Inv w2 w (B "/") (B "mkdir -p ")); congruence). assert (l2 = ls) as -> by congruence.
      assert (e2 = e) as -> by (eapply leads_fun; eauto). f_equal. auto.
  - remember ((B "(" ++ c ++ B ")") :: ls) as l eqn:El. destruct Hb as [| | | | | |made d c2 l2 b C2 H2]; try discriminate El.
    assert (c2 = c) as -> by (apply (Inv c2 c (B ")") (B "(")); congruence). assert (l2 = ls) as -> by congruence. f_equal. auto.
Qed.

(** Only the nodes of the graph are worked on. *)
Lemma finish_node {WS} (work : graph -> id -> WS -> WS -> bool -> Prop) kg g root nodes jobs w s : prepared g root nodes -> 0 < jobs ->
  steps work kg (start jobs g w) s -> forall n ok, In (Finish n ok) (hist s) -> In n nodes.
Proof.
  intros P J H. remember (start jobs g w) as a eqn:Ea. induction H as [a|a b c H IH St]; intros n ok I.
  - subst a. destruct (start_facts (WS := WS) jobs g w) as [Eh _]. rewrite Eh in I. destruct I.
  - subst a. specialize (IH eq_refl). destruct (step_cases _ _ _ _ St) as [[Eh _]|[[m [Eh _]]|[m [o [l [r [Er [_ [Eh _]]]]]]]]]; rewrite Eh in I.
    + eauto.
    + destruct I as [I|I]; [discriminate|eauto].
    + destruct I as [I|I]; [|eauto]. injection I as -> ->. pose proof (reach_Inv work kg g root nodes P jobs J w b H) as Iv.
      apply (i_sub _ _ _ _ _ _ Iv). apply live_in. right. right. left. rewrite Er. apply in_elt.
Qed.
Lemma filter_split {A} (p : A -> bool) (l1 l2 : list A) a : p a = true -> filter p (l1 ++ a :: l2) = filter p l1 ++ a :: filter p l2.
Proof. intros E. rewrite filter_app. cbn. rewrite E. reflexivity. Qed.

Section Whole.
Variable T : tree. Variable fuel top : nat. Variable kind_of : nat -> kind.
Variable gendir : nat -> bool. Variable variant : nat -> option nat. Variable srcdir : nat -> nat.
Variable groups_of : nat -> list group. Variable tmp_ok : bool.
Variable member there : nat -> Prop.
Variable g : graph. Variable root : id. Variable nodes : list id.
Hypothesis Prep : prepared g root nodes.
Hypothesis Proj : project T top member (fun c => kind_of c = KCmd) (fun f => kind_of f = KGenerated) (fun d => gendir d = true) srcdir there nodes.
Hypothesis RootKind : kind_of root = KRoot.
Hypothesis InTree : forall d, gendir d = true -> variant d = None.
Hypothesis NoTrans : forall c, kind_of c = KCmd -> trans g c = TNone.

Lemma script_runs verbose args bdirs t :
  (forall a, In a args -> ~ In newline a) ->
  (bdirs <> [] -> forall d, member d -> bare (name T d)) -> (forall d, In d bdirs -> member d /\ d <> top) ->
  (forall c x, In c nodes -> kind_of c = KCmd -> may_be T fuel srcdir groups_of tmp_ok c x -> complete x) ->
  generated T fuel top kind_of gendir variant srcdir groups_of tmp_ok verbose args bdirs g t ->
  exists ls ds todo acts,
    t = lines ls /\ Forall one_line ls /\
    acts = map Made ds ++ map (fun y => Ran (dir_of T top srcdir (fst y)) (snd y)) todo /\
    run T there [] top ls acts /\ (forall acts', run T there [] top ls acts' -> acts' = acts) /\
    NoDup (map fst todo) /\ (forall c, In c (map fst todo) <-> In c nodes /\ kind_of c = KCmd) /\
    (forall c x, In (c, x) todo -> may_be T fuel srcdir groups_of tmp_ok c x) /\
    (forall a b, depends g root a b -> In a (map fst todo) -> In b (map fst todo) -> earlier (map fst todo) a b) /\
    (forall f d, In f nodes -> kind_of f = KGenerated -> parent T f = Some d -> present T there ds d).
Proof.
  intros Ha Hbare Hb Hc [s0 [s [Pre [R [At ->]]]]]. pose proof (pr_tree _ _ _ _ _ _ _ _ _ Proj) as D. pose proof (pr_names _ _ _ _ _ _ _ _ _ Proj) as Qn.
  unfold preamble in Pre. destruct (build_dirs T fuel top bdirs) as [xb|] eqn:Eb; [|discriminate].
  destruct (mkdirs T fuel kind_of gendir variant (node_list g) []) as [xm|] eqn:Em; [|discriminate]. assert (s0 = {| cwd := top; text := header verbose args ++ xb ++ xm; res_files := {| resno := 0; files := [] |} |}) as E0 by congruence. clear Pre.
  destruct (pr_top _ _ _ _ _ _ _ _ _ Proj) as [Mtop Gtop]. assert (gendir top = false) as Gt by (destruct (gendir top); [exfalso; auto|reflexivity]).
  destruct (header_part T there verbose args [] top Ha) as [l1 [E1 [F1 P1]]].
  assert (exists l2, xb = lines l2 /\ Forall one_line l2 /\ part T there top [] l2 (map Made bdirs) top (rev bdirs ++ [])) as [l2 [E2 [F2 P2]]].
  { destruct bdirs as [|d0 bd0] eqn:Ebd; [injection Eb as <-; exists []; split; [reflexivity|]; split; [constructor|apply part_nil]|]. rewrite <- Ebd in *.
    eapply build_part; eauto. apply Hbare. rewrite Ebd. discriminate. }
  destruct (mkdirs_part T fuel top kind_of gendir variant member there D Qn InTree Gt (node_list g)) with (seen := [] : list nat) (x := xm) (made := rev bdirs ++ []) as [l3 [dm [E3 [F3 [P3 C3]]]]].
  { intros n d I K P. rewrite (p_lists _ _ _ Prep) in I. destruct I as [<-|I]; [congruence|]. destruct (pr_output _ _ _ _ _ _ _ _ _ Proj n I K) as [p [P' M]]. congruence. }
  { exact Em. }
  set (work := generate_work T fuel kind_of srcdir groups_of tmp_ok) in *.
  assert (reachable work false g 1 s0 s) as Re by exact R.
  pose proof (fun n => C02_success_means_no_failure work false g root nodes Prep 1 ltac:(lia) _ s n Re At) as NoFail.
  pose proof (fun n => C02_all_on_success work false g root nodes Prep 1 ltac:(lia) _ s n Re At) as All.
  pose proof (fun n => C02_at_most_once work false g root nodes Prep 1 ltac:(lia) _ s n Re) as Once.
  pose proof (fun a b h1 h2 => C01_start_after_dependencies work false g root nodes Prep 1 ltac:(lia) _ s a b h1 h2 Re) as Order.
  destruct (reach_counts work false _ _ _ _ R) as [Bal Suf].
  pose proof (reach_works T fuel kind_of srcdir groups_of tmp_ok _ _ _ _ R NoFail) as W.
  set (cmdb := fun c => is_cmd (kind_of c)).
  assert (forall c, cmdb c = true <-> kind_of c = KCmd) as Cb by (intros c; unfold cmdb; destruct (kind_of c); cbn; intuition congruence).
  assert (forall n, In n (finished (hist s)) <-> In n nodes) as Known.
  { intros n. rewrite finished_in. split; [intros [ok I]; exact (finish_node work false g root nodes 1 s0 s Prep ltac:(lia) R n ok I)|].
    intros I. exists true. apply (All n I). }
  set (made := rev dm ++ rev bdirs ++ []) in *.
  destruct (works_part T fuel top kind_of srcdir groups_of tmp_ok member there D Qn s0 _ _ made W) as [l4 [todo [E4 [F4 [P4 [Ef [Mb _]]]]]]].
  { subst s0. exact Mtop. }
  { subst s0. constructor. }
  { intros c I K. apply Known in I. destruct (pr_command _ _ _ _ _ _ _ _ _ Proj c I K) as [p [Pp [Mp Gp]]].
    unfold dir_of at 1 2. rewrite Pp. split; [exact Mp|]. split; [left; exact (pr_there _ _ _ _ _ _ _ _ _ Proj _ Mp Gp)|]. intros x. apply Hc; assumption. }
  assert (cwd s0 = top) as Ec by (subst s0; reflexivity). rewrite Ec in P4.
  exists (l1 ++ l2 ++ l3 ++ l4), (bdirs ++ dm), todo, (map Made (bdirs ++ dm) ++ map (fun y => Ran (dir_of T top srcdir (fst y)) (snd y)) todo).
  assert (run T there [] top (l1 ++ l2 ++ l3 ++ l4) (map Made (bdirs ++ dm) ++ map (fun y => Ran (dir_of T top srcdir (fst y)) (snd y)) todo)) as Rn.
  { pose proof (part_app _ _ _ _ _ _ _ _ _ _ _ _ P1 (part_app _ _ _ _ _ _ _ _ _ _ _ _ P2 (part_app _ _ _ _ _ _ _ _ _ _ _ _ P3 P4)) [] [] (r_end _ _ _ _)) as Z.
    rewrite !app_nil_r in Z. rewrite map_app, <- app_assoc. exact Z. }
  split; [rewrite E4, E0; cbn [text]; rewrite E1, E2, E3, !lines_app, <- !app_assoc; reflexivity|].
  split; [repeat (apply Forall_app; split); assumption|]. split; [reflexivity|]. split; [exact Rn|].
  split; [intros a' Ra; exact (run_fun T top member there D _ _ _ _ Ra _ Rn)|].
  assert (forall n, cmdb n = true -> occ n (finished (hist s)) <= 1) as Occ.
  { intros n K. apply Cb in K. rewrite <- finishes_occ. specialize (Suf [] (hist s) n eq_refl). specialize (Once n). rewrite (NoTrans n K) in Once. lia. }
  split; [rewrite Ef; apply occ_nodup; exact Occ|].
  assert (forall c, In c (map fst todo) <-> In c nodes /\ kind_of c = KCmd) as Todo.
  { intros c. rewrite Ef, filter_In, Known. fold (cmdb c). rewrite Cb. reflexivity. }
  split; [exact Todo|]. split; [exact Mb|]. split.
  - intros a b Dp Ia Ib. apply Todo in Ia as [Na Ka], Ib as [Nb Kb]. destruct (All b Nb) as [_ Sb]. rewrite (NoTrans b Kb) in Sb.
    assert (In (Start b) (hist s)) as I.
    { unfold starts in Sb. destruct (filter (fun e => match e with Start m => m =? b | _ => false end) (hist s)) as [|e r] eqn:E; [discriminate|].
      assert (In e (filter (fun e => match e with Start m => m =? b | _ => false end) (hist s))) as I by (rewrite E; left; reflexivity).
      apply filter_In in I as [I X]. destruct e as [m|]; [|discriminate]. apply Nat.eqb_eq in X. subst m. exact I. }
    apply in_split in I as [h1 [h2 Eh]]. pose proof (Order a b h1 h2 Dp Eh) as Fa.
    assert (starts b h2 = 0) as Z.
    { rewrite Eh in Sb. unfold starts in Sb. rewrite filter_app in Sb. cbn [filter] in Sb. rewrite Nat.eqb_refl, app_length in Sb. cbn [length] in Sb. unfold starts. lia. }
    pose proof (Suf (h1 ++ [Start b]) h2 b) as Fb. rewrite <- app_assoc in Fb. specialize (Fb Eh).
    assert (~ In b (finished h2)) as Nb2 by (rewrite <- occ_in, <- finishes_occ; lia).
    assert (In a (finished h2)) as Ia by (apply finished_in; eauto).
    assert (In b (finished h1)) as Ib.
    { apply Known in Nb. rewrite Eh, finished_app in Nb. cbn [finished] in Nb. apply in_app_or in Nb as [Nb|Nb]; [contradiction|exact Nb]. }
    apply in_split in Ia as [x1 [x2 X]]. apply in_split in Ib as [y1 [y2 Y]].
    exists (filter cmdb x1), (filter cmdb (x2 ++ y1)), (filter cmdb y2). rewrite Ef, Eh, finished_app. cbn [finished]. rewrite X, Y.
    fold cmdb. rewrite <- app_assoc. cbn [app]. rewrite (filter_split cmdb x1) by (apply Cb; exact Ka). f_equal. f_equal.
    rewrite app_assoc. apply filter_split. apply Cb; exact Kb.
  - intros f d I K P. destruct (pr_output _ _ _ _ _ _ _ _ _ Proj f I K) as [p [P' M]]. assert (p = d) as -> by congruence.
    destruct (gendir d) eqn:G.
    + right. exists d. split; [|apply ab_self]. apply in_or_app. right. destruct (C3 f d) as [A|[]]; auto. rewrite (p_lists _ _ _ Prep). right. exact I.
    + left. apply (pr_there _ _ _ _ _ _ _ _ _ Proj d M). congruence.
Qed.
End Whole.
