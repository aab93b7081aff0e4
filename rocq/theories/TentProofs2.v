From Verif Require Import Base ExecModel ExecSpec ExecProofs GraphModel GraphSpec GraphProofs TentModel TentSpec TentProofs.
From Coq Require Import ZArith Sorted.

Section Conn.
Variable kind_of : id -> kind.
Variable links : id -> list id.
Variable transient_ : id -> bool.
Variable root : id.
Variable U : list id.
Hypothesis Kroot : kind_of root = KRoot.
Hypothesis FD : finite_db links root U.

Definition nog : id -> list id := fun _ => [].

Lemma next_links a b : next kind_of links nog a b <-> In b (links a).
Proof. unfold next, nog. cbn. intuition. Qed.
Lemma path_leads a b : path kind_of links nog a b <-> leads_to links a b.
Proof.
  split; (induction 1 as [a b H|a b c P IH H]; [|]).
  - apply leads_one. apply next_links. exact H.
  - apply leads_more with b; [exact IH|]. apply next_links. exact H.
  - apply path_one. apply next_links. exact H.
  - apply path_step with b; [exact IH|]. apply next_links. exact H.
Qed.
Lemma affected_leads s n : affected kind_of links nog [s] n <-> n = s \/ leads_to links s n.
Proof.
  split.
  - induction 1 as [n [<-|[]]|a b A IH H]; [auto|]. apply next_links in H. right.
    destruct IH as [->|IH]; [apply leads_one; exact H|apply leads_more with a; assumption].
  - intros [->|H]; [apply aff_flag; left; reflexivity|]. induction H as [a b H|a b c P IH H].
    + apply aff_next with a; [apply aff_flag; left; reflexivity|apply next_links; exact H].
    + apply aff_next with b; [exact IH|apply next_links; exact H].
Qed.
Lemma leads_trans a b c : leads_to links a b -> leads_to links b c -> leads_to links a c.
Proof. intros P Q. revert P. induction Q as [b c H|b c d Q IH H]; intros P; [apply leads_more with b; auto|apply leads_more with c; auto]. Qed.

Section Src.
Variable s : id.
Hypothesis Su : In s U.
Variable valid : list id.
Hypothesis Sv : sorted valid.
Hypothesis Sm : small valid.
Hypothesis SU : small U.

Lemma OK1 : db_ok kind_of links nog root U [s].
Proof.
  split; [exact (f_root _ _ _ FD)|intros n [<-|[]]; exact Su|].
  intros a b Ha H. apply next_links in H. exact (f_closed _ _ _ FD a b Ha H).
Qed.
Lemma succs_links n : succs kind_of links nog n = links n.
Proof. unfold succs, nog. destruct (is_group (kind_of n)); apply app_nil_r. Qed.

Notation cbk := (build_graph_cb kind_of transient_ root (Some KOther)).
Notation LIk := (LI kind_of links nog transient_ root (Some KOther) [s]).

Definition checked (b : bgraph) : Prop := forall n, In n (plist (gr_ b) ++ fin b) -> state (gr_ b) n <> Initialized ->
  n = s \/ ~ In n valid.

Lemma exhausted b : LIk b -> plist (gr_ b) = [] -> forall n, affected kind_of links nog [s] n -> In n (fin b).
Proof.
  intros I Pn n A.
  assert (forall n, In n (plist (gr_ b) ++ fin b) <-> In n (fin b)) as KK by (rewrite Pn; reflexivity).
  induction A as [n H|a c Ha IH H]; [apply KK; apply (li_flags _ _ _ _ _ _ _ _ I); exact H|].
  apply KK. assert (In {| src := a; dst := c; normal := true |} (edges (gr_ b))) as Ee.
  { apply (li_edges _ _ _ _ _ _ _ _ I). cbn. split; [reflexivity|]. right. split; [apply KK; exact IH|].
    split; [rewrite (li_fin _ _ _ _ _ _ _ _ I a IH); discriminate|exact H]. }
  exact (li_dst _ _ _ _ _ _ _ _ I _ Ee).
Qed.

Lemma connected_loop_spec fuel : forall b, LIk b -> checked b -> 2 * length U < fuel + visits b ->
  match connected_loop kind_of links transient_ root fuel s valid b with
  | Done true => exists v, In v valid /\ leads_to links s v
  | Done false => forall v, In v valid -> v <> s -> ~ leads_to links s v
  | Circular => exists n, (n = s \/ leads_to links s n) /\ leads_to links n n
  | Internal | Timeout => False
  end.
Proof.
  pose proof OK1 as OK. pose proof (f_nodup _ _ _ FD) as UN.
  assert (forall n, affected kind_of links nog [s] n -> In n U) as AU by (intros n; apply (affected_U _ _ _ _ _ _ OK)).
  assert (forall n, In n U -> n <> root) as UR by (intros n H ->; exact (f_root _ _ _ FD H)).
  assert (forall b, LIk b -> checked b -> plist (gr_ b) = [] ->
     forall v, In v valid -> v <> s -> ~ leads_to links s v) as EMPTY.
  { intros b I Ck Pl v Hv Nv L. assert (In v (fin b)) as Hf.
    { apply (exhausted b I Pl). apply affected_leads. auto. }
    destruct (Ck v) as [C|C]; [rewrite Pl; exact Hf|rewrite (li_fin _ _ _ _ _ _ _ _ I v Hf); discriminate| |];
      contradiction. }
  induction fuel as [|f IH]; intros b I Ck Hf.
  - cbn [connected_loop]. destruct (plist (gr_ b)) as [|cur rest] eqn:Pl; [exact (EMPTY b I Ck Pl)|].
    pose proof (size_bound _ _ _ _ _ _ _ _ OK b I) as Sb.
    pose proof (filter_len_le (is_proc_in b) (plist (gr_ b))) as Fl.
    unfold visits in Hf. rewrite Pl in *. cbn [length] in *. lia.
  - cbn [connected_loop]. destruct (plist (gr_ b)) as [|cur rest] eqn:Pl; [exact (EMPTY b I Ck Pl)|].
    assert (In cur (plist (gr_ b) ++ fin b)) as Kc by (rewrite Pl; left; reflexivity).
    assert (affected kind_of links nog [s] cur) as Ac by (apply (li_aff _ _ _ _ _ _ _ _ I); exact Kc).
    assert (cur = s \/ leads_to links s cur) as Lc by (apply affected_leads; exact Ac).
    assert (small (cur :: valid)) as Smc by (intros x [<-|H]; [apply SU, AU; exact Ac|apply Sm; exact H]).
    destruct (negb (cur =? s) && tree_search valid cur) eqn:T.
    { apply andb_true_iff in T. destruct T as [T1 T2]. apply tree_search_spec in T2; [|exact Sv|exact Smc].
      exists cur. split; [exact T2|]. destruct Lc as [->|Lc]; [|exact Lc]. rewrite Nat.eqb_refl in T1. discriminate. }
    assert (cur = s \/ ~ In cur valid) as CC.
    { apply andb_false_iff in T. destruct T as [T|T]; [left; apply negb_false_iff in T; apply Nat.eqb_eq; exact T|].
      right. intros H. apply tree_search_spec in H; [congruence|exact Sv|exact Smc]. }
    clear T. destruct (state (gr_ b) cur) eqn:St.
    + assert (~ In root (links cur)) as Nr.
      { intros C. apply (UR root); [|reflexivity]. exact (f_closed _ _ _ FD cur root (AU cur Ac) C). }
      destruct (each_cb kind_of links nog nog transient_ transient_ root (Some KOther) (links cur) b cur
                  (li_W _ _ _ _ _ _ _ _ I) Nr) as [[b1 [new [E [L _]]]]|[E [n [H1 [H2 H3]]]]].
      * rewrite E. cbn [then_]. pose proof L as L'. rewrite <- succs_links in L'.
        destruct (step_init kind_of links nog nog transient_ transient_ root (Some KOther) [s] U OK b cur rest b1 new I Pl St L') as [I2 V2].
        apply IH; [exact I2| |unfold finish in V2; rewrite V2; lia].
        intros n Hn Sn. cbn in Hn, Sn. unfold upd in Sn. destruct (Nat.eqb_spec n cur) as [->|D]; [exact CC|].
        destruct (in_dec Nat.eq_dec n new) as [N|N]; [rewrite (l_state_new _ _ _ _ _ _ _ _ _ L n N) in Sn; contradiction|].
        rewrite (l_state_old _ _ _ _ _ _ _ _ _ L n N) in Sn. apply Ck; [|exact Sn].
        unfold fin in Hn. cbn in Hn. rewrite (l_plist _ _ _ _ _ _ _ _ _ L), (l_nodes _ _ _ _ _ _ _ _ _ L) in Hn.
        unfold fin. rewrite !in_app_iff in *. tauto.
      * rewrite E. cbn [then_]. exists n. rewrite <- !path_leads.
        assert (next kind_of links nog cur n) as Nx by (left; exact H1). rewrite path_leads.
        split; [apply affected_leads; exact (aff_next _ _ _ _ _ _ Ac Nx)|].
        apply (known_split kind_of links nog nog transient_ transient_ root (Some KOther) [s] b I) in H2. destruct H2 as [->|H2]; [contradiction|].
        apply in_app_or in H2. destruct H2 as [H2|H2]; [|rewrite (li_fin _ _ _ _ _ _ _ _ I n H2) in H3; discriminate].
        rewrite Pl in H2. destruct H2 as [<-|H2]; [congruence|].
        apply in_split in H2. destruct H2 as [l1 [l2 E2]].
        apply path_step with cur; [|exact Nx].
        apply (li_anc _ _ _ _ _ _ _ _ I (cur :: l1) n l2); [rewrite Pl, E2; reflexivity|exact H3|left; reflexivity].
    + destruct (step_proc kind_of links nog nog transient_ transient_ root (Some KOther) [s] b cur rest I Pl St) as [g [E [I2 V2]]].
      rewrite E. cbn [of_option then_]. apply IH; [exact I2| |rewrite V2; lia].
      assert (plist g = rest /\ node_list g = node_list (gr_ b) ++ [cur] /\ state g = state (gr_ b)) as [G1 [G2 G3]].
      { unfold off_plist in E. destruct (inb cur (plist (gr_ b))) eqn:Q; [|discriminate]. cbn [obind] in E. unfold to_nodes_tail in E.
        cbn [plist node_list edges state trans expanded] in E. destruct (_ || _); [discriminate|]. injection E as <-. cbn.
        split; [|auto]. rewrite Pl. cbn [rm]. rewrite Nat.eqb_refl. apply rm_notin.
        destruct (li_W _ _ _ _ _ _ _ _ I) as [ND _]. unfold known in ND. rewrite Pl in ND. inversion ND as [|? ? N1 N2].
        rewrite in_app_iff in N1. tauto. }
      intros n Hn Sn. unfold fin in Hn. cbn in Hn, Sn. rewrite G1, G2 in Hn. rewrite G3 in Sn.
      unfold upd in Sn. destruct (Nat.eqb_spec n cur) as [->|D]; [exact CC|]. apply Ck; [|exact Sn].
      unfold fin. rewrite (li_nodes _ _ _ _ _ _ _ _ I) in Hn |- *. cbn [tl app] in *. rewrite Pl. rewrite !in_app_iff in *. cbn [In] in *.
      destruct Hn as [Hn|[Hn|[Hn|[]]]]; auto.
    + apply (li_stack _ _ _ _ _ _ _ _ I cur); [rewrite Pl; left; reflexivity|exact St].
Qed.

Theorem nodes_are_connected_spec fuel : 2 * length U < fuel ->
  match nodes_are_connected kind_of links transient_ root fuel s valid with
  | Done true => exists v, In v valid /\ leads_to links s v
  | Done false => forall v, In v valid -> v <> s -> ~ leads_to links s v
  | Circular => exists n, (n = s \/ leads_to links s n) /\ leads_to links n n
  | Internal | Timeout => False
  end.
Proof.
  intros Hf. unfold nodes_are_connected.
  destruct (flags_LI kind_of links nog nog transient_ transient_ root (Some KOther) [s] U OK1 Kroot) as [b [E [I V]]].
  cbn [each] in E. destruct (build_graph_cb _ _ _ _ _ root s) as [b0| | |]; try discriminate. cbn [then_] in *.
  injection E as <-. apply connected_loop_spec; [exact I| |lia].
  intros n Hn Sn. exfalso. apply Sn. unfold visits in V. apply in_app_or in Hn. destruct Hn as [Hn|Hn].
  - destruct (state (gr_ b0) n) eqn:Q; [reflexivity| |exfalso; exact (li_stack _ _ _ _ _ _ _ _ I n Hn Q)].
    assert (In n (filter (is_proc_in b0) (plist (gr_ b0)))) as C by (apply filter_In; split; [exact Hn|unfold is_proc_in; rewrite Q; reflexivity]).
    destruct (filter _ _); [destruct C|cbn in V; lia].
  - destruct (fin b0); [destruct Hn|cbn in V; lia].
Qed.
End Src.

(** ** check_generated_inputs *)
Section Check.
Variable valid groups : list id.
Hypothesis Sv : sorted valid.
Hypothesis Sm : small valid.
Hypothesis SU : small U.
Variable fuel : nat.
Hypothesis Hf : 2 * length U < fuel.

Lemma groups_link x : existsb (fun g => inb g (links x)) groups = true <-> exists g, In g groups /\ In g (links x).
Proof.
  rewrite existsb_exists. split; intros [g [H1 H2]]; exists g; (split; [exact H1|]); apply inb_In; exact H2.
Qed.

Lemma check_generated_spec miss : incl miss U -> (forall x, In x miss -> ~ In x valid) ->
  match check_generated_inputs kind_of links transient_ root fuel miss valid groups with
  | Done l => forall x, (In x l -> In x miss /\ ~ ordered_by_declaration links valid groups x) /\
                         (In x miss -> In x l \/ ordered_by_declaration links valid groups x)
  | Circular => exists n, In n U /\ leads_to links n n
  | Internal | Timeout => False
  end.
Proof.
  induction miss as [|x miss IH]; intros Iu Nv; cbn [check_generated_inputs].
  - intros x. cbn. tauto.
  - assert (In x U) as Hx by (apply Iu; left; reflexivity).
    specialize (IH (fun y H => Iu y (or_intror H)) (fun y H => Nv y (or_intror H))).
    pose proof (nodes_are_connected_spec x Hx valid Sv Sm SU fuel Hf) as C.
    assert (forall r, In r valid -> r <> x) as NE by (intros r Hr ->; exact (Nv x (or_introl eq_refl) Hr)).
    assert (match (if existsb (fun g => inb g (links x)) groups then Done true else nodes_are_connected kind_of links transient_ root fuel x valid) with
      | Done c => c = true <-> ordered_by_declaration links valid groups x
      | Circular => exists n, In n U /\ leads_to links n n
      | _ => False end) as Q.
    { destruct (existsb (fun g => inb g (links x)) groups) eqn:G.
      - split; [|reflexivity]. intros _. right. left. apply groups_link. exact G.
      - destruct (nodes_are_connected _ _ _ _ _ _ _) as [[]| | |]; try exact C.
        + split; [|reflexivity]. intros _. right. right. exact C.
        + split; [discriminate|]. intros [H|[H|[v [H1 H2]]]].
          * exfalso. exact (Nv x (or_introl eq_refl) H).
          * apply groups_link in H. congruence.
          * exfalso. exact (C v H1 (NE v H1) H2).
        + destruct C as [n [H1 H2]]. exists n. split; [|exact H2]. destruct H1 as [->|H1]; [exact Hx|].
          clear - H1 Hx FD. induction H1 as [a b H|a b c P I H]; [exact (f_closed _ _ _ FD a b Hx H)|].
          exact (f_closed _ _ _ FD b c (I Hx) H). }
    destruct (if existsb _ groups then _ else _) as [c| | |]; cbn [then_]; try exact Q.
    destruct (check_generated_inputs _ _ _ _ _ miss valid groups) as [l| | |]; cbn [then_]; try exact IH.
    intros y. destruct (IH y) as [I1 I2]. destruct c.
    + split; [intros H; destruct (I1 H); split; [right|]; assumption|].
      intros [<-|H]; [right; apply Q; reflexivity|auto].
    + cbn [In]. split; [|intros [H|H]; [auto|destruct (I2 H); auto]].
      intros [<-|H]; [|destruct (I1 H); auto]. split; [auto|]. intros O. apply Q in O. discriminate.
Qed.
End Check.
End Conn.
