From Verif Require Import Base ExecModel ExecSpec ExecProofs GraphModel GraphSpec GraphProofs TentModel TentSpec TentProofs TentProofs2.
From Coq Require Import ZArith Sorted.

Section Inputs.
Variable kind_of : id -> kind.
Variable variant_of : id -> option id.
Variable cmd : id.
Variable links : id -> list id.
Variable transient_ : id -> bool.
Variable root : id.
Variable U : list id.
Hypothesis Kroot : kind_of root = KRoot.
Hypothesis FD : finite_db links root U.
Hypothesis SU : small U.

Lemma small_U x t : In x U -> incl t U -> small (x :: t).
Proof. intros H1 H2 y [<-|H]; apply SU; auto. Qed.

Variable outputs : list id.
Hypothesis So : sorted outputs.
Hypothesis Io : incl outputs U.
Lemma search_out x : In x U -> tree_search outputs x = true <-> In x outputs.
Proof. intros H. apply tree_search_spec; [exact So|apply small_U; assumption]. Qed.

Lemma tell_new l : forall d, sorted (map which l) -> (forall e, In e l -> In (which e) U) -> incl (missing d) U ->
  sorted (missing d) -> (forall x, In x (missing d) -> ~ In (OnlyFirst x) l) ->
  match tell (Some (new_input kind_of variant_of cmd outputs)) None l d with
  | Some d' => nlinks d' = nlinks d /\ ghosts d' = ghosts d /\ important d' = important d /\ sorted (missing d') /\
      incl (missing d') U /\
      (forall x, In x (missing d') <-> In x (missing d) \/ (In (OnlyFirst x) l /\ ~ In x outputs /\ kind_of x = KGenerated)) /\
      (forall x, In (OnlyFirst x) l -> In x outputs \/ same_variant variant_of cmd x = true)
  | None => exists x, In (OnlyFirst x) l /\ ~ In x outputs /\ same_variant variant_of cmd x = false
  end.
Proof.
  induction l as [|[x|x] l IH]; intros d Sl Ul Um Sd Dj.
  - cbn. repeat split; auto; tauto.
  - cbn [map which] in Sl. inversion Sl as [|? ? Sl' Fx]; subst. rewrite Forall_forall in Fx.
    assert (forall e, In e l -> In (which e) U) as Ul' by (intros e H; apply Ul; right; exact H).
    assert (In x U) as Hx by (apply (Ul (OnlyFirst x)); left; reflexivity).
    assert (~ In (OnlyFirst x) l) as Nx.
    { intros H. specialize (Fx x (in_map which _ _ H)). lia. }
    assert (forall y, In y (missing d) -> ~ In (OnlyFirst y) l) as Dj' by (intros y Hy C; apply (Dj y Hy); right; exact C).
    cbn [tell]. unfold new_input at 1. destruct (tree_search outputs x) eqn:T.
    + apply search_out in T; [|exact Hx]. specialize (IH d Sl' Ul' Um Sd Dj').
      destruct (tell _ _ l d) as [d'|].
      * destruct IH as [E1 [E2 [E3 [E4 [E5 [E6 E7]]]]]]. repeat (split; [assumption|]). split.
        -- intros y. rewrite E6. cbn [In]. split; [tauto|]. intros [H|[[C|H] R]]; [auto|injection C as ->; tauto|auto].
        -- intros y [C|H]; [injection C as ->; auto|exact (E7 y H)].
      * destruct IH as [y [H1 H2]]. exists y. split; [right; exact H1|exact H2].
    + assert (~ In x outputs) as No by (intros C; apply search_out in C; [congruence|exact Hx]).
      destruct (same_variant variant_of cmd x) eqn:V; cbn [negb].
      2:{ exists x. split; [left; reflexivity|auto]. }
      destruct (is_generated (kind_of x)) eqn:G.
      * assert (kind_of x = KGenerated) as Gk by (destruct (kind_of x); try discriminate; reflexivity).
        pose proof (tree_add_spec (missing d) x Sd (small_U x _ Hx Um)) as A.
        destruct (tree_add (missing d) x) as [m|]; [|exfalso; apply (Dj x A); left; reflexivity].
        destruct A as [A1 [A2 A3]]. cbn [obind]. set (d1 := {| missing := m; nlinks := _; ghosts := _; important := _ |}).
        assert (incl (missing d1) U) as Um1 by (intros y Hy; apply A3 in Hy; destruct Hy as [->|Hy]; auto).
        assert (forall y, In y (missing d1) -> ~ In (OnlyFirst y) l) as Dj1.
        { intros y Hy. apply A3 in Hy. destruct Hy as [->|Hy]; [exact Nx|exact (Dj' y Hy)]. }
        specialize (IH d1 Sl' Ul' Um1 A2 Dj1). destruct (tell _ _ l d1) as [d'|].
        -- destruct IH as [E1 [E2 [E3 [E4 [E5 [E6 E7]]]]]]. repeat (split; [assumption|]). split.
           ++ intros y. rewrite E6. cbn [d1 missing In]. rewrite A3. split.
              ** intros [[->|H]|H]; [right|left|right]; tauto.
              ** intros [H|[[C|H] R]]; [auto|injection C as ->; auto|auto].
           ++ intros y [C|H]; [injection C as ->; auto|exact (E7 y H)].
        -- destruct IH as [y [H1 H2]]. exists y. split; [right; exact H1|exact H2].
      * assert (kind_of x <> KGenerated) as Gk by (intros C; rewrite C in G; discriminate).
        specialize (IH d Sl' Ul' Um Sd Dj').
        destruct (tell _ _ l d) as [d'|].
        -- destruct IH as [E1 [E2 [E3 [E4 [E5 [E6 E7]]]]]]. repeat (split; [assumption|]). split.
           ++ intros y. rewrite E6. cbn [In]. split; [tauto|]. intros [H|[[C|H] R]]; [auto|injection C as ->; tauto|auto].
           ++ intros y [C|H]; [injection C as ->; auto|exact (E7 y H)].
        -- destruct IH as [y [H1 H2]]. exists y. split; [right; exact H1|exact H2].
  - cbn [map which] in Sl. inversion Sl as [|? ? Sl' Fx]; subst.
    assert (forall e, In e l -> In (which e) U) as Ul' by (intros e H; apply Ul; right; exact H).
    assert (forall y, In y (missing d) -> ~ In (OnlyFirst y) l) as Dj' by (intros y Hy C; apply (Dj y Hy); right; exact C).
    cbn [tell]. specialize (IH d Sl' Ul' Um Sd Dj'). destruct (tell _ _ l d) as [d'|].
    + destruct IH as [E1 [E2 [E3 [E4 [E5 [E6 E7]]]]]]. repeat (split; [assumption|]). split.
      * intros y. rewrite E6. cbn [In]. split; [tauto|]. intros [H|[[C|H] R]]; [auto|discriminate|auto].
      * intros y [C|H]; [discriminate|exact (E7 y H)].
    + destruct IH as [y [H1 H2]]. exists y. split; [right; exact H1|exact H2].
Qed.

Variable sticky : list id.
Hypothesis Ss : sorted sticky.
Hypothesis Is : incl sticky U.

Lemma NoDup_rm n l : NoDup l -> NoDup (rm n l).
Proof.
  induction 1 as [|x l H1 H2 IH]; [constructor|]. cbn [rm]. destruct (x =? n); [exact IH|].
  constructor; [|exact IH]. intros C. apply rm_In in C. tauto.
Qed.

Lemma tell_links l : forall d, sorted (map which l) -> (forall e, In e l -> In (which e) U) -> incl (missing d) U ->
  (forall x, In x U -> tree_search (missing d) x = true <-> In x (missing d)) ->
  (forall x, In (OnlyFirst x) l -> ~ In x (nlinks d)) -> NoDup (nlinks d) ->
  match tell (Some (new_normal_link kind_of cmd outputs)) (Some (del_normal_link kind_of sticky)) l d with
  | Some d' => missing d' = missing d /\ NoDup (nlinks d') /\
      (forall x, In x (nlinks d') <-> (In x (nlinks d) /\ ~ In (OnlySecond x) l) \/
                                      (In (OnlyFirst x) l /\ ~ In x outputs /\ ~ In x (missing d))) /\
      (important d' = true <-> important d = true \/ exists x, In (OnlySecond x) l /\ kind_of x = KGenerated) /\
      (forall x, In x (ghosts d') <-> In x (ghosts d) \/ (In (OnlySecond x) l /\ ~ In x sticky)) /\
      (forall x, In (OnlyFirst x) l -> ~ In x outputs -> ~ In x (missing d) -> kind_of x <> KCmd /\ x <> cmd /\ x <> 0)
  | None => exists x, In (OnlyFirst x) l /\ ~ In x outputs /\ ~ In x (missing d) /\ (kind_of x = KCmd \/ x = cmd \/ x = 0)
  end.
Proof.
  induction l as [|[x|x] l IH]; intros d Sl Ul Um TS Dj ND.
  - cbn. split; [reflexivity|]. split; [exact ND|]. split; [tauto|]. split; [|split; [tauto|tauto]].
    split; [auto|]. intros [H|[x [[] _]]]. exact H.
  - cbn [map which] in Sl. inversion Sl as [|? ? Sl' Fx]; subst. rewrite Forall_forall in Fx.
    assert (forall e, In e l -> In (which e) U) as Ul' by (intros e H; apply Ul; right; exact H).
    assert (In x U) as Hx by (apply (Ul (OnlyFirst x)); left; reflexivity).
    assert (~ In (OnlyFirst x) l /\ ~ In (OnlySecond x) l) as [Nx Nx2].
    { split; intros H; specialize (Fx x (in_map which _ _ H)); lia. }
    assert (forall y, In (OnlyFirst y) l -> ~ In y (nlinks d)) as Dj' by (intros y Hy; apply Dj; right; exact Hy).
    cbn [tell]. unfold new_normal_link at 1.
    assert (In x outputs \/ In x (missing d) ->
      match tell (Some (new_normal_link kind_of cmd outputs)) (Some (del_normal_link kind_of sticky)) l d with
      | Some d' => missing d' = missing d /\ NoDup (nlinks d') /\
        (forall y, In y (nlinks d') <-> (In y (nlinks d) /\ ~ In (OnlySecond y) (OnlyFirst x :: l)) \/
                                        (In (OnlyFirst y) (OnlyFirst x :: l) /\ ~ In y outputs /\ ~ In y (missing d))) /\
        (important d' = true <-> important d = true \/ exists y, In (OnlySecond y) (OnlyFirst x :: l) /\ kind_of y = KGenerated) /\
        (forall y, In y (ghosts d') <-> In y (ghosts d) \/ (In (OnlySecond y) (OnlyFirst x :: l) /\ ~ In y sticky)) /\
        (forall y, In (OnlyFirst y) (OnlyFirst x :: l) -> ~ In y outputs -> ~ In y (missing d) -> kind_of y <> KCmd /\ y <> cmd /\ y <> 0)
      | None => exists y, In (OnlyFirst y) (OnlyFirst x :: l) /\ ~ In y outputs /\ ~ In y (missing d) /\ (kind_of y = KCmd \/ y = cmd \/ y = 0)
      end) as SKIP.
    { intros Sk. specialize (IH d Sl' Ul' Um TS Dj' ND). destruct (tell _ _ l d) as [d'|].
      - destruct IH as [E1 [E2 [E3 [E4 [E5 E6]]]]]. split; [exact E1|]. split; [exact E2|]. split; [|split; [|split]].
        + intros y. rewrite E3. cbn [In]. split.
          * intros [[H1 H2]|H]; [left; split; [exact H1|intros [C|C]; [discriminate|tauto]]|right; tauto].
          * intros [[H1 H2]|[[C|H] R]]; [left; tauto|injection C as ->; tauto|right; tauto].
        + rewrite E4. split; (intros [H|[y [H1 H2]]]; [auto|right; exists y; split; [|exact H2]]); [right; exact H1|].
          destruct H1 as [C|H1]; [discriminate|exact H1].
        + intros y. rewrite E5. cbn [In]. split; [tauto|]. intros [H|[[C|H] R]]; [auto|discriminate|auto].
        + intros y [C|H]; [injection C as ->; tauto|exact (E6 y H)].
      - destruct IH as [y [H1 H2]]. exists y. split; [right; exact H1|exact H2]. }
    destruct (tree_search outputs x) eqn:T.
    { apply search_out in T; [|exact Hx]. apply SKIP. auto. }
    destruct (tree_search (missing d) x) eqn:T2.
    { apply TS in T2; [|exact Hx]. apply SKIP. auto. }
    clear SKIP.
    assert (~ In x outputs) as No by (intros C; apply search_out in C; [congruence|exact Hx]).
    assert (~ In x (missing d)) as Nm by (intros C; apply TS in C; [congruence|exact Hx]).
    destruct (is_cmd (kind_of x)) eqn:K.
    { assert (kind_of x = KCmd) as K' by (destruct (kind_of x); try discriminate; reflexivity).
      exists x. split; [left; reflexivity|auto]. }
    assert (kind_of x <> KCmd) as K' by (intros C; rewrite C in K; discriminate).
    unfold link_insert. destruct ((x =? cmd) || (x =? 0) || inb x (nlinks d)) eqn:B; cbn [obind].
    { rewrite !orb_true_iff, !Nat.eqb_eq, inb_In in B. destruct B as [B|B]; [|exfalso; exact (Dj x (or_introl eq_refl) B)].
      exists x. split; [left; reflexivity|]. split; [exact No|]. split; [exact Nm|]. tauto. }
    rewrite !orb_false_iff, !Nat.eqb_neq in B. destruct B as [[B1 B2] B3].
    set (d1 := {| missing := _; nlinks := x :: nlinks d; ghosts := _; important := _ |}).
    assert (forall y, In (OnlyFirst y) l -> ~ In y (nlinks d1)) as Dj1.
    { intros y Hy [->|C]; [exact (Nx Hy)|exact (Dj' y Hy C)]. }
    assert (NoDup (nlinks d1)) as ND1 by (constructor; [apply inb_false; exact B3|exact ND]).
    specialize (IH d1 Sl' Ul' Um TS Dj1 ND1). cbn [d1 missing nlinks ghosts important] in IH. destruct (tell _ _ l d1) as [d'|].
    + destruct IH as [E1 [E2 [E3 [E4 [E5 E6]]]]]. split; [exact E1|]. split; [exact E2|]. split; [|split; [|split]].
      * intros y. rewrite E3. cbn [In]. split.
        -- intros [[[->|H1] H2]|H]; [right; tauto|left; split; [exact H1|intros [C|C]; [discriminate|tauto]]|right; tauto].
        -- intros [[H1 H2]|[[C|H] R]]; [left; tauto|injection C as ->; left; tauto|right; tauto].
      * rewrite E4. split; (intros [H|[y [H1 H2]]]; [auto|right; exists y; split; [|exact H2]]); [right; exact H1|].
        destruct H1 as [C|H1]; [discriminate|exact H1].
      * intros y. rewrite E5. cbn [In]. split; [tauto|]. intros [H|[[C|H] R]]; [auto|discriminate|auto].
      * intros y [C|H]; [injection C as ->; auto|exact (E6 y H)].
    + destruct IH as [y [H1 H2]]. exists y. split; [right; exact H1|exact H2].
  - cbn [map which] in Sl. inversion Sl as [|? ? Sl' Fx]; subst. rewrite Forall_forall in Fx.
    assert (forall e, In e l -> In (which e) U) as Ul' by (intros e H; apply Ul; right; exact H).
    assert (In x U) as Hx by (apply (Ul (OnlySecond x)); left; reflexivity).
    assert (~ In (OnlyFirst x) l /\ ~ In (OnlySecond x) l) as [Nx Nx2].
    { split; intros H; specialize (Fx x (in_map which _ _ H)); lia. }
    cbn [tell]. unfold del_normal_link at 1, link_remove.
    set (d1 := {| missing := _; nlinks := rm x (nlinks d); ghosts := _; important := _ |}).
    assert (forall y, In (OnlyFirst y) l -> ~ In y (nlinks d1)) as Dj1.
    { intros y Hy C. apply rm_In in C. apply (Dj y); [right; exact Hy|tauto]. }
    specialize (IH d1 Sl' Ul' Um TS Dj1 (NoDup_rm x _ ND)). cbn [d1 missing nlinks ghosts important] in IH.
    assert (tree_search sticky x = true <-> In x sticky) as TSx by (apply tree_search_spec; [exact Ss|apply small_U; assumption]).
    assert (is_generated (kind_of x) = true <-> kind_of x = KGenerated) as GK by (destruct (kind_of x); cbn; split; congruence).
    destruct (tell _ _ l d1) as [d'|].
    + destruct IH as [E1 [E2 [E3 [E4 [E5 E6]]]]]. split; [exact E1|]. split; [exact E2|]. split; [|split; [|split]].
      * intros y. rewrite E3, rm_In. cbn [In]. split.
        -- intros [[[H1 H3] H2]|H]; [left; split; [exact H1|intros [C|C]; [injection C as ->; congruence|tauto]]|right; tauto].
        -- intros [[H1 H2]|[[C|H] R]]; [left|discriminate|right; tauto]. split; [split; [exact H1|]|tauto]. intros ->. tauto.
      * rewrite E4, orb_true_iff, GK. split.
        -- intros [[H|H]|[y [H1 H2]]]; [auto|right; exists x; split; [left; reflexivity|exact H]|].
           right. exists y. split; [right; exact H1|exact H2].
        -- intros [H|[y [[C|H1] H2]]]; [auto|injection C as ->; auto|]. right. exists y. auto.
      * intros y. rewrite E5. cbn [In]. destruct (tree_search sticky x) eqn:T.
        -- split; [tauto|]. intros [H|[[C|H] R]]; [auto|injection C as ->; tauto|auto].
        -- assert (~ In x sticky) as Ns by (intros C; apply TSx in C; congruence). cbn [In]. split.
           ++ intros [[->|H]|H]; [right|left|right]; tauto.
           ++ intros [H|[[C|H] R]]; [auto|injection C as ->; auto|auto].
      * intros y [C|H]; [discriminate|exact (E6 y H)].
    + destruct IH as [y [H1 H2]]. exists y. split; [right; exact H1|exact H2].
Qed.

Lemma check_generated_sorted groups fuel miss : sorted miss ->
  match check_generated_inputs kind_of links transient_ root fuel miss sticky groups with
  | Done l => sorted l /\ incl l miss
  | _ => True
  end.
Proof.
  induction miss as [|x miss IH]; intros Sm; cbn [check_generated_inputs]; [split; [constructor|intros y []]|].
  inversion Sm as [|? ? Sm' Fx]; subst. rewrite Forall_forall in Fx. specialize (IH Sm').
  destruct (if existsb _ groups then _ else _) as [c| | |]; cbn [then_]; try exact Logic.I.
  destruct (check_generated_inputs _ _ _ _ _ miss sticky groups) as [l| | |]; cbn [then_]; try exact Logic.I.
  destruct IH as [I1 I2]. destruct c; [split; [exact I1|intros y Hy; right; apply I2; exact Hy]|]. split.
  - constructor; [exact I1|]. rewrite Forall_forall. intros y Hy. apply Fx. apply I2. exact Hy.
  - intros y [<-|Hy]; [left; reflexivity|right; apply I2; exact Hy].
Qed.

Variable reads old groups : list id.
Hypothesis Sr : sorted reads.
Hypothesis Ir : incl reads U.
Hypothesis Sn : sorted old.
Hypothesis In_ : incl old U.
Variable fuel : nat.
Hypothesis Hf : 2 * length U < fuel.
Variable partial : list id -> list id.
Hypothesis Hp : forall l, sorted l -> sorted (partial l) /\ incl (partial l) l.

Definition offends (x : id) : Prop :=
  In x reads /\ ~ In x outputs /\ kind_of x = KGenerated /\ ~ ordered_by_declaration links sticky groups x.

Theorem check_inputs_spec :
  match check_actual_inputs kind_of variant_of cmd links transient_ root fuel partial reads sticky old groups outputs with
  | None => exists x, In x reads /\ ~ In x outputs /\
      ((~ In x sticky /\ same_variant variant_of cmd x = false) \/ (~ In x old /\ (kind_of x = KCmd \/ x = cmd \/ x = 0)))
  | Some (d, ok) =>
      (if ok then missing d = [] /\ forall x, In x reads -> kind_of x = KGenerated ->
                 In x outputs \/ ordered_by_declaration links sticky groups x
       else (exists x, offends x) \/ (exists n, In n U /\ leads_to links n n)) /\
      (forall x, In x (missing d) -> In x reads /\ ~ In x outputs /\ kind_of x = KGenerated) /\
      NoDup (nlinks d) /\
      (forall x, In x (nlinks d) <-> In x reads /\ (In x old \/ (~ In x outputs /\ ~ In x (missing d)))) /\
      (important d = true <-> exists x, In x old /\ ~ In x reads /\ kind_of x = KGenerated) /\
      (forall x, In x (ghosts d) <-> In x old /\ ~ In x reads /\ ~ In x sticky) /\
      (forall x, In x reads -> ~ In x outputs ->
         (In x sticky \/ same_variant variant_of cmd x = true) /\
         (In x old \/ In x (missing d) \/ (kind_of x <> KCmd /\ x <> cmd /\ x <> 0)))
  end.
Proof.
  unfold check_actual_inputs. rewrite compare_tell.
  destruct (diffs_spec reads sticky Sr Ss) as [A1 [A2 [A3 A4]]].
  destruct (diffs_spec reads old Sr Sn) as [B1 [B2 [B3 B4]]].
  set (d0 := {| missing := []; nlinks := old; ghosts := []; important := false |}).
  assert (forall e, In e (diffs reads sticky) -> In (which e) U) as UA.
  { intros e He. destruct (A4 e He) as [H|H]; [apply Ir|apply Is]; exact H. }
  assert (forall e, In e (diffs reads old) -> In (which e) U) as UB.
  { intros e He. destruct (B4 e He) as [H|H]; [apply Ir|apply In_]; exact H. }
  pose proof (tell_new (diffs reads sticky) d0 A3 UA (fun x H => match H with end) (SSorted_nil lt) (fun x H => match H with end)) as T.
  destruct (tell _ _ (diffs reads sticky) d0) as [d|]; cbn [obind].
  2:{ destruct T as [x [H1 [H2 H3]]]. apply A1 in H1. exists x. tauto. }
  destruct T as [E1 [E2 [E3 [E4 [E5 [E6 E7]]]]]].
  assert (forall x, In x (missing d) <-> In x reads /\ ~ In x sticky /\ ~ In x outputs /\ kind_of x = KGenerated) as M.
  { intros x. rewrite E6, A1. cbn. tauto. }
  pose proof (check_generated_spec kind_of links transient_ root U Kroot FD sticky groups Ss
    (fun x H => SU x (Is x H)) SU fuel Hf (missing d) E5 (fun x H => proj1 (proj2 (proj1 (M x) H)))) as C.
  pose proof (check_generated_sorted groups fuel (missing d) E4) as CS.
  set (res := check_generated_inputs _ _ _ _ _ _ _ _) in *.
  set (left := match res with Done l => l | _ => partial (missing d) end).
  assert (sorted left /\ incl left (missing d)) as [L1 L2].
  { unfold left. destruct res; [exact CS| | |]; exact (Hp _ E4). }
  assert (forall x, offends x <-> In x (missing d) /\ ~ ordered_by_declaration links sticky groups x) as OF.
  { intros x. unfold offends. rewrite M. split; [|tauto]. intros [H1 [H2 [H3 H4]]]. 
    assert (~ In x sticky) as Ns by (intros H; apply H4; left; exact H). tauto. }
  rewrite compare_tell. set (d1 := {| missing := left; nlinks := _; ghosts := _; important := _ |}).
  assert (incl left U) as LU by (intros x Hx; apply E5, L2; exact Hx).
  assert (forall x, In x U -> tree_search (missing d1) x = true <-> In x (missing d1)) as TS.
  { intros x Hx. apply tree_search_spec; [exact L1|]. apply small_U; assumption. }
  assert (forall x, In (OnlyFirst x) (diffs reads old) -> ~ In x (nlinks d1)) as DJ.
  { intros x Hx. cbn. rewrite E1. cbn. apply B1 in Hx. tauto. }
  assert (NoDup (nlinks d1)) as ND by (cbn; rewrite E1; apply sorted_NoDup; exact Sn).
  pose proof (tell_links (diffs reads old) d1 B3 UB LU TS DJ ND) as T.
  destruct (tell _ _ (diffs reads old) d1) as [d'|]; cbn [obind].
  2:{ destruct T as [x [H1 [H2 [H3 H4]]]]. apply B1 in H1. exists x. tauto. }
  destruct T as [F1 [F2 [F3 [F4 [F5 F6]]]]]. cbn [d1 missing nlinks ghosts important] in *.
  rewrite E1, E2, E3 in *. cbn [d0 nlinks ghosts important] in *.
  split; [|split; [|split; [|split; [|split; [|split]]]]].
  - unfold left in F1. clear - C OF F1 Hp E4 M. destruct res as [[|y l]| | |]; try contradiction.
    + split; [exact F1|]. intros x H K. destruct (in_dec Nat.eq_dec x outputs) as [I|I]; [auto|]. right.
      destruct (in_dec Nat.eq_dec x sticky) as [J|J]; [left; exact J|].
      destruct (proj2 (C x)) as [[]|O]; [apply M; auto|exact O].
    + left. exists y. apply OF. apply (C y). left. reflexivity.
    + right. exact C.
  - intros x. rewrite F1. intros H. apply L2 in H. apply M in H. tauto.
  - exact F2.
  - intros x. rewrite F3, F1, B1, B2. destruct (in_dec Nat.eq_dec x reads), (in_dec Nat.eq_dec x old); tauto.
  - rewrite F4. split.
    + intros [H|[x [H1 H2]]]; [discriminate|]. apply B2 in H1. exists x. tauto.
    + intros [x [H1 [H2 H3]]]. right. exists x. split; [apply B2; auto|exact H3].
  - intros x. rewrite F5, B2. cbn. tauto.
  - intros x H1 H2. rewrite F1. split.
    + destruct (in_dec Nat.eq_dec x sticky) as [I|I]; [auto|]. right. destruct (E7 x) as [C1|C1]; [apply A1; auto|contradiction|exact C1].
    + destruct (in_dec Nat.eq_dec x old) as [I|I]; [auto|]. destruct (in_dec Nat.eq_dec x left) as [J|J]; [auto|].
      right. right. apply F6; [apply B1; auto|exact H2|exact J].
Qed.
End Inputs.

Lemma check_ok_spec kind_of variant_of cmd links transient_ root U reads sticky old groups outputs fuel partial :
  check_ok kind_of links root U reads sticky old outputs fuel partial ->
  match check_actual_inputs kind_of variant_of cmd links transient_ root fuel partial reads sticky old groups outputs with
  | None => exists x, In x reads /\ ~ In x outputs /\
      ((~ In x sticky /\ same_variant variant_of cmd x = false) \/ (~ In x old /\ (kind_of x = KCmd \/ x = cmd \/ x = 0)))
  | Some (d, ok) =>
      (if ok then missing d = [] /\ forall x, In x reads -> kind_of x = KGenerated ->
                 In x outputs \/ ordered_by_declaration links sticky groups x
       else (exists x, offends kind_of links outputs sticky reads groups x) \/ (exists n, In n U /\ leads_to links n n)) /\
      (forall x, In x (missing d) -> In x reads /\ ~ In x outputs /\ kind_of x = KGenerated) /\
      NoDup (nlinks d) /\
      (forall x, In x (nlinks d) <-> In x reads /\ (In x old \/ (~ In x outputs /\ ~ In x (missing d)))) /\
      (important d = true <-> exists x, In x old /\ ~ In x reads /\ kind_of x = KGenerated) /\
      (forall x, In x (ghosts d) <-> In x old /\ ~ In x reads /\ ~ In x sticky) /\
      (forall x, In x reads -> ~ In x outputs ->
         (In x sticky \/ same_variant variant_of cmd x = true) /\
         (In x old \/ In x (missing d) \/ (kind_of x <> KCmd /\ x <> cmd /\ x <> 0)))
  end.
Proof.
  intros [H1 H2 H3 [H4 H5] [H6 H7] [H8 H9] [H10 H11] H12 H13].
  apply check_inputs_spec; assumption.
Qed.
