(** Outputs, rules and histories: the simulation for C65. *)
From Verif Require Import Base NamesModel NamesSpec NamesProofs.
From Coq Require Import Permutation.

(** What [output] checks, and what it does. *)
Definition output_ok (variant : bool) (own : nat) (waiting : list nat) (copy : bool) (st : state) (l : loc) : bool :=
  match output variant own waiting copy st l with Some _ => true | None => false end.

Definition output_state (own : nat) (st : state) (l : loc) : state :=
  State (put (s_here st) l (KGen own)) (s_source st) (filter (fun x => negb (loc_eqb l x)) (s_delete st)).

Lemma output_eq v own w copy st l :
  output v own w copy st l = if output_ok v own w copy st l then Some (output_state own st l) else None.
Proof.
  unfold output_ok, output. cbv zeta. destruct (_ && _); reflexivity.
Qed.

Lemma in_filter_not l x del :
  In x (filter (fun y => negb (loc_eqb l y)) del) <-> In x del /\ x <> l.
Proof.
  rewrite filter_In. destruct (loc_eqb_spec l x) as [E|E]; cbn; intuition congruence.
Qed.

Lemma memb_filter_not l x del :
  memb x (filter (fun y => negb (loc_eqb l y)) del) = if loc_eqb l x then false else memb x del.
Proof.
  destruct (memb x (filter _ del)) eqn:M.
  - apply memb_In, in_filter_not in M. destruct M as [M N].
    destruct (loc_eqb_spec l x); [congruence|]. symmetry. apply memb_In, M.
  - apply memb_not in M. rewrite in_filter_not in M.
    destruct (loc_eqb_spec l x) as [E|E]; [reflexivity|]. symmetry. apply memb_not.
    intros H. apply M. split; [assumption|congruence].
Qed.

Lemma output_ok_other v own w copy st l l' :
  l' <> l -> output_ok v own w copy (output_state own st l) l' = output_ok v own w copy st l'.
Proof.
  intros N. unfold output_ok, output, output_state. cbn [s_here s_source s_delete].
  rewrite get_put, memb_filter_not. destruct (loc_eqb_spec l l'); [congruence|].
  destruct (_ && _); reflexivity.
Qed.

Lemma output_ok_same v own w copy st l :
  output_ok v own w copy (output_state own st l) l = false.
Proof.
  unfold output_ok, output, output_state. cbn [s_here s_source s_delete].
  rewrite get_put, memb_filter_not, loc_eqb_refl, Nat.eqb_refl, andb_false_r. cbn [orb].
  rewrite andb_false_r. reflexivity.
Qed.

Definition outputs_state (own : nat) (ls : list loc) (st : state) : state :=
  fold_left (output_state own) ls st.

Lemma outputs_some v own w copy ls st st' :
  outputs v own w copy ls st = Some st' <->
  st' = outputs_state own ls st /\ NoDup ls /\ forall l, In l ls -> output_ok v own w copy st l = true.
Proof.
  revert st. induction ls as [|l ls IH]; intros st; cbn [outputs].
  - unfold outputs_state. cbn. split.
    + intros E; injection E as <-. split; [reflexivity|split; [constructor|intros l []]].
    + intros [-> _]; reflexivity.
  - rewrite output_eq. destruct (output_ok v own w copy st l) eqn:O.
    + rewrite IH. unfold outputs_state. cbn [fold_left]. split.
      * intros [E [N H]]. split; [exact E|].
        assert (Hl : ~ In l ls).
        { intros Hin. specialize (H _ Hin). rewrite output_ok_same in H. discriminate. }
        split; [constructor; assumption|].
        intros l' [<-|Hin]; [assumption|].
        rewrite <- (output_ok_other v own w copy st l l'); [apply H, Hin|congruence].
      * intros [E [N H]]. inversion N as [|? ? Hn Hd]; subst. split; [reflexivity|split; [assumption|]].
        intros l' Hin. rewrite output_ok_other; [apply H; right; assumption|congruence].
    + split; [discriminate|]. intros [_ [_ H]]. rewrite H in O by (left; reflexivity). discriminate.
Qed.

Lemma outputs_state_get own ls st l :
  get (s_here (outputs_state own ls st)) l =
  if memb l ls then Some (KGen own) else get (s_here st) l.
Proof.
  unfold outputs_state. revert st. induction ls as [|x ls IH]; intros st; cbn [fold_left]; [reflexivity|].
  rewrite IH. unfold output_state at 1. cbn [s_here]. rewrite get_put.
  unfold memb. cbn [existsb].
  destruct (loc_eqb_spec l x) as [E|E], (loc_eqb_spec x l) as [E2|E2]; try congruence; cbn [orb];
    destruct (existsb (loc_eqb l) ls); reflexivity.
Qed.

Lemma outputs_state_source own ls st : s_source (outputs_state own ls st) = s_source st.
Proof.
  unfold outputs_state. revert st. induction ls as [|x ls IH]; intros st; cbn [fold_left]; [reflexivity|].
  rewrite IH. reflexivity.
Qed.

Lemma outputs_state_delete own ls st l :
  In l (s_delete (outputs_state own ls st)) <-> In l (s_delete st) /\ ~ In l ls.
Proof.
  unfold outputs_state. revert st. induction ls as [|x ls IH]; intros st; cbn [fold_left]; [cbn; tauto|].
  rewrite IH. unfold output_state at 1. cbn [s_delete]. rewrite in_filter_not. cbn. intuition congruence.
Qed.

Lemma outputs_state_keys own ls st : keys (s_here st) -> keys (s_here (outputs_state own ls st)).
Proof.
  unfold outputs_state. revert st. induction ls as [|x ls IH]; intros st; cbn [fold_left]; [tauto|].
  intros H. apply IH. cbn [s_here output_state]. apply keys_put, H.
Qed.

Lemma outputs_state_ok own ls st : ok_variant st -> ok_variant (outputs_state own ls st).
Proof.
  intros H. constructor.
  - apply outputs_state_keys, H.
  - rewrite outputs_state_source. apply H.
  - intros l. rewrite outputs_state_get. destruct (memb l ls); [discriminate|apply H].
  - intros l o. rewrite outputs_state_source. apply H.
  - intros l Hin. apply outputs_state_delete in Hin. destruct Hin as [Hin N].
    rewrite outputs_state_get. rewrite (proj2 (memb_not l ls) N). apply (v_delete _ H _ Hin).
Qed.

Lemma outputs_ok v own w copy ls st st' :
  ok_variant st -> outputs v own w copy ls st = Some st' -> ok_variant st'.
Proof. intros H E. apply outputs_some in E. destruct E as [-> _]. apply outputs_state_ok, H. Qed.

Lemma begin_in own st l :
  keys (s_here st) ->
  In l (s_delete (begin own st)) <-> get (s_here st) l = Some (KGen own) \/ In l (s_delete st).
Proof.
  intros Hk. unfold begin. cbn [s_delete]. rewrite in_app_iff. unfold generated_by. rewrite in_map_iff.
  assert (HH : (exists x, fst x = l /\ In x (filter (fun e => match snd e with KGen o => o =? own | _ => false end) (s_here st)))
     <-> get (s_here st) l = Some (KGen own)).
  { split.
    - intros [[l' k] [E Hin]]. cbn in E. subst l'. apply filter_In in Hin. destruct Hin as [Hin F].
      cbn in F. destruct k as [|o|]; try discriminate. apply Nat.eqb_eq in F. subst o.
      apply in_get; assumption.
    - intros G. exists (l, KGen own). split; [reflexivity|]. apply filter_In. split; [apply in_get; assumption|].
      cbn. apply Nat.eqb_refl. }
  rewrite HH. reflexivity.
Qed.

Lemma begin_ok own st : ok_variant st -> ok_variant (begin own st).
Proof.
  intros H. constructor; try apply H.
  intros l Hin. apply begin_in in Hin; [|apply H]. unfold begin. cbn [s_here].
  destruct Hin as [Hin|Hin]; [eauto|apply (v_delete _ H _ Hin)].
Qed.

Section P.
Variable glob : bytes -> bytes -> bool.

Lemma do_rule_ok v own w r ins st st' cs :
  ok_variant st -> do_rule v own w r ins st = Some (st', cs) -> ok_variant st'.
Proof.
  intros H E. unfold do_rule in E. destruct (_ && negb v); [congruence|].
  destruct (_ && _); [discriminate|]. destruct (outputs _ _ _ _ _ _) eqn:O; [|discriminate].
  injection E as <- <-. eapply outputs_ok; eassumption.
Qed.

Lemma each_ok v own w r ins st st' cs :
  ok_variant st -> each v own w r ins st = Some (st', cs) -> ok_variant st'.
Proof.
  revert st st' cs. induction ins as [|i ins IH]; intros st st' cs H E; cbn [each] in E; [congruence|].
  destruct (do_rule v own w r [i] st) as [[s1 c1]|] eqn:D; [|discriminate].
  destruct (each v own w r ins s1) as [[s2 c2]|] eqn:D2; [|discriminate].
  injection E as <- <-. eapply IH; [|exact D2]. eapply do_rule_ok; eassumption.
Qed.

Lemma run_rule_ok v own w r st st' cs :
  ok_variant st -> run_rule glob v own w r st = Some (st', cs) -> ok_variant st'.
Proof.
  intros H E. unfold run_rule in E. destruct (name_list _ _ _ _ _ _) as [l|]; [|discriminate].
  destruct (r_each r); [eapply each_ok; eassumption|].
  destruct (r_pats r), (unique l); try (eapply do_rule_ok; eassumption). congruence.
Qed.

Lemma run_rules_ok v own w rs st st' cs :
  ok_variant st -> run_rules glob v own w rs st = Some (st', cs) -> ok_variant st'.
Proof.
  revert st st' cs. induction rs as [|r rs IH]; intros st st' cs H E; cbn [run_rules] in E; [congruence|].
  destruct (run_rule glob v own w r st) as [[s1 c1]|] eqn:D; [|discriminate].
  destruct (run_rules glob v own w rs s1) as [[s2 c2]|] eqn:D2; [|discriminate].
  injection E as <- <-. eapply IH; [|exact D2]. eapply run_rule_ok; eassumption.
Qed.

Lemma parse_all_ok v later tfs st st' cs :
  ok_variant st -> parse_all glob v later tfs st = Some (st', cs) -> ok_variant st'.
Proof.
  revert st st' cs. induction tfs as [|[own rs] tfs IH]; intros st st' cs H E; cbn [parse_all] in E; [congruence|].
  destruct (run_rules glob v own _ rs (begin own st)) as [[s1 c1]|] eqn:D; [|discriminate].
  destruct (parse_all glob v later tfs s1) as [[s2 c2]|] eqn:D2; [|discriminate].
  injection E as <- <-. eapply IH; [|exact D2]. eapply run_rules_ok; [|exact D]. apply begin_ok, H.
Qed.

Section Needed.
Variable needed : loc -> bool.

Lemma get_gone t l l' :
  get (gone needed t l) l' = if loc_eqb l l' then (if needed l then Some KGhost else None) else get t l'.
Proof.
  unfold gone. destruct (needed l); [apply get_put|apply get_erase].
Qed.

Lemma keys_gone t l : keys t -> keys (gone needed t l).
Proof. intros H. unfold gone. destruct (needed l); [apply keys_put, H|apply keys_erase, H]. Qed.

Lemma gone_all_keys ls t : keys t -> keys (fold_left (gone needed) ls t).
Proof. revert t. induction ls as [|l ls IH]; intros t H; cbn [fold_left]; [exact H|]. apply IH, keys_gone, H. Qed.

Lemma gone_all_other ls t l : ~ In l ls -> get (fold_left (gone needed) ls t) l = get t l.
Proof.
  revert t. induction ls as [|x ls IH]; intros t H; cbn [fold_left]; [reflexivity|].
  rewrite IH by (intros Hin; apply H; right; assumption). rewrite get_gone.
  destruct (loc_eqb_spec x l); [elim H; left; assumption|reflexivity].
Qed.

Lemma gone_all_in ls t l : In l ls -> dead (get (fold_left (gone needed) ls t) l).
Proof.
  revert t. induction ls as [|x ls IH]; intros t H; [destruct H|]. cbn [fold_left].
  destruct (in_dec loc_eq_dec l ls) as [Hin|Hn]; [apply IH, Hin|].
  destruct H as [E|Hin]; [|contradiction]. subst x. rewrite gone_all_other by assumption.
  rewrite get_gone, loc_eqb_refl. unfold dead. destruct (needed l); tauto.
Qed.

Lemma finish_ok st : ok_variant st -> ok_variant (finish needed st).
Proof.
  intros H. unfold finish. constructor; cbn [s_here s_source s_delete].
  - apply gone_all_keys, H.
  - apply H.
  - intros l. destruct (in_dec loc_eq_dec l (s_delete st)) as [Hin|Hn].
    + destruct (gone_all_in _ (s_here st) _ Hin) as [E|E]; rewrite E; discriminate.
    + rewrite gone_all_other by assumption. apply H.
  - apply H.
  - intros l [].
Qed.

Lemma happen_ok e st : ok_variant st -> ok_variant (fst (happen glob needed true e st)).
Proof.
  intros H. destruct e as [l|l|tfs]; cbn [happen fst in_tree].
  - constructor; cbn [s_here s_source s_delete]; try apply H.
    + unfold write. destruct (get (s_source st) l) as [[|o|]|]; try apply keys_put; apply H.
    + intros l' o. unfold write. destruct (get (s_source st) l) as [[|o'|]|] eqn:G; try apply H;
        rewrite get_put; (destruct (loc_eqb l l'); [discriminate|apply H]).
  - constructor; cbn [s_here s_source s_delete]; try apply H.
    + unfold remove. destruct (get (s_source st) l) as [[|o|]|]; try apply keys_gone; apply H.
    + intros l' o. unfold remove. destruct (get (s_source st) l) as [[|o'|]|] eqn:G; try apply H.
      rewrite get_gone. destruct (loc_eqb l l'); [destruct (needed l); discriminate|apply H].
  - destruct (parse_all glob true [] tfs st) as [[st' cs]|] eqn:E; cbn [fst]; [|exact H].
    apply finish_ok. eapply parse_all_ok; eassumption.
Qed.

Lemma history_ok h st : ok_variant st -> ok_variant (fst (history glob needed true h st)).
Proof.
  revert st. induction h as [|e h IH]; intros st H; cbn [history]; [exact H|].
  pose proof (happen_ok e st H) as H1. destruct (happen glob needed true e st) as [s1 o]. cbn [fst] in H1.
  specialize (IH s1 H1). destruct (history glob needed true h s1) as [s2 os]. cbn [fst] in *. exact IH.
Qed.

Lemma empty_ok : ok_variant empty.
Proof. constructor; cbn; try constructor; try discriminate; intros l []. Qed.

Lemma parsing_ok own st : parsing glob needed own st -> ok_variant st.
Proof.
  intros [h [before [after [rs [st1 [cs [cs' [P E]]]]]]]].
  eapply run_rules_ok; [|exact E]. apply begin_ok. eapply parse_all_ok; [|exact P].
  apply history_ok, empty_ok.
Qed.
End Needed.

(** ** The simulation *)

(** [plain] with the names the user writes given as a set. *)
Record simple (W : loc -> Prop) (own : nat) (r : rule) : Prop := {
  s_preserve : r_preserve r = false;
  s_order : r_each r = false -> forall a b, Permutation a b -> r_outs r a = r_outs r b;
  s_reserved : forall ins l, In l (r_outs r ins) -> fst l = own -> reserved (snd l) = false;
  s_far : forall ins l, In l (r_outs r ins) -> fst l <> own -> ~ W l }.

Lemma output_ok_related W a b own w l :
  related W a b -> (fst l = own -> reserved (snd l) = false) -> (fst l <> own -> ~ W l) ->
  output_ok false own w false a l = output_ok true own w false b l.
Proof.
  intros R H1 H2. unfold output_ok, output. cbn [andb negb].
  pose proof (rel_get _ _ _ R l) as HG.
  assert (HM : memb l (s_delete a) = memb l (s_delete b)).
  { destruct (memb l (s_delete b)) eqn:M.
    - apply memb_In, (rel_delete _ _ _ R), memb_In in M. exact M.
    - apply memb_not. apply memb_not in M. rewrite (rel_delete _ _ _ R). exact M. }
  rewrite HM.
  assert (HB : (fst l =? own) && reserved (snd l) = false).
  { destruct (Nat.eqb_spec (fst l) own); [apply H1; assumption|reflexivity]. }
  rewrite HB. cbn [negb andb].
  destruct (get (s_here a) l) as [[|o|]|].
  - destruct HG as [GS [GV|GV]]; rewrite GS, GV;
      (destruct (Nat.eqb_spec (fst l) own) as [E|E]; [reflexivity|];
       elim (H2 E); apply (rel_written _ _ _ R), GS).
  - destruct HG as [GV [GS|GS]]; rewrite GS, GV, andb_false_r; cbn [negb andb];
      destruct (memb l (s_delete b) || existsb (Nat.eqb o) w && negb (o =? own)); reflexivity.
  - destruct HG as [[GV|GV] [GS|GS]]; rewrite GS, GV, andb_false_r; reflexivity.
  - destruct HG as [[GV|GV] [GS|GS]]; rewrite GS, GV, andb_false_r; reflexivity.
Qed.

Lemma outputs_related W a b own w la lb :
  related W a b -> Permutation la lb ->
  (forall l, In l la -> fst l = own -> reserved (snd l) = false) ->
  (forall l, In l la -> fst l <> own -> ~ W l) ->
  match outputs false own w false la a, outputs true own w false lb b with
  | None, None => True
  | Some a', Some b' => related W a' b'
  | _, _ => False
  end.
Proof.
  intros R P H1 H2.
  assert (HO : forall l, In l la -> output_ok false own w false a l = output_ok true own w false b l).
  { intros l Hl. apply (output_ok_related W); [assumption|apply H1, Hl|apply H2, Hl]. }
  assert (HR : (forall l, In l la -> output_ok true own w false b l = true) ->
               related W (outputs_state own la a) (outputs_state own lb b)).
  { intros Hb. constructor.
    - apply outputs_state_ok, R.
    - apply outputs_state_keys, R.
    - intros l. rewrite !outputs_state_get, outputs_state_source.
      assert (HM : memb l lb = memb l la).
      { destruct (memb l la) eqn:M.
        - apply memb_In. apply memb_In in M. eapply Permutation_in; eassumption.
        - apply memb_not. apply memb_not in M. intros Hin. apply M.
          eapply Permutation_in; [apply Permutation_sym, P|assumption]. }
      rewrite HM. destruct (memb l la) eqn:M; [|apply R].
      split; [reflexivity|]. apply memb_In in M. pose proof (Hb _ M) as HB.
      unfold output_ok, output in HB. cbn [andb negb] in HB.
      destruct (get (s_source b) l) as [[|o|]|] eqn:GS; [| |right; reflexivity|left; reflexivity].
      + exfalso. destruct (Nat.eqb_spec (fst l) own) as [E|E]; cbn in HB; [discriminate|].
        apply (H2 _ M E), (rel_written _ _ _ R), GS.
      + elim (v_source _ (rel_ok _ _ _ R) _ _ GS).
    - intros l. rewrite !outputs_state_delete, (rel_delete _ _ _ R).
      assert (In l la <-> In l lb); [|tauto]. split; intros Hin;
        (eapply Permutation_in; [|exact Hin]); [assumption|apply Permutation_sym; assumption].
    - intros l. rewrite outputs_state_source. apply R. }
  destruct (outputs false own w false la a) as [a'|] eqn:Ea.
  - apply outputs_some in Ea. destruct Ea as [-> [Na Oa]].
    assert (Ob : forall l, In l la -> output_ok true own w false b l = true).
    { intros l Hl. rewrite <- HO by assumption. apply Oa, Hl. }
    assert (Eb : outputs true own w false lb b = Some (outputs_state own lb b)).
    { apply outputs_some. split; [reflexivity|split].
      - eapply Permutation_NoDup; eassumption.
      - intros l Hl. apply Ob. eapply Permutation_in; [apply Permutation_sym, P|assumption]. }
    rewrite Eb. apply HR, Ob.
  - destruct (outputs true own w false lb b) as [b'|] eqn:Eb; [|exact I].
    apply outputs_some in Eb. destruct Eb as [-> [Nb Ob]].
    assert (E : outputs false own w false la a = Some (outputs_state own la a)); [|congruence].
    apply outputs_some. split; [reflexivity|split].
    + eapply Permutation_NoDup; [apply Permutation_sym, P|assumption].
    + intros l Hl. rewrite HO by assumption. apply Ob. eapply Permutation_in; eassumption.
Qed.

Lemma outputs_app v own w copy l1 l2 st :
  outputs v own w copy (l1 ++ l2) st =
  match outputs v own w copy l1 st with Some st' => outputs v own w copy l2 st' | None => None end.
Proof.
  revert st. induction l1 as [|l l1 IH]; intros st; cbn [app outputs]; [reflexivity|].
  destruct (output v own w copy st l); [apply IH|reflexivity].
Qed.

Lemma each_eq v own w r ins st :
  r_preserve r = false ->
  each v own w r ins st =
  match outputs v own w false (flat_map (fun i => r_outs r [i_loc i]) ins) st with
  | Some st' => Some (st', map (fun i => Cmd own [i] (r_outs r [i_loc i])) ins)
  | None => None
  end.
Proof.
  intros Hp. revert st. induction ins as [|i ins IH]; intros st; cbn [each flat_map map]; [reflexivity|].
  unfold do_rule, outs_of. rewrite Hp. cbn [andb map]. rewrite outputs_app.
  destruct (outputs v own w false (r_outs r [i_loc i]) st) as [st1|]; [|reflexivity].
  rewrite IH. destruct (outputs v own w false _ st1); reflexivity.
Qed.

Lemma alike_all_nil : alike_all [] [].
Proof. exists []. split; constructor. Qed.

Lemma alike_all_one a b : alike a b -> alike_all [a] [b].
Proof. intros H. exists [b]. split; [reflexivity|]. constructor; [assumption|constructor]. Qed.

Lemma alike_all_app a b c d : alike_all a b -> alike_all c d -> alike_all (a ++ c) (b ++ d).
Proof.
  intros [b' [P1 F1]] [d' [P2 F2]]. exists (b' ++ d'). split; [apply Permutation_app; assumption|].
  apply Forall2_app; assumption.
Qed.

Definition same_result (W : loc -> Prop) (x y : option (state * list cmd)) : Prop :=
  match x, y with
  | None, None => True
  | Some (a, cs), Some (b, ds) => related W a b /\ alike_all cs ds
  | _, _ => False
  end.

Lemma do_rule_related W a b own w r ia ib :
  related W a b -> simple W own r -> r_each r = false ->
  Permutation (map key ia) (map key ib) -> NoDup (map i_loc ib) ->
  (forall i, In i ib -> i_source i = negb (i_gen i)) ->
  same_result W (do_rule false own w r ia a) (do_rule true own w r ib b).
Proof.
  intros R S He P Hn Hs. unfold do_rule, outs_of. rewrite (s_preserve _ _ _ S). cbn [andb].
  assert (PL : Permutation (map i_loc ia) (map i_loc ib)).
  { apply (Permutation_map snd) in P. rewrite !map_map in P. exact P. }
  rewrite (s_order _ _ _ S He _ _ PL).
  pose proof (outputs_related W a b own w (r_outs r (map i_loc ib)) (r_outs r (map i_loc ib)) R (Permutation_refl _)
                (s_reserved _ _ _ S _) (s_far _ _ _ S _)) as H.
  destruct (outputs false own w false _ a), (outputs true own w false _ b); try contradiction; [|exact I].
  split; [exact H|]. apply alike_all_one. split; [reflexivity|split; [reflexivity|split; [|split]]].
  - exact P.
  - exact Hn.
  - exact Hs.
Qed.

Lemma flat_map_perm {A C} (f : A -> list C) l l' :
  Permutation l l' -> Permutation (flat_map f l) (flat_map f l').
Proof.
  induction 1 as [|x l l' P IH|x y l|l l' l'' P1 IH1 P2 IH2]; cbn.
  - constructor.
  - apply Permutation_app_head, IH.
  - rewrite !app_assoc. apply Permutation_app_tail, Permutation_app_comm.
  - etransitivity; eassumption.
Qed.

Lemma each_related W a b own w r ia ib :
  related W a b -> simple W own r ->
  Permutation (map key ia) (map key ib) -> (forall i, In i ib -> i_source i = negb (i_gen i)) ->
  same_result W (each false own w r ia a) (each true own w r ib b).
Proof.
  intros R S P Hs. rewrite !each_eq by apply S.
  assert (PF : Permutation (flat_map (fun i => r_outs r [i_loc i]) ia)
                           (flat_map (fun i => r_outs r [i_loc i]) ib)).
  { assert (E : forall l, flat_map (fun i => r_outs r [i_loc i]) l =
                          flat_map (fun k => r_outs r [snd k]) (map key l)).
    { intros l. induction l as [|i l IH]; cbn; [reflexivity|]. rewrite IH. reflexivity. }
    rewrite !E. apply flat_map_perm, P. }
  assert (HI : forall l, In l (flat_map (fun i => r_outs r [i_loc i]) ia) ->
            exists ins, In l (r_outs r ins)).
  { intros l Hl. apply in_flat_map in Hl. destruct Hl as [i [_ Hl]]. eauto. }
  pose proof (outputs_related W a b own w _ _ R PF) as H.
  assert (H1 : forall l, In l (flat_map (fun i => r_outs r [i_loc i]) ia) -> fst l = own -> reserved (snd l) = false).
  { intros l Hl. destruct (HI l Hl) as [ins Hin]. apply (s_reserved _ _ _ S _ _ Hin). }
  assert (H2 : forall l, In l (flat_map (fun i => r_outs r [i_loc i]) ia) -> fst l <> own -> ~ W l).
  { intros l Hl. destruct (HI l Hl) as [ins Hin]. apply (s_far _ _ _ S _ _ Hin). }
  specialize (H H1 H2).
  destruct (outputs false own w false _ a), (outputs true own w false _ b); try contradiction; [|exact I].
  split; [exact H|].
  apply Permutation_map_inv in P. destruct P as [ib' [E P]].
  exists (map (fun i => Cmd own [i] (r_outs r [i_loc i])) ib').
  split; [apply Permutation_map, P|].
  assert (Hs' : forall i, In i ib' -> i_source i = negb (i_gen i)).
  { intros i Hi. apply Hs. eapply Permutation_in; [apply Permutation_sym, P|assumption]. }
  clear -E Hs'. revert ib' E Hs'. induction ia as [|i ia IH]; intros [|j ib'] E Hs'; try discriminate; cbn [map]; constructor.
  - unfold key in E. cbn in E. injection E as E1 E2 E3. split; [reflexivity|]. cbn [c_outs c_ins].
    split; [congruence|]. split; [cbn; rewrite E1, E2; reflexivity|].
    split; [cbn; constructor; [intros []|constructor]|].
    intros x [<-|[]]. apply Hs'. left; reflexivity.
  - apply IH; [cbn in E; injection E; trivial|]. intros; apply Hs'; right; assumption.
Qed.

Lemma run_rule_related W a b own w r :
  related W a b -> simple W own r ->
  same_result W (run_rule glob false own w r a) (run_rule glob true own w r b).
Proof.
  intros R S. unfold run_rule. rewrite (s_preserve _ _ _ S).
  pose proof (name_list_related glob W a b own (r_pats r) R) as H.
  destruct (name_list glob false own false a (r_pats r)) as [x|],
           (name_list glob true own false b (r_pats r)) as [y|]; try contradiction; [|exact I].
  destruct (unique_related own a x y H) as [P Hn].
  assert (Hs : forall i, In i (unique y) -> i_source i = negb (i_gen i)).
  { intros i Hi. apply (proj1 (in_unique _ _)) in Hi. apply H, Hi. }
  destruct (r_each r) eqn:He; [apply each_related; assumption|].
  destruct (r_pats r) as [|p ps].
  - apply do_rule_related; assumption.
  - destruct (unique x) as [|i x'] eqn:Ex, (unique y) as [|j y'] eqn:Ey.
    + split; [assumption|apply alike_all_nil].
    + apply Permutation_length in P. discriminate.
    + apply Permutation_length in P. discriminate.
    + apply do_rule_related; assumption.
Qed.

Lemma run_rules_related W a b own w rs :
  related W a b -> (forall r, In r rs -> simple W own r) ->
  same_result W (run_rules glob false own w rs a) (run_rules glob true own w rs b).
Proof.
  revert a b. induction rs as [|r rs IH]; intros a b R S; cbn [run_rules].
  - split; [assumption|apply alike_all_nil].
  - pose proof (run_rule_related W a b own w r R (S r (or_introl eq_refl))) as H.
    destruct (run_rule glob false own w r a) as [[a1 c1]|], (run_rule glob true own w r b) as [[b1 d1]|];
      try contradiction; [|exact I].
    destruct H as [R1 A1].
    pose proof (IH a1 b1 R1 (fun x Hx => S x (or_intror Hx))) as H.
    destruct (run_rules glob false own w rs a1) as [[a2 c2]|], (run_rules glob true own w rs b1) as [[b2 d2]|];
      try contradiction; [|exact I].
    destruct H as [R2 A2]. split; [assumption|apply alike_all_app; assumption].
Qed.

Lemma begin_related W a b own : related W a b -> related W (begin own a) (begin own b).
Proof.
  intros R. constructor.
  - apply begin_ok, R.
  - apply R.
  - apply R.
  - intros l. rewrite !begin_in; [|apply (rel_ok _ _ _ R)|apply R].
    rewrite (rel_delete _ _ _ R), (related_here _ _ _ _ _ R). tauto.
  - apply R.
Qed.

Lemma parse_all_related W a b later tfs :
  related W a b -> (forall own rs r, In (own, rs) tfs -> In r rs -> simple W own r) ->
  same_result W (parse_all glob false later tfs a) (parse_all glob true later tfs b).
Proof.
  revert a b. induction tfs as [|[own rs] tfs IH]; intros a b R S; cbn [parse_all].
  - split; [assumption|apply alike_all_nil].
  - pose proof (run_rules_related W (begin own a) (begin own b) own (map fst tfs ++ later) rs (begin_related _ _ _ _ R)
                  (fun r Hr => S own rs r (or_introl eq_refl) Hr)) as H.
    destruct (run_rules glob false own _ rs (begin own a)) as [[a1 c1]|],
             (run_rules glob true own _ rs (begin own b)) as [[b1 d1]|];
      try contradiction; [|exact I].
    destruct H as [R1 A1].
    pose proof (IH a1 b1 R1 (fun o x r Hx Hr => S o x r (or_intror Hx) Hr)) as H.
    destruct (parse_all glob false later tfs a1) as [[a2 c2]|], (parse_all glob true later tfs b1) as [[b2 d2]|];
      try contradiction; [|exact I].
    destruct H as [R2 A2]. split; [assumption|apply alike_all_app; assumption].
Qed.

Section Two.
Variables need1 need2 : loc -> bool.

Lemma finish_related W a b : related W a b -> related W (finish need1 a) (finish need2 b).
Proof.
  intros R. constructor.
  - apply finish_ok, R.
  - apply gone_all_keys, R.
  - intros l. unfold finish. cbn [s_here s_source].
    destruct (in_dec loc_eq_dec l (s_delete a)) as [Hin|Hn].
    + pose proof (proj1 (rel_delete _ _ _ R l) Hin) as Hb.
      destruct (v_delete _ (rel_ok _ _ _ R) _ Hb) as [o Ho].
      apply (related_here _ _ _ _ _ R) in Ho. pose proof (rel_get _ _ _ R l) as HG. rewrite Ho in HG.
      pose proof (gone_all_in need1 _ (s_here a) _ Hin) as D1.
      pose proof (gone_all_in need2 _ (s_here b) _ Hb) as D2.
      destruct D1 as [D1|D1]; rewrite D1; split; try assumption; apply HG.
    + assert (Hnb : ~ In l (s_delete b)) by (rewrite <- (rel_delete _ _ _ R); assumption).
      rewrite !gone_all_other by assumption. apply R.
  - intros l; reflexivity.
  - apply R.
Qed.

Lemma write_related (W : loc -> Prop) a b l :
  related W a b -> W l -> (forall o, get (s_here a) l <> Some (KGen o)) ->
  related W (in_tree false (fun t => write t l) a) (in_tree true (fun t => write t l) b).
Proof.
  intros R HW Hn. cbn [in_tree].
  assert (Ea : write (s_here a) l = put (s_here a) l KFile).
  { unfold write. destruct (get (s_here a) l) as [[|o|]|]; try reflexivity. elim (Hn o eq_refl). }
  assert (Eb : write (s_source b) l = put (s_source b) l KFile).
  { unfold write. destruct (get (s_source b) l) as [[|o|]|] eqn:G; try reflexivity.
    elim (v_source _ (rel_ok _ _ _ R) _ _ G). }
  rewrite Ea, Eb. constructor; cbn [s_here s_source s_delete].
  - constructor; cbn [s_here s_source s_delete]; try apply (rel_ok _ _ _ R).
    + apply keys_put, (rel_ok _ _ _ R).
    + intros l' o. rewrite get_put. destruct (loc_eqb l l'); [discriminate|apply (rel_ok _ _ _ R)].
  - apply keys_put, R.
  - intros l'. rewrite !get_put. destruct (loc_eqb_spec l l') as [E|E]; [|apply R].
    subst l'. split; [reflexivity|]. pose proof (rel_get _ _ _ R l) as HG.
    destruct (get (s_here a) l) as [[|o|]|]; [apply HG|elim (Hn o eq_refl)|apply HG|apply HG].
  - apply R.
  - intros l'. rewrite get_put. destruct (loc_eqb_spec l l') as [E|E]; [subst l'; intros _; exact HW|apply R].
Qed.

Lemma remove_related W a b l :
  related W a b ->
  related W (in_tree false (fun t => remove need1 t l) a) (in_tree true (fun t => remove need2 t l) b).
Proof.
  intros R. cbn [in_tree].
  destruct (get (s_here a) l) as [k|] eqn:G; [destruct k as [|o|]|].
  2,3,4: (assert (Ea : remove need1 (s_here a) l = s_here a) by (unfold remove; rewrite G; reflexivity);
          assert (Eb : remove need2 (s_source b) l = s_source b)
            by (unfold remove; pose proof (related_file _ _ _ l R) as HF; rewrite G in HF;
                destruct (get (s_source b) l) as [[|o'|]|]; try reflexivity;
                exfalso; assert (HH := proj2 HF eq_refl); discriminate HH);
          rewrite Ea, Eb; destruct a, b; exact R).
  assert (GS : get (s_source b) l = Some KFile) by (apply (related_file _ _ _ _ R); assumption).
  unfold remove. rewrite G, GS.
  constructor; cbn [s_here s_source s_delete].
  - constructor; cbn [s_here s_source s_delete]; try apply (rel_ok _ _ _ R).
    + apply keys_gone, (rel_ok _ _ _ R).
    + intros l' o. rewrite get_gone. destruct (loc_eqb l l'); [destruct (need2 l); discriminate|apply (rel_ok _ _ _ R)].
  - apply keys_gone, R.
  - intros l'. rewrite !get_gone. destruct (loc_eqb_spec l l') as [E|E]; [|apply R].
    subst l'. pose proof (rel_get _ _ _ R l) as HG. rewrite G in HG.
    unfold dead in *. destruct (need1 l), (need2 l); tauto.
  - apply R.
  - intros l'. rewrite get_gone. destruct (loc_eqb_spec l l') as [E|E]; [destruct (need2 l); discriminate|apply R].
Qed.

Lemma history_fst need v h e st :
  fst (history glob need v (h ++ [e]) st) = fst (happen glob need v e (fst (history glob need v h st))).
Proof.
  revert st. induction h as [|x h IH]; intros st; cbn [app history].
  - cbn [fst]. destruct (happen glob need v e st); reflexivity.
  - destruct (happen glob need v x st) as [s1 o]. specialize (IH s1).
    destruct (history glob need v (h ++ [e]) s1) as [s2 os].
    destruct (history glob need v h s1) as [s3 os']. cbn [fst] in *. exact IH.
Qed.

Lemma history_app_snd need v h e st :
  snd (history glob need v (h ++ [e]) st) =
  snd (history glob need v h st) ++
  match snd (happen glob need v e (fst (history glob need v h st))) with Some x => [x] | None => [] end.
Proof.
  revert st. induction h as [|x h IH]; intros st; cbn [app history].
  - cbn [fst]. destruct (happen glob need v e st) as [s [o|]]; reflexivity.
  - destruct (happen glob need v x st) as [s1 o]. specialize (IH s1).
    destruct (history glob need v (h ++ [e]) s1) as [s2 os].
    destruct (history glob need v h s1) as [s3 os']. cbn [fst snd] in *. rewrite IH.
    destruct o; reflexivity.
Qed.

Lemma happen_related W a b e :
  related W a b ->
  (forall l, e = Write l -> W l /\ forall o, get (s_here a) l <> Some (KGen o)) ->
  (forall tfs own rs r, e = Update tfs -> In (own, rs) tfs -> In r rs -> simple W own r) ->
  related W (fst (happen glob need1 false e a)) (fst (happen glob need2 true e b)) /\
  match snd (happen glob need1 false e a), snd (happen glob need2 true e b) with
  | None, None => True
  | Some x, Some y => same_outcome x y
  | _, _ => False
  end.
Proof.
  intros R HW HS. destruct e as [l|l|tfs]; cbn [happen fst snd].
  - split; [|exact I]. destruct (HW l eq_refl). apply write_related; assumption.
  - split; [|exact I]. apply remove_related; assumption.
  - pose proof (parse_all_related W a b [] tfs R (fun own rs r => HS tfs own rs r eq_refl)) as H.
    destruct (parse_all glob false [] tfs a) as [[a1 c1]|], (parse_all glob true [] tfs b) as [[b1 d1]|];
      try contradiction; cbn [fst snd].
    + destruct H as [R1 A1]. split; [apply finish_related, R1|exact A1].
    + split; [assumption|exact I].
Qed.

Theorem simulation (W : loc -> Prop) h :
  (forall l, In (Write l) h -> W l) ->
  (forall own r, parsed h own r -> simple W own r) ->
  respects glob need1 h ->
  related W (fst (history glob need1 false h empty)) (fst (history glob need2 true h empty)) /\
  Forall2 same_outcome (snd (history glob need1 false h empty)) (snd (history glob need2 true h empty)).
Proof.
  induction h as [|e h IH] using rev_ind; intros HW HS HR.
  - cbn. split; [|constructor]. constructor; cbn.
    + apply empty_ok.
    + constructor.
    + intros l; split; left; reflexivity.
    + intros l; reflexivity.
    + discriminate.
  - assert (IH' : related W (fst (history glob need1 false h empty)) (fst (history glob need2 true h empty)) /\
       Forall2 same_outcome (snd (history glob need1 false h empty)) (snd (history glob need2 true h empty))).
    { apply IH.
      - intros l Hl. apply HW, in_app_iff. left; assumption.
      - intros own r [tfs [rs [H1 H2]]]. apply HS. exists tfs, rs. split; [apply in_app_iff; left; assumption|assumption].
      - intros h1 l h2 E. apply (HR h1 l (h2 ++ [e])). rewrite E, <- app_assoc. reflexivity. }
    destruct IH' as [R F].
    destruct (happen_related W _ _ e R) as [R1 O1].
    + intros l ->. split; [apply HW, in_app_iff; right; left; reflexivity|].
      apply (HR h l []). reflexivity.
    + intros tfs own rs r -> H1 H2. apply HS. exists tfs, rs.
      split; [apply in_app_iff; right; left; reflexivity|split; assumption].
    + rewrite !history_fst, !history_app_snd. split; [exact R1|]. apply Forall2_app; [exact F|].
      destruct (snd (happen glob need1 false e _)), (snd (happen glob need2 true e _)); try contradiction;
        repeat constructor; assumption.
Qed.
End Two.
End P.
