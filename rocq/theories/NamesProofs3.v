(** What an update does to the files, in the source tree and in a variant. *)
From Verif Require Import Base NamesModel NamesSpec NamesProofs NamesProofs2.
From Coq Require Import Permutation.

Section P.
Variable glob : bytes -> bytes -> bool.
Variable v : bool.

(** While Tupfiles are parsed: [st0] is the state before, [P] the Tupfiles
    parsed so far, [cs] the commands so far. *)
Record during (st0 : state) (P : list nat) (cs : list cmd) (st : state) : Prop := {
  d_keys : keys (s_here st);
  d_once : NoDup (flat_map c_outs cs);
  d_from : forall c, In c cs -> In (c_dir c) P;
  d_made : forall o l, makes cs o l -> get (s_here st) l = Some (KGen o);
  d_other : forall l, (forall o, ~ makes cs o l) -> get (s_here st) l = get (s_here st0) l;
  d_delete : forall l, In l (s_delete st) <->
               (forall o, ~ makes cs o l) /\ exists o, In o P /\ get (s_here st0) l = Some (KGen o);
  d_source : s_source st = s_source st0 }.

Lemma makes_flat cs l : (exists o, makes cs o l) <-> In l (flat_map c_outs cs).
Proof.
  rewrite in_flat_map. split.
  - intros [o [c [H1 [H2 H3]]]]. exists c. split; assumption.
  - intros [c [H1 H2]]. exists (c_dir c), c. repeat split; assumption.
Qed.

Lemma makes_app cs cs' o l : makes (cs ++ cs') o l <-> makes cs o l \/ makes cs' o l.
Proof.
  unfold makes. split.
  - intros [c [H1 H2]]. apply in_app_iff in H1. destruct H1; [left|right]; exists c; tauto.
  - intros [[c [H1 H2]]|[c [H1 H2]]]; exists c; (split; [apply in_app_iff; tauto|assumption]).
Qed.

(** An output that was made in this update cannot be made again. *)
Lemma output_taken st0 P cs st own w copy l :
  during st0 P cs st -> (forall o, In o P -> ~ In o w) ->
  In l (flat_map c_outs cs) -> output_ok v own w copy st l = false.
Proof.
  intros D HW Hin. apply makes_flat in Hin. destruct Hin as [o Ho].
  assert (HP : In o P). { destruct Ho as [c [H1 [<- _]]]. apply (d_from _ _ _ _ D _ H1). }
  unfold output_ok, output. rewrite (d_made _ _ _ _ D _ _ Ho).
  assert (M : memb l (s_delete st) = false).
  { apply memb_not. intros Hin. apply (d_delete _ _ _ _ D) in Hin. apply (proj1 Hin o Ho). }
  assert (W : existsb (Nat.eqb o) w = false).
  { destruct (existsb (Nat.eqb o) w) eqn:E; [|reflexivity]. apply existsb_exists in E.
    destruct E as [x [Hx E]]. apply Nat.eqb_eq in E. subst x. elim (HW _ HP Hx). }
  rewrite M, W. cbn [orb andb]. rewrite andb_false_r. reflexivity.
Qed.

Lemma do_rule_during st0 P cs own w r ins st st' cs' :
  during st0 P cs st -> In own P -> (forall o, In o P -> ~ In o w) ->
  do_rule v own w r ins st = Some (st', cs') -> during st0 P (cs ++ cs') st'.
Proof.
  intros D HP HW E. unfold do_rule in E.
  destruct (r_preserve r && negb v).
  { injection E as <- <-. rewrite app_nil_r. exact D. }
  destruct (r_preserve r && negb (length ins =? 1)); [discriminate|].
  destruct (outputs v own w (r_preserve r) (outs_of own r ins) st) as [st1|] eqn:O; [|discriminate].
  injection E as <- <-. apply outputs_some in O. destruct O as [-> [N O]].
  set (ls := outs_of own r ins) in *.
  assert (M1 : forall o l, makes [Cmd own ins ls] o l <-> o = own /\ In l ls).
  { intros o l. unfold makes. split.
    - intros [c [[<-|[]] [H1 H2]]]. cbn in H1, H2. split; [congruence|assumption].
    - intros [-> H]. eexists; split; [left; reflexivity|split; [reflexivity|exact H]]. }
  assert (Hfresh : forall l, In l ls -> forall o, ~ makes cs o l).
  { intros l Hl o Ho. assert (Hin : In l (flat_map c_outs cs)) by (apply makes_flat; eauto).
    specialize (O l Hl). rewrite (output_taken _ _ _ _ own w (r_preserve r) _ D HW Hin) in O. discriminate. }
  constructor.
  - apply outputs_state_keys, D.
  - rewrite flat_map_app. cbn [flat_map c_outs]. rewrite app_nil_r. apply nodup_app; [apply D|exact N|].
    intros l H1 H2. apply makes_flat in H1. destruct H1 as [o Ho]. apply (Hfresh l H2 o Ho).
  - intros c Hc. apply in_app_iff in Hc. destruct Hc as [Hc|[<-|[]]]; [apply (d_from _ _ _ _ D _ Hc)|exact HP].
  - intros o l Hm. apply makes_app in Hm. rewrite outputs_state_get. destruct Hm as [Hm|Hm].
    + destruct (memb l ls) eqn:M; [apply memb_In in M; elim (Hfresh l M o Hm)|apply (d_made _ _ _ _ D _ _ Hm)].
    + apply M1 in Hm. destruct Hm as [-> Hin]. rewrite (proj2 (memb_In _ _) Hin). reflexivity.
  - intros l Hn. rewrite outputs_state_get.
    assert (M : memb l ls = false).
    { apply memb_not. intros Hin. apply (Hn own). apply makes_app. right. apply M1. tauto. }
    rewrite M. apply (d_other _ _ _ _ D). intros o Ho. apply (Hn o). apply makes_app. tauto.
  - intros l. rewrite outputs_state_delete, (d_delete _ _ _ _ D). split.
    + intros [[H1 H2] H3]. split; [|exact H2]. intros o Ho. apply makes_app in Ho.
      destruct Ho as [Ho|Ho]; [apply (H1 _ Ho)|apply M1 in Ho; tauto].
    + intros [H1 H2]. split; [split; [|exact H2]|].
      * intros o Ho. apply (H1 o), makes_app. tauto.
      * intros Hin. apply (H1 own), makes_app. right. apply M1. tauto.
  - rewrite outputs_state_source. apply D.
Qed.

Lemma each_during st0 P cs own w r ins st st' cs' :
  during st0 P cs st -> In own P -> (forall o, In o P -> ~ In o w) ->
  each v own w r ins st = Some (st', cs') -> during st0 P (cs ++ cs') st'.
Proof.
  intros D HP HW. revert cs cs' st st' D. induction ins as [|i ins IH]; intros cs cs' st st' D E; cbn [each] in E.
  - injection E as <- <-. rewrite app_nil_r. exact D.
  - destruct (do_rule v own w r [i] st) as [[s1 c1]|] eqn:E1; [|discriminate].
    destruct (each v own w r ins s1) as [[s2 c2]|] eqn:E2; [|discriminate].
    injection E as <- <-. rewrite app_assoc. eapply IH; [|exact E2]. eapply do_rule_during; eassumption.
Qed.

Lemma run_rule_during st0 P cs own w r st st' cs' :
  during st0 P cs st -> In own P -> (forall o, In o P -> ~ In o w) ->
  run_rule glob v own w r st = Some (st', cs') -> during st0 P (cs ++ cs') st'.
Proof.
  intros D HP HW E. unfold run_rule in E. destruct (name_list _ _ _ _ _ _) as [l|]; [|discriminate].
  destruct (r_each r); [eapply each_during; eassumption|].
  destruct (r_pats r), (unique l); try (eapply do_rule_during; eassumption).
  injection E as <- <-. rewrite app_nil_r. exact D.
Qed.

Lemma run_rules_during st0 P cs own w rs st st' cs' :
  during st0 P cs st -> In own P -> (forall o, In o P -> ~ In o w) ->
  run_rules glob v own w rs st = Some (st', cs') -> during st0 P (cs ++ cs') st'.
Proof.
  intros D HP HW. revert cs cs' st st' D. induction rs as [|r rs IH]; intros cs cs' st st' D E; cbn [run_rules] in E.
  - injection E as <- <-. rewrite app_nil_r. exact D.
  - destruct (run_rule glob v own w r st) as [[s1 c1]|] eqn:E1; [|discriminate].
    destruct (run_rules glob v own w rs s1) as [[s2 c2]|] eqn:E2; [|discriminate].
    injection E as <- <-. rewrite app_assoc. eapply IH; [|exact E2]. eapply run_rule_during; eassumption.
Qed.

Lemma makes_dec cs l : (exists o, makes cs o l) \/ (forall o, ~ makes cs o l).
Proof.
  destruct (in_dec loc_eq_dec l (flat_map c_outs cs)) as [H|H].
  - left. apply makes_flat, H.
  - right. intros o Ho. apply H, makes_flat. eauto.
Qed.

Lemma begin_during st0 P cs own st :
  during st0 P cs st -> ~ In own P -> during st0 (own :: P) cs (begin own st).
Proof.
  intros D HP. constructor; try apply D.
  - intros c Hc. right. apply (d_from _ _ _ _ D _ Hc).
  - intros l. rewrite begin_in by apply D. rewrite (d_delete _ _ _ _ D). split.
    + intros [G|[H1 [o [H2 H3]]]].
      * destruct (makes_dec cs l) as [[o Ho]|Hn].
        -- rewrite (d_made _ _ _ _ D _ _ Ho) in G. injection G as ->.
           destruct Ho as [c [H1 [<- _]]]. elim HP. apply (d_from _ _ _ _ D _ H1).
        -- split; [exact Hn|]. exists own. split; [left; reflexivity|].
           rewrite <- (d_other _ _ _ _ D _ Hn). exact G.
      * split; [exact H1|]. exists o. split; [right; assumption|assumption].
    + intros [H1 [o [[<-|H2] H3]]].
      * left. rewrite (d_other _ _ _ _ D _ H1). exact H3.
      * right. split; [exact H1|]. exists o. tauto.
Qed.

Lemma parse_later st0 later P cs tfs st st' cs' :
  during st0 P cs st -> NoDup (map fst tfs ++ later) -> (forall o, In o P -> ~ In o (map fst tfs ++ later)) ->
  parse_all glob v later tfs st = Some (st', cs') ->
  during st0 (rev (map fst tfs) ++ P) (cs ++ cs') st'.
Proof.
  revert P cs cs' st. induction tfs as [|[own rs] tfs IH]; intros P cs cs' st D N HP E; cbn [parse_all] in E.
  - injection E as <- <-. rewrite app_nil_r. exact D.
  - destruct (run_rules glob v own _ rs (begin own st)) as [[s1 c1]|] eqn:E1; [|discriminate].
    destruct (parse_all glob v later tfs s1) as [[s2 c2]|] eqn:E2; [|discriminate].
    injection E as <- <-. cbn [map fst app] in N. inversion N as [|? ? Hn Hd]; subst.
    cbn [map rev fst]. rewrite <- (app_assoc (rev (map fst tfs))), (app_assoc cs). cbn [app].
    eapply IH; [|exact Hd| |exact E2].
    + eapply run_rules_during; [| | |exact E1].
      * apply begin_during; [exact D|]. intros Hin. apply (HP _ Hin). left; reflexivity.
      * left; reflexivity.
      * intros o [<-|Ho] Hin; [apply Hn, Hin|]. apply (HP _ Ho). right; exact Hin.
    + intros o [<-|Ho] Hin; [apply Hn, Hin|]. apply (HP _ Ho). right; exact Hin.
Qed.

Lemma parse_all_during st0 P cs tfs st st' cs' :
  during st0 P cs st -> NoDup (map fst tfs) -> (forall o, In o P -> ~ In o (map fst tfs)) ->
  parse_all glob v [] tfs st = Some (st', cs') ->
  during st0 (rev (map fst tfs) ++ P) (cs ++ cs') st'.
Proof.
  intros D N H. apply parse_later; rewrite ?app_nil_r; assumption.
Qed.

Lemma start_during st : keys (s_here st) -> s_delete st = [] -> during st [] [] st.
Proof.
  intros K E. constructor; cbn [flat_map].
  - exact K.
  - constructor.
  - intros c [].
  - intros o l [c [[] _]].
  - intros; reflexivity.
  - intros l. rewrite E. split; [intros []|]. intros [_ [o [[] _]]].
  - reflexivity.
Qed.

(** When an output is accepted. *)
Lemma output_iff st0 P cs st own w copy l :
  during st0 P cs st -> In own P -> (forall o, In o P -> ~ In o w) ->
  output v own w copy st l <> None <->
  (v = true -> copy = false -> fst l = own -> dead (get (s_source st0) l)) /\
  (v = false -> fst l = own -> reserved (snd l) = false) /\
  (forall o, ~ makes cs o l) /\
  get (s_here st0) l <> Some KFile /\
  (forall o, get (s_here st0) l = Some (KGen o) -> In o P \/ In o w).
Proof.
  intros D HP HW.
  assert (E1 : output v own w copy st l <> None <-> output_ok v own w copy st l = true).
  { unfold output_ok. destruct (output v own w copy st l); split; congruence. }
  rewrite E1. clear E1. destruct (makes_dec cs l) as [Hm|Hn].
  - assert (Hin : In l (flat_map c_outs cs)) by (apply makes_flat, Hm).
    rewrite (output_taken _ _ _ _ own w copy _ D HW Hin). split; [discriminate|].
    intros [_ [_ [H _]]]. destruct Hm as [o Ho]. elim (H o Ho).
  - unfold output_ok, output. rewrite (d_source _ _ _ _ D), (d_other _ _ _ _ D _ Hn).
    set (S := match get (s_source st0) l with None | Some KGhost => false | _ => true end).
    assert (HS : S = false <-> dead (get (s_source st0) l)).
    { unfold S, dead. destruct (get (s_source st0) l) as [[|o|]|]; intuition congruence. }
    set (F := match get (s_here st0) l with
              | Some KFile => false
              | Some (KGen o) => memb l (s_delete st) || existsb (Nat.eqb o) w && negb (o =? own)
              | _ => true end).
    assert (HF : F = true <-> get (s_here st0) l <> Some KFile /\
                 (forall o, get (s_here st0) l = Some (KGen o) -> In o P \/ In o w)).
    { unfold F. destruct (get (s_here st0) l) as [[|o|]|] eqn:G.
      - split; [discriminate|intros [H _]; congruence].
      - rewrite orb_true_iff, memb_In, (d_delete _ _ _ _ D), andb_true_iff, negb_true_iff, Nat.eqb_neq, existsb_exists.
        split.
        + intros [[_ [o' [H1 H2]]]|[[o' [H1 H2]] _]]; (split; [congruence|]); intros o2 E; injection E as <-.
          * left. rewrite G in H2. injection H2 as ->. exact H1.
          * right. apply Nat.eqb_eq in H2. subst o'. exact H1.
        + intros [_ H]. destruct (H o eq_refl) as [H1|H1]; [left|right].
          * split; [exact Hn|]. exists o. tauto.
          * split; [exists o; split; [exact H1|apply Nat.eqb_refl]|]. intros ->. apply (HW _ HP H1).
      - split; [intros _; split; discriminate|reflexivity].
      - split; [intros _; split; discriminate|reflexivity]. }
    fold F. rewrite <- HF.
    destruct (Nat.eqb_spec (fst l) own) as [Eb|Eb].
    + destruct v, copy; cbn [andb negb]; fold S.
      * destruct F; intuition congruence.
      * rewrite <- HS. destruct S, F; cbn; intuition congruence.
      * destruct (reserved (snd l)), F; cbn; intuition congruence.
      * destruct (reserved (snd l)), F; cbn; intuition congruence.
    + rewrite !andb_false_r. cbn [andb negb]. destruct F; intuition congruence.
Qed.

Variable needed : loc -> bool.

Lemma update_updated tfs st cs st' :
  keys (s_here st) -> s_delete st = [] -> NoDup (map fst tfs) ->
  parse_all glob v [] tfs st = Some (st', cs) ->
  updated tfs cs st (finish needed st').
Proof.
  intros K E N H.
  pose proof (parse_all_during st [] [] tfs st st' cs (start_during st K E) N (fun o Ho => match Ho with end) H) as D.
  cbn [app] in D. rewrite app_nil_r in D. unfold finish.
  constructor; cbn [s_here s_source].
  - apply D.
  - intros c Hc. apply in_rev, (d_from _ _ _ _ D _ Hc).
  - intros o l Ho. rewrite gone_all_other; [apply (d_made _ _ _ _ D _ _ Ho)|].
    intros Hin. apply (d_delete _ _ _ _ D) in Hin. apply (proj1 Hin o Ho).
  - intros o l Ho G Hn. apply gone_all_in. apply (d_delete _ _ _ _ D). split; [exact Hn|].
    exists o. split; [|exact G]. rewrite <- in_rev. exact Ho.
  - intros l Hk Hn. rewrite gone_all_other; [apply (d_other _ _ _ _ D _ Hn)|].
    intros Hin. apply (d_delete _ _ _ _ D) in Hin. destruct Hin as [_ [o [Ho G]]].
    apply (Hk o); [|exact G]. apply in_rev, Ho.
  - apply D.
Qed.

(** Every state between updates. *)
Definition fit (st : state) : Prop := keys (s_here st) /\ keys (s_source st) /\ s_delete st = [].

Lemma outputs_keys own w copy ls st st' :
  keys (s_here st) -> outputs v own w copy ls st = Some st' -> keys (s_here st') /\ s_source st' = s_source st.
Proof.
  intros K E. apply outputs_some in E. destruct E as [-> _].
  split; [apply outputs_state_keys, K|apply outputs_state_source].
Qed.

Lemma do_rule_keys own w r ins st st' cs :
  keys (s_here st) -> do_rule v own w r ins st = Some (st', cs) -> keys (s_here st') /\ s_source st' = s_source st.
Proof.
  intros H E. unfold do_rule in E. destruct (_ && negb v); [injection E as <- <-; tauto|].
  destruct (_ && _); [discriminate|]. destruct (outputs _ _ _ _ _ _) eqn:O; [|discriminate].
  injection E as <- <-. eapply outputs_keys; eassumption.
Qed.

Lemma each_keys own w r ins st st' cs :
  keys (s_here st) -> each v own w r ins st = Some (st', cs) -> keys (s_here st') /\ s_source st' = s_source st.
Proof.
  revert st st' cs. induction ins as [|i ins IH]; intros st st' cs H E; cbn [each] in E; [injection E as <- <-; tauto|].
  destruct (do_rule v own w r [i] st) as [[s1 c1]|] eqn:D; [|discriminate].
  destruct (each v own w r ins s1) as [[s2 c2]|] eqn:D2; [|discriminate].
  injection E as <- <-. apply do_rule_keys in D; [|exact H]. destruct D as [D1 <-]. eapply IH; eassumption.
Qed.

Lemma run_rule_keys own w r st st' cs :
  keys (s_here st) -> run_rule glob v own w r st = Some (st', cs) -> keys (s_here st') /\ s_source st' = s_source st.
Proof.
  intros H E. unfold run_rule in E. destruct (name_list _ _ _ _ _ _) as [l|]; [|discriminate].
  destruct (r_each r); [eapply each_keys; eassumption|].
  destruct (r_pats r), (unique l); try (eapply do_rule_keys; eassumption). injection E as <- <-; tauto.
Qed.

Lemma run_rules_keys own w rs st st' cs :
  keys (s_here st) -> run_rules glob v own w rs st = Some (st', cs) -> keys (s_here st') /\ s_source st' = s_source st.
Proof.
  revert st st' cs. induction rs as [|r rs IH]; intros st st' cs H E; cbn [run_rules] in E; [injection E as <- <-; tauto|].
  destruct (run_rule glob v own w r st) as [[s1 c1]|] eqn:D; [|discriminate].
  destruct (run_rules glob v own w rs s1) as [[s2 c2]|] eqn:D2; [|discriminate].
  injection E as <- <-. apply run_rule_keys in D; [|exact H]. destruct D as [D1 <-]. eapply IH; eassumption.
Qed.

Lemma parse_all_keys later tfs st st' cs :
  keys (s_here st) -> parse_all glob v later tfs st = Some (st', cs) -> keys (s_here st') /\ s_source st' = s_source st.
Proof.
  revert st st' cs. induction tfs as [|[own rs] tfs IH]; intros st st' cs H E; cbn [parse_all] in E; [injection E as <- <-; tauto|].
  destruct (run_rules glob v own _ rs (begin own st)) as [[s1 c1]|] eqn:D; [|discriminate].
  destruct (parse_all glob v later tfs s1) as [[s2 c2]|] eqn:D2; [|discriminate].
  injection E as <- <-. apply run_rules_keys in D; [|exact H]. destruct D as [D1 D3].
  unfold begin in D3. cbn [s_source] in D3. rewrite <- D3. eapply IH; eassumption.
Qed.

Lemma happen_fit e st : fit st -> fit (fst (happen glob needed v e st)).
Proof.
  intros [K1 [K2 K3]]. destruct e as [l|l|tfs]; cbn [happen fst].
  - unfold in_tree, write. destruct v; (split; [|split]); cbn [s_here s_source s_delete]; try assumption.
    + destruct (get (s_source st) l) as [[|o|]|]; try apply keys_put; assumption.
    + destruct (get (s_here st) l) as [[|o|]|]; try apply keys_put; assumption.
  - unfold in_tree, remove. destruct v; (split; [|split]); cbn [s_here s_source s_delete]; try assumption.
    + destruct (get (s_source st) l) as [[|o|]|]; try apply keys_gone; assumption.
    + destruct (get (s_here st) l) as [[|o|]|]; try apply keys_gone; assumption.
  - destruct (parse_all glob v [] tfs st) as [[st' cs]|] eqn:E; cbn [fst]; [|split; [|split]; assumption].
    apply parse_all_keys in E; [|exact K1]. destruct E as [E1 E2].
    split; [|split]; cbn [finish s_here s_source s_delete]; [apply gone_all_keys, E1|rewrite E2; exact K2|reflexivity].
Qed.

Lemma history_fit h st : fit st -> fit (fst (history glob needed v h st)).
Proof.
  revert st. induction h as [|e h IH]; intros st H; cbn [history]; [exact H|].
  pose proof (happen_fit e st H) as H1. destruct (happen glob needed v e st) as [s1 o]. cbn [fst] in H1.
  specialize (IH s1 H1). destruct (history glob needed v h s1) as [s2 os]. cbn [fst] in *. exact IH.
Qed.

Lemma update_history h tfs cs :
  NoDup (map fst tfs) ->
  snd (happen glob needed v (Update tfs) (fst (history glob needed v h empty))) = Some (Some cs) ->
  updated tfs cs (fst (history glob needed v h empty)) (fst (history glob needed v (h ++ [Update tfs]) empty)).
Proof.
  intros N E. rewrite history_fst.
  assert (F : fit (fst (history glob needed v h empty))).
  { apply history_fit. split; [|split]; try constructor. }
  destruct F as [K1 [K2 K3]]. cbn [happen] in *.
  destruct (parse_all glob v [] tfs _) as [[st' cs']|] eqn:P; cbn [snd fst] in *; [|discriminate].
  injection E as <-. apply update_updated; assumption.
Qed.

Lemma output_history h before own rs after st1 cs1 st cs2 copy l :
  NoDup (map fst before ++ own :: after) ->
  parse_all glob v (own :: after) before (fst (history glob needed v h empty)) = Some (st1, cs1) ->
  run_rules glob v own after rs (begin own st1) = Some (st, cs2) ->
  let st0 := fst (history glob needed v h empty) in
  output v own after copy st l <> None <->
  (v = true -> copy = false -> fst l = own -> dead (get (s_source st0) l)) /\
  (v = false -> fst l = own -> reserved (snd l) = false) /\
  (forall o, ~ makes (cs1 ++ cs2) o l) /\
  get (s_here st0) l <> Some KFile /\
  (forall o, get (s_here st0) l = Some (KGen o) -> In o (map fst before ++ own :: after)).
Proof.
  intros N E1 E2 st0.
  assert (F : fit st0).
  { apply history_fit. split; [|split]; try constructor. }
  destruct F as [K1 [K2 K3]].
  pose proof (parse_later st0 (own :: after) [] [] before st0 st1 cs1 (start_during st0 K1 K3)
                N (fun o Ho => match Ho with end) E1) as D1.
  cbn [app] in D1. rewrite app_nil_r in D1.
  assert (Hown : ~ In own (rev (map fst before)) /\ ~ In own after /\ (forall o, In o (map fst before) -> ~ In o after)).
  { split; [|split].
    - rewrite <- in_rev. intros Hin. apply NoDup_remove_2 in N. apply N, in_app_iff. tauto.
    - intros Hin. apply NoDup_remove_2 in N. apply N, in_app_iff. tauto.
    - intros o H1 H2. apply NoDup_remove_1 in N.
      apply in_split in H1. destruct H1 as [x [y Hxy]]. rewrite Hxy, <- app_assoc in N. cbn in N.
      apply NoDup_remove_2 in N. apply N. rewrite !in_app_iff. tauto. }
  destruct Hown as [H1 [H2 H3]].
  pose proof (begin_during _ _ _ own _ D1 H1) as D2.
  assert (HW : forall o, In o (own :: rev (map fst before)) -> ~ In o after).
  { intros o [<-|Ho]; [exact H2|]. apply H3, in_rev, Ho. }
  pose proof (run_rules_during _ _ _ own after rs _ _ _ D2 (or_introl eq_refl) HW E2) as D3.
  rewrite (output_iff _ _ _ _ own after copy l D3 (or_introl eq_refl) HW).
  assert (HI : forall o, In o (own :: rev (map fst before)) \/ In o after <-> In o (map fst before ++ own :: after)).
  { intros o. rewrite in_app_iff. cbn. rewrite <- in_rev. tauto. }
  split; intros [A1 [A2 [A3 [A4 A5]]]]; repeat (split; [assumption|]); intros o Ho; apply HI, A5, Ho.
Qed.
End P.
