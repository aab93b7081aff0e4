(** The commands on demand: [attach_transient_nodes] adds exactly those whose
    missing outputs something in the graph needs. *)
From Verif Require Import Base ExecModel ExecSpec GraphModel GraphSpec TransModel TransSpec ExecProofs GraphProofs TransProofs.
From Coq Require Import Permutation.

(** Moving nodes from the stack to the list. *)
Lemma settle_eq b n : NoDup (known b) -> In n (plist (gr_ b)) ->
  settle b n = Done (with_gr b {| plist := rm n (plist (gr_ b)); node_list := node_list (gr_ b) ++ [n]; edges := edges (gr_ b);
     state := upd (state (gr_ b)) n Finished; trans := trans (gr_ b); expanded := expanded (gr_ b) |}).
Proof.
  intros ND H. unfold settle, settle_list, off_plist. rewrite (proj2 (inb_In n _) H). cbn [obind]. unfold to_nodes_tail.
  cbn [plist node_list edges state trans expanded].
  assert (inb n (rm n (plist (gr_ b))) = false) as -> by (apply inb_nIn; intros C; apply rm_In in C; tauto).
  assert (inb n (node_list (gr_ b)) = false) as -> by (apply inb_nIn; intros C; exact (NoDup_app_disj _ _ n ND H C)).
  reflexivity.
Qed.
Lemma settle_none b n : ~ In n (plist (gr_ b)) -> settle b n = Internal.
Proof. intros H. unfold settle, settle_list, off_plist. rewrite (proj2 (inb_nIn n _) H). reflexivity. Qed.

Lemma settle_known b n : NoDup (known b) -> In n (plist (gr_ b)) ->
  NoDup (rm n (plist (gr_ b)) ++ node_list (gr_ b) ++ [n]).
Proof.
  intros ND H. unfold known in ND. pose proof (rm_perm n _ (NoDup_app_l _ _ ND) H) as P.
  apply (Permutation_NoDup (l := plist (gr_ b) ++ node_list (gr_ b))); [|exact ND].
  rewrite P at 1. cbn [app]. rewrite app_assoc. apply Permutation_cons_append.
Qed.

Lemma settle_all os : forall b, NoDup (known b) -> NoDup os -> incl os (plist (gr_ b)) ->
  exists b', each settle b os = Done b' /\ (forall n, In n (plist (gr_ b')) <-> In n (plist (gr_ b)) /\ ~ In n os) /\
    node_list (gr_ b') = node_list (gr_ b) ++ os /\ NoDup (known b') /\ edges (gr_ b') = edges (gr_ b) /\
    (forall n, state (gr_ b') n = if inb n os then Finished else state (gr_ b) n) /\
    trans (gr_ b') = trans (gr_ b) /\ expanded (gr_ b') = expanded (gr_ b) /\ skip b' = skip b /\ counted b' = counted b.
Proof.
  induction os as [|f os IH]; intros b ND NO Hi.
  - exists b. cbn [each]. rewrite app_nil_r. split; [reflexivity|]. split; [intros n; cbn; tauto|]. repeat split; auto.
  - apply NoDup_cons_iff in NO. destruct NO as [Nf NO].
    assert (In f (plist (gr_ b))) as Hf by (apply Hi; left; reflexivity).
    cbn [each]. rewrite (settle_eq b f ND Hf). cbn [then_].
    set (b1 := with_gr b _).
    destruct (IH b1) as [b' [E [P [Nl [K [Ed [St [Tr [Ex [Sk Ct]]]]]]]]]].
    + exact (settle_known b f ND Hf).
    + exact NO.
    + intros x Hx. cbn. apply rm_In. split; [apply Hi; right; exact Hx|]. intros ->. contradiction.
    + exists b'. split; [exact E|]. split.
      * intros n. rewrite P. cbn. rewrite rm_In. intuition congruence.
      * split; [rewrite Nl; cbn; rewrite <- app_assoc; reflexivity|]. split; [exact K|]. split; [exact Ed|]. split; [|auto].
        intros n. rewrite St. change (inb n (f :: os)) with ((n =? f) || inb n os). cbn. unfold upd.
        destruct (n =? f), (inb n os); reflexivity.
Qed.

Lemma settle_fails os : forall b, NoDup (known b) -> NoDup os -> (exists f, In f os /\ ~ In f (plist (gr_ b))) ->
  each settle b os = Internal.
Proof.
  induction os as [|f os IH]; intros b ND NO [x [Hx Nx]]; [destruct Hx|].
  apply NoDup_cons_iff in NO. destruct NO as [Nf NO]. cbn [each].
  destruct (in_dec Nat.eq_dec f (plist (gr_ b))) as [I|I].
  - rewrite (settle_eq b f ND I). cbn [then_]. apply IH; [exact (settle_known b f ND I)|exact NO|].
    exists x. destruct Hx as [->|Hx]; [contradiction|]. split; [exact Hx|]. cbn. rewrite rm_In. tauto.
  - rewrite (settle_none b f I). reflexivity.
Qed.

(** Removing nodes. *)
Lemma drops_spec l : forall b, let b' := fold_left drop l b in
  (forall n, In n (plist (gr_ b')) <-> In n (plist (gr_ b)) /\ ~ In n l) /\
  ((forall n, In n l -> ~ In n (node_list (gr_ b))) -> node_list (gr_ b') = node_list (gr_ b)) /\
  (forall e, In e (edges (gr_ b')) <-> In e (edges (gr_ b)) /\ ~ In (src e) l /\ ~ In (dst e) l) /\
  state (gr_ b') = state (gr_ b) /\ trans (gr_ b') = trans (gr_ b) /\ expanded (gr_ b') = expanded (gr_ b) /\
  skip b' = skip b /\ counted b' = counted b.
Proof.
  induction l as [|f l IH]; intros b.
  - cbn. repeat split; auto; tauto.
  - destruct (IH (drop b f)) as [P [N [E R]]]. cbn [fold_left]. split; [|split; [|split; [|exact R]]].
    + intros n. rewrite P. cbn. rewrite rm_In. intuition congruence.
    + intros H. rewrite N.
      * cbn. apply rm_nIn. apply H. left. reflexivity.
      * intros n Hn. cbn. rewrite rm_In. intros [C _]. exact (H n (or_intror Hn) C).
    + intros e. rewrite E. cbn [drop with_gr gr_ drop_node edges]. rewrite filter_In, andb_true_iff, !negb_true_iff, !Nat.eqb_neq. cbn [In].
      intuition congruence.
Qed.

Section Attach.
Variable kind_of : id -> kind.
Variable links glinks inputs users : id -> list id.
Variable transient_ : id -> bool.
Variable root : id.
Variable count_flags : option kind.
Variable rows flags : list id.
Notation counts := (counts count_flags).
Notation cb := (build_graph_cb kind_of transient_ root count_flags).
Notation mk := (make_edge kind_of root count_flags).
Notation next := (next kind_of links glinks).
Notation leftover := (leftover kind_of rows flags).
Notation waiting := (waiting kind_of transient_ flags).
Notation due := (due kind_of links glinks transient_ rows flags).
Notation joins := (joins kind_of links glinks inputs transient_ rows flags).
Notation torn := (torn kind_of links glinks inputs transient_ rows flags).
Notation linked := (linked kind_of transient_ root count_flags).
Notation nol := (fun _ : id => @Datatypes.nil id).
Notation nof := (fun _ : id => false).
Notation lk_known := (linked_known kind_of nol nol nol transient_ nof root count_flags).
Notation lk_WX := (linked_WX kind_of nol nol nol transient_ nof root count_flags).
Notation e_cbX := (each_cbX kind_of nol nol nol transient_ nof root count_flags).
Notation fd_known := (found_known kind_of nol nol nol nof nof root).
Notation roots := (roots kind_of transient_ rows flags).

Definition E (b : bgraph) (es : list edge) : bgraph := with_gr b (set_edges (gr_ b) es).

Lemma E_id b : E b (edges (gr_ b)) = b.
Proof. destruct b as [g sk ct nn]. unfold E, with_gr, set_edges. cbn. destruct g. reflexivity. Qed.

Lemma users_spec b f us es : f <> root ->
  (forall u, In u us -> found b u = true -> expanded (gr_ b) u = true /\ state (gr_ b) u <> Processing) ->
  exists es', each (fun b u => if found b u then mk b f u else Done b) (E b es) us = Done (E b es') /\
    (forall e, In e es' <-> In e es \/ (normal e = true /\ src e = f /\ In (dst e) us /\ found b (dst e) = true)).
Proof.
  intros Nr. revert es. induction us as [|u us IH]; intros es H.
  - exists es. split; [reflexivity|]. intros e. cbn. tauto.
  - cbn [each]. change (found (E b es) u) with (found b u). destruct (found b u) eqn:Fo.
    + destruct (H u (or_introl eq_refl) Fo) as [Ex St].
      assert (mk (E b es) f u = Done (E b ({| src := f; dst := u; normal := true |} :: es))) as ->.
      { unfold make_edge. change (state (gr_ (E b es)) u) with (state (gr_ b) u). change (expanded (gr_ (E b es)) u) with (expanded (gr_ b) u).
        rewrite Ex. destruct (state (gr_ b) u); cbn [is_processing]; try contradiction; cbn [then_];
        destruct (Nat.eqb_spec f root); try contradiction; reflexivity. }
      cbn [then_]. destruct (IH ({| src := f; dst := u; normal := true |} :: es)) as [es' [E1 E2]]; [intros v Hv; apply H; right; exact Hv|].
      exists es'. split; [exact E1|]. intros e. rewrite E2. cbn [In]. split.
      * intros [[<-|H1]|[H1 [H2 [H3 H4]]]]; cbn; auto 8.
      * intros [H1|[H1 [H2 [[H3|H3] H4]]]]; [auto| |auto 8]. left. left. destruct e; cbn in *; subst. reflexivity.
    + cbn [then_]. destruct (IH es) as [es' [E1 E2]]; [intros v Hv; apply H; right; exact Hv|].
      exists es'. split; [exact E1|]. intros e. rewrite E2. cbn [In]. split; intros [H1|[H1 [H2 [H3 H4]]]]; auto 8.
      destruct H3 as [H3|H3]; [rewrite <- H3 in H4; congruence|]. auto 8.
Qed.

Lemma outputs_spec b os : ~ In root os -> NoDup os ->
  (forall f u, In f os -> In u (users f) -> found b u = true -> expanded (gr_ b) u = true /\ state (gr_ b) u <> Processing) ->
  forall es, (forall e, In e es -> In (src e) os -> In (src e) rows) ->
  exists es' kept, attach_outputs kind_of users root count_flags rows (E b es) os = Done (E b es', kept) /\
    (forall e, In e es -> In e es') /\
    (forall e, In e es' -> In e es \/ (normal e = true /\ In (src e) os /\ In (dst e) (users (src e)) /\ found b (dst e) = true /\
                                      (kept = false -> In (src e) rows))) /\
    (kept = true -> exists f u, In f os /\ ~ In f rows /\ In u (users f) /\ found b u = true) /\
    (kept = false -> forall f u, In f os -> ~ In f rows -> In u (users f) -> found b u = false).
Proof.
  induction os as [|f os IH]; intros Nr ND H es Ne.
  - exists es, false. cbn. repeat split; auto; try discriminate. intros _ f u [].
  - apply NoDup_cons_iff in ND. destruct ND as [Nf ND]. cbn [attach_outputs]. unfold attach_users.
    destruct (users_spec b f (users f) es) as [es1 [E1 E2]].
    { intros ->. apply Nr. left. reflexivity. }
    { intros u Hu Fo. exact (H f u (or_introl eq_refl) Hu Fo). }
    rewrite E1. cbn [then_].
    destruct (negb (inb f rows) && negb (no_out (gr_ (E b es1)) f)) eqn:C.
    + exists es1, true. apply andb_true_iff in C. destruct C as [C1 C2]. apply negb_true_iff, inb_nIn in C1.
      unfold no_out in C2. rewrite negb_involutive in C2. apply existsb_exists in C2. destruct C2 as [e [He Hs]].
      apply Nat.eqb_eq in Hs. cbn [E with_gr gr_ set_edges edges] in He.
      split; [reflexivity|]. split; [intros x Hx; apply E2; auto|]. split; [|split; [|discriminate]].
      * intros x Hx. apply E2 in Hx. destruct Hx as [Hx|[H1 [H2 [H3 H4]]]]; [auto|]. right. rewrite H2. cbn [In].
        split; [exact H1|]. split; [auto|]. split; [exact H3|]. split; [exact H4|discriminate].
      * intros _. apply E2 in He. destruct He as [He|[H1 [H2 [H3 H4]]]].
        -- exfalso. apply C1. rewrite <- Hs. apply (Ne e He). rewrite Hs. left. reflexivity.
        -- exists f, (dst e). cbn [In]. auto.
    + assert (forall u, ~ In f rows -> In u (users f) -> found b u = false) as Nu.
      { intros u Hr Hu. destruct (found b u) eqn:Fo; [|reflexivity]. exfalso.
        rewrite (proj2 (inb_nIn f rows) Hr) in C. cbn [negb andb] in C. apply negb_false_iff in C. unfold no_out in C. apply negb_true_iff in C.
        assert (existsb (fun e => src e =? f) (edges (gr_ (E b es1))) = true) as X; [|congruence]. apply existsb_exists.
        exists {| src := f; dst := u; normal := true |}. split; [|apply Nat.eqb_refl]. cbn. apply E2. right. cbn. auto. }
      destruct (IH (fun c => Nr (or_intror c)) ND (fun g u Hg => H g u (or_intror Hg)) es1) as [es' [kept [A1 [A2 [A3 [A4 A5]]]]]].
      { intros e He Hs. apply E2 in He. destruct He as [He|[H1 [H2 [H3 H4]]]]; [apply (Ne e He); right; exact Hs|].
        exfalso. apply Nf. rewrite <- H2. exact Hs. }
      exists es', kept. split; [exact A1|]. split; [intros x Hx; apply A2, E2; auto|]. split; [|split].
      * intros e He. destruct (A3 e He) as [X|[H1 [H2 [H3 [H4 H5]]]]].
        -- apply E2 in X. destruct X as [X|[H1 [H2 [H3 H4]]]]; [auto|]. right. rewrite H2. cbn [In]. split; [exact H1|].
           split; [auto|]. split; [exact H3|]. split; [exact H4|]. intros _.
           destruct (in_dec Nat.eq_dec f rows) as [I|I]; [exact I|]. exfalso. rewrite (Nu _ I H3) in H4. discriminate.
        -- right. cbn [In]. auto 8.
      * intros K. destruct (A4 K) as [g [u [H1 H2]]]. exists g, u. cbn [In]. tauto.
      * intros K g u [<-|Hg] Hr Hu; [exact (Nu u Hr Hu)|exact (A5 K g u Hg Hr Hu)].
Qed.

Variable universe : list id.
Hypothesis DB : db_ok kind_of links glinks root universe (flags ++ rows).
Hypothesis Kroot : kind_of root = KRoot.
Hypothesis US : forall f u, In u (users f) <-> In f (inputs u).
Hypothesis UC : forall f u, In f (inputs u) -> kind_of u = KCmd.
Hypothesis PL : plain kind_of links glinks inputs transient_ flags.

Definition kout (K : list id) (n : id) : Prop := exists c, In c K /\ In n (links c).
Definition core (K : list id) (e : edge) : Prop :=
  normal e = true /\
  ((src e = root /\ (In (dst e) roots \/ In (dst e) K)) \/
   (due (src e) /\ ~ leftover (src e) /\ next (src e) (dst e)) \/
   (In (src e) K /\ In (dst e) (links (src e)))).

Record AI (b : bgraph) (K : list id) : Prop := {
  ai_W : W root b;
  ai_plist : plist (gr_ b) = [];
  ai_nodes : node_list (gr_ b) = root :: fin b;
  ai_in : forall n, In n (fin b) <-> due n \/ In n K \/ kout K n;
  ai_state : forall n, In n (fin b) -> state (gr_ b) n <> Processing;
  ai_core : forall e, core K e -> In e (edges (gr_ b));
  ai_edges : forall e, In e (edges (gr_ b)) ->
    core K e \/ (normal e = true /\ In (src e) (fin b) /\ In (dst e) (fin b) /\ In (src e) (inputs (dst e)));
  ai_trans : forall n, In n (fin b) -> trans (gr_ b) n = if is_generated (kind_of n) && transient_ n then TProcessing else TNone;
  ai_cnt : forall n, In n (fin b) -> counted b n = counts (kind_of n);
  ai_skip : forall n, In n (fin b) -> skip b n = negb (inb n roots || inb n K);
  ai_root : trans (gr_ b) root = TNone;
  ai_tdel : forall n, trans (gr_ b) n <> TDelete;
  ai_K : forall c, In c K -> waiting c /\ joins c /\ ~ due c
}.

Lemma ai_known b K : AI b K -> forall n, In n (known b) <-> n = root \/ In n (fin b).
Proof. intros A n. unfold known. rewrite (ai_plist _ _ A), (ai_nodes _ _ A). cbn [app In]. intuition auto. Qed.

Lemma waiting_U c : waiting c -> In c universe.
Proof. intros [H _]. apply (u_flags _ _ _ _ _ _ DB). apply in_or_app. auto. Qed.
Lemma out_U c f : waiting c -> In f (links c) -> f <> root.
Proof.
  intros Hc Hf ->. apply (u_root _ _ _ _ _ _ DB). apply (u_next _ _ _ _ _ _ DB c root (waiting_U c Hc)). left. exact Hf.
Qed.
Lemma ai_joins b K : AI b K -> forall n, In n (fin b) -> joins n.
Proof.
  intros A n H. apply (ai_in _ _ A) in H. destruct H as [H|[H|[c [H1 H2]]]].
  - apply join_due. exact H.
  - apply (ai_K _ _ A). exact H.
  - apply (join_out _ _ _ _ _ _ _ c); [apply (ai_K _ _ A); exact H1|apply (ai_K _ _ A); exact H1|exact H2].
Qed.
Lemma not_root b K : AI b K -> ~ In root (fin b).
Proof.
  intros A C. destruct (ai_W _ _ A) as [ND _]. unfold known in ND. rewrite (ai_plist _ _ A), (ai_nodes _ _ A) in ND. cbn [app] in ND.
  apply NoDup_cons_iff in ND. tauto.
Qed.
Lemma fin_nodup b K : AI b K -> NoDup (fin b).
Proof.
  intros A. destruct (ai_W _ _ A) as [ND _]. unfold known in ND. rewrite (ai_plist _ _ A), (ai_nodes _ _ A) in ND. cbn [app] in ND.
  apply NoDup_cons_iff in ND. tauto.
Qed.

(** The outputs that are in the graph already are those that were left. *)
Lemma known_out b K c f : AI b K -> waiting c -> ~ In c (fin b) -> In f (links c) -> (In f (fin b) <-> In f rows).
Proof.
  intros A Hc Nc Hf. rewrite (ai_in _ _ A). split.
  - intros [H|[H|[d [H1 H2]]]].
    + inversion H as [n H1 H2|n H1|a n H1 H2 H3]; subst; [|exact H1|].
      * exfalso. exact (pl_touch _ _ _ _ _ _ PL c f Hc Hf H1).
      * exfalso. pose proof (pl_own _ _ _ _ _ _ PL c f a Hc Hf H3) as ->. apply Nc, (ai_in _ _ A). auto.
    + exfalso. destruct (ai_K _ _ A f H) as [[_ [X _]] _]. rewrite (pl_kind _ _ _ _ _ _ PL c f Hc Hf) in X. discriminate.
    + exfalso. assert (d = c) as ->.
      { apply (pl_own _ _ _ _ _ _ PL c f d Hc Hf). left. exact H2. }
      apply Nc, (ai_in _ _ A). auto.
  - intros H. left. exact (due_row _ _ _ _ _ _ f H).
Qed.

Lemma edge_src b K e : AI b K -> In e (edges (gr_ b)) -> src e = root \/ In (src e) (fin b).
Proof.
  intros A He. destruct (ai_edges _ _ A e He) as [[_ [[H _]|[[H _]|[H _]]]]|[_ [H _]]]; auto; right; apply (ai_in _ _ A); auto.
Qed.
Lemma core_dst K e : core K e -> due (dst e) \/ In (dst e) K \/ kout K (dst e).
Proof.
  intros [_ [[_ [H|H]]|[[H1 [H2 H3]]|[H1 H2]]]]; auto.
  - apply in_app_or in H. destruct H as [H|H]; [|left; exact (due_row _ _ _ _ _ _ _ H)].
    apply (flagsNT_in kind_of links glinks inputs users transient_ root flags) in H.
    left. apply due_flag; tauto.
  - left. exact (due_next _ _ _ _ _ _ _ _ H1 H2 H3).
  - right. right. exists (src e). auto.
Qed.
Lemma edge_dst b K e : AI b K -> In e (edges (gr_ b)) -> In (dst e) (fin b).
Proof.
  intros A He. destruct (ai_edges _ _ A e He) as [H|[_ [_ [H _]]]]; [|exact H]. apply (ai_in _ _ A). exact (core_dst K e H).
Qed.

(** A waiting command that is not in the graph is created and linked to its
    outputs. *)
Lemma attach_start b K c : AI b K -> waiting c -> ~ In c (fin b) ->
  exists b1 new, each (fun b n => cb b c n) (create_node kind_of transient_ b c) (links c) = Done b1 /\
    linked (create_node kind_of transient_ b c) c (links c) b1 new /\
    (forall f, In f new <-> In f (links c) /\ ~ In f rows) /\
    plist (gr_ b1) = new /\ node_list (gr_ b1) = root :: fin b ++ [c] /\
    NoDup (known b1) /\
    NoDup (map dst (out_edges (gr_ b1) c)) /\ (forall f, In f (map dst (out_edges (gr_ b1) c)) <-> In f (links c)).
Proof.
  intros A Hc Nc. set (b0 := create_node kind_of transient_ b c).
  assert (c <> root) as Cr by (intros ->; destruct Hc as [_ [Hk _]]; congruence).
  assert (~ In c (known b)) as Nk by (rewrite (ai_known _ _ A); tauto).
  assert (forall n, In n (known b0) <-> n = c \/ In n (known b)) as K0.
  { intros n. unfold known, b0. cbn. rewrite !in_app_iff. cbn. intuition auto. }
  assert (WX root (fun n => n = root \/ n = c) b0) as W0.
  { destruct (ai_W _ _ A) as [ND [Hr Hx]]. split; [|split].
    - unfold known, b0. cbn. rewrite app_assoc. apply (Permutation_NoDup (Permutation_cons_append _ c)). constructor; assumption.
    - apply K0. auto.
    - intros n Hn Xn. unfold b0. cbn. unfold upd. destruct (Nat.eqb_spec n c); [tauto|]. apply Hx; [|tauto]. apply K0 in Hn. tauto. }
  assert (forall f, In f (links c) -> f <> c) as Fc.
  { intros f Hf ->. pose proof (pl_kind _ _ _ _ _ _ PL c c Hc Hf). destruct Hc as [_ [Hk _]]. congruence. }
  assert (forall f, In f (links c) -> (In f (known b0) <-> In f rows)) as Kf.
  { intros f Hf. rewrite K0, (ai_known _ _ A), <- (known_out b K c f A Hc Nc Hf).
    pose proof (Fc f Hf). pose proof (out_U c f Hc Hf). tauto. }
  destruct (e_cbX _ (links c) b0 c W0) as [[b1 [new [Ed [L _]]]]|[_ [n [H1 [H2 H3]]]]].
  - intros f Hf [-> | ->]; [exact (out_U c root Hc Hf eq_refl)|exact (Fc c Hf eq_refl)].
  - exists b1, new. split; [exact Ed|]. split; [exact L|].
    assert (forall f, In f new <-> In f (links c) /\ ~ In f rows) as NW.
    { intros f. split.
      - intros H. destruct (l_new_in _ _ _ _ _ _ _ _ _ L f H) as [H1 H2]. split; [exact H1|]. rewrite <- (Kf f H1). exact H2.
      - intros [H1 H2]. pose proof (l_all _ _ _ _ _ _ _ _ _ L f H1) as H. apply (lk_known _ _ _ _ _ L) in H.
        destruct H as [H|H]; [exact H|]. apply (Kf f H1) in H. contradiction. }
    split; [exact NW|]. split; [|split; [|split]].
    + rewrite (l_plist _ _ _ _ _ _ _ _ _ L). unfold b0. cbn. rewrite (ai_plist _ _ A). apply app_nil_r.
    + rewrite (l_nodes _ _ _ _ _ _ _ _ _ L). unfold b0. cbn. rewrite (ai_nodes _ _ A). reflexivity.
    + exact (proj1 (lk_WX _ _ _ _ _ _ L W0)).
    + assert (map dst (out_edges (gr_ b1) c) = rev (links c)) as ->.
      { unfold out_edges. rewrite (l_edges _ _ _ _ _ _ _ _ _ L), filter_app.
        assert (filter (fun e => src e =? c) (edges (gr_ b0)) = []) as ->.
        { apply filter_none. intros e He. apply Nat.eqb_neq. intros C. destruct (edge_src b K e A He) as [X|X]; congruence. }
        rewrite app_nil_r. rewrite <- (map_rev _ (links c)).
        generalize (rev (links c)). intros l. induction l as [|x l IH]; [reflexivity|]. cbn. rewrite Nat.eqb_refl. cbn. rewrite IH. reflexivity. }
      split; [apply NoDup_rev; exact (pl_links _ _ _ _ _ _ PL c Hc)|]. intros f. rewrite <- in_rev. reflexivity.
  - exfalso. apply K0 in H2. destruct H2 as [->|H2]; [exact (Fc c H1 eq_refl)|]. apply (ai_known _ _ A) in H2.
    destruct H2 as [->|H2]; [exact (out_U c root Hc H1 eq_refl)|].
    revert H3. unfold b0. cbn. unfold upd. destruct (Nat.eqb_spec n c); [discriminate|]. exact (ai_state _ _ A n H2).
Qed.

(** One command of the list. *)
Lemma attach_one_spec b K c : AI b K -> waiting c ->
  match attach_one kind_of links users transient_ root count_flags rows b c with
  | Done (b', kept) =>
      (kept = true /\ AI b' (c :: K)) \/
      (kept = false /\ AI b' K /\ (In c (fin b) \/ forall f u, In f (links c) -> ~ In f rows -> In f (inputs u) -> ~ In u (fin b)))
  | Internal => torn c
  | Circular | Timeout => False
  end.
Proof.
  intros A Hc. unfold attach_one. destruct (found b c) eqn:Fo.
  { right. split; [reflexivity|]. split; [exact A|]. left. apply fd_known, (ai_known _ _ A) in Fo. destruct Fo as [->|Fo]; [|exact Fo].
    exfalso. destruct Hc as [_ [Hk _]]. congruence. }
  assert (~ In c (known b)) as Nk by (intros C; apply fd_known in C; congruence).
  assert (~ In c (fin b)) as Nc by (intros C; apply Nk, (ai_known _ _ A); auto).
  assert (c <> root) as Cr by (intros ->; destruct Hc as [_ [Hk _]]; congruence).
  destruct (attach_start b K c A Hc Nc) as [b1 [new [E1 [L [NW [Pl [Nl [ND [NDo Os]]]]]]]]]. rewrite E1. cbn [then_].
  set (os := map dst (out_edges (gr_ b1) c)) in *. set (b0 := create_node kind_of transient_ b c) in *.
  assert (forall n, In n new -> ~ In n (fin b)) as Nn.
  { intros n Hn C. apply NW in Hn. destruct Hn as [H1 H2]. apply (known_out b K c n A Hc Nc H1) in C. contradiction. }
  assert (~ In c new) as Cn.
  { intros C. apply NW in C. destruct C as [C _]. pose proof (pl_kind _ _ _ _ _ _ PL c c Hc C). destruct Hc as [_ [Hk _]]. congruence. }
  assert (~ In root new) as Rn by (intros C; apply NW in C; exact (out_U c root Hc (proj1 C) eq_refl)).
  assert (forall n, In n (fin b) -> n <> c) as Dc by (intros n Hn ->; contradiction).
  assert (forall n, In n (fin b) -> n <> root) as Dr by (intros n Hn ->; exact (not_root b K A Hn)).
  (* the fields of b1 *)
  assert (forall n, ~ In n new -> n <> c -> state (gr_ b1) n = state (gr_ b) n /\ expanded (gr_ b1) n = expanded (gr_ b) n /\
            trans (gr_ b1) n = trans (gr_ b) n /\ counted b1 n = counted b n /\ skip b1 n = skip b n) as Old.
  { intros n Hn Hd. rewrite (l_state_old _ _ _ _ _ _ _ _ _ L n Hn), (l_exp_old _ _ _ _ _ _ _ _ _ L n Hn), (l_tr_old _ _ _ _ _ _ _ _ _ L n Hn),
      (l_cnt_old _ _ _ _ _ _ _ _ _ L n Hn), (l_skip_old _ _ _ _ _ _ _ _ _ L n Hn (or_introl Cr)).
    unfold b0. cbn. unfold upd. rewrite (proj2 (Nat.eqb_neq n c) Hd). auto. }
  assert (state (gr_ b1) c = Initialized /\ expanded (gr_ b1) c = false /\ trans (gr_ b1) c = TNone /\ counted b1 c = false) as Oc.
  { rewrite (l_state_old _ _ _ _ _ _ _ _ _ L c Cn), (l_exp_old _ _ _ _ _ _ _ _ _ L c Cn), (l_tr_old _ _ _ _ _ _ _ _ _ L c Cn), (l_cnt_old _ _ _ _ _ _ _ _ _ L c Cn).
    unfold b0. cbn. unfold upd. rewrite Nat.eqb_refl. destruct Hc as [_ [-> _]]. auto. }
  assert (forall e, In e (edges (gr_ b1)) <-> (normal e = true /\ src e = c /\ In (dst e) (links c)) \/ In e (edges (gr_ b))) as Eb.
  { intros e. rewrite (l_edges _ _ _ _ _ _ _ _ _ L), in_app_iff, <- in_rev, in_map_iff. unfold b0. cbn [create_node gr_ edges]. split.
    - intros [[n [<- Hn]]|H]; [|auto]. cbn. auto.
    - intros [[H1 [H2 H3]]|H]; [|auto]. left. exists (dst e). split; [destruct e; cbn in *; subst; reflexivity|exact H3]. }
  assert (forall n, In n (known b1) <-> n = root \/ n = c \/ In n (fin b) \/ In n new) as Kn.
  { intros n. unfold known. rewrite Pl, Nl. rewrite in_app_iff. cbn [In]. rewrite in_app_iff. cbn [In]. intuition auto. }
  assert (forall f u, In u (users f) -> In f (links c) -> found b1 u = true -> In u (fin b)) as Fu.
  { intros f u Hu Hf Hk. apply fd_known, Kn in Hk. apply US in Hu. pose proof (UC f u Hu) as Ku.
    destruct Hk as [->|[->|[Hk|Hk]]]; [congruence| |exact Hk|].
    - exfalso. exact (pl_self _ _ _ _ _ _ PL c f Hc Hf Hu).
    - apply NW in Hk. pose proof (pl_kind _ _ _ _ _ _ PL c u Hc (proj1 Hk)). congruence. }
  destruct (outputs_spec b1 os) with (es := edges (gr_ b1)) as [es [kept [E2 [I1 [I2 [I3 I4]]]]]].
  { intros C. apply Os in C. exact (out_U c root Hc C eq_refl). }
  { exact NDo. }
  { intros f u Hf Hu Hk. apply Os in Hf. pose proof (Fu f u Hu Hf Hk) as Hu2.
    destruct (Old u) as [-> [-> _]]; [exact (fun C => Nn u C Hu2)|exact (Dc u Hu2)|].
    split; [|exact (ai_state _ _ A u Hu2)]. destruct (ai_W _ _ A) as [_ [_ Hx]]. apply Hx; [apply (ai_known _ _ A); auto|exact (Dr u Hu2)]. }
  { intros e He Hs. apply Os in Hs. apply Eb in He. destruct He as [[_ [H _]]|He].
    - exfalso. rewrite H in Hs. pose proof (pl_kind _ _ _ _ _ _ PL c c Hc Hs). destruct Hc as [_ [Hk _]]. congruence.
    - destruct (edge_src b K e A He) as [X|X]; [exfalso; exact (out_U c _ Hc Hs X)|].
      exact (proj1 (known_out b K c _ A Hc Nc Hs) X). }
  rewrite E_id in E2. rewrite E2. cbn [then_ fst snd].
  assert (forall e, In e es -> In e (edges (gr_ b)) \/ (normal e = true /\ src e = c /\ In (dst e) (links c)) \/
     (normal e = true /\ In (src e) (links c) /\ In (dst e) (fin b) /\ In (src e) (inputs (dst e)) /\ (kept = false -> In (src e) rows))) as Ees.
  { intros e He. destruct (I2 e He) as [X|[H1 [H2 [H3 [H4 H5]]]]]; [apply Eb in X; tauto|]. apply Os in H2. right. right.
    split; [exact H1|]. split; [exact H2|]. split; [exact (Fu _ _ H3 H2 H4)|]. split; [apply US; exact H3|exact H5]. }
  assert (forall e, In e (edges (gr_ b)) -> In e es) as Ees2 by (intros e He; apply I1, Eb; auto).
  assert (forall e, normal e = true -> src e = c -> In (dst e) (links c) -> In e es) as Ees3 by (intros e H1 H2 H3; apply I1, Eb; auto).
  destruct kept; cbn [negb].
  - (* kept *)
    destruct (I3 eq_refl) as [f0 [u0 [F1 [F2 [F3 F4]]]]]. apply Os in F1. pose proof (Fu f0 u0 F3 F1 F4) as F5.
    assert (~ due c) as Ndc by (intros C; apply Nc, (ai_in _ _ A); auto).
    assert (joins c) as Jc.
    { apply (join_cmd _ _ _ _ _ _ _ c f0 u0 Hc F1 F2); [exact (ai_joins b K A u0 F5)|apply US; exact F3]. }
    assert (~ (forall f, In f os -> In f new) -> each settle (E b1 es) os = Internal /\ torn c) as Bad.
    { intros H. assert (exists f, In f os /\ ~ In f new) as [f [H1 H2]].
      { destruct (existsb (fun f => negb (inb f new)) os) eqn:X.
        - apply existsb_exists in X. destruct X as [f [X1 X2]]. exists f. apply negb_true_iff, inb_nIn in X2. auto.
        - exfalso. apply H. intros f Hf. destruct (in_dec Nat.eq_dec f new) as [I|I]; [exact I|]. exfalso.
          assert (existsb (fun f => negb (inb f new)) os = true); [|congruence]. apply existsb_exists. exists f. split; [exact Hf|].
          apply negb_true_iff, inb_nIn. exact I. }
      split.
      - apply settle_fails; [exact ND|exact NDo|]. exists f. split; [exact H1|]. cbn. rewrite Pl. exact H2.
      - apply Os in H1. split; [exact Hc|]. split; [exact Ndc|]. split.
        + exists f0, u0. split; [exact F1|]. split; [exact F2|]. split; [exact (ai_joins b K A u0 F5)|apply US; exact F3].
        + exists f. split; [exact H1|]. assert (In f rows) as Hr.
          { destruct (in_dec Nat.eq_dec f rows) as [I|I]; [exact I|]. exfalso. apply H2, NW. auto. }
          split; [exact Hr|]. split; [rewrite (pl_kind _ _ _ _ _ _ PL c f Hc H1); discriminate|exact (pl_touch _ _ _ _ _ _ PL c f Hc H1)]. }
    destruct (forallb (fun f => inb f new) os) eqn:All.
    2:{ destruct Bad as [-> T]; [|exact T]. intros C. assert (forallb (fun f => inb f new) os = true); [|congruence].
        apply forallb_forall. intros f Hf. apply inb_In, C, Hf. }
    clear Bad. assert (forall f, In f os -> In f new) as On by (intros f Hf; rewrite forallb_forall in All; apply inb_In, All, Hf).
    assert (forall f, In f (links c) -> In f new) as Ln by (intros f Hf; apply On, Os, Hf).
    destruct (settle_all os (E b1 es)) as [b3 [E3 [P3 [N3 [K3 [D3 [S3 [T3 [X3 [Sk3 C3]]]]]]]]]]; [exact ND|exact NDo|cbn; rewrite Pl; exact On|].
    rewrite E3. cbn [then_]. cbn in P3, N3, D3, S3, T3, X3, Sk3, C3. rewrite Pl in P3. rewrite Nl in N3.
    assert (plist (gr_ b3) = []) as P3'.
    { destruct (plist (gr_ b3)) as [|x l] eqn:Q; [reflexivity|]. exfalso. destruct (proj1 (P3 x) (or_introl eq_refl)) as [H1 H2].
      apply H2, Os. apply NW in H1. tauto. }
    assert (~ In c os) as Co by (intros C; apply Cn, On, C).
    assert (~ In root os) as Ro by (intros C; apply Rn, On, C).
    destruct Oc as [Oc1 [Oc2 [Oc3 Oc4]]].
    assert (state (gr_ b3) c = Initialized) as Sc by (rewrite S3, (proj2 (inb_nIn c os) Co); exact Oc1).
    assert (NoDup (root :: fin b ++ os)) as NDf.
    { constructor.
      - rewrite in_app_iff. intros [C|C]; [exact (not_root b K A C)|contradiction].
      - apply NoDup_app_intro; [exact (fin_nodup b K A)|exact NDo|]. intros x H1 H2. exact (Nn x (On x H2) H1). }
    set (cn := counts (kind_of c)).
    set (b4 := {| gr_ := {| plist := [c]; node_list := root :: fin b ++ os; edges := {| src := root; dst := c; normal := true |} :: es;
                    state := state (gr_ b3); trans := trans (gr_ b3); expanded := upd (expanded (gr_ b3)) c true |};
                  skip := upd (skip b3) c false; counted := if cn then upd (counted b3) c true else counted b3;
                  num_nodes := if cn then S (num_nodes b3) else num_nodes b3 |}).
    assert (mk b3 root c = Done b4) as E4.
    { unfold make_edge. rewrite Sc. cbn [is_processing]. rewrite X3, Oc2. unfold expand_node, off_nodes. cbn [set_expanded node_list plist].
      assert (inb c (node_list (gr_ b3)) = true) as -> by (apply inb_In; rewrite N3; right; apply in_or_app; left; apply in_or_app; right; left; reflexivity).
      cbn [obind]. unfold to_plist_head. cbn [plist node_list edges state trans expanded].
      assert (rm c (node_list (gr_ b3)) = root :: fin b ++ os) as ->.
      { rewrite N3. cbn [app rm]. rewrite (proj2 (Nat.eqb_neq root c)) by congruence. f_equal.
        rewrite <- app_assoc. cbn [app].
        assert (forall l1 l2, ~ In c l1 -> ~ In c l2 -> rm c (l1 ++ c :: l2) = l1 ++ l2) as RM.
        { induction l1 as [|x l1 IH]; intros l2 H1 H2; cbn [app rm].
          - rewrite Nat.eqb_refl. apply rm_nIn. exact H2.
          - destruct (Nat.eqb_spec x c) as [->|Dx]; [exfalso; apply H1; left; reflexivity|]. f_equal. apply IH; [|exact H2].
            intros C. apply H1. right. exact C. }
        apply RM; assumption. }
      rewrite P3'. change (inb c []) with false. cbn [orb].
      assert (inb c (root :: fin b ++ os) = false) as ->.
      { apply inb_nIn. intros [C|C]; [congruence|]. apply in_app_or in C. tauto. }
      cbn [of_option then_ gr_ skip counted num_nodes]. rewrite Nat.eqb_refl. unfold b4, create_edge, set_edges. cbn [plist node_list edges state trans expanded].
      cbn. rewrite D3, X3. reflexivity. }
    rewrite E4. cbn [then_].
    assert (~ In c (root :: fin b ++ os)) as Cf by (intros [C|C]; [congruence|]; apply in_app_or in C; tauto).
    rewrite (settle_list_new b4 c [] eq_refl (fun x => x) Cf). cbn [then_]. left. split; [reflexivity|].
    set (b5 := with_gr b4 _).
    assert (fin b5 = (fin b ++ os) ++ [c]) as F5b by reflexivity.
    assert (forall n, In n (fin b5) <-> In n (fin b) \/ In n os \/ n = c) as Fi.
    { intros n. rewrite F5b, !in_app_iff. cbn [In]. intuition auto. }
    assert (forall n, In n os -> state (gr_ b5) n = Finished) as St1.
    { intros n Hn. unfold b5, b4. cbn. rewrite S3, (proj2 (inb_In n os) Hn). reflexivity. }
    assert (forall n, In n (fin b) -> ~ In n os) as Fo2 by (intros n H1 H2; exact (Nn n (On n H2) H1)).
    split.
    + unfold W, WX. assert (known b5 = root :: (fin b ++ os) ++ [c]) as Kb by reflexivity. rewrite Kb. split; [|split; [left; reflexivity|]].
      * change (NoDup ((root :: fin b ++ os) ++ [c])). apply (Permutation_NoDup (Permutation_cons_append _ c)). constructor; assumption.
      * intros n [<-|Hn] Xn; [contradiction|]. unfold b5, b4. cbn. unfold upd. destruct (Nat.eqb_spec n c) as [->|D]; [reflexivity|].
        rewrite X3. rewrite !in_app_iff in Hn. cbn [In] in Hn. destruct Hn as [[Hn|Hn]|[Hn|[]]]; [| |congruence].
        -- destruct (Old n) as [_ [-> _]]; [exact (fun C => Nn n C Hn)|exact D|]. destruct (ai_W _ _ A) as [_ [_ Hx]].
           apply Hx; [apply (ai_known _ _ A); auto|exact Xn].
        -- apply (l_exp_new _ _ _ _ _ _ _ _ _ L). exact (On n Hn).
    + reflexivity.
    + reflexivity.
    + intros n. rewrite Fi, (ai_in _ _ A n). cbn [In]. split.
      * intros [[H|[H|[d [H1 H2]]]]|[H|H]]; [auto|auto| | |auto].
        -- right. right. exists d. split; [right; exact H1|exact H2].
        -- right. right. exists c. split; [left; reflexivity|apply Os; exact H].
      * intros [H|[[H|H]|[d [[<-|H1] H2]]]]; [auto|auto|auto| |].
        -- right. left. apply Os. exact H2.
        -- left. right. right. exists d. auto.
    + intros n Hn. apply Fi in Hn. destruct Hn as [Hn|[Hn| ->]].
      * unfold b5, b4. cbn. rewrite S3, (proj2 (inb_nIn n os) (Fo2 n Hn)).
        destruct (Old n) as [-> _]; [exact (fun C => Nn n C Hn)|exact (Dc n Hn)|exact (ai_state _ _ A n Hn)].
      * rewrite (St1 n Hn). discriminate.
      * unfold b5, b4. cbn. rewrite Sc. discriminate.
    + intros e [Ne Hcore]. unfold b5, b4. cbn [with_gr gr_ edges].
      destruct Hcore as [[H1 [H2|[H2|H2]]]|[H|[[H1|H1] H2]]].
      * right. apply Ees2, (ai_core _ _ A). split; [exact Ne|]. auto.
      * left. destruct e; cbn in *; subst. reflexivity.
      * right. apply Ees2, (ai_core _ _ A). split; [exact Ne|]. auto.
      * right. apply Ees2, (ai_core _ _ A). split; [exact Ne|]. auto.
      * right. apply Ees3; [exact Ne|symmetry; exact H1|rewrite H1; exact H2].
      * right. apply Ees2, (ai_core _ _ A). split; [exact Ne|]. auto.
    + intros e [<-|He].
      * left. split; [reflexivity|]. cbn. auto.
      * destruct (Ees e He) as [X|[[H1 [H2 H3]]|[H1 [H2 [H3 [H4 _]]]]]].
        -- destruct (ai_edges _ _ A e X) as [[Y1 [[Y2 [Y3|Y3]]|[Y2|[Y2 Y3]]]]|[Y1 [Y2 [Y3 Y4]]]].
           ++ left. split; [exact Y1|]. auto.
           ++ left. split; [exact Y1|]. left. split; [exact Y2|]. right. right. exact Y3.
           ++ left. split; [exact Y1|]. auto.
           ++ left. split; [exact Y1|]. right. right. split; [right; exact Y2|exact Y3].
           ++ right. split; [exact Y1|]. rewrite !Fi. auto.
        -- left. split; [exact H1|]. right. right. rewrite H2. split; [left; reflexivity|exact H3].
        -- right. split; [exact H1|]. rewrite !Fi. split; [right; left; apply Os; exact H2|]. auto.
    + intros n Hn. apply Fi in Hn. unfold b5, b4. cbn. rewrite T3. destruct Hn as [Hn|[Hn| ->]].
      * destruct (Old n) as [_ [_ [-> _]]]; [exact (fun C => Nn n C Hn)|exact (Dc n Hn)|exact (ai_trans _ _ A n Hn)].
      * exact (l_tr_new _ _ _ _ _ _ _ _ _ L n (On n Hn)).
      * rewrite Oc3. destruct Hc as [_ [-> _]]. reflexivity.
    + intros n Hn. apply Fi in Hn. unfold b5, b4. cbn.
      assert (n <> c -> (if cn then upd (counted b3) c true else counted b3) n = counted b1 n) as Cq.
      { intros D. rewrite C3. destruct cn; [|reflexivity]. unfold upd. rewrite (proj2 (Nat.eqb_neq n c) D). reflexivity. }
      destruct Hn as [Hn|[Hn| ->]].
      * rewrite (Cq (Dc n Hn)). destruct (Old n) as [_ [_ [_ [-> _]]]]; [exact (fun C => Nn n C Hn)|exact (Dc n Hn)|exact (ai_cnt _ _ A n Hn)].
      * rewrite Cq by (intros ->; contradiction). exact (l_cnt_new _ _ _ _ _ _ _ _ _ L n (On n Hn)).
      * rewrite C3. fold cn. destruct cn; [unfold upd; rewrite Nat.eqb_refl; reflexivity|exact Oc4].
    + intros n Hn. apply Fi in Hn. change (skip b5 n) with (upd (skip b3) c false n). rewrite Sk3. unfold upd. change (inb n (c :: K)) with ((n =? c) || inb n K).
      destruct (Nat.eqb_spec n c) as [->|D]; [rewrite orb_true_r; reflexivity|]. cbn [orb].
      destruct Hn as [Hn|[Hn|Hn]]; [| |contradiction].
      * destruct (Old n) as [_ [_ [_ [_ ->]]]]; [exact (fun C => Nn n C Hn)|exact D|exact (ai_skip _ _ A n Hn)].
      * rewrite (l_skip_new _ _ _ _ _ _ _ _ _ L Cr n (On n Hn)).
        assert (inb n roots = false) as ->.
        { apply inb_nIn. intros C. pose proof (On n Hn) as Q. apply NW in Q. destruct Q as [Q1 Q2]. apply in_app_or in C. destruct C as [C|C]; [|contradiction].
          apply (flagsNT_in kind_of links glinks inputs users transient_ root flags) in C. exact (pl_touch _ _ _ _ _ _ PL c n Hc Q1 (proj1 C)). }
        assert (inb n K = false) as ->; [|reflexivity]. apply inb_nIn. intros C. exact (Nn n (On n Hn) (proj2 (ai_in _ _ A n) (or_intror (or_introl C)))).
    + unfold b5, b4. cbn. rewrite T3. destruct (Old root Rn (not_eq_sym Cr)) as [_ [_ [-> _]]]. exact (ai_root _ _ A).
    + intros n. unfold b5, b4. cbn. rewrite T3. destruct (in_dec Nat.eq_dec n new) as [I|I].
      * rewrite (l_tr_new _ _ _ _ _ _ _ _ _ L n I). destruct (_ && _); discriminate.
      * destruct (Nat.eq_dec n c) as [->|D]; [rewrite Oc3; discriminate|]. destruct (Old n I D) as [_ [_ [-> _]]]. exact (ai_tdel _ _ A n).
    + intros d [<-|Hd]; [auto|exact (ai_K _ _ A d Hd)].
  - (* not kept *)
    right. split; [reflexivity|].
    set (gone := filter (fun f => negb (inb f rows)) os).
    assert (forall f, In f gone <-> In f new) as Gn.
    { intros f. unfold gone. rewrite filter_In, Os, NW, negb_true_iff, inb_nIn. reflexivity. }
    pose proof (drops_spec gone (E b1 es)) as DS. cbv zeta in DS. set (b2 := fold_left drop gone (E b1 es)) in *.
    destruct DS as [DP [DN [DE [DS [DT [DX [DK DC]]]]]]]. cbn in DP, DN, DE, DS, DT, DX, DK, DC. rewrite Pl in DP. rewrite Nl in DN.
    assert (plist (gr_ b2) = []) as P2.
    { destruct (plist (gr_ b2)) as [|x l]; [reflexivity|]. exfalso. destruct (proj1 (DP x) (or_introl eq_refl)) as [H1 H2]. apply H2, Gn, H1. }
    assert (node_list (gr_ b2) = root :: fin b ++ [c]) as N2.
    { apply DN. intros n Hn [C|C]; [apply Rn; rewrite C; apply Gn; exact Hn|]. apply Gn in Hn. apply in_app_or in C.
      destruct C as [C|[C|[]]]; [exact (Nn n Hn C)|]. subst. contradiction. }
    set (b' := drop b2 c).
    assert (fin b' = fin b) as Fb.
    { unfold fin at 1, b'. cbn [drop with_gr gr_ drop_node node_list]. rewrite N2. cbn [rm]. rewrite (proj2 (Nat.eqb_neq root c)) by congruence.
      cbn [tl]. apply rm_fresh_tail. exact Nc. }
    assert (node_list (gr_ b') = root :: fin b') as Nb.
    { rewrite Fb. unfold b'. cbn [drop with_gr gr_ drop_node node_list]. rewrite N2. cbn [rm]. rewrite (proj2 (Nat.eqb_neq root c)) by congruence.
      f_equal. apply rm_fresh_tail. exact Nc. }
    assert (plist (gr_ b') = []) as Pb by (unfold b'; cbn [drop with_gr gr_ drop_node plist]; rewrite P2; reflexivity).
    assert (forall e, In e (edges (gr_ b')) <-> In e es /\ ~ In (src e) new /\ ~ In (dst e) new /\ src e <> c /\ dst e <> c) as Ebb.
    { intros e. unfold b'. cbn [drop with_gr gr_ drop_node edges]. rewrite filter_In, andb_true_iff, !negb_true_iff, !Nat.eqb_neq, DE, !Gn. tauto. }
    assert (forall n, In n (fin b) -> state (gr_ b') n = state (gr_ b) n /\ expanded (gr_ b') n = expanded (gr_ b) n /\
            trans (gr_ b') n = trans (gr_ b) n /\ counted b' n = counted b n /\ skip b' n = skip b n) as Old'.
    { intros n Hn. unfold b'. cbn. rewrite DS, DX, DT, DK, DC. apply Old; [exact (fun C => Nn n C Hn)|exact (Dc n Hn)]. }
    split.
    + split; rewrite ?Fb.
      * unfold W, WX, known. rewrite Pb, Nb, Fb. cbn [app]. split; [|split; [left; reflexivity|]].
        -- constructor; [exact (not_root b K A)|exact (fin_nodup b K A)].
        -- intros n [<-|Hn] Xn; [contradiction|]. destruct (Old' n Hn) as [_ [-> _]]. destruct (ai_W _ _ A) as [_ [_ Hx]].
           apply Hx; [apply (ai_known _ _ A); auto|exact Xn].
      * exact Pb.
      * rewrite <- Fb. exact Nb.
      * exact (ai_in _ _ A).
      * intros n Hn. destruct (Old' n Hn) as [-> _]. exact (ai_state _ _ A n Hn).
      * intros e He. apply Ebb. pose proof (ai_core _ _ A e He) as X. split; [exact (Ees2 e X)|].
        pose proof (edge_dst b K e A X) as X2. destruct (edge_src b K e A X) as [X1|X1].
        -- rewrite X1. split; [exact Rn|]. split; [exact (fun C => Nn _ C X2)|]. split; [congruence|exact (Dc _ X2)].
        -- split; [exact (fun C => Nn _ C X1)|]. split; [exact (fun C => Nn _ C X2)|]. split; [exact (Dc _ X1)|exact (Dc _ X2)].
      * intros e He. apply Ebb in He. destruct He as [He [H1 [H2 [H3 H4]]]].
        destruct (Ees e He) as [X|[[_ [Y _]]|[Y1 [Y2 [Y3 [Y4 Y5]]]]]]; [exact (ai_edges _ _ A e X)|contradiction|].
        right. split; [exact Y1|]. split; [|split; [exact Y3|exact Y4]]. apply (known_out b K c _ A Hc Nc Y2). exact (Y5 eq_refl).
      * intros n Hn. destruct (Old' n Hn) as [_ [_ [-> _]]]. exact (ai_trans _ _ A n Hn).
      * intros n Hn. destruct (Old' n Hn) as [_ [_ [_ [-> _]]]]. exact (ai_cnt _ _ A n Hn).
      * intros n Hn. destruct (Old' n Hn) as [_ [_ [_ [_ ->]]]]. exact (ai_skip _ _ A n Hn).
      * unfold b'. cbn. rewrite DT. destruct (Old root Rn (not_eq_sym Cr)) as [_ [_ [-> _]]]. exact (ai_root _ _ A).
      * intros n. unfold b'. cbn. rewrite DT. destruct (in_dec Nat.eq_dec n new) as [I|I].
        -- rewrite (l_tr_new _ _ _ _ _ _ _ _ _ L n I). destruct (_ && _); discriminate.
        -- destruct (Nat.eq_dec n c) as [->|D]; [destruct Oc as [_ [_ [-> _]]]; discriminate|]. destruct (Old n I D) as [_ [_ [-> _]]]. exact (ai_tdel _ _ A n).
      * exact (ai_K _ _ A).
    + right. intros f u Hf Hr Hu C. assert (found b1 u = false) as X.
      { apply (I4 eq_refl f u); [apply Os; exact Hf|exact Hr|apply US; exact Hu]. }
      assert (found b1 u = true) as Y; [|congruence]. apply fd_known, Kn. auto.
Qed.

Notation aone := (attach_one kind_of links users transient_ root count_flags rows).
Notation apass := (attach_pass kind_of links users transient_ root count_flags rows).
Notation aall := (attach_all kind_of links users transient_ root count_flags rows).

(** Nothing in the graph [l] needs a missing output of [c]. *)
Definition idle (l : list id) (c : id) : Prop :=
  In c l \/ forall f u, In f (links c) -> ~ In f rows -> In f (inputs u) -> ~ In u l.

Lemma ai_same b b' K : AI b K -> AI b' K -> forall n, In n (fin b) <-> In n (fin b').
Proof. intros A A' n. rewrite (ai_in _ _ A n), (ai_in _ _ A' n). reflexivity. Qed.
Lemma idle_same l l' c : (forall n, In n l <-> In n l') -> idle l c -> idle l' c.
Proof.
  intros S [H|H]; [left; apply S; exact H|right]. intros f u H1 H2 H3 C. exact (H f u H1 H2 H3 (proj2 (S u) C)).
Qed.

Lemma pass_spec tr : forall b K, AI b K -> (forall c, In c tr -> waiting c) ->
  match apass b tr with
  | Done (b', rest, any) =>
      exists K', AI b' K' /\ incl K K' /\ (forall c, In c tr -> In c rest \/ In c K') /\ incl rest tr /\
        length rest + (if any then 1 else 0) <= length tr /\
        (any = false -> K' = K /\ (forall c, In c tr -> idle (fin b') c) /\ rest = tr)
  | Internal => exists c, torn c
  | Circular | Timeout => False
  end.
Proof.
  induction tr as [|c tr IH]; intros b K A Hw.
  - cbn. exists K. split; [exact A|]. split; [apply incl_refl|]. split; [intros c []|]. split; [apply incl_refl|]. split; [lia|].
    intros _. split; [reflexivity|]. split; [intros c []|reflexivity].
  - cbn [attach_pass]. pose proof (attach_one_spec b K c A (Hw c (or_introl eq_refl))) as Q.
    destruct (aone b c) as [[b1 k1]| | |]; cbn [then_ fst snd]; try exact Q; [|exists c; exact Q].
    assert (forall d, In d tr -> waiting d) as Hw' by (intros d Hd; apply Hw; right; exact Hd).
    destruct Q as [[-> A1]|[-> [A1 Hi]]].
    + pose proof (IH b1 (c :: K) A1 Hw') as R. destruct (apass b1 tr) as [[[b' rest] any]| | |]; cbn [then_ fst snd]; try exact R.
      destruct R as [K' [R1 [R2 [R3 [R4 [R5 R6]]]]]]. exists K'. split; [exact R1|]. split; [intros x Hx; apply R2; right; exact Hx|].
      split; [intros d [<-|Hd]; [right; apply R2; left; reflexivity|exact (R3 d Hd)]|]. split; [intros x Hx; right; exact (R4 x Hx)|].
      cbn [orb length]. split; [destruct any; lia|]. discriminate.
    + pose proof (IH b1 K A1 Hw') as R. destruct (apass b1 tr) as [[[b' rest] any]| | |]; cbn [then_ fst snd]; try exact R.
      destruct R as [K' [R1 [R2 [R3 [R4 [R5 R6]]]]]]. exists K'. split; [exact R1|]. split; [exact R2|].
      split; [intros d [<-|Hd]; [left; left; reflexivity|destruct (R3 d Hd); [left; right; assumption|auto]]|].
      split; [intros x [<-|Hx]; [left; reflexivity|right; exact (R4 x Hx)]|]. cbn [orb length]. split; [destruct any; lia|].
      intros Ha. destruct (R6 Ha) as [-> [R7 ->]]. split; [reflexivity|]. split; [|reflexivity].
      intros d [<-|Hd]; [|exact (R7 d Hd)]. apply (idle_same (fin b)); [exact (ai_same b b' K A R1)|exact Hi].
Qed.

Lemma all_spec fuel : forall b K tr, AI b K -> (forall c, In c tr -> waiting c) -> (forall c, waiting c -> In c tr \/ In c K) ->
  length tr < fuel ->
  match aall fuel b tr with
  | Done b' => exists K', AI b' K' /\ (forall c, waiting c -> idle (fin b') c)
  | Internal => exists c, torn c
  | Circular | Timeout => False
  end.
Proof.
  induction fuel as [|fuel IH]; intros b K tr A Hw Hall Hf; [lia|]. cbn [attach_all].
  pose proof (pass_spec tr b K A Hw) as Q. destruct (apass b tr) as [[[b' rest] any]| | |]; cbn [then_ fst snd]; try exact Q.
  destruct Q as [K' [R1 [R2 [R3 [R4 [R5 R6]]]]]]. destruct any.
  - apply (IH b' K' rest R1).
    + intros c Hc. exact (Hw c (R4 c Hc)).
    + intros c Hc. destruct (Hall c Hc) as [H|H]; [exact (R3 c H)|right; exact (R2 c H)].
    + lia.
  - destruct (R6 eq_refl) as [-> [R7 _]]. exists K. split; [exact R1|]. intros c Hc. destruct (Hall c Hc) as [H|H]; [exact (R7 c H)|].
    left. apply (ai_in _ _ R1). auto.
Qed.

Lemma done_joins b K : AI b K -> (forall c, waiting c -> idle (fin b) c) -> forall n, In n (fin b) <-> joins n.
Proof.
  intros A Hi n. split; [exact (ai_joins b K A n)|]. induction 1 as [n H|c f u Hc H1 H2 Hj IH H3|c f Hc Hj IH H].
  - apply (ai_in _ _ A). auto.
  - destruct (Hi c Hc) as [X|X]; [exact X|]. exfalso. exact (X f u H1 H2 H3 IH).
  - apply (ai_in _ _ A) in IH. apply (ai_in _ _ A). destruct IH as [X|[X|[d [X1 X2]]]].
    + left. apply (due_next _ _ _ _ _ _ c f X); [intros [_ [Y _]]; destruct Hc as [_ [Hk _]]; contradiction|left; exact H].
    + right. right. exists c. auto.
    + exfalso. pose proof (pl_kind _ _ _ _ _ _ PL d c (proj1 (ai_K _ _ A d X1)) X2). destruct Hc as [_ [Hk _]]. congruence.
Qed.

(** From the loop to the commands on demand. *)
Lemma LI_AI b : LI kind_of (links' kind_of links rows flags) (glinks' kind_of glinks rows flags) transient_ root count_flags roots b ->
  plist (gr_ b) = [] -> AI b [].
Proof.
  intros I Pn.
  assert (forall n, In n (plist (gr_ b) ++ fin b) <-> In n (fin b)) as KK by (rewrite Pn; reflexivity).
  pose proof (due_iff kind_of links glinks inputs users transient_ root rows flags) as DI.
  pose proof (next'_iff kind_of links glinks inputs users transient_ root rows flags) as NI.
  assert (forall n, In n (fin b) <-> due n) as EX.
  { intros n. rewrite DI. split; [intros H; apply (li_aff _ _ _ _ _ _ _ _ I), KK; exact H|].
    induction 1 as [n H|a c Ha IH H]; [apply KK; apply (li_flags _ _ _ _ _ _ _ _ I); exact H|].
    apply KK. assert (In {| src := a; dst := c; normal := true |} (edges (gr_ b))) as Ee.
    { apply (li_edges _ _ _ _ _ _ _ _ I). cbn. split; [reflexivity|]. right. split; [apply KK; exact IH|].
      split; [rewrite (li_fin _ _ _ _ _ _ _ _ I a IH); discriminate|exact H]. }
    exact (li_dst _ _ _ _ _ _ _ _ I _ Ee). }
  split.
  - exact (li_W _ _ _ _ _ _ _ _ I).
  - exact Pn.
  - exact (li_nodes _ _ _ _ _ _ _ _ I).
  - intros n. rewrite EX. split; [auto|]. intros [H|[[]|[c [[] _]]]]. exact H.
  - intros n Hn. rewrite (li_fin _ _ _ _ _ _ _ _ I n Hn). discriminate.
  - intros e [He [[H1 [H2|[]]]|[[H1 [H2 H3]]|[[] _]]]]; apply (li_edges _ _ _ _ _ _ _ _ I).
    + split; [exact He|]. auto.
    + split; [exact He|]. right. apply EX in H1. split; [apply KK; exact H1|]. split; [rewrite (li_fin _ _ _ _ _ _ _ _ I _ H1); discriminate|].
      apply NI. auto.
  - intros e He. apply (li_edges _ _ _ _ _ _ _ _ I) in He. left. destruct He as [H0 [[H1 H2]|[H1 [_ H2]]]].
    + split; [exact H0|]. auto.
    + split; [exact H0|]. right. left. apply NI in H2. split; [apply EX, KK; exact H1|]. tauto.
  - intros n Hn. apply (li_trans _ _ _ _ _ _ _ _ I), KK, Hn.
  - intros n Hn. apply (li_cnt _ _ _ _ _ _ _ _ I), KK, Hn.
  - intros n Hn. rewrite (li_skip _ _ _ _ _ _ _ _ I n) by (apply KK, Hn). rewrite orb_false_r. reflexivity.
  - exact (li_root _ _ _ _ _ _ _ _ I).
  - exact (li_tdel _ _ _ _ _ _ _ _ I).
  - intros c [].
Qed.

Hypothesis GC : forall a n, In n (glinks a) -> counts (kind_of n) = false.
Hypothesis Inp : forall n, ~ In root (inputs n).
Hypothesis GG : forall a n, kind_of a = KGenerated -> next a n -> kind_of n <> KGenerated.

Record tbuilt (b : bgraph) (nodes : list id) : Prop := {
  tb_prepared : prepared (gr_ b) root nodes;
  tb_exact : forall n, In n nodes <-> joins n;
  tb_direct : forall x n, direct (gr_ b) x n <->
    (x = root /\ ((In n flags /\ ~ waiting n) \/ In n rows \/ (waiting n /\ joins n /\ ~ due n))) \/
    (due x /\ ~ leftover x /\ next x n) \/
    (waiting x /\ joins x /\ In n (links x)) \/
    (joins n /\ joins x /\ In x (inputs n));
  tb_skip : forall n, In n nodes -> (skip b n = false <-> (In n flags /\ ~ waiting n) \/ In n rows \/ (waiting n /\ ~ due n));
  tb_trans : forall n, In n nodes -> trans (gr_ b) n = if is_generated (kind_of n) && transient_ n then TProcessing else TNone;
  tb_normal : forall x n, due x -> ~ leftover x -> next x n -> In {| src := x; dst := n; normal := true |} (edges (gr_ b));
  tb_cmd : forall c, In c nodes -> kind_of c = KCmd -> due c \/ (waiting c /\ ~ due c);
  tb_counted : forall n, In n nodes -> counted b n = counts (kind_of n);
}.

Theorem tgraph_spec fuel : 2 * length universe < fuel ->
  match tgraph kind_of links glinks inputs users transient_ root count_flags rows fuel flags with
  | Done b => exists nodes, tbuilt b nodes
  | Circular => exists n, due n /\ path kind_of links glinks n n
  | Internal => exists c, torn c
  | Timeout => False
  end.
Proof.
  intros Hf. unfold tgraph. fold (flagsNT kind_of transient_ flags).
  pose proof (first_part kind_of links glinks inputs users transient_ root count_flags rows flags universe DB GC Kroot fuel Hf) as Q.
  destruct (each _ _ _) as [b1| | |]; cbn [then_] in *; try exact Q; try contradiction.
  destruct (each _ b1 rows) as [b2| | |]; cbn [then_] in *; try exact Q; try contradiction.
  destruct (build_loop _ _ _ _ _ _ fuel b2) as [b3| | |]; cbn [then_] in *; try exact Q; try contradiction.
  destruct Q as [I Pn]. pose proof (LI_AI b3 I Pn) as A0.
  pose proof (waiting_in kind_of links glinks inputs users transient_ root flags) as WI.
  assert (length (filter (held kind_of transient_) flags) < fuel) as Hf2.
  { assert (length (filter (held kind_of transient_) flags) <= length universe); [|lia].
    apply NoDup_incl_length; [apply NoDup_filter, PL|]. intros x Hx. apply filter_In in Hx. apply (u_flags _ _ _ _ _ _ DB), in_or_app. tauto. }
  pose proof (all_spec fuel b3 [] (filter (held kind_of transient_) flags) A0 (fun c Hc => proj1 (WI c) Hc)
    (fun c Hc => or_introl (proj2 (WI c) Hc)) Hf2) as R.
  destruct (aall fuel b3 _) as [b4| | |]; cbn [then_]; try exact R; try contradiction.
  destruct R as [K [A Hi]]. exists (fin b4). pose proof (done_joins b4 K A Hi) as EX.
  set (b := add_graph_stickies kind_of inputs b4).
  pose proof (flagsNT_in kind_of links glinks inputs users transient_ root flags) as FI.
  assert (forall c, In c K <-> waiting c /\ joins c /\ ~ due c) as KI.
  { intros c. split; [exact (ai_K _ _ A c)|]. intros [H1 [H2 H3]]. apply EX, (ai_in _ _ A) in H2. destruct H2 as [X|[X|[d [X1 X2]]]]; [contradiction|exact X|].
    exfalso. pose proof (pl_kind _ _ _ _ _ _ PL d c (proj1 (ai_K _ _ A d X1)) X2). destruct H1 as [_ [Hk _]]. congruence. }
  pose proof (fun e => stickies_edges kind_of nol nol inputs nof nof root b4 e) as SE.
  assert (forall e, In e (edges (gr_ b)) <-> In e (edges (gr_ b4)) \/
     (normal e = false /\ In (dst e) (fin b4) /\ In (src e) (inputs (dst e)) /\ In (src e) (fin b4))) as SE2.
  { intros e. unfold b. rewrite SE, (ai_nodes _ _ A), (ai_known _ _ A). cbn [In]. split; intros [H|H]; [auto| |auto|].
    - right. destruct H as [H1 [H2 [H3 [H4 H5]]]]. split; [exact H1|]. destruct H2 as [H2|H2]; [rewrite <- H2, Kroot in H3; discriminate|].
      destruct H5 as [H5|H5]; [rewrite H5 in H4; exfalso; exact (Inp _ H4)|]. auto.
    - right. destruct H as [H1 [H2 [H3 H4]]]. pose proof (UC _ _ H3). auto 8. }
  assert (forall x n, direct (gr_ b) x n <->
    (x = root /\ ((In n flags /\ ~ waiting n) \/ In n rows \/ (waiting n /\ joins n /\ ~ due n))) \/
    (due x /\ ~ leftover x /\ next x n) \/
    (waiting x /\ joins x /\ In n (links x)) \/
    (joins n /\ joins x /\ In x (inputs n))) as DIR.
  { intros x n. split.
    - intros [e [He [<- <-]]]. apply SE2 in He. destruct He as [He|[_ [H1 [H2 H3]]]].
      + destruct (ai_edges _ _ A e He) as [[_ [[H1 [H2|H2]]|[H|[H1 H2]]]]|[_ [H1 [H2 H3]]]].
        * left. split; [exact H1|]. apply in_app_or in H2. destruct H2 as [H2|H2]; [|auto]. apply FI in H2. auto.
        * left. split; [exact H1|]. right. right. apply KI. exact H2.
        * auto.
        * right. right. left. apply KI in H1. tauto.
        * right. right. right. rewrite <- !EX. auto.
      + right. right. right. rewrite <- !EX. auto.
    - intros [[-> H]|[H|[[H1 [H2 H3]]|[H1 [H2 H3]]]]].
      + exists {| src := root; dst := n; normal := true |}. split; [|auto]. apply SE2. left. apply (ai_core _ _ A). split; [reflexivity|]. left. cbn.
        split; [reflexivity|]. destruct H as [H|[H|H]]; [left; apply in_or_app; left; apply FI; exact H|left; apply in_or_app; auto|right; apply KI; exact H].
      + exists {| src := x; dst := n; normal := true |}. split; [|auto]. apply SE2. left. apply (ai_core _ _ A). split; [reflexivity|]. cbn. auto.
      + exists {| src := x; dst := n; normal := true |}. split; [|auto]. apply SE2. left. apply (ai_core _ _ A). split; [reflexivity|]. cbn.
        assert (In x (fin b4)) as X by (apply EX; exact H2). apply (ai_in _ _ A) in X. destruct X as [X|[X|[d [X1 X2]]]].
        * right. left. split; [exact X|]. split; [intros [_ [Y _]]; destruct H1 as [_ [Hk _]]; contradiction|left; exact H3].
        * right. right. auto.
        * exfalso. pose proof (pl_kind _ _ _ _ _ _ PL d x (proj1 (ai_K _ _ A d X1)) X2). destruct H1 as [_ [Hk _]]. congruence.
      + exists {| src := x; dst := n; normal := false |}. split; [|auto]. apply SE2. right. cbn. rewrite !EX. auto. }
  assert (forall x n, direct (gr_ b) x n -> (x = root \/ In x (fin b4)) /\ In n (fin b4)) as DIN.
  { intros x n H. apply DIR in H. rewrite !EX. destruct H as [[-> H]|[[H1 [H2 H3]]|[[H1 [H2 H3]]|[H1 [H2 H3]]]]].
    - split; [auto|]. destruct H as [[H1 H2]|[H|H]]; [apply join_due, due_flag; assumption|apply join_due, due_row; exact H|tauto].
    - split; [right; apply join_due; exact H1|]. apply join_due. exact (due_next _ _ _ _ _ _ _ _ H1 H2 H3).
    - split; [auto|]. exact (join_out _ _ _ _ _ _ _ x n H1 H2 H3).
    - auto. }
  assert (forall e, In e (edges (gr_ b)) -> direct (gr_ b) (src e) (dst e)) as ED by (intros e He; exists e; auto).
  split.
  - split.
    + exact (ai_nodes _ _ A).
    + exact (ai_plist _ _ A).
    + constructor; [exact (not_root b4 K A)|exact (fin_nodup b4 K A)].
    + intros e He. destruct (DIN _ _ (ED e He)) as [[H|H] _]; [left; symmetry; exact H|right; exact H].
    + intros e He. exact (proj2 (DIN _ _ (ED e He))).
    + intros n Hn. apply EX in Hn.
      assert (exists x, direct (gr_ b) x n) as [x [e [H1 [_ H2]]]]; [|exists e; auto].
      destruct Hn as [n Hd|c f u Hc Hf1 Hr Hj Hu|c f Hc Hj Hf1].
      * destruct Hd as [n H1 H2|n H|a n H1 H2 H3]; [exists root|exists root|exists a]; apply DIR; auto 8.
      * assert (joins c) as Jc by exact (join_cmd _ _ _ _ _ _ _ c f u Hc Hf1 Hr Hj Hu).
        assert (In c (fin b4)) as X by (apply EX; exact Jc). apply (ai_in _ _ A) in X. destruct X as [X|[X|[d [X1 X2]]]].
        -- destruct X as [n H1 H2|n H|a n H1 H2 H3]; [contradiction|exists root|exists a]; apply DIR; auto 8.
        -- exists root. apply DIR. left. split; [reflexivity|]. right. right. apply KI. exact X.
        -- exfalso. pose proof (pl_kind _ _ _ _ _ _ PL d c (proj1 (ai_K _ _ A d X1)) X2). destruct Hc as [_ [Hk _]]. congruence.
      * exists c. apply DIR. right. right. left. split; [exact Hc|]. split; [exact Hj|exact Hf1].
    + exact (ai_state _ _ A).
    + intros n Hn. destruct (ai_W _ _ A) as [_ [_ Hx]]. apply Hx; [apply (ai_known _ _ A); auto|]. intros ->. exact (not_root b4 K A Hn).
    + exact (ai_tdel _ _ A).
    + exact (ai_root _ _ A).
    + intros e He Ht. pose proof (ED e He) as D. destruct (DIN _ _ D) as [D1 D2]. change (trans (gr_ b)) with (trans (gr_ b4)) in *.
      destruct D1 as [D1|D1]; [rewrite D1, (ai_root _ _ A) in Ht; discriminate|].
      rewrite (ai_trans _ _ A _ D1) in Ht. rewrite (ai_trans _ _ A _ D2).
      assert (kind_of (src e) = KGenerated) as Kg by (destruct (kind_of (src e)); try discriminate Ht; reflexivity).
      assert (kind_of (dst e) <> KGenerated) as Kd.
      { apply DIR in D. destruct D as [[H _]|[[_ [_ H]]|[[H _]|[_ [_ H]]]]].
        - rewrite H, Kroot in Kg. discriminate.
        - exact (GG _ _ Kg H).
        - destruct H as [_ [Hk _]]. congruence.
        - rewrite (UC _ _ H). discriminate. }
      destruct (kind_of (dst e)); try reflexivity. contradiction.
  - exact EX.
  - exact DIR.
  - intros n Hn. change (skip b n) with (skip b4 n). rewrite (ai_skip _ _ A n Hn), negb_false_iff, orb_true_iff, !inb_In. unfold TransProofs.roots.
    rewrite in_app_iff, FI, KI. apply EX in Hn. split.
    + intros [[H|H]|[H1 [H2 H3]]]; auto.
    + intros [H|[H|[H1 H2]]]; auto.
  - exact (ai_trans _ _ A).
  - intros x n H1 H2 H3. apply SE2. left. apply (ai_core _ _ A). split; [reflexivity|]. cbn. auto.
  - intros c Hc Kc. apply (ai_in _ _ A) in Hc. destruct Hc as [X|[X|[d [X1 X2]]]]; [auto|apply KI in X; tauto|].
    exfalso. pose proof (pl_kind _ _ _ _ _ _ PL d c (proj1 (ai_K _ _ A d X1)) X2). congruence.
  - exact (ai_cnt _ _ A).
Qed.
End Attach.
