From Verif Require Import Base ExecModel ExecProofs BuildModel BuildSpec.

Lemma inb_dec (i : id) (l : list id) : {In i l} + {~ In i l}.
Proof. destruct (inb i l) eqn:E; [left; apply inb_In, E|right; apply inb_nIn, E]. Qed.

Section BuildProofs.
Context {V : Type}.
Variable V_eqb : V -> V -> bool.
Variable behave : id -> (id -> option V) -> result V.
Variable caret_o : id -> bool.
Hypothesis Veq : forall a b, V_eqb a b = true <-> a = b.
Hypothesis det : deterministic behave.

Notation world := (world V).
Notation Cmd w c := (In c (commands (rls w))).
Notation Out w c x := (In x (outs (rls w) c)).

Lemma is_command_In (w : world) c : is_command w c = true <-> Cmd w c.
Proof. apply inb_In. Qed.
Lemma generated_In (w : world) x : generated w x = true <-> exists c, Cmd w c /\ Out w c x.
Proof.
  unfold generated. rewrite existsb_exists. split; intros [c [A B]]; exists c; (split; [exact A|]);
  [apply inb_In in B; exact B|apply inb_In, B].
Qed.
Lemma generated_no (w : world) x : generated w x = false <-> ~ exists c, Cmd w c /\ Out w c x.
Proof. rewrite <- generated_In. destruct (generated w x); split; congruence. Qed.
Lemma ocV_dec (a b : option V) : {a = b} + {a <> b}.
Proof.
  destruct a as [a|], b as [b|]; try (right; discriminate); [|left; reflexivity].
  destruct (V_eqb a b) eqn:E; [left; f_equal; apply Veq, E|right; intros F; inversion F; subst; rewrite (proj2 (Veq b b) eq_refl) in E; discriminate].
Qed.
Lemma ot_eqb_eq a b : ot_eqb a b = true <-> a = b.
Proof.
  destruct a, b; cbn; split; try congruence. - intros E. apply Nat.eqb_eq in E. congruence.
  - intros E. inversion E. apply Nat.eqb_refl.
Qed.

(** The recorded links are those of the last run, and its outputs are there. *)
Definition sound (w : world) (c : id) : Prop :=
  up_to_date behave w c /\
  forall x, In x (links w c) <-> In x (r_reads (behave c (sees w c))) /\ ~ Out w c x.

Lemma sound_ext (w w' : world) c : outs (rls w') c = outs (rls w) c -> links w' c = links w c ->
  (forall x, In x (links w c) \/ Out w c x -> content w' x = content w x) ->
  sound w c -> sound w' c.
Proof.
  intros Eo El Ec [[Ok Ou] Li].
  destruct (det c (sees w c) (sees w' c)) as [D1 [D2 D3]].
  { intros x R. unfold sees, hide. rewrite Eo. destruct (inb x (outs (rls w) c)) eqn:I; [reflexivity|].
    symmetry. apply Ec. left. apply Li. split; [exact R|apply inb_nIn, I]. }
  split.
  - split; [congruence|]. intros x X. rewrite Eo in X. rewrite D3, (Ec x (or_intror X)). apply Ou, X.
  - intros x. rewrite D2, El, Eo. apply Li.
Qed.

(** A command that the next update will run, or at least check. *)
Definition dirty (w : world) (x : id) : Prop :=
  modify w x = true \/
  exists c, Cmd w c /\ Out w c x /\ modify w c = true /\ (caret_o c = false \/ fs w x = None).
Definition pending (w : world) (c : id) : Prop :=
  modify w c = true \/ exists x, In x (links w c) /\ dirty w x.

(** Every circle of links contains a flagged command: there is no circle of
    [calm] nodes. *)
Definition calm (w : world) (n : id) : Prop := Cmd w n -> modify w n = false.
Definition cedge (w : world) (a b : id) : Prop := In b (succ w a) /\ calm w a /\ calm w b.
Inductive cpath (w : world) : id -> id -> Prop :=
| cp1 a b : cedge w a b -> cpath w a b
| cp2 a b c : cpath w a b -> cedge w b c -> cpath w a c.
Definition circles_flagged (w : world) : Prop := forall n, ~ cpath w n n.
Lemma cpath_last (w : world) a b : cpath w a b -> exists z, cedge w z b.
Proof. destruct 1; eauto. Qed.

Definition stamps_old (w : world) : Prop :=
  (forall x v t, fs w x = Some (v, t) -> t < clock w) /\ (forall x t, mtime w x = Some t -> t < clock w).

(** The state at the start of an update, after scanning and parsing. *)
Record Inv (w : world) : Prop := {
  i_rules : rules_ok (rls w);
  i_links : forall c x, Cmd w c -> In x (links w c) -> ~ Cmd w x;
  i_cmd : forall c, Cmd w c -> pending w c \/ sound w c;
  i_sync : forall x, generated w x = false -> mtime w x = stamp w x;
  i_old : stamps_old w;
  i_circ : circles_flagged w
}.

Definition with_fs (w : world) (f : id -> option (V * nat)) : world :=
  {| rls := rls w; fs := f; clock := clock w; modify := modify w; links := links w; mtime := mtime w |}.

(** The state between updates: the database describes a file system [base], and
    a file differs from it only if its time differs. *)
Record Pre (w : world) : Prop := {
  p_rules : rules_ok (rls w);
  p_links : forall c x, Cmd w c -> In x (links w c) -> ~ Cmd w x;
  p_base : exists base,
    (forall c, Cmd w c -> pending (with_fs w base) c \/ sound (with_fs w base) c) /\
    (forall x, generated w x = false -> mtime w x = None -> base x = None) /\
    (forall x, stamp w x = mtime w x -> (generated w x = true -> fs w x <> None) -> fs w x = base x);
  p_old : stamps_old w;
  p_circ : circles_flagged w
}.

Lemma succ_ext (w w' : world) : rls w' = rls w -> (forall c, Cmd w c -> links w' c = links w c) ->
  forall a, succ w' a = succ w a.
Proof.
  intros R L a. unfold succ, is_command. rewrite R. destruct (inb a (commands (rls w))); [reflexivity|].
  f_equal. apply filter_ext_in. intros c Hc. rewrite (L c Hc). reflexivity.
Qed.
Lemma circles_ext (w w' : world) : rls w' = rls w -> (forall c, Cmd w c -> links w' c = links w c) ->
  (forall c, Cmd w c -> modify w c = true -> modify w' c = true) -> circles_flagged w -> circles_flagged w'.
Proof.
  intros R L M C n P. apply (C n).
  assert (E : forall a b, cedge w' a b -> cedge w a b).
  { intros a b [H1 [H2 H3]]. rewrite (succ_ext w w' R L) in H1. unfold calm in *. rewrite R in H2, H3.
    split; [exact H1|split; intros K].
    - destruct (modify w a) eqn:Q; [|reflexivity]. rewrite (M a K Q) in H2. auto.
    - destruct (modify w b) eqn:Q; [|reflexivity]. rewrite (M b K Q) in H3. auto. }
  assert (G : forall a b, cpath w' a b -> cpath w a b) by (induction 1; [apply cp1; auto|eapply cp2; eauto]). auto.
Qed.

Lemma Inv_Pre w : Inv w -> Pre w.
Proof.
  intros [A Ln B C D E]. constructor; auto. exists (fs w). split; [|split; auto].
  - intros c Hc. destruct (B c Hc) as [P|S]; [left|right]; [exact P|exact S].
  - intros x G M. specialize (C x G). rewrite M in C. unfold stamp in C. destruct (fs w x); [discriminate|reflexivity].
Qed.

Lemma edit_Pre w x v : Pre w -> Pre (edit x v w).
Proof.
  intros [A Ln [base [B1 [B2 B3]]] [C1 C2] D]. constructor.
  - exact A.
  - exact Ln.
  - exists base. split; [|split].
    + intros c Hc. destruct (B1 c Hc) as [P|S]; [left; exact P|right; exact S].
    + exact B2.
    + intros y. unfold stamp. cbn [edit fs mtime]. unfold upd. destruct (y =? x) eqn:E.
      * apply Nat.eqb_eq in E. subst y. destruct v as [v|]; cbn [option_map snd].
        -- intros M. symmetry in M. apply C2 in M. lia.
        -- intros M G. change (generated (edit x None w) x) with (generated w x) in G.
           destruct (generated w x) eqn:Gx; [exfalso; apply G; reflexivity|]. symmetry. apply B2; congruence.
      * intros M G. apply B3; [exact M|exact G].
  - split; cbn [edit fs mtime clock].
    + intros y v' t. unfold upd. destruct (y =? x).
      * destruct v; cbn [option_map]; [|discriminate]. intros F. inversion F. lia.
      * intros F. apply C1 in F. lia.
    + intros y t F. apply C2 in F. lia.
  - revert D. apply circles_ext; auto.
Qed.

Lemma exists_now_false (w : world) x : exists_now w x = false <-> fs w x = None.
Proof. unfold exists_now. destruct (fs w x); split; congruence. Qed.

Lemma scan_modify_cmd (w : world) c : Cmd w c -> modify w c = true -> modify (scan w) c = true.
Proof.
  intros Hc M. cbn [scan modify]. rewrite M, (proj2 (is_command_In w c) Hc). cbn. reflexivity.
Qed.

Lemma scan_Inv w : Pre w -> Inv (scan w).
Proof.
  intros [A Ln [base [B1 [B2 B3]]] [C1 C2] D]. constructor.
  - exact A.
  - exact Ln.
  - intros c Hc. change (Cmd w c) in Hc.
    (* a changed file *)
    assert (Ch : forall x, fs w x <> base x -> touched w x = true \/ gone w x = true).
    { intros x X. destruct (fs w x) as [[v t]|] eqn:F.
      - left. unfold touched, exists_now. rewrite F. cbn [andb].
        destruct (ot_eqb (stamp w x) (mtime w x)) eqn:E; [|reflexivity]. apply ot_eqb_eq in E.
        exfalso. apply X. rewrite <- F. apply B3; [exact E|]. congruence.
      - right. unfold gone, exists_now. rewrite F. cbn [negb andb]. destruct (generated w x) eqn:G; [reflexivity|].
        cbn [orb]. destruct (mtime w x) eqn:M; [reflexivity|]. exfalso. apply X. symmetry. auto. }
    assert (CO : forall x, Out w c x -> fs w x <> base x -> modify (scan w) c = true).
    { intros x O X. cbn [scan modify]. rewrite (proj2 (is_command_In w c) Hc).
      assert (existsb (fun x => touched w x || gone w x) (outs (rls w) c) = true) as ->.
      { apply existsb_exists. exists x. split; [exact O|]. apply orb_true_iff. apply Ch, X. }
      rewrite !orb_true_r. reflexivity. }
    assert (GX : forall x, In x (links w c) -> gone w x = true -> pending (scan w) c).
    { intros x L G. destruct (generated w x) eqn:Gx.
      - right. exists x. split; [exact L|]. right. apply generated_In in Gx as [c' [H1 H2]]. exists c'.
        split; [exact H1|split; [exact H2|split]].
        + cbn [scan modify]. rewrite (proj2 (is_command_In w c') H1).
          assert (existsb (fun x => touched w x || gone w x) (outs (rls w) c') = true) as ->.
          { apply existsb_exists. exists x. split; [exact H2|]. rewrite G. apply orb_true_r. }
          rewrite !orb_true_r. reflexivity.
        + right. cbn [scan fs]. unfold gone in G. apply andb_true_iff in G as [G _].
          apply exists_now_false. apply negb_true_iff, G.
      - left. cbn [scan modify]. rewrite (proj2 (is_command_In w c) Hc).
        assert (existsb (fun x => negb (generated w x) && gone w x) (links w c) = true) as ->.
        { apply existsb_exists. exists x. split; [exact L|]. rewrite Gx, G. reflexivity. }
        rewrite !orb_true_r. reflexivity. }
    assert (CL : forall x, In x (links w c) -> fs w x <> base x -> pending (scan w) c).
    { intros x L X. destruct (Ch x X) as [T|G]; [|eauto].
      right. exists x. split; [exact L|]. left. cbn [scan modify]. rewrite T, orb_true_r. reflexivity. }
    assert (Df : forall x, (fs w x <> base x) \/ content w x = option_map fst (base x)).
    { intros x. unfold content. destruct (ocV_dec (option_map fst (fs w x)) (option_map fst (base x))) as [E|E]; [right; exact E|left; congruence]. }
    assert (S1 : pending (scan w) c \/ (forall x, In x (links w c) \/ Out w c x -> content w x = option_map fst (base x))).
    { assert (Q : forall l, incl l (links w c ++ outs (rls w) c) -> pending (scan w) c \/ forall x, In x l -> content w x = option_map fst (base x)).
      { induction l as [|x l IH]; intros I; [right; intros x []|].
        destruct IH as [P|IH]; [intros y Y; apply I; right; exact Y|left; exact P|].
        destruct (Df x) as [X|X].
        - left. specialize (I x (or_introl eq_refl)). apply in_app_or in I as [I|I]; [eauto|left; eauto].
        - right. intros y [<-|Y]; [exact X|auto]. }
      destruct (Q _ (incl_refl _)) as [P|Q']; [left; exact P|right]. intros x X. apply Q', in_or_app, X. }
    destruct S1 as [P|S1]; [left; exact P|].
    destruct (B1 c Hc) as [[M|[x [L Dx]]]|S].
    + left. left. apply scan_modify_cmd; assumption.
    + left. cbn [with_fs links] in L. destruct (gone w x) eqn:G; [eauto|]. destruct Dx as [M|[c' [H1 [H2 [H3 H4]]]]].
      * right. exists x. split; [exact L|]. left. cbn [with_fs modify] in M. cbn [scan modify]. rewrite M, G, andb_false_r. reflexivity.
      * cbn [with_fs modify fs rls] in *. destruct H4 as [H4|H4].
        -- right. exists x. split; [exact L|]. right. exists c'. split; [exact H1|split; [exact H2|split; [|auto]]].
           apply scan_modify_cmd; assumption.
        -- destruct (fs w x) eqn:F.
           ++ apply (CL x L). congruence.
           ++ right. exists x. split; [exact L|]. right. exists c'. split; [exact H1|split; [exact H2|split; [|auto]]].
              apply scan_modify_cmd; assumption.
    + right. apply (sound_ext (with_fs w base)); auto.
  - intros x G. change (generated w x = false) in G. change (stamp (scan w) x) with (stamp w x). cbn [scan mtime].
    rewrite G. cbn [negb]. rewrite andb_true_r. unfold touched, gone, exists_now. rewrite G. cbn [orb].
    unfold stamp. destruct (fs w x) as [[v t]|]; cbn [option_map snd andb negb].
    + destruct (ot_eqb (Some t) (mtime w x)) eqn:E; cbn [negb]; [|reflexivity]. apply ot_eqb_eq in E. congruence.
    + destruct (mtime w x); reflexivity.
  - split; [exact C1|]. cbn [scan mtime clock]. intros x t. unfold stamp.
    destruct (touched w x).
    + destruct (fs w x) as [[v t']|] eqn:F; cbn [option_map snd]; [|discriminate]. intros E. inversion E; subst. eapply C1, F.
    + destruct (gone w x && negb (generated w x)); [discriminate|apply C2].
  - revert D. apply circles_ext; auto. intros c. apply scan_modify_cmd.
Qed.

(** Parsing. *)
Lemma gen_of_generated (w : world) x : generated w x = true <-> gen_of (rls w) x.
Proof. apply generated_In. Qed.
Lemma gen_dec (w : world) x : {gen_of (rls w) x} + {~ gen_of (rls w) x}.
Proof. destruct (generated w x) eqn:G; [left; apply gen_of_generated, G|right; intros X; apply gen_of_generated in X; congruence]. Qed.

Lemma reparse_Inv w w' : Inv w -> reparse caret_o w w' -> Inv w'.
Proof.
  intros [A Ln B C [D1 D2] E] [R1 Rl R2 R3 R4 R5 R6 R7 R8].
  assert (Ks : forall x, gen_of (rls w') x \/ ~ gen_of (rls w) x -> fs w' x = fs w x).
  { intros x X. destruct (R6 x) as [[Y Z]|[Y _]]; [tauto|exact Y]. }
  constructor.
  - exact R1.
  - exact Rl.
  - intros c Hc. destruct (R3 c Hc) as [M|[H1 [H2 [H3 H4]]]]; [left; left; exact M|].
    assert (GM : forall x, In x (links w c) -> gen_of (rls w) x -> ~ gen_of (rls w') x -> modify w' c = true).
    { intros x L G1 G2. apply (R5 x G1 G2); assumption. }
    destruct (B c H1) as [[M|[x [L [M|[c' [K1 [K2 [K3 K4]]]]]]]]|S].
    + left. left. destruct (R4 c M) as [M'|N]; [exact M'|]. destruct (N c Hc) as [N1 _]. congruence.
    + left. destruct (R4 x M) as [M'|N]; [|left; apply N; assumption].
      right. exists x. rewrite H4. split; [exact L|left; exact M'].
    + destruct (gen_dec w' x) as [[d [G1 G2]]|G']; [|left; left; eapply GM; [exact L|exists c'; tauto|exact G']].
      left. right. exists x. rewrite H4. split; [exact L|]. right. exists d. split; [exact G1|split; [exact G2|]].
      assert (Fx : fs w' x = fs w x) by (apply Ks; left; exists d; tauto).
      split.
      * destruct (R3 d G1) as [Md|[Q1 [Q2 _]]]; [exact Md|]. rewrite Q2 in G2.
        assert (d = c') by (eapply (ro_unique _ A); eassumption). subst d.
        destruct (R4 c' K3) as [M'|N]; [exact M'|]. destruct (N c' G1) as [N1 _]. congruence.
      * destruct K4 as [K4|K4]; [|right; congruence].
        destruct (R8 x c' d K1 G1 K2 G2) as [<-|[Z|[Z|[Z|Z]]]]; [auto|congruence|auto|congruence|right; congruence].
    + destruct (existsb (fun x => negb (generated w' x) && generated w x) (links w c)) eqn:X.
      * left. left. apply existsb_exists in X as [x [L X]]. apply andb_true_iff in X as [X1 X2]. apply negb_true_iff in X1.
        eapply GM; [exact L|apply gen_of_generated, X2|]. rewrite <- gen_of_generated. congruence.
      * right. apply (sound_ext w); auto. intros x X'. unfold content. f_equal. apply Ks.
        destruct X' as [L|O].
        -- destruct (gen_dec w' x) as [G|G]; [auto|]. right. intros G'. apply gen_of_generated in G'.
           assert (existsb (fun x => negb (generated w' x) && generated w x) (links w c) = true); [|congruence].
           apply existsb_exists. exists x. split; [exact L|]. rewrite G'. 
           destruct (generated w' x) eqn:Q; [exfalso; apply G, gen_of_generated, Q|reflexivity].
        -- left. exists c. split; [exact Hc|]. rewrite H2. exact O.
  - intros x G. destruct (gen_dec w x) as [H|H].
    + destruct (R5 x H) as [Z1 [Z2 _]]; [rewrite <- gen_of_generated; congruence|]. unfold stamp. rewrite Z1, Z2. reflexivity.
    + destruct (R6 x) as [[Y Z]|[Y Z]]; [contradiction|]. unfold stamp. rewrite Y, Z. apply C.
      destruct (generated w x) eqn:Q; [exfalso; apply H, gen_of_generated, Q|reflexivity].
  - split.
    + intros x v t F. rewrite R2. destruct (R6 x) as [[Y Z]|[Y Z]]; [|eapply D1; rewrite <- Y; exact F].
      destruct (R5 x Y Z) as [Z1 _]. congruence.
    + intros x t F. rewrite R2. destruct (R6 x) as [[Y Z]|[Y Z]]; [|eapply D2; rewrite <- Z; exact F].
      destruct (R5 x Y Z) as [_ [Z1 _]]. congruence.
  - intros n P.
    assert (Q : forall z a b, cedge w' z a -> cedge w' a b -> cedge w a b).
    { intros z a b [Sz [Cz _]] [S [Ca Cb]].
      assert (U : forall c, Cmd w' c -> calm w' c -> modify w' c = false) by auto.
      assert (W : forall c, Cmd w' c -> calm w' c -> calm w c).
      { intros c H1 H2 _. destruct (modify w c) eqn:Z; [|reflexivity]. destruct (R4 c Z) as [N|N]; [rewrite (H2 H1) in N; discriminate|].
        destruct (N c H1) as [N1 _]. congruence. }
      unfold succ in S. destruct (is_command w' a) eqn:Ka.
      - apply is_command_In in Ka. destruct (R3 a Ka) as [M|[H1 [H2 _]]]; [rewrite (Ca Ka) in M; discriminate|].
        assert (Sb : In b (succ w a)) by (unfold succ; rewrite (proj2 (is_command_In w a) H1), <- H2; exact S).
        split; [exact Sb|split; [auto|]]. intros Kb. exfalso. rewrite H2 in S. exact (ro_files _ A a b H1 S Kb).
      - apply in_app_or in S as [S|S].
        + apply filter_In in S as [Hb S]. destruct (R3 b Hb) as [M|[H1 [_ [H3 H4]]]]; [rewrite (Cb Hb) in M; discriminate|].
          rewrite H3, H4 in S. assert (Na : ~ Cmd w a).
          { intros Kb. apply orb_true_iff in S as [S|S]; apply inb_In in S;
            [exact (Ln b a H1 S Kb)|exact (ro_inputs _ A b a H1 S Kb)]. }
          split; [|split; [intros K; contradiction|auto]]. unfold succ. destruct (is_command w a) eqn:Kb; [apply is_command_In in Kb; contradiction|].
          apply in_or_app. left. apply filter_In. split; assumption.
        + destruct (R7 a b S) as [S'|[c [Hc [Oc M]]]].
          * destruct (ro_groups _ A a b S') as [N1 [N2 _]]. split; [|split; intros K; contradiction].
            unfold succ. destruct (is_command w a) eqn:Kb; [apply is_command_In in Kb; contradiction|]. apply in_or_app. right. exact S'.
          * exfalso. unfold succ in Sz. destruct (is_command w' z) eqn:Kz.
            -- apply is_command_In in Kz. assert (z = c) by (eapply (ro_unique _ R1); eassumption). subst z. rewrite (Cz Kz) in M. discriminate.
            -- apply in_app_or in Sz as [Sz|Sz].
               ++ apply filter_In in Sz as [Ha _]. exact (ro_files _ R1 c a Hc Oc Ha).
               ++ destruct (ro_groups _ R1 z a Sz) as [_ [_ N]]. apply N. exists c. tauto. }
    apply (E n). destruct (cpath_last _ _ _ P) as [z Z].
    assert (G : forall a b, cpath w' a b -> (exists z, cedge w' z a) -> cpath w a b).
    { induction 1 as [a b H|a b c P1 IH H]; intros [y Y]; [apply cp1; eauto|].
      destruct (cpath_last _ _ _ P1) as [u U]. eapply cp2; [apply IH; eauto|eauto]. }
    apply G; eauto.
Qed.
End BuildProofs.
