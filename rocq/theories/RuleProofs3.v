From Verif Require Import Base ConfigModel DbModel DbSpec DbProofs DbProofs3 RuleModel RuleSpec RuleProofs RuleProofs2.

(** The links of the command itself stay while it takes over its outputs. *)
Lemma create_unique_link_keeps a b p p' : create_unique_link a b p = Some p' -> modify (pdb p') = modify (pdb p) /\ nodes (pdb p') = nodes (pdb p) /\
  (a <> b -> forall x, In (a, x) (normal (pdb p)) -> In (a, x) (normal (pdb p'))).
Proof.
  unfold create_unique_link. intros H. destruct (get_incoming b p) as [[o p1]|] eqn:G; [|discriminate]. apply get_incoming_db in G as [D1 _]. destruct o as [i|].
  - destruct (i =? a) eqn:E; [injection H as <-; rewrite D1; auto|]. apply Nat.eqb_neq in E.
    destruct (get_output_group i (pdb p1)) as [og|]; [|discriminate].
    destruct (match og with Some g => _ | None => _ end) as [p2|] eqn:Q; [|discriminate]. injection H as <-. cbn [pdb with_cache with_db].
    assert (modify (pdb p2) = modify (pdb p) /\ nodes (pdb p2) = nodes (pdb p) /\ (a <> b -> forall x, In (a, x) (normal (pdb p)) -> In (a, x) (normal (pdb p2)))) as [M [N K]].
    { destruct og as [g|]; [apply queue_one_db in Q as [-> _]; cbn [pdb with_db]; rewrite D1|injection Q as <-; rewrite D1; auto].
      split; [reflexivity|]. split; [reflexivity|]. intros Nab x I. apply remove_in_links. split; [exact I|]. tauto. }
    split; [exact M|]. split; [exact N|]. intros Nab x I. apply remove_in_links. split; [auto|]. intros [X _]. congruence.
  - destruct (get_output_group b (pdb p1)) as [[g|]|]; [|injection H as <-; rewrite D1; auto|discriminate].
    apply queue_one_db in H as [-> _]. cbn [pdb with_db]. rewrite D1. split; [reflexivity|]. split; [reflexivity|]. intros Nab x I. apply remove_in_links. split; [exact I|]. tauto.
Qed.
Lemma create_unique_links_keep a bs : forall p p', create_unique_links a bs p = Some p' -> modify (pdb p') = modify (pdb p) /\ nodes (pdb p') = nodes (pdb p) /\
  (~ In a bs -> forall x, In (a, x) (normal (pdb p)) -> In (a, x) (normal (pdb p'))).
Proof.
  induction bs as [|b bs IH]; intros p p' H; [injection H as <-; auto|]. cbn in H. destruct (create_unique_link a b p) as [p1|] eqn:E; [|discriminate].
  apply create_unique_link_keeps in E as [M1 [N1 K1]]. apply IH in H as [M2 [N2 K2]]. split; [congruence|]. split; [congruence|].
  intros N x I. apply K2; [intros J; apply N; right; exact J|]. apply K1; [intros ->; apply N; left; reflexivity|exact I].
Qed.

Lemma pair_dec (a b : nat * nat) : {a = b} + {a <> b}.
Proof. decide equality; apply Nat.eq_dec. Qed.

Lemma create_output_new dt name tf p x ch p' : create_output dt name tf p = Some (x, ch, p') -> forall y n, lookup (pdb p) y = None -> lookup (pdb p') y = Some n -> y = x.
Proof.
  intros H y n L L'. unfold create_output in H. destruct (find_in (pdb p) dt name) as [z|].
  - destruct (lookup (pdb p) z) as [m|] eqn:Lz; [|discriminate]. destruct (kind m); try discriminate.
    + injection H as <- <- <-. cbn [pdb with_db] in L'. rewrite lookup_update, L in L'. destruct (y =? z); discriminate.
    + destruct (delete_links _ z (pq p)) as [[d2 q]|] eqn:E; [|discriminate]. injection H as <- <- <-. apply delete_links_spec in E as [E _]. cbn [pdb with_db with_q] in L'.
      rewrite lookup_update in L'. assert (lookup (add_modify [z] d2) y = lookup (pdb p) y) as X by (unfold lookup; cbn [nodes add_modify]; rewrite E; reflexivity). rewrite X, L in L'. destruct (y =? z); discriminate.
  - injection H as <- <- <-. cbn [pdb with_db] in L'. rewrite lookup_insert in L'. destruct (y =? fresh (pdb p)) eqn:E; [apply Nat.eqb_eq in E; exact E|congruence].
Qed.
Lemma new_outputs tf outs : forall p xs ch p', rule_outputs tf outs p = Some (xs, ch, p') -> wf p -> forall y n, lookup (pdb p) y = None -> lookup (pdb p') y = Some n -> ~ In y xs -> False.
Proof.
  induction outs as [|[dt name] outs IH]; intros p xs ch p' H W y n L L' N; [injection H as <- <- <-; congruence|].
  cbn in H. destruct (validate_output dt name p) as [p1|] eqn:V; [|discriminate]. destruct (validate_output_spec _ _ _ _ V W) as [W1 [D1 A1]].
  destruct (create_output dt name tf p1) as [[[x b] p2]|] eqn:C; [|discriminate]. destruct (create_output_spec _ _ _ _ _ _ _ C W1) as [W2 _].
  destruct (rule_outputs tf outs p2) as [[[ys b'] p3]|] eqn:R; [|discriminate]. destruct (existsb (Nat.eqb x) ys); [discriminate|]. injection H as <- <- <-.
  destruct (lookup (pdb p2) y) as [m|] eqn:L2.
  - apply N. left. symmetry. apply (create_output_new _ _ _ _ _ _ _ C y m); [rewrite D1; exact L|exact L2].
  - apply (IH _ _ _ _ R W2 y n L2 L'). intros I. apply N. right. exact I.
Qed.

Lemma find_in_update x f d dt name : (forall n, dir (f n) = dir n /\ nname (f n) = nname n) -> find_in (update_node x f d) dt name = find_in d dt name.
Proof.
  intros H. unfold find_in, update_node. cbn [nodes with_nodes]. induction (nodes d) as [|[y n] l IH]; [reflexivity|]. cbn [map find fst snd].
  destruct (y =? x); cbn [fst snd]; [destruct (H n) as [-> ->]|]; destruct ((dir n =? dt) && bytes_eqb (nname n) name); auto.
Qed.
Lemma find_in_nodes d d' dt name : nodes d' = nodes d -> find_in d' dt name = find_in d dt name.
Proof. intros H. unfold find_in. rewrite H. reflexivity. Qed.

Lemma create_output_find dt name tf p x ch p' : create_output dt name tf p = Some (x, ch, p') -> forall dt' name' y, find_in (pdb p) dt' name' = Some y -> find_in (pdb p') dt' name' = Some y.
Proof.
  intros H dt' name' y F. unfold create_output in H. destruct (find_in (pdb p) dt name) as [z|] eqn:Fz.
  - destruct (lookup (pdb p) z) as [m|] eqn:Lz; [|discriminate]. destruct (kind m); try discriminate.
    + injection H as <- <- <-. cbn [pdb with_db]. rewrite find_in_update; [exact F|auto].
    + destruct (delete_links _ z (pq p)) as [[d2 q]|] eqn:E; [|discriminate]. injection H as <- <- <-. apply delete_links_spec in E as [E _]. cbn [pdb with_db with_q].
      rewrite find_in_update; [|auto]. rewrite <- F. apply find_in_nodes. exact E.
  - injection H as <- <- <-. cbn [pdb with_db]. unfold find_in. rewrite insert_rows. cbn [find fst snd dir nname].
    destruct ((dt =? dt') && bytes_eqb name name') eqn:E; [|exact F]. apply andb_true_iff in E as [E1 E2]. apply Nat.eqb_eq in E1. apply bytes_eqb_eq in E2. congruence.
Qed.

(** The recorded outputs are found under their names. *)
Definition found (d : db) (o : nat * bytes) (x : nat) : Prop := find_in d (fst o) (snd o) = Some x.
Lemma create_output_found dt name tf p x ch p' : create_output dt name tf p = Some (x, ch, p') -> found (pdb p') (dt, name) x.
Proof.
  intros H. unfold found. cbn [fst snd]. destruct (find_in (pdb p) dt name) as [z|] eqn:F.
  - pose proof (create_output_find _ _ _ _ _ _ _ H _ _ _ F) as F'. unfold create_output in H. rewrite F in H. destruct (lookup (pdb p) z) as [m|]; [|discriminate].
    assert (x = z) as -> by (destruct (kind m); try discriminate; [congruence|destruct (delete_links _ _ _) as [[? ?]|]; congruence]). exact F'.
  - unfold create_output in H. rewrite F in H. injection H as <- <- <-. cbn [pdb with_db]. unfold find_in. rewrite insert_rows. cbn [find fst snd dir nname].
    rewrite Nat.eqb_refl, (proj2 (bytes_eqb_eq name name) eq_refl). reflexivity.
Qed.
Lemma rule_outputs_found tf outs : forall p xs ch p', rule_outputs tf outs p = Some (xs, ch, p') -> wf p ->
  Forall2 (found (pdb p')) outs xs /\ forall o y, found (pdb p) o y -> found (pdb p') o y.
Proof.
  induction outs as [|[dt name] outs IH]; intros p xs ch p' H W; [injection H as <- <- <-; split; [constructor|auto]|].
  cbn in H. destruct (validate_output dt name p) as [p1|] eqn:V; [|discriminate]. destruct (validate_output_spec _ _ _ _ V W) as [W1 [D1 A1]].
  destruct (create_output dt name tf p1) as [[[x b] p2]|] eqn:C; [|discriminate]. destruct (create_output_spec _ _ _ _ _ _ _ C W1) as [W2 _].
  destruct (rule_outputs tf outs p2) as [[[ys b'] p3]|] eqn:R; [|discriminate]. destruct (existsb (Nat.eqb x) ys); [discriminate|]. injection H as <- <- <-.
  destruct (IH _ _ _ _ R W2) as [F K]. split; [constructor; [apply K; eapply create_output_found; exact C|exact F]|].
  intros o y Fo. apply K. unfold found in *. apply (create_output_find _ _ _ _ _ _ _ C). rewrite D1. exact Fo.
Qed.
Lemma found_insert n d o y : find_in d (dir n) (nname n) = None -> found d o y -> found (insert_node n d) o y.
Proof.
  unfold found. intros F Fo. destruct o as [dt name]. cbn [fst snd] in *. unfold find_in. rewrite insert_rows. cbn [find fst snd].
  destruct ((dir n =? dt) && bytes_eqb (nname n) name) eqn:E; [|exact Fo]. apply andb_true_iff in E as [E1 E2]. apply Nat.eqb_eq in E1. apply bytes_eqb_eq in E2. congruence.
Qed.
Lemma found_rename d c tf cmd o x : find_in d tf cmd = None -> x <> c -> found d o x -> found (update_node c (set_name cmd tf) d) o x.
Proof.
  unfold found. destruct o as [dt name]. cbn [fst snd]. intros F N Fo.
  assert (Ne : ~ (tf = dt /\ cmd = name)) by (intros [-> ->]; congruence). clear F.
  unfold find_in, update_node in *. cbn [nodes with_nodes]. induction (nodes d) as [|[y n] l IH]; [discriminate|]. cbn [find map fst snd] in *.
  destruct (y =? c) eqn:Ec.
  - cbn [fst snd set_name dir nname]. destruct ((tf =? dt) && bytes_eqb cmd name) eqn:E; [apply andb_true_iff in E as [E1 E2]; apply Nat.eqb_eq in E1; apply bytes_eqb_eq in E2; tauto|].
    destruct ((dir n =? dt) && bytes_eqb (nname n) name); [injection Fo as ->; apply Nat.eqb_eq in Ec; contradiction|auto].
  - cbn [fst snd]. destruct ((dir n =? dt) && bytes_eqb (nname n) name); auto.
Qed.

Lemma rule_group_found grp p g p' : rule_group grp p = Some (g, p') -> forall o x, found (pdb p) o x -> found (pdb p') o x.
Proof.
  intros H o x F. unfold rule_group in H. destruct grp as [[dt nm]|]; [|injection H as <- <-; exact F]. destruct (find_in (pdb p) dt nm) eqn:Ff; [destruct (has_kind _ _ _); [|discriminate]; injection H as <- <-; exact F|].
  injection H as <- <-. cbn [pdb with_db]. apply found_insert; assumption.
Qed.
Lemma rule_command_found tf cmd xs p c ch p' : rule_command tf cmd xs p = Some (c, ch, p') -> wf p -> (forall y, In y xs -> is_kind (pdb p) TGenerated y) ->
  forall o x, x <> c -> found (pdb p) o x -> found (pdb p') o x.
Proof.
  intros H W K o x N F. unfold rule_command in H. destruct (find_in (pdb p) tf cmd) eqn:Fc; [destruct (has_kind _ _ _); [|discriminate]; injection H as <- <- <-; exact F|].
  destruct (find_existing _ p) as [[[c'|] q]|] eqn:Fe; [| |discriminate]; injection H as <- <- <-; destruct (find_existing_spec _ _ _ _ Fe W K) as [_ [Dq _]]; cbn [pdb with_db]; rewrite Dq in *.
  - apply found_rename; assumption.
  - apply found_insert; assumption.
Qed.

Lemma declare_spec tf r p p' : declare tf r p = Some p' -> wf p ->
  wf p' /\ pwait p' = pwait p /\ exists c xs g,
    (exists n, lookup (pdb p') c = Some n /\ kind n = TCmd /\ dir n = tf /\ nname n = r_cmd r) /\
    Forall2 (named (pdb p') tf) (r_outs r ++ r_extra r) xs /\ Forall2 (found (pdb p')) (r_outs r ++ r_extra r) xs /\
    (forall y, In (c, y) (normal (pdb p')) <-> In y xs \/ g = Some y) /\
    (forall y, g = Some y -> is_kind (pdb p') TGroup y) /\
    pcmds p' = c :: pcmds p /\ pdel p' = remove_id c (pdel p) /\
    (~ In c (modify (pdb p')) ->
      (exists n, lookup (pdb p) c = Some n /\ kind n = TCmd /\ dir n = tf /\ nname n = r_cmd r) /\
      (forall y, In (c, y) (normal (pdb p')) -> In (c, y) (normal (pdb p))) /\
      (forall y, In (c, y) (normal (pdb p)) -> ~ is_kind (pdb p) TGhost y -> In (c, y) (normal (pdb p')))).
Proof.
  intros H W. unfold declare in H. destruct (rule_outputs tf (r_outs r ++ r_extra r) p) as [[[xs m1] p1]|] eqn:E1; [|discriminate].
  destruct (rule_outputs_spec _ _ _ _ _ _ E1 W) as [W1 [G1 [A1 [ND [F1 O1]]]]].
  destruct (rule_group (r_group r) p1) as [[g p2]|] eqn:E2; [|discriminate]. destruct (rule_group_spec _ _ _ _ E2 W1) as [W2 [G2 [A2 [KG O2]]]].
  destruct (rule_command tf (r_cmd r) (firstn (length (r_outs r)) xs) p2) as [[[c m2] p3]|] eqn:E3; [|discriminate].
  assert (X1 : forall x, In x xs -> exists o, named (pdb p1) tf o x).
  { intros x I. clear - F1 I. induction F1 as [|o y os ys N F IH]; [destruct I|]. destruct I as [<-|I]; eauto. }
  assert (X2 : forall x, In x xs -> is_kind (pdb p2) TGenerated x).
  { intros x I. destruct (X1 x I) as [o [n [L [_ [_ [K _]]]]]]. exists n. split; [apply O2; exact L|exact K]. }
  assert (Xf : forall y, In y (firstn (length (r_outs r)) xs) -> is_kind (pdb p2) TGenerated y).
  { intros y I. apply X2. clear - I. revert I; generalize (length (r_outs r)); induction xs as [|z ys IH]; intros [|k] I; cbn in I; [destruct I..|]; destruct I as [<-|I]; [left; reflexivity|right; eauto]. }
  destruct (rule_command_spec _ _ _ _ _ _ _ E3 W2 Xf) as [W3 [A3 [L3 [C3 [O3 [Kc M3]]]]]].
  assert (Xc : ~ In c xs).
  { intros I. destruct (X2 c I) as [n [L K]]. destruct Kc as [Kc|[m [Lm Km]]]; congruence. }
  assert (X3 : forall x, In x xs -> is_kind (pdb p3) TGenerated x).
  { intros x I. destruct (X2 x I) as [n [L K]]. exists n. split; [apply O3; [intros ->; contradiction|exact L]|exact K]. }
  destruct (mem c (pcmds p3)); [discriminate|]. set (q3 := {| pdb := pdb p3; cache := cache p3; pdel := remove_id c (pdel p3); pwait := pwait p3; pcmds := c :: pcmds p3; pq := pq p3 |}) in *.
  assert (W3' : wf q3) by (apply (wf_same p3); [reflexivity|reflexivity|exact W3]).
  destruct (create_unique_links c xs q3) as [p4|] eqn:E4; [|discriminate].
  destruct (create_unique_links_spec _ _ _ _ E4 W3' X3 ND) as [W4 [S4 [A4 [P4 C4]]]]. destruct (create_unique_links_keep _ _ _ _ E4) as [M4 [N4 K4]].
  assert (Kd : forall x, lookup (pdb p4) x = lookup (pdb p3) x) by (intros x; unfold lookup; rewrite N4; reflexivity).
  destruct C3 as [nc [Lc [Knc [Dc Nc]]]].
  assert (Gk : forall y, g = Some y -> is_kind (pdb p4) TGroup y).
  { intros y E. destruct (KG y E) as [n [L K]]. exists n. split; [|exact K]. rewrite Kd. apply O3; [|exact L]. intros ->. destruct Kc as [Kc|[m [Lm Km]]]; congruence. }
  destruct (write_outputs_spec _ _ _ _ _ _ H W4) as [W5 [N5 [A5 [L5 [LO5 [M5 I5]]]]]].
  { exists nc. rewrite Kd. auto. }
  { intros x I. destruct (X3 x I) as [n [L K]]. split; [exists n; rewrite Kd; auto|]. apply P4. exact I. }
  { exact Gk. }
  assert (Kd5 : forall x, lookup (pdb p') x = lookup (pdb p3) x) by (intros x; unfold lookup; rewrite N5, N4; reflexivity).
  split; [exact W5|]. split; [unfold aside in *; cbn in *; intuition congruence|]. exists c, xs, g.
  split; [exists nc; rewrite Kd5; auto|]. split; [|split; [|split; [exact L5|split; [|split; [|split]]]]].
  - clear - F1 O2 O3 Kd5 Xc. induction F1 as [|o x os ys N F IH]; constructor; [|apply IH; intros I; apply Xc; right; exact I].
    destruct N as [n [L R]]. exists n. split; [|exact R]. rewrite Kd5. apply O3; [intros ->; apply Xc; left; reflexivity|]. apply O2. exact L.
  - destruct (rule_outputs_found _ _ _ _ _ _ E1 W) as [Fd _]. assert (forall o x, In x xs -> found (pdb p1) o x -> found (pdb p') o x) as FF.
    { intros o x I F. unfold found. rewrite (find_in_nodes (pdb p3)) by (rewrite N5, N4; reflexivity). apply (rule_command_found _ _ _ _ _ _ _ E3 W2 Xf); [intros ->; contradiction|]. apply (rule_group_found _ _ _ _ E2). exact F. }
    clear - Fd FF. induction Fd as [|o x os ys N F IH]; constructor; [apply FF; [left; reflexivity|exact N]|]. apply IH. intros o' x' I. apply FF. right. exact I.
  - intros y E. destruct (Gk y E) as [n [L K]]. exists n. rewrite Kd5, <- Kd. auto.
  - unfold aside in *; cbn in *; intuition congruence.
  - assert (pdel p' = pdel p4) as -> by apply A5. assert (pdel p4 = remove_id c (pdel p3)) as -> by apply A4. f_equal. unfold aside in *. intuition congruence.
  - intros NM. assert (Nm : m1 || m2 = false) by (destruct (m1 || m2); [exfalso; apply NM, M5; right; reflexivity|reflexivity]). apply orb_false_iff in Nm as [-> ->].
    destruct M3 as [M3|[M3|M3]]; [discriminate|exfalso; apply NM, I5; rewrite M4; exact M3|]. subst p3.
    assert (Lp : lookup (pdb p) c = Some nc \/ lookup (pdb p) c = None).
    { destruct (lookup (pdb p) c) as [m|] eqn:Em; [left|auto]. specialize (O1 c m Xc Em). apply O2 in O1. congruence. }
    (* the command is not one of the new rows *)
    assert (Lp' : lookup (pdb p) c = Some nc).
    { destruct Lp as [Lp|Lp]; [exact Lp|]. exfalso.
      assert (lookup (pdb p1) c = Some nc \/ lookup (pdb p1) c = None) as Lq by (destruct (lookup (pdb p1) c) as [m|] eqn:Em; [left; apply O2 in Em; congruence|auto]).
      destruct Lq as [Lq|Lq].
      - apply (new_outputs _ _ _ _ _ _ E1 W c nc Lp Lq Xc).
      - unfold rule_group in E2. destruct (r_group r) as [[dt nm]|]; [|injection E2 as <- <-; congruence]. destruct (find_in (pdb p1) dt nm) as [x|]; [destruct (has_kind _ _ x); [|discriminate]; injection E2 as <- <-; congruence|].
        injection E2 as <- <-. cbn [pdb with_db] in Lc. rewrite lookup_insert in Lc. destruct (c =? fresh (pdb p1)); [|congruence]. injection Lc as <-. discriminate. }
    split; [exists nc; auto|].
    assert (I14 : incl (normal (pdb p4)) (normal (pdb p))) by (eapply incl_tran; [apply S4|]; cbn [q3 pdb]; eapply incl_tran; [apply G2|apply G1]).
    split.
    + intros y I. destruct (in_dec pair_dec (c, y) (normal (pdb p4))) as [J|J]; [apply I14; exact J|]. exfalso. apply NM, M5. left. exists y. right. auto.
    + intros y I Ny. destruct (in_dec pair_dec (c, y) (normal (pdb p'))) as [J|J]; [exact J|]. exfalso. apply NM, M5. left. exists y. left. split; [|exact J].
      apply K4; [exact Xc|]. cbn [q3 pdb]. pose proof (s_rows _ (w_sound _ W) _ _ I) as [R1 R2].
      assert (Nk : ~ is_kind (pdb p) TGhost c) by (intros [m [Lm Km]]; congruence).
      apply G2; [apply G1; auto| |]; intros K; [apply Nk|apply Ny]; apply (grows_back _ _ _ G1); auto.
Qed.
