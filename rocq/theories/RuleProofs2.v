From Verif Require Import Base ConfigModel DbModel DbSpec DbProofs DbProofs3 RuleModel RuleSpec RuleProofs.

Lemma mem_spec x l : mem x l = true <-> In x l.
Proof. unfold mem. rewrite existsb_exists. split; [intros [y [I E]]; apply Nat.eqb_eq in E; subst; exact I|intros I; exists x; split; [exact I|apply Nat.eqb_refl]]. Qed.
Lemma mem_false x l : mem x l = false <-> ~ In x l.
Proof. rewrite <- mem_spec. destruct (mem x l); split; congruence. Qed.

Lemma grows_kind d d' k x : grows d d' -> is_kind d k x -> k <> TGhost -> is_kind d' k x.
Proof. intros [G _] [n [L K]] N. destruct (G x n L) as [n' [L' [_ [_ [E|[E _]]]]]]; [exists n'; split; [exact L'|congruence]|congruence]. Qed.
Lemma grows_refl d : grows d d.
Proof. split; [|split; [apply incl_refl|auto]]. intros x n L. exists n. auto. Qed.
Lemma grows_back d d' x : grows d d' -> lookup d x <> None -> is_kind d' TGhost x -> is_kind d TGhost x.
Proof.
  intros [G _] N [n [L K]]. destruct (lookup d x) as [m|] eqn:E; [|contradiction]. destruct (G x m E) as [n' [L' [_ [_ [F|[F _]]]]]]; exists m; (split; [exact E|]); congruence.
Qed.
Lemma grows_trans a b c : sound a -> grows a b -> grows b c -> grows a c.
Proof.
  intros S G1 G2. pose proof G1 as [A1 [A2 A3]]. pose proof G2 as [B1 [B2 B3]]. split; [|split].
  - intros x n L. destruct (A1 x n L) as [n' [L' [D1 [N1 K1]]]]. destruct (B1 x n' L') as [n2 [L2 [D2 [N2 K2]]]]. exists n2. split; [exact L2|]. split; [congruence|]. split; [congruence|].
    destruct K1 as [K1|[K1 K1']], K2 as [K2|[K2 K2']]; [left; congruence|right; split; congruence|right; split; congruence|congruence].
  - eapply incl_tran; eauto.
  - intros x y I Nx Ny. pose proof (s_rows _ S x y I) as [Ix Iy]. apply B3; [apply A3; assumption| |]; intros K; [apply Nx|apply Ny]; apply (grows_back a b); assumption.
Qed.

Lemma validate_output_spec dt name p p' : validate_output dt name p = Some p' -> wf p -> wf p' /\ pdb p' = pdb p /\ aside p p'.
Proof.
  unfold validate_output. intros H W. destruct (find_in (pdb p) dt name) as [x|]; [|injection H as <-; split; [exact W|]; repeat split].
  destruct (lookup (pdb p) x) as [n|] eqn:L; [|discriminate].
  assert (kind n = TGhost \/ kind n = TGenerated) as K by (destruct (kind n); auto; discriminate).
  assert (match get_incoming x p with None => None | Some (None, p) => Some p | Some (Some c, p) => if existsb (Nat.eqb c) (pdel p) || match src n with Some s => existsb (Nat.eqb s) (pwait p) | None => false end then Some p else None end = Some p') as H' by (destruct K as [K|K]; rewrite K in H; exact H).
  clear H. destruct (get_incoming x p) as [[o p1]|] eqn:G; [|discriminate].
  assert (p1 = p') as <- by (destruct o; [destruct (_ || _) in H'; [|discriminate]|]; congruence).
  destruct (get_incoming_db _ _ _ _ G) as [D A]. split; [|auto]. apply (get_incoming_wf _ _ _ _ G W). destruct K; [right|left]; exists n; auto.
Qed.

Definition named (d : db) (tf : nat) (o : nat * bytes) (x : nat) : Prop :=
  exists n, lookup d x = Some n /\ dir n = fst o /\ nname n = snd o /\ kind n = TGenerated /\ src n = Some tf.
Lemma rule_outputs_spec tf outs : forall p xs ch p', rule_outputs tf outs p = Some (xs, ch, p') -> wf p ->
  wf p' /\ grows (pdb p) (pdb p') /\ aside p p' /\ NoDup xs /\ Forall2 (named (pdb p') tf) outs xs /\
  (forall y n, ~ In y xs -> lookup (pdb p) y = Some n -> lookup (pdb p') y = Some n).
Proof.
  induction outs as [|[dt name] outs IH]; intros p xs ch p' H W.
  - injection H as <- <- <-. split; [exact W|]. split; [apply grows_refl|]. split; [repeat split|]. split; [constructor|]. split; [constructor|auto].
  - cbn in H. destruct (validate_output dt name p) as [p1|] eqn:V; [|discriminate]. destruct (validate_output_spec _ _ _ _ V W) as [W1 [D1 A1]].
    destruct (create_output dt name tf p1) as [[[x b] p2]|] eqn:C; [|discriminate]. destruct (create_output_spec _ _ _ _ _ _ _ C W1) as [W2 [K2 [G2 [A2 [[n [L2 [S2 [Dn Nn]]]] O2]]]]].
    destruct (rule_outputs tf outs p2) as [[[ys b'] p3]|] eqn:R; [|discriminate]. destruct (IH _ _ _ _ R W2) as [W3 [G3 [A3 [ND [F O3]]]]].
    destruct (existsb (Nat.eqb x) ys) eqn:E; [discriminate|]. injection H as <- <- <-. apply mem_false in E.
    split; [exact W3|]. split; [rewrite <- D1; apply (grows_trans _ (pdb p2)); [apply W1|exact G2|exact G3]|]. split; [unfold aside in *; intuition congruence|].
    split; [constructor; assumption|]. split.
    + constructor; [|exact F]. exists n. cbn. rewrite (O3 x n E L2). destruct K2 as [m [Lm Km]]. assert (m = n) as -> by congruence. auto.
    + intros y m N L. apply O3; [intros I; apply N; right; exact I|]. apply O2; [intros ->; apply N; left; reflexivity|]. rewrite D1. exact L.
Qed.

Lemma rule_group_spec grp p g p' : rule_group grp p = Some (g, p') -> wf p ->
  wf p' /\ grows (pdb p) (pdb p') /\ aside p p' /\ (forall y, g = Some y -> is_kind (pdb p') TGroup y) /\ (forall y n, lookup (pdb p) y = Some n -> lookup (pdb p') y = Some n).
Proof.
  intros H W. unfold rule_group in H. destruct grp as [[dt name]|].
  - destruct (find_in (pdb p) dt name) as [x|].
    + destruct (has_kind (pdb p) [TGroup] x) eqn:K; [|discriminate]. injection H as <- <-. split; [exact W|]. split; [apply grows_refl|]. split; [repeat split|]. split; [|auto].
      intros y E. injection E as <-. apply has_kind_spec in K as [n [L [K|[]]]]. exists n. auto.
    + injection H as <- <-. cbn [pdb with_db]. split; [apply wf_insert; [discriminate|exact W]|]. split; [|split; [repeat split|split]].
      * unfold grows. rewrite insert_normal. split; [|split; [apply incl_refl|auto]]. intros x n L. exists n. rewrite (insert_old _ _ _ _ L). auto.
      * intros y E. injection E as <-. eexists. rewrite lookup_insert, Nat.eqb_refl. split; reflexivity.
      * intros y n L. apply insert_old. exact L.
  - injection H as <- <-. split; [exact W|]. split; [apply grows_refl|]. split; [repeat split|]. split; [discriminate|auto].
Qed.

Lemma find_existing_spec xs : forall p o p', find_existing xs p = Some (o, p') -> wf p -> (forall x, In x xs -> is_kind (pdb p) TGenerated x) ->
  wf p' /\ pdb p' = pdb p /\ aside p p' /\ (forall c, o = Some c -> is_kind (pdb p) TCmd c).
Proof.
  induction xs as [|x xs IH]; intros p o p' H W K.
  - injection H as <- <-. split; [exact W|]. split; [reflexivity|]. split; [repeat split|discriminate].
  - cbn in H. destruct (get_incoming x p) as [[[c|] p1]|] eqn:G; [| |discriminate].
    + injection H as <- <-. destruct (get_incoming_db _ _ _ _ G) as [D A]. destruct (get_incoming_wf _ _ _ _ G W) as [W1 C]; [left; apply K; left; reflexivity|]. auto.
    + destruct (get_incoming_db _ _ _ _ G) as [D A]. destruct (get_incoming_wf _ _ _ _ G W) as [W1 C]; [left; apply K; left; reflexivity|].
      destruct (IH _ _ _ H W1) as [W2 [D2 [A2 C2]]]; [intros y I; rewrite D; apply K; right; exact I|]. split; [exact W2|]. split; [congruence|]. split; [unfold aside in *; intuition congruence|]. rewrite <- D. exact C2.
Qed.

Lemma rule_command_spec tf cmd xs p c ch p' : rule_command tf cmd xs p = Some (c, ch, p') -> wf p -> (forall x, In x xs -> is_kind (pdb p) TGenerated x) ->
  wf p' /\ aside p p' /\ normal (pdb p') = normal (pdb p) /\
  (exists n, lookup (pdb p') c = Some n /\ kind n = TCmd /\ dir n = tf /\ nname n = cmd) /\
  (forall y n, y <> c -> lookup (pdb p) y = Some n -> lookup (pdb p') y = Some n) /\ (lookup (pdb p) c = None \/ is_kind (pdb p) TCmd c) /\
  (ch = true \/ In c (modify (pdb p')) \/ p' = p).
Proof.
  intros H W K. unfold rule_command in H. destruct (find_in (pdb p) tf cmd) as [c'|] eqn:F.
  - destruct (has_kind (pdb p) [TCmd] c') eqn:Kc; [|discriminate]. injection H as <- <- <-. apply has_kind_spec in Kc as [n [L [Kn|[]]]].
    destruct (find_in_lookup _ _ _ _ (s_ids _ (w_sound _ W)) F) as [n' [L' [D N]]]. assert (n' = n) as -> by congruence.
    split; [exact W|]. split; [repeat split|]. split; [reflexivity|]. split; [exists n; auto|]. split; [auto|]. split; [right; exists n; auto|auto].
  - destruct (find_existing xs p) as [[[c'|] p1]|] eqn:E; [| |discriminate]; destruct (find_existing_spec _ _ _ _ E W K) as [W1 [D1 [A1 C1]]]; injection H as <- <- <-; cbn [pdb with_db].
    + assert (same_kinds (pdb p1) (update_node c' (set_name cmd tf) (pdb p1))) as SK by (apply same_kinds_update; reflexivity).
      destruct (C1 c' eq_refl) as [n [L Kn]]. split; [|split; [unfold aside in *; cbn; tauto|split; [cbn; rewrite D1; reflexivity|split; [|split; [|split; [|auto]]]]]].
      * apply (wf_shrinks p1); [exact W1| |auto]. cbn. split; [exact SK|]. split; [apply ids_update|apply incl_refl].
      * rewrite lookup_update, Nat.eqb_refl, D1, L. cbn. eexists. split; [reflexivity|]. cbn. auto.
      * intros y m N Ly. rewrite lookup_update, D1. apply Nat.eqb_neq in N. rewrite N. exact Ly.
      * right. exists n. auto.
    + rewrite D1. split; [rewrite <- D1; apply wf_insert; [discriminate|exact W1]|]. split; [unfold aside in *; cbn; tauto|]. split; [apply insert_normal|]. split; [|split; [|split]].
      * eexists. rewrite lookup_insert, Nat.eqb_refl. split; [reflexivity|]. auto.
      * intros y m N Ly. apply insert_old. exact Ly.
      * left. apply lookup_fresh.
      * right. left. left. reflexivity.
Qed.

(** Recording the outputs. *)
Lemma insert_in_links a b d x y : In (x, y) (normal (link_insert a b d)) <-> (x = a /\ y = b) \/ In (x, y) (normal d).
Proof. cbn. split; (intros [H|H]; [left|right; exact H]); [injection H as -> ->; auto|destruct H as [-> ->]; reflexivity]. Qed.

Section Fold.
  Variables (f : nat -> db -> db) (Q : nat -> nat -> nat -> Prop).
  Lemma fold_nodes : (forall x d, nodes (f x d) = nodes d) -> forall l d, nodes (fold_db f l d) = nodes d.
  Proof. intros H l. induction l as [|x l IH]; intros d; [reflexivity|]. change (nodes (fold_db f l (f x d)) = nodes d). rewrite IH. apply H. Qed.
  Lemma fold_add : (forall x d a b, In (a, b) (normal (f x d)) <-> In (a, b) (normal d) \/ Q x a b) ->
    forall l d a b, In (a, b) (normal (fold_db f l d)) <-> In (a, b) (normal d) \/ exists x, In x l /\ Q x a b.
  Proof.
    intros H l. induction l as [|x l IH]; intros d a b; [cbn; split; [auto|intros [I|[x [[] _]]]; exact I]|].
    change (fold_db f (x :: l) d) with (fold_db f l (f x d)). rewrite IH, H. split.
    - intros [[I|I]|[y [Y1 Y2]]]; [auto|right; exists x; split; [left; reflexivity|exact I]|right; exists y; split; [right; exact Y1|exact Y2]].
    - intros [I|[y [[->|Y1] Y2]]]; [auto|auto|right; eauto].
  Qed.
  Lemma fold_del : (forall x d a b, In (a, b) (normal (f x d)) <-> In (a, b) (normal d) /\ ~ Q x a b) ->
    forall l d a b, In (a, b) (normal (fold_db f l d)) <-> In (a, b) (normal d) /\ forall x, In x l -> ~ Q x a b.
  Proof.
    intros H l. induction l as [|x l IH]; intros d a b; [cbn; tauto|].
    change (fold_db f (x :: l) d) with (fold_db f l (f x d)). rewrite IH, H. split.
    - intros [[I1 I2] I3]. split; [exact I1|]. intros y [<-|Y]; auto.
    - intros [I1 I2]. split; [split; [exact I1|apply I2; left; reflexivity]|]. intros y Y. apply I2. right. exact Y.
  Qed.
End Fold.

Lemma get_output_group_spec d x o : get_output_group x d = Some o -> forall g, In (x, g) (normal d) -> is_kind d TGroup g -> o = Some g.
Proof.
  unfold get_output_group. intros H g I K. assert (In g (filter (has_kind d [TGroup]) (tos (normal d) x))) as J.
  { apply filter_In. split; [apply tos_in; exact I|]. apply has_kind_spec. destruct K as [n [L K]]. exists n. rewrite K. cbn. auto. }
  destruct (filter _ _) as [|h t]; [destruct J|]. destruct (forallb (Nat.eqb h) t) eqn:F; [|discriminate]. injection H as <-.
  destruct J as [->|J]; [reflexivity|]. rewrite forallb_forall in F. specialize (F g J). apply Nat.eqb_eq in F. congruence.
Qed.
Lemma get_output_group_group d x g : get_output_group x d = Some (Some g) -> In (x, g) (normal d) /\ is_kind d TGroup g.
Proof.
  unfold get_output_group. intros H. destruct (filter (has_kind d [TGroup]) (tos (normal d) x)) as [|h t] eqn:E; [discriminate|].
  assert (In h (filter (has_kind d [TGroup]) (tos (normal d) x))) as I by (rewrite E; left; reflexivity).
  destruct (forallb _ t); [|discriminate]. injection H as <-. apply filter_In in I as [I1 I2]. split; [apply tos_in; exact I1|].
  apply has_kind_spec in I2 as [n [L [K|[]]]]. exists n. auto.
Qed.
Lemma opt_eqb_spec a b : opt_eqb a b = true <-> a = b.
Proof. destruct a, b; cbn; rewrite ?Nat.eqb_eq; split; congruence. Qed.

Lemma write_outputs_spec c xs group md p p' : write_outputs c xs group md p = Some p' -> wf p -> is_kind (pdb p) TCmd c ->
  (forall x, In x xs -> is_kind (pdb p) TGenerated x /\ (forall e, produces (pdb p) e x -> e = c) /\ (cache p x = None \/ cache p x = Some c)) ->
  (forall g, group = Some g -> is_kind (pdb p) TGroup g) ->
  wf p' /\ nodes (pdb p') = nodes (pdb p) /\ aside p p' /\
  (forall y, In (c, y) (normal (pdb p')) <-> In y xs \/ group = Some y) /\
  (forall a b, a <> c -> ~ In a xs -> In (a, b) (normal (pdb p')) -> In (a, b) (normal (pdb p))) /\
  ((exists y, (In (c, y) (normal (pdb p)) /\ ~ In (c, y) (normal (pdb p'))) \/ (~ In (c, y) (normal (pdb p)) /\ In (c, y) (normal (pdb p')))) \/ md = true -> In c (modify (pdb p'))) /\
  incl (modify (pdb p)) (modify (pdb p')).
Proof.
  intros H W Kc Kx Kg. unfold write_outputs in H. set (d := pdb p) in *.
  set (old := filter (fun x => negb (has_kind d [TGroup] x)) (tos (normal d) c)) in *.
  destruct (get_output_group c d) as [og|] eqn:G; [|discriminate].
  set (same := opt_eqb og group) in *.
  set (d1 := if same then d else _) in H. set (pod := if same then group else None) in *.
  set (removed := filter (fun x => negb (mem x xs)) old) in *. set (added := filter (fun x => negb (mem x old)) xs) in *.
  set (d2 := fold_db (add_output c pod) added (fold_db (rm_output c pod) removed d1)) in *.
  set (differ := md || negb same || _) in *. set (d3 := if differ then _ else d2) in H. cbv zeta in H.
  assert (Iold : forall x, In x old <-> In (c, x) (normal d) /\ ~ is_kind d TGroup x).
  { intros x. unfold old. rewrite filter_In, tos_in, negb_true_iff. split; intros [I1 I2]; (split; [exact I1|]).
    - intros [n [L K]]. assert (has_kind d [TGroup] x = true) as X; [|congruence]. apply has_kind_spec. exists n. rewrite K. cbn. auto.
    - destruct (has_kind d [TGroup] x) eqn:E; [|reflexivity]. apply has_kind_spec in E as [n [L [K|[]]]]. destruct I2. exists n. auto. }
  assert (Irem : forall x, In x removed <-> In x old /\ ~ In x xs) by (intros x; unfold removed; rewrite filter_In, negb_true_iff, mem_false; reflexivity).
  assert (Iadd : forall x, In x added <-> In x xs /\ ~ In x old) by (intros x; unfold added; rewrite filter_In, negb_true_iff, mem_false; reflexivity).
  assert (PD : pdb p' = d3 /\ cache p' = cache p /\ aside p p').
  { destruct og as [g|]; [destruct same|]; [injection H as <-; repeat split|apply queue_one_db in H as [H1 [H2 H3]]; repeat split; try assumption; apply H2|injection H as <-; repeat split]. }
  clear H. destruct PD as [PD [PC PA]]. rewrite PD.
  assert (N1 : nodes d1 = nodes d /\ forall a b, In (a, b) (normal d1) <->
    (In (a, b) (normal d) /\ ~ (same = false /\ og = Some b /\ (a = c \/ In a old))) \/ (same = false /\ group = Some b /\ (a = c \/ In a xs))).
  { unfold d1. destruct same eqn:Es; [split; [reflexivity|]; intros a b; split; [intros I; left; split; [exact I|intros [X _]; discriminate]|intros [[I _]|[X _]]; [exact I|discriminate]]|].
    assert (og <> group) as Ne by (intros E; apply opt_eqb_spec in E; unfold same in Es; congruence).
    set (e1 := match group with Some g => _ | None => d end).
    assert (nodes e1 = nodes d /\ forall a b, In (a, b) (normal e1) <-> In (a, b) (normal d) \/ (group = Some b /\ (a = c \/ In a xs))) as [M1 M2].
    { unfold e1. destruct group as [g|]; [|split; [reflexivity|]; intros a b; split; [auto|intros [I|[X _]]; [exact I|discriminate]]]. split.
      - cbn [nodes link_insert with_links]. apply fold_nodes. reflexivity.
      - intros a b. rewrite insert_in_links, (fold_add _ (fun x a b => a = x /\ b = g)); [|intros; rewrite insert_in_links; tauto]. split.
        + intros [[-> ->]|[I|[x [Ix [-> ->]]]]]; auto.
        + intros [I|[X [->|I]]]; [auto|injection X as ->; auto|injection X as ->; right; right; eauto]. }
    clearbody e1. destruct og as [g|]; [split|split].
    - cbn [nodes add_modify link_remove with_links]. rewrite fold_nodes; [exact M1|reflexivity].
    - intros a b. cbn [normal add_modify]. rewrite remove_in_links, (fold_del _ (fun x a b => a = x /\ b = g)); [|intros; cbn [normal modify_cmds_by_input add_modify]; apply remove_in_links]. rewrite M2. split.
      + intros [[[I|I] J1] J2]; [left|right; auto]. split; [exact I|]. intros [_ [X [->|Y]]]; injection X as ->; [apply J2; auto|apply (J1 a Y); auto].
      + intros [[I J]|[_ [X I]]]; (split; [split|]); auto.
        * intros x Ix [-> ->]. apply J. auto.
        * intros [-> ->]. apply J. auto.
        * intros x Ix [-> ->]. congruence.
        * intros [-> ->]. congruence.
    - exact M1.
    - intros a b. rewrite M2. split; [intros [I|I]; [left; split; [exact I|intros [_ [X _]]; discriminate]|auto]|intros [[I _]|[_ I]]; auto]. }
  destruct N1 as [N1 L1].
  assert (Nrm : forall x e, nodes (rm_output c pod x e) = nodes e) by (intros; unfold rm_output; destruct pod; reflexivity).
  assert (Nad : forall x e, nodes (add_output c pod x e) = nodes e) by (intros; unfold add_output; destruct pod; reflexivity).
  assert (N2 : nodes d2 = nodes d) by (unfold d2; rewrite !fold_nodes; [exact N1|exact Nrm|exact Nad]).
  assert (L2 : forall a b, In (a, b) (normal d2) <->
    (In (a, b) (normal d1) /\ ~ (a = c /\ In b removed) /\ ~ (pod = Some b /\ In a removed)) \/ (a = c /\ In b added) \/ (pod = Some b /\ In a added)).
  { intros a b. unfold d2. rewrite (fold_add _ (fun x a b => (a = c /\ b = x) \/ (a = x /\ pod = Some b))), (fold_del _ (fun x a b => (a = c /\ b = x) \/ (a = x /\ pod = Some b))).
    - split.
      + intros [[I J]|[x [Ix [[-> ->]|[-> E]]]]]; [left|auto|auto]. split; [exact I|]. split; intros [X Y]; [exact (J b Y (or_introl (conj X eq_refl)))|exact (J a Y (or_intror (conj eq_refl X)))].
      + intros [[I [J1 J2]]|[[-> I]|[E I]]]; [left; split; [exact I|]; intros x Ix [[-> ->]|[-> E]]; [apply J1|apply J2]; auto|right; exists b; auto|right; exists a; auto].
    - intros x e a' b'. unfold rm_output. destruct pod as [g|]; rewrite ?remove_in_links.
      + split; [intros [[I J1] J2]; split; [exact I|]; intros [X|[-> X]]; [auto|injection X as ->; auto]|].
        intros [I J]. split; [split; [exact I|auto]|]. intros [-> ->]. auto.
      + split; intros [I J]; (split; [exact I|]); [intros [X|[_ X]]; [auto|discriminate]|auto].
    - intros x e a' b'. unfold add_output. destruct pod as [g|]; rewrite ?insert_in_links.
      + split; [intros [[-> ->]|[[-> ->]|I]]; auto|]. intros [I|[[-> ->]|[-> X]]]; auto. injection X as ->. auto.
      + split; [intros [[-> ->]|I]; auto|]. intros [I|[[-> ->]|[-> X]]]; auto. discriminate. }
  assert (N3 : nodes d3 = nodes d /\ normal d3 = normal d2) by (unfold d3; destruct differ; auto).
  destruct N3 as [N3 L3].
  assert (Kd : forall k x, is_kind d3 k x <-> is_kind d k x) by (intros k x; unfold is_kind, lookup; rewrite N3; reflexivity).
  assert (Kout : forall x, In x xs -> ~ is_kind d TGroup x).
  { intros x I [n [L K]]. destruct (Kx x I) as [[m [Lm Km]] _]. congruence. }
  assert (LC : forall y, In (c, y) (normal d3) <-> In y xs \/ group = Some y).
  { intros y. rewrite L3, L2, L1, !Irem, !Iadd. assert (Nc : ~ In c xs) by (intros I; destruct (Kx c I) as [[m [Lm Km]] _]; destruct Kc as [m' [Lm' Km']]; congruence).
    assert (Gy : In (c, y) (normal d) -> is_kind d TGroup y -> og = Some y) by apply (get_output_group_spec _ _ _ G).
    assert (Dk : is_kind d TGroup y \/ ~ is_kind d TGroup y).
    { unfold is_kind. destruct (lookup d y) as [n|]; [|right; intros [n [X _]]; discriminate]. destruct (ntype_eqb (kind n) TGroup) eqn:E.
      - left. exists n. split; [reflexivity|]. destruct (kind n); cbn in E; congruence.
      - right. intros [m [X Km]]. injection X as <-. rewrite Km in E. discriminate. }
    split.
    - intros [[[[I J]|[Es [E _]]] [J1 J2]]|[[_ [I _]]|[E [I _]]]]; [|auto|auto|contradiction].
      destruct Dk as [Dk|Dk].
      + right. specialize (Gy I Dk). destruct same eqn:Es; [apply opt_eqb_spec in Es; congruence|]. exfalso. apply J. auto.
      + left. destruct (in_dec Nat.eq_dec y xs) as [Iy|Iy]; [exact Iy|]. exfalso. apply J1. split; [reflexivity|]. rewrite Iold. auto.
    - intros [I|E].
      + destruct (in_dec Nat.eq_dec y old) as [Io|Io]; [left|auto]. pose proof Io as Io'. apply Iold in Io' as [Io1 Io2]. split; [left; split; [exact Io1|]|split].
        * intros [_ [X _]]. apply Io2. subst og. apply get_output_group_group in G. tauto.
        * intros [_ [_ X]]. contradiction.
        * intros [X _]. apply (Kout y I), Kg. unfold pod in X. destruct same; [exact X|discriminate].
      + left. assert (Kgy : is_kind d TGroup y) by auto. split; [|split].
        * destruct same eqn:Es; [|auto]. apply opt_eqb_spec in Es. left. split; [|intros [X _]; discriminate]. subst og. rewrite E in G. apply get_output_group_group in G. tauto.
        * intros [_ [X _]]. apply Iold in X. tauto.
        * intros [_ [X X2]]. apply Iold in X as [X _]. exact (s_self _ (w_sound _ W) c X).
  }
  assert (LO : forall a b, a <> c -> ~ In a xs -> In (a, b) (normal d3) -> In (a, b) (normal d)).
  { intros a b Na Nx. rewrite L3, L2, L1. intros [[[[I _]|[_ [_ [X|X]]]] _]|[[X _]|[_ X]]]; try contradiction; [exact I|]. apply Iadd in X. tauto. }
  (* links into files *)
  assert (LF : forall a b, In (a, b) (normal d3) -> ~ is_kind d TGroup b -> In (a, b) (normal d) \/ (a = c /\ In b xs)).
  { intros a b. rewrite L3, L2, L1. intros [[[[I _]|[_ [E _]]] _]|[[X Y]|[E Y]]] Nb.
    - auto.
    - destruct Nb. auto.
    - right. apply Iadd in Y. tauto.
    - destruct Nb. apply Kg. unfold pod in E. destruct same; [exact E|discriminate]. }
  assert (LG : forall a b, In (a, b) (normal d3) -> In (a, b) (normal d) \/ (a = c /\ In b xs) \/ (group = Some b /\ (a = c \/ In a xs))).
  { intros a b. rewrite L3, L2, L1. intros [[[[I _]|[_ I]] _]|[[X Y]|[E Y]]]; [auto|auto| |]; apply Iadd in Y as [Y _]; [auto|]. right. right. split; [|auto]. unfold pod in E. destruct same; [exact E|discriminate]. }
  assert (Knot : forall k x, is_kind d k x -> k <> TGroup -> ~ is_kind d TGroup x) by (intros k x [n [L K]] Nk [m [Lm Km]]; congruence).
  assert (Some_kind : forall k x, is_kind d k x -> lookup d3 x <> None) by (intros k x [n [L K]]; unfold lookup in *; rewrite N3, L; discriminate).
  split; [|split; [exact N3|split; [exact PA|split; [exact LC|split; [exact LO|split]]]]].
  - destruct W as [[S1 S2 S4 S3] W2 W3 W4]. fold d in S1, S2, S3, S4, W2, W3, W4. split; rewrite ?PD.
    + split.
      * rewrite N3. exact S1.
      * intros a b I. apply LG in I as [I|[[-> I]|[E I]]].
        -- apply S2 in I. unfold lookup in *. rewrite N3. exact I.
        -- split; [exact (Some_kind _ _ Kc)|]. destruct (Kx b I) as [K _]. exact (Some_kind _ _ K).
        -- split; [|exact (Some_kind _ _ (Kg b E))]. destruct I as [->|I]; [exact (Some_kind _ _ Kc)|]. destruct (Kx a I) as [K _]. exact (Some_kind _ _ K).
      * intros a I. apply LG in I as [I|[[-> I]|[E I]]].
        -- exact (S4 a I).
        -- destruct (Kx c I) as [[m [Lm Km]] _]. destruct Kc as [m' [Lm' Km']]. congruence.
        -- specialize (Kg a E). destruct I as [->|I]; [destruct Kg as [m [Lm Km]], Kc as [m' [Lm' Km']]; congruence|exact (Kout a I Kg)].
      * intros a x P K. rewrite !Kd in *. apply LF in P; [|destruct K as [K|K]; apply (Knot _ _ K); discriminate]. destruct P as [P|[-> P]]; [exact (S3 a x P K)|exact Kc].
    + intros x a b K P1 P2. rewrite Kd in K. apply LF in P1; [|apply (Knot _ _ K); discriminate]. apply LF in P2; [|apply (Knot _ _ K); discriminate].
      destruct (in_dec Nat.eq_dec x xs) as [I|I].
      * destruct (Kx x I) as [_ [U _]]. destruct P1 as [P1|[-> _]], P2 as [P2|[-> _]]; rewrite ?(U a), ?(U b); auto.
      * destruct P1 as [P1|[_ P1]]; [|contradiction]. destruct P2 as [P2|[_ P2]]; [|contradiction]. exact (W2 x a b K P1 P2).
    + intros x e K E a P. rewrite PC in E. rewrite Kd in K. apply LF in P; [|apply (Knot _ _ K); discriminate]. destruct P as [P|[-> P]]; [exact (W3 x e K E a P)|].
      destruct (Kx x P) as [_ [_ [X|X]]]; congruence.
    + intros x e E. rewrite Kd. apply (W4 x e). rewrite <- PC. exact E.
  - intros Dm. enough (differ = true) as Df by (unfold d3; rewrite Df; left; reflexivity). unfold differ. destruct md; [reflexivity|]. destruct Dm as [[y Dy]|Dm]; [|discriminate]. destruct same eqn:Es; [|reflexivity]. cbn [negb orb].
    apply opt_eqb_spec in Es. rewrite LC in Dy. enough (removed ++ added <> []) as X by (destruct (removed ++ added); [contradiction|reflexivity]).
    intros X. apply app_eq_nil in X as [X1 X2]. destruct Dy as [[D1 D2]|[D1 D2]].
    + destruct (in_dec Nat.eq_dec y old) as [Io|Io].
      * assert (In y removed) as R by (apply Irem; tauto). rewrite X1 in R. destruct R.
      * apply D2. right. rewrite <- Es. apply (get_output_group_spec _ _ _ G y D1). unfold is_kind. destruct (lookup d y) as [n|] eqn:L.
        -- exists n. split; [reflexivity|]. destruct (ntype_eqb (kind n) TGroup) eqn:E; [destruct (kind n); cbn in E; congruence|]. exfalso. apply Io, Iold. split; [exact D1|].
           intros [m [Lm Km]]. rewrite L in Lm. injection Lm as <-. rewrite Km in E. discriminate.
        -- exfalso. apply (s_rows _ (w_sound _ W)) in D1 as [_ D1]. apply D1. exact L.
    + destruct D2 as [I|E]; [|apply D1; apply get_output_group_group; rewrite G, Es; f_equal; exact E].
      assert (In y added) as R by (apply Iadd; split; [exact I|]; intros Io; apply Iold in Io; tauto). rewrite X2 in R. destruct R.
  - assert (forall f l e, (forall x e, incl (modify e) (modify (f x e))) -> incl (modify e) (modify (fold_db f l e))) as FM.
    { intros f l. induction l as [|x l IH]; intros e Hf; [apply incl_refl|]. change (fold_db f (x :: l) e) with (fold_db f l (f x e)). eapply incl_tran; [apply Hf|apply IH, Hf]. }
    assert (incl (modify d) (modify d1)) as M1.
    { unfold d1. destruct same; [apply incl_refl|]. set (e1 := match group with Some g => _ | None => d end).
      assert (incl (modify d) (modify e1)) as Me by (unfold e1; destruct group as [g|]; [cbn [modify link_insert with_links]; apply FM; intros; apply incl_refl|apply incl_refl]).
      destruct og as [g|]; [|exact Me]. cbn [modify add_modify link_remove with_links]. apply incl_tl. eapply incl_tran; [exact Me|]. apply FM. intros x e.
      unfold modify_cmds_by_input. cbn [modify add_modify link_remove with_links]. apply incl_appr, incl_refl. }
    assert (incl (modify d1) (modify d2)) as M2.
    { unfold d2. eapply incl_tran; [|apply FM]; [apply FM|]; intros x e; [unfold rm_output|unfold add_output]; destruct pod; apply incl_refl. }
    unfold d3. destruct differ; [cbn [modify add_modify]; apply incl_appr|]; eapply incl_tran; eauto.
Qed.
