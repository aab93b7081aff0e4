From Verif Require Import Base PathModel PathSpec.

Lemma sep_eq c : is_path_sep c = (c =?c "/"%char).
Proof. reflexivity. Qed.

Lemma pieces_nonnil p : pieces p <> [].
Proof.
  induction p as [|c p IH]; cbn; [discriminate|].
  destruct (c =?c "/"%char); [discriminate|].
  destruct (pieces p); discriminate.
Qed.

Lemma components_sep c p : (c =?c "/"%char) = true -> components (c :: p) = components p.
Proof. intros H; unfold components; cbn; rewrite H; reflexivity. Qed.

Lemma components_skip p : components (skip_sep p) = components p.
Proof.
  induction p as [|c p IH]; cbn [skip_sep]; [reflexivity|].
  rewrite sep_eq. destruct (c =?c "/"%char) eqn:E; [|reflexivity].
  rewrite IH, components_sep by exact E. reflexivity.
Qed.

Lemma pieces_take p e r : take_elem p = (e, r) ->
  exists q, pieces p = e :: q /\ filter nonempty q = components r.
Proof.
  revert e r; induction p as [|c p IH]; intros e r; cbn [take_elem pieces].
  - intros H; injection H as <- <-. exists []. split; reflexivity.
  - rewrite sep_eq. destruct (c =?c "/"%char) eqn:E.
    + intros H; injection H as <- <-. exists (pieces p). split; [reflexivity|].
      symmetry; apply components_sep; exact E.
    + destruct (take_elem p) as [e' r'] eqn:T. intros H; injection H as <- <-.
      destruct (IH e' r' eq_refl) as [q [Hq Hf]]. exists q. rewrite Hq. split; [reflexivity|exact Hf].
Qed.

Lemma take_elem_head c p e r : is_path_sep c = false -> take_elem (c :: p) = (e, r) ->
  exists e', e = c :: e' /\ length e' + length r = length p.
Proof.
  revert c e r; induction p as [|d p IH]; intros c e r Hc; cbn [take_elem]; rewrite Hc.
  - intros H; injection H as <- <-. exists []; split; reflexivity.
  - destruct (is_path_sep d) eqn:Hd.
    + intros H; injection H as <- <-. exists []; split; reflexivity.
    + destruct (take_elem p) as [e' r'] eqn:T. intros H; injection H as <- <-.
      exists (d :: e'). split; [reflexivity|].
      destruct (IH d (d :: e') r' Hd) as [e2 [E2 L]].
      { cbn [take_elem]; rewrite Hd, T; reflexivity. }
      injection E2 as <-. cbn [length]; lia.
Qed.

Lemma skip_sep_length p : length (skip_sep p) <= length p.
Proof.
  induction p as [|c p IH]; cbn [skip_sep length]; [lia|].
  destruct (is_path_sep c); cbn [length]; lia.
Qed.

Lemma skip_sep_head p c q : skip_sep p = c :: q -> is_path_sep c = false.
Proof.
  induction p as [|d p IH]; cbn [skip_sep]; [discriminate|].
  destruct (is_path_sep d) eqn:E; [exact IH|]. intros H; injection H as <- _; exact E.
Qed.

Lemma split_loop_components fuel p st :
  length p <= fuel -> split_loop fuel p st = Some (fold_left add_elem (components p) st).
Proof.
  revert p st; induction fuel as [|f IH]; intros p st Hf.
  - destruct p; [reflexivity|cbn in Hf; lia].
  - cbn [split_loop]. rewrite <- (components_skip p).
    destruct (skip_sep p) as [|c q] eqn:S; [reflexivity|].
    pose proof (skip_sep_head _ _ _ S) as Hc.
    destruct (take_elem (c :: q)) as [e r] eqn:T.
    destruct (take_elem_head _ _ _ _ Hc T) as [e' [-> L]].
    destruct (pieces_take _ _ _ T) as [ps [Hp Hfil]].
    unfold components at 1; rewrite Hp; cbn [filter nonempty]. rewrite Hfil. cbn [fold_left].
    apply IH. pose proof (skip_sep_length p) as Hl. rewrite S in Hl. cbn [length] in Hl. lia.
Qed.

Lemma split_path_components p :
  split_path_elements p = Some (fold_left add_elem (components p) {| pl := []; num := 0 |}).
Proof. apply split_loop_components; lia. Qed.

(** Components never contain the separator and are not empty. *)
Lemma pieces_no_sep p : Forall (fun x => ~ In "/"%char x) (pieces p).
Proof.
  induction p as [|c p IH]; cbn [pieces]; [repeat constructor; auto|].
  destruct (Ascii.eqb_spec c "/"%char) as [E|E]; [constructor; [auto|exact IH]|].
  destruct (pieces p) as [|x xs].
  - repeat constructor. intros [->|[]]; apply E; reflexivity.
  - inversion IH; subst. constructor; [|assumption].
    intros [->|H]; [apply E; reflexivity|contradiction].
Qed.

Lemma components_ok p : Forall (fun x => x <> [] /\ ~ In "/"%char x) (components p).
Proof.
  unfold components. pose proof (pieces_no_sep p) as H. rewrite Forall_forall in *.
  intros x Hx. apply filter_In in Hx as [H1 H2]. split; [intros ->; discriminate|auto].
Qed.

(** The loop invariant of [split_path_elements]. *)
Definition inv (st : pels) : Prop :=
  exists n names, pl st = repeat (B "..") n ++ names /\ Forall plain names /\ num st = length names.

Lemma removelast_snoc {A} (l : list A) (x : A) : removelast (l ++ [x]) = l.
Proof. rewrite removelast_app by discriminate. cbn. apply app_nil_r. Qed.

Lemma snoc_inv {A} (l : list A) : l = [] \/ exists l' x, l = l' ++ [x].
Proof. induction l using rev_ind; [left; reflexivity|right; eauto]. Qed.

Lemma repeat_snoc {A} (x : A) n : repeat x n ++ [x] = repeat x (S n).
Proof. induction n; cbn; [reflexivity|rewrite IHn; reflexivity]. Qed.

Lemma inv_add st c : inv st -> c <> [] /\ ~ In "/"%char c -> inv (add_elem st c).
Proof.
  intros [n [names [Hl [Hp Hn]]]] [Hne Hs]. unfold add_elem.
  destruct (bytes_eqb_spec c (B ".")) as [E1|E1]; [exists n, names; auto|].
  destruct (bytes_eqb_spec c (B "..")) as [E2|E2].
  - destruct (num st) as [|k] eqn:Hk.
    + destruct names; [|discriminate]. exists (S n), []. cbn [pl num].
      rewrite Hl, E2, app_nil_r, repeat_snoc, app_nil_r. auto.
    + destruct (snoc_inv names) as [->|[names' [x ->]]]; [discriminate|].
      exists n, names'. cbn [pl num]. rewrite Hl, app_assoc, removelast_snoc.
      apply Forall_app in Hp as [Hp _]. rewrite app_length in Hn; cbn in Hn.
      repeat split; [exact Hp|lia].
  - exists n, (names ++ [c]). cbn [pl num]. rewrite Hl, app_assoc, app_length, Hn.
    repeat split; [|cbn; lia]. apply Forall_app; split; [exact Hp|].
    repeat constructor; auto.
Qed.

Lemma inv_fold cs st : inv st -> Forall (fun x => x <> [] /\ ~ In "/"%char x) cs ->
  inv (fold_left add_elem cs st).
Proof.
  intros H Hc; revert st H; induction Hc as [|c cs Hc _ IH]; intros st H; cbn; [exact H|].
  apply IH, inv_add; assumption.
Qed.

Lemma walk_app d xs ys : walk d (xs ++ ys) = walk (walk d xs) ys.
Proof. apply fold_left_app. Qed.

Lemma step_plain d c : plain c -> step d c = d ++ [c].
Proof.
  intros [_ [H1 [H2 _]]]. unfold step.
  destruct (bytes_eqb_spec c (B ".")); [contradiction|].
  destruct (bytes_eqb_spec c (B "..")); [contradiction|reflexivity].
Qed.

Lemma walk_plain names d : Forall plain names -> walk d names = d ++ names.
Proof.
  intros H; revert d; induction H as [|c names Hc _ IH]; intros d; [symmetry; apply app_nil_r|].
  cbn [walk fold_left]. rewrite (step_plain _ _ Hc). fold (walk (d ++ [c]) names).
  rewrite IH, <- app_assoc. reflexivity.
Qed.

Lemma walk_add st c d : inv st -> c <> [] /\ ~ In "/"%char c ->
  walk d (pl (add_elem st c)) = step (walk d (pl st)) c.
Proof.
  intros [n [names [Hl [Hp Hn]]]] [Hne Hs]. unfold add_elem, step.
  destruct (bytes_eqb_spec c (B ".")) as [E1|E1]; [reflexivity|].
  destruct (bytes_eqb_spec c (B "..")) as [E2|E2].
  - destruct (num st) as [|k] eqn:Hk; cbn [pl].
    + rewrite walk_app, E2. reflexivity.
    + rewrite Hl, !walk_app.
      destruct (snoc_inv names) as [->|[names' [x ->]]]; [discriminate|].
      rewrite app_assoc, removelast_snoc, !walk_app.
      rewrite !walk_plain by (apply Forall_app in Hp; tauto).
      apply Forall_app in Hp as [_ Hx]. inversion Hx; subst.
      cbn [walk fold_left]. rewrite step_plain by assumption.
      rewrite removelast_snoc. reflexivity.
  - cbn [pl]. rewrite walk_app. cbn [walk fold_left]. apply step_plain; repeat split; auto.
Qed.

Lemma walk_fold cs st d : inv st -> Forall (fun x => x <> [] /\ ~ In "/"%char x) cs ->
  walk d (pl (fold_left add_elem cs st)) = walk (walk d (pl st)) cs.
Proof.
  intros H Hc; revert st H; induction Hc as [|c cs Hc _ IH]; intros st H; cbn [fold_left].
  - reflexivity.
  - rewrite IH by (apply inv_add; assumption). rewrite walk_add by assumption. reflexivity.
Qed.

Lemma inv_init : inv {| pl := []; num := 0 |}.
Proof. exists 0, []. repeat split; constructor. Qed.

Lemma elements_spec p st : split_path_elements p = Some st ->
  inv st /\ forall d, walk d (pl st) = walk d (components p).
Proof.
  rewrite split_path_components. intros H; injection H as <-.
  split; [apply inv_fold; [apply inv_init|apply components_ok]|].
  intros d. rewrite walk_fold; [reflexivity|apply inv_init|apply components_ok].
Qed.

Lemma full_absolute p : is_full_path p = absolute p.
Proof. destruct p; reflexivity. Qed.

Lemma get_path_elements_total top p : exists g, get_path_elements top p = Some g.
Proof.
  unfold get_path_elements. rewrite split_path_components.
  destruct (match_top _ _) as [l n]. eexists; reflexivity.
Qed.

Lemma normal_skipn k cs : normal cs -> normal (skipn k cs).
Proof.
  intros [n [names [-> Hp]]]. rewrite skipn_app.
  exists (n - k), (skipn (k - n) names).
  assert (skipn k (repeat (B "..") n) = repeat (B "..") (n - k)) as ->.
  { revert k; induction n as [|n IH]; intros [|k]; try reflexivity. cbn. apply IH. }
  rewrite repeat_length. split; [reflexivity|].
  rewrite <- (firstn_skipn (k - n) names) in Hp. apply Forall_app in Hp. tauto.
Qed.

Lemma path_normal top p g : get_path_elements top p = Some g -> normal (path_list g).
Proof.
  unfold get_path_elements. destruct (split_path_elements p) as [st|] eqn:S; [|discriminate].
  destruct (match_top top (pl st)) as [l n]. intros H; injection H as <-. cbn [path_list].
  apply elements_spec in S as [[k [names [Hl [Hp _]]]] _].
  assert (normal (pl st)) by (exists k, names; auto).
  destruct (_ && _); [apply normal_skipn|]; assumption.
Qed.

Lemma path_relative top p g : get_path_elements top p = Some g -> absolute p = false ->
  pg_root g = false /\ pg_outside g = false /\
  forall cwd, walk cwd (path_list g) = denotes cwd p.
Proof.
  unfold get_path_elements. destruct (split_path_elements p) as [st|] eqn:S; [|discriminate].
  destruct (match_top top (pl st)) as [l n]. intros H Ha; injection H as <-.
  rewrite full_absolute, Ha. cbn. repeat split. intros cwd.
  unfold denotes; rewrite Ha. apply elements_spec in S as [_ S]. apply S.
Qed.

Lemma path_outside top p g : get_path_elements top p = Some g -> pg_outside g = true ->
  absolute p = true /\ walk [] (path_list g) = denotes [] p.
Proof.
  unfold get_path_elements. destruct (split_path_elements p) as [st|] eqn:S; [|discriminate].
  destruct (match_top top (pl st)) as [l n]. intros H Ha; injection H as <-.
  cbn [pg_outside path_list] in *. rewrite Ha. rewrite full_absolute in *.
  apply andb_true_iff in Ha as [Ha _]. rewrite Ha. split; [reflexivity|].
  cbn [andb negb]. rewrite ?andb_false_r. unfold denotes; rewrite Ha. apply elements_spec in S as [_ S]. apply S.
Qed.

Lemma path_depends_on_components top p q :
  components p = components q -> absolute p = absolute q ->
  get_path_elements top p = get_path_elements top q.
Proof.
  intros Hc Ha. unfold get_path_elements.
  rewrite !split_path_components, !full_absolute, Hc, Ha. reflexivity.
Qed.

Lemma pieces_app_sep p q : pieces (p ++ "/"%char :: q) = pieces p ++ pieces q.
Proof.
  induction p as [|c p IH]; cbn [pieces app]; [reflexivity|].
  destruct (c =?c "/"%char); [rewrite IH; reflexivity|].
  rewrite IH. destruct (pieces p) eqn:E; [destruct (pieces_nonnil p E)|reflexivity].
Qed.

Lemma components_app_sep p q : components (p ++ "/"%char :: q) = components p ++ components q.
Proof. unfold components. rewrite pieces_app_sep. apply filter_app. Qed.

Lemma absolute_app p q r : absolute (p ++ "/"%char :: q) = absolute (p ++ "/"%char :: r).
Proof. destruct p; reflexivity. Qed.

Lemma path_double_sep top p q :
  get_path_elements top (p ++ B "//" ++ q) = get_path_elements top (p ++ B "/" ++ q).
Proof.
  apply path_depends_on_components.
  - cbn [app B list_ascii_of_string]. rewrite !components_app_sep. reflexivity.
  - apply absolute_app.
Qed.

Lemma add_elem_dot st : add_elem st (B ".") = st.
Proof. reflexivity. Qed.

Lemma path_dot top p q :
  get_path_elements top (p ++ B "/./" ++ q) = get_path_elements top (p ++ B "/" ++ q).
Proof.
  unfold get_path_elements. rewrite !split_path_components, !full_absolute.
  assert (absolute (p ++ B "/./" ++ q) = absolute (p ++ B "/" ++ q)) as -> by apply absolute_app.
  replace (components (p ++ B "/./" ++ q)) with (components p ++ B "." :: components q).
  2:{ cbn [app B list_ascii_of_string]. rewrite components_app_sep. reflexivity. }
  replace (components (p ++ B "/" ++ q)) with (components p ++ components q).
  2:{ cbn [app B list_ascii_of_string]. rewrite components_app_sep. reflexivity. }
  rewrite !fold_left_app. cbn [fold_left]. rewrite add_elem_dot. reflexivity.
Qed.

(** The hidden flag. *)
Lemma pel_ignored_spec e : pel_ignored e = true <-> In e ignored_names.
Proof.
  unfold pel_ignored, ignored_names. rewrite !orb_true_iff, !bytes_eqb_eq.
  cbn [map In]. intuition congruence.
Qed.

Lemma path_hidden top p g : get_path_elements top p = Some g ->
  (pg_hidden g = true <->
   exists e, In e (path_list g) /\ e <> B ".." /\ In e ignored_names).
Proof.
  intros H. pose proof (path_normal _ _ _ H) as N.
  unfold get_path_elements in H. destruct (split_path_elements p) as [st|] eqn:S; [|discriminate].
  destruct (match_top top (pl st)) as [l n]. injection H as <-. cbn [pg_hidden path_list] in *.
  rewrite existsb_exists. split.
  - intros [e [He Hh]]. exists e. split; [exact He|].
    destruct e as [|c e]; [discriminate|]. cbn [elem_hidden] in Hh.
    rewrite !andb_true_iff in Hh. destruct Hh as [[_ H1] H2]. split.
    + intros E. rewrite E in H1. discriminate.
    + apply pel_ignored_spec; exact H2.
  - intros [e [He [H1 H2]]]. exists e. split; [exact He|].
    assert (exists e', e = "."%char :: e') as [e' ->].
    { cbn in H2. intuition subst; eexists; reflexivity. }
    cbn [elem_hidden]. rewrite (proj2 (pel_ignored_spec _) H2).
    destruct (bytes_eqb_spec ("."%char :: e') (B "..")); [contradiction|reflexivity].
Qed.

Lemma skip_sep_noop c q : is_path_sep c = false -> skip_sep (c :: q) = c :: q.
Proof. intros H; cbn; rewrite H; reflexivity. Qed.

Lemma skip_sep_canon c names : plain c -> skip_sep (canon (c :: names)) = c ++ canon names.
Proof.
  intros [Hne [_ [_ Hs]]]. cbn [canon flat_map app]. fold (canon names).
  change (skip_sep ("/"%char :: c ++ canon names)) with (skip_sep (c ++ canon names)).
  destruct c as [|a c]; [contradiction|]. cbn [app]. apply skip_sep_noop.
  rewrite sep_eq. apply Ascii.eqb_neq. intros ->. apply Hs; left; reflexivity.
Qed.

Lemma skipn_prefix {A} (x y : list A) : skipn (length x) (x ++ y) = y.
Proof. rewrite skipn_app, skipn_all, Nat.sub_diag. reflexivity. Qed.

Lemma match_top_nil es : Forall (fun e => e <> []) es -> match_top [] es = ([], 0).
Proof. intros [|e es' He _]; [reflexivity|]. destruct e; [contradiction|reflexivity]. Qed.

Lemma match_top_complete names rest : Forall plain names -> Forall (fun e => e <> []) rest ->
  match_top (canon names) (names ++ rest) = ([], length names).
Proof.
  intros H Hr. induction H as [|c names Hc _ IH]; [apply match_top_nil; exact Hr|].
  cbn [app match_top]. rewrite skip_sep_canon by exact Hc.
  assert (prefixb c (c ++ canon names) = true) as -> by (apply prefixb_spec; eauto).
  rewrite skipn_prefix, IH. reflexivity.
Qed.

Lemma match_top_sound names : Forall plain names ->
  forall es n, Forall (fun e => ~ In "/"%char e) es ->
  match_top (canon names) es = ([], n) ->
  (exists rest, es = names ++ rest) \/
  (exists e c, In e es /\ In c names /\ proper_prefix e c).
Proof.
  induction 1 as [|c names Hc Hn IH]; intros es n Hs H; [left; exists es; reflexivity|].
  destruct es as [|e es]; [discriminate|]. cbn [match_top] in H.
  rewrite skip_sep_canon in H by exact Hc.
  destruct (prefixb e (c ++ canon names)) eqn:Hp.
  2:{ injection H as H _. apply app_eq_nil in H as [H _]. destruct Hc; contradiction. }
  apply prefixb_spec in Hp as [r Hr]. inversion Hs as [|? ? Hes Hs']; subst.
  assert (exists r', c = e ++ r') as [r' Er].
  { clear - Hr Hes. revert c Hr. induction e as [|a e IHe]; intros c Hr; [exists c; reflexivity|].
    destruct c as [|d c].
    - cbn in Hr. destruct names; [discriminate|]. cbn in Hr. injection Hr as <- _.
      exfalso; apply Hes; left; reflexivity.
    - cbn in Hr. injection Hr as <- Hr. destruct (IHe (fun h => Hes (or_intror h)) c Hr) as [r' ->].
      exists r'. reflexivity. }
  destruct r' as [|a r'].
  - rewrite app_nil_r in Er. subst e. rewrite skipn_prefix in H.
    destruct (match_top (canon names) es) as [l m] eqn:M. injection H as -> _.
    destruct (IH es m Hs' M) as [[rest ->]|[e [c' [H1 [H2 H3]]]]].
    + left; exists rest; reflexivity.
    + right; exists e, c'; repeat split; [right|right|]; assumption.
  - right. exists e, c. repeat split; [left; reflexivity|left; reflexivity|].
    exists (a :: r'). split; [discriminate|exact Er].
Qed.

Lemma components_canon names : Forall plain names -> components (canon names) = names.
Proof.
  induction 1 as [|c names Hc _ IH]; [reflexivity|].
  cbn [canon flat_map app]. fold (canon names). rewrite components_sep by reflexivity.
  destruct Hc as [Hne [_ [_ Hs]]].
  assert (forall q, components (c ++ "/"%char :: q) = c :: components q) as Hq.
  { intros q. rewrite components_app_sep. f_equal.
    assert (pieces c = [c]) as Hp.
    { clear - Hs. induction c as [|a c IHc]; [reflexivity|]. cbn [pieces].
      destruct (Ascii.eqb_spec a "/"%char) as [->|_]; [exfalso; apply Hs; left; reflexivity|].
      rewrite IHc by (intros h; apply Hs; right; exact h). reflexivity. }
    unfold components. rewrite Hp. destruct c; [contradiction|reflexivity]. }
  destruct names as [|d names].
  - cbn [canon flat_map]. rewrite app_nil_r.
    pose proof (Hq []) as H0. rewrite components_app_sep in H0. cbn in H0.
    rewrite app_nil_r in H0. exact H0.
  - change (canon (d :: names)) with ("/"%char :: d ++ canon names) in *.
    rewrite Hq. f_equal. rewrite components_sep in IH by reflexivity. exact IH.
Qed.

Lemma denotes_canon names : Forall plain names -> denotes [] (canon names) = names.
Proof.
  intros H. unfold denotes. rewrite components_canon by exact H.
  destruct (absolute _); apply (walk_plain names []); exact H.
Qed.

Lemma walk_dots n names d : Forall plain names -> walk d (repeat (B "..") n ++ names) = walk d (repeat (B "..") n) ++ names.
Proof. intros; rewrite walk_app; apply walk_plain; assumption. Qed.

Lemma walk_root_dots n : walk [] (repeat (B "..") n) = [].
Proof. induction n; [reflexivity|cbn; exact IHn]. Qed.

Lemma dotdot_fold cs st : inv st -> Forall (fun x => x <> [] /\ ~ In "/"%char x) cs ->
  In (B "..") (pl (fold_left add_elem cs st)) ->
  In (B "..") (pl st) \/
  exists l1 l2, cs = l1 ++ B ".." :: l2 /\ num (fold_left add_elem l1 st) = 0.
Proof.
  intros H Hc; revert st H; induction Hc as [|c cs Hc _ IH]; intros st H; cbn [fold_left]; [auto|].
  intros Hi. destruct (IH _ (inv_add _ _ H Hc) Hi) as [H1|[l1 [l2 [-> H1]]]].
  - destruct (bytes_eqb_spec c (B "..")) as [->|Hne].
    + destruct (num st) as [|k] eqn:E.
      * right. exists [], cs. split; [reflexivity|exact E].
      * left. unfold add_elem in H1. rewrite E in H1. cbn in H1.
        destruct (snoc_inv (pl st)) as [E2|[l' [x E2]]]; rewrite E2 in *; [destruct H1|].
        rewrite removelast_snoc in H1. apply in_or_app; left; exact H1.
    + left. unfold add_elem in H1. destruct (bytes_eqb c (B ".")); [exact H1|].
      destruct (bytes_eqb_spec c (B "..")) as [E|_]; [contradiction|]. cbn [pl] in H1.
      apply in_app_or in H1 as [H1|[H1|[]]]; [exact H1|congruence].
  - right. exists (c :: l1), l2. split; [reflexivity|exact H1].
Qed.

Lemma dotdot_climbs p :
  In (B "..") (pl (fold_left add_elem (components p) {| pl := []; num := 0 |})) -> climbs p.
Proof.
  intros H. pose proof (components_ok p) as C.
  apply dotdot_fold in H; [|apply inv_init|exact C].
  destruct H as [[]|[l1 [l2 [E Hn]]]]. exists l1, l2. split; [exact E|].
  assert (Forall (fun x => x <> [] /\ ~ In "/"%char x) l1) as C1
    by (rewrite E in C; apply Forall_app in C; tauto).
  pose proof (walk_fold l1 _ [] inv_init C1) as W. cbn in W. rewrite <- W.
  destruct (inv_fold l1 _ inv_init C1) as [n [names [Hl [_ Hnum]]]].
  rewrite Hn in Hnum. destruct names; [|discriminate].
  rewrite Hl, app_nil_r. apply walk_root_dots.
Qed.

(** If the path denotes something inside the project and its normal form has
    no leading "..", tup treats it as inside with the right remainder. *)
Lemma inside_complete names p g : Forall plain names ->
  absolute p = true -> inside (canon names) p ->
  get_path_elements (canon names) p = Some g ->
  ~ climbs p ->
  pg_outside g = false /\ denotes [] p = names ++ path_list g.
Proof.
  intros Hn Ha [rest Hi] H Hcl. rewrite denotes_canon in Hi by exact Hn.
  assert (exists st, split_path_elements p = Some st /\ ~ In (B "..") (pl st)) as [st [S Hd]].
  { eexists; split; [apply split_path_components|]. intros C; apply Hcl, dotdot_climbs, C. }
  unfold get_path_elements in H. rewrite S in H.
  pose proof (elements_spec _ _ S) as [[k [nm [Hl [Hp _]]]] Hw].
  assert (pl st = nm) as Hst.
  { destruct k; [exact Hl|]. exfalso; apply Hd. rewrite Hl; left; reflexivity. }
  assert (denotes [] p = nm) as Hden.
  { unfold denotes; rewrite Ha, <- Hw, Hst. apply (walk_plain nm []); exact Hp. }
  assert (nm = names ++ rest) as E by (rewrite <- Hden; exact Hi).
  rewrite Hst, E in H.
  assert (Forall (fun e => e <> []) rest) as Hr.
  { rewrite E in Hp. apply Forall_app in Hp as [_ Hp]. eapply Forall_impl; [|exact Hp].
    intros a [Ha' _]; exact Ha'. }
  rewrite match_top_complete in H by assumption. injection H as <-.
  cbn [pg_outside path_list]. rewrite full_absolute, Ha. cbn [andb negb bytes_eqb].
  rewrite Hi, skipn_prefix. split; reflexivity.
Qed.

Lemma inside_sound names p g : Forall plain names ->
  absolute p = true -> get_path_elements (canon names) p = Some g ->
  pg_outside g = false ->
  (forall e c, In e (components p) -> In c names -> ~ proper_prefix e c) ->
  inside (canon names) p /\ denotes [] p = names ++ walk [] (path_list g).
Proof.
  intros Hn Ha H Ho Hpp.
  unfold get_path_elements in H.
  destruct (split_path_elements p) as [st|] eqn:S; [|discriminate].
  destruct (match_top (canon names) (pl st)) as [l n] eqn:M.
  injection H as <-. cbn [pg_outside path_list] in *.
  rewrite full_absolute, Ha in *. cbn [andb negb] in *.
  apply negb_false_iff in Ho. apply bytes_eqb_eq in Ho. subst l.
  pose proof (elements_spec _ _ S) as [[k [nm [Hl [Hp Hnum]]]] Hw].
  assert (forall e, In e (pl st) -> In e (components p)) as Hin.
  { rewrite split_path_components in S. injection S as <-. clear.
    intros e. set (st0 := {| pl := []; num := 0 |}).
    assert (forall cs st, In e (pl (fold_left add_elem cs st)) -> In e cs \/ In e (pl st)) as G.
    { induction cs as [|c cs IH]; intros st; cbn [fold_left]; [auto|].
      intros H. destruct (IH _ H) as [H1|H1]; [left; right; exact H1|].
      unfold add_elem in H1. destruct (bytes_eqb c (B ".")); [auto|].
      destruct (bytes_eqb c (B "..")).
      - destruct (num st); cbn [pl] in H1.
        + apply in_app_or in H1 as [H1|[H1|[]]]; [auto|left; left; exact H1].
        + right. clear - H1. destruct (snoc_inv (pl st)) as [E|[l' [x E]]]; rewrite E in *.
          * destruct H1.
          * rewrite removelast_snoc in H1. apply in_or_app; left; exact H1.
      - cbn [pl] in H1. apply in_app_or in H1 as [H1|[H1|[]]]; [auto|left; left; exact H1]. }
    intros H. destruct (G _ _ H) as [H1|[]]; exact H1. }
  assert (Forall (fun e => ~ In "/"%char e) (pl st)) as Hs.
  { rewrite Forall_forall. intros e He. apply Hin in He.
    pose proof (components_ok p) as C. rewrite Forall_forall in C. apply C; exact He. }
  destruct (match_top_sound names Hn (pl st) n Hs M) as [[rest E]|[e [c [H1 [H2 H3]]]]].
  2:{ exfalso. apply (Hpp e c); auto. }
  assert (denotes [] p = walk [] (pl st)) as Hden by (unfold denotes; rewrite Ha; symmetry; apply Hw).
  assert (Forall (fun e => e <> []) rest) as Hr.
  { rewrite E in Hin. rewrite Forall_forall. intros e He.
    pose proof (components_ok p) as C. rewrite Forall_forall in C. apply C, Hin.
    apply in_or_app; right; exact He. }
  rewrite E, match_top_complete in M by assumption. injection M as <-.
  rewrite E, skipn_prefix.
  rewrite Hden, E, walk_app, (walk_plain names []) by exact Hn. cbn [app].
  (* the rest is plain *)
  assert (names = [] \/ Forall plain rest) as Hrest.
  { rewrite E in Hl. destruct names as [|c names]; [left; reflexivity|right].
    destruct k as [|k].
    - cbn in Hl. rewrite <- Hl in Hp. inversion Hp as [|? ? _ Hp']; subst.
      apply Forall_app in Hp'; tauto.
    - cbn in Hl. injection Hl as Hc _. inversion Hn as [|? ? Hc' _]; subst.
      destruct Hc' as [_ [_ [Hc' _]]]. exfalso; apply Hc'; reflexivity. }
  destruct Hrest as [->|Hrest].
  - cbn [app]. split; [|reflexivity]. exists (denotes [] p). reflexivity.
  - rewrite !walk_plain by exact Hrest. cbn [app]. split; [|reflexivity].
    exists rest. rewrite denotes_canon by exact Hn.
    rewrite Hden, E, walk_app, (walk_plain names []) by exact Hn. cbn [app].
    apply walk_plain; exact Hrest.
Qed.
