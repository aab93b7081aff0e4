(** Each round keeps the invariant, and the rounds end. *)
From Verif Require Import Base ConfigModel ParseModel PathModel DbModel DbSpec DbProofs DbProofs3 ScanModel ScanSpec ScanProofs ScanProofs2 ScanProofs3 CleanModel CleanSpec CleanProofs ConvModel ConvSpec ConvProofs.
Require Import Lia.

Lemma add_once_in x l y : In y (add_once x l) <-> y = x \/ In y l.
Proof. unfold add_once. destruct (mem x l) eqn:M; [|cbn; intuition]. apply mem_in in M. split; [auto|]. intros [-> |H]; auto. Qed.
Lemma remove_id_in x l y : In y (remove_id x l) <-> In y l /\ y <> x.
Proof. unfold remove_id. rewrite filter_In, negb_true_iff, Nat.eqb_neq. reflexivity. Qed.
Lemma froms_in l x y : In y (froms l x) <-> In (y, x) l.
Proof.
  unfold froms. rewrite in_map_iff. split.
  - intros [[a b] [E F]]. cbn in E. subst a. apply filter_In in F as [F G]. cbn in G. apply Nat.eqb_eq in G. subst b. exact F.
  - intros H. exists (y, x). split; [reflexivity|]. apply filter_In. split; [exact H|apply Nat.eqb_refl].
Qed.

Section P.
Variables (own : nat -> bool) (d : db) (parsed : list nat) (s0 : conv).
Hypothesis W : base d.
Hypothesis Ho : home d.
Hypothesis Pl : in_place d.
Hypothesis Env : has_environment d.
Hypothesis Pd : forall x, In x parsed -> exists n, lookup d x = Some n /\ kind n = TDir.
Notation taken := (taken d parsed).
Notation within := (within d).
Notation Inv := (Inv own d parsed s0).
Notation now := (now own).
Notation gitf := (gitf d).

Lemma cand_lookup K x : (forall y, In y K -> taken y) -> cand d parsed K x -> exists n, lookup d x = Some n.
Proof.
  intros T [C|[y [m [Y [L X]]]]]; [destruct (Pd x C) as [n [L _]]; eauto|].
  destruct (b_parent _ W y m L) as [P _]; [intros ->; eapply taken_not_top; eauto|]. rewrite X in P. destruct (lookup d x); [eauto|congruence].
Qed.

Lemma mem_cons x y K : mem y (x :: K) = (y =? x) || mem y K.
Proof. reflexivity. Qed.
Lemma gitf_cons x K g : gitf (x :: K) g <-> gitf K g \/ gitf [x] g.
Proof.
  unfold ConvProofs.gitf. split.
  - intros [n [L [Kn [Nn [E|E]]]]]; [right|left]; exists n; cbn; auto.
  - intros [[n [L [Kn [Nn E]]]]|[n [L [Kn [Nn [E|[]]]]]]]; exists n; cbn; auto.
Qed.

(** What the conversion of [x] does. *)
Lemma step_true K todo s x n : Inv K (x :: todo) s -> lookup d x = Some n -> is_generated_dir (cv_db s) x = true ->
  exists s', convert_one own x s = Ok (s', Some (dir n)) /\ dir n < x /\ Inv (x :: K) (insert (dir n) todo) s'.
Proof.
  intros I L C. pose proof (inv_base own d parsed s0 W Ho Env Pd _ _ _ I) as Bs.
  assert (taken x) as T.
  { destruct (in_dec Nat.eq_dec x K) as [Y|Y]; [apply (i_K _ _ _ _ _ _ _ I); exact Y|].
    destruct (proj1 (check own d parsed s0 W Ho Pl Pd _ _ _ _ I Y) C) as [A1 [A2 [y [m [A3 A4]]]]]. constructor.
    - destruct (i_todo _ _ _ _ _ _ _ I x (or_introl eq_refl)) as [H|[z [k [Z1 Z2]]]]; [left; exact H|right]. exists z, k. split; [apply (i_K _ _ _ _ _ _ _ I); exact Z1|exact Z2].
    - exact A1.
    - intros z k Z Kz. apply (i_K _ _ _ _ _ _ _ I). eapply A2; eauto.
    - exists y, m. split; [exact A3|]. destruct A4 as [A4|A4]; [left; exact A4|right; apply (i_K _ _ _ _ _ _ _ I); exact A4]. }
  pose proof (taken_is_dir d parsed W Ho Pd x T n L) as Kd.
  assert (x <> top) as Nt by (intros ->; exact (taken_not_top d parsed W Ho Env Pd T)).
  destruct (b_parent _ W x n L Nt) as [Lp Lt].
  set (e := cv_db s) in *.
  assert (lookup e x = Some (now K x n)) as Le by (unfold e; rewrite (i_nodes _ _ _ _ _ _ _ I), L; reflexivity).
  assert (exists p, lookup e (dir n) = Some p) as [p Ep].
  { unfold e. rewrite (i_nodes _ _ _ _ _ _ _ I). destruct (lookup d (dir n)) as [p|]; [cbn; eauto|congruence]. }
  assert (exists q, queue_all e (froms (normal e) x) (cv_queue s) = Some q) as [q Q].
  { destruct (queue_all e (froms (normal e) x) (cv_queue s)) as [q|] eqn:Q; [eauto|]. exfalso. eapply queue_all_some; [|exact Q]. intros y Y. apply froms_in in Y. apply (b_links _ Bs _ _ Y). }
  set (e1 := update_node x (set_kind TGeneratedDir) (with_links e (drop_links x (normal e)) (sticky e))).
  assert (forall y, lookup e1 y = option_map (fun m => if y =? x then set_kind TGeneratedDir (now K y m) else now K y m) (lookup d y)) as E1.
  { intros y. unfold e1. rewrite lookup_update. change (lookup (with_links e (drop_links x (normal e)) (sticky e)) y) with (lookup e y). unfold e. rewrite (i_nodes _ _ _ _ _ _ _ I). destruct (y =? x), (lookup d y); reflexivity. }
  set (sA := {| cv_db := e1; cv_queue := q; cv_del := cv_del s; cv_save := cv_save s; cv_git := insert (dir n) (cv_git s) |}).
  set (s' := match child e1 x (B ".gitignore") with
             | Some g => if has_kind e1 [TGenerated] g
                         then remove_tup_gitignore own g {| cv_db := e1; cv_queue := q; cv_del := add_once g (cv_del s); cv_save := cv_save s; cv_git := insert (dir n) (cv_git s) |}
                         else sA
             | None => sA end).
  assert (convert_one own x s = Ok (s', Some (dir n))) as Run.
  { unfold convert_one. fold e. rewrite Le, C. unfold normal_dir_to_generated. rewrite now_dir, Q, Ep. fold e1. reflexivity. }
  exists s'. split; [exact Run|]. split; [exact Lt|].
  (* what the step with the .gitignore file does *)
  assert (forall y m, lookup d y = Some m -> y <> x -> isgit (x :: K) m = isgit K m || (ntype_eqb (kind m) TGenerated && bytes_eqb (nname m) (B ".gitignore") && (dir m =? x))) as IG.
  { intros y m _ _. unfold isgit. rewrite mem_cons. destruct (ntype_eqb _ _), (bytes_eqb _ _), (dir m =? x), (mem (dir m) K); reflexivity. }
  assert ((exists g m, lookup d g = Some m /\ kind m = TGenerated /\ nname m = B ".gitignore" /\ dir m = x /\ g <> x /\ mem g K = false /\
             ((mem x K && own g = true /\ s' = sA) \/
              (mem x K && own g = false /\ s' = remove_tup_gitignore own g {| cv_db := e1; cv_queue := q; cv_del := add_once g (cv_del s); cv_save := cv_save s; cv_git := insert (dir n) (cv_git s) |})))
          \/ ((forall g, ~ gitf [x] g) /\ s' = sA)) as Git.
  { assert (forall g, gitf [x] g -> child e1 x (B ".gitignore") = Some g) as Ch.
    { intros g [m [Lg [Kg [Ng [Dg|[]]]]]]. subst x. assert (base e1) as B1.
      { apply (base_from e); auto.
        - unfold e1. rewrite ids_update. apply Bs.
        - intros y n' Ly. unfold e1 in Ly. rewrite lookup_update in Ly. change (lookup (with_links e (drop_links (dir m) (normal e)) (sticky e)) y) with (lookup e y) in Ly.
          destruct (y =? dir m) eqn:Ey.
          + apply Nat.eqb_eq in Ey. subst y. rewrite Le in Ly. cbn in Ly. injection Ly as <-. exists (now K (dir m) n). split; [exact Le|]. split; [reflexivity|]. split; [reflexivity|]. intros _.
            unfold ConvProofs.now. destruct (mem (dir m) K); [reflexivity|]. destruct (isgit K n) eqn:G; [|exact Kd]. apply isgit_ok in G as [G _]. rewrite G in Kd. discriminate.
          + exists n'. auto.
        - intros y Ly. unfold e1. rewrite lookup_update. change (lookup (with_links e (drop_links (dir m) (normal e)) (sticky e)) y) with (lookup e y). destruct (y =? dir m); [|exact Ly]. destruct (lookup e y); [discriminate|congruence].
        - unfold e1. rewrite lookup_update. apply Nat.neq_sym, Nat.eqb_neq in Nt. rewrite Nt. reflexivity.
        - intros [a b] Hab. unfold e1 in Hab. cbn [normal update_node with_nodes with_links] in Hab. unfold drop_links in Hab. apply filter_In in Hab. apply Hab.
        - intros y n' z Ly S. unfold e1 in Ly. rewrite lookup_update in Ly. change (lookup (with_links e (drop_links (dir m) (normal e)) (sticky e)) y) with (lookup e y) in Ly.
          destruct (y =? dir m); [|exact (b_source _ Bs y n' z Ly S)]. destruct (lookup e y) as [k|] eqn:Lk; [|discriminate]. injection Ly as <-. exact (b_source _ Bs y k z Lk S).
        - intros y n' Ly S. unfold e1 in Ly. rewrite lookup_update in Ly. change (lookup (with_links e (drop_links (dir m) (normal e)) (sticky e)) y) with (lookup e y) in Ly.
          destruct (y =? dir m); [|exact (b_generated _ Bs y n' Ly S)]. destruct (lookup e y) as [k|] eqn:Lk; [|discriminate]. injection Ly as <-. discriminate. }
      apply child_spec; [exact B1|]. rewrite E1, Lg. cbn. destruct (g =? dir m); eexists; (split; [reflexivity|]); cbn; rewrite now_dir, now_name; auto. }
    destruct (child e1 x (B ".gitignore")) as [g|] eqn:Cg.
    - unfold s'. clear s' Run. assert (exists m, lookup d g = Some m /\ dir m = x /\ nname m = B ".gitignore") as [m [Lg [Dg Ng]]].
      { unfold child in Cg. destruct (find _ _) as [[z k]|] eqn:F; [|discriminate]. cbn in Cg. injection Cg as ->. apply find_some in F as [Iz F]. cbn in F. apply andb_true_iff in F as [F1 F2]. apply Nat.eqb_eq in F1. apply bytes_eqb_eq in F2.
        assert (lookup e1 g = Some k) as Lk by (apply in_lookup; [unfold e1; rewrite ids_update; apply Bs|exact Iz]). rewrite E1 in Lk. destruct (lookup d g) as [m|]; [|discriminate]. cbn in Lk. injection Lk as <-. exists m. split; [reflexivity|].
        destruct (g =? x); cbn in F1, F2; rewrite now_dir in F1; rewrite now_name in F2; auto. }
      assert (g <> x) as Gx by (intros ->; destruct (b_parent _ W x m Lg Nt); lia).
      destruct (ntype_eqb (kind m) TGenerated) eqn:Kg.
      + apply ntype_eqb_eq in Kg. left. assert (mem g K = false) as Mg.
        { apply mem_out. intros Y. pose proof (taken_is_dir d parsed W Ho Pd g (i_K _ _ _ _ _ _ _ I g Y) m Lg) as Z. rewrite Kg in Z. discriminate. }
        exists g, m. repeat (split; [assumption|]). unfold has_kind. rewrite E1, Lg. cbn [option_map]. apply Nat.eqb_neq in Gx. rewrite Gx. unfold ConvProofs.now. rewrite Mg.
        assert (isgit K m = mem x K) as ->. { unfold isgit. rewrite Kg, Ng, Dg. reflexivity. }
        destruct (mem x K && own g) eqn:MO; [left; split; [reflexivity|]; reflexivity|right; split; [reflexivity|]]. rewrite Kg. reflexivity.
      + apply ntype_eqb_neq in Kg. right. assert (forall g', ~ gitf [x] g') as No.
        { intros g' G. pose proof (Ch g' G) as Z. injection Z as <-. destruct G as [m' [Lg' [Kg' _]]]. rewrite Lg in Lg'. injection Lg' as <-. contradiction. }
        split; [exact No|]. unfold has_kind. rewrite E1, Lg. cbn [option_map]. apply Nat.eqb_neq in Gx. rewrite Gx.
        assert (existsb (ntype_eqb (kind (now K g m))) [TGenerated] = false) as ->; [|reflexivity].
        unfold ConvProofs.now. destruct (mem g K); [reflexivity|]. destruct (isgit K m) eqn:G; [apply isgit_ok in G as [G _]; contradiction|]. cbn. apply ntype_eqb_neq in Kg. rewrite Kg. reflexivity.
    - right. split; [|unfold s'; reflexivity]. intros g G. pose proof (Ch g G). discriminate. }
  assert (forall z, In z q <-> In z (cv_queue s) \/ (In (z, x) (normal e) /\ queueable e z)) as Qs.
  { intros z. rewrite (queue_all_spec _ _ _ _ Q z), froms_in. tauto. }
  assert (cv_queue s' = q /\ cv_git s' = insert (dir n) (cv_git s)) as [Sq Sg].
  { destruct Git as [[g [m [_ [_ [_ [_ [_ [_ [[_ ->]|[_ ->]]]]]]]]]]|[_ ->]]; [auto| |auto]. unfold remove_tup_gitignore. destruct (own g); auto. }
  assert (map fst (nodes (cv_db s')) = map fst (nodes e1) /\ normal (cv_db s') = normal e1 /\ sticky (cv_db s') = sticky e1 /\ modify (cv_db s') = modify e1 /\ create (cv_db s') = create e1 /\ config (cv_db s') = config e1) as [Si [Sn Sr]].
  { destruct Git as [[g [m [_ [_ [_ [_ [_ [_ [[_ ->]|[_ ->]]]]]]]]]]|[_ ->]]; [unfold sA; cbn [cv_db]; auto 10| |unfold sA; cbn [cv_db]; auto 10]. unfold remove_tup_gitignore. destruct (own g); cbn [cv_db]; [|auto 10]. rewrite ids_update. cbn. auto 10. }
  assert (forall y, lookup (cv_db s') y = option_map (now (x :: K) y) (lookup d y)) as Sl.
  { intros y. destruct (lookup d y) as [m|] eqn:Ly.
    2:{ assert (~ In y (map fst (nodes (cv_db s')))) as Z.
        { rewrite Si. unfold e1. rewrite ids_update. cbn [nodes with_links]. unfold e. rewrite (i_ids _ _ _ _ _ _ _ I). intros Y. apply in_map_iff in Y as [[z k] [Ez Y]]. cbn in Ez. subst z. apply in_lookup in Y; [congruence|apply W]. }
        destruct (lookup (cv_db s') y) as [k|] eqn:Lk; [|reflexivity]. exfalso. apply Z. apply in_map_iff. exists (y, k). split; [reflexivity|apply lookup_in; exact Lk]. }
    cbn [option_map]. destruct (Nat.eq_dec y x) as [-> |Yx].
    - rewrite L in Ly. injection Ly as <-. assert (lookup e1 x = Some (set_kind TGeneratedDir n)) as H1.
      { rewrite E1, L. cbn. rewrite Nat.eqb_refl. f_equal. unfold ConvProofs.now. destruct (mem x K); [reflexivity|]. destruct (isgit K n) eqn:G; [apply isgit_ok in G as [G _]; rewrite G in Kd; discriminate|reflexivity]. }
      assert (now (x :: K) x n = set_kind TGeneratedDir n) as -> by (unfold ConvProofs.now; rewrite mem_cons, Nat.eqb_refl; reflexivity).
      destruct Git as [[g [k [Lg [Kg [Ng [Dg [Gx [Mg [[_ ->]|[_ ->]]]]]]]]]]|[_ ->]]; [exact H1| |exact H1]. unfold remove_tup_gitignore. destruct (own g); [|exact H1]. cbn [cv_db]. rewrite lookup_update.
      apply Nat.neq_sym, Nat.eqb_neq in Gx. rewrite Gx. exact H1.
    - assert (lookup e1 y = Some (now K y m)) as H1 by (rewrite E1, Ly; cbn; apply Nat.eqb_neq in Yx; rewrite Yx; reflexivity).
      assert (mem y (x :: K) = mem y K) as My by (rewrite mem_cons; apply Nat.eqb_neq in Yx; rewrite Yx; reflexivity).
      assert (now (x :: K) y m = if mem y K then set_kind TGeneratedDir m else if (isgit K m || (ntype_eqb (kind m) TGenerated && bytes_eqb (nname m) (B ".gitignore") && (dir m =? x))) && own y then set_src None (set_kind TFile m) else m) as ->.
      { unfold ConvProofs.now. rewrite My, (IG y m Ly Yx). reflexivity. }
      assert (forall g, gitf [x] g -> forall g', gitf [x] g' -> g = g') as Un.
      { intros g [a [La [Ka [Na [Da|[]]]]]] g' [b [Lb [Kb [Nb [Db|[]]]]]]. apply (b_names _ W g a g' b); congruence. }
      destruct Git as [[g [k [Lg [Kg [Ng [Dg [Gx [Mg Cs]]]]]]]]|[No ->]].
      + destruct (Nat.eq_dec y g) as [-> |Yg].
        * rewrite Ly in Lg. injection Lg as <-. assert (ntype_eqb (kind m) TGenerated && bytes_eqb (nname m) (B ".gitignore") && (dir m =? x) = true) as -> by (rewrite Kg, Ng, Dg, Nat.eqb_refl; reflexivity).
          assert (isgit K m = mem x K) as Ig by (unfold isgit; rewrite Kg, Ng, Dg; reflexivity). rewrite Mg, orb_true_r. cbn [andb]. destruct Cs as [[MO ->]|[MO ->]].
          -- apply andb_true_iff in MO as [MO1 MO2]. rewrite MO2. unfold sA. cbn [cv_db]. rewrite H1. unfold ConvProofs.now. rewrite Mg, Ig, MO1, MO2. reflexivity.
          -- unfold remove_tup_gitignore. destruct (own g) eqn:Og.
             ++ cbn [cv_db]. rewrite lookup_update, Nat.eqb_refl, H1. cbn [option_map]. unfold ConvProofs.now. rewrite Mg, Ig, Og, MO. reflexivity.
             ++ cbn [cv_db]. rewrite H1. unfold ConvProofs.now. rewrite Mg, Ig, Og, andb_false_r. reflexivity.
        * assert (ntype_eqb (kind m) TGenerated && bytes_eqb (nname m) (B ".gitignore") && (dir m =? x) = false) as ->.
          { destruct (ntype_eqb (kind m) TGenerated && bytes_eqb (nname m) (B ".gitignore") && (dir m =? x)) eqn:Z; [|reflexivity]. exfalso. apply andb_true_iff in Z as [Z Z3]. apply andb_true_iff in Z as [Z1 Z2].
            apply ntype_eqb_eq in Z1. apply bytes_eqb_eq in Z2. apply Nat.eqb_eq in Z3. apply Yg. apply (Un y); [exists m|exists k]; cbn; auto 10. }
          rewrite orb_false_r. change (lookup (cv_db s') y = Some (now K y m)). destruct Cs as [[_ ->]|[_ ->]]; [exact H1|]. unfold remove_tup_gitignore. destruct (own g); [|exact H1]. cbn [cv_db]. rewrite lookup_update. apply Nat.eqb_neq in Yg. rewrite Yg. exact H1.
      + assert (ntype_eqb (kind m) TGenerated && bytes_eqb (nname m) (B ".gitignore") && (dir m =? x) = false) as ->.
        { destruct (ntype_eqb (kind m) TGenerated && bytes_eqb (nname m) (B ".gitignore") && (dir m =? x)) eqn:Z; [|reflexivity]. exfalso. apply andb_true_iff in Z as [Z Z3]. apply andb_true_iff in Z as [Z1 Z2].
          apply ntype_eqb_eq in Z1. apply bytes_eqb_eq in Z2. apply Nat.eqb_eq in Z3. apply (No y). exists m. cbn. auto 10. }
        rewrite orb_false_r. exact H1. }
  assert (forall g, In g (cv_del s') <-> (In g (cv_del s) \/ gitf [x] g) /\ ~ (gitf [x] g /\ own g = true) \/ (In g (cv_del s) /\ ~ gitf [x] g)) as Sd0.
  { intros g0. destruct Git as [[g [m [Lg [Kg [Ng [Dg [Gx [Mg Cs]]]]]]]]|[No ->]].
    - assert (gitf [x] g0 <-> g0 = g) as Gi.
      { split; [|intros ->; exists m; cbn; auto 10]. intros [k [Lk [Kk [Nk [Dk|[]]]]]]. apply (b_names _ W g0 k g m); congruence. }
      rewrite Gi. destruct Cs as [[MO ->]|[MO ->]].
      + apply andb_true_iff in MO as [MO1 MO2]. cbn [cv_del sA]. assert (~ In g (cv_del s)) as Out.
        { rewrite (i_del _ _ _ _ _ _ _ I). intros [_ Z]. apply Z. split; [|exact MO2]. exists m. apply mem_in in MO1. rewrite Dg. auto. }
        destruct (Nat.eq_dec g0 g) as [-> |Z]; [|tauto]. tauto.
      + unfold remove_tup_gitignore. destruct (own g) eqn:Og; cbn [cv_del].
        * rewrite remove_id_in, add_once_in. destruct (Nat.eq_dec g0 g) as [-> |Z]; [|tauto]. tauto.
        * rewrite add_once_in. destruct (Nat.eq_dec g0 g) as [-> |Z]; [|tauto]. rewrite Og. split; [|tauto]. intros _. left. split; [auto|]. intros [_ X]. discriminate.
    - pose proof (No g0). cbn [cv_del sA]. tauto. }
  assert (forall g, gitf K g \/ ~ gitf K g) as GD.
  { intros g. unfold ConvProofs.gitf. destruct (lookup d g) as [m|] eqn:Lg; [|right; intros [m [Z _]]; discriminate]. destruct (isgit K m) eqn:G.
    - left. exists m. split; [reflexivity|]. apply isgit_ok. exact G.
    - right. intros [k [Z R]]. injection Z as <-. apply isgit_ok in R. congruence. }
  assert (forall g, gitf [x] g \/ ~ gitf [x] g) as GDx.
  { intros g. unfold ConvProofs.gitf. destruct (lookup d g) as [m|] eqn:Lg; [|right; intros [m [Z _]]; discriminate]. destruct (isgit [x] m) eqn:G.
    - left. exists m. split; [reflexivity|]. apply isgit_ok. exact G.
    - right. intros [k [Z R]]. injection Z as <-. apply isgit_ok in R. congruence. }
  split.
  - rewrite Si. unfold e1. rewrite ids_update. apply (i_ids _ _ _ _ _ _ _ I).
  - exact Sl.
  - intros a b. rewrite Sn. unfold e1. cbn [normal update_node with_nodes with_links]. unfold drop_links. rewrite filter_In. cbn [fst snd]. rewrite negb_orb, andb_true_iff, !negb_true_iff, !Nat.eqb_neq. unfold e. rewrite (i_links _ _ _ _ _ _ _ I). cbn [In].
    split; [intros [[H1 [H2 H3]] [H4 H5]]; repeat split; auto; intros [Z|Z]; congruence || contradiction|]. intros [H1 [H2 H3]]. repeat split; auto.
  - destruct Sr as [R1 [R2 [R3 R4]]]. rewrite R1, R2, R3, R4. unfold e1. cbn [sticky modify create config update_node with_nodes with_links]. apply (i_rest _ _ _ _ _ _ _ I).
  - intros z. rewrite Sq, Qs. intros [H|[H1 H2]].
    + destruct (i_queue _ _ _ _ _ _ _ I z H) as [Z|[y [Z1 Z2]]]; [left; exact Z|right; exists y; cbn; auto].
    + right. exists x. unfold e in H1. apply (i_links _ _ _ _ _ _ _ I) in H1 as [H1 [H3 H4]]. split; [left; reflexivity|]. split; [exact H1|]. destruct H2 as [k [Lk Dk]]. unfold e in Lk. rewrite (i_nodes _ _ _ _ _ _ _ I) in Lk. destruct (lookup d z) as [m|] eqn:Lz; [|discriminate]. injection Lk as <-.
      exists m. split; [exact Lz|]. unfold ConvProofs.now in Dk. apply mem_out in H3. rewrite H3 in Dk. destruct (isgit K m && own z); [discriminate|exact Dk].
  - intros z H. rewrite Sq, Qs. destruct H as [H|[y [k [Y [Z1 [Lk Kk]]]]]]; [left; apply (i_queued _ _ _ _ _ _ _ I); left; exact H|]. destruct (in_dec Nat.eq_dec y K) as [Yk|Yk].
    + left. apply (i_queued _ _ _ _ _ _ _ I). right. exists y, k. auto.
    + destruct Y as [<-|Y]; [|contradiction]. right. assert (~ In z K) as Zk.
      { intros Z. pose proof (taken_is_dir d parsed W Ho Pd z (i_K _ _ _ _ _ _ _ I z Z) k Lk) as X. destruct Kk as [Kk|Kk]; rewrite Kk in X; discriminate. }
      split; [unfold e; apply (i_links _ _ _ _ _ _ _ I); auto|]. exists (now K z k). split; [unfold e; rewrite (i_nodes _ _ _ _ _ _ _ I), Lk; reflexivity|]. unfold ConvProofs.now. apply mem_out in Zk. rewrite Zk.
      assert (isgit K k = false) as ->. { destruct (isgit K k) eqn:G; [|reflexivity]. apply isgit_ok in G as [G _]. destruct Kk; congruence. } cbn [andb]. destruct Kk as [Kk|Kk]; rewrite Kk; reflexivity.
  - intros g. rewrite Sd0, (i_del _ _ _ _ _ _ _ I g), (gitf_cons x K g). assert (own g = true \/ own g <> true) as GO by (destruct (own g); auto). pose proof (GD g). pose proof (GDx g). tauto.
  - intros g. rewrite (gitf_cons x K g). assert (In g (cv_save s') <-> In g (cv_save s) /\ ~ (gitf [x] g /\ own g = true)) as ->.
    + destruct Git as [[g1 [m [Lg [Kg [Ng [Dg [Gx [Mg Cs]]]]]]]]|[No ->]].
      * assert (gitf [x] g <-> g = g1) as Gi.
        { split; [|intros ->; exists m; cbn; auto 10]. intros [k [Lk [Kk [Nk [Dk|[]]]]]]. apply (b_names _ W g k g1 m); congruence. }
        rewrite Gi. destruct Cs as [[MO ->]|[MO ->]].
        -- apply andb_true_iff in MO as [MO1 MO2]. cbn [cv_save sA]. assert (~ In g1 (cv_save s)) as Out.
           { rewrite (i_save _ _ _ _ _ _ _ I). intros [_ Z]. apply Z. split; [|exact MO2]. exists m. apply mem_in in MO1. rewrite Dg. auto. }
           destruct (Nat.eq_dec g g1) as [-> |Z]; tauto.
        -- unfold remove_tup_gitignore. destruct (own g1) eqn:Og; cbn [cv_save]; [rewrite remove_id_in|]; destruct (Nat.eq_dec g g1) as [-> |Z]; try tauto. rewrite Og. intuition congruence.
      * pose proof (No g). cbn [cv_save sA]. tauto.
    + rewrite (i_save _ _ _ _ _ _ _ I g). tauto.
  - intros z. rewrite Sg, insert_in, (i_git _ _ _ _ _ _ _ I z). split.
    + intros [-> |[H|[y [k [Y R]]]]]; [right; exists x, n; cbn; auto|left; exact H|right; exists y, k; cbn; auto].
    + intros [H|[y [k [[<-|Y] [R1 R2]]]]]; [auto|left; congruence|right; right; exists y, k; auto].
  - intros y [<-|Y]; [exact T|apply (i_K _ _ _ _ _ _ _ I); exact Y].
  - intros y Y. apply insert_in in Y as [-> |Y]; [right; exists x, n; split; [left; reflexivity|split; [exact L|reflexivity]]|].
    destruct (i_todo _ _ _ _ _ _ _ I y (or_intror Y)) as [H|[z [k [Z R]]]]; [left; exact H|right; exists z, k; cbn; auto].
  - intros y Cy. rewrite insert_in. destruct (Nat.eq_dec y (dir n)) as [-> |Yn]; [auto|].
    assert (cand d parsed K y) as Co.
    { destruct Cy as [H|[z [k [[<-|Z] R]]]]; [left; exact H| |right; exists z, k; auto]. exfalso. apply Yn. destruct R as [R1 R2]. rewrite L in R1. injection R1 as <-. symmetry. exact R2. }
    destruct (i_done _ _ _ _ _ _ _ I y Co) as [[<-|H]|[H|H]]; [right; left; left; reflexivity|auto|right; left; right; exact H|]. right. right. intros [A1 [A2 [z [k [A3 A4]]]]]. apply H. split; [exact A1|].
    assert (forall z k, within y z k -> In z (x :: K) -> In z K) as Same.
    { intros z0 k0 [R1 R2] [<-|Z]; [|exact Z]. exfalso. apply Yn. rewrite L in R1. injection R1 as <-. symmetry. exact R2. }
    split; [intros z0 k0 Z0 Kz; apply (Same z0 k0 Z0); eapply A2; eauto|]. exists z, k. split; [exact A3|]. destruct A4 as [A4|A4]; [auto|right; eapply Same; eauto].
Qed.

Lemma step_false K todo s x : Inv K (x :: todo) s -> is_generated_dir (cv_db s) x = false -> convert_one own x s = Ok (s, None) /\ Inv K todo s.
Proof.
  intros I C. destruct (cand_lookup K x (i_K _ _ _ _ _ _ _ I) (i_todo _ _ _ _ _ _ _ I x (or_introl eq_refl))) as [n L].
  split.
  - unfold convert_one. rewrite (i_nodes _ _ _ _ _ _ _ I), L, C. reflexivity.
  - destruct I as [a b c e f g h i j k l m]. split; auto.
    + intros y Y. apply l. right. exact Y.
    + intros y Y. destruct (in_dec Nat.eq_dec y K) as [Z|Z]; [auto|]. destruct (m y Y) as [[<-|H]|H]; [|auto|auto]. right. right. intros R.
      assert (Inv K (x :: todo) s) as I by (split; assumption). apply (check own d parsed s0 W Ho Pl Pd _ _ _ _ I Z) in R. congruence.
Qed.

Lemma rounds_insert p l : rounds_of (insert p l) <= S p + rounds_of l.
Proof.
  induction l as [|y l IH]; cbn [insert rounds_of fold_right]; [lia|]. destruct (p <? y); [cbn; lia|]. destruct (p =? y); [cbn; lia|]. cbn [rounds_of fold_right] in *. unfold rounds_of in IH. lia.
Qed.
Lemma loop fuel : forall K todo s, Inv K todo s -> rounds_of todo <= fuel -> exists K' s', convert own fuel todo s = Ok s' /\ Inv K' [] s'.
Proof.
  induction fuel as [|fuel IH]; intros K todo s I Le; destruct todo as [|x todo]; cbn [convert].
  - eauto.
  - cbn in Le. lia.
  - eauto.
  - cbn [rounds_of fold_right] in Le. destruct (is_generated_dir (cv_db s) x) eqn:C.
    + destruct (cand_lookup K x (i_K _ _ _ _ _ _ _ I) (i_todo _ _ _ _ _ _ _ I x (or_introl eq_refl))) as [n L].
      destruct (step_true K todo s x n I L C) as [s' [R [Lt I']]]. rewrite R. cbn [obind]. apply (IH (x :: K)); [exact I'|]. pose proof (rounds_insert (dir n) todo). unfold rounds_of in *. lia.
    + destruct (step_false K todo s x I C) as [R I']. rewrite R. cbn [obind]. apply (IH K); [exact I'|]. unfold rounds_of in *. lia.
Qed.

Lemma normal_dirs_in l x : In x (normal_dirs l) <-> In x l.
Proof. induction l as [|y l IH]; cbn; [tauto|]. rewrite insert_in, IH. intuition. Qed.
Hypothesis D0 : cv_db s0 = d.
Lemma start : Inv [] (normal_dirs parsed) s0.
Proof.
  split; try (rewrite D0).
  - reflexivity.
  - intros y. destruct (lookup d y) as [n|]; [|reflexivity]. cbn. f_equal. unfold ConvProofs.now. cbn. destruct (isgit [] n) eqn:G; [apply isgit_ok in G as [_ [_ []]]|reflexivity].
  - cbn. tauto.
  - auto.
  - auto.
  - intros z [H|[x [n [[] _]]]]. exact H.
  - intros g. split; [intros H; split; [auto|]; intros [[n [_ [_ [_ []]]]] _]|]. intros [[H|[n [_ [_ [_ []]]]]] _]. exact H.
  - intros g. split; [intros H; split; [auto|]; intros [[n [_ [_ [_ []]]]] _]|tauto].
  - intros p. split; [auto|]. intros [H|[x [n [[] _]]]]. exact H.
  - intros x [].
  - intros x X. left. apply normal_dirs_in. exact X.
  - intros x [X|[y [m [[] _]]]]. left. apply normal_dirs_in. exact X.
Qed.

Lemma convert_ok : exists K s', convert_dirs own parsed s0 = Ok s' /\ Inv K [] s' /\ forall x, In x K <-> taken x.
Proof.
  destruct (loop (rounds_of (normal_dirs parsed)) [] (normal_dirs parsed) s0 start (le_n _)) as [K [s' [R I]]].
  exists K, s'. split; [exact R|]. split; [exact I|]. intros x. split; [apply (i_K _ _ _ _ _ _ _ I)|].
  revert x. apply (taken_rec d parsed (fun x => In x K)). intros x C A1 A2 A3.
  assert (cand d parsed K x) as Cx by (destruct C as [C|[y [m [_ [Y R1]]]]]; [left; exact C|right; exists y, m; auto]).
  destruct (i_done _ _ _ _ _ _ _ I x Cx) as [[]|[H|H]]; [exact H|]. exfalso. apply H. split; [exact A1|]. split; [exact A2|]. destruct A3 as [y [m [Y [F|[_ F]]]]]; exists y, m; auto.
Qed.
End P.
