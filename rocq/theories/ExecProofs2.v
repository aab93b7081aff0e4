From Verif Require Import Base ExecModel ExecSpec ExecProofs.
From Coq Require Import Permutation.

Local Arguments starts : simpl never.
Local Arguments lists : simpl never.
Local Arguments direct : simpl never.
Local Arguments In : simpl nomatch.

Section Inv.
Context {WS : Type}.
Variable work : graph -> id -> WS -> WS -> bool -> Prop.
Variable keep_going : bool.
Variable g0 : graph.
Variable root : id.
Variable nodes : list id.
Hypothesis P0 : prepared g0 root nodes.
Variable jobs : nat.
Hypothesis Jpos : 0 < jobs.

Notation exec := (@exec WS).
Definition live (s : exec) : list id := lists (gr s) ++ running s ++ map fst (fin s).
Definition incoming (g : graph) (x : id) : Prop := exists e, In e (edges g) /\ dst e = x.

Fixpoint ordered (h : list event) : Prop :=
  match h with
  | [] => True
  | Start b :: h' =>
    (forall a, direct g0 a b -> a <> root -> In (Finish a true) h') /\
    (0 < starts b h' -> forall c, direct g0 b c -> In (Finish c true) h') /\ ordered h'
  | Finish _ _ :: h' => ordered h'
  end.

Definition base (s : exec) (x : id) : nat := match trans (gr s) x with TDelete => 1 | _ => 0 end.

Record Inv (s : exec) : Prop := {
  i_nodup : NoDup (live s);
  i_sub : forall x, In x (live s) -> In x nodes;
  i_src : forall e, In e (edges (gr s)) -> In (src e) (live s);
  i_dst : forall e, In e (edges (gr s)) -> In (dst e) (lists (gr s));
  i_plist : forall x, In x (plist (gr s)) -> state (gr s) x = Processing \/ ~ incoming (gr s) x;
  i_nodes : forall x, In x (node_list (gr s)) -> state (gr s) x <> Processing \/ ~ incoming (gr s) x;
  i_orig : forall e, In e (edges g0) -> src e <> root ->
    In e (edges (gr s)) \/
    (In (Finish (src e) true) (hist s) /\ (~ In (src e) (live s) \/ trans (gr s) (src e) = TDelete));
  i_edge : forall e, In e (edges (gr s)) ->
    (In e (edges g0) /\ trans (gr s) (src e) <> TDelete) \/
    (trans (gr s) (dst e) = TDelete /\ trans g0 (src e) = TNone);
  i_trans : forall x, (trans (gr s) x = TDelete /\ trans g0 x = TProcessing /\ In (Finish x true) (hist s))
                      \/ trans (gr s) x = trans g0 x;
  i_flip : forall e, In e (edges g0) -> trans (gr s) (src e) = TDelete ->
    In (flip e) (edges (gr s)) \/ In (Finish (dst e) true) (hist s);
  i_wait : forall x, In x (node_list (gr s)) -> incoming (gr s) x \/ In (Finish x false) (hist s);
  i_failed : forall x, In (Finish x false) (hist s) ->
    (In (x, false) (fin s) \/ In x (node_list (gr s))) /\ ~ incoming (gr s) x;
  i_fin : forall x ok, In (x, ok) (fin s) -> In (Finish x ok) (hist s);
  i_hist : ordered (hist s);
  i_free : free s + length (running s) + length (fin s) = jobs;
  i_active : active s = length (running s) + length (fin s);
  i_starts : forall x, In x (plist (gr s)) \/ (In x (node_list (gr s)) /\ ~ In (Finish x false) (hist s)) ->
    starts x (hist s) = base s x;
  i_starts_le : forall x, starts x (hist s) <= 1 + base s x;
  i_run : forall x, In x (running s) \/ (exists ok, In (x, ok) (fin s)) -> starts x (hist s) = 1 + base s x;
  i_dup : forall x, In (Finish x true) (hist s) -> In x (live s) ->
    trans (gr s) x = TDelete \/ In (x, true) (fin s);
  i_tdel : forall x, In x nodes -> trans g0 x = TProcessing -> In x (live s) \/ starts x (hist s) = 2;
  i_ran : forall x, In (Finish x true) (hist s) -> 0 < starts x (hist s);
  i_gone : forall x, In x nodes -> In x (live s) \/ In (Finish x true) (hist s);
  i_exp : expanded (gr s) = expanded g0;
  i_loop : at_ s = Loop -> (plist (gr s) = [] -> active s = 0) /\ 0 < free s;
  i_pc : at_ s <> Crashed /\ at_ s <> Returned (-2)%Z;
  i_count : failed s <> 0 <-> exists x, In x (node_list (gr s)) /\ In (Finish x false) (hist s);
  i_ret : forall rc, at_ s = Returned rc ->
    (rc = 0%Z \/ rc = (-1)%Z) /\
    (rc = 0%Z -> failed s = 0 /\ lists (gr s) = [] /\ active s = 0) /\
    (dead s = false -> (failed s <> 0 /\ keep_going = false) \/ (plist (gr s) = [] /\ active s = 0)) /\
    (rc = (-1)%Z -> dead s = true \/ failed s <> 0 \/ lists (gr s) <> []);
}.

Lemma live_in s x : In x (live s) <->
  In x (plist (gr s)) \/ In x (node_list (gr s)) \/ In x (running s) \/ (exists ok, In (x, ok) (fin s)).
Proof.
  unfold live, lists. rewrite !in_app_iff, in_map_iff. split.
  - intros [[H|H]|[H|[[y ok] [E H]]]]; cbn in *; subst; eauto.
  - intros [H|[H|[H|[ok H]]]]; eauto. right. right. exists (x, ok). auto.
Qed.

Lemma lists_in g x : In x (lists g) <-> In x (plist g) \/ In x (node_list g).
Proof. unfold lists. apply in_app_iff. Qed.

Lemma in_lists_not_busy s x : NoDup (live s) -> In x (lists (gr s)) ->
  ~ In x (running s) /\ forall ok, ~ In (x, ok) (fin s).
Proof.
  intros ND H. unfold live in ND.
  assert (~ In x (running s ++ map fst (fin s))) as N by (intros C; exact (NoDup_app_disj _ _ _ ND H C)).
  rewrite in_app_iff, in_map_iff in N. split; [intros C; apply N; left; exact C|].
  intros ok C. apply N. right. exists (x, ok). auto.
Qed.

Lemma plist_node_disj s x : NoDup (live s) -> In x (plist (gr s)) -> In x (node_list (gr s)) -> False.
Proof.
  intros ND H1 H2. unfold live in ND. apply NoDup_app_l in ND. exact (NoDup_app_disj _ _ _ ND H1 H2).
Qed.

Lemma starts_cons x e h : starts x (e :: h) =
  (match e with Start m => if m =? x then 1 else 0 | _ => 0 end) + starts x h.
Proof. unfold starts. cbn [filter]. destruct e as [m|m ok]; [destruct (m =? x)|]; reflexivity. Qed.

Lemma step_inv s s' : Inv s -> step work keep_going s s' -> Inv s'.
Proof.
  intros I H. destruct H as [s n p At C Pl|s At C|s n ok r At C Fi|s At C|s n l r ws' ok Ru W|s De].
  - (* loop body *)
    unfold loop_body.
    assert (In n (plist (gr s))) as Np by (rewrite Pl; left; reflexivity).
    assert (In n (live s)) as Nl by (apply live_in; auto).
    assert (~ In n (node_list (gr s))) as Nn by (intros D; exact (plist_node_disj s n (i_nodup _ I) Np D)).
    assert (~ In n p) as Npp.
    { pose proof (i_nodup _ I) as ND. unfold live, lists in ND. rewrite Pl in ND. cbn [app] in ND.
      apply NoDup_cons_iff in ND. intros D. apply (proj1 ND). rewrite !in_app_iff. auto. }
    assert (rm n (plist (gr s)) = p) as Rp.
    { rewrite Pl. cbn [rm]. rewrite Nat.eqb_refl. apply rm_nIn. exact Npp. }
    unfold off_plist. rewrite (proj2 (inb_In _ _) Np). cbn [obind]. rewrite Rp.
    destruct (has_incoming (gr s) n) eqn:HI.
    + (* put back *)
      assert (incoming (gr s) n) as Inc.
      { unfold has_incoming in HI. apply existsb_exists in HI. destruct HI as [e [H1 H2]].
        apply Nat.eqb_eq in H2. exists e. auto. }
      unfold to_nodes_head. cbn [plist node_list].
      rewrite (proj2 (inb_nIn _ _) Npp), (proj2 (inb_nIn _ _) Nn). cbn [orb obind with_graph].
      set (s' := set_pc (set_gr s _) Check).
      assert (Permutation (live s') (live s)) as PL.
      { unfold live, lists, s'. cbn. rewrite Pl. apply Permutation_app_tail.
        symmetry. apply (Permutation_middle p (node_list (gr s)) n). }
      assert (forall x, In x (lists (gr s')) <-> In x (lists (gr s))) as LL.
      { intros x. rewrite !lists_in. cbn. rewrite Pl. cbn [In]. tauto. }
      assert (Permutation (live s) (live s')) as PL' by (symmetry; exact PL).
      constructor; try solve [apply I].
      * exact (Permutation_NoDup PL' (i_nodup _ I)).
      * intros x Hx. apply (i_sub _ I). exact (Permutation_in _ PL Hx).
      * intros e He. apply (Permutation_in _ PL'). apply (i_src _ I). exact He.
      * intros e He. apply LL. apply (i_dst _ I). exact He.
      * cbn. intros x Hx. rewrite upd_other by (intros ->; contradiction).
        apply (i_plist _ I). rewrite Pl. right. exact Hx.
      * cbn. intros x [<-|Hx]; [left; rewrite upd_same; discriminate|].
        rewrite upd_other by (intros ->; contradiction). apply (i_nodes _ I). exact Hx.
      * intros e He Hr. destruct (i_orig _ I e He Hr) as [D|[D1 [D2|D2]]]; [auto| |auto].
        right. split; [exact D1|]. left. intros D. apply D2. exact (Permutation_in _ PL D).
      * cbn. intros x [<-|Hx]; [left; exact Inc|apply (i_wait _ I); exact Hx].
      * cbn. intros x Hx. destruct (i_failed _ I x Hx) as [[F|F] N]; split; auto.
      * cbn. intros x [Hx|[[<-|Hx] N]].
        -- apply (i_starts _ I). left. rewrite Pl. right. exact Hx.
        -- apply (i_starts _ I). left. exact Np.
        -- apply (i_starts _ I). right. auto.
      * cbn. intros x Hx Lx. exact (i_dup _ I x Hx (Permutation_in _ PL Lx)).
      * intros x Hx Tx. destruct (i_tdel _ I x Hx Tx) as [G|G]; [left; exact (Permutation_in _ PL' G)|right; exact G].
      * intros x Hx. destruct (i_gone _ I x Hx) as [G|G]; [left|right; exact G].
        exact (Permutation_in _ PL' G).
      * cbn. discriminate.
      * cbn. split; discriminate.
      * cbn. rewrite (i_count _ I). split.
        -- intros [x [H1 H2]]. exists x. auto.
        -- intros [x [[<-|H1] H2]]; [|exists x; auto].
           exfalso. exact (proj2 (i_failed _ I _ H2) Inc).
      * cbn. discriminate.
    + assert (~ incoming (gr s) n) as Ninc.
      { intros [e [H1 H2]]. assert (has_incoming (gr s) n = true) as D; [|congruence].
        unfold has_incoming. apply existsb_exists. exists e. split; [exact H1|apply Nat.eqb_eq; exact H2]. }
      rewrite (i_exp _ I), (p_expanded _ _ _ P0 n (i_sub _ I n Nl)). cbn [negb].
      destruct (i_loop _ I At) as [_ Fr]. destruct (free s) as [|f] eqn:Ef; [lia|].
      set (s' := {| gr := _ |}).
      assert (Permutation (live s') (live s)) as PL.
      { unfold live, lists, s'. cbn. rewrite Pl. symmetry.
        exact (Permutation_middle (p ++ node_list (gr s)) (running s ++ map fst (fin s)) n). }
      assert (Permutation (live s) (live s')) as PL' by (symmetry; exact PL).
      assert (~ In (Finish n false) (hist s)) as NF.
      { intros D. destruct (i_failed _ I _ D) as [[F|F] _]; [|contradiction].
        apply (proj2 (in_lists_not_busy s n (i_nodup _ I) ltac:(apply lists_in; auto)) false F). }
      constructor; try solve [apply I].
      * exact (Permutation_NoDup PL' (i_nodup _ I)).
      * intros x Hx. apply (i_sub _ I). exact (Permutation_in _ PL Hx).
      * intros e He. apply (Permutation_in _ PL'). apply (i_src _ I). exact He.
      * intros e He. pose proof (i_dst _ I e He) as D. change (In (dst e) (p ++ node_list (gr s))).
        apply in_or_app. apply lists_in in D.
        rewrite Pl in D. destruct D as [[D|D]|D]; auto. exfalso. apply Ninc. exists e. auto.
      * cbn. intros x Hx. apply (i_plist _ I). rewrite Pl. right. exact Hx.
      * cbn. intros e He Hr. destruct (i_orig _ I e He Hr) as [D|[D1 [D2|D2]]]; [auto| |auto].
        right. split; [auto|]. left. intros D. apply D2. exact (Permutation_in _ PL D).
      * cbn. intros x. destruct (i_trans _ I x) as [[H1 [H2 H3]]|H]; auto.
      * cbn. intros e He Ht. destruct (i_flip _ I e He Ht); auto.
      * cbn. intros x Hx. destruct (i_wait _ I x Hx); auto.
      * cbn. intros x [Hx|Hx]; [discriminate|]. apply (i_failed _ I). exact Hx.
      * cbn. intros x ok Hx. right. apply (i_fin _ I). exact Hx.
      * cbn. split; [|split; [|apply I]].
        -- intros a [e [He [Ha Hb]]] Hr. destruct (i_orig _ I e He) as [D|[D _]]; [congruence| |congruence].
           exfalso. apply Ninc. exists e. auto.
        -- intros Hs c [e [He [Ha Hb]]].
           assert (trans (gr s) n = TDelete) as Tn.
           { pose proof (i_starts _ I n (or_introl Np)) as S. unfold base in S.
             destruct (trans (gr s) n); [lia|lia|reflexivity]. }
           destruct (i_flip _ I e He) as [D|D]; [congruence| |congruence].
           exfalso. apply Ninc. exists (flip e). split; [exact D|exact Ha].
      * cbn. pose proof (i_free _ I). rewrite Ef in *. lia.
      * cbn. pose proof (i_active _ I). lia.
      * cbn. intros x Hx. rewrite starts_cons.
        assert (x <> n) as Nx.
        { intros ->. destruct Hx as [Hx|[Hx _]]; contradiction. }
        destruct (Nat.eqb_spec n x); [congruence|]. apply (i_starts _ I).
        destruct Hx as [Hx|[Hx N]]; [left; rewrite Pl; right; exact Hx|right].
        split; [exact Hx|]. intros D. apply N. right. exact D.
      * cbn. intros x. rewrite starts_cons. destruct (Nat.eqb_spec n x) as [<-|].
        -- pose proof (i_starts _ I n (or_introl Np)) as S. unfold base in *. cbn. rewrite S. lia.
        -- pose proof (i_starts_le _ I x). unfold base in *. cbn. lia.
      * intros x Hx. cbn [s' hist running fin] in *. rewrite starts_cons. unfold base. cbn [s' gr trans].
        destruct (Nat.eqb_spec n x) as [<-|Nx].
        -- pose proof (i_starts _ I n (or_introl Np)) as S. unfold base in S. rewrite S. reflexivity.
        -- apply (i_run _ I). destruct Hx as [[->|Hx]|Hx]; [congruence|auto|auto].
      * cbn. intros x [Hx|Hx] Lx; [discriminate|]. exact (i_dup _ I x Hx (Permutation_in _ PL Lx)).
      * intros x Hx Tx. cbn [s' hist]. rewrite starts_cons. destruct (Nat.eqb_spec n x) as [<-|Nx].
        -- left. exact (Permutation_in _ PL' Nl).
        -- destruct (i_tdel _ I x Hx Tx) as [G|G]; [left; exact (Permutation_in _ PL' G)|right; exact G].
      * cbn. intros x [Hx|Hx]; [discriminate|]. rewrite starts_cons. pose proof (i_ran _ I x Hx). lia.
      * intros x Hx. destruct (i_gone _ I x Hx) as [G|G]; [left|right; right; exact G].
        exact (Permutation_in _ PL' G).
      * reflexivity.
      * cbn. discriminate.
      * cbn. split; discriminate.
      * cbn. rewrite (i_count _ I). split; intros [x [H1 H2]]; exists x; [auto|].
        destruct H2 as [H2|H2]; [discriminate|auto].
      * cbn. discriminate.
  - (* return *)
    constructor; try solve [apply I]; cbn.
    + discriminate.
    + split; [discriminate|]. unfold final_rc. destruct (dead s), (negb (failed s =? 0)),
        (negb (nil (node_list (gr s))) || negb (nil (plist (gr s)))); discriminate.
    + intros rc [= <-]. unfold loop_cond in C. unfold final_rc.
      destruct (i_loop _ I At) as [L1 L2].
      destruct (dead s) eqn:De; [split; [auto|]; split; [discriminate|]; split; [discriminate|auto]|].
      destruct (Nat.eqb_spec (failed s) 0) as [F|F]; cbn [negb] in *.
      * destruct (plist (gr s)) as [|x pl] eqn:Ep; cbn [nil negb andb orb] in C; [|discriminate].
        unfold lists. rewrite Ep. cbn [app].
        destruct (node_list (gr s)) as [|y nl] eqn:En; cbn; (split; [auto|]); (split; [|split]); auto.
        -- discriminate.
        -- discriminate.
        -- intros _. right. right. discriminate.
      * split; [auto|]. split; [discriminate|]. split; [|auto]. intros _.
        destruct (plist (gr s)) as [|x pl] eqn:Ep; [right; auto|].
        cbn [nil negb andb orb] in C. left. auto.
  - (* reap *)
    assert (In (n, ok) (fin s)) as Nf by (rewrite Fi; left; reflexivity).
    assert (In n (live s)) as Nl by (apply live_in; eauto).
    assert (In n nodes) as Nn by (apply (i_sub _ I); exact Nl).
    assert (~ In n (lists (gr s))) as NL.
    { intros D. exact (proj2 (in_lists_not_busy s n (i_nodup _ I) D) ok Nf). }
    assert (NoDup (lists (gr s))) as NDl.
    { pose proof (i_nodup _ I) as ND. unfold live in ND. apply NoDup_app_l in ND. exact ND. }
    assert (forall ok' , In (n, ok') r -> False) as Nr.
    { intros ok' D. pose proof (i_nodup _ I) as ND. unfold live in ND.
      apply NoDup_app_r, NoDup_app_r in ND. rewrite Fi in ND. cbn [map fst] in ND.
      apply NoDup_cons_iff in ND. apply (proj1 ND). apply in_map_iff. exists (n, ok'). auto. }
    assert (~ In n (running s)) as Nrun.
    { intros D. pose proof (i_nodup _ I) as ND. unfold live in ND. apply NoDup_app_r in ND.
      refine (NoDup_app_disj _ _ _ ND D _). rewrite Fi. left. reflexivity. }
    assert (~ incoming (gr s) n) as Ninc.
    { intros [e [H1 H2]]. apply NL. rewrite <- H2. apply (i_dst _ I). exact H1. }
    assert (0 < active s) as Ap. { pose proof (i_active _ I) as A. rewrite Fi in A. cbn [length] in A. lia. }
    unfold reap. destruct ok.
    + (* success: pop *)
      assert (In (Finish n true) (hist s)) as Hn by (apply (i_fin _ I); exact Nf).
      assert (~ In (Finish n false) (hist s)) as NF.
      { intros D. destruct (i_failed _ I _ D) as [[F|F] _].
        - rewrite Fi in F. destruct F as [F|F]; [discriminate|]. exact (Nr _ F).
        - apply NL. apply lists_in. auto. }
      destruct (pop_node_spec (gr s) n NDl NL) as
        [g' [-> [LT [LN [Pl' [S1 [S2 [S3 [T' [X' E']]]]]]]]]].
      { intros e He Hs. pose proof (i_dst _ I e He) as D. apply lists_in in D. split; intros Hp.
        - destruct D as [D|D]; [exact D|]. destruct (i_nodes _ I _ D) as [N|N]; [congruence|].
          exfalso. apply N. exists e. auto.
        - destruct D as [D|D]; [|exact D]. destruct (i_plist _ I _ D) as [N|N]; [congruence|].
          exfalso. apply N. exists e. auto. }
      cbn [with_graph].
      set (s' := set_pc (set_gr _ g') Check).
      assert (forall x, direct (gr s) n x -> In x (lists (gr s)) /\ incoming (gr s) x) as DD.
      { intros x [e [H1 [H2 H3]]]. split; [rewrite <- H3; apply (i_dst _ I); exact H1|exists e; auto]. }
      assert (forall x, direct (gr s) n x -> x <> n) as Dn.
      { intros x Hx ->. apply NL. apply DD. exact Hx. }
      (* two cases for the lists *)
      assert (forall x, In x (lists g') <-> In x (lists (gr s)) \/ (x = n /\ trans (gr s) n = TProcessing)) as LL.
      { intros x. destruct (trans (gr s) n) eqn:Tn.
        1,3: assert (Permutation (lists g') (lists (gr s))) as PP by (apply LN; discriminate);
             split; [intros H; left; exact (Permutation_in _ PP H)|
                     intros [H|[_ H]]; [exact (Permutation_in _ (Permutation_sym PP) H)|discriminate]].
        assert (Permutation (lists g') (n :: lists (gr s))) as PP by (apply LT; reflexivity).
        split.
        - intros H. apply (Permutation_in _ PP) in H. destruct H as [H|H]; auto.
        - intros H. apply (Permutation_in _ (Permutation_sym PP)). destruct H as [H|[H _]]; [right|left]; auto. }
      assert (forall x, In x (node_list g') <->
          (In x (node_list (gr s)) /\ ~ direct (gr s) n x) \/
          (x = n /\ trans (gr s) n = TProcessing /\ exists e, In e (edges (gr s)) /\ src e = n)) as NLs.
      { assert (NoDup (lists g')) as ND'.
        { destruct (trans (gr s) n) eqn:Tn.
          1,3: apply (Permutation_NoDup (Permutation_sym (LN ltac:(discriminate)))); exact NDl.
          apply (Permutation_NoDup (Permutation_sym (LT eq_refl))). constructor; assumption. }
        intros x. split.
        - intros H. assert (In x (lists g')) as Hl by (apply lists_in; auto).
          assert (~ In x (plist g')) as Nx by (intros D; exact (NoDup_app_disj _ _ _ ND' D H)).
          apply LL in Hl. rewrite Pl' in Nx. destruct Hl as [Hl|[-> Ht]].
          + left. apply lists_in in Hl. destruct Hl as [Hl|Hl]; [exfalso; auto|]. split; [exact Hl|auto].
          + right. split; [reflexivity|]. split; [exact Ht|].
            assert (trans (gr s) n = TProcessing -> ~ (forall e, In e (edges (gr s)) -> src e <> n)) as Q
              by (intros _ D; apply Nx; auto).
            destruct (existsb (fun e => src e =? n) (edges (gr s))) eqn:Ex.
            * apply existsb_exists in Ex. destruct Ex as [e [H1 H2]]. apply Nat.eqb_eq in H2. eauto.
            * exfalso. apply (Q Ht). intros e He Hs.
              assert (existsb (fun e => src e =? n) (edges (gr s)) = true); [|congruence].
              apply existsb_exists. exists e. split; [exact He|apply Nat.eqb_eq; exact Hs].
        - intros H. assert (In x (lists g')) as Hl.
          { apply LL. destruct H as [[H _]|[H [Ht _]]]; [left; apply lists_in; auto|auto]. }
          apply lists_in in Hl. destruct Hl as [Hl|Hl]; [|exact Hl]. exfalso. apply Pl' in Hl.
          destruct H as [[H Nd]|[-> [Ht [e [He Hs]]]]].
          + destruct Hl as [Hl|[Hl|[-> _]]]; [exact (plist_node_disj s x (i_nodup _ I) Hl H)|auto|].
            apply NL. apply lists_in. auto.
          + destruct Hl as [Hl|[Hl|[_ [_ Hl]]]].
            * apply NL. apply lists_in. auto.
            * exact (Dn _ Hl eq_refl).
            * exact (Hl e He Hs). }
      assert (forall x, In x (live s') <-> (In x (live s) /\ x <> n) \/ (x = n /\ trans (gr s) n = TProcessing)) as LV.
      { intros x. unfold live. cbn [s' set_pc set_gr gr running fin]. rewrite !in_app_iff, LL, Fi. cbn [map fst In]. split.
        - intros [[H|H]|[H|H]].
          + left. split; [auto|]. intros ->. contradiction.
          + auto.
          + left. split; [auto|]. intros ->. contradiction.
          + left. split; [auto|]. intros ->. apply in_map_iff in H. destruct H as [[y ok'] [Ey H]]. cbn in Ey. subst. exact (Nr _ H).
        - intros [[[H|[H|[H|H]]] N]|H]; auto. congruence. }
      assert (NoDup (live s')) as NDl'.
      { pose proof (i_nodup _ I) as ND. unfold live in ND. rewrite Fi in ND. cbn [map fst] in ND.
        rewrite app_assoc in ND. apply (Permutation_NoDup (Permutation_sym (Permutation_middle _ _ _))) in ND.
        unfold live. cbn [s' set_pc set_gr gr running fin].
        rewrite app_assoc.
        destruct (trans (gr s) n) eqn:Tn.
        1,3: apply NoDup_cons_iff in ND; destruct ND as [_ ND];
          refine (Permutation_NoDup _ ND); apply Permutation_app_tail, Permutation_app_tail;
          symmetry; apply LN; discriminate.
        refine (Permutation_NoDup _ ND). rewrite !app_comm_cons.
        apply Permutation_app_tail, Permutation_app_tail. symmetry. apply LT. reflexivity. }
      assert (forall x, incoming g' x <->
         (exists e, In e (edges (gr s)) /\ src e <> n /\ dst e = x) \/
         (x = n /\ trans (gr s) n = TProcessing /\ exists e, In e (edges (gr s)) /\ src e = n)) as IN.
      { intros x. unfold incoming. split.
        - intros [e [He Hd]]. apply E' in He. destruct He as [[He Hs]|[Ht [e0 [He [Hs ->]]]]].
          + left. exists e. auto.
          + right. cbn in Hd. split; [congruence|]. split; [exact Ht|]. exists e0. auto.
        - intros [[e [H1 [H2 H3]]]|[-> [Ht [e [He Hs]]]]].
          + exists e. split; [apply E'; auto|exact H3].
          + exists (flip e). split; [apply E'; right; split; [exact Ht|exists e; auto]|exact Hs]. }
      assert (trans (gr s) n = TProcessing -> trans g0 n = TProcessing) as T0.
      { intros Ht. destruct (i_trans _ I n) as [[D _]|D]; congruence. }
      assert (forall x, x <> n -> trans g' x = trans (gr s) x) as Tx.
      { intros x Nx. rewrite T'. destruct (Nat.eqb_spec x n); congruence. }
      assert (trans g' n = match trans (gr s) n with TProcessing => TDelete | t => t end) as Tn'.
      { rewrite T', Nat.eqb_refl. reflexivity. }
      constructor; cbn [s' set_pc set_gr gr running fin free active failed dead at_ hist ws].
      * exact NDl'.
      * intros x Hx. apply LV in Hx. destruct Hx as [[Hx _]|[-> _]]; [apply (i_sub _ I); exact Hx|exact Nn].
      * intros e He. apply LV. apply E' in He. destruct He as [[He Hs]|[Ht [e0 [He [Hs ->]]]]].
        -- left. split; [apply (i_src _ I); exact He|exact Hs].
        -- left. cbn [flip src]. split; [apply live_in|]; [|intros D; apply NL; rewrite <- D; apply (i_dst _ I); exact He].
           pose proof (i_dst _ I _ He) as D. apply lists_in in D. tauto.
      * intros e He. apply LL. apply E' in He. destruct He as [[He Hs]|[Ht [e0 [He [Hs ->]]]]].
        -- left. apply (i_dst _ I). exact He.
        -- right. cbn [flip dst]. auto.
      * intros x Hx. apply Pl' in Hx. destruct Hx as [Hx|[Hx|[-> [Ht Hx]]]].
        -- assert (x <> n) as Nx by (intros ->; apply NL; apply lists_in; auto).
           destruct (S1 x Nx) as [D|[D _]]; [|auto]. rewrite D. destruct (i_plist _ I x Hx) as [Q|Q]; [auto|].
           right. rewrite IN. intros [[e [H1 [H2 H3]]]|[H _]]; [|contradiction]. apply Q. exists e. auto.
        -- left. apply S2. exact Hx.
        -- right. rewrite IN. intros [[e [H1 [H2 H3]]]|[_ [_ [e [He Hs]]]]].
           ++ apply Ninc. exists e. auto.
           ++ exact (Hx e He Hs).
      * intros x Hx. apply NLs in Hx. destruct Hx as [[Hx Nd]|[-> [Ht [e [He Hs]]]]].
        -- assert (x <> n) as Nx by (intros ->; apply NL; apply lists_in; auto).
           destruct (S1 x Nx) as [D|[_ D]]; [|contradiction]. rewrite D.
           destruct (i_nodes _ I x Hx) as [Q|Q]; [auto|].
           right. rewrite IN. intros [[e [H1 [H2 H3]]]|[H _]]; [|contradiction]. apply Q. exists e. auto.
        -- left. rewrite (S3 Ht). discriminate.
      * intros e He Hr. destruct (i_orig _ I e He Hr) as [D|[D1 D2]].
        -- destruct (Nat.eq_dec (src e) n) as [Es|Es]; [right; rewrite Es; split; [exact Hn|]|left; apply E'; auto].
           destruct (trans (gr s) n) eqn:Tn.
           2:{ right. exact Tn'. }
           1,2: left; rewrite LV; intros [[_ Q]|[_ Q]]; [congruence|congruence].
        -- right. split; [exact D1|]. destruct (Nat.eq_dec (src e) n) as [Es|Es].
           ++ rewrite Es in *. destruct D2 as [D2|D2]; [contradiction|]. right. rewrite Tn', D2. reflexivity.
           ++ rewrite (Tx _ Es). destruct D2 as [D2|D2]; [left|auto]. rewrite LV. intros [[Q _]|[Q _]]; auto.
      * intros e He. apply E' in He. destruct He as [[He Hs]|[Ht [e0 [He [Hs ->]]]]].
        -- rewrite (Tx (src e) Hs). destruct (i_edge _ I e He) as [D|[D1 D2]]; [left; exact D|right].
           split; [|exact D2]. rewrite Tx; [exact D1|]. intros D. apply Ninc. exists e. auto.
        -- right. cbn [flip src dst]. rewrite Hs, Tn', Ht. split; [reflexivity|].
           destruct (i_edge _ I e0 He) as [[D _]|[_ D]].
           ++ apply (p_flip _ _ _ P0 e0 D). rewrite Hs. apply T0. exact Ht.
           ++ exfalso. rewrite Hs, (T0 Ht) in D. discriminate.
      * intros x. destruct (Nat.eq_dec x n) as [->|Nx].
        -- rewrite Tn'. destruct (trans (gr s) n) eqn:Tn.
           ++ destruct (i_trans _ I n) as [[D _]|D]; [congruence|right; congruence].
           ++ left. split; [reflexivity|]. split; [apply T0; reflexivity|exact Hn].
           ++ destruct (i_trans _ I n) as [[_ D]|D]; [left; split; [reflexivity|exact D]|right; congruence].
        -- rewrite (Tx x Nx). apply (i_trans _ I).
      * intros e He Ht. destruct (Nat.eq_dec (src e) n) as [Es|Es].
        -- rewrite Es, Tn' in Ht. destruct (trans (gr s) n) eqn:Tn; [discriminate| |].
           ++ (* just flipped *)
              left. apply E'. right. split; [reflexivity|]. exists e. split; [|auto].
              destruct (i_orig _ I e He) as [D|[_ [D|D]]]; [|exact D| |].
              { rewrite Es. intros D. pose proof (p_nodup _ _ _ P0) as ND0.
                apply NoDup_cons_iff in ND0. apply (proj1 ND0). rewrite <- D. exact Nn. }
              { rewrite Es in D. contradiction. } { rewrite Es in D. congruence. }
           ++ destruct (i_flip _ I e He) as [D|D]; [congruence| |auto].
              exfalso. apply Ninc. exists (flip e). auto.
        -- rewrite (Tx _ Es) in Ht. destruct (i_flip _ I e He Ht) as [D|D]; [|auto].
           destruct (Nat.eq_dec (dst e) n) as [Ed|Ed].
           ++ right. rewrite Ed. exact Hn.
           ++ left. apply E'. left. split; [exact D|exact Ed].
      * intros x Hx. apply NLs in Hx. rewrite IN. destruct Hx as [[Hx Nd]|Hx]; [|auto].
        destruct (i_wait _ I x Hx) as [[e [He Hd]]|D]; [|auto]. left. left. exists e.
        split; [exact He|]. split; [|exact Hd]. intros Hs. apply Nd. exists e. auto.
      * intros x Hx. destruct (i_failed _ I x Hx) as [D1 D2].
        assert (x <> n) as Nx by (intros ->; contradiction). split.
        -- destruct D1 as [D1|D1].
           ++ rewrite Fi in D1. destruct D1 as [D1|D1]; [congruence|auto].
           ++ right. apply NLs. left. split; [exact D1|]. intros D. apply D2. apply DD. exact D.
        -- rewrite IN. intros [[e [H1 [H2 H3]]]|[H _]]; [|contradiction]. apply D2. exists e. auto.
      * intros x ok Hx. apply (i_fin _ I). rewrite Fi. right. exact Hx.
      * apply I.
      * pose proof (i_free _ I) as Q. rewrite Fi in Q. cbn [length] in Q. lia.
      * pose proof (i_active _ I) as Q. rewrite Fi in Q. cbn [length] in Q. lia.
      * intros x Hx. unfold base. cbn [s' set_pc set_gr gr].
        destruct (Nat.eq_dec x n) as [->|Nx].
        -- assert (trans (gr s) n = TProcessing) as Ht.
           { destruct Hx as [Hx|[Hx _]].
             - apply Pl' in Hx. destruct Hx as [Hx|[Hx|[_ [Ht _]]]]; [|exfalso; exact (Dn _ Hx eq_refl)|exact Ht].
               exfalso. apply NL. apply lists_in. auto.
             - apply NLs in Hx. destruct Hx as [[Hx _]|[_ [Ht _]]]; [|exact Ht].
               exfalso. apply NL. apply lists_in. auto. }
           rewrite Tn', Ht. pose proof (i_starts_le _ I n) as Q. unfold base in Q. rewrite Ht in Q.
           rewrite (i_run _ I n); [unfold base; rewrite Ht; reflexivity|]. right. exists true. exact Nf.
        -- rewrite (Tx x Nx). apply (i_starts _ I). destruct Hx as [Hx|[Hx NFx]].
           ++ apply Pl' in Hx. destruct Hx as [Hx|[Hx|[D _]]]; [auto| |contradiction].
              destruct (DD x Hx) as [D1 D2]. apply lists_in in D1. destruct D1 as [D1|D1]; [auto|].
              right. split; [exact D1|]. intros D. exact (proj2 (i_failed _ I x D) D2).
           ++ apply NLs in Hx. destruct Hx as [[Hx _]|[D _]]; [auto|contradiction].
      * intros x. unfold base. cbn [s' set_pc set_gr gr]. pose proof (i_starts_le _ I x) as Q. unfold base in Q.
        destruct (Nat.eq_dec x n) as [->|Nx]; [rewrite Tn'|rewrite (Tx x Nx); exact Q].
        destruct (trans (gr s) n); lia.
      * intros x Hx. assert (x <> n) as Nx.
        { intros ->. destruct Hx as [Hx|[ok Hx]]; [contradiction|exact (Nr _ Hx)]. }
        unfold base. cbn [s' set_pc set_gr gr]. rewrite (Tx x Nx).
        apply (i_run _ I). destruct Hx as [Hx|[ok Hx]]; [auto|]. right. exists ok. rewrite Fi. right. exact Hx.
      * intros x Hx Lx. apply LV in Lx. destruct Lx as [[Lx Nx]|[-> Ht]].
        -- rewrite (Tx x Nx). destruct (i_dup _ I x Hx Lx) as [D|D]; [auto|]. rewrite Fi in D.
           destruct D as [D|D]; [congruence|auto].
        -- left. rewrite Tn', Ht. reflexivity.
      * intros x Hx Ht. destruct (Nat.eq_dec x n) as [->|Nx].
        -- destruct (i_trans _ I n) as [[D _]|D].
           ++ right. rewrite (i_run _ I n) by (right; exists true; exact Nf). unfold base. rewrite D. reflexivity.
           ++ left. apply LV. right. split; [reflexivity|congruence].
        -- destruct (i_tdel _ I x Hx Ht) as [G|G]; [left; apply LV; auto|auto].
      * apply I.
      * intros x Hx. destruct (Nat.eq_dec x n) as [->|Nx]; [right; exact Hn|].
        destruct (i_gone _ I x Hx) as [G|G]; [left; apply LV; auto|auto].
      * rewrite X'. apply I.
      * discriminate.
      * split; discriminate.
      * rewrite (i_count _ I). split; intros [x [H1 H2]]; exists x; (split; [|exact H2]).
        -- apply NLs. left. split; [exact H1|]. intros D. exact (proj2 (i_failed _ I x H2) (proj2 (DD x D))).
        -- apply NLs in H1. destruct H1 as [[H1 _]|[-> _]]; [exact H1|contradiction].
      * discriminate.
    + (* failure *)
      assert (In (Finish n false) (hist s)) as Hn by (apply (i_fin _ I); exact Nf).
      unfold to_nodes_tail.
      assert (inb n (plist (gr s)) || inb n (node_list (gr s)) = false) as ->.
      { apply orb_false_iff. rewrite !inb_nIn. split; intros D; apply NL; apply lists_in; auto. }
      cbn [with_graph]. set (s' := set_pc (set_gr _ _) Check).
      assert (Permutation (live s') (live s)) as PL.
      { change (live s') with ((plist (gr s) ++ node_list (gr s) ++ [n]) ++ running s ++ map fst r).
        unfold live, lists. rewrite Fi. cbn [map fst]. rewrite <- !app_assoc.
        apply Permutation_app_head, Permutation_app_head. cbn [app]. apply Permutation_middle. }
      assert (Permutation (live s) (live s')) as PL' by (symmetry; exact PL).
      assert (forall x, In x (node_list (gr s')) <-> In x (node_list (gr s)) \/ x = n) as NLs.
      { intros x. change (node_list (gr s')) with (node_list (gr s) ++ [n]). rewrite in_app_iff. cbn [In].
        intuition congruence. }
      constructor; try solve [apply I].
      * exact (Permutation_NoDup PL' (i_nodup _ I)).
      * intros x Hx. apply (i_sub _ I). exact (Permutation_in _ PL Hx).
      * intros e He. apply (Permutation_in _ PL'). apply (i_src _ I). exact He.
      * intros e He. apply lists_in. rewrite NLs. pose proof (i_dst _ I e He) as D. apply lists_in in D.
        change (plist (gr s')) with (plist (gr s)). tauto.
      * intros x Hx. apply NLs in Hx. destruct Hx as [Hx| ->]; [apply (i_nodes _ I); exact Hx|right; exact Ninc].
      * intros e He Hr. destruct (i_orig _ I e He Hr) as [D|[D1 [D2|D2]]]; [auto| |auto].
        right. split; [exact D1|]. left. intros D. apply D2. exact (Permutation_in _ PL D).
      * intros x Hx. apply NLs in Hx. destruct Hx as [Hx| ->]; [apply (i_wait _ I); exact Hx|right; exact Hn].
      * intros x Hx. destruct (i_failed _ I x Hx) as [[D1|D1] D2]; (split; [|exact D2]); rewrite NLs; [|auto].
        rewrite Fi in D1. destruct D1 as [D1|D1]; [injection D1 as ->; auto|left; exact D1].
      * intros x ok Hx. apply (i_fin _ I). rewrite Fi. right. exact Hx.
      * cbn. pose proof (i_free _ I) as Q. rewrite Fi in Q. cbn [length] in Q. lia.
      * cbn. pose proof (i_active _ I) as Q. rewrite Fi in Q. cbn [length] in Q. lia.
      * intros x [Hx|[Hx NFx]]; apply (i_starts _ I); [auto|]. apply NLs in Hx.
        destruct Hx as [Hx| ->]; [auto|contradiction].
      * intros x Hx. apply (i_run _ I). destruct Hx as [Hx|[ok Hx]]; [auto|]. right. exists ok. rewrite Fi. right. exact Hx.
      * cbn. intros x Hx Lx. destruct (i_dup _ I x Hx (Permutation_in _ PL Lx)) as [D|D]; [auto|].
        rewrite Fi in D. destruct D as [D|D]; [discriminate|auto].
      * intros x Hx Tx. destruct (i_tdel _ I x Hx Tx) as [G|G]; [left; exact (Permutation_in _ PL' G)|right; exact G].
      * intros x Hx. destruct (i_gone _ I x Hx) as [G|G]; [left|right; exact G].
        exact (Permutation_in _ PL' G).
      * cbn. discriminate.
      * cbn. split; discriminate.
      * split; [intros _; exists n; split; [apply NLs; auto|exact Hn]|]. intros _. discriminate.
      * cbn. discriminate.
  - (* check -> loop *)
    constructor; try solve [apply I]; cbn.
    + intros _. unfold check_cond in C. apply orb_false_iff in C. destruct C as [C1 C2].
      apply Nat.eqb_neq in C1. split; [|lia]. intros E. rewrite E in C2. cbn in C2.
      destruct (Nat.eqb_spec (active s) 0); [assumption|discriminate].
    + split; discriminate.
    + discriminate.
  - (* a worker finishes *)
    set (s' := {| gr := gr s |}).
    assert (In n (running s)) as Nr by (rewrite Ru; apply in_elt).
    assert (Permutation (live s') (live s)) as PL.
    { unfold live, s'. cbn. rewrite Ru. apply Permutation_app_head. rewrite <- !app_assoc.
      apply Permutation_app_head. symmetry. apply (Permutation_middle r (map fst (fin s)) n). }
    assert (Permutation (live s) (live s')) as PL' by (symmetry; exact PL).
    assert (In n (live s)) as Nl by (apply live_in; auto).
    assert (~ In n (lists (gr s))) as NL.
    { intros D. exact (proj1 (in_lists_not_busy s n (i_nodup _ I) D) Nr). }
    assert (~ incoming (gr s) n) as Ninc.
    { intros [e [H1 H2]]. apply NL. rewrite <- H2. apply (i_dst _ I). exact H1. }
    assert (forall x, In x (l ++ r) -> In x (running s)) as LR.
    { intros x Hx. rewrite Ru. apply in_app_or in Hx. apply in_or_app. cbn. tauto. }
    assert (length (running s) = S (length (l ++ r))) as Len.
    { rewrite Ru, !app_length. cbn. lia. }
    assert (0 < active s) as Ap by (pose proof (i_active _ I); lia).
    constructor; try solve [apply I].
    + exact (Permutation_NoDup PL' (i_nodup _ I)).
    + intros x Hx. apply (i_sub _ I). exact (Permutation_in _ PL Hx).
    + intros e He. apply (Permutation_in _ PL'). apply (i_src _ I). exact He.
    + cbn. intros e He Hr. destruct (i_orig _ I e He Hr) as [D|[D1 [D2|D2]]]; [auto| |auto].
      right. split; [auto|]. left. intros D. apply D2. exact (Permutation_in _ PL D).
    + cbn. intros x. destruct (i_trans _ I x) as [[H1 [H2 H3]]|H]; auto.
    + cbn. intros e He Ht. destruct (i_flip _ I e He Ht); auto.
    + cbn. intros x Hx. destruct (i_wait _ I x Hx); auto.
    + cbn. intros x [Hx|Hx].
      * injection Hx as -> ->. auto.
      * destruct (i_failed _ I x Hx) as [[D1|D1] D2]; auto.
    + cbn. intros x ok' [Hx|Hx]; [injection Hx as -> ->; auto|]. right. apply (i_fin _ I). exact Hx.
    + cbn. pose proof (i_free _ I). lia.
    + cbn. pose proof (i_active _ I). lia.
    + cbn. intros x Hx. rewrite starts_cons. apply (i_starts _ I). destruct Hx as [Hx|[Hx N]]; [auto|right].
      split; [exact Hx|]. intros D. apply N. auto.
    + cbn. intros x Hx. rewrite starts_cons. apply (i_run _ I).
      destruct Hx as [Hx|[ok' [Hx|Hx]]]; [auto| |eauto]. injection Hx as -> ->. auto.
    + cbn. intros x [Hx|Hx] Lx.
      * injection Hx as -> ->. auto.
      * destruct (i_dup _ I x Hx (Permutation_in _ PL Lx)) as [D|D]; auto.
    + intros x Hx Tx. cbn [s' hist]. rewrite starts_cons.
      destruct (i_tdel _ I x Hx Tx) as [G|G]; [left; exact (Permutation_in _ PL' G)|right; exact G].
    + cbn. intros x [Hx|Hx]; rewrite starts_cons.
      * injection Hx as -> ->. rewrite (i_run _ I) by auto. lia.
      * apply (i_ran _ I). exact Hx.
    + intros x Hx. destruct (i_gone _ I x Hx) as [G|G]; [left|right; right; exact G].
      exact (Permutation_in _ PL' G).
    + cbn. rewrite (i_count _ I). split; intros [x [H1 H2]]; exists x; (split; [exact H1|]); [auto|].
      destruct H2 as [H2|H2]; [|exact H2]. injection H2 as -> ->. exfalso. apply NL. apply lists_in. auto.
  - (* signal *)
    constructor; try solve [apply I]. cbn. intros rc Hrc.
    destruct (i_ret _ I rc Hrc) as [R1 [R2 [R3 R4]]].
    split; [exact R1|]. split; [exact R2|]. split; [discriminate|auto].
Qed.

Lemma start_inv w : Inv (start jobs g0 w).
Proof.
  unfold start. rewrite (p_lists _ _ _ P0).
  unfold off_nodes. rewrite (p_lists _ _ _ P0).
  assert (inb root (root :: nodes) = true) as -> by (apply inb_In; left; reflexivity).
  pose proof (p_nodup _ _ _ P0) as ND. apply NoDup_cons_iff in ND. destruct ND as [Nr ND].
  assert (rm root (root :: nodes) = nodes) as ->.
  { cbn [rm]. rewrite Nat.eqb_refl. apply rm_nIn. exact Nr. }
  cbn [obind]. set (g1 := {| plist := _ |}).
  assert (lists g1 = nodes) as L1 by (unfold lists; cbn; rewrite (p_plist _ _ _ P0); reflexivity).
  destruct (pop_node_spec g1 root) as [g' [-> [_ [LN [Pl' [S1 [S2 [_ [T' [X' E']]]]]]]]]].
  { rewrite L1. exact ND. }
  { rewrite L1. exact Nr. }
  { intros e He Hs. cbn in He. pose proof (p_dst _ _ _ P0 e He) as D. split; cbn; intros Hp.
    - exfalso. exact (p_state _ _ _ P0 _ D Hp).
    - exact D. }
  cbn [with_graph]. set (s := set_pc (set_gr _ g') Loop).
  assert (trans g1 root = TNone) as Tr by exact (p_root _ _ _ P0).
  assert (Permutation (lists g') nodes) as PL by (rewrite <- L1; apply LN; rewrite Tr; discriminate).
  assert (forall e, In e (edges g') <-> In e (edges g0) /\ src e <> root) as EE.
  { intros e. rewrite E', Tr. cbn. intuition discriminate. }
  assert (trans g' = trans g' /\ forall x, trans g' x = trans g0 x) as [_ TT].
  { split; [reflexivity|]. intros x. rewrite T'. destruct (Nat.eqb_spec x root) as [->|]; [rewrite Tr; symmetry; exact Tr|reflexivity]. }
  assert (live s = lists g') as LV by (unfold live; cbn; rewrite !app_nil_r; reflexivity).
  assert (NoDup (lists g')) as NDl by exact (Permutation_NoDup (Permutation_sym PL) ND).
  assert (forall x, direct g1 root x <-> direct g0 root x) as DG by (intros x; reflexivity).
  assert (forall x, In x (plist g') <-> direct g0 root x) as PP.
  { intros x. rewrite Pl', DG. cbn. rewrite (p_plist _ _ _ P0), (p_root _ _ _ P0). cbn. intuition discriminate. }
  constructor; cbn [s set_pc set_gr gr running fin free active failed dead at_ hist ws].
  - rewrite LV. exact NDl.
  - intros x. rewrite LV. apply (Permutation_in _ PL).
  - intros e He. rewrite LV. apply EE in He. apply (Permutation_in _ (Permutation_sym PL)).
    destruct (p_src _ _ _ P0 e (proj1 He)) as [D|D]; [exfalso; apply (proj2 He); auto|exact D].
  - intros e He. apply EE in He. apply (Permutation_in _ (Permutation_sym PL)).
    apply (p_dst _ _ _ P0). tauto.
  - intros x Hx. left. apply S2. apply DG, PP. exact Hx.
  - intros x Hx. left. assert (~ direct g0 root x) as Nd.
    { intros D. apply PP in D. exact (NoDup_app_disj _ _ _ NDl D Hx). }
    assert (In x nodes) as Hn by (apply (Permutation_in _ PL); apply lists_in; auto).
    destruct (S1 x) as [D|[_ D]]; [intros ->; contradiction| |exfalso; apply Nd, DG; exact D].
    rewrite D. exact (p_state _ _ _ P0 x Hn).
  - intros e He Hr. left. apply EE. auto.
  - intros e He. left. split; [apply EE; exact He|]. rewrite TT. apply (p_trans _ _ _ P0).
  - intros x. right. apply TT.
  - intros e He Ht. rewrite TT in Ht. exfalso. exact (p_trans _ _ _ P0 _ Ht).
  - intros x Hx. left.
    assert (In x nodes) as Hn by (apply (Permutation_in _ PL); apply lists_in; auto).
    destruct (p_incoming _ _ _ P0 x Hn) as [e [He Hd]]. exists e. split; [apply EE|exact Hd].
    split; [exact He|]. intros Hs. assert (In x (plist g')) as D by (apply PP; exists e; auto).
    exact (NoDup_app_disj _ _ _ NDl D Hx).
  - intros x [].
  - intros x ok [].
  - exact Logic.I.
  - cbn. lia.
  - reflexivity.
  - intros x _. unfold base. cbn [s set_pc set_gr gr]. rewrite TT. unfold starts. cbn.
    pose proof (p_trans _ _ _ P0 x). destruct (trans g0 x); congruence.
  - intros x. unfold starts. cbn. lia.
  - intros x [[]|[ok []]].
  - intros x [].
  - intros x Hx _. left. rewrite LV. exact (Permutation_in _ (Permutation_sym PL) Hx).
  - intros x [].
  - intros x Hx. left. rewrite LV. exact (Permutation_in _ (Permutation_sym PL) Hx).
  - exact X'.
  - intros _. split; [reflexivity|exact Jpos].
  - split; discriminate.
  - split; [lia|]. intros [x [_ []]].
  - discriminate.
Qed.

Lemma steps_inv s s' : Inv s -> steps work keep_going s s' -> Inv s'.
Proof. intros I H. induction H as [|a b c H IH S]; [exact I|]. exact (step_inv _ _ (IH I) S). Qed.

Lemma reach_inv w s : steps work keep_going (start jobs g0 w) s -> Inv s.
Proof. apply steps_inv. apply start_inv. Qed.
End Inv.
