(** The graph of an update with temporary files, up to the point where the
    commands on demand are looked at. *)
From Verif Require Import Base ExecModel ExecSpec GraphModel GraphSpec TransModel TransSpec ExecProofs GraphProofs.
From Coq Require Import Permutation.

Section Build.
Variable kind_of : id -> kind.
Variable links glinks inputs users : id -> list id.
Variable transient_ : id -> bool.
Variable root : id.
Variable count_flags : option kind.
Variable rows flags : list id.
Notation counts := (counts count_flags).
Notation cb := (build_graph_cb kind_of transient_ root count_flags).
Notation mk := (make_edge kind_of root count_flags).
Notation held := (held kind_of transient_).
Notation next := (next kind_of links glinks).
Notation leftover := (leftover kind_of rows flags).
Notation waiting := (waiting kind_of transient_ flags).
Notation due := (due kind_of links glinks transient_ rows flags).
Notation linked := (linked kind_of transient_ root count_flags).

Notation lk_known := (linked_known kind_of (fun _ : id => @Datatypes.nil id) (fun _ : id => @Datatypes.nil id) (fun _ : id => @Datatypes.nil id) transient_ (fun _ : id => false) root count_flags).
Notation lk_W := (linked_W kind_of (fun _ : id => @Datatypes.nil id) (fun _ : id => @Datatypes.nil id) (fun _ : id => @Datatypes.nil id) transient_ (fun _ : id => false) root count_flags).
Notation e_cb := (each_cb kind_of (fun _ : id => @Datatypes.nil id) (fun _ : id => @Datatypes.nil id) (fun _ : id => @Datatypes.nil id) transient_ (fun _ : id => false) root count_flags).
Notation fd_known := (found_known kind_of (fun _ : id => @Datatypes.nil id) (fun _ : id => @Datatypes.nil id) (fun _ : id => @Datatypes.nil id) (fun _ : id => false) (fun _ : id => false) root).

Definition flagsNT := filter (fun n => negb (held n)) flags.
Definition roots := flagsNT ++ rows.
Definition leftb (n : id) : bool := inb n rows && negb (is_cmd (kind_of n)) && negb (inb n flags).
Definition links' (n : id) : list id := if leftb n then [] else links n.
Definition glinks' (n : id) : list id := if leftb n then [] else glinks n.

Lemma leftb_iff n : leftb n = true <-> leftover n.
Proof.
  unfold leftb, TransSpec.leftover. rewrite !andb_true_iff, !negb_true_iff, inb_In, inb_nIn.
  destruct (kind_of n); cbn; intuition congruence.
Qed.
Lemma leftb_false n : leftb n = false <-> ~ leftover n.
Proof. rewrite <- leftb_iff. destruct (leftb n); split; congruence. Qed.
Lemma held_iff n : In n flags -> (held n = true <-> waiting n).
Proof.
  intros H. unfold TransModel.held, TransSpec.waiting. rewrite andb_true_iff. destruct (kind_of n); cbn; intuition congruence.
Qed.
Lemma waiting_in n : In n (filter held flags) <-> waiting n.
Proof.
  rewrite filter_In. split.
  - intros [H1 H2]. apply held_iff; assumption.
  - intros H. split; [apply H|]. apply held_iff; [apply H|exact H].
Qed.
Lemma flagsNT_in n : In n flagsNT <-> In n flags /\ ~ waiting n.
Proof.
  unfold flagsNT. rewrite filter_In, negb_true_iff. split; intros [H1 H2]; split; auto.
  - intros W. apply (held_iff n H1) in W. congruence.
  - destruct (held n) eqn:E; [|reflexivity]. exfalso. apply H2. apply (held_iff n H1). exact E.
Qed.
Lemma leftover_not_NT n : leftover n -> ~ In n flagsNT.
Proof. intros [_ [_ H]] C. apply flagsNT_in in C. tauto. Qed.
Lemma not_left_NT n : kind_of n <> KCmd -> ~ In n flagsNT -> ~ In n flags.
Proof. intros K H C. apply H. apply flagsNT_in. split; [exact C|]. intros [_ [W _]]. contradiction. Qed.

Notation next' := (GraphSpec.next kind_of links' glinks').
Lemma next'_iff a b : next' a b <-> ~ leftover a /\ next a b.
Proof.
  unfold GraphSpec.next, links', glinks'. destruct (leftb a) eqn:E.
  - apply leftb_iff in E. cbn. tauto.
  - apply leftb_false in E. tauto.
Qed.
Lemma path'_path a b : GraphSpec.path kind_of links' glinks' a b -> path kind_of links glinks a b.
Proof.
  induction 1 as [a c H|a c d H IH N]; [apply path_one; apply next'_iff in H; tauto|].
  apply path_step with c; [exact IH|]. apply next'_iff in N. tauto.
Qed.
Lemma due_iff n : due n <-> GraphSpec.affected kind_of links' glinks' roots n.
Proof.
  split.
  - induction 1 as [n H1 H2|n H|a n H IH L N].
    + apply aff_flag. apply in_or_app. left. apply flagsNT_in. auto.
    + apply aff_flag. apply in_or_app. auto.
    + apply aff_next with a; [exact IH|]. apply next'_iff. auto.
  - induction 1 as [n H|a n H IH N].
    + apply in_app_or in H. destruct H as [H|H]; [|exact (due_row _ _ _ _ _ _ n H)].
      apply flagsNT_in in H. apply due_flag; tauto.
    + apply next'_iff in N. apply due_next with a; tauto.
Qed.

(** The state while the roots are collected; [l] are those so far. *)
Record P0 (b : bgraph) (l : list id) : Prop := {
  p0_W : W root b;
  p0_nodes : node_list (gr_ b) = root :: fin b;
  p0_fin : forall n, In n (fin b) -> state (gr_ b) n = Finished /\ leftover n;
  p0_plist : forall n, In n (plist (gr_ b)) -> state (gr_ b) n = Initialized /\ ~ leftover n;
  p0_edges : forall e, In e (edges (gr_ b)) <-> normal e = true /\ src e = root /\ In (dst e) l;
  p0_in : forall n, In n (plist (gr_ b) ++ fin b) <-> In n l;
  p0_trans : forall n, In n l -> trans (gr_ b) n = if is_generated (kind_of n) && transient_ n then TProcessing else TNone;
  p0_cnt : forall n, In n l -> counted b n = counts (kind_of n);
  p0_skip : forall n, In n l -> skip b n = false;
  p0_root : trans (gr_ b) root = TNone;
  p0_tdel : forall n, trans (gr_ b) n <> TDelete
}.

Lemma p0_known b l : P0 b l -> forall n, In n (known b) <-> n = root \/ In n l.
Proof.
  intros P n. unfold known. rewrite (p0_nodes _ _ P). rewrite <- (p0_in _ _ P n), !in_app_iff. cbn [In]. intuition auto.
Qed.

Lemma p0_state b l n : P0 b l -> In n l -> state (gr_ b) n <> Processing.
Proof.
  intros P H. apply (p0_in _ _ P) in H. apply in_app_or in H. destruct H as [H|H].
  - rewrite (proj1 (p0_plist _ _ P n H)). discriminate.
  - rewrite (proj1 (p0_fin _ _ P n H)). discriminate.
Qed.

Lemma P0_create : kind_of root = KRoot -> P0 (create_graph kind_of transient_ root) [].
Proof.
  intros Kr. split; cbn; auto.
  - unfold W, WX, known. cbn. split; [repeat constructor; intros []|]. split; [left; reflexivity|]. intros n [<-|[]] H. contradiction.
  - intros n [].
  - intros n [].
  - intros e. split; [intros []|]. intros [_ [_ []]].
  - intros n. tauto.
  - intros n [].
  - intros n [].
  - intros n [].
  - unfold upd. rewrite Nat.eqb_refl, Kr. reflexivity.
  - intros n. unfold upd. rewrite Kr. cbn. destruct (n =? root); discriminate.
Qed.

Lemma P0_link b l n b' new : P0 b l -> n <> root -> linked b root [n] b' new -> (In n new -> ~ leftover n) ->
  P0 b' (l ++ [n]).
Proof.
  intros P Nr L Nl.
  assert (fin b' = fin b) as Fe by (unfold fin; rewrite (l_nodes _ _ _ _ _ _ _ _ _ L); reflexivity).
  assert (forall m, In m new -> m = n) as NE by (intros m H; destruct (l_new_in _ _ _ _ _ _ _ _ _ L m H) as [[<-|[]] _]; reflexivity).
  assert (forall m, In m l -> ~ In m new) as ON.
  { intros m H1 H2. apply (proj2 (l_new_in _ _ _ _ _ _ _ _ _ L m H2)). apply (p0_known b l P). auto. }
  assert (forall m, In m (plist (gr_ b) ++ fin b) -> ~ In m new) as ON2 by (intros m H; apply ON, (p0_in _ _ P), H).
  assert (In n l \/ In n new) as Hn.
  { pose proof (l_all _ _ _ _ _ _ _ _ _ L n (or_introl eq_refl)) as K. apply (lk_known _ _ _ _ _ L) in K.
    destruct K as [K|K]; [auto|]. apply (p0_known b l P) in K. destruct K; [contradiction|auto]. }
  split.
  - exact (lk_W _ _ _ _ _ L (p0_W _ _ P)).
  - rewrite Fe, (l_nodes _ _ _ _ _ _ _ _ _ L). exact (p0_nodes _ _ P).
  - intros m H. rewrite Fe in H. rewrite (l_state_old _ _ _ _ _ _ _ _ _ L m) by (apply ON2, in_or_app; auto). exact (p0_fin _ _ P m H).
  - intros m H. rewrite (l_plist _ _ _ _ _ _ _ _ _ L) in H. apply in_app_or in H. destruct H as [H|H].
    + split; [exact (l_state_new _ _ _ _ _ _ _ _ _ L m H)|]. pose proof (NE m H) as ->. exact (Nl H).
    + rewrite (l_state_old _ _ _ _ _ _ _ _ _ L m) by (apply ON2, in_or_app; auto). exact (p0_plist _ _ P m H).
  - intros e. rewrite (l_edges _ _ _ _ _ _ _ _ _ L). cbn [rev map app]. cbn [In]. rewrite (p0_edges _ _ P e), in_app_iff. cbn [In]. split.
    + intros [<-|[H1 [H2 H3]]]; cbn; auto.
    + intros [H1 [H2 [H3|[H3|[]]]]]; [auto|]. left. destruct e; cbn in *; subst. reflexivity.
  - intros m. rewrite (l_plist _ _ _ _ _ _ _ _ _ L), Fe, <- app_assoc, in_app_iff, (p0_in _ _ P m), in_app_iff. cbn [In]. split.
    + intros [H|H]; [right; left; symmetry; exact (NE m H)|auto].
    + intros [H|[<-|[]]]; [auto|]. destruct Hn; auto.
  - intros m H. destruct (in_dec Nat.eq_dec m new) as [I|I]; [exact (l_tr_new _ _ _ _ _ _ _ _ _ L m I)|].
    rewrite (l_tr_old _ _ _ _ _ _ _ _ _ L m I). apply (p0_trans _ _ P). apply in_app_or in H. destruct H as [H|[<-|[]]]; [exact H|]. tauto.
  - intros m H. destruct (in_dec Nat.eq_dec m new) as [I|I]; [exact (l_cnt_new _ _ _ _ _ _ _ _ _ L m I)|].
    rewrite (l_cnt_old _ _ _ _ _ _ _ _ _ L m I). apply (p0_cnt _ _ P). apply in_app_or in H. destruct H as [H|[<-|[]]]; [exact H|]. tauto.
  - intros m H. destruct (Nat.eq_dec m n) as [->|D]; [apply (l_skip_root _ _ _ _ _ _ _ _ _ L eq_refl); left; reflexivity|].
    rewrite (l_skip_old _ _ _ _ _ _ _ _ _ L m).
    + apply (p0_skip _ _ P). apply in_app_or in H. destruct H as [H|[<-|[]]]; [exact H|contradiction].
    + intros C. exact (D (NE m C)).
    + right. intros [C|[]]. congruence.
  - rewrite (l_tr_old _ _ _ _ _ _ _ _ _ L root); [exact (p0_root _ _ P)|]. intros C. apply Nr. symmetry. exact (NE root C).
  - intros m. destruct (in_dec Nat.eq_dec m new) as [I|I].
    + rewrite (l_tr_new _ _ _ _ _ _ _ _ _ L m I). destruct (_ && _); discriminate.
    + rewrite (l_tr_old _ _ _ _ _ _ _ _ _ L m I). exact (p0_tdel _ _ P m).
Qed.

(** One [cb] from the root. *)
Lemma cb_root b l n : P0 b l -> n <> root -> exists b' new, cb b root n = Done b' /\ linked b root [n] b' new /\ (In n new <-> ~ In n l).
Proof.
  intros P Nr.
  destruct (e_cb [n] b root (p0_W _ _ P)) as [[b' [new [E [L _]]]]|[_ [m [[<-|[]] [H2 H3]]]]].
  - intros [C|[]]. congruence.
  - exists b', new. cbn [each] in E. split.
    + destruct (cb b root n); cbn [then_] in E; try discriminate. exact E.
    + split; [exact L|]. split.
      * intros H C. apply (proj2 (l_new_in _ _ _ _ _ _ _ _ _ L n H)). apply (p0_known b l P). auto.
      * intros H. pose proof (l_all _ _ _ _ _ _ _ _ _ L n (or_introl eq_refl)) as K. apply (lk_known _ _ _ _ _ L) in K.
        destruct K as [K|K]; [exact K|]. apply (p0_known b l P) in K. tauto.
  - exfalso. apply (p0_known b l P) in H2. destruct H2 as [->|H2]; [contradiction|]. exact (p0_state b l n P H2 H3).
Qed.

Lemma P0_flags : kind_of root = KRoot -> forall fl, (forall n, In n fl -> n <> root /\ ~ leftover n) -> forall b l, P0 b l ->
  exists b', each (fun b n => cb b root n) b fl = Done b' /\ P0 b' (l ++ fl).
Proof.
  intros Kr. induction fl as [|n fl IH]; intros Hf b l P.
  - exists b. rewrite app_nil_r. split; [reflexivity|exact P].
  - destruct (Hf n (or_introl eq_refl)) as [Nr Nl].
    destruct (cb_root b l n P Nr) as [b1 [new [E [L _]]]]. cbn [each]. rewrite E. cbn [then_].
    pose proof (P0_link b l n b1 new P Nr L (fun _ => Nl)) as P1.
    destruct (IH (fun m Hm => Hf m (or_intror Hm)) b1 (l ++ [n]) P1) as [b' [E' P']]. exists b'. split; [exact E'|].
    rewrite <- app_assoc in P'. exact P'.
Qed.

Lemma settle_list_new b n rest : plist (gr_ b) = n :: rest -> ~ In n rest -> ~ In n (node_list (gr_ b)) ->
  settle_list b n = Done (with_gr b {| plist := rest; node_list := node_list (gr_ b) ++ [n]; edges := edges (gr_ b);
     state := state (gr_ b); trans := trans (gr_ b); expanded := expanded (gr_ b) |}).
Proof.
  intros Pl N1 N2. unfold settle_list, off_plist. rewrite Pl.
  assert (inb n (n :: rest) = true) as -> by (apply inb_In; left; reflexivity). cbn [obind rm]. rewrite Nat.eqb_refl, (rm_notin n rest N1).
  unfold to_nodes_tail. cbn [plist node_list edges state trans expanded].
  rewrite (proj2 (inb_nIn n rest) N1), (proj2 (inb_nIn n _) N2). reflexivity.
Qed.

(** One row. *)
Lemma P0_row b l n : P0 b l -> n <> root -> In n rows -> incl flagsNT l ->
  exists b', transient_cb kind_of transient_ root count_flags b n = Done b' /\ P0 b' (l ++ [n]).
Proof.
  intros P Nr Hn Fl. unfold transient_cb. destruct (is_cmd (kind_of n)) eqn:Kc.
  - destruct (cb_root b l n P Nr) as [b1 [new [E [L _]]]]. exists b1. split; [exact E|].
    apply (P0_link b l n b1 new P Nr L). intros _ [_ [C _]]. destruct (kind_of n); cbn in Kc; congruence.
  - destruct (found b n) eqn:Fo.
    + exists b. split; [reflexivity|]. apply fd_known in Fo. apply (p0_known b l P) in Fo. destruct Fo as [->|Fo]; [contradiction|].
      assert (forall m, In m (l ++ [n]) <-> In m l) as Q.
      { intros m. rewrite in_app_iff. cbn. split; [intros [H|[<-|[]]]; assumption|auto]. }
      destruct P. split; auto.
      * intros e. rewrite Q. auto.
      * intros m. rewrite Q. auto.
      * intros m H. apply Q in H. auto.
      * intros m H. apply Q in H. auto.
      * intros m H. apply Q in H. auto.
    + assert (~ In n l) as Nl by (intros C; assert (found b n = true) by (apply fd_known, (p0_known b l P); auto); congruence).
      destruct (cb_root b l n P Nr) as [b1 [new [E [L Nw]]]]. apply Nw in Nl. clear Nw.
      unfold build_graph_cb in E. rewrite Fo in E. rewrite E. cbn [then_].
      assert (forall m, In m new -> m = n) as NE by (intros m H; destruct (l_new_in _ _ _ _ _ _ _ _ _ L m H) as [[<-|[]] _]; reflexivity).
      assert (new = [n]) as ->.
      { pose proof (l_nodup _ _ _ _ _ _ _ _ _ L) as ND. destruct new as [|x [|y new]].
        - destruct Nl.
        - rewrite (NE x (or_introl eq_refl)). reflexivity.
        - exfalso. rewrite (NE x (or_introl eq_refl)), (NE y (or_intror (or_introl eq_refl))) in ND.
          apply NoDup_cons_iff in ND. apply (proj1 ND). left. reflexivity. }
      destruct (l_new_in _ _ _ _ _ _ _ _ _ L n (or_introl eq_refl)) as [_ Nk].
      pose proof (l_plist _ _ _ _ _ _ _ _ _ L) as Pl. cbn [app] in Pl.
      pose proof (l_nodes _ _ _ _ _ _ _ _ _ L) as Nd.
      assert (~ In n (plist (gr_ b)) /\ ~ In n (node_list (gr_ b))) as [Np Nn] by (unfold known in Nk; rewrite in_app_iff in Nk; tauto).
      unfold settle. rewrite (settle_list_new b1 n (plist (gr_ b)) Pl Np) by (rewrite Nd; exact Nn). cbn [then_].
      eexists. split; [reflexivity|].
      assert (leftover n) as Lf.
      { split; [exact Hn|]. split; [destruct (kind_of n); cbn in Kc; congruence|]. apply not_left_NT; [destruct (kind_of n); cbn in Kc; congruence|].
        intros C. apply Fl in C. apply Nk. apply (p0_known b l P). auto. }
      set (b2 := with_gr _ _).
      assert (fin b2 = fin b ++ [n]) as F2.
      { unfold fin at 1, b2. cbn [with_gr gr_ set_state node_list]. rewrite Nd, (p0_nodes _ _ P). reflexivity. }
      assert (plist (gr_ b2) = plist (gr_ b)) as P2 by reflexivity.
      assert (forall m, m <> n -> state (gr_ b2) m = state (gr_ b) m) as S1.
      { intros m D. cbn. unfold upd. destruct (Nat.eqb_spec m n); [contradiction|]. apply (l_state_old _ _ _ _ _ _ _ _ _ L). intros [C|[]]. congruence. }
      assert (state (gr_ b2) n = Finished) as S2 by (cbn; unfold upd; rewrite Nat.eqb_refl; reflexivity).
      assert (forall m, In m (plist (gr_ b) ++ fin b) -> m <> n) as D.
      { intros m H ->. apply Nk. apply (p0_known b l P). right. apply (p0_in _ _ P). exact H. }
      pose proof (lk_W _ _ _ _ _ L (p0_W _ _ P)) as W1.
      split.
      * destruct W1 as [ND [Hr Hx]]. unfold W, WX.
        assert (Permutation (known b1) (known b2)) as Pm.
        { unfold known, b2. cbn [with_gr gr_ set_state plist node_list]. rewrite Pl. cbn [app]. rewrite app_assoc. apply Permutation_cons_append. }
        split; [exact (Permutation_NoDup Pm ND)|]. split; [exact (Permutation_in _ Pm Hr)|].
        intros m Hm Xm. apply (Hx m); [exact (Permutation_in _ (Permutation_sym Pm) Hm)|exact Xm].
      * rewrite F2. unfold b2. cbn [with_gr gr_ set_state node_list]. rewrite Nd, (p0_nodes _ _ P). reflexivity.
      * intros m H. rewrite F2 in H. apply in_app_or in H. destruct H as [H|[<-|[]]]; [|split; [exact S2|exact Lf]].
        rewrite S1 by (apply D, in_or_app; auto). exact (p0_fin _ _ P m H).
      * intros m H. rewrite P2 in H. rewrite S1 by (apply D, in_or_app; auto). exact (p0_plist _ _ P m H).
      * intros e. change (edges (gr_ b2)) with (edges (gr_ b1)). rewrite (l_edges _ _ _ _ _ _ _ _ _ L). cbn [rev map app In].
        rewrite (p0_edges _ _ P e), in_app_iff. cbn [In]. split.
        -- intros [<-|[H1 [H2 H3]]]; cbn; auto.
        -- intros [H1 [H2 [H3|[H3|[]]]]]; [auto|]. left. destruct e; cbn in *; subst. reflexivity.
      * intros m. rewrite P2, F2, app_assoc, in_app_iff, (p0_in _ _ P m), in_app_iff. reflexivity.
      * intros m H. change (trans (gr_ b2)) with (trans (gr_ b1)). apply in_app_or in H. destruct H as [H|[<-|[]]].
        -- rewrite (l_tr_old _ _ _ _ _ _ _ _ _ L m); [exact (p0_trans _ _ P m H)|]. intros [->|[]]. apply Nk, (p0_known b l P). auto.
        -- apply (l_tr_new _ _ _ _ _ _ _ _ _ L). left. reflexivity.
      * intros m H. change (counted b2) with (counted b1). apply in_app_or in H. destruct H as [H|[<-|[]]].
        -- rewrite (l_cnt_old _ _ _ _ _ _ _ _ _ L m); [exact (p0_cnt _ _ P m H)|]. intros [->|[]]. apply Nk, (p0_known b l P). auto.
        -- apply (l_cnt_new _ _ _ _ _ _ _ _ _ L). left. reflexivity.
      * intros m H. change (skip b2) with (skip b1). apply in_app_or in H. destruct H as [H|[<-|[]]].
        -- assert (m <> n) as Dm by (intros ->; apply Nk, (p0_known b l P); auto).
           rewrite (l_skip_old _ _ _ _ _ _ _ _ _ L m); [exact (p0_skip _ _ P m H)| |right]; intros [C|[]]; congruence.
        -- apply (l_skip_root _ _ _ _ _ _ _ _ _ L eq_refl). left. reflexivity.
      * change (trans (gr_ b2)) with (trans (gr_ b1)). rewrite (l_tr_old _ _ _ _ _ _ _ _ _ L root); [exact (p0_root _ _ P)|]. intros [C|[]]. congruence.
      * intros m. change (trans (gr_ b2)) with (trans (gr_ b1)). destruct (Nat.eq_dec m n) as [->|Dm].
        -- rewrite (l_tr_new _ _ _ _ _ _ _ _ _ L n (or_introl eq_refl)). destruct (_ && _); discriminate.
        -- rewrite (l_tr_old _ _ _ _ _ _ _ _ _ L m); [exact (p0_tdel _ _ P m)|]. intros [C|[]]. congruence.
Qed.

Lemma P0_rows : forall rs, incl rs rows -> ~ In root rs -> forall b l, P0 b l -> incl flagsNT l ->
  exists b', each (transient_cb kind_of transient_ root count_flags) b rs = Done b' /\ P0 b' (l ++ rs).
Proof.
  induction rs as [|n rs IH]; intros Hr Nr b l P Fl.
  - exists b. rewrite app_nil_r. split; [reflexivity|exact P].
  - destruct (P0_row b l n P) as [b1 [E P1]]; [intros ->; apply Nr; left; reflexivity|apply Hr; left; reflexivity|exact Fl|].
    cbn [each]. rewrite E. cbn [then_].
    destruct (IH (fun m Hm => Hr m (or_intror Hm)) (fun C => Nr (or_intror C)) b1 (l ++ [n]) P1) as [b' [E' P']].
    + intros m Hm. apply in_or_app. left. exact (Fl m Hm).
    + exists b'. split; [exact E'|]. rewrite <- app_assoc in P'. exact P'.
Qed.

(** The database of links without those of what was left behind. *)
Variable universe : list id.
Hypothesis DB : db_ok kind_of links glinks root universe (flags ++ rows).
Hypothesis GC : forall a n, In n (glinks a) -> counts (kind_of n) = false.
Hypothesis Kroot : kind_of root = KRoot.

Lemma DB' : db_ok kind_of links' glinks' root universe roots.
Proof.
  split.
  - exact (u_root _ _ _ _ _ _ DB).
  - intros n H. apply (u_flags _ _ _ _ _ _ DB). apply in_app_or in H. apply in_or_app. destruct H as [H|H]; [|auto].
    apply flagsNT_in in H. tauto.
  - intros a n Ha H. apply next'_iff in H. exact (u_next _ _ _ _ _ _ DB a n Ha (proj2 H)).
Qed.
Lemma GC' : forall a n, In n (glinks' a) -> counts (kind_of n) = false.
Proof. intros a n. unfold glinks'. destruct (leftb a); [intros []|apply GC]. Qed.

Notation LI' := (LI kind_of links' glinks' transient_ root count_flags roots).

Lemma P0_LI b : P0 b roots -> LI' b /\ (forall n, leftover n -> In n (fin b)).
Proof.
  intros P. pose proof (p0_in _ _ P) as IN. split; [split|].
  - exact (p0_W _ _ P).
  - exact (p0_nodes _ _ P).
  - intros n H. apply (p0_fin _ _ P n H).
  - intros n H. rewrite (proj1 (p0_plist _ _ P n H)). discriminate.
  - intros e. rewrite (p0_edges _ _ P e). split.
    + intros [H1 [H2 H3]]. split; [exact H1|]. left. auto.
    + intros [H1 [[H2 H3]|[H2 [H3 H4]]]]; [auto|]. exfalso. apply in_app_or in H2. destruct H2 as [H2|H2].
      * exact (H3 (proj1 (p0_plist _ _ P _ H2))).
      * apply next'_iff in H4. exact (proj1 H4 (proj2 (p0_fin _ _ P _ H2))).
  - intros e H. apply (p0_edges _ _ P) in H. apply IN. tauto.
  - intros n H. apply aff_flag. apply IN. exact H.
  - intros l1 p l2 E Sp. exfalso. assert (In p (plist (gr_ b))) as Hp by (rewrite E; apply in_elt).
    rewrite (proj1 (p0_plist _ _ P p Hp)) in Sp. discriminate.
  - intros n H. apply IN. exact H.
  - intros n H. apply (p0_trans _ _ P), IN, H.
  - intros n H. apply (p0_cnt _ _ P), IN, H.
  - intros n H. apply IN in H. rewrite (p0_skip _ _ P n H). symmetry. apply negb_false_iff, inb_In. exact H.
  - exact (p0_root _ _ P).
  - exact (p0_tdel _ _ P).
  - intros n H. assert (In n (plist (gr_ b) ++ fin b)) as Q by (apply IN, in_or_app; right; apply H).
    apply in_app_or in Q. destruct Q as [Q|Q]; [|exact Q]. exfalso. exact (proj2 (p0_plist _ _ P n Q) H).
Qed.

(** The loop never looks at the links of what was left behind. *)
Lemma loop_same fuel : forall b, LI' b -> (forall n, leftover n -> In n (fin b)) ->
  build_loop kind_of links glinks transient_ root count_flags fuel b =
  build_loop kind_of links' glinks' transient_ root count_flags fuel b.
Proof.
  induction fuel as [|f IH]; intros b I Lf; cbn [build_loop]; [reflexivity|].
  destruct (plist (gr_ b)) as [|cur rest] eqn:Pl; [reflexivity|].
  assert (In cur (plist (gr_ b) ++ fin b)) as Kc by (rewrite Pl; left; reflexivity).
  assert (~ leftover cur) as Nl.
  { intros C. apply Lf in C. destruct (li_W _ _ _ _ _ _ _ _ I) as [ND _]. unfold known in ND.
    rewrite (li_nodes _ _ _ _ _ _ _ _ I), Pl in ND. cbn [app] in ND. apply NoDup_cons_iff in ND. apply (proj1 ND).
    apply in_or_app. right. right. exact C. }
  assert (GraphSpec.affected kind_of links' glinks' roots cur) as Ac by (apply (li_aff _ _ _ _ _ _ _ _ I); exact Kc).
  destruct (state (gr_ b) cur) eqn:St.
  - assert (expand_links kind_of links glinks transient_ root count_flags b cur =
            expand_links kind_of links' glinks' transient_ root count_flags b cur) as Ex.
    { unfold expand_links, links', glinks'. rewrite (proj2 (leftb_false cur) Nl). reflexivity. }
    rewrite Ex.
    destruct (expand_links_spec kind_of links' glinks' (fun _ : id => @Datatypes.nil id) transient_ (fun _ : id => false) root count_flags b cur) as [[b1 [new [E L]]]|[E _]].
    + exact (affected_not_root kind_of links' glinks' root roots universe DB' cur Ac).
    + exact GC'.
    + exact (li_W _ _ _ _ _ _ _ _ I).
    + intros C. apply (succs_next kind_of links' glinks' (fun _ : id => @Datatypes.nil id) (fun _ : id => false) (fun _ : id => false) root) in C. apply (u_root _ _ _ _ _ _ DB').
      exact (u_next _ _ _ _ _ _ DB' cur root (affected_U kind_of links' glinks' root roots universe DB' _ Ac) C).
    + rewrite E. cbn [then_].
      destruct (step_init kind_of links' glinks' (fun _ : id => @Datatypes.nil id) transient_ (fun _ : id => false) root count_flags roots universe DB' b cur rest b1 new I Pl St L) as [I2 _].
      apply IH; [exact I2|]. intros n H. unfold fin. cbn. rewrite (l_nodes _ _ _ _ _ _ _ _ _ L). exact (Lf n H).
    + rewrite E. reflexivity.
  - destruct (step_proc kind_of links' glinks' (fun _ : id => @Datatypes.nil id) transient_ (fun _ : id => false) root count_flags roots b cur rest I Pl St) as [g [E [I2 _]]].
    rewrite E. cbn [of_option then_]. apply IH; [exact I2|]. intros n H.
    unfold fin. cbn. unfold off_plist in E. rewrite Pl in E. destruct (inb cur (cur :: rest)); [|discriminate]. cbn [obind] in E.
    unfold to_nodes_tail in E. cbn [plist node_list] in E. destruct (_ || _); [discriminate|]. injection E as <-. cbn [node_list].
    rewrite (li_nodes _ _ _ _ _ _ _ _ I). cbn. apply in_or_app. left. exact (Lf n H).
  - reflexivity.
Qed.

(** The graph before the commands on demand. *)
Lemma first_part fuel : 2 * length universe < fuel ->
  match then_ (each (fun b n => cb b root n) (create_graph kind_of transient_ root) flagsNT) (fun b1 =>
        then_ (each (transient_cb kind_of transient_ root count_flags) b1 rows)
          (build_loop kind_of links glinks transient_ root count_flags fuel)) with
  | Done b => LI' b /\ plist (gr_ b) = []
  | Circular => exists n, due n /\ path kind_of links glinks n n
  | Internal | Timeout => False
  end.
Proof.
  intros Hf.
  assert (~ In root flags /\ ~ In root rows) as [R1 R2].
  { split; intros C; apply (u_root _ _ _ _ _ _ DB); apply (u_flags _ _ _ _ _ _ DB); apply in_or_app; auto. }
  destruct (P0_flags Kroot flagsNT) with (b := create_graph kind_of transient_ root) (l := @Datatypes.nil id) as [b1 [E1 P1]].
  - intros n H. split; [intros ->; apply flagsNT_in in H; tauto|]. intros C. exact (leftover_not_NT n C H).
  - exact (P0_create Kroot).
  - rewrite E1. cbn [then_ app] in *.
    destruct (P0_rows rows (fun x Hx => Hx) R2 b1 flagsNT P1 (fun x Hx => Hx)) as [b2 [E2 P2]]. rewrite E2. cbn [then_].
    destruct (P0_LI b2 P2) as [I Lf]. rewrite (loop_same fuel b2 I Lf).
    pose proof (build_loop_spec kind_of links' glinks' (fun _ : id => @Datatypes.nil id) transient_ (fun _ : id => false) root count_flags roots universe DB' GC' fuel b2 I) as Q.
    assert (2 * length universe < fuel + visits b2) as Hf' by lia. specialize (Q Hf').
    destruct (build_loop _ _ _ _ _ _ _ _); try exact Q. destruct Q as [n [H1 H2]]. exists n. split; [apply due_iff; exact H1|].
    exact (path'_path n n H2).
Qed.
End Build.
