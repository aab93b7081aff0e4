(** Pruning and trimming of update graphs. *)
From Verif Require Import Base ExecModel ExecSpec GraphModel GraphSpec ExecProofs GraphProofs.

Section Prune.
Variable kind_of : id -> kind.
Variable exclusion : id -> bool.
Notation mnext := (mark_next kind_of exclusion).
Notation mark := (mark_nodes kind_of exclusion).

Definition step_from (g : graph) (n x : id) : Prop := In x (mnext g n).
Inductive mreach (g : graph) (n : id) : id -> Prop :=
| mr_refl : mreach g n n
| mr_step x y : mreach g n x -> In y (mnext g x) -> mreach g n y.

Lemma mreach_left g n x y : In x (mnext g n) -> mreach g x y -> mreach g n y.
Proof.
  intros H R. induction R as [|a b R IH Hb].
  - exact (mr_step g n n x (mr_refl g n) H).
  - exact (mr_step g n a b IH Hb).
Qed.

Record marks (g : graph) (N m m' : list id) (roots : list id) : Prop := {
  m_incl : incl m m';
  m_roots : incl roots m';
  m_nodup : NoDup m';
  m_in : incl m' N;
  m_closed : forall x y, In x m' -> ~ In x m -> In y (mnext g x) -> In y m';
  m_reach : forall x, In x m' -> In x m \/ exists r, In r roots /\ mreach g r x;
}.

Lemma mark_spec g N : (forall x y, In x N -> In y (mnext g x) -> In y N) ->
  forall fuel m n, NoDup m -> incl m N -> In n N -> length N < fuel + length m ->
  exists m', mark fuel g m n = Some m' /\ marks g N m m' [n].
Proof.
  intros Cl. induction fuel as [|f IH]; intros m n Nd Im In_ Hf.
  { exfalso. pose proof (NoDup_incl_length Nd Im). cbn in Hf. lia. }
  cbn [mark_nodes]. destruct (inb n m) eqn:I.
  - apply inb_In in I. exists m. split; [reflexivity|]. split; auto.
    + intros x Hx. exact Hx.
    + intros x [<-|[]]. exact I.
    + intros x y H1 H2. contradiction.
  - apply inb_false in I.
    assert (forall l m0, NoDup m0 -> incl m0 N -> incl l N -> length N < f + length m0 ->
      exists m', fold_left (fun m x => obind m (fun m => mark f g m x)) l (Some m0) = Some m' /\ marks g N m0 m' l) as Q.
    { induction l as [|x l IHl]; intros m0 Nd0 I0 Il Hm0.
      - exists m0. split; [reflexivity|]. split; auto.
        + intros x Hx. exact Hx.
        + intros x [].
        + intros x y H1 H2. contradiction.
      - cbn [fold_left obind].
        destruct (IH m0 x Nd0 I0 (Il x (or_introl eq_refl)) Hm0) as [m1 [E1 M1]]. rewrite E1.
        destruct (IHl m1 (m_nodup _ _ _ _ _ M1) (m_in _ _ _ _ _ M1)) as [m2 [E2 M2]].
        + intros y Hy. apply Il. right. exact Hy.
        + pose proof (NoDup_incl_length Nd0 (m_incl _ _ _ _ _ M1)). lia.
        + exists m2. split; [exact E2|]. split.
          * intros y Hy. apply (m_incl _ _ _ _ _ M2), (m_incl _ _ _ _ _ M1). exact Hy.
          * intros y [<-|Hy]; [apply (m_incl _ _ _ _ _ M2), (m_roots _ _ _ _ _ M1); left; reflexivity|].
            apply (m_roots _ _ _ _ _ M2). exact Hy.
          * exact (m_nodup _ _ _ _ _ M2).
          * exact (m_in _ _ _ _ _ M2).
          * intros a b Ha Na Hb. destruct (in_dec Nat.eq_dec a m1) as [A|A].
            -- apply (m_incl _ _ _ _ _ M2). exact (m_closed _ _ _ _ _ M1 a b A Na Hb).
            -- exact (m_closed _ _ _ _ _ M2 a b Ha A Hb).
          * intros a Ha. destruct (m_reach _ _ _ _ _ M2 a Ha) as [A|[r [R1 R2]]].
            -- destruct (m_reach _ _ _ _ _ M1 a A) as [B|[r [[<-|[]] R2]]]; [auto|].
               right. exists x. split; [left; reflexivity|exact R2].
            -- right. exists r. split; [right; exact R1|exact R2]. }
    destruct (Q (mnext g n) (n :: m)) as [m' [E M]].
    + constructor; assumption.
    + intros x [<-|Hx]; [exact In_|apply Im; exact Hx].
    + intros y Hy. exact (Cl n y In_ Hy).
    + cbn [length]. lia.
    + exists m'. split; [exact E|]. split.
      * intros x Hx. apply (m_incl _ _ _ _ _ M). right. exact Hx.
      * intros x [<-|[]]. apply (m_incl _ _ _ _ _ M). left. reflexivity.
      * exact (m_nodup _ _ _ _ _ M).
      * exact (m_in _ _ _ _ _ M).
      * intros x y Hx Nx Hy. destruct (Nat.eq_dec x n) as [->|D].
        -- apply (m_roots _ _ _ _ _ M). exact Hy.
        -- apply (m_closed _ _ _ _ _ M x y Hx); [|exact Hy]. intros [C|C]; [congruence|contradiction].
      * intros x Hx. destruct (m_reach _ _ _ _ _ M x Hx) as [[<-|A]|[r [R1 R2]]].
        -- right. exists n. split; [left; reflexivity|apply mr_refl].
        -- auto.
        -- right. exists n. split; [left; reflexivity|]. exact (mreach_left g n r x R1 R2).
Qed.

Lemma mnext_iff g n x : In x (mnext g n) <->
  (exists e, In e (edges g) /\ src e = n /\ dst e = x /\ kind_of n = KCmd /\ kind_of x <> KGroup /\ exclusion x = false) \/
  (exists e, In e (edges g) /\ dst e = n /\ src e = x).
Proof.
  unfold mark_next. rewrite in_app_iff. split; intros [H|H].
  - left. destruct (is_cmd (kind_of n)) eqn:K; [|destruct H]. apply filter_In in H. destruct H as [H1 H2].
    apply in_map_iff in H1. destruct H1 as [e [E1 E2]]. unfold out_edges in E2. apply filter_In in E2. destruct E2 as [E2 E3].
    apply Nat.eqb_eq in E3. apply andb_true_iff in H2. destruct H2 as [H2 H3]. exists e. repeat split; auto.
    + destruct (kind_of n); try discriminate; reflexivity.
    + intros C. rewrite C in H2. discriminate.
    + apply negb_true_iff. exact H3.
  - right. apply in_map_iff in H. destruct H as [e [E1 E2]]. apply filter_In in E2. destruct E2 as [E2 E3].
    apply Nat.eqb_eq in E3. exists e. auto.
  - left. destruct H as [e [E1 [E2 [E3 [E4 [E5 E6]]]]]]. rewrite E4. cbn [is_cmd]. apply filter_In. split.
    + apply in_map_iff. exists e. split; [exact E3|]. unfold out_edges. apply filter_In. split; [exact E1|].
      apply Nat.eqb_eq. exact E2.
    + rewrite E6. destruct (kind_of x); try reflexivity. contradiction.
  - right. destruct H as [e [E1 [E2 E3]]]. apply in_map_iff. exists e. split; [exact E3|]. apply filter_In.
    split; [exact E1|]. apply Nat.eqb_eq. exact E2.
Qed.

Notation need := (needed kind_of exclusion).

Lemma mreach_need g ts r x : need g ts r -> mreach g r x -> need g ts x.
Proof.
  intros Hr R. induction R as [|a b R IH Hb]; [exact Hr|]. apply mnext_iff in Hb.
  destruct Hb as [[e [E1 [E2 [E3 [E4 [E5 E6]]]]]]|[e [E1 [E2 E3]]]]; subst.
  - apply (need_output _ _ _ _ e); auto.
  - apply (need_upstream _ _ _ _ e); auto.
Qed.

(** The marks of all the targets. *)
Lemma mark_targets b ts : plist (gr_ b) = [] -> NoDup (node_list (gr_ b)) ->
  (forall e, In e (edges (gr_ b)) -> In (src e) (node_list (gr_ b)) /\ In (dst e) (node_list (gr_ b))) ->
  exists marked,
    fold_left (fun m t => obind m (fun m => if found b t then mark (S (length (node_list (gr_ b)))) (gr_ b) m t else Some m))
      ts (Some []) = Some marked /\
    (forall n, In n marked <-> need (gr_ b) ts n) /\ incl marked (node_list (gr_ b)).
Proof.
  intros Pl Nd Ed. set (g := gr_ b) in *. set (N := node_list g) in *.
  assert (forall x y, In x N -> In y (mnext g x) -> In y N) as Cl.
  { intros x y Hx Hy. apply mnext_iff in Hy. destruct Hy as [[e [E1 [_ [<- _]]]]|[e [E1 [_ <-]]]]; apply Ed; exact E1. }
  assert (forall t, found b t = true <-> In t N) as FN.
  { intros t. unfold found. fold g. rewrite Pl. cbn [inb existsb orb]. apply inb_In. }
  assert (forall l m0, NoDup m0 -> incl m0 N -> (forall x y, In x m0 -> In y (mnext g x) -> In y m0) ->
    exists m, fold_left (fun m t => obind m (fun m => if found b t then mark (S (length N)) g m t else Some m)) l (Some m0) = Some m /\
      incl m0 m /\ incl m N /\ (forall x y, In x m -> In y (mnext g x) -> In y m) /\
      (forall t, In t l -> In t N -> In t m) /\
      (forall x, In x m -> In x m0 \/ exists r, In r l /\ In r N /\ mreach g r x)) as Q.
  { induction l as [|t l IH]; intros m0 Nd0 I0 C0.
    - exists m0. split; [reflexivity|]. split; [intros x Hx; exact Hx|]. split; [exact I0|]. split; [exact C0|].
      split; [intros t []|]. auto.
    - cbn [fold_left obind]. destruct (found b t) eqn:Ft.
      + apply FN in Ft. destruct (mark_spec g N Cl (S (length N)) m0 t Nd0 I0 Ft) as [m1 [E1 M1]]; [lia|]. rewrite E1.
        destruct (IH m1 (m_nodup _ _ _ _ _ M1) (m_in _ _ _ _ _ M1)) as [m [E [H1 [H2 [H3 [H4 H5]]]]]].
        * intros x y Hx Hy. destruct (in_dec Nat.eq_dec x m0) as [D|D].
          -- apply (m_incl _ _ _ _ _ M1). exact (C0 x y D Hy).
          -- exact (m_closed _ _ _ _ _ M1 x y Hx D Hy).
        * exists m. split; [exact E|]. split; [intros x Hx; apply H1, (m_incl _ _ _ _ _ M1); exact Hx|].
          split; [exact H2|]. split; [exact H3|]. split.
          -- intros u [<-|Hu] Nu; [apply H1, (m_roots _ _ _ _ _ M1); left; reflexivity|exact (H4 u Hu Nu)].
          -- intros x Hx. destruct (H5 x Hx) as [A|[r [R1 [R2 R3]]]]; [|right; exists r; cbn; auto].
             destruct (m_reach _ _ _ _ _ M1 x A) as [B|[r [[<-|[]] R2]]]; [auto|].
             right. exists t. cbn. auto.
      + destruct (IH m0 Nd0 I0 C0) as [m [E [H1 [H2 [H3 [H4 H5]]]]]]. exists m. split; [exact E|].
        split; [exact H1|]. split; [exact H2|]. split; [exact H3|]. split.
        * intros u [<-|Hu] Nu; [apply FN in Nu; congruence|exact (H4 u Hu Nu)].
        * intros x Hx. destruct (H5 x Hx) as [A|[r [R1 [R2 R3]]]]; [auto|]. right. exists r. cbn. auto. }
  destruct (Q ts [] (NoDup_nil _)) as [m [E [_ [H2 [H3 [H4 H5]]]]]]; [intros x []|intros x y []|].
  exists m. split; [exact E|]. split; [|exact H2]. intros n. split.
  - intros Hn. destruct (H5 n Hn) as [[]|[r [R1 [R2 R3]]]]. apply (mreach_need g ts r); [|exact R3].
    apply need_target; assumption.
  - induction 1 as [t H1' H2'|e He Hd IHd|e He Hs IHs K1 K2 K3].
    + apply H4; assumption.
    + apply (H3 _ _ IHd). apply mnext_iff. right. exists e. auto.
    + apply (H3 _ _ IHs). apply mnext_iff. left. exists e. repeat split; auto.
Qed.

(** One pass of prune_node. *)
Variable root : id.
Definition pruned (marked : list id) (n : id) : bool := negb (inb n marked) && negb (n =? root).
Definition goes (marked l : list id) (n : id) : bool :=
  inb n l && pruned marked n && negb (is_file (kind_of n)).

Record prunes (b : bgraph) (modify marked l : list id) (b' : bgraph) (modify' : list id) : Prop := {
  pr_plist : plist (gr_ b') = plist (gr_ b);
  pr_nodes : node_list (gr_ b') = filter (fun n => negb (goes marked l n)) (node_list (gr_ b));
  pr_edges : edges (gr_ b') = filter (fun e => negb (goes marked l (src e)) && negb (goes marked l (dst e))) (edges (gr_ b));
  pr_state : state (gr_ b') = state (gr_ b);
  pr_exp : expanded (gr_ b') = expanded (gr_ b);
  pr_skip : skip b' = skip b;
  pr_counted : counted b' = counted b;
  pr_trans : forall t, goes marked l t = false ->
    ((exists e, In e (edges (gr_ b)) /\ src e = t /\ In (dst e) l /\ pruned marked (dst e) = true) -> trans (gr_ b') t = TNone) /\
    ((forall e, In e (edges (gr_ b)) -> src e = t -> ~ (In (dst e) l /\ pruned marked (dst e) = true)) -> trans (gr_ b') t = trans (gr_ b) t);
  pr_tle : forall t, trans (gr_ b') t = trans (gr_ b) t \/ trans (gr_ b') t = TNone;
  pr_modify : forall x, In x modify' <-> In x modify \/ (In x l /\ pruned marked x = true /\ counted b x = true);
}.

Lemma filter_filter {A} (f h : A -> bool) l : filter f (filter h l) = filter (fun x => h x && f x) l.
Proof.
  induction l as [|x l IH]; [reflexivity|]. cbn [filter]. destruct (h x); cbn [filter andb].
  - destruct (f x); rewrite IH; reflexivity.
  - exact IH.
Qed.
Lemma rm_filter n l : rm n l = filter (fun x => negb (x =? n)) l.
Proof. induction l as [|x l IH]; [reflexivity|]. cbn [rm filter]. destruct (x =? n); cbn [negb]; rewrite IH; reflexivity. Qed.
Lemma filter_ext' {A} (f h : A -> bool) l : (forall x, f x = h x) -> filter f l = filter h l.
Proof. intros H. apply filter_ext_in'. intros x _. apply H. Qed.
Lemma filter_true {A} (f : A -> bool) l : (forall x, f x = true) -> filter f l = l.
Proof. intros H. induction l as [|x l IH]; [reflexivity|]. cbn [filter]. rewrite H, IH. reflexivity. Qed.

Lemma prune_nodes_spec marked : forall l b modify, NoDup l ->
  (forall n, In n l -> pruned marked n = true -> counted b n = true -> kind_of n = KCmd) ->
  (plist (gr_ b) = []) ->
  exists b' modify', prune_nodes kind_of root b modify marked l = Some (b', modify') /\ prunes b modify marked l b' modify'.
Proof.
  induction l as [|n l IH]; intros b modify Nd Hc Pl.
  - exists b, modify. split; [reflexivity|]. split; try reflexivity.
    + rewrite filter_true; reflexivity.
    + rewrite filter_true; reflexivity.
    + intros t _. split; [intros [e [_ [_ [[] _]]]]|reflexivity].
    + auto.
    + intros x. split; [auto|]. intros [H|[[] _]]. exact H.
  - inversion Nd as [|? ? Nn Nl]. subst. cbn [prune_nodes].
    destruct (inb n marked || (n =? root)) eqn:Mk.
    + assert (pruned marked n = false) as Pf.
      { unfold pruned. rewrite <- negb_orb, Mk. reflexivity. }
      destruct (IH b modify Nl) as [b' [m' [E P]]].
      { intros x Hx. apply Hc. right. exact Hx. }
      { exact Pl. }
      assert (forall x, goes marked (n :: l) x = goes marked l x) as G.
      { intros x. unfold goes. cbn [inb existsb]. fold (inb x l). destruct (Nat.eqb_spec x n) as [->|D]; [|reflexivity].
        rewrite Pf. cbn. rewrite andb_false_r. reflexivity. }
      exists b', m'. split; [exact E|]. split; try apply P.
      * rewrite (pr_nodes _ _ _ _ _ _ P). apply filter_ext'. intros x. rewrite G. reflexivity.
      * rewrite (pr_edges _ _ _ _ _ _ P). apply filter_ext'. intros x. rewrite !G. reflexivity.
      * intros t Gt. rewrite G in Gt. destruct (pr_trans _ _ _ _ _ _ P t Gt) as [T1 T2]. split.
        -- intros [e [E1 [E2 [[E3|E3] E4]]]]; [rewrite <- E3 in E4; congruence|]. apply T1. exists e. auto.
        -- intros H. apply T2. intros e E1 E2 [E3 E4]. apply (H e E1 E2). split; [right; exact E3|exact E4].
      * intros x. rewrite (pr_modify _ _ _ _ _ _ P). cbn [In]. split; [tauto|].
        intros [H|[[<-|H1] [H2 H3]]]; [auto|congruence|auto].
    + assert (pruned marked n = true) as Pt.
      { unfold pruned. rewrite <- negb_orb, Mk. reflexivity. }
      assert (counted b n && negb (is_cmd (kind_of n)) = false) as Cc.
      { destruct (counted b n) eqn:Cn; [|reflexivity]. rewrite (Hc n (or_introl eq_refl) Pt Cn). reflexivity. }
      unfold prune_node. rewrite Cc. cbn [obind fst snd].
      set (srcs := map src (filter (fun e => dst e =? n) (edges (gr_ b)))).
      set (g1 := {| plist := plist (gr_ b); node_list := node_list (gr_ b); edges := edges (gr_ b); state := state (gr_ b);
                    trans := fun x => if inb x srcs then TNone else trans (gr_ b) x; expanded := expanded (gr_ b) |}).
      set (b1 := {| gr_ := if is_file (kind_of n) then g1 else drop_node g1 n; skip := skip b; counted := counted b;
                    num_nodes := if counted b n then pred (num_nodes b) else num_nodes b |}).
      set (m1 := if counted b n then n :: modify else modify).
      assert (plist (gr_ b1) = []) as Pl1.
      { cbn. destruct (is_file (kind_of n)); cbn; rewrite Pl; reflexivity. }
      destruct (IH b1 m1 Nl) as [b' [m' [E P]]].
      { intros x Hx. apply Hc. right. exact Hx. }
      { exact Pl1. }
      assert (forall x, goes marked (n :: l) x = ((x =? n) && negb (is_file (kind_of n))) || goes marked l x) as G.
      { intros x. unfold goes. cbn [inb existsb]. fold (inb x l). destruct (Nat.eqb_spec x n) as [->|D].
        - rewrite Pt. cbn. rewrite andb_true_r. destruct (is_file (kind_of n)); cbn; [|reflexivity]. rewrite andb_false_r. reflexivity.
        - reflexivity. }
      assert (forall t, In t srcs <-> exists e, In e (edges (gr_ b)) /\ src e = t /\ dst e = n) as Hs.
      { intros t. unfold srcs. rewrite in_map_iff. split.
        - intros [e [E1 E2]]. apply filter_In in E2. destruct E2 as [E2 E3]. apply Nat.eqb_eq in E3. exists e. auto.
        - intros [e [E1 [E2 E3]]]. exists e. split; [exact E2|]. apply filter_In. split; [exact E1|]. apply Nat.eqb_eq. exact E3. }
      assert (trans (gr_ b1) = fun x => if inb x srcs then TNone else trans (gr_ b) x) as Tr.
      { cbn. destruct (is_file (kind_of n)); reflexivity. }
      assert (node_list (gr_ b1) = filter (fun x => negb ((x =? n) && negb (is_file (kind_of n)))) (node_list (gr_ b))) as Nd1.
      { cbn. destruct (is_file (kind_of n)); cbn.
        - rewrite filter_true; [reflexivity|]. intros x. rewrite andb_false_r. reflexivity.
        - rewrite rm_filter. apply filter_ext'. intros x. rewrite andb_true_r. reflexivity. }
      assert (edges (gr_ b1) = filter (fun e => negb ((src e =? n) && negb (is_file (kind_of n))) &&
                                                negb ((dst e =? n) && negb (is_file (kind_of n)))) (edges (gr_ b))) as Ed1.
      { cbn. destruct (is_file (kind_of n)); cbn.
        - rewrite filter_true; [reflexivity|]. intros x. rewrite !andb_false_r. reflexivity.
        - apply filter_ext'. intros x. rewrite !andb_true_r. reflexivity. }
      exists b', m'. split; [exact E|]. split.
      * rewrite (pr_plist _ _ _ _ _ _ P), Pl1. symmetry. exact Pl.
      * rewrite (pr_nodes _ _ _ _ _ _ P), Nd1, filter_filter. apply filter_ext'. intros x. rewrite G, negb_orb. reflexivity.
      * rewrite (pr_edges _ _ _ _ _ _ P), Ed1, filter_filter. apply filter_ext'. intros x. rewrite !G, !negb_orb.
        destruct (negb ((src x =? n) && _)), (negb ((dst x =? n) && _)), (negb (goes marked l (src x))), (negb (goes marked l (dst x))); reflexivity.
      * rewrite (pr_state _ _ _ _ _ _ P). cbn. destruct (is_file (kind_of n)); reflexivity.
      * rewrite (pr_exp _ _ _ _ _ _ P). cbn. destruct (is_file (kind_of n)); reflexivity.
      * rewrite (pr_skip _ _ _ _ _ _ P). reflexivity.
      * rewrite (pr_counted _ _ _ _ _ _ P). reflexivity.
      * intros t Gt. rewrite G in Gt. apply orb_false_iff in Gt. destruct Gt as [Gt1 Gt2].
        destruct (pr_trans _ _ _ _ _ _ P t Gt2) as [T1 T2].
        assert (In t srcs -> trans (gr_ b') t = TNone) as T3.
        { intros H. destruct (pr_tle _ _ _ _ _ _ P t) as [Q|Q]; [|exact Q]. rewrite Q, Tr.
          apply inb_In in H. rewrite H. reflexivity. }
        split.
        -- intros [e [E1 [E2 [[E3|E3] E4]]]]; [apply T3; apply Hs; exists e; auto|].
           destruct (Nat.eq_dec (dst e) n) as [D|D]; [apply T3; apply Hs; exists e; auto|].
           apply T1. exists e. split; [|auto]. rewrite Ed1. apply filter_In. split; [exact E1|].
           rewrite E2, Gt1. destruct (Nat.eqb_spec (dst e) n); [contradiction|reflexivity].
        -- intros H. rewrite T2.
           ++ rewrite Tr. destruct (inb t srcs) eqn:It; [|reflexivity]. exfalso. apply inb_In in It. apply Hs in It.
              destruct It as [e [E1 [E2 E3]]]. apply (H e E1 E2). rewrite E3. split; [left; reflexivity|exact Pt].
           ++ intros e E1 E2 [E3 E4]. rewrite Ed1 in E1. apply filter_In in E1. destruct E1 as [E1 _].
              apply (H e E1 E2). split; [right; exact E3|exact E4].
      * intros t. destruct (pr_tle _ _ _ _ _ _ P t) as [Q|Q]; [|auto]. rewrite Q, Tr. destruct (inb t srcs); auto.
      * intros x. rewrite (pr_modify _ _ _ _ _ _ P). unfold m1. cbn [In].
        change (counted b1 x) with (counted b x). destruct (counted b n) eqn:Cn; cbn [In]; split.
        -- intros [[<-|H]|[H1 [H2 H3]]]; auto.
        -- intros [H|[[<-|H1] [H2 H3]]]; auto.
        -- intros [H|[H1 [H2 H3]]]; auto.
        -- intros [H|[[<-|H1] [H2 H3]]]; auto. congruence.
Qed.

(** The whole of prune_graph on a prepared graph. *)
Theorem prune_graph_spec b nodes modify ts :
  prepared (gr_ b) root nodes ->
  (forall n, In n nodes -> counted b n = true -> kind_of n = KCmd) ->
  (forall e, In e (edges (gr_ b)) -> kind_of (dst e) = KFile -> src e = root) ->
  exists b' modify' nodes', prune_graph kind_of exclusion root b modify ts = Some (b', modify') /\
    prepared (gr_ b') root nodes' /\
    (forall n, In n nodes' <-> In n nodes /\ (need (gr_ b) ts n \/ kind_of n = KFile)) /\
    (forall e, In e (edges (gr_ b')) <->
       In e (edges (gr_ b)) /\ (src e = root \/ In (src e) nodes') /\ In (dst e) nodes') /\
    (forall n, In n modify' <-> In n modify \/ (In n nodes /\ counted b n = true /\ ~ need (gr_ b) ts n)) /\
    (forall n, In n nodes' -> state (gr_ b') n = state (gr_ b) n /\ skip b' n = skip b n /\ counted b' n = counted b n) /\
    (forall t, In t nodes' ->
      (~ (exists e, In e (edges (gr_ b)) /\ src e = t /\ ~ need (gr_ b) ts (dst e)) -> trans (gr_ b') t = trans (gr_ b) t) /\
      ((exists e, In e (edges (gr_ b)) /\ src e = t /\ ~ need (gr_ b) ts (dst e)) -> trans (gr_ b') t = TNone)).
Proof.
  intros Pp Hc Hf. set (g := gr_ b) in *.
  pose proof (p_nodup _ _ _ Pp) as Nd.
  assert (NoDup (node_list g)) as Nd1 by (rewrite (p_lists _ _ _ Pp); exact Nd).
  assert (~ In root nodes) as Rn by (inversion Nd; assumption).
  destruct (mark_targets b ts (p_plist _ _ _ Pp) Nd1) as [marked [E [M Mi]]].
  { intros e He. fold g. rewrite (p_lists _ _ _ Pp). split; [exact (p_src _ _ _ Pp e He)|right; exact (p_dst _ _ _ Pp e He)]. }
  fold g in E. fold g in M. unfold prune_graph. cbv zeta. fold g. rewrite E. cbn [obind]. clear E.
  assert (forall n, pruned marked n = true <-> ~ need g ts n /\ n <> root) as PR.
  { intros n. unfold pruned. rewrite andb_true_iff, !negb_true_iff, inb_false, M, Nat.eqb_neq. reflexivity. }
  destruct (prune_nodes_spec marked (node_list g) b modify Nd1) as [b' [m' [E2 P]]].
  { intros n Hn Hp Hcn. apply PR in Hp. rewrite (p_lists _ _ _ Pp) in Hn. destruct Hn as [<-|Hn]; [tauto|]. exact (Hc n Hn Hcn). }
  { exact (p_plist _ _ _ Pp). }
  assert (forall n, In n nodes -> (goes marked (node_list g) n = true <-> ~ need g ts n /\ kind_of n <> KFile)) as GO.
  { intros n Hn. unfold goes. rewrite !andb_true_iff, PR, inb_In, (p_lists _ _ _ Pp), negb_true_iff. cbn [In].
    assert (n <> root) by congruence. assert (is_file (kind_of n) = false <-> kind_of n <> KFile) as K.
    { destruct (kind_of n); cbn; split; congruence. }
    rewrite K. tauto. }
  assert (goes marked (node_list g) root = false) as GR.
  { unfold goes, pruned. rewrite Nat.eqb_refl. cbn. rewrite !andb_false_r. reflexivity. }
  assert (forall n, need g ts n \/ ~ need g ts n) as DEC.
  { intros n. rewrite <- M. destruct (in_dec Nat.eq_dec n marked); auto. }
  exists b', m', (filter (fun n => negb (goes marked (node_list g) n)) nodes).
  set (nodes' := filter _ nodes).
  assert (forall n, In n nodes' <-> In n nodes /\ (need g ts n \/ kind_of n = KFile)) as KN.
  { intros n. unfold nodes'. rewrite filter_In, negb_true_iff. split; intros [H1 H2]; split; auto.
    - pose proof (GO n H1) as G. destruct (DEC n) as [D|D]; [auto|]. right.
      destruct (kind_of n) eqn:K; try reflexivity; exfalso; (assert (goes marked (node_list g) n = true) as C by (apply G; split; [exact D|congruence])); congruence.
    - pose proof (GO n H1) as G. destruct (goes marked (node_list g) n); [|reflexivity]. exfalso.
      destruct (proj1 G eq_refl) as [G1 G2]. destruct H2; contradiction. }
  assert (forall n, In n nodes -> (goes marked (node_list g) n = false <-> In n nodes')) as GN.
  { intros n H. unfold nodes'. rewrite filter_In, negb_true_iff. tauto. }
  assert (forall e, In e (edges (gr_ b')) <-> In e (edges g) /\ (src e = root \/ In (src e) nodes') /\ In (dst e) nodes') as KE.
  { intros e. rewrite (pr_edges _ _ _ _ _ _ P), filter_In, andb_true_iff, !negb_true_iff. fold g. split.
    - intros [H1 [H2 H3]]. split; [exact H1|]. split.
      + destruct (p_src _ _ _ Pp e H1) as [C|C]; [left; symmetry; exact C|right; apply GN; assumption].
      + apply GN; [apply (p_dst _ _ _ Pp e H1)|exact H3].
    - intros [H1 [H2 H3]]. split; [exact H1|]. split.
      + destruct H2 as [->|H2]; [exact GR|]. apply GN; [apply KN in H2; tauto|exact H2].
      + apply GN; [apply KN in H3; tauto|exact H3]. }
  split; [exact E2|]. split; [|split; [exact KN|split; [exact KE|split; [|split]]]].
  - split.
    + rewrite (pr_nodes _ _ _ _ _ _ P). fold g. rewrite (p_lists _ _ _ Pp). cbn [filter]. rewrite <- (p_lists _ _ _ Pp), GR. reflexivity.
    + rewrite (pr_plist _ _ _ _ _ _ P). exact (p_plist _ _ _ Pp).
    + constructor; [intros C; apply KN in C; tauto|]. apply NoDup_filter. inversion Nd; assumption.
    + intros e He. apply KE in He. destruct He as [_ [[->|H] _]]; [left; reflexivity|right; exact H].
    + intros e He. apply KE in He. tauto.
    + intros n Hn. pose proof (proj1 (KN n) Hn) as [H1 H2]. destruct (p_incoming _ _ _ Pp n H1) as [e [He <-]].
      exists e. split; [|reflexivity]. apply KE. split; [exact He|]. split; [|exact Hn].
      destruct H2 as [H2|H2].
      * destruct (p_src _ _ _ Pp e He) as [C|C]; [left; symmetry; exact C|]. right. apply KN. split; [exact C|].
        left. apply (need_upstream _ _ _ _ e He H2).
      * left. exact (Hf e He H2).
    + intros n Hn. rewrite (pr_state _ _ _ _ _ _ P). apply (p_state _ _ _ Pp). apply KN in Hn. tauto.
    + intros n Hn. rewrite (pr_exp _ _ _ _ _ _ P). apply (p_expanded _ _ _ Pp). apply KN in Hn. tauto.
    + intros n. destruct (pr_tle _ _ _ _ _ _ P n) as [->| ->]; [apply (p_trans _ _ _ Pp)|discriminate].
    + destruct (pr_tle _ _ _ _ _ _ P root) as [->| ->]; [apply (p_root _ _ _ Pp)|reflexivity].
    + intros e He Ht. apply KE in He. destruct He as [He _].
      destruct (pr_tle _ _ _ _ _ _ P (dst e)) as [->| ->]; [|reflexivity].
      apply (p_flip _ _ _ Pp e He). destruct (pr_tle _ _ _ _ _ _ P (src e)) as [C|C]; [transitivity (trans (gr_ b') (src e)); [symmetry; exact C|exact Ht]|congruence].
  - intros n. rewrite (pr_modify _ _ _ _ _ _ P), PR, (p_lists _ _ _ Pp). cbn [In]. split.
    + intros [H|[[<-|H1] [[H2 H3] H4]]]; [auto|tauto|auto].
    + intros [H|[H1 [H2 H3]]]; [auto|]. right. split; [auto|]. split; [|exact H2]. split; [exact H3|congruence].
  - intros n _. rewrite (pr_state _ _ _ _ _ _ P), (pr_skip _ _ _ _ _ _ P), (pr_counted _ _ _ _ _ _ P). auto.
  - intros t Ht. destruct (pr_trans _ _ _ _ _ _ P t) as [T1 T2]; [apply GN; [apply KN in Ht; tauto|exact Ht]|]. split.
    + intros H. apply T2. intros e E1 E3 [E4 E5]. apply H. exists e. apply PR in E5. tauto.
    + intros [e [E1 [E3 E4]]]. apply T1. exists e. split; [exact E1|]. split; [exact E3|].
      pose proof (p_dst _ _ _ Pp e E1) as D. split; [rewrite (p_lists _ _ _ Pp); right; exact D|].
      apply PR. split; [exact E4|congruence].
Qed.
End Prune.

(** Trimming. *)
Record wfg (g : graph) : Prop := {
  w_nodup : NoDup (node_list g);
  w_src : forall e, In e (edges g) -> In (src e) (node_list g);
  w_dst : forall e, In e (edges g) -> In (dst e) (node_list g);
}.

(** Every member has a predecessor and a successor among the members. *)
Definition core (g : graph) (S : id -> Prop) : Prop :=
  forall n, S n -> (exists e, In e (edges g) /\ dst e = n /\ S (src e)) /\ (exists e, In e (edges g) /\ src e = n /\ S (dst e)).

Lemma drop_wfg g n : wfg g -> wfg (drop_node g n).
Proof.
  intros [H1 H2 H3]. split; cbn [drop_node node_list edges].
  - rewrite rm_filter. apply NoDup_filter. exact H1.
  - intros e He. apply filter_In in He. destruct He as [He Hn]. apply andb_true_iff in Hn. destruct Hn as [Hn _].
    rewrite rm_filter. apply filter_In. auto.
  - intros e He. apply filter_In in He. destruct He as [He Hn]. apply andb_true_iff in Hn. destruct Hn as [_ Hn].
    rewrite rm_filter. apply filter_In. auto.
Qed.

Lemma drop_core g n S : core g S -> (negb (has_incoming g n) || no_out g n) = true -> core (drop_node g n) S /\ ~ S n.
Proof.
  intros C H.
  assert (~ S n) as Sn.
  { intros Hs. destruct (C n Hs) as [[e1 [E1 [E2 _]]] [e2 [E3 [E4 _]]]]. apply orb_true_iff in H. destruct H as [H|H].
    - apply negb_true_iff in H. assert (has_incoming g n = true) as X; [|congruence]. unfold has_incoming. apply existsb_exists.
      exists e1. split; [exact E1|]. apply Nat.eqb_eq. exact E2.
    - unfold no_out in H. apply negb_true_iff in H.
      assert (existsb (fun e => src e =? n) (edges g) = true) as X; [|congruence]. apply existsb_exists.
      exists e2. split; [exact E3|]. apply Nat.eqb_eq. exact E4. }
  split; [|exact Sn]. intros m Hm. destruct (C m Hm) as [[e1 [E1 [E2 E3]]] [e2 [E4 [E5 E6]]]].
  assert (forall x, S x -> negb (x =? n) = true) as NE.
  { intros x Hx. apply negb_true_iff, Nat.eqb_neq. intros ->. contradiction. }
  split.
  - exists e1. split; [|auto]. cbn [drop_node edges]. apply filter_In. split; [exact E1|]. rewrite E2, !NE; auto.
  - exists e2. split; [|auto]. cbn [drop_node edges]. apply filter_In. split; [exact E4|]. rewrite E5, !NE; auto.
Qed.

Lemma trim_pass_spec l : forall g, wfg g ->
  let (g1, r) := trim_pass g l in
  wfg g1 /\ (forall S, core g S -> core g1 S) /\ (forall S, core g S -> forall n, In n (node_list g) -> S n -> In n (node_list g1)) /\
  incl (node_list g1) (node_list g) /\ (forall e, In e (edges g1) -> In e (edges g)) /\
  (if r then (incl l (node_list g) -> length (node_list g1) < length (node_list g))
   else g1 = g /\ forall n, In n l -> has_incoming g n = true /\ no_out g n = false).
Proof.
  induction l as [|n l IH]; intros g Wg; cbn [trim_pass].
  - split; [exact Wg|]. split; [auto|]. split; [auto|]. split; [intros x Hx; exact Hx|]. split; [auto|]. split; [reflexivity|]. intros n [].
  - destruct (negb (has_incoming g n) || no_out g n) eqn:Rm.
    + pose proof (IH (drop_node g n) (drop_wfg g n Wg)) as Q. destruct (trim_pass (drop_node g n) l) as [g1 r]. cbn [fst].
      destruct Q as [Q1 [Q2 [Q3 [Q4 [Q5 Q6]]]]]. split; [exact Q1|].
      split; [intros S C; apply Q2; exact (proj1 (drop_core g n S C Rm))|].
      split; [|split; [|split]].
      * intros S C m Hm Sm. destruct (drop_core g n S C Rm) as [C' Sn]. apply (Q3 S C' m); [|exact Sm].
        cbn [drop_node node_list]. rewrite rm_filter. apply filter_In. split; [exact Hm|].
        apply negb_true_iff, Nat.eqb_neq. intros ->. contradiction.
      * intros m Hm. apply Q4 in Hm. cbn [drop_node node_list] in Hm. rewrite rm_filter in Hm. apply filter_In in Hm. tauto.
      * intros e He. apply Q5 in He. cbn [drop_node edges] in He. apply filter_In in He. tauto.
      * intros Il. assert (length (node_list (drop_node g n)) < length (node_list g)) as L1.
        { cbn [drop_node node_list]. assert (In n (node_list g)) as Hn by (apply Il; left; reflexivity).
          assert (forall k, length (rm n k) <= length k) as L0.
          { induction k as [|y k IHk]; [cbn; lia|]. cbn [rm]. destruct (y =? n); cbn [length]; lia. }
          clear -Hn L0. induction (node_list g) as [|x k IHk]; [destruct Hn|]. cbn [rm].
          destruct (Nat.eqb_spec x n) as [->|D]; cbn [length].
          - pose proof (L0 k). lia.
          - destruct Hn as [Hn|Hn]; [contradiction|]. specialize (IHk Hn). lia. }
        assert (length (node_list g1) <= length (node_list (drop_node g n))) as L2.
        { apply NoDup_incl_length; [apply (w_nodup _ Q1)|exact Q4]. }
        lia.
    + pose proof (IH g Wg) as Q. destruct (trim_pass g l) as [g1 r]. destruct Q as [Q1 [Q2 [Q3 [Q4 [Q5 Q6]]]]].
      split; [exact Q1|]. split; [exact Q2|]. split; [exact Q3|]. split; [exact Q4|]. split; [exact Q5|].
      destruct r.
      * intros Il. apply Q6. intros x Hx. apply Il. right. exact Hx.
      * destruct Q6 as [-> Q6]. split; [reflexivity|]. intros m [<-|Hm]; [|exact (Q6 m Hm)].
        apply orb_false_iff in Rm. destruct Rm as [R1 R2]. apply negb_false_iff in R1. auto.
Qed.

Lemma trim_graph_spec fuel : forall g, wfg g -> length (node_list g) <= fuel ->
  exists g', trim_graph fuel g = Some g' /\ wfg g' /\
    (forall S, core g S -> forall n, In n (node_list g) -> S n -> In n (node_list g')) /\
    incl (node_list g') (node_list g) /\ (forall e, In e (edges g') -> In e (edges g)) /\
    (forall n, In n (node_list g') -> has_incoming g' n = true /\ no_out g' n = false).
Proof.
  induction fuel as [|f IH]; intros g Wg Hl; pose proof (trim_pass_spec (node_list g) g Wg) as Q; cbn [trim_graph];
    destruct (trim_pass g (node_list g)) as [g1 r]; destruct Q as [Q1 [Q2 [Q3 [Q4 [Q5 Q6]]]]]; destruct r.
  - exfalso. specialize (Q6 (fun x H => H)). lia.
  - destruct Q6 as [-> Q6]. exists g. split; [reflexivity|]. repeat split; try apply Wg; auto; try (intros x Hx; exact Hx); apply Q6; assumption.
  - specialize (Q6 (fun x H => H)). destruct (IH g1 Q1) as [g' [E [R1 [R2 [R3 [R4 R5]]]]]]; [lia|].
    exists g'. split; [exact E|]. split; [exact R1|]. split; [|split; [|split; [|exact R5]]].
    + intros S C n Hn Sn. apply (R2 S (Q2 S C)); [|exact Sn]. exact (Q3 S C n Hn Sn).
    + intros x Hx. apply Q4, R3. exact Hx.
    + intros e He. apply Q5, R4. exact He.
  - destruct Q6 as [-> Q6]. exists g. split; [reflexivity|]. repeat split; try apply Wg; auto; try (intros x Hx; exact Hx); apply Q6; assumption.
Qed.

Lemma gpath_trans g a b c : gpath g a b -> gpath g b c -> gpath g a c.
Proof.
  intros P Q. revert P. induction Q as [e He|b e Q IH He]; intros P.
  - apply gpath_step; [exact P|exact He].
  - apply gpath_step; [apply IH; exact P|exact He].
Qed.

Lemma gpath_first g a b : gpath g a b -> exists e, In e (edges g) /\ src e = a /\ (dst e = b \/ gpath g (dst e) b).
Proof.
  induction 1 as [e He|a e P IH He].
  - exists e. auto.
  - destruct IH as [e1 [H1 [H2 H3]]]. exists e1. split; [exact H1|]. split; [exact H2|]. right.
    destruct H3 as [->|H3]; [apply gpath_one; exact He|apply gpath_step; assumption].
Qed.
Lemma gpath_last g a b : gpath g a b -> exists e, In e (edges g) /\ dst e = b /\ (src e = a \/ gpath g a (src e)).
Proof. destruct 1 as [e He|a e P He]; exists e; auto. Qed.

Lemma cycle_core g n : gpath g n n -> core g (fun m => gpath g n m /\ gpath g m n).
Proof.
  intros C m [P1 P2]. split.
  - destruct (gpath_last g n m P1) as [e [E1 [E2 [E3|E3]]]]; exists e; split; auto; split; auto.
    + rewrite E3. auto.
    + split; [exact E3|]. apply gpath_trans with m; [|exact P2]. rewrite <- E2. apply gpath_one. exact E1.
  - destruct (gpath_first g m n P2) as [e [E1 [E2 [E3|E3]]]]; exists e; split; auto; split; auto.
    + rewrite E3. auto.
    + split; [|exact E3]. apply gpath_trans with m; [exact P1|]. rewrite <- E2. apply gpath_one. exact E1.
Qed.

Lemma all_out_cycle g : wfg g -> node_list g <> [] ->
  (forall n, In n (node_list g) -> exists e, In e (edges g) /\ src e = n) -> exists n, gpath g n n.
Proof.
  intros Wg Ne Out.
  assert (forall k, (exists n, gpath g n n) \/
    exists x l, length l = k /\ NoDup (x :: l) /\ incl (x :: l) (node_list g) /\ forall y, In y l -> gpath g y x) as Q.
  { induction k as [|k IH].
    - right. destruct (node_list g) as [|x r] eqn:E; [contradiction|]. exists x, []. split; [reflexivity|].
      split; [repeat constructor; intros []|]. split; [intros y [<-|[]]; left; reflexivity|intros y []].
    - destruct IH as [IH|[x [l [L [Nd [Il Pl]]]]]]; [auto|].
      destruct (Out x (Il x (or_introl eq_refl))) as [e [E1 E2]].
      assert (gpath g x (dst e)) as Px by (rewrite <- E2; apply gpath_one; exact E1).
      destruct (in_dec Nat.eq_dec (dst e) (x :: l)) as [D|D].
      + left. exists (dst e). destruct D as [D|D]; [rewrite D in Px; exact Px|].
        exact (gpath_trans g _ _ _ (Pl _ D) Px).
      + right. exists (dst e), (x :: l). split; [cbn; lia|]. split; [constructor; assumption|]. split.
        * intros y [<-|Hy]; [apply (w_dst _ Wg); exact E1|exact (Il y Hy)].
        * intros y [<-|Hy]; [exact Px|]. exact (gpath_trans g _ _ _ (Pl y Hy) Px). }
  destruct (Q (length (node_list g))) as [H|[x [l [L [Nd [Il _]]]]]]; [exact H|].
  exfalso. pose proof (NoDup_incl_length Nd Il) as B. cbn [length] in B. lia.
Qed.

Lemma gpath_mono g' g : (forall e, In e (edges g') -> In e (edges g)) -> forall a b, gpath g' a b -> gpath g a b.
Proof. intros Ie a b P. induction P as [e He|a e P IH He]; [apply gpath_one; auto|apply gpath_step; auto]. Qed.

Theorem trim_exact g : wfg g ->
  exists g', trim_graph (length (node_list g)) g = Some g' /\
    (node_list g' = [] <-> ~ exists n, gpath g n n) /\
    (forall n, gpath g n n -> In n (node_list g')).
Proof.
  intros Wg. destruct (trim_graph_spec (length (node_list g)) g Wg (le_n _)) as [g' [E [W' [K [_ [Ie Hn]]]]]].
  exists g'. split; [exact E|].
  assert (forall n, gpath g n n -> In n (node_list g')) as KC.
  { intros n P. apply (K _ (cycle_core g n P)); [|auto]. destruct (gpath_last g n n P) as [e [E1 [<- _]]].
    apply (w_dst _ Wg). exact E1. }
  split; [|exact KC]. split.
  - intros N [n P]. pose proof (KC n P) as C. rewrite N in C. destruct C.
  - intros A. destruct (node_list g') as [|x r] eqn:N; [reflexivity|]. exfalso. apply A.
    destruct (all_out_cycle g' W') as [n P].
    + rewrite N. discriminate.
    + intros n Hx. destruct (Hn n) as [_ O]; [rewrite <- N; exact Hx|]. unfold no_out in O. apply negb_false_iff in O.
      apply existsb_exists in O. destruct O as [e [E1 E2]]. apply Nat.eqb_eq in E2. exists e. auto.
    + exists n. apply (gpath_mono g' g Ie). exact P.
Qed.
