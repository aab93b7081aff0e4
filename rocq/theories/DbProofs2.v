From Verif Require Import Base ConfigModel DbModel DbSpec DbProofs.

(** The queues are in order. *)
Fixpoint sorted (l : list nat) : Prop := match l with [] => True | x :: t => (forall y, In y t -> x < y) /\ sorted t end.
Lemma sorted_insert x l : sorted l -> sorted (insert x l).
Proof.
  induction l as [|y l IH]; intros S; [cbn; tauto|]. cbn [insert]. destruct S as [S1 S2]. destruct (Nat.ltb_spec x y).
  - cbn [sorted]. split; [|split; assumption]. intros z [<-|Z]; [assumption|]. specialize (S1 z Z). lia.
  - destruct (x =? y) eqn:E; [split; assumption|]. apply Nat.eqb_neq in E. cbn [sorted]. split; [|auto]. intros z Z. apply insert_in in Z as [->|Z]; [lia|auto].
Qed.
Lemma sorted_filter f l : sorted l -> sorted (filter f l).
Proof.
  induction l as [|y l IH]; intros S; [exact I|]. destruct S as [S1 S2]. cbn [filter]. destruct (f y); [|auto]. cbn [sorted]. split; [|auto].
  intros z Z. apply filter_In in Z as [Z _]. auto.
Qed.
Lemma sorted_queue_add d x q q' : queue_add d x q = Some q' -> sorted q -> sorted q'.
Proof. unfold queue_add. destruct (lookup d x); [|discriminate]. intros H S. injection H as <-. destruct (ghostly _); [apply sorted_insert|]; exact S. Qed.
Lemma sorted_queue_all d l : forall q q', queue_all d l q = Some q' -> sorted q -> sorted q'.
Proof.
  induction l as [|x l IH]; intros q q' H S; cbn in H; [injection H as <-; exact S|].
  destruct (queue_add d x q) as [q1|] eqn:E; [|discriminate]. apply (IH _ _ H). eapply sorted_queue_add; eauto.
Qed.
Lemma sorted_delete d x q d' q' : delete_name_file d x q = Some (d', q') -> sorted q -> sorted q'.
Proof.
  unfold delete_name_file, delete_links. intros H S. destruct (queue_all _ _ q) as [q1|] eqn:Q1; [|discriminate]. apply (sorted_queue_all _ _ _ _ Q1) in S.
  unfold delete_node in H. destruct (lookup _ x) as [n|]; [|discriminate].
  destruct (match src n with Some s => _ | None => _ end) as [q2|] eqn:Q2; [|discriminate].
  assert (sorted q2) as S2 by (destruct (src n); [eapply sorted_queue_add; eauto|injection Q2 as <-; exact S]).
  destruct (node_has_ghosts _ x); [injection H as <- <-; exact S2|]. destruct (queue_add _ (dir n) q2) as [q3|] eqn:Q3; [|discriminate].
  injection H as <- <-. eapply sorted_queue_add; eauto.
Qed.

Section Reclaim.
  Variables (d0 : db) (excl : nat) (rmdir : nat -> bool) (q0 : list nat).
  Hypothesis C : consistent d0 excl.

  Definition asked (R : list nat) (x : nat) : Prop := In x q0 \/ exists y, In y R /\ neighbour d0 y x.

  Record inv (R : list nat) (d : db) (q tmp : list nat) : Prop := {
    i_strip : stripped R d0 d;
    i_gone : forall r, In r R -> gone d0 excl q0 r;
    i_queue : forall x, In x q \/ In x tmp -> ~ In x R /\ queueable d0 x /\ asked R x;
    i_closed : forall x n, lookup d0 x = Some n -> ~ In x R -> disposable (kind n) = true -> nname n <> B "tup.config" -> asked R x ->
      In x q \/ In x tmp \/ exists y, keeps d0 excl y x /\ ~ In y R;
    i_sorted : sorted q /\ sorted tmp;
    i_children : forall r, In r R -> forall y m, In (y, m) (nodes d0) -> dir m = r \/ src m = Some r -> In y R }.

  Lemma existsb_false {A} (f : A -> bool) l : existsb f l = false <-> forall a, In a l -> f a = false.
  Proof.
    split.
    - intros H a I. destruct (f a) eqn:E; [|reflexivity]. rewrite <- H. symmetry. apply existsb_exists. eauto.
    - intros H. destruct (existsb f l) eqn:E; [|reflexivity]. apply existsb_exists in E as [a [I E]]. rewrite (H a I) in E. discriminate.
  Qed.

  (** The queries decide whether something keeps an entry. *)
  Lemma reclaimable_spec R d x n : stripped R d0 d -> lookup d x = Some n -> disposable (kind n) = true ->
    ghost_reclaimable d excl x n = true <-> (forall y, keeps d0 excl y x -> In y R).
  Proof.
    intros S L G. pose proof (proj1 (lookup_some _ _ _ S x n) L) as [L0 NR]. unfold ghost_reclaimable.
    destruct (dir n =? excl) eqn:De.
    - apply Nat.eqb_eq in De. rewrite negb_true_iff, existsb_false. split.
      + intros H y K. destruct K as [n' m L' D'|n' m L' D'|n' L' D'|n' L' D'|n' L' D'|n' L' D' I]; try (assert (n' = n) as -> by congruence; contradiction).
        destruct (in_dec Nat.eq_dec y R) as [Y|Y]; [exact Y|]. exfalso.
        specialize (H (y, x) (proj2 (in_normal _ _ _ S y x) (conj I (conj Y NR)))). cbn in H. rewrite Nat.eqb_refl in H. discriminate.
      + intros H [a b] I. cbn. destruct (b =? x) eqn:E; [|reflexivity]. apply Nat.eqb_eq in E. subst b. exfalso.
        apply (in_normal _ _ _ S) in I as [I [Na _]]. apply Na, H. exact (k_excluded _ _ _ _ n L0 De I).
    - apply Nat.eqb_neq in De.
      assert (Kc : kind n = TGhost \/ kind n = TGeneratedDir \/ kind n = TGroup) by (destruct (kind n); cbn in G; auto; discriminate).
      destruct (ntype_eqb (kind n) TGroup) eqn:Kg.
      + assert (kind n = TGroup) as Kn by (destruct (kind n); cbn in Kg; congruence). rewrite Kn. rewrite andb_true_iff, !negb_true_iff, !existsb_false. split.
        * intros [H1 H2] y K. destruct (in_dec Nat.eq_dec y R) as [Y|Y]; [exact Y|]. exfalso.
          destruct K as [n' m L' D' K'|n' m L' D' K'|n' L' D' I|n' L' D' K' I|n' L' D' K' I|n' L' D' I]; assert (n' = n) as -> by congruence.
          -- destruct K'; congruence.
          -- destruct K'; congruence.
          -- specialize (H1 (x, y) (proj2 (in_normal _ _ _ S x y) (conj I (conj NR Y)))). cbn in H1. rewrite Nat.eqb_refl in H1. discriminate.
          -- specialize (H1 (y, x) (proj2 (in_normal _ _ _ S y x) (conj I (conj Y NR)))). cbn in H1. rewrite Nat.eqb_refl, orb_true_r in H1. discriminate.
          -- specialize (H2 (x, y) (proj2 (in_sticky _ _ _ S x y) (conj I (conj NR Y)))). cbn in H2. rewrite Nat.eqb_refl in H2. discriminate.
          -- contradiction.
        * intros H. split; intros [a b] I; cbn.
          -- apply (in_normal _ _ _ S) in I as [I [Na Nb]]. apply orb_false_iff. rewrite !Nat.eqb_neq. split; intros ->.
             ++ apply Nb, H. exact (k_user _ _ _ _ n L0 De I).
             ++ apply Na, H. exact (k_member _ _ _ _ n L0 De Kn I).
          -- apply (in_sticky _ _ _ S) in I as [I [Na Nb]]. apply Nat.eqb_neq. intros ->. apply Nb, H. exact (k_sticky _ _ _ _ n L0 De Kn I).
      + assert (kind n = TGhost \/ kind n = TGeneratedDir) as Kn by (destruct (kind n); cbn in Kg, G; auto; discriminate).
        assert (forall A (a b : A), match kind n with TGhost | TGeneratedDir => a | _ => b end = a) as -> by (intros; destruct Kn as [-> | ->]; reflexivity).
        rewrite andb_true_iff, !negb_true_iff, existsb_false, (has_ghosts_false _ _ _ S). split.
        * intros [H1 H2] y K. destruct (in_dec Nat.eq_dec y R) as [Y|Y]; [exact Y|]. exfalso.
          destruct K as [n' m L' D' K' I' E'|n' m L' D' K' I' E'|n' L' D' I|n' L' D' K' I|n' L' D' K' I|n' L' D' I]; assert (n' = n) as -> by congruence.
          -- destruct (H1 y m I' Y) as [A _]. contradiction.
          -- destruct (H1 y m I' Y) as [_ A]. contradiction.
          -- specialize (H2 (x, y) (proj2 (in_normal _ _ _ S x y) (conj I (conj NR Y)))). cbn in H2. rewrite Nat.eqb_refl in H2. discriminate.
          -- destruct Kn; congruence.
          -- destruct Kn; congruence.
          -- contradiction.
        * intros H. split.
          -- intros y m I Y. split; intros E; apply Y, H; [exact (k_child _ _ _ _ n m L0 De Kn I E)|exact (k_variant _ _ _ _ n m L0 De Kn I E)].
          -- intros [a b] I. cbn. apply (in_normal _ _ _ S) in I as [I [Na Nb]]. apply Nat.eqb_neq. intros ->. apply Nb, H. exact (k_user _ _ _ _ n L0 De I).
  Qed.

  (** What keeps an entry is next to it, but for declared inputs. *)
  Lemma keeps_neighbour y x : keeps d0 excl y x -> queueable d0 y -> neighbour d0 y x.
  Proof.
    intros K [my [Ly Gy]]. destruct K as [n m L D K I E|n m L D K I E|n L D I|n L D K I|n L D K I|n L D I]; unfold neighbour; eauto 6.
    exfalso. pose proof (c_sticky _ _ C x y my I Ly) as E. rewrite E in Gy. discriminate.
  Qed.

  Lemma no_ghosts R d q tmp x n : inv R d q tmp -> lookup d x = Some n -> disposable (kind n) = true -> ghost_reclaimable d excl x n = true -> node_has_ghosts d x = false.
  Proof.
    intros I L G H. pose proof (i_strip _ _ _ _ I) as S. pose proof (proj1 (lookup_some _ _ _ S x n) L) as [L0 NR].
    destruct (Nat.eq_dec (dir n) excl) as [De|De]; [|destruct (ntype_eqb (kind n) TGroup) eqn:Kg].
    - apply (has_ghosts_false _ _ _ S). intros y m Im _. apply (c_leaves _ _ C x n y m L0 (or_intror De) Im).
    - apply (has_ghosts_false _ _ _ S). intros y m Im _. apply (c_leaves _ _ C x n y m L0); [|exact Im]. left. destruct (kind n); cbn in Kg; congruence.
    - unfold ghost_reclaimable in H. rewrite (proj2 (Nat.eqb_neq _ _) De) in H. destruct (kind n); cbn in Kg, G; try discriminate; apply andb_true_iff in H as [H _]; apply negb_true_iff in H; exact H.
  Qed.

  Lemma group_free R d x n : stripped R d0 d -> lookup d x = Some n -> ghost_reclaimable d excl x n = true -> kind n = TGroup ->
    (forall y, ~ In (x, y) (normal d)) /\ (forall y, ~ In (y, x) (normal d)) /\ (forall y, ~ In (x, y) (sticky d)).
  Proof.
    intros S L H K. pose proof (proj1 (lookup_some _ _ _ S x n) L) as [L0 NR].
    assert (dir n <> excl) as De by (intros E; exact (c_excluded _ _ C x n L0 E K)).
    unfold ghost_reclaimable in H. rewrite (proj2 (Nat.eqb_neq _ _) De), K, andb_true_iff, !negb_true_iff, !existsb_false in H. destruct H as [H1 H2].
    repeat split; intros y I.
    - specialize (H1 _ I). cbn in H1. rewrite Nat.eqb_refl in H1. discriminate.
    - specialize (H1 _ I). cbn in H1. rewrite Nat.eqb_refl, orb_true_r in H1. discriminate.
    - specialize (H2 _ I). cbn in H2. rewrite Nat.eqb_refl in H2. discriminate.
  Qed.

  Lemma inv_swap R d tmp : inv R d [] tmp -> inv R d tmp [].
  Proof. intros [A B Q D Srt E]. split; auto; [intros x [H|[]]; auto| |].
  { intros x n L N G T K. destruct (D x n L N G T K) as [[]|[H|H]]; auto. }
  split; [apply Srt|exact I].
  Qed.

  (** One round. *)
  Lemma inv_skip R d x q tmp n : inv R d (x :: q) tmp -> lookup d x = Some n -> disposable (kind n) = true ->
    ghost_reclaimable d excl x n && negb (bytes_eqb (nname n) (B "tup.config")) = false -> inv R d q tmp.
  Proof.
    intros [A B Q D Srt E] L G H. split; auto; [intros y [Y|Y]; apply Q; [left; right|right]; exact Y| |destruct Srt as [[_ S1] S2]; auto]. intros y m Ly Ny Gy Ty Ky.
    destruct (D y m Ly Ny Gy Ty Ky) as [[<-|Y]|Y]; auto. right. right.
    pose proof (proj1 (lookup_some _ _ _ A x n) L) as [L0 _]. assert (m = n) as -> by congruence.
    assert (ghost_reclaimable d excl x n = false) as F.
    { apply andb_false_iff in H as [H|H]; [exact H|]. exfalso. apply negb_false_iff, bytes_eqb_eq in H. contradiction. }
    (* the query found something *)
    { unfold ghost_reclaimable in F. destruct (dir n =? excl) eqn:De.
      + apply Nat.eqb_eq in De. apply negb_false_iff, existsb_exists in F as [[a b] [I F]]. cbn in F. apply Nat.eqb_eq in F. subst b.
        apply (in_normal _ _ _ A) in I as [I [Na Nb]]. exists a. split; [exact (k_excluded _ _ _ _ n L0 De I)|exact Na].
      + apply Nat.eqb_neq in De. destruct (ntype_eqb (kind n) TGroup) eqn:Kg.
        * assert (kind n = TGroup) as Kn by (destruct (kind n); cbn in Kg; congruence). rewrite Kn in F. apply andb_false_iff in F as [F|F]; apply negb_false_iff, existsb_exists in F as [[a b] [I F]]; cbn in F.
          -- apply (in_normal _ _ _ A) in I as [I [Na Nb]]. apply orb_true_iff in F as [F|F]; apply Nat.eqb_eq in F; subst.
             ++ exists b. split; [exact (k_user _ _ _ _ n L0 De I)|exact Nb].
             ++ exists a. split; [exact (k_member _ _ _ _ n L0 De Kn I)|exact Na].
          -- apply (in_sticky _ _ _ A) in I as [I [Na Nb]]. apply Nat.eqb_eq in F. subst. exists b. split; [exact (k_sticky _ _ _ _ n L0 De Kn I)|exact Nb].
        * assert (kind n = TGhost \/ kind n = TGeneratedDir) as Kn by (destruct (kind n); cbn in Kg, G; auto; discriminate).
          assert (negb (node_has_ghosts d x) && negb (existsb (fun p => fst p =? x) (normal d)) = false) as F' by (destruct Kn as [K' | K']; rewrite K' in F; exact F).
          apply andb_false_iff in F' as [F'|F']; apply negb_false_iff, existsb_exists in F' as [[a b] [I F']]; cbn in F'.
          -- apply (in_nodes _ _ _ A) in I as [I Na]. exists a. split; [|exact Na]. apply orb_true_iff in F' as [F'|F'].
             ++ apply Nat.eqb_eq in F'. exact (k_child _ _ _ _ n b L0 De Kn I F').
             ++ unfold src_is in F'. destruct (src b) as [s|] eqn:Es; [|discriminate]. apply Nat.eqb_eq in F'. subst s. exact (k_variant _ _ _ _ n b L0 De Kn I Es).
          -- apply (in_normal _ _ _ A) in I as [I [Na Nb]]. apply Nat.eqb_eq in F'. subst. exists b. split; [exact (k_user _ _ _ _ n L0 De I)|exact Nb].
    }
  Qed.

  Lemma inv_delete R d x q tmp n : inv R d (x :: q) tmp -> lookup d x = Some n -> disposable (kind n) = true ->
    ghost_reclaimable d excl x n = true -> nname n <> B "tup.config" ->
    exists tmp' d' q', queue_add d (dir n) (remove_id x tmp) = Some tmp' /\ delete_name_file d x (remove_id (dir n) q) = Some (d', q') /\ inv (x :: R) d' q' tmp'.
  Proof.
    intros I L G H T. pose proof (no_ghosts _ _ _ _ _ _ I L G H) as NG. pose proof I as [A B Q D Srt Ch].
    pose proof (proj1 (lookup_some _ _ _ A x n) L) as [L0 NR]. pose proof (assoc_in _ _ _ L0) as I0.
    pose proof (proj1 (reclaimable_spec R d x n A L G) H) as K.
    assert (forall y m, In (y, m) (nodes d0) -> ~ In y R -> ~ In (dir m) R) as PR by (intros y m Im Ny P; apply Ny; eapply Ch; eauto).
    assert (forall y m s, In (y, m) (nodes d0) -> src m = Some s -> ~ In y R -> ~ In s R) as SR by (intros y m s Im E Ny P; apply Ny; eapply Ch; eauto).
    destruct (delete_name_file_spec d0 excl R d x n (remove_id (dir n) q) C A L G NG) as [d' [q' [Del [S' HQ]]]]; [intros y m Im _; eauto|intros y m s Im E _; eauto|intros Kg; exact (group_free R d x n A L H Kg)|].
    pose proof (c_parent _ _ C x n I0 G) as P. destruct (lookup d0 (dir n)) as [pm|] eqn:Lp; [|contradiction].
    assert (lookup d (dir n) = Some pm) as Lp' by (apply (lookup_some _ _ _ A); eauto).
    assert (exists tmp', queue_add d (dir n) (remove_id x tmp) = Some tmp') as [tmp' Et] by (unfold queue_add; rewrite Lp'; eauto).
    exists tmp', d', q'. split; [exact Et|]. split; [exact Del|].
    pose proof (queue_add_spec _ _ _ _ Et) as HT.
    assert (forall z, In z tmp' <-> (In z tmp /\ z <> x) \/ (z = dir n /\ queueable d0 z)) as HT'.
    { intros z. rewrite HT, remove_in. split; (intros [Z|[-> Z]]; [auto|]); right; (split; [reflexivity|]).
      - destruct Z as [m [Lm Gm]]. exists m. split; [apply (lookup_some _ _ _ A) in Lm; tauto|exact Gm].
      - destruct Z as [m [Lm Gm]]. exists m. split; [apply (lookup_some _ _ _ A); eauto|exact Gm]. }
    assert (Nself : ~ neighbour d0 x x).
    { intros [[m [Im E]]|E].
      - assert (m = n) as -> by (pose proof (in_assoc _ _ _ (c_unique _ _ C) Im) as J; unfold lookup in L0; congruence).
        destruct (proj1 (has_ghosts_false _ _ _ A x) NG x n I0 NR) as [N1 N2]. destruct E; contradiction.
      - assert (In (x, x) (normal d0)) as E' by tauto. apply NR, K. destruct (Nat.eq_dec (dir n) excl) as [De|De]; [exact (k_excluded _ _ _ _ n L0 De E')|exact (k_user _ _ _ _ n L0 De E')]. }
    assert (NP : dir n <> x) by (intros E; apply Nself; left; exists n; auto).
    assert (Gx : gone d0 excl q0 x).
    { assert (asked R x) as [Iq|[y [Iy Ny]]] by (apply Q; left; left; reflexivity).
      - apply (gone_queued _ _ _ x n); auto.
      - apply (gone_next _ _ _ x n y); auto. }
    split.
    - exact S'.
    - intros r [<-|Ir]; auto.
    - intros z Z. rewrite HT', HQ, remove_in in Z. destruct Srt as [[Sx _] _].
      destruct Z as [[[Z Zd]|[Nb [Nz Qz]]]|[[Z Zx]|[-> Qz]]].
      + destruct (Q z (or_introl (or_intror Z))) as [N1 [Q1 K1]]. split; [|split; [exact Q1|]].
        * intros [<-|Y]; [specialize (Sx x Z); lia|contradiction].
        * destruct K1 as [K1|[y [Y1 Y2]]]; [left; exact K1|right; exists y; split; [right; exact Y1|exact Y2]].
      + split; [|split; [exact Qz|right; exists x; split; [left; reflexivity|exact Nb]]]. intros [<-|Y]; contradiction.
      + destruct (Q z (or_intror Z)) as [N1 [Q1 K1]]. split; [|split; [exact Q1|]].
        * intros [<-|Y]; contradiction.
        * destruct K1 as [K1|[y [Y1 Y2]]]; [left; exact K1|right; exists y; split; [right; exact Y1|exact Y2]].
      + split; [|split; [exact Qz|right; exists x; split; [left; reflexivity|left; exists n; auto]]]. intros [E|Y]; [congruence|]. apply (PR x n I0 NR Y).
    - intros z m Lz Nz Gz Tz Kz. assert (queueable d0 z) as Qz by (exists m; auto). assert (~ In z R) as NzR by (intros Y; apply Nz; right; exact Y).
      assert (z <> x) as Zx by (intros ->; apply Nz; left; reflexivity).
      assert (neighbour d0 x z -> In z q') as New by (intros Nb; apply HQ; right; auto).
      assert (asked R z \/ neighbour d0 x z) as [Kz'|Nb].
      { destruct Kz as [Kz|[y [[<-|Y1] Y2]]]; [left; left; exact Kz|right; exact Y2|left; right; eauto]. }
      + destruct (D z m Lz NzR Gz Tz Kz') as [[E|Z]|[Z|[y [Y1 Y2]]]].
        * congruence.
        * destruct (Nat.eq_dec z (dir n)) as [E|E]; [right; left; apply HT'; right; auto|]. left. apply HQ. left. apply remove_in. auto.
        * right. left. apply HT'. left. auto.
        * destruct (Nat.eq_dec y x) as [->|E].
          -- left. apply New. apply keeps_neighbour; [exact Y1|]. exists n. auto.
          -- right. right. exists y. split; [exact Y1|]. intros [F|F]; [congruence|contradiction].
      + left. apply New, Nb.
    - destruct Srt as [[_ S1] S2]. split; [eapply sorted_delete; [exact Del|]; apply sorted_filter; exact S1|].
      eapply sorted_queue_add; [exact Et|]. apply sorted_filter. exact S2.
    - intros r [<-|Ir] y m Im E; [|right; eapply Ch; eauto]. destruct (in_dec Nat.eq_dec y R) as [Y|Y]; [right; exact Y|]. exfalso.
      destruct (proj1 (has_ghosts_false _ _ _ A x) NG y m Im Y) as [N1 N2]. destruct E; contradiction.
  Qed.

  Lemma gone_in R d : inv R d [] [] -> forall x, gone d0 excl q0 x -> In x R.
  Proof.
    intros I x Gx. induction Gx as [x n L G T Iq K IH|x n z L G T Gz IHz Nb K IH].
    - destruct (in_dec Nat.eq_dec x R) as [X|X]; [exact X|]. exfalso.
      destruct (i_closed _ _ _ _ I x n L X G T (or_introl Iq)) as [[]|[[]|[y [Y1 Y2]]]]. apply Y2, IH, Y1.
    - destruct (in_dec Nat.eq_dec x R) as [X|X]; [exact X|]. exfalso.
      destruct (i_closed _ _ _ _ I x n L X G T) as [[]|[[]|[y [Y1 Y2]]]]; [right; eauto|]. apply Y2, IH, Y1.
  Qed.

  Lemma reclaim_end fuel : forall R d q tmp d', inv R d q tmp -> (q = [] -> tmp = []) -> reclaim excl rmdir fuel d q tmp = Ok d' ->
    exists R', inv R' d' [] [].
  Proof.
    induction fuel as [|fuel IH]; intros R d q tmp d' I E H; [discriminate|]. cbn [reclaim] in H. destruct q as [|x q].
    - injection H as <-. rewrite (E eq_refl) in I. eauto.
    - destruct (lookup d x) as [n|] eqn:L; [|discriminate]. rewrite ghostly_disposable in H; destruct (disposable (kind n)) eqn:G; [|discriminate]. cbn [negb] in H.
      destruct (ghost_reclaimable d excl x n && negb (bytes_eqb (nname n) (B "tup.config"))) eqn:F.
      + apply andb_true_iff in F as [F1 F2]. assert (nname n <> B "tup.config") as T by (intros X; apply bytes_eqb_eq in X; rewrite X in F2; discriminate).
        destruct (inv_delete _ _ _ _ _ _ I L G F1 T) as [tmp' [d2 [q2 [E1 [E2 I2]]]]]. rewrite E1, E2 in H.
        destruct (ntype_eqb (kind n) TGeneratedDir && negb (rmdir x)); [discriminate|].
        destruct q2 as [|y q2]; [apply inv_swap in I2|]; (eapply IH; [exact I2| |exact H]); [reflexivity|discriminate].
      + pose proof (inv_skip _ _ _ _ _ _ I L G F) as I2. destruct q as [|y q]; [apply inv_swap in I2|]; (eapply IH; [exact I2| |exact H]); [reflexivity|discriminate].
  Qed.

  (** The loop ends: each round removes an entry from the database or from the queues. *)
  Lemma reclaim_stops : (forall x, rmdir x = true) -> forall N M R d q tmp, length (nodes d) < N -> length q + length tmp < M -> inv R d q tmp -> (q = [] -> tmp = []) ->
    exists F, forall fuel, F <= fuel -> exists d', reclaim excl rmdir fuel d q tmp = Ok d'.
  Proof.
    intros RM. induction N as [|N IHN]; [intros M R d q tmp LN; lia|]. induction M as [|M IHM]; intros R d q tmp LN LM I E; [lia|].
    destruct q as [|x q]; [exists 1; intros fuel LF; destruct fuel; [lia|]; cbn; eauto|].
    destruct (i_queue _ _ _ _ I x (or_introl (or_introl eq_refl))) as [NR [[n [L0 G]] _]].
    assert (lookup d x = Some n) as L by (apply (lookup_some _ _ _ (i_strip _ _ _ _ I)); auto).
    destruct (ghost_reclaimable d excl x n && negb (bytes_eqb (nname n) (B "tup.config"))) eqn:F.
    - pose proof F as F'. apply andb_true_iff in F' as [F1 F2]. assert (nname n <> B "tup.config") as T by (intros X; apply bytes_eqb_eq in X; rewrite X in F2; discriminate).
      destruct (inv_delete _ _ _ _ _ _ I L G F1 T) as [tmp' [d2 [q2 [E1 [E2 I2]]]]].
      assert (length (nodes d2) < length (nodes d)) as Len.
      { rewrite (s_nodes _ _ _ (i_strip _ _ _ _ I)), (s_nodes _ _ _ (i_strip _ _ _ _ I2)).
        assert (forall l : list (nat * node), length (filter (fun p => out (x :: R) (fst p)) l) <= length (filter (fun p => out R (fst p)) l)) as Le.
        { clear. induction l as [|p l IH]; [cbn; lia|]. cbn [filter]. rewrite out_cons. destruct (out R (fst p)), (fst p =? x); cbn [andb negb length]; lia. }
        pose proof (assoc_in _ _ _ L0) as Ix. clear - Ix NR Le. induction (nodes d0) as [|p l IH]; [destruct Ix|]. cbn [filter]. rewrite out_cons. destruct Ix as [->|Ix].
        - cbn [fst]. rewrite (proj2 (out_spec R x) NR), Nat.eqb_refl. cbn [andb negb length]. specialize (Le l). lia.
        - specialize (IH Ix). destruct (out R (fst p)), (fst p =? x); cbn [andb negb length]; lia. }
      assert (exists F0, forall fuel, F0 <= fuel -> exists d', match q2 with [] => reclaim excl rmdir fuel d2 tmp' [] | _ => reclaim excl rmdir fuel d2 q2 tmp' end = Ok d') as [F0 HF].
      { destruct q2 as [|y q2].
        - apply (IHN (S (length tmp' + 0)) (x :: R)); [lia|cbn; lia|apply inv_swap; exact I2|reflexivity].
        - apply (IHN (S (length (y :: q2) + length tmp')) (x :: R)); [lia|lia|exact I2|discriminate]. }
      exists (S F0). intros fuel LF. destruct fuel as [|fuel]; [lia|]. cbn [reclaim]. rewrite L, ghostly_disposable, G, F, E1, E2, RM. cbn [negb]. rewrite andb_false_r. apply HF. lia.
    - pose proof (inv_skip _ _ _ _ _ _ I L G F) as I2.
      assert (exists F0, forall fuel, F0 <= fuel -> exists d', match q with [] => reclaim excl rmdir fuel d tmp [] | _ => reclaim excl rmdir fuel d q tmp end = Ok d') as [F0 HF].
      { destruct q as [|y q].
        - apply (IHM R); [lia|cbn in *; lia|apply inv_swap; exact I2|reflexivity].
        - apply (IHM R); [lia|cbn in *; lia|exact I2|discriminate]. }
      exists (S F0). intros fuel LF. destruct fuel as [|fuel]; [lia|]. cbn [reclaim]. rewrite L, ghostly_disposable, G, F. cbn [negb]. apply HF. lia.
  Qed.

  Lemma inv_start : sorted q0 -> (forall x, In x q0 -> queueable d0 x) -> inv [] d0 q0 [].
  Proof.
    intros Srt Q. split; [apply stripped_nil|intros r []|intros x [X|[]]; repeat split; [intros []|auto|left; exact X]| |split; [exact Srt|exact I]|intros r []].
    intros x n L N G T [K|[y [[] _]]]. auto.
  Qed.
End Reclaim.
