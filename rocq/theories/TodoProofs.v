(** What is shown, and the number of commands. *)
From Verif Require Import Base ExecModel ExecSpec ExecProps ExecProofs ExecProofs2 ExecProofs3 ExecProofs4 GraphModel GraphSpec GraphProofs GraphProofs2 TodoModel.
From Coq Require Import Permutation.

(** ** The events of an execution *)
Section events.
Context {WS : Type}.
Variable work : graph -> id -> WS -> WS -> bool -> Prop.
Variable keep_going : bool.
Notation step := (step work keep_going).
Notation steps := (steps work keep_going).

Definition finishes (n : id) (h : list event) : nat := length (filter (fun e => match e with Finish m _ => m =? n | _ => false end) h).
Definition copies (n : id) (l : list id) : nat := length (filter (fun m => m =? n) l).

Lemma with_graph_obs (s : @exec WS) o p : hist (with_graph s o p) = hist s /\ running (with_graph s o p) = running s /\ ws (with_graph s o p) = ws s /\ dead (with_graph s o p) = dead s.
Proof. destruct o; cbn; auto. Qed.
Lemma start_obs jobs g (w : WS) : hist (start jobs g w) = [] /\ running (start jobs g w) = [] /\ ws (start jobs g w) = w /\ dead (start jobs g w) = false.
Proof. unfold start. destruct (node_list g); [cbn; auto|]. match goal with |- context [with_graph ?s ?o ?p] => destruct (with_graph_obs s o p) as [-> [-> [-> ->]]] end. cbn; auto. Qed.
Lemma loop_obs (s : @exec WS) n : (hist (loop_body s n) = hist s /\ running (loop_body s n) = running s \/ hist (loop_body s n) = Start n :: hist s /\ running (loop_body s n) = n :: running s) /\
  ws (loop_body s n) = ws s /\ dead (loop_body s n) = dead s.
Proof.
  unfold loop_body. destruct (has_incoming (gr s) n); [match goal with |- context [with_graph ?s ?o ?p] => destruct (with_graph_obs s o p) as [-> [-> [-> ->]]] end; auto|].
  destruct (negb (expanded (gr s) n)); [match goal with |- context [with_graph ?s ?o ?p] => destruct (with_graph_obs s o p) as [-> [-> [-> ->]]] end; auto|].
  destruct (off_plist (gr s) n); [|cbn; auto]. destruct (free s); cbn; auto.
Qed.
Lemma reap_obs (s : @exec WS) n ok r : hist (reap s n ok r) = hist s /\ running (reap s n ok r) = running s /\ ws (reap s n ok r) = ws s /\ dead (reap s n ok r) = dead s.
Proof. unfold reap. destruct ok; match goal with |- context [with_graph ?s ?o ?p] => destruct (with_graph_obs s o p) as [-> [-> [-> ->]]] end; cbn; auto. Qed.
(** What a step changes. *)
Lemma step_obs s s' : step s s' ->
  hist s' = hist s /\ running s' = running s /\ ws s' = ws s \/
  (exists n, hist s' = Start n :: hist s /\ running s' = n :: running s /\ ws s' = ws s) \/
  (exists n l r ok, running s = l ++ n :: r /\ running s' = l ++ r /\ hist s' = Finish n ok :: hist s /\ work (gr s) n (ws s) (ws s') ok).
Proof.
  intros H. destruct H as [s n p A C P|s A C|s n ok r A C F|s A C|s n l r w ok R W|s D].
  - destruct (loop_obs s n) as [[[E1 E2]|[E1 E2]] [E3 _]]; [left|right; left; exists n]; auto.
  - left. auto.
  - left. destruct (reap_obs s n ok r) as [E1 [E2 [E3 _]]]. auto.
  - left. auto.
  - right. right. exists n, l, r, ok. auto.
  - left. auto.
Qed.
Lemma copies_app n a b : copies n (a ++ b) = copies n a + copies n b.
Proof. unfold copies. rewrite filter_app, app_length. reflexivity. Qed.
Lemma balance jobs g w s n : steps (start jobs g w) s -> starts n (hist s) = finishes n (hist s) + copies n (running s).
Proof.
  intros R. remember (start jobs g w) as s0 eqn:E0. induction R as [s|s s' s'' R IH H]; subst.
  - destruct (start_obs jobs g w) as [-> [-> _]]. reflexivity.
  - specialize (IH eq_refl). apply step_obs in H. destruct H as [[-> [-> _]]|[[m [-> [-> _]]]|[m [l [r [ok [E1 [-> [-> _]]]]]]]]]; [exact IH| |].
    + unfold starts, finishes, copies in *. cbn [filter]. destruct (m =? n); cbn [length]; lia.
    + rewrite E1 in IH. rewrite copies_app in *. unfold starts, finishes, copies in *. cbn [filter] in *. destruct (m =? n); cbn [length] in *; lia.
Qed.
Lemma start_first jobs g w s n ok h1 h2 : steps (start jobs g w) s -> hist s = h1 ++ Finish n ok :: h2 -> In (Start n) h2.
Proof.
  intros R. remember (start jobs g w) as s0 eqn:E0. revert h1. induction R as [s|s s' s'' R IH H]; subst; intros h1 E.
  - destruct (start_obs jobs g w) as [X _]. rewrite X in E. destruct h1; discriminate.
  - specialize (IH eq_refl). pose proof (balance jobs g w s' n R) as Bal. apply step_obs in H. destruct H as [[X _]|[[m [X _]]|[m [l [r [k [E1 [_ [X _]]]]]]]]]; rewrite X in E.
    + exact (IH h1 E).
    + destruct h1 as [|e h1]; [discriminate|]. injection E as _ E. exact (IH h1 E).
    + destruct h1 as [|e h1]; [|injection E as _ E; exact (IH h1 E)]. injection E as -> _ <-.
      assert (0 < starts n (hist s')) as P. { rewrite Bal, E1, copies_app. unfold copies at 2. cbn [filter]. rewrite Nat.eqb_refl. cbn [length]. lia. }
      unfold starts in P. destruct (filter (fun e => match e with Start m => m =? n | _ => false end) (hist s')) as [|e t] eqn:F; [cbn in P; lia|].
      assert (In e (filter (fun e => match e with Start m => m =? n | _ => false end) (hist s'))) as I by (rewrite F; left; reflexivity).
      apply filter_In in I. destruct I as [I1 I2]. destruct e as [m|]; [|discriminate]. apply Nat.eqb_eq in I2. subst m. exact I1.
Qed.
End events.

(** ** What is shown *)
Section shown.
Variable kind_of : id -> kind.
Notation todo_work := (todo_work kind_of).
Definition seen (h : list event) : list id := flat_map (fun e => match e with Finish n _ => shown kind_of n | _ => [] end) (rev h).
Lemma seen_cons e h : seen (e :: h) = seen h ++ match e with Finish n _ => shown kind_of n | _ => [] end.
Proof. unfold seen. cbn [rev]. rewrite flat_map_app. cbn. rewrite app_nil_r. reflexivity. Qed.
Lemma seen_app a b : seen (a ++ b) = seen b ++ seen a.
Proof. unfold seen. rewrite rev_app_distr, flat_map_app. reflexivity. Qed.
Lemma shown_is keep_going jobs g s : steps todo_work keep_going (start jobs g []) s -> ws s = seen (hist s).
Proof.
  intros R. remember (start jobs g []) as s0 eqn:E0. induction R as [s|s s' s'' R IH H]; subst.
  - destruct (start_obs jobs g (@Datatypes.nil id)) as [-> [_ [-> _]]]. reflexivity.
  - specialize (IH eq_refl). apply step_obs in H. destruct H as [[-> [_ ->]]|[[m [-> [_ ->]]]|[m [l [r [ok [_ [_ [-> W]]]]]]]]].
    + exact IH.
    + rewrite seen_cons, app_nil_r. exact IH.
    + rewrite seen_cons. inversion W; subst. rewrite IH. reflexivity.
Qed.
Lemma never_fails keep_going jobs g s n : steps todo_work keep_going (start jobs g []) s -> ~ In (Finish n false) (hist s).
Proof.
  intros R. remember (start jobs g []) as s0 eqn:E0. induction R as [s|s s' s'' R IH H]; subst.
  - destruct (start_obs jobs g (@Datatypes.nil id)) as [-> _]. intros [].
  - specialize (IH eq_refl). apply step_obs in H. destruct H as [[-> _]|[[m [-> _]]|[m [l [r [ok [_ [_ [-> W]]]]]]]]].
    + exact IH.
    + intros [X|X]; [discriminate|exact (IH X)].
    + intros [X|X]; [|exact (IH X)]. injection X as _ ->. inversion W.
Qed.
Lemma in_seen n h : In n (seen h) <-> kind_of n = KCmd /\ exists ok, In (Finish n ok) h.
Proof.
  unfold seen. rewrite in_flat_map. split.
  - intros [[m|m ok] [I X]]; [destruct X|]. unfold shown in X. destruct (is_cmd (kind_of m)) eqn:K; [|destruct X]. destruct X as [-> |[]].
    split; [destruct (kind_of n); try discriminate K; reflexivity|exists ok; apply in_rev; exact I].
  - intros [K [ok I]]. exists (Finish n ok). split; [apply in_rev in I; exact I|]. unfold shown. rewrite K. left. reflexivity.
Qed.
Lemma copies_seen n h : copies n (seen h) <= finishes n h.
Proof.
  induction h as [|e h IH]; [cbn; lia|]. rewrite seen_cons, copies_app. unfold finishes in *. cbn [filter]. destruct e as [m|m ok]; [cbn; lia|].
  unfold shown, copies. destruct (is_cmd (kind_of m)); cbn [filter]; destruct (m =? n); cbn [length]; unfold copies in IH; lia.
Qed.
Lemma copies_nodup l : (forall n, copies n l <= 1) -> NoDup l.
Proof.
  induction l as [|x l IH]; intros H; [constructor|]. constructor.
  - intros I. specialize (H x). unfold copies in H. cbn [filter] in H. rewrite Nat.eqb_refl in H. cbn [length] in H.
    destruct (filter (fun m => m =? x) l) as [|y t] eqn:F; [|cbn in H; lia]. assert (In x (filter (fun m => m =? x) l)) as J by (apply filter_In; split; [exact I|apply Nat.eqb_refl]). rewrite F in J. destruct J.
  - apply IH. intros n. specialize (H n). unfold copies in *. cbn [filter] in H. destruct (x =? n); cbn [length] in H; lia.
Qed.

(** A complete execution shows each command of the graph once, after those it
    depends on. *)
Lemma shows_all b root nodes s : prepared (gr_ b) root nodes -> (forall n, In n nodes -> kind_of n = KCmd -> trans (gr_ b) n = TNone) ->
  shows kind_of b s -> at_ s = Returned 0 ->
  NoDup (ws s) /\ (forall n, In n (ws s) <-> In n nodes /\ kind_of n = KCmd) /\
  (forall a c, kind_of a = KCmd -> depends (gr_ b) root a c -> In c (ws s) -> exists l1 l2, ws s = l1 ++ c :: l2 /\ In a l1).
Proof.
  unfold shows. set (g := gr_ b). clearbody g. intros P T R A. rewrite (shown_is _ _ _ _ R).
  assert (forall n ok, In (Finish n ok) (hist s) -> In (Start n) (hist s)) as FS.
  { intros n ok I. apply in_split in I. destruct I as [h1 [h2 E]]. rewrite E. apply in_or_app. right. right. exact (start_first _ _ _ _ _ _ _ _ _ _ R E). }
  assert (forall n, In (Start n) (hist s) -> In n nodes) as SN.
  { clear A FS. remember (start 1 g []) as s0 eqn:E0. induction R as [s|s s' s'' R IH H]; subst.
    - destruct (start_obs 1 g (@Datatypes.nil id)) as [-> _]. intros n [].
    - intros n St. pose proof (step_inv _ _ _ _ _ P _ Nat.lt_0_1 _ _ (reach_Inv _ _ _ _ _ P _ Nat.lt_0_1 _ _ R) H) as I.
      specialize (IH eq_refl). apply step_obs in H. destruct H as [[X _]|[[m [X [Y _]]]|[m [l [r [ok [_ [_ [X _]]]]]]]]]; rewrite X in St.
      + exact (IH n St).
      + destruct St as [St|St]; [|exact (IH n St)]. injection St as ->. apply (i_sub _ _ _ _ _ _ I), live_in. rewrite Y. right. right. left. left. reflexivity.
      + destruct St as [St|St]; [discriminate|exact (IH n St)]. }
  split; [|split].
  - apply copies_nodup. intros n. pose proof (copies_seen n (hist s)) as C. pose proof (balance _ _ _ _ _ _ n R) as Bal.
    destruct (Nat.eq_dec (copies n (seen (hist s))) 0) as [Z|Z]; [lia|].
    assert (In n (seen (hist s))) as I.
    { unfold copies in Z. destruct (filter (fun m => m =? n) (seen (hist s))) as [|m t] eqn:F; [cbn in Z; lia|].
      assert (In m (filter (fun m => m =? n) (seen (hist s)))) as J by (rewrite F; left; reflexivity). apply filter_In in J. destruct J as [J1 J2]. apply Nat.eqb_eq in J2. subst m. exact J1. }
    apply in_seen in I. destruct I as [K [ok I]]. apply FS, SN in I.
    destruct (C02_all_on_success _ _ g root nodes P 1 Nat.lt_0_1 [] s n R A I) as [_ Q]. rewrite (T n I K) in Q. lia.
  - intros n. rewrite in_seen. split.
    + intros [K [ok I]]. split; [exact (SN n (FS n ok I))|exact K].
    + intros [I K]. split; [exact K|]. exists true. exact (proj1 (C02_all_on_success _ _ g root nodes P 1 Nat.lt_0_1 [] s n R A I)).
  - intros a c Ka D I. apply in_seen in I. destruct I as [Kc [ok I]]. apply in_split in I. destruct I as [h1 [h2 E]].
    pose proof (start_first _ _ _ _ _ _ _ _ _ _ R E) as S. apply in_split in S. destruct S as [h3 [h4 E2]].
    assert (In (Finish a true) h4) as F.
    { apply (C01_start_after_dependencies _ _ g root nodes P 1 Nat.lt_0_1 [] s a c (h1 ++ Finish c ok :: h3) h4 R D). rewrite E, E2, <- app_assoc. reflexivity. }
    exists (seen h2), (seen h1). split.
    + rewrite E, seen_app, seen_cons. unfold shown. rewrite Kc. cbn [is_cmd]. rewrite <- app_assoc. reflexivity.
    + apply in_seen. split; [exact Ka|]. exists true. rewrite E2. apply in_or_app. right. right. exact F.
Qed.

(** It can complete, and uninterrupted it completes with success. *)
Lemma shows_success b root nodes s rc : prepared (gr_ b) root nodes -> acyclic (gr_ b) -> shows kind_of b s -> at_ s = Returned rc -> dead s = false -> rc = 0%Z.
Proof.
  intros P Ac R A D. exact (C02_reports_success _ _ _ root nodes P 1 Nat.lt_0_1 [] s rc R A D Ac (fun n => never_fails _ _ _ _ n R)).
Qed.
Lemma shows_completes b root nodes : prepared (gr_ b) root nodes -> exists s rc, shows kind_of b s /\ at_ s = Returned rc /\ dead s = false.
Proof.
  intros P. destruct (C02_terminates todo_work false _ root nodes P 1 Nat.lt_0_1 []) as [bound Bd].
  assert (forall m k s, nsteps todo_work false k (start 1 (gr_ b) []) s -> dead s = false -> bound - k <= m ->
    exists s' rc, shows kind_of b s' /\ at_ s' = Returned rc /\ dead s' = false) as Q.
  { assert (forall k s0 s, nsteps todo_work false k s0 s -> steps todo_work false s0 s) as NS.
    { intros k s0 s H. induction H; [constructor|econstructor; eassumption]. }
    induction m as [|m IH]; intros k s N D L.
    - destruct (C02_progress todo_work false _ root nodes P 1 Nat.lt_0_1 [] s (NS _ _ _ N)) as [[rc A]|G].
      + exists s, rc. split; [exact (NS _ _ _ N)|auto].
      + exfalso. assert (exists s', step todo_work false s s') as [s' St].
        { destruct G as [G|[s' [[G _]|[G _]]]]; [|exists s'; exact G|exists s'; exact G]. destruct (running s) as [|n r] eqn:E; [contradiction|].
          eexists. apply (S_worker _ _ s n [] r (ws s ++ shown kind_of n) true); [exact E|constructor]. }
        assert (S k <= bound) as X by (apply (Bd (S k) s'); econstructor; eassumption). lia.
    - destruct (C02_progress todo_work false _ root nodes P 1 Nat.lt_0_1 [] s (NS _ _ _ N)) as [[rc A]|G].
      + exists s, rc. split; [exact (NS _ _ _ N)|auto].
      + assert (exists s', step todo_work false s s' /\ dead s' = false) as [s' [St D']].
        { assert (forall s', step todo_work false s s' -> at_ s' <> at_ s \/ length (ExecModel.fin s') < length (ExecModel.fin s) -> dead s' = dead s) as DD.
          { clear. intros s' H O. destruct H as [s n p|s|s n ok r|s|s n l r w ok|s D]; try reflexivity.
            - apply (proj2 (proj2 (loop_obs s n))).
            - apply (reap_obs s n ok r).
            - exfalso. cbn in O. destruct O as [O|O]; [congruence|lia]. }
          destruct G as [G|[s' [[G1 G2]|[G1 G2]]]].
          - destruct (running s) as [|n r] eqn:E; [contradiction|].
            eexists. split; [apply (S_worker _ _ s n [] r (ws s ++ shown kind_of n) true); [exact E|constructor]|exact D].
          - exists s'. split; [exact G1|]. rewrite (DD s' G1 (or_introl G2)). exact D.
          - exists s'. split; [exact G1|]. rewrite (DD s' G1 (or_intror G2)). exact D. }
        apply (IH (S k) s'); [econstructor; eassumption|exact D'|lia]. }
  apply (Q bound 0 (start 1 (gr_ b) [])); [constructor|apply start_obs|lia].
Qed.
End shown.
