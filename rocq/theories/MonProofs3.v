(** Queueing one operation. *)
From Verif Require Import Base MonModel MonSpec MonProofs MonProofs2.

Definition ok (c : nat) (s : mst) : Prop :=
  apart (q s) /\ Forall (fun m => eid m < nid s /\ ecookie m < c) (q s) /\ (forall i, In i (mfl s) -> In i (map eid (q s))).
Definition ent (i : nat) (k : key) (m : mask) (c : nat) (f : option key) : entry := {| eid := i; ekey := k; emask := Some m; ecookie := c; efrom := f |}.

Lemma core_eid l l' : map core l = map core l' -> map eid l = map eid l'.
Proof. intros H. assert (E : forall x, map eid x = map (fun c => fst (fst c)) (map core x)) by (intros x; rewrite map_map; reflexivity). rewrite !E, H. reflexivity. Qed.
Lemma core_forall n c l l' : map core l = map core l' -> Forall (fun m => eid m < n /\ ecookie m < c) l -> Forall (fun m => eid m < n /\ ecookie m < c) l'.
Proof.
  revert l'. induction l as [|m l IH]; intros [|m' l'] E F; try discriminate; constructor; inversion F as [|? ? P F']; subst.
  - cbn in E. unfold core in E. injection E as E1 E2 E3 E. rewrite <- E1, <- E3. exact P.
  - apply IH; [cbn in E; congruence|exact F'].
Qed.
Lemma ephemeral_core e l : map core (snd (ephemeral e l)) = map core l.
Proof. unfold ephemeral. destruct (is_new (vmask e) || is_del (vmask e)); [apply eph_core|reflexivity]. Qed.
Lemma ephemeral_apart e l : apart l -> apart (snd (ephemeral e l)).
Proof. unfold ephemeral. destruct (is_new (vmask e) || is_del (vmask e)); [apply eph_apart|auto]. Qed.

Lemma find_entry_in i l : In i (map eid l) -> exists m, find_entry i l = Some m /\ In m l.
Proof.
  induction l as [|m l IH]; cbn; [intros []|]. intros H. destruct (Nat.eqb (eid m) i) eqn:E; [exists m; auto|]. apply Nat.eqb_neq in E. destruct H as [H|H]; [congruence|]. destruct (IH H) as [x [F I]]. exists x. auto.
Qed.
Lemma claim_fresh c fl l : (forall i, In i fl -> In i (map eid l)) -> Forall (fun m => ecookie m < c) l -> claim c fl l = Some None.
Proof.
  intros S F. induction fl as [|i fl IH]; cbn; [reflexivity|]. destruct (find_entry_in i l (S i (or_introl eq_refl))) as [m [E I]]. rewrite E.
  rewrite Forall_forall in F. specialize (F _ I). replace (Nat.eqb (ecookie m) c) with false by (symmetry; apply Nat.eqb_neq; lia). apply IH. intros j J. apply S. right. exact J.
Qed.
Lemma same_last e l : apart l -> same_as_last e l = true -> exists r, eff (vkey e) l = r ++ [Own (vmask e)].
Proof.
  intros A H. unfold same_as_last in H. destruct (rev l) as [|m r] eqn:R; [discriminate|]. assert (l = rev r ++ [m]) as -> by (rewrite <- (rev_involutive l), R; reflexivity).
  apply andb_prop in H. destruct H as [H _]. apply andb_prop in H. destruct H as [K M]. destruct (emask m) as [x|] eqn:E; [|discriminate].
  exists (eff (vkey e) (rev r)). rewrite eff_app. f_equal. unfold eff. cbn. rewrite app_nil_r. assert (x = vmask e) as <- by (destruct x, (vmask e); try discriminate; reflexivity).
  apply eff1_own; auto. intros a F. apply (A m a); [apply in_or_app; right; left; reflexivity|exact F].
Qed.
Lemma same_cookie e l c : Forall (fun m => ecookie m < c) l -> vcookie e = c -> same_as_last e l = false.
Proof.
  intros F E. unfold same_as_last. destruct (rev l) as [|m r] eqn:R; [reflexivity|]. rewrite Forall_forall in F. assert (I : In m l) by (apply in_rev; rewrite R; left; reflexivity). specialize (F _ I).
  replace (Nat.eqb (ecookie m) (vcookie e)) with false by (symmetry; apply Nat.eqb_neq; lia). apply andb_false_r.
Qed.
Lemma ok_forall2 c s : ok c s -> Forall (fun m => ecookie m < c) (q s).
Proof. intros [_ [F _]]. eapply Forall_impl; [|exact F]. cbn. tauto. Qed.
Lemma ok_weaken c s : ok c s -> ok (S c) s.
Proof. intros [A [F S]]. split; [exact A|]. split; [|exact S]. eapply Forall_impl; [|exact F]. cbn. intros; lia. Qed.
Lemma ok_drop c s l : ok c s -> map core l = map core (q s) -> apart l -> ok c {| q := l; mfl := mfl s; nid := nid s |}.
Proof. intros [A [F S]] E A'. split; [exact A'|]. split; [apply (core_forall _ _ (q s)); [auto|exact F]|]. cbn. rewrite (core_eid _ _ E). exact S. Qed.
Lemma ok_add c s l k m v f fl : ok c s -> map core l = map core (q s) -> apart l -> v <= c -> (forall a, f = Some a -> a <> k) ->
  (forall i, In i fl -> i = nid s \/ In i (mfl s)) -> ok (S c) {| q := l ++ [ent (nid s) k m v f]; mfl := fl; nid := S (nid s) |}.
Proof.
  intros [A [F S]] E A' V N S'. split; [|split]; cbn [q mfl nid].
  - intros x a I X. apply in_app_or in I. destruct I as [I|[<-|[]]]; [exact (A' _ _ I X)|]. apply N. exact X.
  - apply Forall_app. split; [|constructor; [cbn; lia|constructor]]. assert (G : Forall (fun m => eid m < nid s /\ ecookie m < c) l) by (apply (core_forall _ _ (q s)); [auto|exact F]).
    eapply Forall_impl; [|exact G]. cbn. intros; lia.
  - intros i I. rewrite map_app, in_app_iff. cbn. destruct (S' _ I) as [->|J]; [right; left; reflexivity|]. left. rewrite (core_eid _ _ E). apply S, J.
Qed.

(** What one event leaves. *)
Definition post (e : event) (s s' : mst) : Prop :=
  (same_as_last e (q s) = true /\ q s' = q s /\ exists r, eff (vkey e) (q s) = r ++ [Own (vmask e)]) \/
  (exists ke rc l, ephemeral e (q s) = (ke, rc, l) /\
    (rc = true /\ q s' = l \/ rc = false /\ exists i, q s' = l ++ [ent i (vkey e) ke (vcookie e) None])).
Lemma queue_first e s c : ok c s -> vcookie e <= c -> (vmask e = KTo -> vcookie e = c) -> exists s', queue_event e s = Some s' /\ ok (S c) s' /\ post e s s'.
Proof.
  intros O V T. pose proof O as [A [F S]]. unfold queue_event. destruct (same_as_last e (q s)) eqn:L.
  { exists s. split; [reflexivity|]. split; [apply ok_weaken, O|]. left. split; [exact L|]. split; [reflexivity|]. apply same_last; auto. }
  pose proof (ephemeral_core e (q s)) as Co. pose proof (ephemeral_apart e (q s) A) as Ap.
  destruct (ephemeral e (q s)) as [[ke rc] l] eqn:P. cbn [snd] in Co, Ap. destruct rc.
  { eexists. split; [reflexivity|]. split; [apply ok_weaken, ok_drop; auto|]. right. exists ke, true, l. auto. }
  assert (Q : forall fl, (forall i, In i fl -> i = nid s \/ In i (mfl s)) -> exists s',
     Some {| q := l ++ [{| eid := nid s; ekey := vkey e; emask := Some ke; ecookie := vcookie e; efrom := None |}]; mfl := fl; nid := Datatypes.S (nid s) |} = Some s' /\ ok (Datatypes.S c) s' /\ post e s s').
  { intros fl H. eexists. split; [reflexivity|]. split; [apply (ok_add c s l (vkey e) ke (vcookie e) None fl); auto; discriminate|]. right. exists ke, false, l. split; [exact P|]. right. split; [reflexivity|]. exists (nid s). reflexivity. }
  destruct ke; try (apply Q; auto; fail).
  - apply Q. intros i [<-|I]; auto.
  - assert (Tk : vmask e = KTo).
    { unfold ephemeral in P. destruct (is_new (vmask e)) eqn:N.
      - cbn in P. pose proof (eph_cut (vkey e) (vmask e) false false (q s) A) as X. rewrite P in X.
        destruct (cut_new_mask (vmask e) false false (eff (vkey e) (q s)) ltac:(destruct (vmask e); try discriminate; reflexivity) _ _ _ X) as [[H|H] _]; congruence.
      - destruct (is_del (vmask e)); cbn in P; [|congruence]. pose proof (eph_cut (vkey e) (vmask e) false false (q s) A) as X. rewrite P in X.
        pose proof (cut_del_mask (vmask e) false false (eff (vkey e) (q s)) N _ _ _ X). congruence. }
    rewrite (claim_fresh (vcookie e)); [apply Q; auto| |].
    + intros i I. rewrite (core_eid _ _ Co). auto.
    + rewrite (T Tk). eapply Forall_impl; [|apply (core_forall (nid s) c (q s) l); [auto|exact F]]. cbn. tauto.
Qed.

Lemma eff_one x m : eff x [m] = eff1 x m. Proof. unfold eff. cbn. apply app_nil_r. Qed.
(** A rename. *)
Lemma eph_new_result k ke l : apart l -> is_new ke = true -> exists k1 l1, eph k ke false false l = (k1, false, l1) /\ (k1 = ke \/ k1 = KModify) /\ cut ke false false (eff k l) = (k1, false, eff k l1).
Proof.
  intros A N. pose proof (eph_cut k ke false false l A) as X. destruct (eph k ke false false l) as [[k1 r1] l1].
  destruct (cut_new_mask ke false false (eff k l) ltac:(destruct ke; try discriminate; reflexivity) _ _ _ X) as [H ->]. exists k1, l1. auto.
Qed.
Lemma mask_entry_last i l m : Forall (fun x => eid x < i) l -> eid m = i -> mask_entry i (l ++ [m]) = l ++ [masked m].
Proof.
  intros F E. unfold mask_entry. rewrite map_app. cbn. rewrite E, Nat.eqb_refl. f_equal. induction F as [|x l L F IH]; cbn; [reflexivity|].
  replace (Nat.eqb (eid x) i) with false by (symmetry; apply Nat.eqb_neq; lia). rewrite IH. reflexivity.
Qed.
Lemma find_entry_last i l m : Forall (fun x => eid x < i) l -> eid m = i -> find_entry i (l ++ [m]) = Some m.
Proof. intros F E. induction F as [|x l L F IH]; cbn; [rewrite E, Nat.eqb_refl; reflexivity|]. replace (Nat.eqb (eid x) i) with false by (symmetry; apply Nat.eqb_neq; lia). exact IH. Qed.
Lemma queue_rename a b c s : ok c s -> a <> b -> exists s' ka rca la kb lb,
  queue_events (events_of c (Rename a b)) s = Some s' /\ ok (S c) s' /\
  eph a KFrom false false (q s) = (ka, rca, la) /\ eph b KTo false false la = (kb, false, lb) /\ (kb = KTo \/ kb = KModify) /\
  (forall x, eff x (q s') = eff x lb ++ (if key_eqb a x then if rca then [] else [match kb with KTo => Gone | _ => Own KFrom end] else []) ++ (if key_eqb b x then [Own kb] else [])).
Proof.
  intros O N. pose proof O as [A [F S]]. cbn [events_of queue_events]. unfold queue_event at 1. cbn [vkey vmask vcookie].
  rewrite (same_cookie {| vkey := a; vmask := KFrom; vcookie := c |} (q s) c (ok_forall2 _ _ O) eq_refl). unfold ephemeral. cbn [vkey vmask is_new is_del orb].
  pose proof (eph_core a KFrom false false (q s)) as Co. pose proof (eph_apart a KFrom false false (q s) A) as Ap. pose proof (eph_cut a KFrom false false (q s) A) as Cu.
  destruct (eph a KFrom false false (q s)) as [[ka rca] la] eqn:Ea. cbn [snd] in Co, Ap.
  assert (ka = KFrom) as -> by exact (cut_del_mask KFrom _ _ _ eq_refl _ _ _ Cu).
  destruct (eph_new_result b KTo la Ap eq_refl) as [kb [lb [Eb [Kb _]]]].
  pose proof (eph_core b KTo false false la) as Cob. rewrite Eb in Cob. cbn [snd] in Cob. pose proof (eph_apart b KTo false false la Ap) as Apb. rewrite Eb in Apb. cbn [snd] in Apb.
  assert (Cs : map core lb = map core (q s)) by congruence.
  assert (Fb : Forall (fun m => eid m < nid s /\ ecookie m < c) lb) by (apply (core_forall _ _ (q s)); auto).
  destruct rca.
  - (* the first half was dropped *)
    pose proof (ok_drop c s la O Co Ap) as O1. set (s1 := {| q := la; mfl := mfl s; nid := nid s |}) in *.
    destruct (queue_first {| vkey := b; vmask := KTo; vcookie := c |} s1 c O1 (Nat.le_refl _) (fun _ => eq_refl)) as [s' [Q [Ok P]]]. rewrite Q.
    exists s', KFrom, true, la, kb, lb. split; [reflexivity|]. split; [exact Ok|]. split; [reflexivity|]. split; [exact Eb|]. split; [exact Kb|].
    intros x. destruct P as [[P _]|[ke [rc [l [P1 P2]]]]].
    + rewrite (same_cookie {| vkey := b; vmask := KTo; vcookie := c |} _ c (ok_forall2 _ _ O1) eq_refl) in P. discriminate.
    + unfold ephemeral in P1. cbn [vkey vmask is_new is_del orb q s1] in P1. rewrite Eb in P1. injection P1 as <- <- <-. destruct P2 as [[X _]|[_ [i P2]]]; [discriminate|]. rewrite P2, eff_app. f_equal.
      cbn [vkey vcookie]. unfold eff. cbn [flat_map eff1 ent emask ekey efrom]. rewrite !app_nil_r. destruct (key_eqb a x); cbn [app]; destruct kb; rewrite ?app_nil_r; reflexivity.
  - (* both halves are queued *)
    set (mf := {| eid := nid s; ekey := a; emask := Some KFrom; ecookie := c; efrom := None |}). unfold queue_event. cbn [q mfl nid vkey vmask vcookie].
    replace (same_as_last _ (la ++ [mf])) with false by (unfold same_as_last; rewrite rev_app_distr; cbn; rewrite (key_eqb_ne a b N); reflexivity).
    unfold ephemeral. cbn [vkey vmask is_new is_del orb]. rewrite eph_snoc by (apply key_eqb_ne, N). rewrite Eb.
    assert (Fi : Forall (fun x => eid x < nid s) lb) by (eapply Forall_impl; [|exact Fb]; cbn; tauto).
    assert (O1 : ok (Datatypes.S c) {| q := lb ++ [mf]; mfl := nid s :: mfl s; nid := Datatypes.S (nid s) |}).
    { apply (ok_add c s lb a KFrom c None); auto; [discriminate|]. intros i [<-|I]; auto. }
    pose proof O1 as [Ap1 [F1 S1]]. cbn [q mfl nid] in Ap1, F1, S1.
    destruct Kb as [-> | ->].
    + cbn [claim]. rewrite (find_entry_last _ _ mf Fi eq_refl). cbn [ecookie mf]. rewrite Nat.eqb_refl. cbn [ekey]. rewrite (mask_entry_last _ _ mf Fi eq_refl).
      eexists. exists KFrom, false, la, KTo, lb. split; [reflexivity|]. split; [|split; [reflexivity|split; [exact Eb|split; [auto|]]]].
      * split; [|split]; cbn [q mfl nid].
        -- intros x y I X. apply in_app_or in I. destruct I as [I|[<-|[]]].
           ++ apply in_app_or in I. destruct I as [I|[<-|[]]]; [exact (Apb _ _ I X)|discriminate X].
           ++ cbn in X |- *. congruence.
        -- apply Forall_app. split; [apply Forall_app; split; [eapply Forall_impl; [|exact Fb]; cbn; intros; lia|constructor; [cbn; lia|constructor]]|constructor; [cbn; lia|constructor]].
        -- intros i I. apply filter_In in I. destruct I as [I _]. specialize (S1 i I). rewrite !map_app in *. cbn in *. rewrite in_app_iff in *. left. exact (proj2 (in_app_iff _ _ _) S1).
      * intros x. cbn [q]. rewrite !eff_app, !eff_one, eff1_masked. unfold eff1. cbn [emask ekey efrom mf]. rewrite !app_nil_r. f_equal.
        destruct (key_dec a x) as [<-|Na]; [rewrite !key_eqb_refl, (key_eqb_ne b a) by auto; reflexivity|]. rewrite !(key_eqb_ne a x Na). destruct (key_eqb b x); reflexivity.
    + eexists. exists KFrom, false, la, KModify, lb. split; [reflexivity|]. split; [|split; [reflexivity|split; [exact Eb|split; [auto|]]]].
      * split; [|split]; cbn [q mfl nid].
        -- intros x y I X. apply in_app_or in I. destruct I as [I|[<-|[]]]; [exact (Ap1 _ _ I X)|discriminate X].
        -- apply Forall_app. split; [eapply Forall_impl; [|exact F1]; cbn; intros; lia|constructor; [cbn; lia|constructor]].
        -- intros i I. specialize (S1 i I). rewrite map_app. apply in_or_app. left. exact S1.
      * intros x. cbn [q]. rewrite !eff_app, !eff_one. unfold eff1. cbn [emask ekey efrom mf]. rewrite !app_nil_r. rewrite <- app_assoc. f_equal.
Qed.
