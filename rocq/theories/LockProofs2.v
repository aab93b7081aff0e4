(** The invariant of the hand-over. *)
From Verif Require Import Base LockModel LockSpec LockProofs.

Lemma sync_app h q o : sync h q o -> sync h (q ++ [if o then EClose else EOpen]) (negb o).
Proof. revert h. induction q as [|[|] q IH]; cbn; intros h H; [subst; destruct h; cbn; auto|destruct H; auto|destruct H; auto]. Qed.
Lemma sync_last h q o x r : sync h q o -> rev q = x :: r -> x = if o then EOpen else EClose.
Proof.
  revert h x r. induction q as [|e q IH]; cbn; intros h x r H R; [discriminate|].
  destruct (rev q) as [|y t] eqn:E.
  - cbn in R. injection R as <- <-. assert (q = []) as -> by (rewrite <- (rev_involutive q), E; reflexivity). destruct e; cbn in H; destruct H as [-> ->]; reflexivity.
  - cbn in R. injection R as <- _. destruct e; destruct H as [_ H]; eapply IH; eauto.
Qed.
Lemma emit_sync g m q o : m <> MOff -> sync (home m) q o -> sync (home m) (emit g m (if o then EClose else EOpen) q) (negb o).
Proof.
  intros N H. assert (E : emit g m (if o then EClose else EOpen) q = q ++ [if o then EClose else EOpen]).
  { unfold emit. destruct m; try congruence; (destruct (rev q) as [|x r] eqn:R; [assert (q = []) as -> by (rewrite <- (rev_involutive q), R; reflexivity); reflexivity|]);
      rewrite (sync_last _ _ _ _ _ H R); destruct o; cbn; rewrite andb_false_r; reflexivity. }
  rewrite E. apply sync_app. exact H.
Qed.
Lemma emit_ok g m e q o o' : (m = MOff \/ sync (home m) q o) -> e = (if o then EClose else EOpen) -> o' = negb o ->
  m = MOff \/ sync (home m) (emit g m e q) o'.
Proof. intros [->|H] -> ->; [auto|]. destruct m; auto; right; (apply (emit_sync g _ q o); [discriminate|exact H]). Qed.

Lemma active_sh s i p : inv s -> nth_error (procs s) i = Some p -> active p = true -> sh s = Some (C i) /\ cur s = p.
Proof.
  intros I P A. destruct (i_idle _ I _ _ P) as [->|[->|H]]; try discriminate. split; [exact H|]. unfold cur. rewrite H, P. reflexivity.
Qed.
Lemma cur_active s : sh s <> None -> inv s -> active (cur s) = true.
Proof. intros N I. destruct (sh s) as [w|] eqn:E; [|congruence]. destruct (i_sh _ I _ E) as [i [p [-> [P A]]]]. unfold cur. rewrite E, P. exact A. Qed.

(** Process i, which has the shared lock, moves on. *)
Lemma inv_move s i p p' o t q : inv s -> nth_error (procs s) i = Some p -> active p = true -> active p' = true ->
  o = (if mobj (mon s) then Some M else if works p' then Some (C i) else None) -> mobj (mon s) && works p' = false ->
  t = (if mtri (mon s) then Some M else if hastri p' then Some (C i) else None) -> mtri (mon s) && hastri p' = false ->
  (mon s = MOff \/ sync (home (mon s)) q (has_open p')) ->
  inv {| procs := upd (procs s) i p'; sh := sh s; obj := o; tri := t; mon := mon s; evs := q |}.
Proof.
  intros I P A A' O O1 T T1 Y. destruct (active_sh _ _ _ I P A) as [Sh _].
  assert (K : cur {| procs := upd (procs s) i p'; sh := sh s; obj := o; tri := t; mon := mon s; evs := q |} = p') by (unfold cur; cbn; rewrite Sh, (nth_upd_eq _ _ _ _ P); reflexivity).
  split; rewrite ?K; cbn [procs sh obj tri mon evs]; rewrite ?Sh; auto.
  - intros j x H. destruct (Nat.eq_dec j i) as [->|N]; [auto|]. rewrite nth_upd_ne in H by auto. destruct (i_idle _ I _ _ H) as [G|[G|G]]; auto. rewrite Sh in G. congruence.
  - intros w W. injection W as <-. exists i, p'. split; [reflexivity|]. split; [apply (nth_upd_eq _ _ _ _ P)|exact A'].
Qed.
(** Process i, which has the shared lock, ends. *)
Lemma inv_end s i p m o t q : inv s -> nth_error (procs s) i = Some p -> active p = true ->
  o = (if mobj m then Some M else None) -> t = (if mtri m then Some M else None) -> (m = MOff \/ sync (home m) q false) ->
  inv {| procs := upd (procs s) i Done; sh := None; obj := o; tri := t; mon := m; evs := q |}.
Proof.
  intros I P A O T Y. destruct (active_sh _ _ _ I P A) as [Sh _].
  split; cbn [procs sh obj tri mon evs cur works hastri]; auto; try apply andb_false_r.
  - intros j x H. destruct (Nat.eq_dec j i) as [->|N]; [rewrite (nth_upd_eq _ _ _ _ P) in H; injection H as <-; auto|]. rewrite nth_upd_ne in H by auto. destruct (i_idle _ I _ _ H) as [G|[G|G]]; auto. rewrite Sh in G. congruence.
  - discriminate.
Qed.

Lemma inv_client i g s s' : client i g s = Some s' -> inv s -> inv s'.
Proof.
  intros A I. unfold client in A. destruct (nth_error (procs s) i) as [p|] eqn:P; [|discriminate].
  destruct (active p) eqn:Ac.
  - destruct (active_sh _ _ _ I P Ac) as [Sh K]. pose proof (i_obj _ I) as Ho. pose proof (i_obj1 _ I) as Ho1. pose proof (i_tri _ I) as Ht. pose proof (i_tri1 _ I) as Ht1. pose proof (i_sync _ I) as Hs.
    rewrite K in *. rewrite Sh in Ho, Ht.
    destruct p; try discriminate; cbn [works hastri has_open] in *; rewrite ?andb_false_r, ?andb_true_r in *;
    try (match type of A with match acquire ?l ?w with _ => _ end = _ => destruct (acquire l w) as [l'|] eqn:Q'; [|discriminate]; apply acquire_some in Q'; destruct Q' as [Q1 ->] end);
    injection A as <-;
    try (apply (inv_move s i _ _ _ _ _ I P); cbn [works hastri has_open active]; rewrite ?andb_false_r, ?andb_true_r, ?Ho1, ?Ht1; auto).
    + apply (emit_ok g _ _ _ false); auto.
    + rewrite Q1 in Ho. destruct (mobj (mon s)); [discriminate|reflexivity].
    + rewrite Q1 in Ho. destruct (mobj (mon s)); [discriminate|reflexivity].
    + rewrite Ho, Ho1. apply release_own.
    + apply (emit_ok g _ _ _ true); auto.
    + rewrite Q1 in Ht. destruct (mtri (mon s)); [discriminate|reflexivity].
    + rewrite Q1 in Ht. destruct (mtri (mon s)); [discriminate|reflexivity].
    + rewrite Ht, Ht1. apply release_own.
    + rewrite Sh, release_own. apply (inv_end s i _ _ _ _ _ I P); auto.
  - destruct (i_idle _ I _ _ P) as [->|[->|H]]; [|discriminate|destruct (i_sh _ I _ H) as [j [q [E [Q Aq]]]]; congruence].
    destruct (acquire (sh s) (C i)) as [l'|] eqn:Q'; [|discriminate]. apply acquire_some in Q'. destruct Q' as [Q1 ->]. injection A as <-.
    assert (K0 : cur s = Done) by (unfold cur; rewrite Q1; reflexivity).
    pose proof (i_obj _ I) as Ho. pose proof (i_obj1 _ I) as Ho1. pose proof (i_tri _ I) as Ht. pose proof (i_tri1 _ I) as Ht1. pose proof (i_sync _ I) as Hs. rewrite K0 in *.
    match goal with |- inv ?x => assert (K : cur x = HaveSh) by (unfold cur; cbn; rewrite (nth_upd_eq _ _ _ _ P); reflexivity) end.
    split; rewrite ?K; cbn [procs sh obj tri mon evs works hastri has_open] in *; auto.
    + intros j x H. destruct (Nat.eq_dec j i) as [->|N]; [auto|]. rewrite nth_upd_ne in H by auto. destruct (i_idle _ I _ _ H) as [G|[G|G]]; auto. congruence.
    + intros w W. injection W as <-. exists i, HaveSh. split; [reflexivity|]. split; [apply (nth_upd_eq _ _ _ _ P)|reflexivity].
Qed.

(** A step that leaves the processes alone. *)
Lemma inv_keep s m o t q : inv s ->
  o = (if mobj m then Some M else if works (cur s) then sh s else None) -> mobj m && works (cur s) = false ->
  t = (if mtri m then Some M else if hastri (cur s) then sh s else None) -> mtri m && hastri (cur s) = false ->
  (m = MOff \/ sync (home m) q (has_open (cur s))) ->
  inv {| procs := procs s; sh := sh s; obj := o; tri := t; mon := m; evs := q |}.
Proof. intros I O O1 T T1 Y. split; auto; [apply (i_idle _ I)|apply (i_sh _ I)]. Qed.

Lemma lock_free (c : bool) (l : option who) (w : who) : l = (if c then Some w else None) -> l = None -> c = false.
Proof. destruct c; congruence. Qed.
Lemma inv_monitor s s' : monitor s = Some s' -> inv s -> inv s'.
Proof.
  intros A I. pose proof (i_obj _ I) as Ho. pose proof (i_obj1 _ I) as Ho1. pose proof (i_tri _ I) as Ht. pose proof (i_tri1 _ I) as Ht1. pose proof (i_sync _ I) as Hs.
  assert (NM : forall w, sh s = Some w -> w <> M) by (intros w E; destruct (i_sh _ I _ E) as [i [p [-> _]]]; discriminate).
  assert (Sw : works (cur s) = true -> sh s <> None) by (unfold cur; destruct (sh s); discriminate).
  assert (St : hastri (cur s) = true -> sh s <> None) by (unfold cur; destruct (sh s); discriminate).
  unfold monitor in A. destruct (mon s) eqn:Em; try discriminate; cbn [mobj mtri home andb] in *;
    try (match type of A with match acquire ?l ?w with _ => _ end = _ => destruct (acquire l w) as [l'|] eqn:Q'; [|discriminate]; apply acquire_some in Q'; destruct Q' as [Q1 ->] end);
    try (destruct (evs s) as [|[|] q] eqn:Eq; try discriminate); (destruct Hs as [Hs|Hs]; [discriminate|]); injection A as <-; apply inv_keep; auto;
    cbn [mobj mtri home andb]; auto; try (right; cbn in Hs |- *; tauto); try (cbn in Hs; destruct Hs; discriminate).
  all: first [ rewrite Ho1, Ho; reflexivity | rewrite Ht1, Ht; reflexivity
    | rewrite Q1 in Ht; destruct (hastri (cur s)); [specialize (St eq_refl); congruence|reflexivity]
    | rewrite Q1 in Ho; destruct (works (cur s)); [specialize (Sw eq_refl); congruence|reflexivity] ].
Qed.

Lemma inv_act a s s' : (match a with KillSlow _ => false | _ => true end) = true -> act a s = Some s' -> inv s -> inv s'.
Proof.
  intros N A I. destruct a as [|i g| |i| |i g|i]; cbn [act] in A; [| | | | | |discriminate].
  - injection A as <-.
    assert (K : cur {| procs := procs s ++ [Start]; sh := sh s; obj := obj s; tri := tri s; mon := mon s; evs := evs s |} = cur s).
    { unfold cur. cbn. destruct (sh s) as [w|] eqn:E; [|reflexivity]. destruct (i_sh _ I _ E) as [i [p [-> [P _]]]]. rewrite nth_error_app1 by (apply nth_error_Some; congruence). reflexivity. }
    destruct I as [I1 I2 I3 I4 I5 I6 I7]. split; rewrite ?K; cbn [procs sh obj tri mon evs]; auto.
    + intros j p H. destruct (nth_app_start _ _ _ H) as [G|[_ ->]]; eauto.
    + intros w W. destruct (I2 _ W) as [i [p [-> [P A]]]]. exists i, p. split; [reflexivity|]. split; [rewrite nth_error_app1; [exact P|apply nth_error_Some; congruence]|exact A].
  - eapply inv_client; eauto.
  - eapply inv_monitor; eauto.
  - unfold become in A. destruct (nth_error (procs s) i) as [[]|] eqn:P; try discriminate. destruct (mon s) eqn:Em; try discriminate. injection A as <-.
    destruct (active_sh _ _ _ I P eq_refl) as [Sh K]. rewrite Sh. cbn [release who_eqb]. rewrite Nat.eqb_refl. apply (inv_end s i _ _ _ _ _ I P); auto; [|right; reflexivity].
    pose proof (i_tri _ I) as T. rewrite Em, K in T. exact T.
  - unfold stop_monitor in A.
    assert (R : s' = {| procs := procs s; sh := release (sh s) M; obj := release (obj s) M; tri := release (tri s) M; mon := MOff; evs := [] |}) by (destruct (mon s); congruence).
    assert (NM : forall w, sh s = Some w -> exists i, w = C i) by (intros w E; destruct (i_sh _ I _ E) as [i [p [-> _]]]; eauto).
    assert (R0 : release (sh s) M = sh s) by (destruct (sh s) as [w|]; [destruct (NM w eq_refl) as [i ->]|]; reflexivity).
    rewrite R, R0. pose proof (i_obj _ I) as Ho. pose proof (i_obj1 _ I) as Ho1. pose proof (i_tri _ I) as Ht. pose proof (i_tri1 _ I) as Ht1.
    apply inv_keep; auto; cbn [mobj mtri].
    + rewrite Ho. destruct (mobj (mon s)); [cbn in Ho1; rewrite Ho1; reflexivity|]. destruct (works (cur s)); [exact R0|reflexivity].
    + rewrite Ht. destruct (mtri (mon s)); [cbn in Ht1; rewrite Ht1; reflexivity|]. destruct (hastri (cur s)); [exact R0|reflexivity].
  - unfold kill in A. destruct (nth_error (procs s) i) as [p|] eqn:P; [|discriminate]. destruct (alive p) eqn:Al; [|discriminate]. injection A as <-.
    pose proof (i_obj _ I) as Ho. pose proof (i_obj1 _ I) as Ho1. pose proof (i_tri _ I) as Ht. pose proof (i_tri1 _ I) as Ht1. pose proof (i_sync _ I) as Hs.
    destruct (active p) eqn:Ac.
    + destruct (active_sh _ _ _ I P Ac) as [Sh K]. rewrite K in *. rewrite Sh in *. cbn [release who_eqb]. rewrite Nat.eqb_refl. apply (inv_end s i _ _ _ _ _ I P Ac).
      * rewrite Ho. destruct (mobj (mon s)); [reflexivity|]. destruct (works p); cbn; rewrite ?Nat.eqb_refl; reflexivity.
      * rewrite Ht. destruct (mtri (mon s)); [reflexivity|]. destruct (hastri p); cbn; rewrite ?Nat.eqb_refl; reflexivity.
      * destruct (has_open p) eqn:Op; [|exact Hs]. apply (emit_ok g _ _ _ true); auto.
    + assert (p = Start) as -> by (destruct p; try discriminate; reflexivity). cbn [has_open].
      assert (NS : sh s <> Some (C i)) by (intros E; destruct (i_sh _ I _ E) as [j [q [E' [Q Aq]]]]; injection E' as <-; rewrite P in Q; injection Q as <-; discriminate).
      assert (R0 : release (sh s) (C i) = sh s) by (destruct (sh s) as [w|] eqn:E; [apply (release_other _ _ w); congruence|reflexivity]). rewrite R0.
      assert (Ro : release (obj s) (C i) = obj s) by (rewrite Ho; destruct (mobj (mon s)); [reflexivity|]; destruct (works (cur s)); [exact R0|reflexivity]). rewrite Ro.
      assert (Rt : release (tri s) (C i) = tri s) by (rewrite Ht; destruct (mtri (mon s)); [reflexivity|]; destruct (hastri (cur s)); [exact R0|reflexivity]). rewrite Rt.
      match goal with |- inv ?x => assert (K : cur x = cur s) end.
      { unfold cur. cbn. destruct (sh s) as [[j|]|] eqn:E; try reflexivity. rewrite nth_upd_ne by congruence. reflexivity. }
      destruct I as [I1 I2 I3 I4 I5 I6 I7]. split; rewrite ?K; cbn [procs sh obj tri mon evs]; auto.
      * intros j x H. destruct (Nat.eq_dec j i) as [->|Nj]; [rewrite (nth_upd_eq _ _ _ _ P) in H; injection H as <-; auto|]. rewrite nth_upd_ne in H by auto. eauto.
      * intros w W. destruct (I2 _ W) as [j [q [-> [Q Aq]]]]. exists j, q. split; [reflexivity|]. split; [|exact Aq]. rewrite nth_upd_ne; [exact Q|]. intros ->. congruence.
Qed.

Lemma inv_init : inv init.
Proof. split; cbn; auto; try discriminate. intros [|i] p; discriminate. Qed.
Lemma inv_run l s : no_slow_kill l = true -> run l init = Some s -> inv s.
Proof. intros O R. exact (run_inv inv _ inv_act l init s O R inv_init). Qed.

(** As long as somebody is not done, somebody can go on. *)
Lemma not_stuck s : inv s -> stuck s -> all_done s.
Proof.
  intros I U i p P. destruct (i_idle _ I _ _ P) as [->|[->|Sh]]; [|reflexivity|].
  - (* waiting for the shared lock *)
    destruct (sh s) as [w|] eqn:E.
    + exfalso. destruct (i_sh _ I _ E) as [j [q [-> [Q Aq]]]]. pose proof (U (Run j false) eq_refl) as V. pose proof (U Monitor eq_refl) as W. cbn [act] in V, W.
      destruct (active_sh _ _ _ I Q Aq) as [_ K]. pose proof (i_obj _ I) as Ho. pose proof (i_obj1 _ I) as Ho1. pose proof (i_tri _ I) as Ht. pose proof (i_tri1 _ I) as Ht1. pose proof (i_sync _ I) as Hs.
      rewrite K in *. unfold client in V. rewrite Q in V. unfold monitor in W.
      destruct q; try discriminate; cbn [works hastri has_open] in *; destruct (mon s); cbn [mobj mtri home andb] in *; rewrite ?Ho, ?Ht in *; cbn [acquire] in *; try discriminate;
        (destruct Hs as [Hs|Hs]; [discriminate|]); destruct (evs s) as [|[|] r]; cbn in Hs; try discriminate; destruct Hs; discriminate.
    + exfalso. pose proof (U (Run i false) eq_refl) as V. cbn [act] in V. unfold client in V. rewrite P, E in V. discriminate.
  - exfalso. destruct (i_sh _ I _ Sh) as [j [q [E [Q Aq]]]]. injection E as <-. rewrite P in Q. injection Q as <-. pose proof (U (Run i false) eq_refl) as V. pose proof (U Monitor eq_refl) as W. cbn [act] in V, W.
      destruct (active_sh _ _ _ I P Aq) as [_ K]. pose proof (i_obj _ I) as Ho. pose proof (i_obj1 _ I) as Ho1. pose proof (i_tri _ I) as Ht. pose proof (i_tri1 _ I) as Ht1. pose proof (i_sync _ I) as Hs.
      rewrite K in *. unfold client in V. rewrite P in V. unfold monitor in W.
      destruct p; try discriminate; cbn [works hastri has_open] in *; destruct (mon s); cbn [mobj mtri home andb] in *; rewrite ?Ho, ?Ht in *; cbn [acquire] in *; try discriminate;
        (destruct Hs as [Hs|Hs]; [discriminate|]); destruct (evs s) as [|[|] r]; cbn in Hs; try discriminate; destruct Hs; discriminate.
Qed.

(** With no kills, the monitor and the process go hand in hand. *)
Definition pace (p : cpc) (m : mpc) (q : list ev) : Prop :=
  match p, m with
  | _, MOff => True
  | Opened, MOn => q = [EOpen]
  | Opened, (MFlush | MWantTri | MHaveTri | MAway) => q = []
  | (Working | Released), MAway => q = []
  | Closed, MAway => q = [EClose]
  | Closed, (MWantObj | MHaveObj | MOn) => q = []
  | (Start | HaveSh | HaveTri | TriDone | Done), MOn => q = []
  | _, _ => False
  end.
Definition calm (s : st) : Prop := inv s /\ pace (cur s) (mon s) (evs s).
Lemma calm_act a s s' : (match a with KillSlow _ | Kill _ _ => false | _ => true end) = true -> act a s = Some s' -> calm s -> calm s'.
Proof.
  intros N A [I P]. assert (I' : inv s') by (apply (inv_act a s s'); [destruct a; auto|exact A|exact I]). split; [exact I'|].
  destruct a as [|i g| |i| |i g|i]; cbn [act] in A; try discriminate.
  - injection A as <-. cbn [mon evs]. replace (cur _) with (cur s); [exact P|]. unfold cur. cbn. destruct (sh s) as [w|] eqn:E; [|reflexivity].
    destruct (i_sh _ I _ E) as [j [p [-> [Q _]]]]. rewrite nth_error_app1 by (apply nth_error_Some; congruence). reflexivity.
  - unfold client in A. destruct (nth_error (procs s) i) as [p|] eqn:Q; [|discriminate].
    destruct (active p) eqn:Ac.
    + destruct (active_sh _ _ _ I Q Ac) as [Sh K]. rewrite K in P. pose proof (i_obj _ I) as Ho. pose proof (i_tri _ I) as Ht. rewrite K in *.
      destruct p; try discriminate;
      try (match type of A with match acquire ?l ?w with _ => _ end = _ => destruct (acquire l w) as [l'|] eqn:Q'; [|discriminate]; apply acquire_some in Q'; destruct Q' as [Q1 ->] end);
      injection A as <-; unfold cur; cbn [procs sh mon evs]; rewrite ?Sh, ?release_own, ?(nth_upd_eq _ _ _ _ Q);
      destruct (mon s); cbn [pace mobj mtri works hastri] in *; auto; try contradiction; try congruence; rewrite P; reflexivity.
    + destruct (i_idle _ I _ _ Q) as [->|[->|H]]; [|discriminate|destruct (i_sh _ I _ H) as [j [x [E [X Ax]]]]; congruence].
      destruct (acquire (sh s) (C i)) as [l'|] eqn:Q'; [|discriminate]. apply acquire_some in Q'. destruct Q' as [Q1 ->]. injection A as <-.
      unfold cur in P. rewrite Q1 in P. unfold cur. cbn [procs sh mon evs]. rewrite (nth_upd_eq _ _ _ _ Q). destruct (mon s); cbn in *; auto.
  - assert (Hc : cur s' = cur s /\ True).
    { split; auto. unfold monitor in A. destruct (mon s), (evs s) as [|[|] q]; try discriminate; try (injection A as <-; reflexivity);
        match type of A with match acquire ?l ?w with _ => _ end = _ => destruct (acquire l w); [|discriminate] end; injection A as <-; reflexivity. }
    destruct Hc as [Hc _]. rewrite Hc. pose proof (i_obj _ I) as Ho. pose proof (i_tri _ I) as Ht.
    unfold monitor in A. destruct (cur s), (mon s); cbn [pace] in P; try contradiction; try rewrite P in A; try discriminate;
      try (match type of A with match acquire ?l ?w with _ => _ end = _ => destruct (acquire l w) as [l'|] eqn:Q'; [|discriminate] end);
      injection A as <-; cbn [mon evs pace]; auto.
  - unfold become in A. destruct (nth_error (procs s) i) as [[]|] eqn:Q; try discriminate. destruct (mon s); try discriminate. injection A as <-.
    destruct (active_sh _ _ _ I Q eq_refl) as [Sh K]. unfold cur. cbn [procs sh mon evs]. rewrite Sh, release_own. reflexivity.
  - unfold stop_monitor in A. destruct (mon s); try discriminate; injection A as <-; cbn [mon evs]; match goal with |- pace ?c _ _ => destruct c end; exact Logic.I.
Qed.
Lemma calm_run l s : no_kill l = true -> run l init = Some s -> calm s.
Proof. intros O R. apply (run_inv calm _ calm_act l init s O R). split; [apply inv_init|exact I]. Qed.
