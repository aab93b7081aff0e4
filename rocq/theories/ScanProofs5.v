(** Files and directories of the disk. *)
From Verif Require Import Base ConfigModel ParseModel PathModel DbModel DbSpec DbProofs DbProofs3 ScanModel ScanSpec ScanProofs ScanProofs2 ScanProofs3 ScanProofs4.
Require Import Lia.

Definition changed_to (x : nat) (n n' : node) (d d' : db) : Prop :=
  NoDup (map fst (nodes d')) /\ (forall y, y <> x -> lookup d' y = lookup d y) /\ normal d' = normal d /\
  incl (modify d) (modify d') /\ incl (create d) (create d') /\ lookup d x = Some n /\ lookup d' x = Some n'.
Lemma changed_flags x n d d' : base d -> lookup d x = Some n -> flags_only d d' -> changed_to x n n d d'.
Proof.
  intros W L F. pose proof F as F0. destruct F0 as [F1 [F2 [_ [F4 [F5 _]]]]]. split; [rewrite F1; apply W|]. split; [intros y _; apply flags_lookup; exact F|].
  repeat split; auto. rewrite (flags_lookup _ _ _ F). exact L.
Qed.
Lemma changed_update x n f d : NoDup (map fst (nodes d)) -> lookup d x = Some n -> changed_to x n (f n) d (update_node x f d).
Proof.
  intros W L. split; [rewrite ids_update; exact W|]. split; [intros y N; rewrite lookup_update; destruct (y =? x) eqn:E; [apply Nat.eqb_eq in E; contradiction|reflexivity]|].
  repeat split; auto using incl_refl. rewrite lookup_update, Nat.eqb_refl, L. reflexivity.
Qed.
Lemma changed_then x n n1 n2 d e f : changed_to x n n1 d e -> changed_to x n1 n2 e f -> changed_to x n n2 d f.
Proof.
  intros [A1 [A2 [A3 [A4 [A5 [A6 A7]]]]]] [B1 [B2 [B3 [B4 [B5 [B6 B7]]]]]]. repeat split; auto.
  - intros y N. rewrite B2, A2; auto.
  - congruence.
  - eapply incl_tran; eauto.
  - eapply incl_tran; eauto.
Qed.
Lemma changed_flag_after x n n' d e f : changed_to x n n' d e -> flags_only e f -> changed_to x n n' d f.
Proof.
  intros [A1 [A2 [A3 [A4 [A5 [A6 A7]]]]]] F. pose proof F as [F1 [F2 [_ [F4 [F5 _]]]]]. repeat split; auto.
  - rewrite F1. exact A1.
  - intros y N. rewrite (flags_lookup _ _ _ F). auto.
  - congruence.
  - eapply incl_tran; eauto.
  - eapply incl_tran; eauto.
  - rewrite (flags_lookup _ _ _ F). exact A7.
Qed.
Lemma changed_to_at x n n' d d' : changed_to x n n' d d' -> dir n' = dir n -> nname n' = nname n -> src n' = src n -> is_file (kind n') = true -> (kind n' = TGenerated -> kind n = TGenerated) -> changed_at x d d'.
Proof.
  intros [A1 [A2 [A3 [A4 [A5 [A6 A7]]]]]] D N S F G. repeat split; auto. exists n, n'. repeat split; auto.
  - intros _. destruct (kind n'); auto; discriminate.
  - intros E. rewrite E in F. discriminate.
  - intros E. rewrite E in F. discriminate.
Qed.

(** tup_del_id_type at a path *)
Lemma del_path R x n force d q : base d -> home d -> at_path d R x n -> x <> top ->
  exists d1 q1, del_node x force (d, q) = Ok (d1, q1) /\ base d1 /\ home d1 /\ deleted (below d x) (fun y => y = x /\ force = true) d d1 /\ purged d1 x /\
    (force = true \/ kind n <> TGenerated /\ kind n <> TGeneratedDir -> unreal d1 x) /\ effects (under R) (fun _ => False) (fun _ => False) d d1.
Proof.
  intros W H L T. unfold del_node. cbn [fst].
  destruct (del_id_spec (fresh d) (fresh d) x force d q n W (home_tame d x W H) (lookup_lt d) ltac:(lia) (at_lookup _ _ _ _ W L) T) as [d1 [q1 [Eq [De [Ho [Pu Un]]]]]].
  exists d1, q1. pose proof (de_shrunk _ _ _ _ De) as S. split; [exact Eq|]. split; [eapply shrunk_base; eauto|]. split; [eapply home_homed; eauto|]. split; [exact De|]. split; [exact Pu|]. split; [exact Un|].
  eapply effects_deleted; eauto.
Qed.

(** tup_file_mod_mtime for files and ghosts *)
Lemma mod_spec P dt p nm x n m d : base d -> home d -> at_path d P dt p -> is_dir (kind p) = true -> at_path d (nm :: P) x n -> is_file (kind n) = true \/ kind n = TGhost ->
  exists d' n', file_mod x m false false d = Some d' /\ base d' /\ home d' /\ normal d' = normal d /\ effects (under (nm :: P)) (fun _ => False) (fun _ => False) d d' /\
    at_path d' (nm :: P) x n' /\ is_file (kind n') = true /\ time n' = m /\ (time n <> m -> In x (modify d')) /\
    (kind n = TGenerated -> time n <> m -> forall c, In (c, x) (normal d) -> In c (modify d')) /\ (kind n = TGhost -> kind p = TDir -> In dt (create d')).
Proof.
  intros W H L I Lx Kn. pose proof (at_lookup _ _ _ _ W Lx) as Ln. pose proof Lx as Lx0. apply at_cons in Lx0 as [a [p0 [L0 [_ [D0 [N0 T]]]]]]; auto.
  destruct (at_fun d P W _ _ _ _ L L0) as [<- <-]. clear L0.
  unfold file_mod. rewrite Ln. rewrite andb_false_l, orb_false_r.
  set (d1 := if ntype_eqb (kind n) TGhost then ghost_to_file x n d else d).
  set (d2 := if ntype_eqb (kind n) TGenerated then modify_cmds_by_output x d1 else d1).
  set (c := negb (Z.eqb (time n) m)).
  set (d3 := if c then update_node x (set_time m) (set_dependent_flags x (add_modify [x] d2)) else d1).
  set (d4 := if c && bytes_eqb (nname n) (B "tup.config") then add_config [x] d3 else d3).
  set (n1 := if ntype_eqb (kind n) TGhost then set_kind TFile n else n).
  set (n3 := if c then set_time m n1 else n1).
  assert (changed_to x n n1 d d1) as C1.
  { unfold d1, n1. destruct (ntype_eqb (kind n) TGhost); [|apply changed_flags; auto using flags_refl]. unfold ghost_to_file.
    eapply changed_flag_after; [apply changed_update; [apply W|exact Ln]|]. destruct (has_kind _ _ _); [|apply flags_modify]. eapply flags_trans; [apply flags_create|apply flags_modify]. }
  assert (flags_only d1 d2) as F2 by (unfold d2; destruct (ntype_eqb (kind n) TGenerated); [apply flags_modify|apply flags_refl]).
  assert (flags_only d1 (set_dependent_flags x (add_modify [x] d2))) as F2' by (eapply flags_trans; [exact F2|]; eapply flags_trans; [apply flags_modify|apply flags_dependent]).
  assert (changed_to x n n3 d d3) as C3.
  { unfold d3, n3. destruct c; [|exact C1]. pose proof (changed_flag_after _ _ _ _ _ _ C1 F2') as C2. eapply changed_then; [exact C2|]. destruct C2 as [X [_ [_ [_ [_ [_ Y]]]]]]. apply changed_update; auto. }
  assert (flags_only d3 d4) as F4 by (unfold d4; destruct (_ && _); [apply flags_config|apply flags_refl]).
  pose proof (changed_flag_after _ _ _ _ _ _ C3 F4) as C4.
  assert (time n3 = m) as Tm.
  { unfold n3, c. destruct (Z.eqb (time n) m) eqn:E; cbn; [|destruct n1; reflexivity]. apply Z.eqb_eq in E. unfold n1. destruct (ntype_eqb _ _); exact E. }
  assert (is_file (kind n3) = true) as If.
  { unfold n3, n1. destruct (ntype_eqb (kind n) TGhost) eqn:E; [destruct c; reflexivity|]. apply ntype_eqb_neq in E. destruct Kn as [Kn|Kn]; [|congruence]. destruct c; exact Kn. }
  assert (changed_at x d d4) as C.
  { apply (changed_to_at x n n3); auto; unfold n3, n1; destruct c, (ntype_eqb (kind n) TGhost); cbn; auto; discriminate. }
  pose proof (changed_base x d d4 W C T) as W4. pose proof (effects_changed x n (nm :: P) d d4 W C T Lx) as E4.
  assert (dir n3 = dir n /\ nname n3 = nname n) as [D3 N3] by (unfold n3, n1; destruct c, (ntype_eqb (kind n) TGhost); cbn; auto).
  destruct C4 as [_ [_ [NL [M4 [Cr4 [_ L4]]]]]].
  exists d4, n3. split; [destruct Kn as [Kn|Kn]; [destruct (kind n) eqn:E; try discriminate|rewrite Kn]; unfold d4, d3, c, d2, d1; try rewrite E; try rewrite Kn; reflexivity|].
  split; [exact W4|]. split.
  { apply (home_changed x n n3 d d4 H C Ln L4 T).
    - intros _. exists p. split; [|exact I]. rewrite D0. eapply at_lookup; eauto.
    - intros X. destruct Kn as [Kn|Kn]; [destruct (kind n); discriminate|rewrite Kn in X; discriminate]. }
  split; [exact NL|]. split; [exact E4|]. split.
  { destruct (ef_fwd _ _ _ _ _ E4 P dt p) as [p' [L' _]]; [intros [u E]; apply (f_equal (@length _)) in E; rewrite app_length in E; cbn in E; lia|exact L|]. eapply at_in; [exact L'|exact L4|congruence|congruence]. }
  split; [exact If|]. split; [exact Tm|]. destruct F4 as [_ [_ [_ [F41 [F42 _]]]]].
  split; [|split].
  - intros Ne. apply F41. unfold d3, c. destruct (Z.eqb (time n) m) eqn:E; [apply Z.eqb_eq in E; contradiction|]. cbn [negb]. change (In x (modify (set_dependent_flags x (add_modify [x] d2)))).
    apply (flags_dependent x (add_modify [x] d2)). left. reflexivity.
  - intros Kg Ne c0 Hc. apply F41. unfold d3, c. destruct (Z.eqb (time n) m) eqn:E; [apply Z.eqb_eq in E; contradiction|]. cbn [negb]. change (In c0 (modify (set_dependent_flags x (add_modify [x] d2)))).
    apply (flags_dependent x (add_modify [x] d2)). right. unfold d2, d1. rewrite Kg. cbn. apply in_app_iff. left. apply froms_in. exact Hc.
  - intros Kg Kp. apply F42. assert (In dt (create d1)) as X.
    { unfold d1. rewrite Kg. cbn. unfold ghost_to_file. assert (has_kind (update_node x (set_kind TFile) d) [TDir] (dir n) = true) as Hk.
      { apply has_kind_spec. exists p. split; [|rewrite Kp; cbn; auto]. rewrite lookup_update, D0. destruct (dt =? x) eqn:E.
        - apply Nat.eqb_eq in E. subst dt. destruct (b_parent _ W x n Ln T). lia.
        - eapply at_lookup; eauto. }
      rewrite Hk. left. exact D0. }
    unfold d3. destruct c; [|exact X]. change (In dt (create (set_dependent_flags x (add_modify [x] d2)))). apply F2'. exact X.
Qed.

Lemma visible_nil : visible [].
Proof. intros nm []. Qed.
Lemma file_disk m u : on_disk (FFile m) u = match u with [] => Some (FFile m) | _ => None end.
Proof.
  destruct u as [|a u]; [reflexivity|]. revert a. induction u as [|b u IH]; intros a; [reflexivity|]. cbn [on_disk]. cbn [on_disk] in IH. rewrite IH. reflexivity.
Qed.
Lemma other_disk u : on_disk FOther u = match u with [] => Some FOther | _ => None end.
Proof.
  destruct u as [|a u]; [reflexivity|]. revert a. induction u as [|b u IH]; intros a; [reflexivity|]. cbn [on_disk]. cbn [on_disk] in IH. rewrite IH. reflexivity.
Qed.
Lemma agree_leaf d' P x n D : base d' -> home d' -> at_path d' P x n -> is_dir (kind n) = false -> (forall u, u <> [] -> D u = None) ->
  (forall m, D [] = Some (FFile m) -> is_file (kind n) = true /\ time n = m) -> (forall l, D [] <> Some (FDir l)) -> (D [] = None -> kind n <> TFile /\ kind n <> TDir) -> agree_in D P d'.
Proof.
  intros W H L I Dn F NF N0. split.
  - intros [|a u] m V Hd; [|rewrite Dn in Hd; discriminate]. exists x, n. split; [exact L|auto].
  - intros [|a u] l V Hd; [|rewrite Dn in Hd; discriminate]. exfalso. exact (NF l Hd).
  - intros [|a u] y k V _ Hd G; [destruct (at_fun d' P W _ _ _ _ G L) as [-> ->]; auto|].
    pose proof (leaf_path d' P x n (a :: u) y k W H L I G ltac:(discriminate)) as R. destruct (kind k); try discriminate; split; discriminate.
Qed.
Lemma keep_file m P r : ~ keep (FFile m) P r.
Proof. intros [u [l [_ [E _]]]]. rewrite file_disk in E. destruct u; discriminate. Qed.
Lemma not_under_self nm (P : path) : ~ under (nm :: P) P.
Proof. intros [u E]. apply (f_equal (@length _)) in E. rewrite app_length in E. cbn in E. lia. Qed.

(** The result of a removal, for what was below. *)
Lemma deleted_noticed D R x n E (A : path -> Prop) (K : path -> Prop) d d1 : base d -> at_path d R x n -> deleted (below d x) E d d1 -> (forall y k, E y -> lookup d y = Some k -> kind k <> TGenerated) -> (forall u m, D u <> Some (FFile m)) -> (forall r, ~ K r) ->
  noticed (under R) K D R d d1.
Proof.
  intros W L De HE HD HK.
  assert (forall u y k, at_path d (u ++ R) y k -> below d x y) as Bl by (intros u y k G; apply (below_under d R x n W L (u ++ R) y k G); exists u; reflexivity).
  split.
  - intros u y k c V _ G Kk Nm _ Hl Kc. left. eapply (de_file _ _ _ _ De y k c); eauto using at_lookup.
  - intros u y k V _ G Kk N1 N2 _ _. destruct (de_generated _ _ _ _ De y k (Bl u y k G) (at_lookup _ _ _ _ W G) Kk N1 N2) as [X|[X [_ Y]]]; [left; exact X|]. right. split; [exact X|].
    intros s rs ns Sn Ls Ks C. destruct C as [C|C]; [|destruct (HK rs C)]. apply Y; auto.
    + intros Ey. exact (HE y k Ey (at_lookup _ _ _ _ W G) Kk).
    + exists ns. split; [eapply at_lookup; eauto|exact Ks].
    + intros B'. apply C. apply (below_under d R x n W L rs s ns Ls). exact B'.
  - intros u m V Hd. exfalso. exact (HD u m Hd).
Qed.

Lemma scan_file P dt p nm m d q : base d -> home d -> at_path d P dt p -> is_dir (kind p) = true -> (forall x n, at_path d (nm :: P) x n -> real (kind n) = true \/ kind n = TGhost) ->
  exists d' q', file_mtime dt nm m (d, q) = Ok (d', q') /\ base d' /\ home d' /\ scanned (FFile m) (nm :: P) d d'.
Proof.
  intros W H L I Cl. unfold file_mtime. set (R := nm :: P).
  assert (forall u, u <> [] -> on_disk (FFile m) u = None) as Dn by (intros u N; rewrite file_disk; destruct u; [contradiction|reflexivity]).
  assert (forall d' x n', base d' -> home d' -> at_path d' R x n' -> is_file (kind n') = true -> time n' = m -> agree_in (on_disk (FFile m)) R d') as Ag.
  { intros d' x n' W' H' L' F T. apply (agree_leaf d' R x n'); auto; try discriminate.
    - destruct (kind n'); try discriminate; reflexivity.
    - intros m0 E. cbn in E. injection E as <-. auto. }
  destruct (child d dt nm) as [x|] eqn:C.
  2: { destruct (create_spec P dt p nm m d q W H L I C) as [y [d1 [q1 [Eq [W1 [H1 [E1 [[n1 [L1 [K1 T1]]] [Cr [p1 [Lp1 Kp1]]]]]]]]]]]. rewrite Eq. cbn [obind].
       set (d2 := config_flag true nm y d1). assert (flags_only d1 d2) as F by (unfold d2, config_flag; destruct (_ && _); [apply flags_config|apply flags_refl]).
       exists d2, q1. split; [reflexivity|]. pose proof (flags_base _ _ F W1) as W2. pose proof (home_flags _ _ F H1) as H2. pose proof (effects_flags (fun _ => False) (fun _ => True) _ _ W1 F) as E2.
       assert (at_path d2 R y n1) as L2 by (eapply same_path; [exact E2|tauto|tauto|exact L1]).
       split; [exact W2|]. split; [exact H2|]. split; [|split].
       - apply (effects_trans (under R) (fun _ => False) (under R) (anc P) (fun _ => False) (anc P) (fun r => ~ under R r) (fun _ => True) (keep (FFile m) R) d d1 d2); try tauto. intros r Hr. destruct (keep_file m R r Hr).
       - apply (Ag d2 y n1); auto. rewrite K1. reflexivity.
       - split.
         + intros u z k c V _ G. exfalso. exact (no_child d P dt p nm W L C u z k G).
         + intros u z k V _ G. exfalso. exact (no_child d P dt p nm W L C u z k G).
         + intros u m0 V Hd _. rewrite file_disk in Hd. destruct u; [|discriminate]. cbn [app tl R].
           assert (is_dir (kind p1) = true) as Ip1 by (rewrite Kp1; reflexivity). destruct (stays _ _ _ _ _ E2 P dt p1 (or_introl (fun x => x)) Lp1 Ip1) as [p2 [Lp2 [Ip2 _]]].
           exists dt, p2. split; [exact Lp2|]. split; [destruct Ip2; congruence|]. apply F. exact Cr. }
  destruct (lookup d x) as [n|] eqn:Ln; [|apply child_spec in C as [k [Lk _]]; [congruence|exact W]].
  assert (at_path d R x n) as Lx by (apply (at_child d P dt p nm W L); auto).
  assert (is_file (kind n) = true \/ kind n = TGhost ->
    exists d' q', of_option (option_map (fun d => (d, if ntype_eqb (kind n) TGhost then remove_id x q else q)) (file_mod x m false false d)) = Ok (d', q') /\ base d' /\ home d' /\ scanned (FFile m) R d d') as Mod.
  { intros Kn. destruct (mod_spec P dt p nm x n m d W H L I Lx Kn) as [d1 [n1 [Eq [W1 [H1 [NL [E1 [L1 [F1 [T1 [M1 [M2 C1]]]]]]]]]]]].
    rewrite Eq. cbn [option_map of_option]. eexists d1, _. split; [reflexivity|]. split; [exact W1|]. split; [exact H1|].
    assert (is_dir (kind n) = false) as In0 by (destruct Kn as [Kn|Kn]; [destruct (kind n); try discriminate; reflexivity|rewrite Kn; reflexivity]).
    split; [|split].
    - apply (effects_weak (under R) (under R) (fun _ => False) (anc P) (fun _ => False) (keep (FFile m) R) d d1); [intros r X; exact X|intros r _ []|intros r Hr; destruct (keep_file m R r Hr)|exact E1].
    - apply (Ag d1 x n1); auto.
    - split.
      + intros [|a u] y k c V _ G Kk Nm Hd Hl Kc.
        * destruct (at_fun d R W _ _ _ _ G Lx) as [-> ->]. right. cbn in Hd. split; [apply M1; congruence|]. split; [rewrite NL; exact Hl|]. exists n1. auto.
        * pose proof (leaf_path d R x n (a :: u) y k W H Lx In0 G ltac:(discriminate)) as X. rewrite Kk in X. discriminate.
      + intros [|a u] y k V _ G Kk N1 N2 Hd _.
        * destruct (at_fun d R W _ _ _ _ G Lx) as [-> ->]. cbn in Hd. left. intros c Hc _. apply (M2 Kk); [congruence|exact Hc].
        * pose proof (leaf_path d R x n (a :: u) y k W H Lx In0 G ltac:(discriminate)) as X. rewrite Kk in X. discriminate.
      + intros u m0 V Hd Hn. rewrite file_disk in Hd. destruct u; [|discriminate]. cbn [app tl R] in *.
        destruct (stays _ _ _ _ _ E1 P dt p (or_introl (not_under_self nm P)) L I) as [p1 [Lp1 [Ip1 _]]].
        destruct Hn as [Hn|[[z [p' [Lp Kp]]] Hn]]; [exfalso; exact (Hn x n Lx)|]. destruct (at_fun d P W _ _ _ _ Lp L) as [-> ->].
        exists dt, p1. split; [exact Lp1|]. split; [destruct Ip1; congruence|]. apply C1; [|exact Kp].
        destruct Kn as [Kn|Kn]; [|exact Kn]. rewrite (Hn x n Lx) in Kn. discriminate. }
  destruct (real (kind n)) eqn:Re.
  2: { destruct (Cl x n Lx) as [X|X]; [congruence|]. rewrite X in *. apply Mod. auto. }
  destruct (is_file (kind n)) eqn:Fi; [destruct (kind n); try discriminate; apply Mod; auto|].
  assert (is_dir (kind n) = true) as Di by (unfold real in Re; rewrite Fi in Re; exact Re).
  pose proof Lx as Lx0. apply at_cons in Lx0 as [_ [_ [_ [_ [_ [_ T]]]]]]; auto.
  destruct (del_path R x n true d q W H Lx T) as [d1 [q1 [Eq [W1 [H1 [De [Pu [Un E1]]]]]]]]. specialize (Un (or_introl eq_refl)).
  set (c := negb (Z.eqb (time n) m)).
  destruct (ef_fwd _ _ _ _ _ E1 P dt p (not_under_self nm P) L) as [p1 [Lp1 Cp]]. destruct Cp as [->|[[] _]].
  assert (exists d' q', (match child d1 dt nm with
                | None => obind (create_name_file dt nm m (d1, q1)) (fun '(y, (d, q)) => Ok (config_flag true nm y (if c then changed_file y m d else d), q))
                | Some y => match lookup d1 y with
                    | None => Bad
                    | Some n' => if ntype_eqb (kind n') TGhost then
                          let d := ghost_to_file y n' d1 in Ok (config_flag c nm y (if c then changed_file y m d else d), remove_id y q1)
                        else Bad end end) = Ok (d', q') /\ base d' /\ home d' /\ effects (under R) (anc P) (fun r => ~ under R r) d1 d' /\ agree_in (on_disk (FFile m)) R d' /\ (kind p = TDir -> In dt (create d'))) as [d2 [q2 [Eq2 [W2 [H2 [E2 [A2 C2]]]]]]].
  { destruct (child d1 dt nm) as [y|] eqn:C1.
    - apply child_spec in C1 as C1'; [|exact W1]. destruct C1' as [n1 [Ly [Dy Ny]]]. rewrite Ly.
      assert (at_path d1 R y n1) as Lyp by (apply (at_child d1 P dt p nm W1 Lp1); auto).
      destruct (sh_from _ _ (de_shrunk _ _ _ _ De) y n1 Ly) as [n0 [L0 [D0 [N0 [T0 K0]]]]].
      assert (y = x) as -> by (apply (b_names _ W y n0 x n L0 Ln); apply child_spec in C as [k [Lk [Dk Nk]]]; auto; rewrite Ln in Lk; injection Lk as <-; congruence).
      rewrite Ln in L0. injection L0 as <-.
      assert (kind n1 = TGhost) as Kg by (destruct K0 as [->|[X _]]; [rewrite (Un n Ly) in Re; discriminate|exact X]).
      destruct (mod_spec P dt p nm x n1 m d1 W1 H1 Lp1 I Lyp (or_intror Kg)) as [d2 [n2 [Eq2 [W2 [H2 [NL [E2 [L2 [F2 [T2 [M1 [M2 C3]]]]]]]]]]]].
      rewrite Kg. cbn [ntype_eqb]. eexists d2, _. split.
      { f_equal. f_equal. unfold file_mod in Eq2. rewrite Ly, Kg in Eq2. cbn [ntype_eqb negb andb orb] in Eq2. injection Eq2 as <-. unfold config_flag, changed_file, c. rewrite orb_false_r, Ny, T0.
        destruct (negb (Z.eqb (time n) m)); reflexivity. }
      split; [exact W2|]. split; [exact H2|]. split; [apply (effects_weak (under R) (under R) (fun _ => False) (anc P) (fun _ => False) (fun r => ~ under R r) d1 d2); [intros r X; exact X|intros r _ []|intros r X; left; exact X|exact E2]|]. split; [apply (Ag d2 x n2); auto|]. intros Kp. apply C3; auto.
    - destruct (create_spec P dt p nm m d1 q1 W1 H1 Lp1 I C1) as [y [d2 [q2 [Eq2 [W2 [H2 [E2 [[n2 [L2 [K2 T2]]] [Cr _]]]]]]]]]. rewrite Eq2. cbn [obind].
      pose proof (at_lookup _ _ _ _ W2 L2) as Ly2.
      set (d3 := if c then changed_file y m d2 else d2). set (n3 := if c then set_time m n2 else n2).
      assert (changed_to y n2 n3 d2 d3) as C3.
      { unfold d3, n3. destruct c; [|apply changed_flags; auto using flags_refl]. unfold changed_file. eapply changed_then.
        - apply (changed_flags y n2 d2 (set_dependent_flags y (add_modify [y] d2)) W2 Ly2). eapply flags_trans; [apply flags_modify|apply flags_dependent].
        - apply changed_update; [apply W2|exact Ly2]. }
      set (d4 := config_flag true nm y d3). assert (flags_only d3 d4) as F by (unfold d4, config_flag; destruct (_ && _); [apply flags_config|apply flags_refl]).
      pose proof (changed_flag_after _ _ _ _ _ _ C3 F) as C4.
      assert (kind n3 = TFile /\ dir n3 = dir n2 /\ nname n3 = nname n2 /\ src n3 = src n2 /\ time n3 = m) as [X1 [X2 [X3 [X4 X5]]]] by (unfold n3; destruct c; cbn; auto).
      assert (changed_at y d2 d4) as Ca by (apply (changed_to_at y n2 n3); auto; rewrite X1; [reflexivity|discriminate]).
      pose proof L2 as L20. apply at_cons in L20 as [a [p3 [Lp3 [_ [Da [Na Ty]]]]]]; auto.
      destruct (stays _ _ _ _ _ E2 P dt p (or_introl (not_under_self nm P)) Lp1 I) as [p4 [Lp4 [_ Ip4]]].
      destruct (at_fun d2 P W2 _ _ _ _ Lp3 Lp4) as [Ea Ep]. rewrite Ea in Da.
      pose proof (changed_base y d2 d4 W2 Ca Ty) as W4. pose proof (effects_changed y n2 R d2 d4 W2 Ca Ty L2) as E4.
      assert (lookup d4 y = Some n3) as Ly4 by apply C4.
      assert (home d4) as H4.
      { apply (home_changed y n2 n3 d2 d4 H2 Ca Ly2 Ly4 Ty).
        - intros _. exists p4. rewrite Da. split; [eapply at_lookup; eauto|exact Ip4].
        - rewrite K2. discriminate. }
      destruct (stays _ _ _ _ _ E4 P dt p4 (or_introl (not_under_self nm P)) Lp4 Ip4) as [p5 [Lp5 _]].
      exists d4, q2. split; [reflexivity|]. split; [exact W4|]. split; [exact H4|]. split; [|split].
      + apply (effects_trans (under R) (under R) (under R) (anc P) (fun _ => False) (anc P) (fun r => ~ under R r) (fun _ => False) (fun r => ~ under R r) d1 d2 d4); tauto.
      + apply (Ag d4 y n3 W4 H4); auto.
        * eapply at_in; [exact Lp5|exact Ly4|congruence|congruence].
        * rewrite X1. reflexivity.
      + intros _. destruct C4 as [_ [_ [_ [_ [Cr4 _]]]]]. apply Cr4. exact Cr. }
  assert (scanned (FFile m) R d d2) as Sc.
  { split; [|split]; [|exact A2|].
    - apply (effects_trans (under R) (under R) (under R) (fun _ => False) (anc P) (anc P) (fun _ => False) (fun r => ~ under R r) (keep (FFile m) R) d d1 d2); try tauto. intros r Hr. destruct (keep_file m R r Hr).
    - assert (forall y k, y = x /\ true = true -> lookup d y = Some k -> kind k <> TGenerated) as HE.
      { intros y k [-> _] Lk Kk. rewrite Ln in Lk. injection Lk as <-. rewrite Kk in Di. discriminate. }
      pose proof (deleted_noticed (fun _ => None) R x n _ (fun _ => False) (fun _ => False) d d1 W Lx De HE ltac:(discriminate) ltac:(tauto)) as [N1 N2 N3].
      assert (forall ce, flagged_if_cmd d1 ce -> flagged_if_cmd d2 ce) as Fl.
      { intros ce X Kc. apply (ef_modify _ _ _ _ _ E2); [apply X; apply (ef_cmd _ _ _ _ _ E2); exact Kc|auto]. }
      split.
      + intros u y k ce V Ins G Kk Nm Hd Hl Kc. left. apply Fl; [|exact Kc]. eapply (de_file _ _ _ _ De y k ce); eauto using at_lookup.
        apply (below_under d R x n W Lx (u ++ R) y k G). exists u. reflexivity.
      + intros u y k V Ins G Kk X1 X2 Hd Hf. destruct (N2 u y k V Ins G Kk X1 X2 ltac:(discriminate) ltac:(discriminate)) as [X|[X Y]].
        * left. intros ce Hc. apply Fl. apply X. exact Hc.
        * right. split; [intros ce Hc; apply Fl; apply X; exact Hc|]. intros s rs ns Sn Ls Ks Cs.
          assert (~ under R rs) as Cs' by (destruct Cs as [Cs|Cs]; [exact Cs|destruct (keep_file m R rs Cs)]).
          destruct (stays _ _ _ _ _ E1 rs s ns (or_introl Cs') Ls) as [ns' [Ls' _]]; [rewrite Ks; reflexivity|].
          apply (ef_create _ _ _ _ _ E2 s rs ns' (Y s rs ns Sn Ls Ks (or_introl Cs')) Ls'). auto.
      + intros u m0 V Hd Hn. rewrite file_disk in Hd. destruct u; [|discriminate]. cbn [app tl R] in *.
        destruct (stays _ _ _ _ _ E2 P dt p (or_introl (not_under_self nm P)) Lp1 I) as [p2 [Lp2 [Ip2 _]]].
        destruct Hn as [Hn|[[z [p' [Lp Kp]]] Hn]]; [exfalso; exact (Hn x n Lx)|]. destruct (at_fun d P W _ _ _ _ Lp L) as [-> ->].
        exists dt, p2. split; [exact Lp2|]. split; [destruct Ip2; congruence|]. apply C2. exact Kp. }
  assert (exists d' q', obind (del_node x true (d, q)) (fun s => let '(d, q) := s in
                match child d dt nm with
                | None => obind (create_name_file dt nm m s) (fun '(y, (d, q)) => Ok (config_flag true nm y (if c then changed_file y m d else d), q))
                | Some y => match lookup d y with
                    | None => Bad
                    | Some n' => if ntype_eqb (kind n') TGhost then
                          let d := ghost_to_file y n' d in Ok (config_flag c nm y (if c then changed_file y m d else d), remove_id y q)
                        else Bad end end) = Ok (d', q') /\ base d' /\ home d' /\ scanned (FFile m) R d d') as Fin.
  { exists d2, q2. rewrite Eq. cbn [obind]. auto. }
  destruct (kind n); try discriminate; exact Fin.
Qed.
