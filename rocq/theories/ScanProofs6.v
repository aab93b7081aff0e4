(** Directories of the disk, and the whole tree. *)
From Verif Require Import Base ConfigModel ParseModel PathModel DbModel DbSpec DbProofs DbProofs3 ScanModel ScanSpec ScanProofs ScanProofs2 ScanProofs3 ScanProofs4 ScanProofs5.
Require Import Lia Permutation.

Lemma path_dec (r s : path) : r = s \/ r <> s.
Proof.
  revert s. induction r as [|a r IH]; intros [|b s]; [auto|right; discriminate|right; discriminate|]. destruct (IH s) as [->|N]; [|right; congruence].
  destruct (bytes_eqb a b) eqn:E; [apply bytes_eqb_eq in E; subst; auto|right]. intros X. injection X as ->. rewrite bytes_eqb_refl in E. discriminate.
Qed.
Lemma under_dec P r : under P r \/ ~ under P r.
Proof.
  induction r as [|a r IH].
  - destruct P as [|b P]; [left; exists []; reflexivity|right]. intros [[|c u] E]; discriminate.
  - destruct IH as [H|H]; [left; apply under_cons; exact H|]. destruct (path_dec (a :: r) P) as [<-|N]; [left; apply under_refl|right]. intros [[|c u] E]; [auto|]. injection E as -> ->. apply H. exists u. reflexivity.
Qed.
Lemma effects_nodirs R A K d d' : effects (under R) A K d d' -> (forall r y n, under R r -> at_path d r y n -> is_dir (kind n) = false) -> effects (under R) A (fun _ => True) d d'.
Proof.
  intros E N. split.
  - exact (ef_fwd _ _ _ _ _ E).
  - exact (ef_bwd _ _ _ _ _ E).
  - intros r y n _ L I. destruct (under_dec R r) as [U|U]; [rewrite (N r y n U L) in I; discriminate|]. destruct (stays _ _ _ _ _ E r y n (or_introl U) L I) as [n' [L' [C _]]]. eauto.
  - exact (ef_cmd _ _ _ _ _ E).
  - exact (ef_gdir _ _ _ _ _ E).
  - exact (ef_links _ _ _ _ _ E).
  - exact (ef_modify _ _ _ _ _ E).
  - intros c r n H L C. apply (ef_create _ _ _ _ _ E c r n H L). destruct C as [C|[_ I]]; [auto|]. destruct (under_dec R r) as [U|U]; [rewrite (N r c n U L) in I; discriminate|auto].
Qed.

(** create_dir when there is nothing real *)
Lemma dir_made P dt p nm fuel d q : base d -> home d -> at_path d P dt p -> is_dir (kind p) = true -> nm <> B "tup.config" -> (forall x n, at_path d (nm :: P) x n -> kind n = TGhost) ->
  exists x d' q', create_dir (S fuel) dt nm (d, q) = Ok (x, (d', q')) /\ base d' /\ home d' /\ effects (under (nm :: P)) (fun _ => False) (fun _ => False) d d' /\
    (exists n', at_path d' (nm :: P) x n' /\ is_dir (kind n') = true) /\ (forall u y n', u <> [] -> at_path d' (u ++ nm :: P) y n' -> at_path d (u ++ nm :: P) y n').
Proof.
  intros W H L I NT G. set (R := nm :: P). cbn [create_dir]. destruct (child d dt nm) as [x|] eqn:C.
  - destruct (lookup d x) as [n|] eqn:Ln; [|apply child_spec in C as [k [Lk _]]; [congruence|exact W]].
    assert (at_path d R x n) as Lx by (apply (at_child d P dt p nm W L); auto). rewrite (G x n Lx).
    pose proof Lx as Lx0. apply at_cons in Lx0 as [a [p0 [L0 [_ [D0 [N0 T]]]]]]; auto. destruct (at_fun d P W _ _ _ _ L L0) as [<- <-]. clear L0.
    set (f := fun n : node => set_src None (set_kind TDir n)). set (d1 := add_modify [x] d). set (d' := update_node x f d1).
    assert (changed_to x n (f n) d d') as Ct.
    { eapply changed_then; [apply (changed_flags x n d d1 W Ln (flags_modify _ _))|]. apply changed_update; [apply W|exact Ln]. }
    assert (changed_at x d d') as Ca.
    { destruct Ct as [A1 [A2 [A3 [A4 [A5 [A6 A7]]]]]]. repeat split; auto. exists n, (f n). split; [exact A6|]. split; [exact A7|]. cbn. split; [reflexivity|]. split; [reflexivity|]. split; [right; split; [reflexivity|discriminate]|].
      split; [discriminate|]. split; [intros X; exfalso; apply NT; rewrite <- N0; exact X|split; discriminate]. }
    assert (lookup d' x = Some (f n)) as Lx' by apply Ct.
    pose proof (changed_base x d d' W Ca T) as W'. pose proof (effects_changed x n R d d' W Ca T Lx) as E.
    exists x, d', q. split; [reflexivity|]. split; [exact W'|]. split; [|split; [exact E|split]].
    + apply (home_changed x n (f n) d d' H Ca Ln Lx' T); [|reflexivity]. intros _. exists p. rewrite D0. split; [eapply at_lookup; eauto|exact I].
    + exists (f n). split; [|reflexivity]. destruct (stays _ _ _ _ _ E P dt p (or_introl (not_under_self nm P)) L I) as [p' [Lp' _]]. eapply at_in; [exact Lp'|exact Lx'|exact D0|exact N0].
    + intros u y n' Nu Hy. destruct (back_changed x d d' W W' Ca _ _ _ Hy) as [n0 [L0 E0]]. rewrite E0; [exact L0|]. intros ->.
      pose proof (at_inj d _ W _ _ _ _ L0 Lx) as X. apply (f_equal (@length _)) in X. rewrite app_length in X. destruct u; [congruence|]. cbn in X. lia.
  - set (n := {| dir := dt; kind := TDir; src := None; nname := nm; time := no_time |}). set (d1 := insert_node n d). pose proof (at_lookup _ _ _ _ W L) as Ldt.
    assert (lookup d (fresh d) = None) as Lf by (apply lookup_fresh; lia).
    assert (added_at dt TDir nm d d1) as Ad.
    { split; [apply ids_insert; apply W|]. split; [intros y N; unfold d1; rewrite lookup_insert; destruct (y =? fresh d) eqn:E; [apply Nat.eqb_eq in E; contradiction|reflexivity]|].
      split; [reflexivity|]. split; [apply incl_refl|]. split; [apply incl_refl|]. exists n. split; [unfold d1; rewrite lookup_insert, Nat.eqb_refl; reflexivity|auto]. }
    assert (base d1) as W1 by (apply (added_base dt TDir nm d d1 p W Ad Ldt C); [discriminate|intros X; congruence]).
    assert (TDir <> TCmd /\ TDir <> TGeneratedDir) as KK by (split; discriminate). pose proof (effects_added dt TDir nm d d1 p P W W1 Ad L KK) as E1.
    destruct (ef_fwd _ _ _ _ _ E1 P dt p (not_under_self nm P) L) as [p1 [L1 C1]]. destruct C1 as [->|[[] _]].
    assert (home d1) as H1.
    { intros y k Ly Ry Ty. unfold d1 in Ly. rewrite lookup_insert in Ly. destruct (y =? fresh d) eqn:E.
      - injection Ly as <-. exists p. split; [|exact I]. apply at_lookup in L1; auto.
      - destruct (H y k Ly Ry Ty) as [z [Lz Iz]]. exists z. split; [|exact Iz]. unfold d1. rewrite lookup_insert. destruct (dir k =? fresh d) eqn:E2; [apply Nat.eqb_eq in E2; congruence|exact Lz]. }
    set (d2 := if virtual dt nm then d1 else add_create [fresh d] d1).
    assert (flags_only d1 d2) as F by (unfold d2; destruct (virtual dt nm); [apply flags_refl|apply flags_create]).
    pose proof (flags_base _ _ F W1) as W2. pose proof (home_flags _ _ F H1) as H2. pose proof (effects_flags (fun _ => False) (fun _ => True) _ _ W1 F) as E2.
    assert (at_path d1 R (fresh d) n) as Ln by (eapply at_in; [exact L1|unfold d1; rewrite lookup_insert, Nat.eqb_refl; reflexivity|reflexivity|reflexivity]).
    exists (fresh d), d2, q. split; [reflexivity|]. split; [exact W2|]. split; [exact H2|]. split; [|split].
    + apply (effects_trans (under R) (fun _ => False) (under R) (fun _ => False) (fun _ => False) (fun _ => False) (fun r => ~ under R r) (fun _ => True) (fun _ => False) d d1 d2); tauto.
    + exists n. split; [|reflexivity]. eapply same_path; [exact E2|tauto|tauto|exact Ln].
    + intros u y n' Nu Hy. assert (at_path d1 (u ++ R) y n') as Hy1 by (eapply same_path_back; [exact W2|exact E2|tauto|tauto|exact Hy]).
      apply (back_added dt TDir nm d d1 W W1 Ad _ _ _ Hy1). intros ->. pose proof (at_inj d1 _ W1 _ _ _ _ Hy1 Ln) as X. apply (f_equal (@length _)) in X. rewrite app_length in X. destruct u; [congruence|]. cbn in X. lia.
Qed.

Definition dir_fresh (R : path) (d d' : db) : Prop :=
  (forall u y n, at_path d (u ++ R) y n -> is_dir (kind n) = false /\ (u <> [] -> real (kind n) = false)) /\
  (forall y n c, at_path d R y n -> kind n = TFile -> nname n <> B "tup.config" -> In (y, c) (normal d) -> flagged_if_cmd d' c) /\
  (forall u y n', u <> [] -> at_path d' (u ++ R) y n' -> exists n, at_path d (u ++ R) y n /\ (n' = n \/ kind n' = TGhost)).

Lemma create_dir_spec P dt p nm fuel d q : base d -> home d -> at_path d P dt p -> is_dir (kind p) = true -> nm <> B "tup.config" -> (forall x n, at_path d (nm :: P) x n -> real (kind n) = true \/ kind n = TGhost) ->
  exists x d' q', create_dir (S (S fuel)) dt nm (d, q) = Ok (x, (d', q')) /\ base d' /\ home d' /\ effects (under (nm :: P)) (fun _ => False) (fun _ => True) d d' /\
    (exists n', at_path d' (nm :: P) x n' /\ is_dir (kind n') = true) /\ (d' = d \/ dir_fresh (nm :: P) d d').
Proof.
  intros W H L I NT Cl. set (R := nm :: P).
  destruct (child d dt nm) as [x|] eqn:C.
  2: { assert (forall u y n, ~ at_path d (u ++ R) y n) as NC by apply (no_child d P dt p nm W L C).
       destruct (dir_made P dt p nm (S fuel) d q W H L I NT) as [x [d' [q' [Eq [W' [H' [E [N Bk]]]]]]]]; [intros x n Hx; destruct (NC [] x n Hx)|].
       exists x, d', q'. split; [exact Eq|]. split; [exact W'|]. split; [exact H'|]. split; [|split; [exact N|right; split; [|split]]].
       - eapply effects_nodirs; [exact E|]. intros r y n [u ->] Hy. destruct (NC u y n Hy).
       - intros u y n Hy. destruct (NC u y n Hy).
       - intros y n c Hy. destruct (NC [] y n Hy).
       - intros u y n' Nu Hy. apply (Bk u y n' Nu) in Hy. eauto. }
  destruct (lookup d x) as [n|] eqn:Ln; [|apply child_spec in C as [k [Lk _]]; [congruence|exact W]].
  assert (at_path d R x n) as Lx by (apply (at_child d P dt p nm W L); auto).
  destruct (is_dir (kind n)) eqn:Di.
  { exists x, d, q. split; [cbn [create_dir]; rewrite C, Ln; destruct (kind n); try discriminate; reflexivity|]. split; [exact W|]. split; [exact H|]. split; [|split; [eauto|auto]].
    apply (effects_weak (fun _ => False) (under R) (fun _ => False) (fun _ => False) (fun _ => True) (fun _ => True) d d); [intros r []|tauto|tauto|]. apply (effects_flags (fun _ => False) (fun _ => True) d d W (flags_refl d)). }
  assert (forall u y k, at_path d (u ++ R) y k -> is_dir (kind k) = false /\ (u <> [] -> real (kind k) = false)) as ND.
  { intros [|a u] y k Hy.
    - destruct (at_fun d R W _ _ _ _ Hy Lx) as [-> ->]. split; [exact Di|congruence].
    - pose proof (leaf_path d R x n (a :: u) y k W H Lx Di Hy ltac:(discriminate)) as X. split; [|auto]. unfold real in X. destruct (is_dir (kind k)); [|reflexivity]. rewrite orb_true_r in X. discriminate. }
  destruct (is_file (kind n)) eqn:Fi.
  - pose proof Lx as Lx0. apply at_cons in Lx0 as [_ [_ [_ [_ [_ [_ T]]]]]]; auto.
    destruct (del_path R x n true d q W H Lx T) as [d1 [q1 [Eq [W1 [H1 [De [Pu [Un E1]]]]]]]]. specialize (Un (or_introl eq_refl)).
    destruct (ef_fwd _ _ _ _ _ E1 P dt p (not_under_self nm P) L) as [p1 [Lp1 Cp]]. destruct Cp as [->|[[] _]].
    assert (forall y k, at_path d1 R y k -> kind k = TGhost) as Gh.
    { intros y k Hy. destruct (back_shrunk d d1 W (de_shrunk _ _ _ _ De) _ _ _ Hy) as [k0 [L0 [->|X]]]; [|exact X]. destruct (at_fun d R W _ _ _ _ L0 Lx) as [-> ->].
      pose proof (Un n (at_lookup _ _ _ _ W1 Hy)) as X. unfold real in X. rewrite Fi in X. discriminate. }
    destruct (dir_made P dt p nm fuel d1 q1 W1 H1 Lp1 I NT Gh) as [y [d2 [q2 [Eq2 [W2 [H2 [E2 [N2 Bk]]]]]]]].
    exists y, d2, q2. split; [cbn [create_dir] in *; rewrite C, Ln; destruct (kind n); try discriminate; rewrite Eq; exact Eq2|]. split; [exact W2|]. split; [exact H2|].
    assert (effects (under R) (fun _ => False) (fun _ => False) d d2) as E.
    { apply (effects_trans (under R) (under R) (under R) (fun _ => False) (fun _ => False) (fun _ => False) (fun _ => False) (fun _ => False) (fun _ => False) d d1 d2); tauto. }
    split; [|split; [exact N2|right; split; [exact ND|split]]].
    + eapply effects_nodirs; [exact E|]. intros r z k [u ->] Hz. apply (ND u z k Hz).
    + intros z k c Hz Kz Nz Hl Kc. apply (ef_modify _ _ _ _ _ E2); [|auto]. pose proof (ef_cmd _ _ _ _ _ E2 c Kc) as Kc1. eapply (de_file _ _ _ _ De z k c); eauto using at_lookup.
      apply (below_under d R x n W Lx R z k Hz). apply under_refl.
    + intros u z n' Nu Hz. apply (Bk u z n' Nu) in Hz. apply (back_shrunk d d1 W (de_shrunk _ _ _ _ De) _ _ _ Hz).
  - assert (kind n = TGhost) as Gn by (destruct (Cl x n Lx) as [X|X]; [unfold real in X; rewrite Fi, Di in X; discriminate|exact X]).
    destruct (dir_made P dt p nm (S fuel) d q W H L I NT) as [y [d' [q' [Eq [W' [H' [E [N Bk]]]]]]]].
    { intros y k Hy. destruct (at_fun d R W _ _ _ _ Hy Lx) as [_ ->]. exact Gn. }
    exists y, d', q'. split; [exact Eq|]. split; [exact W'|]. split; [exact H'|]. split; [|split; [exact N|right; split; [exact ND|split]]].
    + eapply effects_nodirs; [exact E|]. intros r z k [u ->] Hz. apply (ND u z k Hz).
    + intros z k c Hz Kz. destruct (at_fun d R W _ _ _ _ Hz Lx) as [_ ->]. congruence.
    + intros u z n' Nu Hz. apply (Bk u z n' Nu) in Hz. eauto.
Qed.

(** Names. *)
Lemma ignored_skipped nm : ignored nm = false <-> ~ skipped nm.
Proof.
  unfold ignored, skipped, pel_ignored. split.
  - intros H S. cbn [In] in S. repeat (destruct S as [<-|S]; [vm_compute in H; discriminate|]). exact S.
  - intros H. destruct nm as [|c nm]; [reflexivity|]. destruct (c =?c "."%char); [|reflexivity]. cbn [andb].
    repeat match goal with |- context [bytes_eqb (c :: nm) ?k] => let E := fresh in destruct (bytes_eqb (c :: nm) k) eqn:E; [exfalso; apply H; apply bytes_eqb_eq in E; rewrite E; cbn; auto 10|] end. reflexivity.
Qed.
Lemma visible_snoc v a : visible (v ++ [a]) <-> visible v /\ ignored a = false.
Proof.
  rewrite ignored_skipped. unfold visible. split.
  - intros H. split; [intros nm I; apply H; apply in_app_iff; auto|apply H; apply in_app_iff; cbn; auto].
  - intros [H1 H2] nm I. apply in_app_iff in I as [I|[<-|[]]]; auto.
Qed.
Lemma disk_app t u v : on_disk t (u ++ v) = match on_disk t v with Some t' => on_disk t' u | None => None end.
Proof.
  induction u as [|a u IH]; cbn [app on_disk]; [destruct (on_disk t v); reflexivity|]. rewrite IH. destruct (on_disk t v); reflexivity.
Qed.
Lemma disk_snoc l v a : on_disk (FDir l) (v ++ [a]) = match named a l with Some t' => on_disk t' v | None => None end.
Proof. rewrite disk_app. reflexivity. Qed.
Lemma named_in a l t : named a l = Some t -> In (a, t) l.
Proof. induction l as [|[k s] l IH]; [discriminate|]. cbn. destruct (bytes_eqb k a) eqn:E; [apply bytes_eqb_eq in E; intros H; injection H as ->; subst; auto|auto]. Qed.
Lemma in_named a l t : NoDup (map fst l) -> In (a, t) l -> named a l = Some t.
Proof.
  induction l as [|[k s] l IH]; intros N I; [destruct I|]. inversion N as [|? ? N1 N2]; subst. cbn. destruct I as [E|I].
  - injection E as -> ->. rewrite bytes_eqb_refl. reflexivity.
  - destruct (bytes_eqb k a) eqn:E; [|auto]. apply bytes_eqb_eq in E. subst. exfalso. apply N1. apply in_map_iff. exists (a, t). auto.
Qed.
Lemma named_none a l : named a l = None <-> ~ In a (map fst l).
Proof.
  induction l as [|[k s] l IH]; cbn; [tauto|]. destruct (bytes_eqb k a) eqn:E.
  - apply bytes_eqb_eq in E. subst. split; [discriminate|]. intros H. exfalso. auto.
  - rewrite IH. split; [|tauto]. intros H [->|X]; [rewrite bytes_eqb_refl in E; discriminate|auto].
Qed.

Definition ok_tree (nm : bytes) (t : tree) : Prop :=
  (forall u l, on_disk t u = Some (FDir l) -> NoDup (map fst l)) /\ (forall u l, on_disk t (B "tup.config" :: u) <> Some (FDir l)) /\ (nm = B "tup.config" -> forall l, t <> FDir l).
Definition clash_free (d : db) (t : tree) (R : path) : Prop := forall u x n, visible u -> at_path d (u ++ R) x n ->
  match on_disk t u with Some FOther => real (kind n) = false | Some _ => real (kind n) = true \/ kind n = TGhost | None => True end.

Section Entries.
  Variable fuel : nat.
  Variable ord : list nat -> list nat.
  Definition TreeOK (t : tree) : Prop := forall dt nm d q P p, base d -> home d -> at_path d P dt p -> is_dir (kind p) = true -> ok_tree nm t -> clash_free d t (nm :: P) ->
    exists d' q', watch (S (S fuel)) ord t dt nm (d, q) = Ok (d', q') /\ base d' /\ home d' /\ scanned t (nm :: P) d d'.

  Definition subl (l : list (bytes * tree)) (P r : path) : Prop := exists a t, In (a, t) l /\ ignored a = false /\ under (a :: P) r.
  Definition keepl (l : list (bytes * tree)) (P r : path) : Prop := exists a t, In (a, t) l /\ ignored a = false /\ keep t (a :: P) r.

  Lemma keep_under t R r : keep t R r -> under R r.
  Proof. intros [u [l [-> _]]]. exists u. reflexivity. Qed.

  Lemma entries_ok x P : forall l d q root p, (forall a t, In (a, t) l -> ignored a = false -> TreeOK t) -> NoDup (map fst l) -> base d -> home d -> at_path d P x p -> is_dir (kind p) = true ->
    (forall a t, In (a, t) l -> ignored a = false -> ok_tree a t /\ clash_free d t (a :: P)) ->
    exists root' d' q', watch_entries (S (S fuel)) ord x l root (d, q) = Ok (root', (d', q')) /\ base d' /\ home d' /\ effects (subl l P) (anc P) (keepl l P) d d' /\
      (forall a t, In (a, t) l -> ignored a = false -> agree_in (on_disk t) (a :: P) d' /\ noticed (subl l P) (keepl l P) (on_disk t) (a :: P) d d') /\
      (forall y, In y root' <-> In y root /\ forall a n, In a (map fst l) -> ~ at_path d (a :: P) y n).
  Proof.
    induction l as [|[a t] l IH]; intros d q root p TO N W H L I OK.
    - exists root, d, q. split; [reflexivity|]. split; [exact W|]. split; [exact H|]. split; [|split].
      + apply (effects_weak (fun _ => False) (subl [] P) (fun _ => False) (anc P) (fun _ => True) (keepl [] P) d d); [tauto|tauto|tauto|apply effects_flags; auto using flags_refl].
      + intros a t [].
      + intros y. split; [intros X; split; [exact X|intros a n []]|tauto].
    - inversion N as [|? ? N1 N2]; subst. cbn [watch_entries fst].
      set (root1 := match child d x a with Some y => remove_id y root | None => root end).
      assert (forall y, In y root1 <-> In y root /\ forall n, ~ at_path d (a :: P) y n) as HR.
      { intros y. unfold root1. destruct (child d x a) as [z|] eqn:C.
        - unfold remove_id. rewrite filter_In. split.
          + intros [X Y]. split; [exact X|]. intros n G. apply (at_child d P x p a W L) in G as [G _]. rewrite C in G. injection G as ->. rewrite Nat.eqb_refl in Y. discriminate.
          + intros [X Y]. split; [exact X|]. destruct (y =? z) eqn:E; [|reflexivity]. apply Nat.eqb_eq in E. subst z. apply child_spec in C as C'; [|exact W]. destruct C' as [n [Ln _]]. exfalso. apply (Y n). apply (at_child d P x p a W L). auto.
        - split; [|tauto]. intros X. split; [exact X|]. intros n G. exact (no_child d P x p a W L C [] y n G). }
      destruct (ignored a) eqn:Ia.
      + destruct (IH d q root1 p) as [root' [d' [q' [Eq [W' [H' [E [AN R']]]]]]]]; auto; [intros b s X; apply TO; right; exact X|intros b s X; apply OK; right; exact X|].
        exists root', d', q'. split; [exact Eq|]. split; [exact W'|]. split; [exact H'|].
        assert (forall r, subl l P r <-> subl ((a, t) :: l) P r) as SE.
        { intros r. split; intros [b [s [X Y]]]; exists b, s; (split; [|exact Y]); [right; exact X|]. destruct X as [X|X]; [injection X as <- <-; rewrite Ia in Y; destruct Y; discriminate|exact X]. }
        assert (forall r, keepl ((a, t) :: l) P r -> keepl l P r) as KE.
        { intros r [b [s [X Y]]]; exists b, s. split; [|exact Y]. destruct X as [X|X]; [injection X as <- <-; rewrite Ia in Y; destruct Y; discriminate|exact X]. }
        split; [|split].
        * apply (effects_weak (subl l P) _ (anc P) _ (keepl l P) _ d d'); auto. intros r. apply SE.
        * intros b s X Ib. destruct X as [X|X]; [injection X as <- <-; congruence|]. destruct (AN b s X Ib) as [A1 [N3 N4 N5]]. split; [exact A1|]. split; [exact N3| |exact N5].
          intros u y n V Ins Ly Ky Y1 Y2 Y3 Y4. destruct (N4 u y n V Ins Ly Ky Y1 Y2 Y3 Y4) as [Z|[Z1 Z2]]; [auto|right]. split; [exact Z1|]. intros s0 rs ns Sn Ls Ks C. apply (Z2 s0 rs ns Sn Ls Ks). destruct C as [C|C]; [left; rewrite SE; exact C|auto].
        * intros y. rewrite R', HR. cbn [map fst]. split.
          -- intros [[X Y] Z]. split; [exact X|]. intros b n [<-|Hb]; auto.
          -- intros [X Y]. split; [split; [exact X|intros n; apply Y; left; reflexivity]|]. intros b n Hb. apply Y. right. exact Hb.
      + destruct (OK a t (or_introl eq_refl) Ia) as [OT CF]. destruct (TO a t (or_introl eq_refl) Ia x a d q P p W H L I OT CF) as [d1 [q1 [Eq1 [W1 [H1 [E1 [A1 N3]]]]]]]. rewrite Eq1. cbn [obind tl] in *.
        assert (forall r, subl l P r -> ~ under (a :: P) r) as Apart.
        { intros r [b [s [X [_ Y]]]] Z. pose proof (under_apart b a P r Y Z) as ->. apply N1. apply in_map_iff. exists (a, s). auto. }
        assert (forall b s u, In (b, s) l -> ~ under (a :: P) (u ++ b :: P) /\ ~ anc P (u ++ b :: P)) as Out.
        { intros b s u X. split.
          - intros Z. assert (under (b :: P) (u ++ b :: P)) as Y by (exists u; reflexivity). pose proof (under_apart b a P _ Y Z) as ->. apply N1. apply in_map_iff. exists (a, s). auto.
          - intros Z. assert (under (b :: P) (u ++ b :: P)) as Y by (exists u; reflexivity). exact (under_not_anc b P _ Y Z). }
        destruct (stays _ _ _ _ _ E1 P x p (or_introl (not_under_self a P)) L I) as [p1 [L1 [_ I1]]].
        destruct (IH d1 q1 root1 p1) as [root' [d' [q' [Eq [W' [H' [E [AN R']]]]]]]]; auto.
        { intros b s X. apply TO. right. exact X. }
        { intros b s X Ib. destruct (OK b s (or_intror X) Ib) as [OT' CF']. split; [exact OT'|]. intros u y n V Ly. destruct (Out b s u X) as [O1 O2]. apply (CF' u y n V). eapply same_path_back; eauto. }
        exists root', d', q'. split; [exact Eq|]. split; [exact W'|]. split; [exact H'|].
        assert (forall r, ~ subl ((a, t) :: l) P r \/ keepl ((a, t) :: l) P r -> (~ under (a :: P) r \/ keep t (a :: P) r) /\ (~ subl l P r \/ keepl l P r)) as HK.
        { intros r [C|[b [s [[X|X] [Y Z]]]]].
          - split; left; intros Z; apply C; [exists a, t; auto using in_eq|destruct Z as [b [s [X Y]]]; exists b, s; split; [right; exact X|exact Y]].
          - injection X as <- <-. split; [right; exact Z|]. left. intros S. exact (Apart r S (keep_under _ _ _ Z)).
          - split; [|right; exists b, s; auto]. left. intros U. apply keep_under in Z. pose proof (under_apart b a P r Z U) as ->. apply N1. apply in_map_iff. exists (a, s). auto. }
        assert (forall u, ~ subl l P (u ++ a :: P) /\ ~ anc P (u ++ a :: P)) as Out2.
        { intros u. assert (under (a :: P) (u ++ a :: P)) as U by (exists u; reflexivity). split; [intros S; exact (Apart _ S U)|intros An; exact (under_not_anc a P _ U An)]. }
        assert (~ subl l P P) as NS by (intros [b [s [_ [_ U]]]]; exact (not_under_self b P U)).
        split; [|split].
        * apply (effects_trans (under (a :: P)) (subl l P) (subl ((a, t) :: l) P) (anc P) (anc P) (anc P) (keep t (a :: P)) (keepl l P) (keepl ((a, t) :: l) P) d d1 d'); auto.
          -- intros r U. exists a, t. auto using in_eq.
          -- intros r [b [s [X Y]]]. exists b, s. split; [right; exact X|exact Y].
        * intros b s [X|X] Ib.
          -- injection X as <- <-. split; [apply (agree_after _ _ (subl l P) (anc P) (keepl l P) d1 d'); auto|].
             apply (noticed_after (under (a :: P)) (keep t (a :: P)) (subl l P) (keepl l P) _ _ (anc P) (anc P) _ _ d d1 d'); auto.
          -- destruct (AN b s X Ib) as [A2 N4]. split; [exact A2|].
             apply (noticed_before (under (a :: P)) (keep t (a :: P)) (subl l P) (keepl l P) _ _ (anc P) (anc P) _ _ d d1 d'); auto.
             ++ intros u. apply (Out b s u X).
             ++ cbn [tl]. apply not_under_self.
        * intros y. rewrite R', HR. cbn [map fst]. split.
          -- intros [[X Y] Z]. split; [exact X|]. intros b n [<-|Hb]; [auto|]. intros G. apply in_map_iff in Hb as [[b' s] [Eb Hb]]. cbn in Eb. subst b'. destruct (Out b s [] Hb) as [O1 O2]. apply (Z b n); [apply in_map_iff; exists (b, s); auto|]. eapply (same_path _ _ _ d d1); eauto.
          -- intros [X Y]. split; [split; [exact X|intros n; apply Y; left; reflexivity]|]. intros b n Hb G. apply in_map_iff in Hb as [[b' s] [Eb Hb]]. cbn in Eb. subst b'. destruct (Out b s [] Hb) as [O1 O2]. apply (Y b n); [right; apply in_map_iff; exists (b, s); auto|]. eapply (same_path_back _ _ _ d d1); eauto.
  Qed.
End Entries.
