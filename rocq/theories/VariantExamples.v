(** Deciding the hypotheses for concrete tables in which parents have smaller ids. *)
From Verif Require Import Base DbModel VariantModel VariantSpec VariantProofs VariantProofs3.

Definition small (r : table) : bool := forallb (fun p => match up (snd p) with Some q => q <? fst p | None => true end) r.
Fixpoint ancs (f : nat) (r : table) (x : nat) : list nat :=
  match f with
  | 0 => []
  | S f => match get r x with Some n => match up n with Some p => p :: ancs f r p | None => [] end | None => [] end
  end.
Definition insideb (r : table) (v x : nat) : bool := existsb (Nat.eqb v) (x :: ancs (S x) r x).
Definition isdirb (r : table) (x : nat) : bool := match get r x with Some n => ntype_eqb (ty n) TDir | None => false end.
Definition sourceb (r : table) (variants : list nat) (x : nat) : bool := forallb (fun v => negb (insideb r v x)) variants.
Definition upeqb (a b : option nat) : bool := match a, b with Some x, Some y => x =? y | None, None => true | _, _ => false end.
Fixpoint nodupb (l : list nat) : bool := match l with [] => true | x :: l => negb (existsb (Nat.eqb x) l) && nodupb l end.
Definition treeb (r : table) (top : nat) : bool :=
  nodupb (map fst r) && small r &&
  forallb (fun p => forallb (fun q => negb (upeqb (up (snd p)) (up (snd q)) && bytes_eqb (nm (snd p)) (nm (snd q))) || (fst p =? fst q)) r) r &&
  forallb (fun p => match up (snd p) with Some q => match get r q with Some _ => true | None => false end | None => true end) r &&
  forallb (fun p => Bool.eqb (match up (snd p) with None => true | Some _ => false end) (fst p =? top)) r &&
  match get r top with Some _ => true | None => false end.
Definition okb (r : table) (top : nat) (variants : list nat) (k : list (nat * bytes)) : bool :=
  treeb r top && forallb (fun v => negb (v =? top) && isdirb r v) variants &&
  forallb (fun v => forallb (fun w => (v =? w) || negb (insideb r v w)) variants) variants &&
  forallb (fun p => implb (existsb (fun v => insideb r v (fst p)) variants) (match srcid (snd p) with Src y => sourceb r variants y && match get r y with Some _ => true | None => false end | _ => true end)) r &&
  forallb (fun p => implb (ntype_eqb (ty (snd p)) TDir) (match up (snd p) with Some q => isdirb r q | None => true end)) r &&
  forallb (fun p => match up (snd p) with Some d => implb (ntype_eqb (ty (snd p)) TDir || ntype_eqb (ty (snd p)) TGeneratedDir) (existsb (entry_eqb (d, nm (snd p))) k) | None => true end) r.
Definition staleb (r : table) (top : nat) (variants : list nat) (x : nat) : bool :=
  existsb (fun v => insideb r v x) variants &&
  match get r x with
  | Some n =>
      ntype_eqb (ty n) TDir && negb (virtual top n) &&
      match srcid n with
      | NoSrc => false
      | SrcRemoved => true
      | Src y => match get r y with Some m => negb (ntype_eqb (ty m) TDir) || (negb (y =? top) && negb (bytes_eqb (nm m) (nm n))) | None => false end
      end
  | None => false
  end.
Fixpoint twinb (f : nat) (r : table) (top v a x : nat) : bool :=
  match f with
  | 0 => false
  | S f =>
      ((a =? top) && (x =? v)) ||
      match get r a, get r x with
      | Some n, Some m => match up n, up m with Some p, Some q => bytes_eqb (nm m) (nm n) && twinb f r top v p q | _, _ => false end
      | _, _ => false
      end
  end.
Definition not_replacedb (r : table) (top : nat) (variants flagged : list nat) : bool :=
  forallb (fun x => implb (staleb r top variants x) (forallb (fun v => forallb (fun a => negb (sourceb r variants (fst a) && isdirb r (fst a) && twinb (S x) r top v (fst a) x)) r) variants)) flagged.

Lemma small_up r x n p : small r = true -> get r x = Some n -> up n = Some p -> p < x.
Proof. intros H G U. apply get_in in G. unfold small in H. rewrite forallb_forall in H. specialize (H _ G). cbn [snd fst] in H. rewrite U in H. apply Nat.ltb_lt, H. Qed.
Lemma below_anc r v : small r = true -> forall f x, x < f -> (below r v x <-> In v (ancs f r x)).
Proof.
  intros Sm. induction f as [|f IH]; intros x L; [lia|]. cbn [ancs]. split.
  - intros Bl. inversion Bl as [y n G U|y n p G U Bp]; subst; rewrite G, U; [left; reflexivity|right]. apply IH; [|exact Bp]. pose proof (small_up r x n p Sm G U). lia.
  - destruct (get r x) as [n|] eqn:G; [|intros []]. destruct (up n) as [p|] eqn:U; [|intros []]. intros [E|I]; [subst p; eapply below_child; eauto|]. eapply below_step; eauto. apply IH; [|exact I]. pose proof (small_up r x n p Sm G U). lia.
Qed.
Lemma inside_iff r v x : small r = true -> (inside r v x <-> insideb r v x = true).
Proof.
  intros Sm. unfold insideb, inside. rewrite existsb_nat. cbn [In]. rewrite (below_anc r v Sm (S x) x ltac:(lia)). split; intros [E|E]; auto.
Qed.
Lemma isdir_iff r x : isdir r x <-> isdirb r x = true.
Proof.
  unfold isdir, isdirb. split; [intros [n [G T]]; rewrite G; apply ntype_iff, T|]. destruct (get r x) as [n|]; [|discriminate]. intros H. exists n. split; [reflexivity|apply ntype_iff, H].
Qed.
Lemma source_iff r variants x : small r = true -> (in_source r variants x <-> sourceb r variants x = true).
Proof.
  intros Sm. unfold sourceb, in_source. rewrite forallb_forall. split; intros H v Iv.
  - destruct (insideb r v x) eqn:E; [|reflexivity]. exfalso. apply (H v Iv). apply inside_iff; assumption.
  - intros I. apply (inside_iff r v x Sm) in I. specialize (H v Iv). rewrite I in H. discriminate.
Qed.
Lemma nodup_sound l : nodupb l = true -> NoDup l.
Proof.
  induction l as [|x l IH]; intros H; [constructor|]. cbn [nodupb] in H. apply andb_prop in H as [H1 H2]. constructor; [|auto]. intros I. apply existsb_nat in I. rewrite I in H1. discriminate.
Qed.
Lemma tree_sound r top : treeb r top = true -> tree_ok r top /\ small r = true.
Proof.
  unfold treeb. intros H. apply andb_prop in H as [H H6]. apply andb_prop in H as [H H5]. apply andb_prop in H as [H H4]. apply andb_prop in H as [H H3]. apply andb_prop in H as [H1 H2].
  rewrite forallb_forall in H3, H4, H5. split; [|exact H2]. split.
  - apply nodup_sound, H1.
  - intros x y n m Gx Gy U N. apply get_in in Gx, Gy. specialize (H3 _ Gx). rewrite forallb_forall in H3. specialize (H3 _ Gy). cbn [fst snd] in H3. rewrite U, N, bytes_eqb_refl in H3.
    assert (upeqb (up m) (up m) = true) as E by (destruct (up m); cbn; [apply Nat.eqb_refl|reflexivity]). rewrite E in H3. cbn [andb negb orb] in H3. apply Nat.eqb_eq, H3.
  - intros x n p G U. apply get_in in G. specialize (H4 _ G). cbn [snd] in H4. rewrite U in H4. destruct (get r p) as [m|]; [eauto|discriminate].
  - intros x n G. apply get_in in G. specialize (H5 _ G). cbn [fst snd] in H5. apply Bool.eqb_prop in H5. destruct (up n); split; intros E; try discriminate; try reflexivity.
    + subst x. rewrite Nat.eqb_refl in H5. discriminate.
    + apply Nat.eqb_eq. congruence.
  - destruct (get r top) as [m|]; [eauto|discriminate].
  - exists (fun x => x). intros x n p G U. exact (small_up r x n p H2 G U).
Qed.
Theorem ok_sound r top variants k : okb r top variants k = true -> project_ok r top variants k.
Proof.
  unfold okb. intros H. apply andb_prop in H as [H H6]. apply andb_prop in H as [H H5]. apply andb_prop in H as [H H4]. apply andb_prop in H as [H H3]. apply andb_prop in H as [H1 H2].
  destruct (tree_sound r top H1) as [K Sm]. rewrite forallb_forall in H2, H3, H4, H5, H6. split.
  - exact K.
  - intros v Iv. specialize (H2 _ Iv). apply andb_prop in H2 as [Ha Hb]. apply negb_true_iff, Nat.eqb_neq in Ha. split; [exact Ha|apply isdir_iff, Hb].
  - intros v w Iv Iw Bl. specialize (H3 _ Iv). rewrite forallb_forall in H3. specialize (H3 _ Iw). apply orb_prop in H3 as [E|E].
    + apply Nat.eqb_eq in E. subst w. exact (below_irrefl r top v K Bl).
    + apply negb_true_iff in E. assert (insideb r v w = true); [|congruence]. apply inside_iff; [exact Sm|right; exact Bl].
  - intros v x n y Iv In_v G Sn. apply get_in in G. specialize (H4 _ G). cbn [fst snd] in H4. rewrite Sn in H4.
    assert (existsb (fun v => insideb r v x) variants = true) as E by (apply existsb_exists; exists v; split; [exact Iv|apply inside_iff; assumption]). rewrite E in H4. cbn [implb] in H4.
    apply andb_prop in H4 as [Ha Hb]. split; [apply source_iff; assumption|]. destruct (get r y) as [m|]; [eauto|discriminate].
  - intros x n p G T U. apply get_in in G. specialize (H5 _ G). cbn [snd] in H5. rewrite T, U in H5. apply isdir_iff, H5.
  - intros x n d G U T. apply get_in in G. specialize (H6 _ G). cbn [snd] in H6. rewrite U in H6. assert (ntype_eqb (ty n) TDir || ntype_eqb (ty n) TGeneratedDir = true) as E by (destruct T as [-> | ->]; reflexivity).
    rewrite E in H6. cbn [implb] in H6. apply existsb_exists in H6 as [b [I Eb]]. apply entry_iff in Eb. subst b. exact I.
Qed.
Lemma stale_iff r top variants x : small r = true -> (stale r top variants x <-> staleb r top variants x = true).
Proof.
  intros Sm. unfold stale, staleb. rewrite andb_true_iff, existsb_exists. split.
  - intros [[v [Iv Inv]] [n [G [T [V Hs]]]]]. split; [exists v; split; [exact Iv|apply inside_iff; assumption]|]. rewrite G, T, V. cbn [ntype_eqb negb andb]. destruct Hs as [-> |[y [m [-> [Gm Hs]]]]]; [reflexivity|]. rewrite Gm.
    apply orb_true_iff. destruct Hs as [Ht|[Ny Nn]].
    + left. destruct (ntype_eqb (ty m) TDir) eqn:E; [apply ntype_iff in E; contradiction|reflexivity].
    + right. apply Nat.eqb_neq in Ny. rewrite Ny. cbn [negb andb]. destruct (bytes_eqb (nm m) (nm n)) eqn:E; [apply bytes_eqb_eq in E; contradiction|reflexivity].
  - intros [[v [Iv Inv]] H]. split; [exists v; split; [exact Iv|apply inside_iff; assumption]|]. destruct (get r x) as [n|]; [|discriminate]. exists n. split; [reflexivity|].
    apply andb_prop in H as [H Hs]. apply andb_prop in H as [T V]. apply ntype_iff in T. apply negb_true_iff in V. split; [exact T|]. split; [exact V|]. destruct (srcid n) as [| |y]; [discriminate|left; reflexivity|right].
    destruct (get r y) as [m|] eqn:Gm; [|discriminate]. exists y, m. split; [reflexivity|]. split; [exact Gm|]. apply orb_prop in Hs as [Hs|Hs].
    + left. intros E. apply ntype_iff in E. rewrite E in Hs. discriminate.
    + right. apply andb_prop in Hs as [Ha Hb]. apply negb_true_iff in Ha, Hb. apply Nat.eqb_neq in Ha. split; [exact Ha|]. intros E. apply bytes_eqb_eq in E. congruence.
Qed.
Lemma twin_sound r top v : small r = true -> forall f a x, x < f -> twin r top v a x -> twinb f r top v a x = true.
Proof.
  intros Sm. induction f as [|f IH]; intros a x L H; [lia|]. cbn [twinb]. apply orb_true_iff. inversion H as [E1 E2|p q a1 x1 n m Hp Ga Ua Gx Ux E E1 E2].
  - left. rewrite !Nat.eqb_refl. reflexivity.
  - right. rewrite Ga, Gx, Ua, Ux, E, bytes_eqb_refl. cbn [andb]. apply IH; [|exact Hp]. pose proof (small_up r x m q Sm Gx Ux). lia.
Qed.
Theorem not_replaced_sound r top variants flagged : small r = true -> not_replacedb r top variants flagged = true -> not_replaced r top variants flagged.
Proof.
  intros Sm H x v a Ix St Iv Sa Da Tw. unfold not_replacedb in H. rewrite forallb_forall in H. specialize (H _ Ix). apply (stale_iff r top variants x Sm) in St. rewrite St in H. cbn [implb] in H.
  rewrite forallb_forall in H. specialize (H _ Iv). rewrite forallb_forall in H. destruct Da as [n [G T]]. pose proof (get_in _ _ _ G) as Ia. specialize (H _ Ia). cbn [fst] in H.
  rewrite (proj1 (source_iff r variants a Sm) Sa), (proj1 (isdir_iff r a) (ex_intro _ n (conj G T))), (twin_sound r top v Sm (S x) a x ltac:(lia) Tw) in H. discriminate.
Qed.

(** ** Projects *)
Definition dir (p : nat) (name : bytes) (s : srcref) : row := {| up := Some p; nm := name; ty := TDir; srcid := s |}.
Definition entry (p : nat) (name : bytes) (k : ntype) : row := {| up := Some p; nm := name; ty := k; srcid := NoSrc |}.
Definition root : row := {| up := None; nm := B "."; ty := TDir; srcid := NoSrc |}.
(** Two variants. Of the source directories [lib] is new, [old] was removed and
    [b] was renamed to [c]; what the first variant has of them, files included,
    is still there. In the second variant a command wrote a file with the name
    [lib]. *)
Definition ex_tbl : table :=
  [ (1, root); (2, dir 1 (B "debug") (Src 1)); (3, dir 1 (B "fast") (Src 1)); (4, dir 1 (B "src") NoSrc); (5, dir 4 (B "c") NoSrc); (6, dir 4 (B "lib") NoSrc);
    (7, dir 2 (B "src") (Src 4)); (8, dir 7 (B "b") (Src 5)); (9, entry 8 (B "b.o") TGenerated); (10, dir 7 (B "old") SrcRemoved); (11, dir 10 (B "sub") SrcRemoved); (12, entry 11 (B "x.o") TGenerated);
    (13, entry 7 (B "main.o") TGenerated); (14, dir 3 (B "src") (Src 4)); (15, entry 14 (B "lib") TGenerated); (16, entry 4 (B "main.c") TFile) ].
Definition names (r : table) : list (nat * bytes) := concat (map (fun p => match up (snd p) with Some d => [(d, nm (snd p))] | None => [] end) r).
Definition ex_disk : list (nat * bytes) := names ex_tbl.
Definition ex_flagged : list nat := [11; 10; 8; 6; 5].
Definition ex_end : state := match create_dirs 1 [2; 3] 20 20 ex_flagged ex_tbl ex_disk with Some s => s | None => {| tbl := []; disk := []; plist := []; removing := [] |} end.
Definition rel (r : table) (x : nat) : list bytes := rev (map (fun y => match get r y with Some n => nm n | None => [] end) (x :: ancs 20 r x)).
Example ex_ok : project_ok ex_tbl 1 [2; 3] ex_disk /\ not_replaced ex_tbl 1 [2; 3] ex_flagged /\ create_dirs 1 [2; 3] 20 20 ex_flagged ex_tbl ex_disk = Some ex_end.
Proof. split; [apply ok_sound; vm_compute; reflexivity|]. split; [apply not_replaced_sound; vm_compute; reflexivity|vm_compute; reflexivity]. Qed.
Example ex_flags : Forall (source_dir ex_tbl 1 [2; 3]) [5; 6] /\ Forall (stale ex_tbl 1 [2; 3]) [8; 10; 11].
Proof.
  assert (small ex_tbl = true) as Sm by reflexivity. split.
  - repeat constructor; try (apply source_iff; [exact Sm|vm_compute; reflexivity]); eexists; (split; [vm_compute; reflexivity|]); split; reflexivity.
  - repeat (apply Forall_cons; [apply stale_iff; [exact Sm|vm_compute; reflexivity]|]). constructor.
Qed.
Example ex_paths : map (rel (tbl ex_end)) (plist ex_end) =
  [[B "."; B "fast"; B "src"; B "c"]; [B "."; B "debug"; B "src"; B "c"]; [B "."; B "fast"; B "src"; B "lib"]; [B "."; B "debug"; B "src"; B "lib"]; [B "."; B "src"; B "lib"]; [B "."; B "src"; B "c"]] /\
  existsb (entry_eqb (8, B "b.o")) (disk ex_end) = false /\ existsb (entry_eqb (7, B "main.o")) (disk ex_end) = true.
Proof. vm_compute. auto. Qed.

(** [a] was removed and [b] renamed to [a] while the monitor ran. *)
Definition rep_tbl : table :=
  [ (1, root); (2, dir 1 (B "build") (Src 1)); (4, dir 1 (B "a") NoSrc); (5, dir 2 (B "a") SrcRemoved); (6, dir 2 (B "b") (Src 4)) ].
Definition rep_end : state := match create_dirs 1 [2] 20 20 [6; 5; 4] rep_tbl (names rep_tbl) with Some s => s | None => {| tbl := []; disk := []; plist := []; removing := [] |} end.
(** [x/a] was moved to [y/a] while the monitor ran. *)
Definition mov_tbl : table :=
  [ (1, root); (2, dir 1 (B "build") (Src 1)); (3, dir 1 (B "x") NoSrc); (4, dir 1 (B "y") NoSrc); (5, dir 4 (B "a") NoSrc); (6, dir 2 (B "x") (Src 3)); (7, dir 2 (B "y") (Src 4)); (8, dir 6 (B "a") (Src 5)) ].
Definition mov_end : state := match create_dirs 1 [2] 20 20 [8; 7; 6; 5; 4; 3] mov_tbl (names mov_tbl) with Some s => s | None => {| tbl := []; disk := []; plist := []; removing := [] |} end.
(** [a] was removed; a command had made a directory for its output in [build/a]. *)
Definition gen_tbl : table :=
  [ (1, root); (2, dir 1 (B "build") (Src 1)); (5, dir 2 (B "a") SrcRemoved); (6, entry 5 (B "sub") TGeneratedDir); (7, entry 6 (B "f.o") TGenerated) ].
Lemma gen_fails fuel n : create_dirs 1 [2] fuel n [5] gen_tbl (names gen_tbl) = None.
Proof.
  destruct fuel as [|[|fuel]]; [reflexivity|reflexivity|]. unfold create_dirs. destruct n as [|n]; [vm_compute; reflexivity|]. reflexivity.
Qed.
