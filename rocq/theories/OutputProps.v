(** C44: comparing an output with its previous version. *)
From Verif Require Import Base OutputModel OutputSpec OutputProofs.

(** The comparison reports "equal" exactly for unchanged files, with reads
    that fill the buffer. *)
Theorem C44_compare_exact : forall w1 w2 old new,
  full_reads w1 -> full_reads w2 -> short_link old -> short_link new ->
  (compare_paths w1 w2 old new = Some true <-> unchanged old new) /\
  (compare_paths w1 w2 old new = Some false <-> ~ unchanged old new).
Proof.
  intros w1 w2 old new F1 F2 S1 S2.
  assert (compare_paths w1 w2 old new = Some true <-> unchanged old new) as K.
  { split; [apply compare_sound; assumption|]. intros [f [-> ->]]. apply compare_complete; assumption. }
  split; [exact K|]. destruct (compare_some w1 w2 old new) as [[|] E]; rewrite E.
  - split; [discriminate|]. intros N. exfalso. apply N, K, E.
  - split; [|reflexivity]. intros _ U. apply K in U. congruence.
Qed.
Print Assumptions C44_compare_exact.
(** Whatever the reads return, a changed file is never taken for unchanged. *)
Theorem C44_any_reads_sound : forall w1 w2 old new, short_link old -> short_link new ->
  compare_paths w1 w2 old new = Some true -> unchanged old new.
Proof. exact compare_sound. Qed.
Print Assumptions C44_any_reads_sound.
(** With a short read an unchanged file can be taken for changed. *)
Theorem C44_short_reads_refuted : exists w1 w2 f, compare_paths w1 w2 (Some f) (Some f) = Some false.
Proof. exists (fun _ => 1), (fun _ => 2), {| i_link := false; i_perm := 0; i_data := B "ab" |}. vm_compute. reflexivity. Qed.
Print Assumptions C44_short_reads_refuted.
(** A link target longer than the buffer would be compared only in part (Linux
    has no such links). *)
Theorem C44_long_link_refuted : exists w f g, full_reads w /\ f <> g /\ compare_paths w w (Some f) (Some g) = Some true.
Proof.
  set (t := repeat "a"%char bufsize). exists (fun _ => bufsize), {| i_link := true; i_perm := 0; i_data := t ++ B "b" |}, {| i_link := true; i_perm := 0; i_data := t ++ B "c" |}.
  split; [intros i; apply le_n|]. split.
  - intros E. apply (f_equal i_data) in E. cbn [i_data] in E. apply app_inv_head in E. discriminate.
  - cbn [compare_paths i_data i_link i_perm]. rewrite !app_length. cbn [length B]. rewrite Nat.eqb_refl. cbn [negb Bool.eqb andb N.eqb].
    unfold compare_links. assert (forall u, firstn bufsize (t ++ u) = t) as K.
    { intros u. assert (length t = bufsize) as L by apply repeat_length. rewrite <- L at 1. rewrite firstn_app, Nat.sub_diag, firstn_all, firstn_O. apply app_nil_r. }
    rewrite !K, Nat.eqb_refl, (proj2 (bytes_eqb_true t t) eq_refl). reflexivity.
Qed.
Print Assumptions C44_long_link_refuted.

(** With ^o: the outputs are moved away, the command runs and leaves [s2] (it
    does not touch the saved files), and the outputs are checked. Exactly the
    outputs that are as before stay skipped. [s] has no saved files: the
    directory is emptied when the server starts. *)
Theorem C44_changed_outputs_found : forall id id_eqb w1 w2 outs (s s2 : files id),
  (forall a b, id_eqb a b = true <-> a = b) -> full_reads w1 -> full_reads w2 -> NoDup outs ->
  (forall x, backup s x = None) -> backup s2 = backup (move_outputs id id_eqb outs s) -> (forall x, skip s2 x = true) ->
  (forall x, short_link (cur s x) /\ short_link (cur s2 x)) ->
  exists s3, check_outputs id id_eqb w1 w2 outs s2 = Some s3 /\
    forall x, In x outs -> skip s3 x = true <-> unchanged (cur s x) (cur s2 x).
Proof.
  intros id id_eqb w1 w2 outs s s2 Q F1 F2 N Hb H2 Hs Hl.
  destruct (move_spec id id_eqb Q outs s N) as [M1 _]. destruct (check_spec id id_eqb Q w1 w2 outs s2 N) as [s3 [C1 [_ [C3 _]]]].
  exists s3. split; [exact C1|]. intros x X. rewrite (C3 x X), H2, (proj2 (M1 x X)), Hs, Hb.
  assert (match cur s x with Some f => Some f | None => None end = cur s x) as -> by (destruct (cur s x); reflexivity).
  destruct (Hl x) as [L1 L2]. destruct (C44_compare_exact w1 w2 (cur s x) (cur s2 x) F1 F2 L1 L2) as [K1 K2].
  destruct (compare_some w1 w2 (cur s x) (cur s2 x)) as [[|] E]; rewrite E; [tauto|].
  split; [discriminate|]. intros U. apply K2 in E. contradiction.
Qed.
Print Assumptions C44_changed_outputs_found.
(** After a failure every output that existed is back, and the recorded time is
    that of the file that is there. *)
Theorem C44_restored : forall id id_eqb outs (s s2 : files id),
  (forall a b, id_eqb a b = true <-> a = b) -> NoDup outs ->
  (forall x, backup s x = None) -> backup s2 = backup (move_outputs id id_eqb outs s) ->
  let s3 := restore_outputs id id_eqb outs s2 in
  forall x, In x outs ->
    (cur s x <> None -> cur s3 x = cur s x) /\ (cur s x = None -> cur s3 x = cur s2 x) /\ (cur s3 x <> None -> recorded s3 x = cur s3 x).
Proof.
  intros id id_eqb outs s s2 Q N Hb H2 s3 x X.
  destruct (move_spec id id_eqb Q outs s N) as [M1 _]. destruct (restore_spec id id_eqb Q outs s2 N) as [R1 _].
  destruct (R1 x X) as [A C]. fold s3 in A, C. rewrite H2, (proj2 (M1 x X)), Hb in A.
  split; [|split; [|exact C]].
  - intros E. rewrite A. destruct (cur s x); congruence.
  - intros E. rewrite A, E. reflexivity.
Qed.
Print Assumptions C44_restored.

Definition ex_file (b : bytes) : option inode := Some {| i_link := false; i_perm := 420; i_data := b |}.
Definition ex_s : files nat := {| cur := fun x => if x =? 0 then ex_file (B "a") else if x =? 1 then ex_file (B "b") else None; backup := fun _ => None; recorded := fun _ => None; skip := fun _ => true |}.
Definition ex_s2 : files nat := {| cur := fun x => if x =? 0 then ex_file (B "a") else if x =? 1 then ex_file (B "c") else ex_file (B "d");
  backup := backup (move_outputs nat Nat.eqb [0; 1; 2] ex_s); recorded := fun _ => None; skip := fun _ => true |}.
Example C44_ex :
  option_map (fun s => map (skip s) [0; 1; 2]) (check_outputs nat Nat.eqb (fun _ => bufsize) (fun _ => bufsize) [0; 1; 2] ex_s2) = Some [true; false; false] /\
  map (cur (restore_outputs nat Nat.eqb [0; 1; 2] ex_s2)) [0; 1; 2] = [ex_file (B "a"); ex_file (B "b"); ex_file (B "d")].
Proof. split; vm_compute; reflexivity. Qed.
Example C44_hypotheses : (forall x, backup ex_s x = None) /\ (forall x, skip ex_s2 x = true) /\ (forall x, short_link (cur ex_s x) /\ short_link (cur ex_s2 x)).
Proof.
  split; [reflexivity|]. split; [reflexivity|]. intros x.
  assert (forall f, (forall n, f = Some n -> i_link n = false) -> short_link f) as K by (intros f H n E L; rewrite (H n E) in L; discriminate).
  split; apply K; intros n E; cbn in E; destruct (x =? 0); [injection E as <-; reflexivity| |injection E as <-; reflexivity|];
    destruct (x =? 1); try discriminate E; injection E as <-; reflexivity.
Qed.
