(** C69: directories that only hold what tup made become tup's own, and the user's are left. *)
From Verif Require Import Base ConfigModel ParseModel PathModel DbModel DbSpec DbProofs DbProofs3 ScanModel ScanSpec ScanProofs ScanProofs2 ScanProofs3 ScanExamples ScanProps ScanProofs8 CleanModel CleanSpec CleanProofs CleanProps ConvModel ConvSpec ConvProofs ConvProofs2 ConvProofs3.
Require Import Lia.

Section C69.
  Variables (own : nat -> bool) (d : db) (parsed : list nat) (s : conv).
  Hypothesis d_sound : sound d.
  Hypothesis d_place : in_place d.
  Hypothesis d_env : has_environment d.
  Hypothesis dirs : forall x, In x parsed -> exists n, lookup d x = Some n /\ kind n = TDir.
  Hypothesis start : cv_db s = d.

  (** A .gitignore file of tup in a directory that is taken over. *)
  Definition git_taken (g : nat) : Prop := exists n, lookup d g = Some n /\ kind n = TGenerated /\ nname n = B ".gitignore" /\ taken d parsed (dir n).

  (** The loop always ends, and without an error. *)
  Theorem C69_ends : exists s', convert_dirs own parsed s = Ok s'.
  Proof.
    destruct (proj1 (sound_base d) d_sound) as [W H]. destruct (convert_ok own d parsed s W H d_place d_env dirs start) as [K [s' [R _]]]. eauto.
  Qed.

  Variable s' : conv.
  Hypothesis run : convert_dirs own parsed s = Ok s'.

  Lemma end_inv : exists K, Inv own d parsed s K [] s' /\ forall x, In x K <-> taken d parsed x.
  Proof.
    destruct (proj1 (sound_base d) d_sound) as [W H]. destruct (convert_ok own d parsed s W H d_place d_env dirs start) as [K [s2 [R I]]]. rewrite run in R. injection R as <-. exists K. exact I.
  Qed.
  Lemma gitf_taken K g : (forall x, In x K <-> taken d parsed x) -> (gitf d K g <-> git_taken g).
  Proof. intros KT. unfold gitf, git_taken. split; intros [n [L [A [C D]]]]; exists n; (split; [exact L|split; [exact A|split; [exact C|apply KT; exact D]]]). Qed.

  (** The directories of [taken] become generated ones, and nothing else changes but the
      .gitignore files with lines of the user in them, which become the user's. *)
  Theorem C69_exact : forall x,
    (lookup (cv_db s') x = None <-> lookup d x = None) /\
    forall n, lookup d x = Some n ->
      (taken d parsed x -> lookup (cv_db s') x = Some (set_kind TGeneratedDir n)) /\
      (git_taken x -> own x = true -> lookup (cv_db s') x = Some (set_src None (set_kind TFile n))) /\
      (~ taken d parsed x -> ~ (git_taken x /\ own x = true) -> lookup (cv_db s') x = Some n).
  Proof.
    intros x. destruct end_inv as [K [I KT]]. pose proof (i_nodes _ _ _ _ _ _ _ I x) as N. split; [rewrite N; destruct (lookup d x); split; (discriminate || reflexivity)|].
    intros n L. rewrite L in N. cbn [option_map] in N. destruct (proj1 (sound_base d) d_sound) as [W H].
    assert (git_taken x -> isgit K n = true /\ mem x K = false) as Gt.
    { intros [m [Lm [A [C D]]]]. rewrite L in Lm. injection Lm as <-. split; [apply isgit_ok; rewrite KT; auto|]. destruct (mem x K) eqn:M; [|reflexivity]. apply mem_in, KT in M. pose proof (taken_is_dir d parsed W H dirs x M n L) as Z. rewrite A in Z. discriminate. }
    split; [|split].
    - intros T. rewrite N. unfold now. apply KT, mem_in in T. rewrite T. reflexivity.
    - intros G O. rewrite N. unfold now. destruct (Gt G) as [-> ->]. rewrite O. reflexivity.
    - intros T G. rewrite N. unfold now. destruct (mem x K) eqn:M; [exfalso; apply T, KT, mem_in, M|]. destruct (isgit K n && own x) eqn:Q; [|reflexivity]. exfalso. apply G. apply andb_true_iff in Q as [Q1 Q2]. split; [|exact Q2].
      apply (gitf_taken K x KT). exists n. split; [exact L|]. apply isgit_ok. exact Q1.
  Qed.

  (** A directory with a file of the user in it, or in one of the user's directories in it,
      stays the user's, and so does the top directory. *)
  Theorem C69_users_left : forall x n, lookup d x = Some n -> kind n = TDir -> holds d x \/ x = top -> lookup (cv_db s') x = Some n.
  Proof.
    intros x n L K H. apply (proj2 (C69_exact x) n L).
    - destruct H as [H| ->]; [apply holds_free; exact H|]. destruct (proj1 (sound_base d) d_sound) as [W Hd]. exact (taken_not_top d parsed W Hd d_env dirs).
    - intros [[m [Lm [A _]]] _]. congruence.
  Qed.

  (** A Tupfile does not read the directories that were taken over any more, and is not parsed
      again for them; all other links and flags are as before. *)
  Theorem C69_links :
    (forall a b, In (a, b) (normal (cv_db s')) <-> In (a, b) (normal d) /\ ~ taken d parsed a /\ ~ taken d parsed b) /\
    sticky (cv_db s') = sticky d /\ modify (cv_db s') = modify d /\ create (cv_db s') = create d /\ config (cv_db s') = config d.
  Proof.
    destruct end_inv as [K [I KT]]. split; [|apply (i_rest _ _ _ _ _ _ _ I)]. intros a b. rewrite (i_links _ _ _ _ _ _ _ I). rewrite !KT. tauto.
  Qed.
  (** The ghosts that such a directory was parsed with are looked at again; nothing leaves the
      queue, and what is added was an input of such a directory. *)
  Theorem C69_ghosts :
    (forall z, In z (cv_queue s) -> In z (cv_queue s')) /\
    (forall z x n, taken d parsed x -> In (z, x) (normal d) -> lookup d z = Some n -> kind n = TGhost -> In z (cv_queue s')) /\
    (forall z, In z (cv_queue s') -> In z (cv_queue s) \/ exists x, taken d parsed x /\ In (z, x) (normal d)).
  Proof.
    destruct end_inv as [K [I KT]]. split; [|split].
    - intros z Z. apply (i_queued _ _ _ _ _ _ _ I). left. exact Z.
    - intros z x n T E L G. apply (i_queued _ _ _ _ _ _ _ I). right. exists x, n. rewrite KT. auto.
    - intros z Z. destruct (i_queue _ _ _ _ _ _ _ I z Z) as [Q|[x [X [E _]]]]; [left; exact Q|right]. exists x. rewrite <- KT. auto.
  Qed.

  (** A .gitignore file that tup made in such a directory is deleted, unless lines of the user
      are in it; nothing else is put on the list of files to delete or taken from it. *)
  Theorem C69_gitignore :
    (forall g, git_taken g -> (own g = false -> In g (cv_del s')) /\ (own g = true -> ~ In g (cv_del s') /\ ~ In g (cv_save s'))) /\
    (forall z, ~ git_taken z -> (In z (cv_del s') <-> In z (cv_del s))) /\
    (forall z, ~ (git_taken z /\ own z = true) -> (In z (cv_save s') <-> In z (cv_save s))).
  Proof.
    destruct end_inv as [K [I KT]]. pose proof (fun g => gitf_taken K g KT) as G. split; [|split].
    - intros g T. rewrite (i_del _ _ _ _ _ _ _ I), (i_save _ _ _ _ _ _ _ I). rewrite !G. split.
      + intros O. split; [right; exact T|]. intros [_ Z]. congruence.
      + intros O. split; intros [_ Z]; apply Z; auto.
    - intros z T. rewrite (i_del _ _ _ _ _ _ _ I), !G. tauto.
    - intros z T. rewrite (i_save _ _ _ _ _ _ _ I), !G. tauto.
  Qed.
  (** The .gitignore file of the directory that one was taken over in is written again. *)
  Theorem C69_parents : forall p, In p (cv_git s') <-> In p (cv_git s) \/ exists x n, taken d parsed x /\ lookup d x = Some n /\ dir n = p.
  Proof.
    intros p. destruct end_inv as [K [I KT]]. rewrite (i_git _ _ _ _ _ _ _ I). split; (intros [Z|[x [n [X Y]]]]; [left; exact Z|right; exists x, n; split; [apply KT; exact X|exact Y]]).
  Qed.
End C69.

(** The whole phase that parses Tupfiles and deletes what is not made any more. *)
Section Phase.
  Variables (own : nat -> bool) (excl : nat) (rmdir : nat -> bool) (rounds : nat) (tups : list tupfile) (d d' : db) (gone : list path).
  Hypothesis d_sound : sound d.
  Hypothesis ok : parse_ok d tups.
  Hypothesis d_place : in_place d.
  Hypothesis d_env : has_environment d.
  Hypothesis plain : plain_outputs d tups.
  Hypothesis run : create_phase own excl rmdir rounds tups d = Ok (d', gone).

  (** The user's files stay, and the directories that hold one. *)
  Theorem C69_phase_kept : forall x n, lookup d x = Some n -> kind n = TFile \/ kind n = TDir /\ (holds d x \/ x = top) -> lookup d' x = Some n.
  Proof. exact (users_kept own excl rmdir rounds tups d d' gone d_sound ok d_place d_env plain run). Qed.
  (** Only files that tup made are deleted. *)
  Theorem C69_phase_deletes : forall r x n, In r gone -> at_path d r x n -> kind n = TGenerated.
  Proof. exact (gone_made own excl rmdir rounds tups d d' gone d_sound ok d_place d_env plain run). Qed.
End Phase.

Print Assumptions C69_ends.
Print Assumptions C69_exact.
Print Assumptions C69_users_left.
Print Assumptions C69_links.
Print Assumptions C69_ghosts.
Print Assumptions C69_gitignore.
Print Assumptions C69_parents.
Print Assumptions C69_phase_kept.
Print Assumptions C69_phase_deletes.

(** out, out/deep and src; the top Tupfile makes out/x.o and out/deep/y. The user's file in
    out was removed, so that out was parsed. lib/Tupfile reads out. *)
Definition out_nodes : list (nat * node) :=
  [(5, nd 1 TFile (B "Tupfile") 10); (6, nd 1 TDir (B "out") (-1)); (7, nd 6 TGhost (B "Tupfile") (-1)); (8, nd 1 TCmd (B "cc") (-1)); (9, gen 6 1 (B "x.o") 12);
   (10, nd 6 TDir (B "deep") (-1)); (11, gen 10 1 (B "y") 13); (12, gen 6 6 (B ".gitignore") 14); (13, nd 1 TDir (B "src") (-1)); (14, nd 13 TFile (B "a.c") 15); (15, gen 13 1 (B "a.o") 16);
   (16, nd 1 TDir (B "lib") (-1)); (17, nd 16 TFile (B "Tupfile") 17)].
Definition out_db : db := mk out_nodes [(5, 1); (7, 6); (6, 16); (17, 16); (14, 8); (8, 9); (8, 11); (8, 15)].
Definition out_start : conv := {| cv_db := out_db; cv_queue := []; cv_del := []; cv_save := []; cv_git := [] |}.
Definition place_check (d : db) : bool := forallb (fun p => negb (is_dir (kind (snd p))) || negb (is_some (src (snd p)))) (nodes d).
Lemma place_ok d : place_check d = true -> in_place d.
Proof.
  intros H x n L K. apply lookup_in in L. unfold place_check in H. rewrite forallb_forall in H. specialize (H _ L). cbn [snd] in H. rewrite K in H. destruct (src n); [discriminate|reflexivity].
Qed.
Definition env_check (d : db) : bool :=
  match lookup d 2 with Some n => (dir n =? top) && bytes_eqb (nname n) (B "$") && ntype_eqb (kind n) TDir | None => false end && forallb (fun p => negb (dir (snd p) =? 2)) (nodes d).
Lemma env_ok d : env_check d = true -> has_environment d.
Proof.
  unfold env_check. intros H. apply andb_true_iff in H as [H V]. destruct (lookup d 2) as [n|] eqn:L; [|discriminate]. apply andb_true_iff in H as [H K]. apply andb_true_iff in H as [D N].
  exists 2, n. split; [split; [exact L|apply Nat.eqb_eq; exact D]|]. split; [apply bytes_eqb_eq; exact N|]. split; [apply ntype_eq; exact K|].
  intros y m [Ly Dy]. apply lookup_in in Ly. rewrite forallb_forall in V. specialize (V _ Ly). cbn [snd] in V. rewrite Dy in V. discriminate.
Qed.
Definition dirs_check (d : db) (l : list nat) : bool := forallb (fun x => has_kind d [TDir] x) l.
Lemma dirs_ok d l : dirs_check d l = true -> forall x, In x l -> exists n, lookup d x = Some n /\ kind n = TDir.
Proof.
  intros H x X. unfold dirs_check in H. rewrite forallb_forall in H. specialize (H x X). unfold has_kind in H. destruct (lookup d x) as [n|]; [|discriminate]. exists n. split; [reflexivity|]. cbn in H. destruct (kind n); (discriminate || reflexivity).
Qed.

Example C69_case : sound out_db /\ in_place out_db /\ has_environment out_db /\ (forall x, In x [6; 10; 13] -> exists n, lookup out_db x = Some n /\ kind n = TDir) /\ holds out_db 13.
Proof.
  split; [apply sound_ok; vm_compute; reflexivity|]. split; [apply place_ok; vm_compute; reflexivity|]. split; [apply env_ok; vm_compute; reflexivity|]. split; [apply dirs_ok; vm_compute; reflexivity|].
  apply holds_file with (y := 14) (m := nd 13 TFile (B "a.c") 15); [split; reflexivity|reflexivity].
Qed.
Definition kinds (l : list nat) (d : db) : list (option ntype) := map (fun x => option_map kind (lookup d x)) l.
Example C69_run : match convert_dirs (fun _ => false) [13; 10; 6] out_start with
  | Ok s => kinds [1; 6; 10; 13; 14; 12] (cv_db s) = [Some TDir; Some TGeneratedDir; Some TGeneratedDir; Some TDir; Some TFile; Some TGenerated] /\
      normal (cv_db s) = [(5, 1); (17, 16); (14, 8); (8, 9); (8, 11); (8, 15)] /\ cv_del s = [12] /\ cv_queue s = [7] /\ cv_git s = [1; 6]
  | _ => False
  end.
Proof. vm_compute. repeat split. Qed.
Lemma out_taken : taken out_db [10; 6] 10 /\ taken out_db [10; 6] 6.
Proof.
  assert (forall x y m, within out_db x y m -> In (y, m) (filter (fun p => dir (snd p) =? x) (nodes out_db))) as In'.
  { intros x y m [L D]. apply filter_In. split; [apply lookup_in; exact L|apply Nat.eqb_eq; exact D]. }
  assert (taken out_db [10; 6] 10) as T.
  { constructor.
    - left. left. reflexivity.
    - intros y m Y. apply In' in Y. vm_compute in Y. destruct Y as [E|[]]. injection E as <- <-. discriminate.
    - intros y m Y. apply In' in Y. vm_compute in Y. destruct Y as [E|[]]. injection E as <- <-. discriminate.
    - exists 11, (gen 10 1 (B "y") 13). split; [split; reflexivity|]. left. split; [left; reflexivity|discriminate]. }
  split; [exact T|]. constructor.
  - left. right. left. reflexivity.
  - intros y m Y. apply In' in Y. vm_compute in Y. decompose [or] Y; try contradiction; match goal with E : (_, _) = (_, _) |- _ => injection E as <- <- end; discriminate.
  - intros y m Y. apply In' in Y. vm_compute in Y. decompose [or] Y; try contradiction; match goal with E : (_, _) = (_, _) |- _ => injection E as <- <- end; try discriminate. intros _. exact T.
  - exists 9, (gen 6 1 (B "x.o") 12). split; [split; reflexivity|]. left. split; [left; reflexivity|discriminate].
Qed.

(** It is not so that a Tupfile which was parsed can be parsed again: lib/Tupfile read out, which
    is its right as long as out is a normal directory; after the update it is refused. *)
Theorem C69_reader_refuted : ~ (forall own d parsed s s' r x w,
  sound d -> in_place d -> has_environment d -> (forall x, In x parsed -> exists n, lookup d x = Some n /\ kind n = TDir) -> cv_db s = d -> convert_dirs own parsed s = Ok s' ->
  In (x, r) (normal d) -> is_kind d TDir r -> may_read d w x = true -> may_read (cv_db s') w x = true).
Proof.
  intros H. destruct C69_case as [S [P [E _]]]. destruct (convert_dirs (fun _ => false) [10; 6] out_start) as [s'| | |] eqn:R; [|vm_compute in R; discriminate..].
  assert (may_read (cv_db s') [16] 6 = true) as Z.
  { apply (H (fun _ => false) out_db [10; 6] out_start s' 16 6 [16]); auto; [apply dirs_ok; vm_compute; reflexivity|vm_compute; auto|eexists; split; [reflexivity|reflexivity]]. }
  vm_compute in R. injection R as <-. vm_compute in Z. discriminate.
Qed.
Print Assumptions C69_reader_refuted.

(** It is not so that tup's own directories hold no file of the user: a .gitignore file with
    lines of the user stays in them. *)
Theorem C69_own_file_refuted : ~ (forall own d parsed s s' x n y m,
  sound d -> in_place d -> has_environment d -> (forall x, In x parsed -> exists n, lookup d x = Some n /\ kind n = TDir) -> cv_db s = d -> convert_dirs own parsed s = Ok s' ->
  taken d parsed x -> lookup (cv_db s') x = Some n -> within (cv_db s') x y m -> kind m <> TFile).
Proof.
  intros H. destruct C69_case as [S [P [E _]]]. destruct (convert_dirs (fun _ => true) [10; 6] out_start) as [s'| | |] eqn:R; [|vm_compute in R; discriminate..].
  assert (forall m, within (cv_db s') 6 12 m -> kind m <> TFile) as Z.
  { intros m M. destruct (lookup (cv_db s') 6) as [n|] eqn:L; [|vm_compute in R; injection R as <-; vm_compute in L; discriminate]. apply (H (fun _ => true) out_db [10; 6] out_start s' 6 n 12 m); auto; [apply dirs_ok; vm_compute; reflexivity|apply out_taken]. }
  vm_compute in R. injection R as <-. eapply Z; [split; vm_compute; reflexivity|reflexivity].
Qed.
Print Assumptions C69_own_file_refuted.

(** The user's file in out was removed and so was the rule for out/x.o. *)
Definition last_nodes : list (nat * node) :=
  [(5, nd 1 TFile (B "Tupfile") 10); (6, nd 1 TDir (B "out") (-1)); (7, nd 6 TGhost (B "Tupfile") (-1)); (8, nd 1 TCmd (B "cc") (-1)); (9, gen 6 1 (B "x.o") 12)].
Definition last_db : db := {| nodes := heads ++ last_nodes; normal := [(5, 1); (7, 6); (8, 9)]; sticky := []; modify := [5]; create := [1; 6]; config := [] |}.
Definition last_tups : list tupfile := [{| tf_dir := 1; tf_keep := []; tf_outs := [] |}; {| tf_dir := 6; tf_keep := []; tf_outs := [] |}].
Definition phase (rmdir : bool) := create_phase (fun _ => false) 4 (fun _ => rmdir) 100.
Example last_ok : sound last_db /\ parse_ok last_db last_tups /\ in_place last_db /\ has_environment last_db /\ plain_outputs last_db last_tups.
Proof.
  split; [apply sound_ok; vm_compute; reflexivity|]. split; [|split; [apply place_ok; vm_compute; reflexivity|split; [apply env_ok; vm_compute; reflexivity|]]].
  - split.
    + repeat constructor; cbn; intuition discriminate.
    + intros t [<-|[<-|[]]]; (eexists; split; [vm_compute; reflexivity|reflexivity]).
    + intros t dt nm [<-|[<-|[]]] [].
    + intros t c [<-|[<-|[]]] [].
  - intros t dt nm [<-|[<-|[]]] [].
Qed.

(** It is not so that directories of the user stay: out, which the user made, is removed with
    the last file that tup made in it. *)
Theorem C69_user_dir_refuted : ~ (forall rmdir tups d d' gone x n,
  sound d -> parse_ok d tups -> in_place d -> has_environment d -> plain_outputs d tups -> phase rmdir tups d = Ok (d', gone) -> lookup d x = Some n -> kind n = TDir -> exists n', lookup d' x = Some n').
Proof.
  intros H. destruct last_ok as [S [O [P [E Q]]]]. destruct (phase true last_tups last_db) as [[d' gone]| | |] eqn:R; [|vm_compute in R; discriminate..].
  specialize (H true last_tups last_db d' gone 6 (nd 1 TDir (B "out") (-1)) S O P E Q R eq_refl eq_refl). vm_compute in R. injection R as <- <-. destruct H as [n' H]. vm_compute in H. discriminate.
Qed.
Print Assumptions C69_user_dir_refuted.
(** If the rule is removed first, and the user's file after that, it stays. *)
Definition first_db : db := {| nodes := heads ++ last_nodes ++ [(10, nd 6 TFile (B "hand.c") 11)]; normal := [(5, 1); (7, 6); (8, 9)]; sticky := []; modify := [5]; create := [1]; config := [] |}.
Example C69_other_order :
  match phase true [{| tf_dir := 1; tf_keep := []; tf_outs := [] |}] first_db with
  | Ok (d, gone) => gone = [[B "x.o"; B "out"]] /\
      match scan [(B "Tupfile", FFile 10); (B "out", FDir [])] d with
      | Ok d => match phase true [{| tf_dir := 6; tf_keep := []; tf_outs := [] |}] d with Ok (d, _) => kinds [6; 10] d = [Some TDir; None] | _ => False end
      | _ => False
      end
  | _ => False
  end.
Proof. vm_compute. repeat split. Qed.

(** It is not so that an update never fails for what the user keeps where tup does not look: if
    out has a directory .git or a pipe in it, out cannot be removed, and the update fails. *)
Theorem C69_hidden_refuted : ~ (forall tups d, sound d -> parse_ok d tups -> in_place d -> has_environment d -> plain_outputs d tups ->
  (forall x n, lookup d x = Some n -> kind n <> TGeneratedDir) -> exists r, phase false tups d = Ok r).
Proof.
  intros H. destruct last_ok as [S [O [P [E Q]]]]. specialize (H last_tups last_db S O P E Q). assert (forall r, phase false last_tups last_db <> Ok r) as N by (intros r R; vm_compute in R; discriminate).
  destruct H as [r R]; [|exact (N r R)].
  intros x n L. apply lookup_in in L. vm_compute in L. decompose [or] L; try contradiction; match goal with E : (_, _) = (_, _) |- _ => injection E as <- <- end; discriminate.
Qed.
Print Assumptions C69_hidden_refuted.
