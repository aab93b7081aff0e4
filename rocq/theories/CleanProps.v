(** C56: which files tup deletes after the Tupfiles were parsed. *)
From Verif Require Import Base ConfigModel ParseModel PathModel DbModel DbSpec ScanModel ScanSpec ScanProofs ScanProofs3 ScanExamples ScanProps CleanModel CleanSpec CleanProofs4.
Require Import Lia.
Open Scope Z_scope.
Open Scope nat_scope.

Section C56.
  (** The directory of the exclusions, whether rmdir works, and the number of steps at the end
      of the transaction. *)
  Variables (excl : nat) (rmdir : nat -> bool) (rounds : nat).
  Variables (tups : list tupfile) (d d' : db) (gone : list path).
  Hypothesis d_sound : sound d.
  Hypothesis d_parse : parse_ok d tups.
  Hypothesis run : process_create excl rmdir rounds tups d = Ok (d', gone).

  (** Only a generated file is deleted. No rule makes it now, and its Tupfile was parsed and
      the file was not edited, or the directory of its Tupfile was removed. *)
  Theorem C56_only_stale_partial : forall r, In r gone ->
    exists y n s, made d r y n s /\ ~ declared tups (dir n) (nname n) /\ (parsed tups s /\ ~ In y (modify d) \/ orphan d n s).
  Proof. intros r. apply sound_base in d_sound as [W _]. eapply only_stale; eauto. Qed.

  (** All of them are, and their entries go. *)
  Theorem C56_stale_removed_partial : forall r y n s,
    made d r y n s -> ~ declared tups (dir n) (nname n) -> parsed tups s /\ ~ In y (modify d) \/ orphan d n s ->
    In r gone /\ forall y' n', at_path d' r y' n' -> kind n' = TGhost.
  Proof. apply sound_base in d_sound as [W _]. eapply stale_removed; eauto. Qed.

  (** An output that was edited is not deleted when its rule goes: it becomes a normal file. *)
  Theorem C56_edited_kept_partial : forall r y n s,
    made d r y n s -> parsed tups s -> ~ declared tups (dir n) (nname n) -> In y (modify d) ->
    ~ In r gone /\ exists n', at_path d' r y n' /\ kind n' = TFile /\ time n' = time n.
  Proof. apply sound_base in d_sound as [W _]. eapply edited_kept; eauto. Qed.

  (** An output of a rule is not deleted, also when it was made by another directory before. *)
  Theorem C56_declared_kept_partial : forall P dt p nm,
    at_path d P dt p -> declared tups dt nm ->
    ~ In (nm :: P) gone /\ exists y n t, at_path d' (nm :: P) y n /\ kind n = TGenerated /\ src n = Some (tf_dir t) /\ In t tups /\ In (dt, nm) (tf_outs t).
  Proof. apply sound_base in d_sound as [W _]. eapply declared_kept; eauto. Qed.

  (** Normal files and directories are not touched. *)
  Theorem C56_sources_kept_partial : forall r y n,
    at_path d r y n -> kind n = TFile \/ kind n = TDir -> ~ In r gone /\ at_path d' r y n.
  Proof.
    intros r y n A K. apply sound_base in d_sound as [W _]. eapply other_kept; eauto; destruct K as [K|K]; rewrite K; (discriminate || reflexivity).
  Qed.

  (** Neither are outputs of directories that are not parsed. *)
  Theorem C56_unparsed_kept_partial : forall r y n s,
    made d r y n s -> ~ declared tups (dir n) (nname n) -> ~ parsed tups s -> ~ orphan d n s -> ~ In r gone /\ at_path d' r y n.
  Proof. apply sound_base in d_sound as [W _]. eapply unparsed_kept; eauto. Qed.

  (** A command goes when its Tupfile was parsed and does not have it any more. *)
  Theorem C56_commands_left_partial : forall c n,
    lookup d c = Some n -> kind n = TCmd -> (is_kind d' TCmd c <-> ~ (parsed tups (dir n) /\ ~ exists t, In t tups /\ In c (tf_keep t))).
  Proof. apply sound_base in d_sound as [W _]. eapply commands_left; eauto. Qed.

  (** Commands that read a file which is deleted, or becomes a normal file, will be run. *)
  Theorem C56_users_flagged_partial : forall r y n s c,
    made d r y n s -> nname n <> B "tup.config" -> ~ declared tups (dir n) (nname n) -> parsed tups s \/ orphan d n s ->
    In (y, c) (normal d) -> is_kind d TCmd c -> is_kind d' TCmd c -> In c (modify d').
  Proof. apply sound_base in d_sound as [W _]. eapply users_flagged; eauto. Qed.
End C56.

Print Assumptions C56_only_stale_partial.
Print Assumptions C56_stale_removed_partial.
Print Assumptions C56_edited_kept_partial.
Print Assumptions C56_declared_kept_partial.
Print Assumptions C56_sources_kept_partial.
Print Assumptions C56_unparsed_kept_partial.
Print Assumptions C56_commands_left_partial.
Print Assumptions C56_users_flagged_partial.

(** lib/Tupfile made lib/a.o, lib/b.o, lib/c.o and out/x; now it only makes lib/a.o and lib/new.
    lib/b.o was edited. *)
Definition lib_db : db :=
  {| nodes := heads ++
       [(5, nd 1 TDir (B "lib") (-1)); (6, nd 5 TFile (B "Tupfile") 10); (7, nd 5 TCmd (B "cc a.c") (-1)); (8, gen 5 5 (B "a.o") 12); (9, gen 5 5 (B "b.o") 13);
        (10, nd 1 TDir (B "out") (-1)); (11, gen 10 5 (B "x") 14); (12, nd 1 TCmd (B "ar b.o c.o") (-1)); (13, nd 5 TCmd (B "cc b.c") (-1)); (14, gen 5 5 (B "c.o") 15);
        (15, gen 1 1 (B "lib.a") 16)];
     normal := [(6, 5); (7, 8); (13, 9); (13, 11); (13, 14); (9, 12); (14, 12); (12, 15)]; sticky := []; modify := [9; 6]; create := [5]; config := [] |}.
Definition lib_tup : tupfile := {| tf_dir := 5; tf_keep := [7]; tf_outs := [(5, B "a.o"); (5, B "new")] |}.
Definition clean := process_create 4 (fun _ => true) 100.

Example lib_sound : sound lib_db.
Proof. apply sound_ok. vm_compute. reflexivity. Qed.
Example lib_parse : parse_ok lib_db [lib_tup].
Proof.
  split.
  - repeat constructor. intros [].
  - intros t [<-|[]]. eexists. split; [vm_compute; reflexivity|reflexivity].
  - intros t dt nm [<-|[]] [E|[E|[]]]; injection E as <- <-; (eexists; split; [vm_compute; reflexivity|reflexivity]).
  - intros t c [<-|[]] [<-|[]]. eexists. split; [vm_compute; reflexivity|split; reflexivity].
Qed.
Example C56_run :
  match clean [lib_tup] lib_db with
  | Ok (d, gone) => gone = [[B "c.o"; B "lib"]; [B "x"; B "out"]] /\ has_kind d [TFile] 9 = true /\ has_kind d [TGenerated] 8 = true /\ lookup d 14 = None /\ lookup d 13 = None /\
      has_kind d [TCmd] 7 = true /\ In 12 (modify d) /\ option_map (fun n => (kind n, src n)) (lookup d 16) = Some (TGenerated, Some 5)
  | _ => False
  end.
Proof. vm_compute. repeat (split; [reflexivity|]). split; [left; reflexivity|reflexivity]. Qed.
(* lib/b.o was edited and is not made any more *)
Example C56_case : exists n, made lib_db [B "b.o"; B "lib"] 9 n 5 /\ parsed [lib_tup] 5 /\ ~ declared [lib_tup] (dir n) (nname n) /\ In 9 (modify lib_db) /\ In (9, 12) (normal lib_db).
Proof.
  exists (gen 5 5 (B "b.o") 13). split; [|split; [|split; [|split]]].
  - split; [|split; [reflexivity|split; [reflexivity|vm_compute; discriminate]]].
    eapply ap_in; [eapply ap_in; [apply ap_top; reflexivity| | |]| | |]; [do 4 right; left; reflexivity|reflexivity|reflexivity|do 8 right; left; reflexivity|reflexivity|reflexivity].
  - exists lib_tup. split; [left; reflexivity|reflexivity].
  - intros [t [[<-|[]] [E|[E|[]]]]]; injection E; discriminate.
  - left. reflexivity.
  - do 5 right. left. reflexivity.
Qed.

(** It is not so that a file which was edited is always kept: lib, whose Tupfile made out/x,
    is removed, and out/x was edited. The scan notices both; out/x is deleted. *)
Definition made_db : db :=
  mk [(5, nd 1 TDir (B "lib") (-1)); (6, nd 5 TFile (B "Tupfile") 10); (7, nd 5 TCmd (B "gen x") (-1)); (8, nd 1 TDir (B "out") (-1)); (9, gen 8 5 (B "x") 14)] [(6, 5); (7, 9)].
Definition made_tree (m : Z) : list (bytes * tree) := [(B "out", FDir [(B "x", FFile m)])].
Theorem C56_edited_file_refuted : ~ (forall files d d1 tups d2 gone r y n m,
  sound d -> scannable (FDir files) -> no_clash d (FDir files) -> scan files d = Ok d1 -> sound d1 -> parse_ok d1 tups -> clean tups d1 = Ok (d2, gone) ->
  visible r -> at_path d r y n -> kind n = TGenerated -> on_disk (FDir files) r = Some (FFile m) -> m <> time n -> ~ In r gone).
Proof.
  intros H. assert (sound made_db) as S by (apply sound_ok; vm_compute; reflexivity).
  destruct (scan (made_tree 20) made_db) as [d1| | |] eqn:E1; [|vm_compute in E1; discriminate..].
  assert (sound d1) as S1 by (apply sound_ok; vm_compute in E1; injection E1 as <-; vm_compute; reflexivity).
  destruct (clean [] d1) as [[d2 gone]| | |] eqn:E2; [|vm_compute in E1; injection E1 as <-; vm_compute in E2; discriminate..].
  apply (H (made_tree 20) made_db d1 [] d2 gone [B "x"; B "out"] 9 (gen 8 5 (B "x") 14) 20%Z); auto.
  - apply scannable_ok. vm_compute. reflexivity.
  - apply clash_ok; [exact S|vm_compute; reflexivity].
  - split; [constructor|intros t []|intros t dt nm []|intros t c []].
  - apply visible_ok. vm_compute. reflexivity.
  - eapply ap_in; [eapply ap_in; [apply ap_top; reflexivity| | |]| | |]; [do 7 right; left; reflexivity|reflexivity|reflexivity|do 8 right; left; reflexivity|reflexivity|reflexivity].
  - discriminate.
  - vm_compute in E1. injection E1 as <-. vm_compute in E2. injection E2 as <- <-. left. reflexivity.
Qed.
Print Assumptions C56_edited_file_refuted.
(* when only the Tupfile is removed the same file is kept *)
Example C56_edited_file_kept :
  match scan (made_tree 20 ++ [(B "lib", FDir [])]) made_db with
  | Ok d1 => match clean [{| tf_dir := 5; tf_keep := []; tf_outs := [] |}] d1 with Ok (d2, gone) => gone = [] /\ has_kind d2 [TFile] 9 = true | _ => False end
  | _ => False
  end.
Proof. vm_compute. auto. Qed.
