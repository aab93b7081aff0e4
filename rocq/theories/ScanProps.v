(** C55: after a scan the database says what is on the disk, and what changed is noticed. *)
From Verif Require Import Base ConfigModel ParseModel PathModel DbModel DbSpec ScanModel ScanSpec ScanProofs ScanProofs3 ScanProofs9 ScanExamples.
Require Import Permutation Lia.
Open Scope Z_scope.
Open Scope nat_scope.

Section C55.
  (** The depth of the recursion of tup_db_create_node, the order in which missing entries
      are removed, the directory of the exclusions, whether rmdir works, and the number of
      steps at the end of the transaction. *)
  Variables (fuel : nat) (ord : list nat -> list nat) (excl : nat) (rmdir : nat -> bool) (rounds : nat).
  Hypothesis ord_perm : forall l, Permutation (ord l) l.
  Hypothesis fuel_two : 2 <= fuel.

  (** The walk over the tree ends without an error, and then the database is in order and says
      what is on the disk. *)
  Theorem C55_walk_agrees_partial : forall files d,
    sound d -> scannable (FDir files) -> no_clash d (FDir files) ->
    exists d1 q, watch fuel ord (FDir files) 0 (B ".") (d, []) = Ok (d1, q) /\ sound d1 /\ agrees d1 (FDir files).
  Proof. intros files d S Sc NC. destruct (walk_ok fuel ord ord_perm fuel_two files d S Sc NC) as [d1 [q [E [S1 [A _]]]]]. eauto. Qed.

  (** So does the whole scan, when it ends well. *)
  Theorem C55_scan_agrees_partial : forall files d d2,
    sound d -> scannable (FDir files) -> no_clash d (FDir files) ->
    tup_scan fuel ord excl rmdir rounds files d = Ok d2 -> settled d d2 (FDir files).
  Proof. intros. eapply scan_settled; eauto. Qed.

  (** A command that read a file which is now gone or has another time will be run. *)
  Theorem C55_change_noticed_partial : forall files d d2,
    sound d -> scannable (FDir files) -> no_clash d (FDir files) ->
    tup_scan fuel ord excl rmdir rounds files d = Ok d2 ->
    forall r x n c, visible r -> inside r -> at_path d r x n -> kind n = TFile -> nname n <> B "tup.config" ->
      on_disk (FDir files) r <> Some (FFile (time n)) ->
      In (x, c) (normal d) -> is_kind d2 TCmd c -> scheduled d2 c.
  Proof. intros files d d2 S Sc NC H. eapply scan_changed; eauto. Qed.

  (** A generated file that is gone or has another time will be made again: its commands will
      be run, or its commands are gone, and then its readers will be run and the Tupfile of
      the directory it comes from will be parsed again. *)
  Theorem C55_generated_noticed_partial : forall files d d2,
    sound d -> scannable (FDir files) -> no_clash d (FDir files) ->
    tup_scan fuel ord excl rmdir rounds files d = Ok d2 ->
    forall r x n, visible r -> inside r -> at_path d r x n -> kind n = TGenerated -> nname n <> B "tup.config" -> nname n <> B ".gitignore" ->
      on_disk (FDir files) r <> Some (FFile (time n)) -> (forall l, on_disk (FDir files) r <> Some (FDir l)) ->
      (forall c, In (c, x) (normal d) -> is_kind d2 TCmd c -> scheduled d2 c) \/
      (forall c, In (x, c) (normal d) -> is_kind d2 TCmd c -> scheduled d2 c) /\
      (forall s rs ns l, src n = Some s -> at_path d rs s ns -> kind ns = TDir -> visible rs -> on_disk (FDir files) rs = Some (FDir l) -> In s (create d2)).
  Proof. intros files d d2 S Sc NC H. eapply scan_generated; eauto. Qed.

  (** The Tupfile of a directory with a new file will be parsed again. *)
  Theorem C55_new_file_noticed_partial : forall files d d2,
    sound d -> scannable (FDir files) -> no_clash d (FDir files) ->
    tup_scan fuel ord excl rmdir rounds files d = Ok d2 ->
    forall nm r m, visible (nm :: r) -> on_disk (FDir files) (nm :: r) = Some (FFile m) ->
      (forall x n, ~ at_path d (nm :: r) x n) \/
      (exists x n, at_path d r x n /\ kind n = TDir) /\ (forall x n, at_path d (nm :: r) x n -> is_file (kind n) = false) ->
      exists x n, at_path d2 r x n /\ kind n = TDir /\ In x (create d2).
  Proof. intros files d d2 S Sc NC H. eapply scan_new; eauto. Qed.

  (** What the scan leaves alone: directories that are still there keep their entry, no command
      appears, links between commands that stay are kept, and so are the flags of commands. *)
  Theorem C55_kept_partial : forall files d d2,
    sound d -> scannable (FDir files) -> no_clash d (FDir files) ->
    tup_scan fuel ord excl rmdir rounds files d = Ok d2 ->
    (forall r l x n, visible r -> on_disk (FDir files) r = Some (FDir l) -> at_path d r x n -> kind n = TDir -> exists n', at_path d2 r x n' /\ kind n' = TDir) /\
    (forall c, is_kind d2 TCmd c -> is_kind d TCmd c) /\
    (forall a b, In (a, b) (normal d) -> is_kind d2 TCmd a -> is_kind d2 TCmd b -> In (a, b) (normal d2)) /\
    (forall c, In c (modify d) -> is_kind d2 TCmd c -> In c (modify d2)).
  Proof. intros files d d2 S Sc NC H. eapply scan_kept; eauto. Qed.

  (** When nothing changed the scan changes nothing. *)
  Theorem C55_unchanged_quiet : forall files d,
    sound d -> scannable (FDir files) -> unchanged d (FDir files) -> 0 < rounds ->
    tup_scan fuel ord excl rmdir rounds files d = Ok d.
  Proof. intros. apply scan_quiet; auto. Qed.
End C55.

Print Assumptions C55_walk_agrees_partial.
Print Assumptions C55_scan_agrees_partial.
Print Assumptions C55_change_noticed_partial.
Print Assumptions C55_generated_noticed_partial.
Print Assumptions C55_new_file_noticed_partial.
Print Assumptions C55_kept_partial.
Print Assumptions C55_unchanged_quiet.

(** A small project: src/a.c is compiled to a.o and out/x. *)
Definition nd (dt : nat) (k : ntype) (nm : bytes) (m : Z) : node := {| dir := dt; kind := k; src := None; nname := nm; time := m |}.
Definition gen (dt : nat) (s : nat) (nm : bytes) (m : Z) : node := {| dir := dt; kind := TGenerated; src := Some s; nname := nm; time := m |}.
Definition heads : list (nat * node) :=
  [(1, nd 0 TDir (B ".") (-1)); (2, nd 1 TDir (B "$") (-1)); (3, nd 1 TDir (B "/") (-1)); (4, nd 1 TDir (B "^") (-1))].
Definition mk (l : list (nat * node)) (links : list (nat * nat)) : db :=
  {| nodes := heads ++ l; normal := links; sticky := links; modify := []; create := []; config := [] |}.
Definition project : db :=
  mk [(5, nd 1 TFile (B "Tupfile") 10); (6, nd 1 TDir (B "src") (-1)); (7, nd 6 TFile (B "a.c") 11); (8, nd 1 TCmd (B "cc a.c") (-1));
      (9, gen 1 1 (B "a.o") 12); (10, nd 6 TGhost (B "b.h") (-1)); (11, nd 1 TGeneratedDir (B "out") (-1)); (12, gen 11 1 (B "x") 13)]
     [(5, 1); (7, 8); (10, 8); (8, 9); (8, 12)].
Definition same_tree : list (bytes * tree) :=
  [(B ".git", FDir []); (B "a.o", FFile 12); (B "src", FDir [(B "a.c", FFile 11)]); (B "Tupfile", FFile 10); (B "out", FDir [(B "x", FFile 13)])].
(* src/a.c was edited, a.o was removed, and there are src/n.c and lib/l.c *)
Definition new_tree : list (bytes * tree) :=
  [(B ".git", FDir [(B "HEAD", FFile 1)]); (B "src", FDir [(B "n.c", FFile 31); (B "a.c", FFile 30)]); (B "Tupfile", FFile 10); (B "out", FDir [(B "x", FFile 13)]);
   (B "lib", FDir [(B "l.c", FFile 32)])].
Definition scan := tup_scan 2 (fun l => l) 4 (fun _ => true) 100.

Example project_sound : sound project.
Proof. apply sound_ok. vm_compute. reflexivity. Qed.
Example C55_hypotheses : scannable (FDir new_tree) /\ no_clash project (FDir new_tree) /\ scannable (FDir same_tree) /\ unchanged project (FDir same_tree).
Proof.
  split; [apply scannable_ok; vm_compute; reflexivity|]. split; [apply clash_ok; [exact project_sound|vm_compute; reflexivity]|].
  split; [apply scannable_ok; vm_compute; reflexivity|]. apply unchanged_ok; [exact project_sound|vm_compute; reflexivity].
Qed.
Example C55_scan_ends :
  match scan new_tree project with
  | Ok d => (map (fun p => (fst p, nname (snd p))) (skipn 12 (nodes d)), modify d, create d) =
            ([(13, B "n.c"); (14, B "lib"); (15, B "l.c")], [8; 7], [14; 14; 6])
  | _ => False
  end.
Proof. vm_compute. reflexivity. Qed.
(* the command reads src/a.c, which has another time now *)
Example C55_change_case : exists n, at_path project [B "a.c"; B "src"] 7 n /\ kind n = TFile /\ on_disk (FDir new_tree) [B "a.c"; B "src"] <> Some (FFile (time n)) /\ In (7, 8) (normal project).
Proof.
  eexists. split; [|split; [|split]].
  - eapply ap_in; [eapply ap_in; [apply ap_top; reflexivity| | |]| | |]; [do 5 right; left; reflexivity|reflexivity|reflexivity|do 6 right; left; reflexivity|reflexivity|reflexivity].
  - reflexivity.
  - vm_compute. discriminate.
  - right. left. reflexivity.
Qed.
(* a.o is gone *)
Example C55_generated_case : exists n, at_path project [B "a.o"] 9 n /\ kind n = TGenerated /\ on_disk (FDir new_tree) [B "a.o"] = None /\ In (8, 9) (normal project).
Proof.
  eexists. split; [|split; [|split]].
  - eapply ap_in; [apply ap_top; reflexivity| | |]; [do 8 right; left; reflexivity|reflexivity|reflexivity].
  - reflexivity.
  - vm_compute. reflexivity.
  - do 3 right. left. reflexivity.
Qed.
Example C55_quiet_case : scan same_tree project = Ok project.
Proof. vm_compute. reflexivity. Qed.

(** What is not true of the program without these conditions. *)
Lemma not_scheduled d : modify d = [] -> forall c, ~ scheduled d c.
Proof. intros E c H. induction H as [x H|x y H IH L]; [rewrite E in H; exact H|exact IH]. Qed.
Lemma no_kind d k c : has_kind d [k] c = false -> ~ is_kind d k c.
Proof. intros H [n [L K]]. unfold has_kind in H. rewrite L, K in H. destruct k; discriminate. Qed.

(** A scan can fail for good: a command of a removed directory had looked for the file zB,
    and zB is now a directory. *)
Theorem C55_scan_completes_refuted : exists d files,
  sound d /\ scannable (FDir files) /\ no_clash d (FDir files) /\
  forall rounds, tup_scan 2 (fun l => l) 4 (fun _ => true) (S rounds) files d = Bad.
Proof.
  exists (mk [(5, nd 1 TDir (B "sub") (-1)); (6, nd 5 TDir (B "A") (-1)); (7, nd 6 TCmd (B "cat ../zB") (-1)); (8, nd 1 TGhost (B "zB") (-1))] [(8, 7)]),
         [(B "sub", FDir []); (B "zB", FDir [])].
  match goal with |- sound ?d /\ _ => assert (sound d) as S by (apply sound_ok; vm_compute; reflexivity) end.
  split; [exact S|]. split; [apply scannable_ok; vm_compute; reflexivity|]. split; [apply clash_ok; [exact S|vm_compute; reflexivity]|].
  intros rounds. vm_compute. reflexivity.
Qed.
(** A directory with the name of a group of its directory: the scan does not end. *)
Theorem C55_scan_ends_refuted : exists d files,
  sound d /\ scannable (FDir files) /\ forall fuel rounds, tup_scan fuel (fun l => l) 4 (fun _ => true) rounds files d = NoFuel.
Proof.
  set (d := mk [(5, nd 1 TGroup (B "<objs>") (-1)); (6, nd 1 TCmd (B "true") (-1))] [(6, 5)]). exists d, [(B "<objs>", FDir [])].
  split; [apply sound_ok; vm_compute; reflexivity|]. split; [apply scannable_ok; vm_compute; reflexivity|].
  assert (forall fuel q, create_dir fuel 1 (B "<objs>") (d, q) = NoFuel) as E.
  { induction fuel as [|fuel IH]; intros q; [reflexivity|]. transitivity (create_dir fuel 1 (B "<objs>") (d, q)); [reflexivity|apply IH]. }
  intros fuel rounds. unfold tup_scan. cbn [watch Nat.eqb obind]. rewrite E. reflexivity.
Qed.
(** A file with the name of a group of its directory: the scan ends with an error. *)
Theorem C55_group_file_refuted : exists d files,
  sound d /\ scannable (FDir files) /\ forall rounds, tup_scan 2 (fun l => l) 4 (fun _ => true) rounds files d = Bad.
Proof.
  exists (mk [(5, nd 1 TGroup (B "<objs>") (-1)); (6, nd 1 TCmd (B "true") (-1))] [(6, 5)]), [(B "<objs>", FFile 7)].
  split; [apply sound_ok; vm_compute; reflexivity|]. split; [apply scannable_ok; vm_compute; reflexivity|]. intros. vm_compute. reflexivity.
Qed.
(** A file with the name of a command of its directory removes the command. *)
Theorem C55_command_kept_refuted : exists d files c d2,
  sound d /\ scannable (FDir files) /\ is_kind d TCmd c /\ scan files d = Ok d2 /\ ~ is_kind d2 TCmd c.
Proof.
  eexists (mk [(5, nd 1 TFile (B "Tupfile") 10); (6, nd 1 TCmd (B "configure") (-1))] [(5, 1)]), [(B "Tupfile", FFile 10); (B "configure", FFile 20)], 6, _.
  split; [apply sound_ok; vm_compute; reflexivity|]. split; [apply scannable_ok; vm_compute; reflexivity|].
  split; [eexists; split; reflexivity|]. split; [vm_compute; reflexivity|]. apply no_kind. vm_compute. reflexivity.
Qed.
(** A file called ^ in the top directory removes the directory of the exclusions. *)
Theorem C55_special_file_refuted : exists d files n d2,
  sound d /\ scannable (FDir files) /\ no_clash d (FDir files) /\ lookup d 4 = Some n /\ nname n = B "^" /\ scan files d = Ok d2 /\ ~ is_kind d2 TDir 4.
Proof.
  eexists (mk [] []), [(B "^", FFile 20)], _, _.
  match goal with |- sound ?d /\ _ => assert (sound d) as S by (apply sound_ok; vm_compute; reflexivity) end.
  split; [exact S|]. split; [apply scannable_ok; vm_compute; reflexivity|]. split; [apply clash_ok; [exact S|vm_compute; reflexivity]|].
  split; [reflexivity|]. split; [reflexivity|]. split; [vm_compute; reflexivity|]. apply no_kind. vm_compute. reflexivity.
Qed.
(** A file in whose place there is a fifo now stays as a file with its time, and its reader is not run. *)
Theorem C55_fifo_refuted : exists d files x c n d2,
  sound d /\ scannable (FDir files) /\ at_path d [B "a.c"] x n /\ kind n = TFile /\ on_disk (FDir files) [B "a.c"] = Some FOther /\
  In (x, c) (normal d) /\ is_kind d2 TCmd c /\ scan files d = Ok d2 /\ ~ scheduled d2 c.
Proof.
  set (d := mk [(5, nd 1 TFile (B "a.c") 10); (6, nd 1 TCmd (B "cc a.c") (-1))] [(5, 6)]). exists d, [(B "a.c", FOther)], 5, 6. eexists _, d.
  split; [apply sound_ok; vm_compute; reflexivity|]. split; [apply scannable_ok; vm_compute; reflexivity|].
  split; [eapply ap_in; [apply ap_top; reflexivity| | |]; [do 4 right; left; reflexivity|reflexivity|reflexivity]|].
  split; [reflexivity|]. split; [reflexivity|]. split; [left; reflexivity|]. split; [eexists; split; reflexivity|]. split; [vm_compute; reflexivity|]. apply not_scheduled. reflexivity.
Qed.
(** A generated file in whose place there is a directory now: its command is not run, and the
    Tupfile is not parsed again. *)
Theorem C55_generated_directory_refuted : exists d files x c n d2 l,
  sound d /\ scannable (FDir files) /\ no_clash d (FDir files) /\ at_path d [B "a.o"] x n /\ kind n = TGenerated /\ on_disk (FDir files) [B "a.o"] = Some (FDir l) /\
  In (c, x) (normal d) /\ is_kind d2 TCmd c /\ scan files d = Ok d2 /\ ~ scheduled d2 c /\ ~ In top (create d2) /\ src n = Some top.
Proof.
  set (d := mk [(5, nd 1 TFile (B "Tupfile") 10); (6, nd 1 TCmd (B "cc a.c") (-1)); (7, gen 1 1 (B "a.o") 11)] [(5, 1); (6, 7)]). eexists d, [(B "Tupfile", FFile 10); (B "a.o", FDir [])], 7, 6, _, _, [].
  assert (sound d) as S by (apply sound_ok; vm_compute; reflexivity).
  split; [exact S|]. split; [apply scannable_ok; vm_compute; reflexivity|]. split; [apply clash_ok; [exact S|vm_compute; reflexivity]|].
  split; [eapply ap_in; [apply ap_top; reflexivity| | |]; [do 6 right; left; reflexivity|reflexivity|reflexivity]|].
  split; [reflexivity|]. split; [reflexivity|]. split; [right; left; reflexivity|]. split; [|split; [vm_compute; reflexivity|]]; [eexists; split; reflexivity|].
  split; [apply not_scheduled; reflexivity|]. split; [|reflexivity]. cbn. intros [H|[]]. discriminate.
Qed.
(** A directory called tup.config that is removed leaves its files in the database. *)
Theorem C55_config_directory_refuted : exists d before after d1 d2 r x n,
  sound d /\ scan before d = Ok d1 /\ scan after d1 = Ok d2 /\ on_disk (FDir after) r = None /\ visible r /\ inside r /\ at_path d2 r x n /\ kind n = TFile.
Proof.
  eexists (mk [] []), [(B "tup.config", FDir [(B "x", FFile 10)])], [], _, _, [B "x"; B "tup.config"], 6, _.
  split; [apply sound_ok; vm_compute; reflexivity|]. split; [vm_compute; reflexivity|]. split; [vm_compute; reflexivity|].
  split; [reflexivity|]. split; [apply visible_ok; vm_compute; reflexivity|]. split.
  - intros nm u E. destruct u as [|a [|b [|? ?]]]; try discriminate. injection E as <- <-. unfold special. cbn [In]. intros [H|[H|[H|[]]]]; discriminate.
  - split; [eapply ap_in; [eapply ap_in; [apply ap_top; reflexivity| | |]| | |]; [do 4 right; left; reflexivity|reflexivity|reflexivity|do 5 right; left; reflexivity|reflexivity|reflexivity]|reflexivity].
Qed.
(** A file that the user makes in a directory tup made, and that a command had looked for:
    the directory does not become one of the user, and no Tupfile is parsed again for it. *)
Theorem C55_ghost_in_generated_directory_refuted : exists d files d2,
  sound d /\ scannable (FDir files) /\ no_clash d (FDir files) /\ scan files d = Ok d2 /\
  on_disk (FDir files) [B "f"; B "out"] = Some (FFile 20) /\ (forall x n, at_path d [B "f"; B "out"] x n -> is_file (kind n) = false) /\
  create d2 = [] /\ (exists x n, at_path d2 [B "out"] x n /\ kind n = TGeneratedDir).
Proof.
  set (d := mk [(5, nd 1 TGeneratedDir (B "out") (-1)); (6, nd 1 TCmd (B "gen") (-1)); (7, gen 5 1 (B "x") 11); (8, nd 5 TGhost (B "f") (-1))] [(6, 7); (8, 6)]).
  eexists d, [(B "out", FDir [(B "x", FFile 11); (B "f", FFile 20)])], _.
  assert (sound d) as S by (apply sound_ok; vm_compute; reflexivity).
  split; [exact S|]. split; [apply scannable_ok; vm_compute; reflexivity|]. split; [apply clash_ok; [exact S|vm_compute; reflexivity]|].
  split; [vm_compute; reflexivity|]. split; [reflexivity|]. split.
  - intros x n G. apply sound_base in S as [W _]. assert (at_path d [B "f"; B "out"] 8 (nd 5 TGhost (B "f") (-1))) as G8.
    { eapply ap_in; [eapply ap_in; [apply ap_top; reflexivity| | |]| | |]; [do 4 right; left; reflexivity|reflexivity|reflexivity|do 7 right; left; reflexivity|reflexivity|reflexivity]. }
    destruct (at_fun d _ W _ _ _ _ G G8) as [_ ->]. reflexivity.
  - split; [reflexivity|]. eexists 5, _. split; [eapply ap_in; [apply ap_top; reflexivity| | |]; [do 4 right; left; reflexivity|reflexivity|reflexivity]|reflexivity].
Qed.
Print Assumptions C55_scan_completes_refuted.
Print Assumptions C55_scan_ends_refuted.
Print Assumptions C55_group_file_refuted.
Print Assumptions C55_command_kept_refuted.
Print Assumptions C55_special_file_refuted.
Print Assumptions C55_fifo_refuted.
Print Assumptions C55_generated_directory_refuted.
Print Assumptions C55_config_directory_refuted.
Print Assumptions C55_ghost_in_generated_directory_refuted.
