(** C37: the server sees the accesses that the processes of a job report. *)
From Verif Require Import Base ConfigModel DepModel DepSpec DepProofs.

(** Every sequence of accesses is read back as it was written: type, full path, second path. *)
Theorem C37_round_trip : forall l, Forall good l -> process_depfile (flat_map record l) = Ok (map seen l).
Proof. exact round_trip. Qed.
Print Assumptions C37_round_trip.

(** Processes that write at the same time, under every schedule: what is read is a merge of the
    accesses of the processes, each in its own order, apart from those on ignored files. *)
Theorem C37_concurrent_writers : forall progs t, (forall i, Forall good (progs i)) ->
  wsteps NoKill (wstart progs) t -> all_done t ->
  exists order, process_depfile (file t) = Ok (map (fun p => seen (snd p)) order) /\
    forall i, of_process i order = filter sends (progs i).
Proof.
  intros progs t G H [Hn D]. destruct (schedule NoKill progs t ltac:(discriminate) G H Hn) as [o [E O]]. exists o. split; [rewrite E, map_map; reflexivity|].
  intros i. destruct (O i) as [rest [F [R|[X _]]]]; [|congruence]. rewrite D in R. cbn in R. subst rest. rewrite app_nil_r in F. auto.
Qed.
Print Assumptions C37_concurrent_writers.

(** An access is reported unless one of its names is a kernel's or a cache's. *)
Theorem C37_reported : forall a, sends a = true <-> ~ unreported (a_file a) /\ ~ unreported (a_file2 a).
Proof. intros a. unfold sends. rewrite andb_true_iff, !negb_true_iff, <- !ignore_spec. destruct (ignore_file (a_file a)), (ignore_file (a_file2 a)); intuition congruence. Qed.
Print Assumptions C37_reported.

(** Processes killed between two records lose their later accesses only. *)
Theorem C37_killed_between_records : forall progs t, (forall i, Forall good (progs i)) ->
  wsteps BetweenRecords (wstart progs) t -> holder t = None ->
  exists order, process_depfile (file t) = Ok (map (fun p => seen (snd p)) order) /\
    forall i, exists rest, filter sends (progs i) = of_process i order ++ rest.
Proof.
  intros progs t G H Hn. destruct (schedule BetweenRecords progs t ltac:(discriminate) G H Hn) as [o [E O]]. exists o. split; [rewrite E, map_map; reflexivity|].
  intros i. destruct (O i) as [rest [F _]]. eauto.
Qed.
Print Assumptions C37_killed_between_records.

(** A file that ends within a record is an error, and so the job fails. *)
Theorem C37_cut_short_rejected : forall l a p q, Forall good l -> good a -> record a = p ++ q -> p <> [] -> q <> [] ->
  process_depfile (flat_map record l ++ p) = Bad.
Proof. exact cut_short. Qed.
Print Assumptions C37_cut_short_rejected.

(** So is a path that does not fit the server's buffers. *)
Theorem C37_too_long_rejected : forall l a rest, Forall good l -> (0 <= a_at a < 2147483648)%Z ->
  (Z.of_nat (length (snd (fst (seen a)))) < 2147483648)%Z -> (Z.of_nat (length (snd (seen a))) < 2147483648)%Z ->
  (4095 <= Z.of_nat (length (snd (fst (seen a)))) \/ 4095 <= Z.of_nat (length (snd (seen a))))%Z ->
  process_depfile (flat_map record l ++ record a ++ rest) = Bad.
Proof.
  intros l a rest G A M1 M2 L. unfold process_depfile. rewrite process_records by (auto; lia). pose proof (flat_len l). rewrite !app_length.
  destruct (S (length (flat_map record l) + (length (record a) + length rest)) - length l) eqn:E; [lia|]. rewrite process_long; auto.
Qed.
Print Assumptions C37_too_long_rejected.

(** ** A concrete case: a compiler and a script. *)
Definition ex_read : access := {| a_dir := B "/home/u/p"; a_file := B "foo.c"; a_file2 := []; a_at := 0 |}.
Definition ex_hdr : access := {| a_dir := B "/home/u/p"; a_file := B "/usr/include/stdio.h"; a_file2 := []; a_at := 0 |}.
Definition ex_mv : access := {| a_dir := B "/home/u/p"; a_file := B "foo.tmp"; a_file2 := B "foo.o"; a_at := 2 |}.
Definition ex_null : access := {| a_dir := B "/home/u/p"; a_file := B "/dev/null"; a_file2 := []; a_at := 1 |}.
Lemma ex_good : Forall good [ex_read; ex_hdr; ex_mv; ex_null].
Proof.
  assert (N : forall s, forallb (fun c => negb (c =?c "000"%char)) s = true -> no_nul s).
  { intros s F I. rewrite forallb_forall in F. specialize (F _ I). discriminate. }
  repeat constructor; try (apply N; reflexivity); cbn; lia.
Qed.
Example ex_decode : process_depfile (flat_map record [ex_read; ex_hdr; ex_mv]) =
  Ok [(0%Z, B "/home/u/p/foo.c", []); (0%Z, B "/usr/include/stdio.h", []); (2%Z, B "/home/u/p/foo.tmp", B "/home/u/p/foo.o")].
Proof. rewrite C37_round_trip; [reflexivity|]. pose proof ex_good as G. inversion G as [|? ? H1 G1]; subst. inversion G1 as [|? ? H2 G2]; subst. inversion G2; subst. auto. Qed.
Definition ex_progs (i : nat) : list access := match i with 0 => [ex_read; ex_null] | 1 => [ex_mv] | _ => [] end.
Definition ex_sched : list (nat * bool) := repeat (1, false) 9 ++ repeat (0, false) 8.
Definition ex_end : wst := match exec NoKill ex_sched (wstart ex_progs) with Some t => t | None => wstart ex_progs end.
Example ex_run : wsteps NoKill (wstart ex_progs) ex_end /\ all_done ex_end /\
  process_depfile (file ex_end) = Ok [seen ex_mv; seen ex_read].
Proof.
  split; [|split].
  - apply exec_some. vm_compute. reflexivity.
  - split; [vm_compute; reflexivity|]. intros [|[|i]]; vm_compute; reflexivity.
  - vm_compute. reflexivity.
Qed.
Example ex_killed : let t := match exec BetweenRecords (repeat (0, false) 7 ++ [(1, true)]) (wstart ex_progs) with Some t => t | None => wstart ex_progs end in
  wsteps BetweenRecords (wstart ex_progs) t /\ holder t = None /\ process_depfile (file t) = Ok [seen ex_read].
Proof. split; [apply exec_some; vm_compute; reflexivity|split; vm_compute; reflexivity]. Qed.
Example ex_cut : process_depfile (flat_map record [ex_read] ++ firstn 20 (record ex_hdr)) = Bad.
Proof. vm_compute. reflexivity. Qed.
Example ex_ignored : sends ex_null = false /\ sends ex_read = true. Proof. split; reflexivity. Qed.

(** ** A process killed within a record (a fatal signal, or the job's kill of a child): its lock
    goes away with it and the next process appends after the torn record. The server then
    reads the second record as the first one's text: here the read of "a.h" is lost, and the job
    is accepted. *)
Definition torn : access := {| a_dir := B "/home/u/p"; a_file := B "generated_foo.inc"; a_file2 := []; a_at := 0 |}.
Definition torn_progs (i : nat) : list access := match i with 0 => [torn] | 1 => [ex_read] | _ => [] end.
Theorem C37_killed_writer_refuted : exists progs t r, (forall i, Forall good (progs i)) /\
  wsteps Anywhere (wstart progs) t /\ all_done t /\ process_depfile (file t) = Ok r /\
  progs 1 = [ex_read] /\ ~ In (seen ex_read) r /\ r = [(0%Z, [], [])].
Proof.
  exists torn_progs. eexists. eexists. split; [|split; [|split; [|split; [|split; [|split]]]]].
  - intros [|[|i]]; cbn [torn_progs]; [|pose proof ex_good as G; inversion G; auto|constructor].
    assert (N : forall s, forallb (fun c => negb (c =?c "000"%char)) s = true -> no_nul s).
    { intros s F I. rewrite forallb_forall in F. specialize (F _ I). discriminate. }
    repeat constructor; try (apply N; reflexivity); cbn; lia.
  - apply (exec_some Anywhere (repeat (0, false) 2 ++ [(0, true)] ++ repeat (1, false) 7)). vm_compute. reflexivity.
  - split; [vm_compute; reflexivity|]. intros [|[|i]]; vm_compute; reflexivity.
  - vm_compute. reflexivity.
  - reflexivity.
  - cbn. intros [H|[]]. discriminate.
  - reflexivity.
Qed.
Print Assumptions C37_killed_writer_refuted.

(** ** A length of -1 in a damaged file passes the tests of the server, which then looks at the
    byte before its buffer. *)
Theorem C37_negative_length_refuted : exists s, process_depfile s = Over.
Proof. exists (header 0 (-1) 0). vm_compute. reflexivity. Qed.
Print Assumptions C37_negative_length_refuted.
