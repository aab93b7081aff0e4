(** Properties of the monitor's event queue: C32. *)
From Verif Require Import Base MonModel MonSpec MonProofs MonProofs2 MonProofs3 MonProofs4 MonProofs5.

(** Throughout, d is the database when the batch starts, and it records the files that
    exist then; l is what happens to the files before the queue is flushed, and after the
    files that exist then. The queue is empty at the start (clean n). *)

(** Whatever happens, nothing undefined happens, and every file that exists at the flush is recorded
    with its current mtime; it is marked as changed if that is not what was recorded. *)
Theorem C32_existing_recorded : forall n d l after, apply_ops l (rec d) = Some after ->
  exists s, queue_events (all_events 1 l) (clean n) = Some s /\
    forall k t, after k = Some t ->
      rec (snd (flush after s d)) k = Some t /\ (rec d k <> Some t -> touched (snd (flush after s d)) k = true).
Proof. intros n d l after A. exact (batch_exists n (rec d) after l d eq_refl A). Qed.
Print Assumptions C32_existing_recorded.

(** What is missing: sequences in which a name that came with a rename is removed or renamed
    again before the flush (see the refutation). In all others, the merged queue
    gives the same records, and the same files marked as changed, as recording every operation
    by itself; and the files recorded are those that exist. *)
Theorem C32_same_as_plain_partial : forall n d l after, settled [] l -> apply_ops l (rec d) = Some after ->
  exists s, queue_events (all_events 1 l) (clean n) = Some s /\
    forall k, rec (snd (flush after s d)) k = after k /\
      rec (snd (flush after s d)) k = rec (fold_left (fun d o => record after o d) l d) k /\
      touched (snd (flush after s d)) k = touched (fold_left (fun d o => record after o d) l d) k.
Proof.
  intros n d l after St A. destruct (batch_plain n (rec d) after l d eq_refl St A) as [s [Q H]]. exists s. split; [exact Q|]. intros k. destruct (H k) as [H1 H2]. split; [exact H1|].
  split; [exact (f_equal fst H2)|exact (f_equal snd H2)].
Qed.
Print Assumptions C32_same_as_plain_partial.

Definition fa : key := (0, B "a"). Definition fb : key := (0, B "b"). Definition fc : key := (1, B "c").
Definition db0 : dbs := {| rec := fun k => if key_eqb k fa || key_eqb k fb then Some 1%Z else None; touched := fun _ => false |}.
Definition known (d : dbs) : list (option Z * bool) := map (fun k => (rec d k, touched d k)) [fa; fb; fc].
Definition run_batch (l : list op) : option (list (option Z * bool) * list (option Z * bool) * list (option Z)) :=
  match apply_ops l (rec db0), queue_events (all_events 1 l) (clean 0) with
  | Some fs, Some s => Some (known (snd (flush fs s db0)), known (fold_left (fun d o => record fs o d) l db0), map fs [fa; fb; fc])
  | _, _ => None
  end.
(** A temporary file leaves nothing; a replaced file is marked once; a rename over a file
    removes the old name. *)
Example C32_case :
  settled [] [Create fc 2; Write fc 3; Remove fc; Remove fa; Create fa 5] /\
  run_batch [Create fc 2; Write fc 3; Remove fc; Remove fa; Create fa 5] = Some ([(Some 5%Z, true); (Some 1%Z, false); (None, false)], [(Some 5%Z, true); (Some 1%Z, false); (None, false)], [Some 5%Z; Some 1%Z; None]) /\
  settled [] [Rename fa fc; Remove fb; Create fa 7; Write fa 8] /\
  run_batch [Rename fa fc; Remove fb; Create fa 7; Write fa 8] = Some ([(Some 8%Z, true); (None, true); (Some 1%Z, true)], [(Some 8%Z, true); (None, true); (Some 1%Z, true)], [Some 8%Z; None; Some 1%Z]).
Proof. cbn [settled]. repeat split; try (vm_compute; reflexivity); intros H; repeat destruct H as [H|H]; try contradiction; discriminate. Qed.

(** The full claim fails: a file renamed and then removed before the flush. Both a and b existed; neither
    removal is recorded. *)
Theorem C32_lost_deletion_refuted : exists l after s,
  apply_ops l (rec db0) = Some after /\ queue_events (all_events 1 l) (clean 0) = Some s /\
  after fa = None /\ rec (snd (flush after s db0)) fa = Some 1%Z /\ touched (snd (flush after s db0)) fa = false /\
  after fb = None /\ rec (snd (flush after s db0)) fb = Some 1%Z /\ touched (snd (flush after s db0)) fb = false.
Proof. exists [Rename fa fb; Remove fb]. eexists. eexists. split; [reflexivity|]. split; [vm_compute; reflexivity|]. vm_compute. repeat split; reflexivity. Qed.
(** So is the first name, when a file is renamed twice. *)
Theorem C32_renamed_twice_refuted : exists l after s,
  apply_ops l (rec db0) = Some after /\ queue_events (all_events 1 l) (clean 0) = Some s /\
  after fa = None /\ rec (snd (flush after s db0)) fa = Some 1%Z /\ touched (snd (flush after s db0)) fa = false.
Proof. exists [Rename fa fb; Rename fb fc]. eexists. eexists. split; [reflexivity|]. split; [vm_compute; reflexivity|]. vm_compute. repeat split; reflexivity. Qed.

(** And the next batch can read freed memory: the event of a name that was moved away and created again
    is freed, but stays in the list of moves. *)
Theorem C32_freed_event_refuted : exists l after s k,
  apply_ops l (rec db0) = Some after /\ queue_events (all_events 1 l) (clean 0) = Some s /\
  (exists after', apply_ops [Create fc 2; Rename fc fb] after = Some after') /\
  queue_events (all_events k [Create fc 2; Rename fc fb]) (fst (flush after s db0)) = None.
Proof.
  exists [Remove fb; Rename fa fb; Create fa 4]. eexists. eexists. exists 9. split; [reflexivity|]. split; [vm_compute; reflexivity|].
  split; [eexists; reflexivity|]. vm_compute. reflexivity.
Qed.
Print Assumptions C32_freed_event_refuted.
