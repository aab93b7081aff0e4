(** Properties of relative and full paths of entries: C25, C46. *)
From Verif Require Import Base ConfigModel EntryModel EntrySpec EntryProofs.

(** C25: the relative path, walked from the first directory, ends in the
    second, and nowhere else. *)
Theorem C25_relative_path_leads : forall T top member fuel s e r,
  directory_tree T top member -> member s -> member e -> get_relative_dir T fuel s e = Some r ->
  leads T s r e /\ forall e', leads T s r e' -> e' = e.
Proof.
  intros T top member fuel s e r D Ms Me H. pose proof (relative_leads _ _ _ _ _ _ D Ms Me _ H) as L. split; [exact L|].
  intros e' L'. exact (leads_fun _ _ _ _ _ _ _ D L' L).
Qed.
Print Assumptions C25_relative_path_leads.

(** ... and there always is one. *)
Theorem C25_relative_path_exists : forall T top member s e,
  directory_tree T top member -> member s -> member e -> exists n, forall fuel, n < fuel -> exists r, get_relative_dir T fuel s e = Some r.
Proof.
  intros T top member s e D Ms Me. destruct (relative_enough T top member s e D Ms Me) as [n H]. exists n. intros fuel L. specialize (H fuel L).
  destruct (get_relative_dir T fuel s e) as [r|]; [eauto|contradiction].
Qed.
Print Assumptions C25_relative_path_exists.

(** The entry that stands for the system's root has the name "/", a child of
    the project's top: from a subdirectory, the text for a file outside leads
    to a different place ("..//" and so on is relative). *)
Definition ex_out : tree := {|
  parent := fun t => match t with 1 => Some 0 | 2 => Some 0 | 3 => Some 2 | _ => None end;
  name := fun t => match t with 0 => B "." | 1 => B "a" | 2 => B "/" | 3 => B "usr" | _ => [] end |}.
Theorem C25_outside_refuted : get_relative_dir ex_out 5 1 3 = Some (B "..///usr").
Proof. vm_compute. reflexivity. Qed.
Print Assumptions C25_outside_refuted.

(** C46: the full path of an entry. When the result says it fits, the text
    after its slash leads from the top to the entry. *)
Theorem C46_full_path_leads : forall T top member fuel len t text rc,
  directory_tree T top member -> member t -> t <> top -> snprint T fuel len t = Ok (text, rc) -> rc < len ->
  exists p, text = "/"%char :: p /\ leads T top p t /\ forall t', leads T top p t' -> t' = t.
Proof.
  intros T top member fuel len t text rc D M N H L. destruct (snprint_spec _ _ _ _ _ _ H L) as [l [F [-> _]]].
  destruct (full_text_leads _ _ _ _ _ _ D M N F) as [p [E Lp]]. exists p. split; [exact E|]. split; [exact Lp|].
  intros t' L'. exact (leads_fun _ _ _ _ _ _ _ D L' Lp).
Qed.
Print Assumptions C46_full_path_leads.

(** Whatever is in the buffer fits it, with the NUL. *)
Theorem C46_fits_buffer : forall T fuel len t text rc, 0 < len -> snprint T fuel len t = Ok (text, rc) -> length text < len.
Proof.
  intros T fuel len t text rc L. destruct fuel as [|fuel]; [discriminate|]. cbn [snprint]. destruct (parent T t) as [p|]; [|intros [= <- <-]; cbn; lia].
  destruct (snprint T fuel len p) as [[tx r]| | |]; try discriminate. destruct (len <? r); [discriminate|]. intros [= <- <-]. rewrite firstn_length. lia.
Qed.
Print Assumptions C46_fits_buffer.
(** A path that does not fit can be written past the end of the buffer,
    instead of being reported as too long. *)
Definition ex_deep : tree := {|
  parent := fun t => match t with 0 => None | S t => Some t end;
  name := fun t => B "dir" |}.
Theorem C46_overflow_refuted : snprint ex_deep 5 6 3 = Over /\ snprint ex_deep 5 13 3 = Ok (B "/dir/dir/dir", 12).
Proof. vm_compute. auto. Qed.
Print Assumptions C46_overflow_refuted.

(** An example: top 0 with the directories a/b and a/c/d. *)
Definition ex_t : tree := {|
  parent := fun t => match t with 1 => Some 0 | 2 => Some 1 | 3 => Some 1 | 4 => Some 3 | _ => None end;
  name := fun t => match t with 0 => B "." | 1 => B "a" | 2 => B "b" | 3 => B "c" | 4 => B "d" | _ => [] end |}.
Example C25_ex : get_relative_dir ex_t 9 2 4 = Some (B "../c/d") /\ get_relative_dir ex_t 9 4 0 = Some (B "../../..") /\
  get_relative_dir ex_t 9 0 3 = Some (B "a/c") /\ get_relative_dir ex_t 9 3 3 = Some (B ".").
Proof. vm_compute. auto. Qed.
Example C25_hypotheses : directory_tree ex_t 0 (fun t => t <= 4).
Proof.
  split.
  - intros t M. do 5 (destruct t as [|t]; [split; cbn; congruence|]). lia.
  - intros t p M. do 5 (destruct t as [|t]; [cbn; intros E; try discriminate; injection E as <-; lia|]). lia.
  - exists (fun t => t). intros t p M. do 5 (destruct t as [|t]; [cbn; intros E; try discriminate; injection E as <-; lia|]). lia.
  - intros t M. do 5 (destruct t as [|t]; [intros N; try contradiction; repeat split; cbn; intuition discriminate|]). lia.
  - intros s t p. do 5 (destruct s as [|s]; [do 5 (destruct t as [|t]; [cbn; congruence|]); discriminate|]). discriminate.
Qed.
