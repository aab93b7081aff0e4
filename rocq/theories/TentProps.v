(** C11-C14: a command's files against its declarations. *)
From Verif Require Import Base ExecModel GraphModel GraphSpec TentModel TentSpec TentProofs TentProofs2 TentProofs3.
From Coq Require Import ZArith Sorted.

(** ** C14 *)

(** Comparing two sets tells the first callback exactly about the ids that are
    only in the first set, the second callback exactly about those that are only
    in the second set, each once, and stops when a callback fails. *)
Theorem C14_compare_exact a b : sorted a -> sorted b -> exists l : list difference,
  (forall x, In (OnlyFirst x) l <-> In x a /\ ~ In x b) /\
  (forall x, In (OnlySecond x) l <-> In x b /\ ~ In x a) /\ NoDup l /\
  forall (S : Type) (f g : option (id -> S -> option S)) s, compare_tent_trees f g a b s = tell f g l s.
Proof. exact (compare_spec a b). Qed.

(** Insertion keeps sets ordered, adds exactly the new id, and reports a
    duplicate exactly when there is one; search finds exactly the members. *)
Theorem C14_insert_exact t n : sorted t -> small (n :: t) ->
  match tree_add t n with
  | Some t' => ~ In n t /\ sorted t' /\ forall x, In x t' <-> x = n \/ In x t
  | None => In n t
  end.
Proof. exact (tree_add_spec t n). Qed.
Theorem C14_search_exact t n : sorted t -> small (n :: t) -> tree_search t n = true <-> In n t.
Proof. exact (tree_search_spec t n). Qed.

(** Without the bound on ids this is false: the comparison returns the
    difference cut down to an int, so ids that differ by a multiple of 2^32 are
    taken for the same id and the second one is lost. *)
Theorem C14_wide_ids_refuted : exists t n, sorted t /\ ~ In n t /\ tree_add t n = None /\ tree_search t n = true.
Proof.
  exists [1], (1 + Z.to_nat (2 ^ 32)).
  assert (tent_cmp (1 + Z.to_nat (2 ^ 32)) 1 = 0%Z) as E.
  { unfold tent_cmp. rewrite Nat2Z.inj_add, Z2Nat.id by lia. reflexivity. }
  split; [repeat constructor|]. split.
  - intros [H|[]]. apply (f_equal Z.of_nat) in H. rewrite Nat2Z.inj_add, Z2Nat.id in H by lia. discriminate H.
  - unfold tree_add, tree_search. rewrite E. auto.
Qed.

Definition ex_first (x : id) (s : list nat) : option (list nat) := Some (x :: s).
Definition ex_second (x : id) (s : list nat) : option (list nat) := if x =? 9 then None else Some (100 + x :: s).
Example ex_compare : compare_tent_trees (Some ex_first) (Some ex_second) [1; 3; 5; 8] [2; 3; 4; 8] [] = Some [5; 104; 102; 1].
Proof. reflexivity. Qed.
Example ex_compare_stops : compare_tent_trees (Some ex_first) (Some ex_second) [1; 30] [9; 10] [] = None.
Proof. reflexivity. Qed.
Example ex_sorted : sorted [1; 3; 5; 8] /\ small [1; 3; 5; 8].
Proof.
  split; [repeat constructor|]. intros x H. repeat (destruct H as [<-|H]; [reflexivity|]). destruct H.
Qed.
Example ex_insert : tree_add [1; 3; 8] 5 = Some [1; 3; 5; 8] /\ tree_add [1; 3; 8] 3 = None.
Proof. split; reflexivity. Qed.

(** ** C11 *)

(** The command is marked as broken exactly if it wrote a file that it did not
    declare, or (when it ran successfully) did not write a file it declared.
    Every undeclared file and every missing file is reported, once, and no other
    file is. *)
Theorem C11_sets_must_agree kind_of written declared ms bork unlink success : sorted written -> sorted declared ->
  exists b d, check_actual_outputs kind_of written declared ms bork unlink success = Some (b, d) /\
  (b = true <-> bork = true \/ (exists x, In x written /\ ~ In x declared) \/
                (success = true /\ exists x, In x declared /\ ~ In x written)) /\
  (forall x, (exists r, In r (reports d) /\ blames_write r x) <-> In x written /\ ~ In x declared) /\
  (forall x, In (NotWritten x) (reports d) <-> success = true /\ In x declared /\ ~ In x written) /\
  NoDup (reports d).
Proof.
  intros Sw So. destruct (check_outputs_spec kind_of written declared ms bork unlink success Sw So)
    as [b [d [E [H1 [H2 [H3 [H4 _]]]]]]]. exists b, d. auto.
Qed.

(** An undeclared file is not moved out of the temporary directory, while the
    temporary copies of all other files stay in place; only files that were not
    known before (ghosts) are deleted. *)
Theorem C11_undeclared_not_published kind_of written declared ms bork unlink success b d : sorted written -> sorted declared ->
  check_actual_outputs kind_of written declared ms bork unlink success = Some (b, d) ->
  (forall x, In (Delete x) (reports d) -> unlink = true /\ kind_of x = KGhost /\ ~ In x declared) /\
  (NoDup (flat_map (fun m => match mtent m with Some t => [t] | None => [] end) ms) ->
   forall m, In m (maps d) <-> In m ms /\ forall x, mtent m = Some x -> In x written -> In x declared).
Proof.
  intros Sw So E. destruct (check_outputs_spec kind_of written declared ms bork unlink success Sw So)
    as [b' [d' [E' [_ [H2 [_ [_ [H5 H6]]]]]]]]. rewrite E in E'. injection E' as <- <-.
  split; [|exact H6]. intros x H. destruct (H5 x H) as [U K]. split; [exact U|]. split; [exact K|].
  apply (H2 x). exists (Delete x). split; [exact H|right; left; reflexivity].
Qed.

Definition ex_kinds (n : id) : kind :=
  match n with 0 => KRoot | 1 => KFile | 2 | 3 | 4 => KGenerated | 5 | 6 | 7 | 8 => KCmd | 9 => KGhost | 10 => KGroup | _ => KOther end.
Definition ex_map (n : id) : mapping := {| realname := []; tmpname := []; mtent := Some n |}.
Example ex_outputs : exists d, check_actual_outputs ex_kinds [2; 4; 9] [2; 3] [ex_map 4; ex_map 2; ex_map 9] false true true = Some (true, d) /\
  reports d = [NotWritten 3; Reschedule 4; Delete 9] /\ maps d = [ex_map 2].
Proof. eexists. split; [reflexivity|]. split; reflexivity. Qed.
Example ex_outputs_good : exists d, check_actual_outputs ex_kinds [2; 3] [2; 3] [ex_map 2; ex_map 3] false true true = Some (false, d) /\
  reports d = [] /\ maps d = [ex_map 2; ex_map 3].
Proof. eexists. split; [reflexivity|]. split; reflexivity. Qed.

(** ** C12 and C13 *)

Lemma same_variant_iff variant_of cmd x : same_variant variant_of cmd x = true <->
  variant_of x = None \/ (exists v, variant_of x = Some v /\ variant_of cmd = Some v).
Proof.
  unfold same_variant. destruct (variant_of x) as [v|]; [|tauto]. destruct (variant_of cmd) as [w|].
  - rewrite Nat.eqb_eq. split; [intros ->; right; exists w; auto|]. intros [H|[u [H1 H2]]]; congruence.
  - split; [discriminate|]. intros [H|[u [H1 H2]]]; discriminate.
Qed.

Section Props.
Variable kind_of : id -> kind.
Variable variant_of : id -> option id.
Variable cmd : id.
Variable links : id -> list id.
Variable transient_ : id -> bool.
Variable root : id.
Variable universe reads sticky old groups outputs : list id.
Variable fuel : nat.
Variable partial : list id -> list id.
Hypothesis CK : check_ok kind_of links root universe reads sticky old outputs fuel partial.
Notation check := (check_actual_inputs kind_of variant_of cmd links transient_ root fuel partial reads sticky old groups outputs).

(** A command that is accepted has read no generated file whose production is
    not ordered before it by the declarations, and nothing from another
    variant. *)
Theorem C12_accepted_is_ordered d : check = Some (d, true) ->
  (forall x, In x reads -> kind_of x = KGenerated -> In x outputs \/ ordered_by_declaration links sticky groups x) /\
  (forall x, In x reads -> In x outputs \/ In x sticky \/ variant_of x = None \/
     exists v, variant_of x = Some v /\ variant_of cmd = Some v).
Proof.
  intros E. pose proof (check_ok_spec _ variant_of cmd _ transient_ _ _ _ _ _ groups _ _ _ CK) as S. rewrite E in S. destruct S as [[_ S] [_ [_ [_ [_ [_ V]]]]]]. split; [exact S|].
  intros x Hx. destruct (in_dec Nat.eq_dec x outputs) as [I|I]; [auto|]. destruct (V x Hx I) as [[V1|V1] _]; [auto|].
  apply same_variant_iff in V1. auto.
Qed.

(** Any other set of reads is accepted. *)
Theorem C12_ordered_is_accepted : (forall n, In n universe -> ~ leads_to links n n) ->
  (forall x, In x reads -> ~ In x outputs -> readable kind_of variant_of cmd x) ->
  (forall x, In x reads -> kind_of x = KGenerated -> In x outputs \/ ordered_by_declaration links sticky groups x) ->
  exists d, check = Some (d, true).
Proof.
  intros AC RD OK. pose proof (check_ok_spec _ variant_of cmd _ transient_ _ _ _ _ _ groups _ _ _ CK) as S. destruct check as [[d []]|].
  - exists d. reflexivity.
  - destruct S as [[[x [H1 [H2 [H3 H4]]]]|[n [H1 H2]]] _]; [|exfalso; exact (AC n H1 H2)].
    exfalso. destruct (OK x H1 H3); contradiction.
  - destruct S as [x [H1 [H2 H3]]]. exfalso. destruct (RD x H1 H2) as [R1 [R2 [R3 R4]]].
    apply same_variant_iff in R1. destruct H3 as [[_ H3]|[_ H3]]; [congruence|tauto].
Qed.

(** The offending file is one that is reported: a rejected command has read a
    generated file outside its declarations (or the graph has a cycle). *)
Theorem C12_rejection_is_justified d : (forall n, In n universe -> ~ leads_to links n n) -> check = Some (d, false) ->
  exists x, In x reads /\ kind_of x = KGenerated /\ ~ In x outputs /\ ~ ordered_by_declaration links sticky groups x.
Proof.
  intros AC E. pose proof (check_ok_spec _ variant_of cmd _ transient_ _ _ _ _ _ groups _ _ _ CK) as S. rewrite E in S. destruct S as [[[x [H1 [H2 [H3 H4]]]]|[n [H1 H2]]] _]; [exists x; auto|].
  exfalso. exact (AC n H1 H2).
Qed.

(** The stored dependencies of an accepted command are exactly the files it read
    other than its own outputs, provided that none of its own outputs was stored
    as its input before (that would be a cycle, which an update refuses). *)
Theorem C13_links_are_the_reads d : (forall x, In x old -> ~ In x outputs) -> check = Some (d, true) ->
  NoDup (nlinks d) /\ forall x, In x (nlinks d) <-> In x reads /\ ~ In x outputs.
Proof.
  intros DJ E. pose proof (check_ok_spec _ variant_of cmd _ transient_ _ _ _ _ _ groups _ _ _ CK) as S. rewrite E in S. destruct S as [[M _] [_ [ND [L _]]]]. split; [exact ND|].
  intros x. rewrite L, M. cbn [In]. specialize (DJ x). tauto.
Qed.

(** Even a rejected or failed command ends up only with links to files that it
    read, and it has those to all files that were not reported as errors. *)
Theorem C13_links_after_failure d : (forall x, In x old -> ~ In x outputs) -> check = Some (d, false) ->
  NoDup (nlinks d) /\ (forall x, In x (nlinks d) -> In x reads /\ ~ In x outputs) /\
  (forall x, In x reads -> ~ In x outputs -> kind_of x <> KGenerated -> In x (nlinks d)).
Proof.
  intros DJ E. pose proof (check_ok_spec _ variant_of cmd _ transient_ _ _ _ _ _ groups _ _ _ CK) as S. rewrite E in S. destruct S as [_ [MS [ND [L _]]]]. split; [exact ND|]. split.
  - intros x H. apply L in H. specialize (DJ x). tauto.
  - intros x H1 H2 H3. apply L. split; [exact H1|]. right. split; [exact H2|]. intros C. apply MS in C. tauto.
Qed.

(** A dependency that disappeared is noticed: if it was a generated file, the
    commands after this one are not skipped; if it is not declared, it is queued
    for reclamation. *)
Theorem C13_lost_links_are_noticed d ok : check = Some (d, ok) ->
  (important d = true <-> exists x, In x old /\ ~ In x reads /\ kind_of x = KGenerated) /\
  (forall x, In x (ghosts d) <-> In x old /\ ~ In x reads /\ ~ In x sticky).
Proof. intros E. pose proof (check_ok_spec _ variant_of cmd _ transient_ _ _ _ _ _ groups _ _ _ CK) as S. rewrite E in S. tauto. Qed.
End Props.

(** Non-vacuity: file 1 --5--> 2 --6--> 3, and 4 from command 8; command 7 has
    the declared input 3. *)
Definition ex_links (n : id) : list id :=
  match n with 1 => [5] | 5 => [2] | 2 => [6] | 6 => [3] | 3 => [7] | 8 => [4] | _ => [] end.
Definition ex_u : list id := [1; 2; 3; 4; 5; 6; 7; 8; 9].
Definition ex_check reads old := check_actual_inputs ex_kinds (fun _ => None) 7 ex_links (fun _ => false) 0 20 (fun l => l) reads [3] old [10] [].

Lemma ex_ok reads old : sorted reads -> incl reads ex_u -> sorted old -> incl old ex_u ->
  check_ok ex_kinds ex_links 0 ex_u reads [3] old [] 20 (fun l => l).
Proof.
  intros. split; auto.
  - split.
    + repeat (constructor; [cbn; lia|]). constructor.
    + cbn. lia.
    + intros a b Ha Hb. repeat (destruct Ha as [<-|Ha]; [cbn in *; tauto|]). destruct Ha.
  - intros x H3. repeat (destruct H3 as [<-|H3]; [reflexivity|]). destruct H3.
  - split; [repeat constructor|]. intros x [<-|[]]. cbn. tauto.
  - split; [constructor|intros x []].
  - intros l Hl. split; [exact Hl|intros x Hx; exact Hx].
Qed.
Example ex_ok_here : check_ok ex_kinds ex_links 0 ex_u [1; 2; 3; 9] [3] [3; 4] [] 20 (fun l => l).
Proof.
  apply ex_ok; try (repeat constructor; fail); intros x H; cbn in *; tauto.
Qed.
Example ex_accepted : exists d, ex_check [1; 2; 3; 9] [3; 4] = Some (d, true) /\ nlinks d = [9; 2; 1; 3] /\ important d = true /\ ghosts d = [4].
Proof. eexists. split; [vm_compute; reflexivity|]. repeat split. Qed.
Example ex_rejected : exists d, ex_check [1; 4] [3] = Some (d, false) /\ missing d = [4].
Proof. eexists. split; [vm_compute; reflexivity|]. reflexivity. Qed.
Example ex_acyclic : forall n, In n ex_u -> ~ leads_to ex_links n n.
Proof.
  assert (forall a b, leads_to ex_links a b -> match b with 5 => 1 | 2 => 2 | 6 => 3 | 3 => 4 | 7 => 5 | 4 => 2 | _ => 0 end >
     match a with 1 => 0 | 5 => 1 | 2 => 2 | 6 => 3 | 3 => 4 | 8 => 0 | _ => 9 end) as Q.
  { induction 1 as [a b H|a b c P IH H].
    - do 9 (destruct a as [|a]; [cbn in H; repeat (destruct H as [<-|H]; [cbn; lia|]); destruct H|]). cbn in H. destruct H.
    - do 9 (destruct b as [|b]; [cbn in H; repeat (destruct H as [<-|H]; [cbn in *; lia|]); destruct H|]). cbn in H. destruct H. }
  intros n Hn H. apply Q in H. repeat (destruct Hn as [<-|Hn]; [cbn in H; lia|]). destruct Hn.
Qed.

Print Assumptions C14_compare_exact.
Print Assumptions C14_insert_exact.
Print Assumptions C14_search_exact.
Print Assumptions C14_wide_ids_refuted.
Print Assumptions C11_sets_must_agree.
Print Assumptions C11_undeclared_not_published.
Print Assumptions C12_accepted_is_ordered.
Print Assumptions C12_ordered_is_accepted.
Print Assumptions C12_rejection_is_justified.
Print Assumptions C13_links_are_the_reads.
Print Assumptions C13_links_after_failure.
Print Assumptions C13_lost_links_are_noticed.
