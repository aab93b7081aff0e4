(** Properties of output ownership: C16; and of rules that change: C09. *)
From Verif Require Import Base ConfigModel DbModel DbSpec DbProofs DbProofs2 DbProofs3 RuleModel RuleSpec RuleProofs RuleProofs2 RuleProofs3 RuleProofs4.

(** The state when the program starts. *)
Definition start (d : db) (waiting : list nat) : pst := {| pdb := d; cache := fun _ => None; pdel := []; pwait := waiting; pcmds := []; pq := [] |}.
Lemma start_wf d w : sound d -> one_producer d -> wf (start d w).
Proof. intros S O. split; [exact S|exact O|discriminate|discriminate]. Qed.

(** C16: no history makes two commands produce one file. *)
Theorem C16_one_producer : forall d w p,
  sound d -> one_producer d -> history (start d w) p -> one_producer (pdb p).
Proof. intros d w p S O H. exact (w_one _ (wf_history _ _ H (start_wf d w S O))). Qed.
Print Assumptions C16_one_producer.

(** The other operations of the model are such steps. *)
Theorem C16_steps_covered :
  (forall x mtime force ign d d', sound d -> file_mod x mtime force ign d = Some d' -> elsewhere d d') /\
  (forall x force d q d' q' n, sound d -> lookup d x = Some n -> nname n <> B "tup.config" -> file_del x force d q = Some (d', q') -> elsewhere d d') /\
  (forall x d q d' q', sound d -> delete_name_file d x q = Some (d', q') -> elsewhere d d') /\
  (forall excl rmdir fuel d q tmp d', sound d -> reclaim excl rmdir fuel d q tmp = Ok d' -> elsewhere d d') /\
  (forall d a c, sound d -> lookup d a <> None -> is_kind d TCmd c -> a <> c -> elsewhere d (link_insert a c d)).
Proof.
  split; [exact elsewhere_file_mod|]. split; [exact elsewhere_file_del|]. split; [intros x d q d' q'; apply elsewhere_delete|]. split; [intros; eapply elsewhere_reclaim; eauto|exact elsewhere_input].
Qed.
Print Assumptions C16_steps_covered.

(** A rule with an output of another command is rejected, unless that command is about to be
    removed or its Tupfile is yet to be parsed. *)
Theorem C16_owned_rejected : forall d w p tf r dt name x n c,
  sound d -> one_producer d -> history (start d w) p ->
  In (dt, name) (r_outs r ++ r_extra r) -> find_in (pdb p) dt name = Some x ->
  lookup (pdb p) x = Some n -> kind n = TGenerated -> produces (pdb p) c x ->
  ~ In c (pdel p) -> (forall s, src n = Some s -> ~ In s (pwait p)) ->
  declare tf r p = None.
Proof.
  intros d w p tf r dt name x n c S O H I F L K P Nc Nw. unfold declare.
  rewrite (outputs_taken tf _ p dt name x (wf_history _ _ H (start_wf d w S O)) I F); [reflexivity|]. exists n. split; [exact L|]. right. split; [exact K|]. exists c. auto.
Qed.
Print Assumptions C16_owned_rejected.

(** So is one with an output that is a command, a group, a directory or a file that
    the user wrote. *)
Theorem C16_other_kind_rejected : forall d w p tf r dt name x n,
  sound d -> one_producer d -> history (start d w) p ->
  In (dt, name) (r_outs r ++ r_extra r) -> find_in (pdb p) dt name = Some x ->
  lookup (pdb p) x = Some n -> kind n <> TGhost -> kind n <> TGenerated -> declare tf r p = None.
Proof.
  intros d w p tf r dt name x n S O H I F L K1 K2. unfold declare.
  rewrite (outputs_taken tf _ p dt name x (wf_history _ _ H (start_wf d w S O)) I F); [reflexivity|]. exists n. auto.
Qed.
Print Assumptions C16_other_kind_rejected.

(** The parse of a Tupfile begins with the commands of its last parse as those to be
    removed, and no others; the rules take them off this list one by one. *)
Theorem C16_old_commands : forall tf p c, sound (pdb p) ->
  (In c (pdel (begin_dir tf p)) <-> (exists n, lookup (pdb p) c = Some n /\ kind n = TCmd /\ dir n = tf) \/ In c (pdel p)).
Proof.
  intros tf p c S. cbn [begin_dir pdel]. rewrite in_app_iff, in_map_iff. split; (intros [H|H]; [left|right; exact H]).
  - destruct H as [[y n] [<- I]]. apply filter_In in I as [I J]. apply andb_true_iff in J as [J1 J2]. cbn [fst snd] in *. exists n. split; [|split].
    + apply in_assoc; [apply (s_ids _ S)|exact I].
    + destruct (kind n); cbn in J2; congruence.
    + apply Nat.eqb_eq. exact J1.
  - destruct H as [n [L [K D]]]. exists (c, n). split; [reflexivity|]. apply filter_In. split; [apply assoc_in; exact L|]. cbn [fst snd]. rewrite D, K, Nat.eqb_refl. reflexivity.
Qed.
Print Assumptions C16_old_commands.

(** After an accepted rule, its command is recorded under its text, the
    command's outputs are exactly the declared ones (and the group), and nothing else
    produces them. *)
Theorem C16_recorded_as_declared : forall d w p tf r p',
  sound d -> one_producer d -> history (start d w) p -> declare tf r p = Some p' ->
  exists c xs g,
    (exists n, lookup (pdb p') c = Some n /\ kind n = TCmd /\ dir n = tf /\ nname n = r_cmd r) /\
    Forall2 (fun o x => find_in (pdb p') (fst o) (snd o) = Some x /\ is_kind (pdb p') TGenerated x) (r_outs r ++ r_extra r) xs /\
    (forall y, produces (pdb p') c y <-> In y xs \/ g = Some y) /\ (forall y, g = Some y -> is_kind (pdb p') TGroup y) /\
    (forall x e, In x xs -> produces (pdb p') e x -> e = c).
Proof.
  intros d w p tf r p' S O H D. pose proof (wf_history _ _ H (start_wf d w S O)) as W.
  destruct (declare_spec _ _ _ _ D W) as [W' [_ [c [xs [g [Hc [F1 [F2 [L [G _]]]]]]]]]]. exists c, xs, g.
  assert (F : Forall2 (fun o x => find_in (pdb p') (fst o) (snd o) = Some x /\ is_kind (pdb p') TGenerated x) (r_outs r ++ r_extra r) xs).
  { clear - F1 F2. induction F1 as [|o x os ys N F IH]; inversion F2 as [|? ? ? ? Fo Fs]; subst; constructor; [|auto]. split; [exact Fo|]. destruct N as [n [Ln [_ [_ [K _]]]]]. exists n. auto. }
  split; [exact Hc|]. split; [exact F|]. split; [exact L|]. split; [exact G|].
  intros x e I P. apply (w_one _ W' x); [|exact P|apply L; left; exact I].
  clear - F I. induction F as [|o y os ys [_ K] F IH]; [destruct I|]. destruct I as [<-|I]; auto.
Qed.
Print Assumptions C16_recorded_as_declared.

(** In particular two rules of a Tupfile that is parsed cannot share an output. *)
Theorem C16_disjoint_rules : forall d w p tf r p' r2 o,
  sound d -> one_producer d -> history (start d w) p -> ~ In tf (pwait p) -> declare tf r p = Some p' ->
  In o (r_outs r ++ r_extra r) -> In o (r_outs r2 ++ r_extra r2) -> declare tf r2 p' = None.
Proof.
  intros d w p tf r p' r2 o S O H Nw D I1 I2. pose proof (wf_history _ _ H (start_wf d w S O)) as W.
  destruct (declare_spec _ _ _ _ D W) as [W' [Ew [c [xs [g [Hc [F1 [F2 [L [_ [_ [Dl _]]]]]]]]]]]].
  assert (exists x, In x xs /\ named (pdb p') tf o x /\ found (pdb p') o x) as [x [Ix [[n [Ln [_ [_ [Kn Sn]]]]] Fx]]].
  { clear - F1 F2 I1. induction F1 as [|o' y os ys N F IH]; [destruct I1|]. inversion F2 as [|? ? ? ? Fo Fs]; subst. destruct I1 as [<-|I1]; [exists y; split; [left; reflexivity|auto]|].
    destruct (IH I1 Fs) as [z [Iz Hz]]. exists z. split; [right; exact Iz|exact Hz]. }
  destruct o as [dt name]. apply (C16_owned_rejected d w p' tf r2 dt name x n c S O); auto.
  - eapply h_declare; eauto.
  - apply L. left. exact Ix.
  - rewrite Dl. intros X. apply remove_in in X. tauto.
  - intros s Es. rewrite Ew. congruence.
Qed.
Print Assumptions C16_disjoint_rules.

(** C09: a rule that leaves its command unflagged is recorded as it was: the same text
    in the same directory, with the same outputs. *)
Theorem C09_changed_rule_flagged : forall d w p tf r p',
  sound d -> one_producer d -> history (start d w) p -> declare tf r p = Some p' ->
  exists c n, lookup (pdb p') c = Some n /\ kind n = TCmd /\ dir n = tf /\ nname n = r_cmd r /\
    (~ In c (modify (pdb p')) ->
      (exists n0, lookup (pdb p) c = Some n0 /\ kind n0 = TCmd /\ dir n0 = tf /\ nname n0 = r_cmd r) /\
      (forall y, produces (pdb p') c y -> produces (pdb p) c y) /\
      (forall y, produces (pdb p) c y -> ~ is_kind (pdb p) TGhost y -> produces (pdb p') c y)).
Proof.
  intros d w p tf r p' S O H D. pose proof (wf_history _ _ H (start_wf d w S O)) as W.
  destruct (declare_spec _ _ _ _ D W) as [W' [_ [c [xs [g [[n [L [K [Dn N]]]] [F1 [F2 [_ [_ [_ [_ M]]]]]]]]]]]]. exists c, n. auto 6.
Qed.
Print Assumptions C09_changed_rule_flagged.

(** Cases. Directories 2 and 3; command 4 of directory 2 makes x and y in 3. *)
Definition ex_row (dt : nat) (k : ntype) (s : option nat) (name : bytes) : node := {| dir := dt; kind := k; src := s; nname := name; time := 0%Z |}.
Definition ex_rules : db := {|
  nodes := [(1, ex_row 0 TDir None (B ".")); (2, ex_row 1 TDir None (B "a")); (3, ex_row 1 TDir None (B "b"));
            (4, ex_row 2 TCmd None (B "gen")); (5, ex_row 3 TGenerated (Some 2) (B "x")); (6, ex_row 3 TGenerated (Some 2) (B "y"))];
  normal := [(4, 5); (4, 6)]; sticky := []; modify := []; create := [2; 3]; config := [] |}.
Lemma ex_rules_sound : sound ex_rules /\ one_producer ex_rules.
Proof.
  split.
  - split.
    + cbn. repeat constructor; cbn; intuition discriminate.
    + cbn. intros x y I. repeat (destruct I as [I|I]; [injection I as <- <-; split; cbn; discriminate|]). destruct I.
    + cbn. intros x I. repeat (destruct I as [I|I]; [congruence|]). destruct I.
    + cbn. intros a x I _. repeat (destruct I as [I|I]; [injection I as <- <-; eexists; split; reflexivity|]). destruct I.
  - intros x a b _ P1 P2. cbn in P1, P2. intuition congruence.
Qed.
Definition rule1 (cmd : bytes) (outs : list (nat * bytes)) : rule := {| r_cmd := cmd; r_outs := outs; r_extra := []; r_group := None |}.
(** A second rule of directory 3 for its own output is rejected; one for x is accepted while 2 is
    not parsed yet, and takes the command over. *)
Example C16_case :
  let p := begin_dir 3 (start ex_rules [2; 3]) in
  ~ In 3 (pwait p) /\
  match declare 3 (rule1 (B "cat") [(3, B "z")]) p with
  | Some p1 => declare 3 (rule1 (B "tac") [(3, B "z")]) p1 = None
  | None => False
  end /\
  match declare 3 (rule1 (B "new") [(3, B "x")]) p with
  | Some p1 => normal (pdb p1) = [(4, 5)] /\ modify (pdb p1) = [4] /\ lookup (pdb p1) 4 = Some (ex_row 3 TCmd None (B "new"))
  | None => False
  end.
Proof. cbn [pwait begin_dir]. split; [cbn; intuition lia|]. split; vm_compute; repeat split; reflexivity. Qed.

(** The converse fails. An output that no command makes any more can be rejected as
    owned: the remembered producer of y, asked for by a rule that reads y, is not
    forgotten when y is taken away from it. *)
Theorem C16_free_output_accepted_refuted : exists d w p r,
  sound d /\ one_producer d /\ history (start d w) p /\ r_outs r = [(3, B "y")] /\
  find_in (pdb p) 3 (B "y") = Some 6 /\ (forall c, ~ produces (pdb p) c 6) /\ declare 2 r p = None /\
  exists p', declare 2 r (start (pdb p) (pwait p)) = Some p'.
Proof.
  exists ex_rules, [2; 3].
  destruct (get_incoming 6 (begin_dir 3 (start ex_rules [2; 3]))) as [[o p1]|] eqn:E1; [|vm_compute in E1; discriminate].
  destruct (declare 3 (rule1 (B "new") [(3, B "x")]) p1) as [p2|] eqn:E2; [|exfalso; vm_compute in E1; injection E1 as <- <-; vm_compute in E2; discriminate].
  exists (begin_dir 2 p2), (rule1 (B "gen") [(3, B "y")]).
  split; [apply ex_rules_sound|]. split; [apply ex_rules_sound|]. split.
  { apply h_begin. eapply h_declare; [|exact E2]. eapply h_input; [| |exact E1]; [apply h_begin, h_start|]. eexists. split; reflexivity. }
  vm_compute in E1. injection E1 as <- <-. vm_compute in E2. injection E2 as <-.
  split; [reflexivity|]. split; [vm_compute; reflexivity|]. split; [intros c P; cbn in P; intuition congruence|]. split; [vm_compute; reflexivity|]. eexists. vm_compute. reflexivity.
Qed.
Print Assumptions C16_free_output_accepted_refuted.
