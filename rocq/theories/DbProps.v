(** Properties of the node database: C17, C18. *)
From Verif Require Import Base ConfigModel DbModel DbSpec DbProofs DbProofs2 DbProofs3.

(** C17: exactly the queued ghosts that nothing needs, and those that this frees, are
    removed, with their links and flags; nothing else changes. *)
Theorem C17_removed_exactly : forall excl rmdir fuel d q d',
  consistent d excl -> sorted q -> (forall x, In x q -> queueable d x) ->
  reclaim excl rmdir fuel d q [] = Ok d' ->
  (forall x n, In (x, n) (nodes d') <-> In (x, n) (nodes d) /\ ~ gone d excl q x) /\
  (forall x y, In (x, y) (normal d') <-> In (x, y) (normal d) /\ ~ gone d excl q x /\ ~ gone d excl q y) /\
  (forall x y, In (x, y) (sticky d') <-> In (x, y) (sticky d) /\ ~ gone d excl q x /\ ~ gone d excl q y) /\
  (forall x, In x (modify d') <-> In x (modify d) /\ ~ gone d excl q x) /\
  (forall x, In x (create d') <-> In x (create d) /\ ~ gone d excl q x) /\
  (forall x, In x (config d') <-> In x (config d) /\ ~ gone d excl q x).
Proof.
  intros excl rmdir fuel d q d' C S Q H.
  destruct (reclaim_end d excl rmdir q C fuel _ _ _ _ _ (inv_start d excl q S Q) (fun _ => eq_refl) H) as [R I].
  assert (forall x, gone d excl q x <-> In x R) as G by (intros x; split; [apply (gone_in _ _ _ _ _ I)|apply (i_gone _ _ _ _ _ _ _ I)]).
  pose proof (i_strip _ _ _ _ _ _ _ I) as [S1 S2 S3 S4 S5 S6]. rewrite S1, S2, S3, S4, S5, S6.
  split; [|split; [|split; [|split; [|split]]]]; intros; rewrite filter_In; cbn [fst snd]; rewrite ?andb_true_iff, ?out_spec, ?G; tauto.
Qed.
Print Assumptions C17_removed_exactly.

(** The loop ends, if the disk lets it remove empty generated directories. *)
Theorem C17_terminates : forall excl rmdir d q,
  consistent d excl -> sorted q -> (forall x, In x q -> queueable d x) -> (forall x, rmdir x = true) ->
  exists n, forall fuel, n <= fuel -> exists d', reclaim excl rmdir fuel d q [] = Ok d'.
Proof.
  intros excl rmdir d q C Sq Q RM. apply (reclaim_stops d excl rmdir q C RM (S (length (nodes d))) (S (length q)) [] d q []); [lia|cbn; lia|apply inv_start; assumption|reflexivity].
Qed.
Print Assumptions C17_terminates.

(** A queued ghost that is still there afterwards is still needed. *)
Theorem C17_kept_for_a_reason : forall excl rmdir fuel d q d' x n,
  consistent d excl -> sorted q -> (forall x, In x q -> queueable d x) ->
  reclaim excl rmdir fuel d q [] = Ok d' ->
  In x q -> lookup d' x = Some n -> nname n <> B "tup.config" -> exists y, keeps d' excl y x.
Proof.
  intros excl rmdir fuel d q d' x n C S Q H Iq L T.
  destruct (reclaim_end d excl rmdir q C fuel _ _ _ _ _ (inv_start d excl q S Q) (fun _ => eq_refl) H) as [R I].
  pose proof (i_strip _ _ _ _ _ _ _ I) as St. pose proof (proj1 (lookup_some _ _ _ St x n) L) as [L0 NR].
  destruct (Q x Iq) as [m [Lm G]]. assert (m = n) as -> by congruence.
  destruct (i_closed _ _ _ _ _ _ _ I x n L0 NR G T (or_introl Iq)) as [[]|[[]|[y [K Ny]]]].
  exists y. destruct K as [n' m L' D K J E|n' m L' D K J E|n' L' D J|n' L' D K J|n' L' D K J|n' L' D J]; assert (n' = n) as -> by congruence.
  - apply (k_child _ _ _ _ n m L D K); [|exact E]. apply (in_nodes _ _ _ St). auto.
  - apply (k_variant _ _ _ _ n m L D K); [|exact E]. apply (in_nodes _ _ _ St). auto.
  - apply (k_user _ _ _ _ n L D). apply (in_normal _ _ _ St). auto.
  - apply (k_member _ _ _ _ n L D K). apply (in_normal _ _ _ St). auto.
  - apply (k_sticky _ _ _ _ n L D K). apply (in_sticky _ _ _ St). auto.
  - apply (k_excluded _ _ _ _ n L D). apply (in_normal _ _ _ St). auto.
Qed.
Print Assumptions C17_kept_for_a_reason.

(** A case: directory 3 is a ghost with a ghost directory 4 in it, which has a
    ghost 5. A command 6 depends on ghost 7 in 3's sibling 8. The queue has 5 and 7. *)
Definition ex_node (dt : nat) (k : ntype) (s : bytes) : node := {| dir := dt; kind := k; src := None; nname := s; time := 0%Z |}.
Definition ex_db : db := {|
  nodes := [(1, ex_node 0 TDir (B ".")); (3, ex_node 1 TGhost (B "a")); (4, ex_node 3 TGhost (B "b")); (5, ex_node 4 TGhost (B "c"));
            (6, ex_node 1 TCmd (B "cc")); (7, ex_node 8 TGhost (B "h")); (8, ex_node 1 TGhost (B "inc"))];
  normal := [(7, 6)]; sticky := []; modify := [5; 6]; create := [1]; config := [] |}.
Lemma ex_consistent : consistent ex_db 2.
Proof.
  split.
  - cbn. repeat constructor; cbn; intuition discriminate.
  - cbn. intros x n I G. repeat (destruct I as [I|I]; [injection I as <- <-; try discriminate G; cbn; discriminate|]). destruct I.
  - cbn. intros x n s I E. repeat (destruct I as [I|I]; [injection I as <- <-; discriminate E|]). destruct I.
  - cbn. intros x y [I|[]]. injection I as <- <-. split; cbn; discriminate.
  - intros x n y m L K I. pose proof (assoc_in _ _ _ L) as J. exfalso. cbn in J. repeat (destruct J as [J|J]; [injection J as <- <-; destruct K as [K|K]; cbn in K; discriminate|]). destruct J.
  - intros x n L E K. pose proof (assoc_in _ _ _ L) as J. cbn in J. repeat (destruct J as [J|J]; [injection J as <- <-; cbn in E; discriminate|]). destruct J.
  - cbn. tauto.
Qed.
Example C17_case : sorted [5; 7] /\ (forall x, In x [5; 7] -> queueable ex_db x) /\
  reclaim 2 (fun _ => true) 20 ex_db [5; 7] [] = Ok {|
    nodes := [(1, ex_node 0 TDir (B ".")); (6, ex_node 1 TCmd (B "cc")); (7, ex_node 8 TGhost (B "h")); (8, ex_node 1 TGhost (B "inc"))];
    normal := [(7, 6)]; sticky := []; modify := [6]; create := [1]; config := [] |}.
Proof.
  split; [cbn; repeat split; intros y; intuition lia|]. split; [|vm_compute; reflexivity].
  cbn. intros x. intuition subst; eexists; split; reflexivity.
Qed.

(** C18: a changed file is flagged, and so everything that depends on it is
    scheduled; the directories whose Tupfiles use it are to be parsed; a command
    whose output it is runs again. *)
Theorem C18_changed_file : forall x mtime force ign d d' n,
  lookup d x = Some n -> file_mod x mtime force ign d = Some d' ->
  time n <> mtime \/ (force = true /\ (ign = true -> kind n <> TGenerated)) ->
  (forall c, In (x, c) (normal d) -> scheduled d' c) /\
  (forall c, In (x, c) (normal d) -> is_kind d TDir c -> c <> x -> In c (create d')) /\
  (kind n = TGenerated -> forall p, In (p, x) (normal d) -> scheduled d' p).
Proof.
  intros x mtime force ign d d' n L H Ch. destruct (file_mod_flags _ _ _ _ _ _ _ L H Ch) as [H1 [H2 [H3 H4]]]. split; [|split; [exact H3|]].
  - intros c I. apply (sch_after _ x); [apply sch_flag; exact H1|rewrite H2; exact I].
  - intros K p I. apply sch_flag. auto.
Qed.
Print Assumptions C18_changed_file.

(** A file that appears where a ghost was (something looked for it before), whatever
    its time: its users are scheduled and its directory is to be parsed. *)
Theorem C18_appeared_file : forall x mtime force ign d d' n,
  lookup d x = Some n -> kind n = TGhost -> file_mod x mtime force ign d = Some d' ->
  is_kind d' TFile x /\ (forall c, In (x, c) (normal d) -> scheduled d' c) /\
  (is_kind d TDir (dir n) -> dir n <> x -> In (dir n) (create d')).
Proof.
  intros x mtime force ign d d' n L K H. destruct (ghost_to_file_flags _ _ _ _ _ _ _ L K H) as [H1 [H2 [H3 H4]]]. split; [exact H4|]. split; [|exact H3].
  intros c I. apply (sch_after _ x); [apply sch_flag; exact H1|rewrite H2; exact I].
Qed.
Print Assumptions C18_appeared_file.
Example C18_case_appeared : option_map (fun d => (modify d, create d)) (file_mod 7 0%Z false true ex_db) = Some ([7; 5; 6], [1]) /\
  option_map (fun d => (modify d, create d)) (file_mod 3 0%Z false true {| nodes := nodes ex_db; normal := [(3, 6)]; sticky := []; modify := []; create := []; config := [] |}) = Some ([3], [1]).
Proof. split; reflexivity. Qed.

(** A removed file. *)
Theorem C18_removed_file : forall x force d q d' q' n,
  lookup d x = Some n -> kind n = TFile -> nname n <> B "tup.config" -> file_del x force d q = Some (d', q') ->
  forall c, In (x, c) (normal d) -> c <> x ->
  (is_kind d TCmd c \/ is_kind d TGroup c -> scheduled d' c) /\ (is_kind d TDir c -> In c (create d')).
Proof.
  intros x force d q d' q' n L K T H c I N. destruct (file_del_flags _ _ _ _ _ _ _ L H T K c I N) as [H1 H2]. split; [intros Kc; apply sch_flag; auto|exact H2].
Qed.
Print Assumptions C18_removed_file.

(** A generated file that somebody removed: its command runs again, and what
    depends on the file comes after. The parser removes a generated file for good. *)
Theorem C18_removed_output : forall x d q d' q' n,
  lookup d x = Some n -> kind n = TGenerated -> nname n <> B "tup.config" -> nname n <> B ".gitignore" -> file_del x false d q = Some (d', q') ->
  forall p, In (p, x) (normal d) -> p <> x -> scheduled d' p /\ forall c, In (x, c) (normal d) -> scheduled d' c.
Proof.
  intros x d q d' q' n L K T T2 H p I N. destruct (file_del_generated _ _ _ _ _ _ L H T T2 K) as [H1 [_ H3]].
  assert (scheduled d' p) as S by (apply sch_flag; auto). split; [exact S|]. intros c J.
  apply (sch_after _ x); [|rewrite H1; exact J]. apply (sch_after _ p); [exact S|rewrite H1; exact I].
Qed.
Print Assumptions C18_removed_output.
Theorem C18_dropped_output : forall x d q d' q' n,
  lookup d x = Some n -> kind n = TGenerated -> nname n <> B "tup.config" -> file_del x true d q = Some (d', q') ->
  forall c, In (x, c) (normal d) -> c <> x -> is_kind d TCmd c \/ is_kind d TGroup c -> scheduled d' c.
Proof. intros x d q d' q' n L K T H c I N Kc. apply sch_flag. exact (file_del_forced _ _ _ _ _ _ L H T K c I N Kc). Qed.
Print Assumptions C18_dropped_output.

(** Cases: file 5 with a command 6 and a directory 2 that depend on it; the
    generated file 7 of command 6, used by command 8. *)
Definition ex_file (name : bytes) : db := {|
  nodes := [(1, ex_node 0 TDir (B ".")); (2, ex_node 1 TDir (B "sub")); (5, ex_node 1 TFile name); (6, ex_node 1 TCmd (B "cc"));
            (7, ex_node 1 TGenerated (B "o")); (8, ex_node 1 TCmd (B "ld"))];
  normal := [(5, 6); (5, 2); (6, 7); (7, 8)]; sticky := []; modify := []; create := []; config := [] |}.
Example C18_case_changed : option_map (fun d => (modify d, create d)) (file_mod 5 3%Z false true (ex_file (B "a.c"))) = Some ([5], [2]).
Proof. reflexivity. Qed.
Example C18_case_removed : option_map (fun r => (modify (fst r), create (fst r))) (file_del 5 false (ex_file (B "a.c")) []) = Some ([6], [1; 2]).
Proof. reflexivity. Qed.
Example C18_case_output : option_map (fun r => (modify (fst r), create (fst r))) (file_del 7 false (ex_file (B "a.c")) []) = Some ([6], []).
Proof. reflexivity. Qed.

(** Not so for a file tup.config: when it is removed, neither the commands
    that read the file nor the directories whose Tupfiles do are flagged. Only
    changes of the variables are looked for. *)
Theorem C18_removed_tup_config_refuted : exists d d' q' n,
  lookup d 5 = Some n /\ kind n = TFile /\ file_del 5 false d [] = Some (d', q') /\
  In (5, 6) (normal d) /\ is_kind d TCmd 6 /\ ~ scheduled d' 6 /\
  In (5, 2) (normal d) /\ is_kind d TDir 2 /\ ~ In 2 (create d').
Proof.
  exists (ex_file (B "tup.config")). do 3 eexists. split; [reflexivity|]. split; [reflexivity|]. split; [reflexivity|].
  split; [cbn; auto|]. split; [eexists; split; reflexivity|]. split; [|split; [cbn; auto|split; [eexists; split; reflexivity|cbn; tauto]]].
  intros S. induction S as [x []|x y _ IH _]. exact IH.
Qed.
Print Assumptions C18_removed_tup_config_refuted.
