(** C61: %<group> and %<group>.res in commands. *)
From Verif Require Import Base EntryModel EntrySpec EntryProps FuseModel ExpandModel ExpandSpec ExpandProofs ExpandProofs2.

(** Every text can be divided in at most one way. *)
Theorem C61_one_reading : forall cmd ps qs, template cmd ps -> template cmd qs -> ps = qs.
Proof. intros cmd ps qs [-> P] [E Q]. exact (template_unique_aux _ ps qs (le_n _) P Q E). Qed.
Print Assumptions C61_one_reading.

(** For every command and every state of the resource files: each [%<g>] is
    replaced by the paths from the command's directory to the generated files
    of the groups with that name, each [%<g>.res] by a path to a new file with
    these paths, and nothing else is changed. Exactly the groups that are named
    are recorded as used. What is missing: [%<g>.res] in a variant, and groups
    with a '>' inside their names; see the refutations. *)
Theorem C61_expansion_partial : forall T top member srcdir par gs cmd ps,
  directory_tree T top member -> member par -> member (srcdir par) ->
  Forall plain_group gs -> (forall g f, In g gs -> In (f, true) (g_inputs g) -> member f) ->
  no_nul cmd -> template cmd ps ->
  (forall p g, In p ps -> names_group p = Some g -> named g gs <> []) ->
  ((exists g, In (PathFile g) ps) -> srcdir par = par) ->
  exists n, forall fuel, n < fuel -> forall w, session T fuel srcdir true w ->
  exists out used w', expand_command T fuel srcdir true par gs cmd w = (Good (out, used), w') /\
    all_stand T top (srcdir par) gs (files w) ps out (files w') /\
    forall i, In i used <-> exists p g x, In p ps /\ names_group p = Some g /\ In x (named g gs) /\ g_id x = i.
Proof.
  intros T top member srcdir par gs cmd ps D Mp Ms Pl Mf Z Tm Nm Rs.
  assert (forall g f, In g gs -> In f (files_in g) -> member f) as Mf'.
  { intros g f G F. unfold files_in in F. apply in_map_iff in F as [[f' b] [<- F]]. apply filter_In in F as [F Eb]. cbn in *. subst b. exact (Mf g f' G F). }
  destruct (all_enough T top member (srcdir par) (flat_map files_in gs) D Ms) as [n Hn].
  { apply Forall_forall. intros f F. apply in_flat_map in F as [g [G F]]. exact (Mf' g f G F). }
  destruct (dotdots_enough T top member par D Mp) as [m Hm]. exists (n + m). intros fuel L w Se.
  assert (Forall (ok_piece gs) ps) as Ok.
  { apply Forall_forall. intros p X. unfold ok_piece. destruct (names_group p) as [g|] eqn:E; [|exact I]. split; [exact (Nm p g X E)|].
    intros Y. apply Z. destruct Tm as [-> _]. apply in_concat. exists (written p). split; [apply in_map; exact X|].
    destruct p; [discriminate| |]; injection E as ->; cbn [written]; apply in_or_app; right; apply in_or_app; left; exact Y. }
  destruct (command_good T top member D fuel srcdir true par gs Mp Ms Pl Mf') with (cmd := cmd) (ps := ps) (w := w) as [out [w' [E S]]]; auto.
  { split; [intros g f G F; apply (Hn fuel ltac:(lia)); apply in_flat_map; eauto|exact (Hm fuel ltac:(lia))]. }
  exists out, (used_by gs ps), w'. split; [exact E|]. split; [exact S|]. intros i. unfold used_by. rewrite in_flat_map. split.
  - intros [p [X Y]]. destruct (names_group p) as [g|] eqn:Eg; [|destruct Y]. apply in_map_iff in Y as [x [<- Y]]. exists p, g, x. auto.
  - intros [p [g [x [X [Eg [Y <-]]]]]]. exists p. split; [exact X|]. rewrite Eg. apply in_map. exact Y.
Qed.
Print Assumptions C61_expansion_partial.

(** A command is accepted only if every %< has its '>' and every group it names
    is among its inputs. *)
Theorem C61_accepts_only : forall T fuel srcdir tmp_ok par gs cmd w r w',
  Forall plain_group gs -> no_nul cmd -> expand_command T fuel srcdir tmp_ok par gs cmd w = (Good r, w') ->
  exists ps, template cmd ps /\ (forall p g, In p ps -> names_group p = Some g -> named g gs <> []) /\ ((exists g, In (PathFile g) ps) -> tmp_ok = true).
Proof.
  intros T fuel srcdir tmp_ok par gs cmd w r w' Pl Z E. destruct (command_accepts T fuel srcdir tmp_ok par gs Pl cmd w r w' Z E) as [ps [Tm [Ok Rs]]].
  exists ps. split; [exact Tm|]. split; [|exact Rs]. intros p g X Eg. apply (proj1 (Forall_forall _ _) Ok) in X. unfold ok_piece in X. rewrite Eg in X. apply X.
Qed.
Print Assumptions C61_accepts_only.

(** In one run of tup no two resource files have the same name, and no command
    changes or removes those of others. *)
Theorem C61_own_file : forall T fuel srcdir tmp_ok w par gs cmd,
  session T fuel srcdir tmp_ok w ->
  NoDup (map fst (files w)) /\ exists new, files (snd (expand_command T fuel srcdir tmp_ok par gs cmd w)) = new ++ files w.
Proof.
  intros T fuel srcdir tmp_ok w par gs cmd Se. pose proof (session_tidy T fuel srcdir tmp_ok w Se) as Ti. split; [apply Ti|].
  exact (proj2 (command_tidy T fuel srcdir tmp_ok par gs cmd w Ti)).
Qed.
Print Assumptions C61_own_file.

Lemma walk_up T s cs e : walks T s (B ".." :: cs) e -> exists p, parent T s = Some p /\ walks T p cs e.
Proof.
  intros W. remember (B ".." :: cs) as l eqn:E. destruct W as [s|s l e W|s p l e P W|s c l e P N W]; [discriminate|discriminate| |].
  - injection E as ->. eauto.
  - exfalso. destruct N as [_ [_ [N _]]]. injection E as E _. exact (N E).
Qed.
(** In a variant the path to a resource file is wrong: the number of ".." is
    that of the variant's directory, but the command runs in the source
    directory. Here from sub/, with the variant in build/: ../.. is above the
    project's top. *)
Definition ex_tree : tree := {|
  parent := fun t => match t with 1 => Some 0 | 2 => Some 0 | 3 => Some 2 | 4 => Some 3 | 5 => Some 1 | 6 => Some 1 | 7 => Some 0 | _ => None end;
  name := fun t => match t with 1 => B "sub" | 2 => B "build" | 3 => B "sub" | 4 => B "a.o" | 5 => B "x.o" | 6 => B "a b" | 7 => B "b" | _ => B "." end |}.
Definition ex_src (t : nat) : nat := match t with 2 => 0 | 3 => 1 | t => t end.
Definition no_files : world := {| resno := 0; files := [] |}.
Definition ex_g (i : nat) (n : string) (l : list nat) : group := {| g_id := i; g_name := B n; g_inputs := map (fun x => (x, true)) l |}.
Theorem C61_resource_file_in_variant_refuted :
  expand_command ex_tree 9 ex_src true 3 [ex_g 8 "<objs>" [4]] (B "ld @%<objs>.res") no_files =
    (Good (B "ld @../../.tup/tmp/res-0", [8]), {| resno := 1; files := [(B ".tup/tmp/res-0", B "../build/sub/a.o" ++ [newline])] |}) /\
  ~ exists d, walks ex_tree 1 [B ".."; B ".."] d.
Proof.
  split; [vm_compute; reflexivity|]. intros [d W]. apply walk_up in W as [p [E W]]. injection E as <-. apply walk_up in W as [p [E W]]. discriminate.
Qed.
Print Assumptions C61_resource_file_in_variant_refuted.

(** Only the beginning of a group's name is compared: %<a> takes the files of
    an input group <a>b, although there is no group <a>. *)
Theorem C61_other_group_refuted :
  fst (expand_command ex_tree 9 (fun t => t) true 1 [ex_g 8 "<a>b" [5]] (B "ld %<a>") no_files) = Good (B "ld x.o", [8]) /\ named (B "a") [ex_g 8 "<a>b" [5]] = [].
Proof. vm_compute. auto. Qed.
Print Assumptions C61_other_group_refuted.

(** A blank in a path is not quoted: the text for one file is the text for two
    others. *)
Theorem C61_words_refuted : exists T l1 l2, l1 <> l2 /\
  fst (expand_command T 9 (fun t => t) true 0 [ex_g 8 "<g>" l1] (B "ls %<g>") no_files) = Good (B "ls sub/a b", [8]) /\
  fst (expand_command T 9 (fun t => t) true 0 [ex_g 8 "<g>" l2] (B "ls %<g>") no_files) = Good (B "ls sub/a b", [8]).
Proof.
  exists {| parent := fun t => match t with 1 => Some 0 | 2 => Some 1 | 3 => Some 1 | 4 => Some 0 | _ => None end;
            name := fun t => match t with 1 => B "sub" | 2 => B "a b" | 3 => B "a" | 4 => B "b" | _ => B "." end |}, [2], [3; 4].
  split; [discriminate|]. vm_compute. auto.
Qed.
Print Assumptions C61_words_refuted.

(** An example: two groups with the same name, and a resource file. *)
Example C61_ex :
  expand_command ex_tree 9 (fun t => t) true 1 [ex_g 8 "<objs>" [4; 5]; ex_g 9 "<lib>" []; ex_g 10 "<objs>" [7]] (B "ld %<objs> -l@%<lib>.res 100%") no_files =
    (Good (B "ld ../build/sub/a.o x.o ../b -l@../.tup/tmp/res-0 100%", [8; 10; 9]), {| resno := 1; files := [(B ".tup/tmp/res-0", [])] |}).
Proof. vm_compute. reflexivity. Qed.
Example C61_hypotheses :
  directory_tree ex_tree 0 (fun t => t <= 7) /\ Forall plain_group [ex_g 8 "<objs>" [4; 5]; ex_g 9 "<lib>" []; ex_g 10 "<objs>" [7]] /\
  template (B "ld %<objs> -l@%<lib>.res 100%") [Text (B "ld "); Paths (B "objs"); Text (B " -l@"); PathFile (B "lib"); Text (B " 100%")] /\
  members (B "objs") [ex_g 8 "<objs>" [4; 5]; ex_g 9 "<lib>" []; ex_g 10 "<objs>" [7]] = [4; 5; 7] /\
  session ex_tree 9 (fun t => t) true {| resno := 1; files := [(B ".tup/tmp/res-0", [])] |}.
Proof.
  assert (forall s, open_group s = None -> ~ within (B "%<") s) as NW by exact open_group_none.
  split; [|split; [|split; [|split]]].
  - split.
    + intros t M. do 8 (destruct t as [|t]; [split; cbn; congruence|]). lia.
    + intros t p M. do 8 (destruct t as [|t]; [cbn; intros E; try discriminate; injection E as <-; lia|]). lia.
    + exists (fun t => match t with 0 => 0 | 1 => 1 | 2 => 1 | 3 => 2 | 7 => 1 | _ => 3 end). intros t p M.
      do 8 (destruct t as [|t]; [cbn; intros E; try discriminate; injection E as <-; cbn; lia|]). lia.
    + intros t M. do 8 (destruct t as [|t]; [intros N; try contradiction; repeat split; cbn; intuition discriminate|]). lia.
    + intros s t p. do 8 (destruct s as [|s]; [do 8 (destruct t as [|t]; [cbn; congruence|]); discriminate|]). discriminate.
  - repeat constructor; [exists (B "objs")|exists (B "lib")|exists (B "objs")]; (split; [reflexivity|cbn; intuition discriminate]).
  - split; [reflexivity|]. cbn [in_pieces]. repeat split; try discriminate; try (apply NW; reflexivity); cbn; intuition discriminate.
  - reflexivity.
  - assert (E : {| resno := 1; files := [(B ".tup/tmp/res-0", [])] |} =
      snd (expand_command ex_tree 9 (fun t => t) true 1 [ex_g 9 "<lib>" []] (B "%<lib>.res") no_files)) by (vm_compute; reflexivity).
    rewrite E. constructor. constructor.
Qed.
