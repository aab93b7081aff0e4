(** C36: the files of a job in the FUSE file system. *)
From Verif Require Import Base ExecModel GraphModel TentModel TentSpec FileModel FileSpec FileProps FuseModel FuseSpec FuseProofs FuseProofs2 FuseProofs3 FuseProofs4.
From Verif Require Import PathModel PathSpec.
From Coq Require Import ZArith.

Section Server.
Variable top : bytes.
Variable excluded : bytes -> bool.
Variable writable : bytes -> bool.
Variable top_writable : bool.
Notation request := (request top excluded writable top_writable).
Notation reachable := (reachable top excluded writable top_writable).

(** A job that starts sees the real files. *)
Theorem C36_job_starts_with_the_real_files s n p : ordinary top p = true -> view top (start_job s n) n p = get (abs p) (disk s).
Proof.
  intros O. rewrite (view_V top (start_job s n) n {| jmaps := []; jdirs := []; jevs := [] |} p), O; [reflexivity|].
  cbn [start_job set_job jobs]. rewrite Nat.eqb_refl. reflexivity.
Qed.

(** Each request does what it does on a plain file system that holds what the job
    sees: if it fails nothing changes, if it succeeds it is one that may, its
    answer is right, and what the job sees changes as it should. The real files and
    what other jobs see do not change. Partial: [fair] leaves out the requests
    below for which this is false. *)
Theorem C36_request_as_on_plain_fs_partial s n o : reachable s -> jobs s n <> None ->
  (forall p, In p (paths o) -> ordinary top p = true) -> fair top s n o ->
  let s' := fst (request s n o) in let r := snd (request s n o) in
  disk s' = disk s /\ (forall m p, m <> n -> view top s' m p = view top s m p) /\
  (forall e, r = RErr e -> forall p, view top s' n p = view top s n p) /\
  ((forall e, r <> RErr e) ->
     allowed (view top s n) o /\ answer (view top s n) o r /\ forall p, view top s' n p = effect o (view top s n) p).
Proof.
  intros R N P F s' r. destruct (request_step top excluded writable top_writable s n o (reachable_inv _ _ _ _ s R) N P F) as [_ [A [C [_ [D E]]]]].
  split; [exact A|]. split; [exact C|]. split.
  - intros e K. apply D. fold r. rewrite K. reflexivity.
  - intros K. apply E. fold r. destruct r; try reflexivity. exfalso. exact (K e eq_refl).
Qed.

(** A request that may succeed on a plain file system does, if it is about a file
    that the job created and the directories can be written to. *)
Theorem C36_allowed_request_succeeds_partial s n o : reachable s -> jobs s n <> None ->
  (forall p, In p (paths o) -> ordinary top p = true) -> fair top s n o -> mine s o ->
  top_writable = true -> (forall x, writable x = true) ->
  allowed (view top s n) o -> forall e, snd (request s n o) <> RErr e.
Proof.
  intros R N P F M W1 W2 A e E. destruct (jobs s n) as [j|] eqn:JN; [|contradiction].
  pose proof (request_accepted top excluded writable top_writable s (reachable_inv _ _ _ _ s R) n j JN o P F M W1 W2 A) as K. rewrite E in K. discriminate.
Qed.

(** Listing a directory gives the names in it. Partial: not the root. *)
Theorem C36_listing_partial s n p : reachable s -> jobs s n <> None -> ordinary top p = true -> p <> [] -> view top s n p = Some NDir ->
  exists l, snd (request s n (OList p)) = RNames l /\
    forall c, ordinary top (p ++ [c]) = true -> c <> B ".tup" -> In c l <-> view top s n (p ++ [c]) <> None.
Proof.
  intros R N O NP D. destruct (jobs s n) as [j|] eqn:JN; [|contradiction].
  destruct (proj2 (post_list top excluded writable top_writable s (reachable_inv _ _ _ _ s R) n j JN p O) D) as [l [L1 L2]].
  exists l. split; [exact L1|exact (L2 NP)].
Qed.

(** When the job ends and has no directory left, exactly the files that it sees
    are on the disk under their real names, with their contents; apart from
    those that the check of the outputs does not let pass. *)
Theorem C36_published s n keep : reachable s -> jobs s n <> None ->
  (forall p, view top s n p = Some NDir -> get (abs p) (disk s) = Some NDir) ->
  forall p, good p = true ->
  get (abs p) (disk (end_job s n keep)) = if ordinary top p && keep (abs p) then view top s n p else get (abs p) (disk s).
Proof.
  intros R N D p G. destruct (jobs s n) as [j|] eqn:JN; [|contradiction].
  exact (end_published top s n keep j (reachable_inv _ _ _ _ s R) JN D p G).
Qed.

(** Jobs that still run keep what they see, and see the published files. *)
Theorem C36_running_jobs_see_published s n keep m p : reachable s -> jobs s n <> None -> jobs s m <> None -> m <> n ->
  view top (end_job s n keep) m p =
  match view top s m p with Some x => Some x | None => if ordinary top p then get (abs p) (disk (end_job s n keep)) else None end.
Proof.
  intros R N M MN. destruct (jobs s n) as [j|] eqn:JN; [|contradiction].
  apply (end_other top s n keep j (reachable_inv _ _ _ _ s R) JN); assumption.
Qed.

(** With C11: if the command is accepted then the job has no directory left, and
    the files that it sees and that are not real ones are exactly the declared
    outputs. *)
Theorem C36_accepted_files_are_the_outputs s n j
    kind_of hidden ignorable lookup do_unlink rename_ok mtime_ok node_of var_of input_check outputs used_groups :
  (forall w x, lookup w = Some x -> (Z.of_nat x < 2 ^ 31)%Z) ->
  (forall v w x, lookup v = Some x -> lookup w = Some x -> v = w) ->
  sorted outputs ->
  reachable s -> jobs s n = Some j ->
  (forall p, ordinary top p = true -> hidden (abs p) = false) ->
  write_files kind_of hidden (fun _ => false) ignorable lookup do_unlink rename_ok mtime_ok node_of var_of input_check
    outputs used_groups (jdirs j) (jmaps j) CheckSuccess (handle_events (jevs j) finfo0) = true ->
  (forall p, view top s n p = Some NDir -> get (abs p) (disk s) = Some NDir) /\
  (forall p, view top s n p <> None -> get (abs p) (disk s) = None -> exists x, lookup (abs p) = Some x /\ In x outputs) /\
  (forall x, In x outputs -> exists p, lookup (abs p) = Some x /\ view top s n p <> None /\ get (abs p) (disk s) = None).
Proof.
  intros LS LI So R JN HH AC. pose proof (inv_job _ _ (reachable_inv _ _ _ _ s R) n j JN) as J.
  destruct (C11_accepted_created_exactly_the_outputs kind_of hidden (fun _ => false) ignorable lookup do_unlink rename_ok mtime_ok node_of var_of input_check
    outputs used_groups (jdirs j) (jmaps j) (jevs j) LS LI So) as [A1 [A2 [A3 _]]].
  - exact (nodup_app_l _ _ (ji_nodup _ _ _ _ _ J)).
  - intros m Hm. exact (proj1 (ji_tmp _ _ _ _ _ J m Hm)).
  - exact (ji_renames _ _ _ _ _ J).
  - exact AC.
  - assert (ND : forall x, ~ In x (jdirs j)) by (intros x Hx; specialize (A3 x Hx); discriminate). split; [|split].
    + intros p. rewrite (view_V top s n j p JN). destruct (ordinary top p); [|discriminate]. intros H. apply (V_is_dir _ _ _ _ _ J) in H. destruct H as [H|H]; [destruct (ND _ H)|exact H].
    + intros p. rewrite (view_V top s n j p JN). destruct (ordinary top p) eqn:O; [|congruence]. intros H E. apply (A1 (abs p)); [|apply HH; exact O|reflexivity].
      apply (ji_own _ _ _ _ _ J). destruct (in_dec bytes_eq_dec (abs p) (owned j)) as [I|I]; [|rewrite (V_other _ _ _ _ I) in H; contradiction].
      apply in_app_or in I. destruct I as [I|I]; [exact I|destruct (ND _ I)].
    + intros x Hx. destruct (A2 x Hx) as [f [F1 [_ [_ F2]]]]. apply (ji_own _ _ _ _ _ J) in F1. assert (In f (owned j)) as I by (apply in_or_app; left; exact F1).
      destruct (ji_path _ _ _ _ _ J f I) as [p [c [O [E [N _]]]]]. exists (p ++ [c]). rewrite <- E. split; [exact F2|]. split; [|exact N].
      rewrite (view_V top s n j _ JN), O, <- E. apply (V_owned _ _ _ _ _ J). exact I.
Qed.
End Server.

(** ** Where it is not like a plain file system *)
Definition ex_top : bytes := B "/t".
Definition ex_s0 : state :=
  {| disk := [(B "/", NDir); (B "/t", NDir); (B "/t/a", NFile (B "x"))]; tmp := []; filenum := 0; jobs := fun _ => None |}.
Definition ex_run (l : list op) : state := requests ex_top (fun _ => false) (fun _ => true) true (start_job ex_s0 0) (map (fun o => (0, o)) l).
Definition ex_reply (l : list op) (o : op) : reply := snd (request ex_top (fun _ => false) (fun _ => true) true (ex_run l) 0 o).
Definition ex_view (l : list op) (p : list bytes) : option node := view ex_top (ex_run l) 0 p.
Definition ex_t (c : bytes) : list bytes := [B "t"; c].
Definition ex_u (b c : bytes) : list bytes := [B "t"; b; c].

(** False: what is in a directory moves with it. *)
Theorem C36_rename_directory_refuted :
  let l := [OMkdir (ex_t (B "d")); OCreate (ex_u (B "d") (B "f"))] in
  let o := ORename (ex_t (B "d")) (ex_t (B "e")) in
  ex_reply l o = ROk /\ ex_view (l ++ [o]) (ex_u (B "e") (B "f")) = None /\ ex_view (l ++ [o]) (ex_u (B "d") (B "f")) = Some (NFile []) /\
  effect o (ex_view l) (ex_u (B "e") (B "f")) = Some (NFile []).
Proof. repeat split; vm_compute; reflexivity. Qed.
(** False: a directory that was renamed over another one can be removed. *)
Theorem C36_rename_over_directory_refuted :
  let l := [OMkdir (ex_t (B "d")); OMkdir (ex_t (B "e")); ORename (ex_t (B "d")) (ex_t (B "e"))] in
  ex_reply l (ORmdir (ex_t (B "e"))) = ROk /\ ex_view (l ++ [ORmdir (ex_t (B "e"))]) (ex_t (B "e")) = Some NDir.
Proof. repeat split; vm_compute; reflexivity. Qed.
(** False: a rename that fails changes nothing. Renaming a real file over one of
    the job fails after the target was removed. *)
Theorem C36_rename_real_file_refuted :
  let l := [OCreate (ex_t (B "f"))] in
  let o := ORename (ex_t (B "a")) (ex_t (B "f")) in
  ex_reply l o = RErr ENOENT /\ ex_view l (ex_t (B "f")) = Some (NFile []) /\ ex_view (l ++ [o]) (ex_t (B "f")) = None.
Proof. repeat split; vm_compute; reflexivity. Qed.
(** False: a file that was removed is gone. Here the real one comes back. *)
Theorem C36_rename_over_real_file_refuted :
  let l := [OCreate (ex_t (B "f")); ORename (ex_t (B "f")) (ex_t (B "a"))] in
  ex_view l (ex_t (B "a")) = Some (NFile []) /\ ex_reply l (OUnlink (ex_t (B "a"))) = ROk /\
  ex_view (l ++ [OUnlink (ex_t (B "a"))]) (ex_t (B "a")) = Some (NFile (B "x")).
Proof. repeat split; vm_compute; reflexivity. Qed.
(** False: a failed open changes nothing. Opening a real file for writing fails
    and the job does not see the file any more. *)
Theorem C36_open_for_writing_refuted :
  let o := OOpen (ex_t (B "a")) true in
  ex_reply [] o = RErr ENOENT /\ ex_view [] (ex_t (B "a")) = Some (NFile (B "x")) /\ ex_view [o] (ex_t (B "a")) = None.
Proof. repeat split; vm_compute; reflexivity. Qed.
(** False: a failed truncation has no effect. It counts as a write. *)
Theorem C36_truncate_refuted :
  let o := OTruncate (ex_t (B "a")) 0 in
  ex_reply [] o = RErr EPERM /\ option_map jevs (jobs (ex_run [o]) 0) = Some [EWrite (B "/t/a")].
Proof. repeat split; vm_compute; reflexivity. Qed.
(** False: the root lists the files that the job created in it. *)
Theorem C36_root_listing_refuted :
  ex_view [OCreate [B "f"]] [B "f"] = Some (NFile []) /\ ex_reply [OCreate [B "f"]] (OList []) = RNames [B "t"].
Proof. repeat split; vm_compute; reflexivity. Qed.

(** ** C33 *)
Lemma strstr_skip x a b : forallb (fun y => negb (y =?c slash)) a = true -> strstr (slash :: x) (a ++ b) = strstr (slash :: x) b.
Proof.
  induction a as [|c a IH]; [reflexivity|]. cbn [forallb app]. intros H. apply andb_prop in H. destruct H as [H1 H2]. cbn [strstr prefixb].
  apply negb_true_iff in H1. rewrite Ascii.eqb_sym in H1. rewrite H1. cbn [andb orb]. apply IH. exact H2.
Qed.
Lemma prefixb_below x : forallb (fun y => negb (y =?c slash)) x = true -> forall c p, prefixb x (c ++ below p) = prefixb x c.
Proof.
  intros H c p. revert x H. induction c as [|a c IH]; intros [|y x] H; try reflexivity.
  - cbn [app]. destruct p as [|b p]; [reflexivity|]. rewrite below_cons. cbn [prefixb app]. cbn [forallb] in H. apply andb_prop in H. destruct H as [H _]. apply negb_true_iff in H. rewrite H. reflexivity.
  - cbn [app prefixb]. cbn [forallb] in H. apply andb_prop in H. destruct H as [_ H]. rewrite (IH x H). reflexivity.
Qed.
Lemma strstr_component x p : forallb (fun y => negb (y =?c slash)) x = true -> good p = true ->
  strstr (slash :: x) (below p) = existsb (prefixb x) p.
Proof.
  intros H. induction p as [|c p IH]; intros G; [reflexivity|]. unfold good in G. cbn [forallb] in G. apply andb_prop in G. destruct G as [G1 G2].
  rewrite below_cons. cbn [app strstr prefixb existsb]. rewrite Ascii.eqb_refl. cbn [andb]. rewrite (prefixb_below x H). f_equal.
  destruct c as [|a c]; [discriminate|]. rewrite strstr_skip by exact G1. apply IH. exact G2.
Qed.
(** The file server hides a name exactly if one of its components starts with
    .git, .tup, .hg, .svn or .bzr, or if it belongs to ccache or icecream. *)
Theorem C33_server_hidden p : good p = true ->
  is_hidden (abs p) = true <->
  (exists c x, In c p /\ In x [B ".git"; B ".tup"; B ".hg"; B ".svn"; B ".bzr"] /\ prefixb x c = true) \/ is_ccache_path (abs p) = true.
Proof.
  intros G. unfold is_hidden. rewrite !orb_true_iff.
  assert (forall x, forallb (fun y => negb (y =?c slash)) x = true -> x <> [] -> strstr (slash :: x) (abs p) = true <-> exists c, In c p /\ prefixb x c = true) as K.
  { intros x Hx Nx. destruct p as [|c p].
    - split; [|intros [c [[] _]]]. destruct x; [contradiction|]. cbn. discriminate.
    - change (abs (c :: p)) with (below (c :: p)). rewrite (strstr_component x _ Hx G), existsb_exists. reflexivity. }
  change (B "/.git") with (slash :: B ".git"). change (B "/.tup") with (slash :: B ".tup"). change (B "/.hg") with (slash :: B ".hg").
  change (B "/.svn") with (slash :: B ".svn"). change (B "/.bzr") with (slash :: B ".bzr").
  rewrite !K by first [reflexivity | discriminate]. split.
  - intros [[[[[[c H]|[c H]]|[c H]]|[c H]]|[c H]]|H]; [left..|right; exact H]; exists c; eexists; (split; [apply H|split; [|apply H]]); cbn [In]; tauto.
  - intros [[c [x [H1 [H2 H3]]]]|H]; [|tauto]. cbn [In] in H2.
    destruct H2 as [<-|[<-|[<-|[<-|[<-|[]]]]]]; [do 5 left|do 4 left; right|do 3 left; right|do 2 left; right|left; right]; exists c; auto.
Qed.
(** So it hides all that the parser and the scanner hide. (The kernel resolves .
    and .. before it asks the server.) *)
Theorem C33_server_hides_ignored_names p c : good p = true -> In c p -> In c ignored_names -> c <> B "." -> c <> B ".." -> is_hidden (abs p) = true.
Proof.
  intros G H I N1 N2. apply C33_server_hidden; [exact G|]. unfold ignored_names in I. cbn [map In] in I.
  assert (prefixb c c = true) as R by (apply prefixb_spec; exists []; rewrite app_nil_r; reflexivity).
  repeat (destruct I as [I|I]; [try congruence; try (left; exists c, c; rewrite <- I; split; [rewrite I; exact H|split; [cbn [In]; tauto|reflexivity]])|]); [|destruct I].
  right. unfold is_ccache_path. change (B "/.ccache") with (slash :: B ".ccache"). destruct p as [|a p]; [destruct H|]. change (abs (a :: p)) with (below (a :: p)).
  rewrite strstr_component; [|reflexivity|exact G]. assert (existsb (prefixb (B ".ccache")) (a :: p) = true) as ->; [|reflexivity].
  apply existsb_exists. exists c. split; [exact H|]. rewrite I. exact R.
Qed.
Example ex_server_hides : good [B "t"; B ".git"; B "x"] = true /\ is_hidden (abs [B "t"; B ".git"; B "x"]) = true /\ is_hidden (abs [B "t"; B "x.git"]) = false.
Proof. repeat split. Qed.
(** False: the parser, the scanner and the file server agree. The server hides
    .gitignore, which the others do not. *)
Theorem C33_server_agrees_refuted : exists g, get_path_elements (B "/t") (B "a/.gitignore") = Some g /\ pg_hidden g = false /\
  is_hidden (abs [B "t"; B "a"; B ".gitignore"]) = true.
Proof. eexists. split; [|split]; vm_compute; reflexivity. Qed.

(** ** Examples *)
Lemma ex_reach l : (forall o, In o l -> forall p, In p (paths o) -> ordinary ex_top p = true) ->
  (forall a o b, l = a ++ o :: b -> fair ex_top (ex_run a) 0 o /\ jobs (ex_run a) 0 <> None) ->
  reachable ex_top (fun _ => false) (fun _ => true) true (ex_run l).
Proof.
  induction l as [|o l IH] using rev_ind; intros P F.
  - apply reach_start; [|reflexivity]. apply reach_init; [|reflexivity]. split; [reflexivity|]. split.
    + intros p c G H. apply get_in in H. cbn [map ex_s0 disk fst In] in H.
      destruct H as [H|[H|[H|[]]]]; symmetry in H.
      * change (B "/") with (abs []) in H. apply abs_inj in H; [|exact G|reflexivity]. destruct p; discriminate.
      * change (B "/t") with (abs ([] ++ [B "t"])) in H. apply abs_inj in H; [|exact G|reflexivity]. apply app_inj_tail in H. destruct H as [-> _]. reflexivity.
      * change (B "/t/a") with (abs ([B "t"] ++ [B "a"])) in H. apply abs_inj in H; [|exact G|reflexivity]. apply app_inj_tail in H. destruct H as [-> _]. reflexivity.
    + intros x H. apply get_in in H. cbn [map ex_s0 disk fst In] in H. destruct H as [<-|[<-|[<-|[]]]]; [exists []|exists [B "t"]|exists [B "t"; B "a"]]; split; reflexivity.
  - assert (ex_run (l ++ [o]) = fst (request ex_top (fun _ => false) (fun _ => true) true (ex_run l) 0 o)) as ->.
    { unfold ex_run. rewrite map_app. cbn [map]. generalize (start_job ex_s0 0). clear. induction l as [|a l IH]; intros s; [reflexivity|]. cbn [map app requests]. apply IH. }
    destruct (F l o [] eq_refl) as [F1 F2]. apply reach_request; [|exact F2|apply P; apply in_or_app; right; left; reflexivity|exact F1].
    apply IH; [intros o' H; apply P; apply in_or_app; left; exact H|]. intros a o' b E. apply (F a o' (b ++ [o])). rewrite E, <- app_assoc. reflexivity.
Qed.
Definition ex_ops : list op :=
  [OMkdir (ex_t (B "d")); OCreate (ex_u (B "d") (B "f")); OWrite (ex_u (B "d") (B "f")) 0 (B "hello"); OCreate (ex_t (B "o")); OOpen (ex_t (B "o")) true;
   ORename (ex_u (B "d") (B "f")) (ex_t (B "o")); ORename (ex_t (B "d")) (ex_t (B "e")); ORmdir (ex_t (B "e")); ORead (ex_t (B "a"));
   OSymlink (B "o") (ex_t (B "l")); OUnlink (ex_t (B "l"))].
Lemma ex_empty_dir x : under (ex_t (B "d")) x -> ex_view (firstn 6 ex_ops) x = None.
Proof.
  intros U. unfold ex_view, view. destruct (ordinary ex_top x) eqn:O; [|reflexivity].
  set (s := ex_run (firstn 6 ex_ops)). assert (R : exists j, jobs s 0 = Some j) by (eexists; vm_compute; reflexivity).
  destruct R as [j R]. rewrite (look_V ex_top s 0 j x R O). unfold V. vm_compute in R. injection R as <-.
  assert (G : good x = true) by exact (proj1 (ordinary_parts ex_top _ O)).
  assert (K : forall q, good q = true -> length q <= 2 -> bytes_eqb (abs x) (abs q) = false /\ bytes_eqb (abs q) (abs x) = false).
  { intros q Gq L. assert (abs x <> abs q) as C.
    - intros C. apply abs_inj in C; [|exact G|exact Gq]. subst q. destruct U as [c [r ->]]. rewrite app_length in L. cbn in L. lia.
    - split; [destruct (bytes_eqb_spec (abs x) (abs q))|destruct (bytes_eqb_spec (abs q) (abs x))]; congruence. }
  unfold is_tmpdir. cbn [jdirs jmaps existsb find realname].
  change ["/"; "t"; "/"; "d"]%char with (abs (ex_t (B "d"))). change ["/"; "t"; "/"; "o"]%char with (abs (ex_t (B "o"))).
  destruct (K (ex_t (B "d")) eq_refl ltac:(cbn; lia)) as [K1 K2]. destruct (K (ex_t (B "o")) eq_refl ltac:(cbn; lia)) as [K3 K4]. rewrite ?K1, ?K2, ?K3, ?K4. cbn [orb].
  change (disk s) with [(abs [], NDir); (abs [B "t"], NDir); (abs (ex_t (B "a")), NFile (B "x"))]. cbn [get].
  destruct (K [] eq_refl ltac:(cbn; lia)) as [_ ->]. destruct (K [B "t"] eq_refl ltac:(cbn; lia)) as [_ ->]. destruct (K (ex_t (B "a")) eq_refl ltac:(cbn; lia)) as [_ ->].
  reflexivity.
Qed.
Example ex_ops_reachable : reachable ex_top (fun _ => false) (fun _ => true) true (ex_run ex_ops).
Proof.
  apply ex_reach.
  - assert (forallb (fun o => forallb (ordinary ex_top) (paths o)) ex_ops = true) as H by (vm_compute; reflexivity).
    rewrite forallb_forall in H. intros o Ho p Hp. specialize (H o Ho). rewrite forallb_forall in H. exact (H p Hp).
  - intros a o b E. unfold ex_ops in E.
    do 11 (destruct a as [|? a]; [injection E as <- _; split; [|vm_compute; discriminate];
      first [exact I | vm_compute; reflexivity |
        right; split; [vm_compute; reflexivity|]; split; [intros H; vm_compute in H; contradiction|]; intros _ H;
        first [vm_compute in H; discriminate | split; [vm_compute; reflexivity|exact ex_empty_dir]]]
     |injection E as <- E]).
    destruct a; discriminate.
Qed.
(** The written file is published under its last name; the temporary directory is gone. *)
Example ex_ops_result :
  ex_view ex_ops (ex_t (B "o")) = Some (NFile (B "hello")) /\ ex_view ex_ops (ex_t (B "d")) = None /\ ex_view ex_ops (ex_t (B "e")) = None /\ disk (end_job (ex_run ex_ops) 0 (fun _ => true)) =
    [(B "/t/o", NFile (B "hello")); (B "/", NDir); (B "/t", NDir); (B "/t/a", NFile (B "x"))].
Proof. repeat split; vm_compute; reflexivity. Qed.
Example ex_ops_no_dirs p : view ex_top (ex_run ex_ops) 0 p = Some NDir -> get (abs p) (disk (ex_run ex_ops)) = Some NDir.
Proof.
  assert (R : exists j, jobs (ex_run ex_ops) 0 = Some j /\ jdirs j = []) by (eexists; split; vm_compute; reflexivity). destruct R as [j [R D]].
  rewrite (view_V ex_top _ 0 j p R). destruct (ordinary ex_top p); [|discriminate]. intros H.
  apply (V_is_dir ex_top _ _ _ j (inv_job _ _ (reachable_inv _ _ _ _ _ ex_ops_reachable) 0 j R)) in H. rewrite D in H. destruct H as [[]|H]. exact H.
Qed.
(** The command with the output /t/o is accepted. *)
Example ex_ops_accepted :
  option_map (fun j => write_files (fun _ => KGenerated) (fun _ => false) (fun _ => false) (fun _ => false)
    (fun f => if bytes_eqb f (B "/t/o") then Some 7 else None) true (fun _ => true) (fun _ => true) (fun _ => None) (fun _ => None) (fun _ => true)
    [7] [] (jdirs j) (jmaps j) CheckSuccess (handle_events (jevs j) finfo0)) (jobs (ex_run ex_ops) 0) = Some true.
Proof. vm_compute. reflexivity. Qed.
(** Two jobs that create files with the same name do not see each other's. *)
Example ex_two_jobs :
  let s := requests ex_top (fun _ => false) (fun _ => true) true (start_job (start_job ex_s0 0) 1)
    [(0, OCreate (ex_t (B "o"))); (1, OCreate (ex_t (B "o"))); (1, OWrite (ex_t (B "o")) 0 (B "y"))] in
  view ex_top s 0 (ex_t (B "o")) = Some (NFile []) /\ view ex_top s 1 (ex_t (B "o")) = Some (NFile (B "y")).
Proof. repeat split; vm_compute; reflexivity. Qed.

Print Assumptions C36_job_starts_with_the_real_files.
Print Assumptions C36_request_as_on_plain_fs_partial.
Print Assumptions C36_allowed_request_succeeds_partial.
Print Assumptions C36_listing_partial.
Print Assumptions C36_published.
Print Assumptions C36_running_jobs_see_published.
Print Assumptions C36_accepted_files_are_the_outputs.
Print Assumptions C36_rename_directory_refuted.
Print Assumptions C36_rename_over_directory_refuted.
Print Assumptions C36_rename_real_file_refuted.
Print Assumptions C36_rename_over_real_file_refuted.
Print Assumptions C36_open_for_writing_refuted.
Print Assumptions C36_truncate_refuted.
Print Assumptions C36_root_listing_refuted.
Print Assumptions C33_server_hidden.
Print Assumptions C33_server_hides_ignored_names.
Print Assumptions C33_server_agrees_refuted.
