(** C34: an option has its value from the first place that sets it. *)
From Verif Require Import Base ConfigModel ConfigSpec ConfigProofs OptModel OptSpec OptProofs OptProofs2.

(** The command line, .tup/options, the user's file, the machine's file, the default. *)
Theorem C34_precedence m argv tup home etc st s1 s2 s3 o k d r :
  option_init m argv tup home etc = Some st -> source tup s1 -> source home s2 -> source etc s3 ->
  is_option m o k d -> args_say argv o r ->
  get_string m st o = Some (first_of [r; last_value s1 o; last_value s2 o; last_value s3 o] d).
Proof.
  unfold option_init, option_files. intros H F1 F2 F3 K A.
  destruct (cmdline argv []) as [v|] eqn:C; [|discriminate]. destruct (parse_option_file m tup) as [v1|] eqn:P1; [|discriminate].
  destruct (parse_option_file m home) as [v2|] eqn:P2; [|discriminate]. destruct (parse_option_file m etc) as [v3|] eqn:P3; [|discriminate]. injection H as <-.
  cbn [get_string]. destruct (cmdline_get argv [] v o ord_nil C) as [_ G]. rewrite (G r A). cbn [vardb_get].
  rewrite (proj2 (file_spec m tup s1 F1) v1 P1 o k d K), (proj2 (file_spec m home s2 F2) v2 P2 o k d K), (proj2 (file_spec m etc s3 F3) v3 P3 o k d K), (find_known _ _ _ _ K).
  cbn [first_of option_map fst]. destruct r; [reflexivity|]. destruct (last_value s1 o); [reflexivity|]. destruct (last_value s2 o); [reflexivity|]. destruct (last_value s3 o); reflexivity.
Qed.
Print Assumptions C34_precedence.

(** tup starts exactly if no colour argument is wrong and the files give known options only
    values they may have; a setting of an option nobody knows is passed over. *)
Theorem C34_accepted m argv tup home etc s1 s2 s3 : source tup s1 -> source home s2 -> source etc s3 ->
  (option_init m argv tup home etc <> None <->
   (forall a, In a argv -> ~ bad_arg a) /\ acceptable m s1 /\ acceptable m s2 /\ acceptable m s3).
Proof.
  intros F1 F2 F3. rewrite (proj1 (file_spec m tup s1 F1)), (proj1 (file_spec m home s2 F2)), (proj1 (file_spec m etc s3 F3)), <- (cmdline_some argv []). unfold option_init, option_files.
  destruct (cmdline argv []) as [v|]; [|split; [congruence|intros [H _]; congruence]]. destruct (parse_option_file m tup) as [v1|]; [|split; [congruence|intros [_ [H _]]; congruence]].
  destruct (parse_option_file m home) as [v2|]; [|split; [congruence|intros [_ [_ [H _]]]; congruence]]. destruct (parse_option_file m etc) as [v3|]; [|split; [congruence|intros [_ [_ [_ H]]]; congruence]].
  split; [intros _; repeat split; discriminate|intros _; discriminate].
Qed.
Print Assumptions C34_accepted.

(** A file with a line that is none of an option file is refused. *)
Theorem C34_broken m argv tup home etc : broken tup \/ broken home \/ broken etc -> option_init m argv tup home etc = None.
Proof.
  unfold option_init, option_files. intros H. destruct (cmdline argv []); [|reflexivity]. destruct H as [H|[H|H]]; rewrite (broken_spec m _ H); [reflexivity|destruct (parse_option_file m tup); reflexivity|].
  destruct (parse_option_file m tup); [|reflexivity]. destruct (parse_option_file m home); reflexivity.
Qed.
Print Assumptions C34_broken.

(** Whatever bytes the files hold: an option no argument sets has a value it may have, or its
    default, and an option that is asked for and known has a value. *)
Theorem C34_values_allowed m argv tup home etc st o k d : option_init m argv tup home etc = Some st -> is_option m o k d -> args_say argv o None ->
  exists v, get_string m st o = Some v /\ (allowed k v \/ v = d).
Proof.
  unfold option_init, option_files. intros H K A.
  destruct (cmdline argv []) as [v|] eqn:C; [|discriminate]. destruct (parse_option_file m tup) as [v1|] eqn:P1; [|discriminate].
  destruct (parse_option_file m home) as [v2|] eqn:P2; [|discriminate]. destruct (parse_option_file m etc) as [v3|] eqn:P3; [|discriminate]. injection H as <-.
  cbn [get_string]. destruct (cmdline_get argv [] v o ord_nil C) as [_ G]. rewrite (G None A). cbn [vardb_get].
  assert (X : forall f w x, parse_option_file m f = Some w -> vardb_get w o = Some x -> allowed k x).
  { intros f w x P Q. destruct (file_sane m f w P o x Q) as [k' [d' [K' V]]]. destruct (option_fun _ _ _ _ _ _ K K') as [-> _]. exact V. }
  destruct (vardb_get v1 o) eqn:E1; [exists b; split; [reflexivity|left; exact (X _ _ _ P1 E1)]|].
  destruct (vardb_get v2 o) eqn:E2; [exists b; split; [reflexivity|left; exact (X _ _ _ P2 E2)]|].
  destruct (vardb_get v3 o) eqn:E3; [exists b; split; [reflexivity|left; exact (X _ _ _ P3 E3)]|].
  rewrite (find_known _ _ _ _ K). exists d. auto.
Qed.
Print Assumptions C34_values_allowed.

(** Asking for an option is answered without stopping exactly if there is one of that name. *)
Theorem C34_known m argv tup home etc st o : option_init m argv tup home etc = Some st -> (get_string m st o <> None <-> exists k d, is_option m o k d).
Proof.
  unfold option_init, option_files. intros H.
  destruct (cmdline argv []) as [v|] eqn:C; [|discriminate]. destruct (parse_option_file m tup) as [v1|] eqn:P1; [|discriminate].
  destruct (parse_option_file m home) as [v2|] eqn:P2; [|discriminate]. destruct (parse_option_file m etc) as [v3|] eqn:P3; [|discriminate]. injection H as <-.
  cbn [get_string]. split.
  - intros N. assert (X : forall f w x, parse_option_file m f = Some w -> vardb_get w o = Some x -> exists k d, is_option m o k d).
    { intros f w x P Q. destruct (file_sane m f w P o x Q) as [k' [d' [K' V]]]. eauto. }
    destruct (vardb_get v o) eqn:E0.
    + assert (Y : exists a w, In a argv /\ arg_sets a o w) by exact (cmdline_from argv o [] v _ ord_nil eq_refl C E0). destruct Y as [a [w [_ S]]].
      destruct S; unfold is_option, known; cbn [In]; do 2 eexists; auto 20.
    + destruct (vardb_get v1 o) eqn:E1; [exact (X _ _ _ P1 E1)|]. destruct (vardb_get v2 o) eqn:E2; [exact (X _ _ _ P2 E2)|]. destruct (vardb_get v3 o) eqn:E3; [exact (X _ _ _ P3 E3)|].
      destruct (option_dec m o) as [D|D]; [exact D|]. rewrite (find_unknown _ _ D) in N. elim N. reflexivity.
  - intros [k [d K]]. rewrite (find_known _ _ _ _ K). destruct (vardb_get v o); [discriminate|]. destruct (vardb_get v1 o); [discriminate|]. destruct (vardb_get v2 o); [discriminate|]. destruct (vardb_get v3 o); discriminate.
Qed.
Print Assumptions C34_known.

(** A flag is on for 1, true and yes and off for 0, false and no. *)
Theorem C34_flag v : allowed Flag v -> flag_of v = if existsb (bytes_eqb v) [B "1"; B "true"; B "yes"] then 1%Z else 0%Z.
Proof. cbn [allowed In]. intros H. repeat (destruct H as [<-|H]; [vm_compute; reflexivity|]). destruct H. Qed.
Print Assumptions C34_flag.

(** The number of jobs is the one written, at least 1 and at most 65535. *)
Theorem C34_jobs v : allowed Number v -> (decimal v < 2147483648)%Z -> num_jobs v = Z.min 65535 (Z.max 1 (decimal v)).
Proof. intros A L. unfold num_jobs. rewrite atoi_digits; [reflexivity| |exact L]. apply (valid_spec Number), A. Qed.
Theorem C34_jobs_bounds v : (1 <= num_jobs v <= 65535)%Z.
Proof. unfold num_jobs. lia. Qed.
Print Assumptions C34_jobs.

(** ** An example *)
Definition box : machine := {| m_cpus := B "8"; m_width := B "80"; m_tty := B "1" |}.
Definition nl : bytes := ["010"%char].
Definition tup_text : bytes := B "; ours" ++ nl ++ B "[updater]" ++ nl ++ B "num_jobs = 4 ; enough" ++ nl ++ B "keep_going=yes" ++ nl ++ B "[display]" ++ nl ++ B "color: never".
Definition etc_text : bytes := bom ++ B "[updater]" ++ nl ++ B "num_jobs=2" ++ nl ++ nl ++ B " full_deps = 1" ++ nl.
Example ex_init : match option_init box [B "upd"; B "-k"; B "--no-keep-going"] (Some tup_text) None (Some etc_text) with
  | Some st => map (get_string box st) [B "updater.num_jobs"; B "updater.keep_going"; B "updater.full_deps"; B "display.color"; B "display.width"; B "x.y"]
  | None => [] end = [Some (B "4"); Some (B "0"); Some (B "1"); Some (B "never"); Some (B "80"); None].
Proof. vm_compute. reflexivity. Qed.
Ltac nots := let H := fresh in cbn; intros H; repeat (destruct H as [H|H]; [discriminate H|]); exact H.
Ltac line := split; [nots|split; [nots|cbn; lia]].
Fixpoint whites (s : bytes) : bool := match s with c :: t => isspace c && whites t | [] => true end.
Lemma whites_ok s : whites s = true -> Forall white s.
Proof. induction s as [|c s IH]; intros H; [constructor|]; cbn in H; apply andb_true_iff in H as [A C]. constructor; [apply isspace_white, A|apply IH, C]. Qed.
Fixpoint no_commentb (s : bytes) : bool := match s with c :: t => negb (isspace c && (hd "000"%char t =?c ";"%char)) && no_commentb t | [] => true end.
Lemma no_comment_ok s : no_commentb s = true -> no_comment s.
Proof.
  intros H a c b ->. induction a as [|x a IH]; cbn [app no_commentb] in H; apply andb_true_iff in H as [A H]; [|exact (IH H)].
  cbn in A. rewrite andb_true_r in A. intros W. apply isspace_white in W. rewrite W in A. discriminate.
Qed.
Lemma trimmed_ok s : bytes_eqb (lstrip s) s && bytes_eqb (rstrip s) s = true -> trimmed s.
Proof.
  intros H. apply andb_true_iff in H as [A C]. apply bytes_eqb_eq in A, C. split.
  - intros [c [t [-> W]]]. apply isspace_white in W. cbn in A. rewrite W in A. assert (length (lstrip t) <= length t) by (clear; induction t; cbn; [lia|destruct (isspace a); cbn; lia]). rewrite A in H. cbn in H. lia.
  - rewrite <- C. apply rstrip_ends.
Qed.
Ltac white := apply whites_ok; reflexivity.
Ltac setting i n sp e sp' v t := change (line_says (i ++ n ++ sp ++ e :: sp' ++ v ++ t) (Setting n v)); apply l_setting;
  [white|white|cbn; auto|white|(left; white) || (right; exists (B " "); eexists; split; [reflexivity|split; [white|discriminate]])
  |discriminate|apply trimmed_ok; reflexivity|apply no_comment_ok; reflexivity|nots|nots|nots|apply trimmed_ok; reflexivity|apply no_comment_ok; reflexivity|cbn; discriminate].
Ltac heading n := change (line_says ([] ++ "["%char :: n ++ "]"%char :: []) (Heading n)); apply l_heading; [white|nots|apply no_comment_ok; reflexivity|cbn; lia].
Definition tup_says : list meaning := [Nothing; Heading (B "updater"); Setting (B "num_jobs") (B "4"); Setting (B "keep_going") (B "yes"); Heading (B "display"); Setting (B "color") (B "never")].
Example ex_tup : source (Some tup_text) (settings [] tup_says).
Proof.
  exists tup_says. split; [|split; [nots|reflexivity]]. apply f_plain; [|intros [t H]; discriminate H].
  apply (t_line (B "; ours")); [line|apply (l_note [] ";"%char); [white|cbn; auto]|]. apply (t_line (B "[updater]")); [line|heading (B "updater")|].
  apply (t_line (B "num_jobs = 4 ; enough")); [line|setting (B "") (B "num_jobs") (B " ") "="%char (B " ") (B "4") (B " ; enough")|].
  apply (t_line (B "keep_going=yes")); [line|setting (B "") (B "keep_going") (B "") "="%char (B "") (B "yes") (B "")|].
  apply (t_line (B "[display]")); [line|heading (B "display")|]. apply (t_last (B "color: never")); [line|discriminate|setting (B "") (B "color") (B "") ":"%char (B " ") (B "never") (B "")].
Qed.
Definition etc_says : list meaning := [Heading (B "updater"); Setting (B "num_jobs") (B "2"); Nothing; Setting (B "full_deps") (B "1")].
Example ex_etc : source (Some etc_text) (settings [] etc_says).
Proof.
  exists etc_says. split; [|split; [nots|reflexivity]]. apply (f_bom (B "[updater]") (nl ++ B "num_jobs=2" ++ nl ++ nl ++ B " full_deps = 1" ++ nl)); [|intros [t H]; discriminate H|nots|reflexivity|cbn; lia].
  apply (t_line (B "[updater]")); [line|heading (B "updater")|].
  apply (t_line (B "num_jobs=2")); [line|setting (B "") (B "num_jobs") (B "") "="%char (B "") (B "2") (B "")|]. apply (t_line []); [line|apply l_blank; white|].
  apply (t_line (B " full_deps = 1")); [line|setting (B " ") (B "full_deps") (B " ") "="%char (B " ") (B "1") (B "")|]. apply t_nil.
Qed.
Example ex_broken : broken (Some (B "[updater]" ++ nl ++ B "num_jobs 4")).
Proof.
  exists (B "[updater]" ++ nl ++ B "num_jobs 4"), [Heading (B "updater"); Broken]. split; [reflexivity|]. split; [apply f_plain; [|intros [t H]; discriminate H]|].
  - apply (t_line (B "[updater]")); [line|heading (B "updater")|]. apply (t_last (B "num_jobs 4")); [line|discriminate|]. apply (l_word [] "n"%char (B "um_jobs 4")); [white|nots|nots|nots|nots].
  - right. left. reflexivity.
Qed.
Example ex_settings : settings [] tup_says = [(B "updater.num_jobs", B "4"); (B "updater.keep_going", B "yes"); (B "display.color", B "never")].
Proof. reflexivity. Qed.
Example ex_args : args_say [B "upd"; B "-k"; B "--no-keep-going"] (B "updater.keep_going") (Some (B "0")).
Proof. exists [B "upd"; B "-k"], (B "--no-keep-going"), []. split; [reflexivity|]. split; [constructor|]. intros b w []. Qed.
Example ex_args_none : args_say [B "upd"; B "-k"] (B "updater.num_jobs") None.
Proof. intros b w [<-|[<-|[]]] S; inversion S. Qed.
Example ex_option : is_option box (B "updater.num_jobs") Number (B "8").
Proof. left. reflexivity. Qed.
Example ex_jobs : num_jobs (B "12") = 12%Z /\ num_jobs (B "0") = 1%Z /\ num_jobs (B "99999") = 65535%Z.
Proof. vm_compute. auto. Qed.

(** ** Where more could be expected *)
(** A number from the command line is not looked at. *)
Theorem C34_jobs_argument_refuted : exists st, option_init box [B "upd"; B "-jx"] None None None = Some st /\
  get_string box st (B "updater.num_jobs") = Some (B "x") /\ ~ allowed Number (B "x") /\ num_jobs (B "x") = 1%Z.
Proof. eexists. split; [vm_compute; reflexivity|]. split; [reflexivity|]. split; [|reflexivity]. intros H. specialize (H "x"%char (or_introl eq_refl)). cbn in H. repeat (destruct H as [H|H]; [discriminate H|]). exact H. Qed.
(** Arguments after "--" are files to update for everything else, and options here. *)
Theorem C34_double_dash_refuted : exists st, option_init box [B "upd"; B "--"; B "-k"] None None None = Some st /\ get_string box st (B "updater.keep_going") = Some (B "1").
Proof. eexists. split; [vm_compute|]; reflexivity. Qed.
(** A long line is read in pieces: what is far enough to the right in a comment is a setting. *)
Definition long_comment : bytes := B "[updater]" ++ nl ++ "#"%char :: repeat "x"%char 198 ++ B "num_jobs=3" ++ nl.
Theorem C34_long_line_refuted : exists st, option_init box [] (Some long_comment) None None = Some st /\ get_string box st (B "updater.num_jobs") = Some (B "3").
Proof. eexists. split; [vm_compute|]; reflexivity. Qed.
(** Numbers beyond an int. *)
Theorem C34_big_jobs_refuted : num_jobs (B "4294967297") = 1%Z /\ num_jobs (B "99999999999999999999") = 1%Z /\ allowed Number (B "4294967297").
Proof. split; [vm_compute; reflexivity|]. split; [vm_compute; reflexivity|]. apply (valid_spec Number). reflexivity. Qed.
(** No digits at all are a number. *)
Theorem C34_empty_number_refuted : exists st, option_init box [] (Some (B "[updater]" ++ nl ++ B "num_jobs=" ++ nl)) None None = Some st /\ get_string box st (B "updater.num_jobs") = Some [] /\ num_jobs [] = 1%Z.
Proof. eexists. split; [vm_compute; reflexivity|]. split; reflexivity. Qed.
