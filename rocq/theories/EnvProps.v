(** C35: the environment of commands. *)
From Verif Require Import Base ConfigSpec EnvModel EnvSpec EnvProofs.
From Verif Require ExecModel GraphModel GraphSpec GraphProps.

(** After any runs of tup, the database has for each variable the value it was last seen with. *)
Theorem C35_recorded h n : Forall run_ok h -> get (var (runs h)) n = option_map (option_map (fun v => n ++ "="%char :: v)) (known h n).
Proof. intros F. apply (runs_faithful h F). Qed.
Print Assumptions C35_recorded.

Lemma values h root : Forall run_ok h -> h <> [] -> (forall n, In n root -> known h n <> None) ->
  forall n, In n root -> get (envdb (runs h)) n = Some (option_map (fullenv n) match known h n with Some v => v | None => None end).
Proof.
  destruct h as [|r h]; [congruence|]. intros F _ K n I. inversion F as [|? ? R F']; subst. destruct (run_spec (runs h) h r (runs_faithful h F') F) as [[_ G] [E _]]. change (runs (r :: h)) with (tup_run (runs h) (run_of r)). rewrite (E n), (G n).
  specialize (K n I). destruct (known (r :: h) n); [reflexivity|congruence].
Qed.
(** A command gets those of its variables that are set, with the recorded values, in a block that
    is as large as was said, and next to them the two tup adds. Nothing is read or written past
    the ends of the arrays. *)
Theorem C35_environment h root vardict : Forall run_ok h -> h <> [] -> (forall n, In n root -> known h n <> None) ->
  exists te, get_environ (runs h) root = Some te /\ block_size te = length (envblock te) /\
    envp te vardict = Some (set_among (fun n => match known h n with Some v => v | None => None end) root ++ [B "CCACHE_NODIRECT=1"; B "tup_vardict=" ++ vardict]).
Proof.
  intros F Ne K. pose proof (values h root F Ne K) as V. rewrite <- (texts_spec (runs h) root _ V). apply environ_spec.
  - intros n I. rewrite (V n I). discriminate.
  - rewrite (texts_spec (runs h) root _ V). clear V Ne. induction root as [|n r IH]; intros v I; [destruct I|]. cbn [set_among] in I. specialize (IH (fun m J => K m (or_intror J)) v).
    destruct (known h n) as [[w|]|] eqn:Kn; [|exact (IH I)..]. destruct I as [<-|I]; [|exact (IH I)]. split; [destruct n; discriminate|]. intros J. apply in_app_or in J as [J|[J|J]]; [|discriminate J|].
    + exact (proj2 (known_ok h n _ F Kn) J).
    + exact (known_text h n w F Kn J).
Qed.
Print Assumptions C35_environment.

(** In a run that checks, that is the user's environment as it is now. *)
Theorem C35_current h e asked root vardict : Forall run_ok ((true, e, asked) :: h) -> (forall n, In n root -> known h n <> None \/ In n asked) ->
  exists te, get_environ (runs ((true, e, asked) :: h)) root = Some te /\ envp te vardict = Some (set_among (assoc e) root ++ [B "CCACHE_NODIRECT=1"; B "tup_vardict=" ++ vardict]).
Proof.
  intros F K. assert (Kn : forall n, In n root -> known ((true, e, asked) :: h) n = Some (assoc e n)).
  { intros n I. cbn [known]. destruct (known h n) eqn:E; [reflexivity|]. destruct (K n I) as [N|A]; [congruence|]. apply existsb_in in A. rewrite A. reflexivity. }
  destruct (C35_environment ((true, e, asked) :: h) root vardict F ltac:(discriminate)) as [te [G [_ P]]]; [intros n I; rewrite (Kn n I); discriminate|]. exists te. split; [exact G|]. rewrite P. f_equal. f_equal.
  clear - Kn. induction root as [|n r IH]; [reflexivity|]. cbn [set_among]. rewrite (Kn n (or_introl eq_refl)), IH by (intros m I; apply Kn; right; exact I). reflexivity.
Qed.
Print Assumptions C35_current.

(** A run flags, for the parser and for the updater, exactly the variables whose value, or whether
    they have one, is not what is recorded; a run that does not check flags none. *)
Theorem C35_flagged h s r : Forall run_ok (r :: h) -> var s = var (runs h) -> forall n,
  (In n (modify_list (tup_run s (run_of r))) <-> In n (modify_list s) \/ (fst (fst r) = true /\ changed h (snd (fst r)) n)) /\
  (In n (create_list (tup_run s (run_of r))) <-> In n (create_list s) \/ (fst (fst r) = true /\ changed h (snd (fst r)) n)).
Proof.
  intros F V n. inversion F as [|? ? R F']; subst. assert (Fa : faithful s h) by (unfold faithful; rewrite V; apply (runs_faithful h F')). destruct (run_spec s h r Fa F) as [_ [_ [M C]]]. split; [apply M|apply C].
Qed.
Print Assumptions C35_flagged.
(** In the same environment again nothing has changed. *)
Theorem C35_settled h e asked n : ~ changed ((true, e, asked) :: h) e n.
Proof. intros [v [K N]]. cbn [known] in K. destruct (known h n); [injection K as <-; congruence|]. destruct (existsb _ asked); [injection K as <-; congruence|discriminate]. Qed.
Print Assumptions C35_settled.

(** The update then has exactly what depends on a changed variable. *)
Theorem C35_scheduled kind_of links glinks inputs transient_ (exclusion : ExecModel.id -> bool) root universe (id_of : bytes -> ExecModel.id) h s r :
  Forall run_ok (r :: h) -> var s = var (runs h) -> modify_list s = [] -> fst (fst r) = true ->
  let flags := map id_of (modify_list (tup_run s (run_of r))) in
  GraphSpec.db_ok kind_of links glinks root universe flags -> GraphSpec.kinds_ok kind_of links glinks inputs root ->
  forall fuel b, 2 * length universe < fuel -> GraphModel.update_graph kind_of links glinks inputs transient_ root (Some GraphModel.KCmd) fuel flags = GraphModel.Done b ->
  forall x, In x (ExecModel.node_list (GraphModel.gr_ b)) <-> x = root \/ exists n, changed h (snd (fst r)) n /\ (x = id_of n \/ GraphSpec.path kind_of links glinks (id_of n) x).
Proof.
  intros F V M C flags DB KO fuel b Fu U x. destruct (GraphProps.C05_exactly_affected kind_of links glinks inputs transient_ exclusion root universe flags DB KO fuel b Fu U) as [nodes [-> [_ [_ A]]]].
  assert (Fl : forall y, In y flags <-> exists n, changed h (snd (fst r)) n /\ y = id_of n).
  { intros y. unfold flags. rewrite in_map_iff. split; intros [n H]; exists n.
    - destruct H as [<- I]. apply (C35_flagged h s r F V n) in I. rewrite M in I. destruct I as [[]|[_ I]]. auto.
    - destruct H as [I ->]. split; [reflexivity|]. apply (C35_flagged h s r F V n). right. auto. }
  cbn [In]. rewrite A. assert (X : GraphSpec.affected kind_of links glinks flags x <-> exists n, changed h (snd (fst r)) n /\ (x = id_of n \/ GraphSpec.path kind_of links glinks (id_of n) x)); [|rewrite X; intuition].
  split.
  - induction 1 as [y I|y z Ha [n [Cn P]] Nx]; [apply Fl in I as [n [Cn ->]]; exists n; auto|]. exists n. split; [exact Cn|]. right. destruct P as [->|P]; [apply GraphSpec.path_one, Nx|eapply GraphSpec.path_step; eassumption].
  - intros [n [Cn [->|P]]]; [apply GraphSpec.aff_flag, Fl; eauto|]. assert (I : In (id_of n) flags) by (apply Fl; eauto). clear - P I. remember (id_of n) as a eqn:E. clear E.
    induction P as [a b N|a b c P IH N]; [eapply GraphSpec.aff_next; [apply GraphSpec.aff_flag, I|exact N]|eapply GraphSpec.aff_next; [apply IH, I|exact N]].
Qed.
Print Assumptions C35_scheduled.

(** ** Examples *)
Definition e1 : environment := [(B "HOME", B "/h"); (B "PATH", B "/bin"); (B "CC", B "gcc"); (B "X", B "")].
Definition e2 : environment := [(B "PATH", B "/bin"); (B "CC", B "clang")].
Definition h1 : history := [(true, e1, [B "PATH"; B "HOME"; B "CC"; B "Y"])].
Definition h2 : history := (true, e2, [B "PATH"; B "HOME"; B "X"]) :: h1.
Ltac nots := let H := fresh in cbn; intros H; repeat (destruct H as [H|H]; [discriminate H|]); exact H.
Example ex_ok : Forall run_ok h2.
Proof.
  assert (E : forall e, forallb (fun p => negb (existsb (Ascii.eqb "="%char) (fst p)) && negb (existsb (Ascii.eqb "000"%char) (fst p)) && negb (existsb (Ascii.eqb "000"%char) (snd p))) e = true -> env_ok e).
  { intros e H n v I. rewrite forallb_forall in H. specialize (H _ I). cbn [fst snd] in H. rewrite !andb_true_iff, !negb_true_iff in H. destruct H as [[A1 A2] A3].
    assert (X : forall c l, existsb (Ascii.eqb c) l = false -> ~ In c l) by (intros c l F J; assert (existsb (Ascii.eqb c) l = true) by (apply existsb_exists; exists c; split; [exact J|apply Ascii.eqb_refl]); congruence).
    repeat split; apply X; assumption. }
  constructor; [|constructor; [|constructor]]; (split; [apply E; reflexivity|]); cbn [snd]; intros n H; repeat (destruct H as [<-|H]; [split; nots|]); destruct H.
Qed.
Example ex_known : map (known h2) [B "PATH"; B "HOME"; B "CC"; B "X"; B "Y"; B "Z"] = [Some (Some (B "/bin")); Some None; Some (Some (B "clang")); Some None; Some None; None].
Proof. reflexivity. Qed.
Example ex_flags : modify_list (runs h2) = [B "CC"; B "HOME"] /\ modify_list (runs h1) = [].
Proof. vm_compute. auto. Qed.
Example ex_environment : option_map (fun te => envp te (B "/p/.tup/vardict")) (get_environ (runs h1) [B "HOME"; B "Y"; B "CC"]) =
  Some (Some [B "HOME=/h"; B "CC=gcc"; B "CCACHE_NODIRECT=1"; B "tup_vardict=/p/.tup/vardict"]).
Proof. vm_compute. reflexivity. Qed.
Example ex_no_check : option_map (fun te => envp te []) (get_environ (runs ((false, e2, []) :: h1)) [B "HOME"; B "Y"; B "CC"]) =
  Some (Some [B "HOME=/h"; B "CC=gcc"; B "CCACHE_NODIRECT=1"; B "tup_vardict="]).
Proof. vm_compute. reflexivity. Qed.
Example ex_changed : changed h1 e2 (B "CC").
Proof. exists (Some (B "gcc")). split; [reflexivity|discriminate]. Qed.

(** ** Where more could be expected *)
(** An exported CCACHE_NODIRECT is there twice, with tup's value after the user's. *)
Theorem C35_ccache_refuted : let h := [(true, [(B "CCACHE_NODIRECT", B "")], [B "CCACHE_NODIRECT"])] in
  option_map (fun te => envp te []) (get_environ (runs h) [B "CCACHE_NODIRECT"]) = Some (Some [B "CCACHE_NODIRECT="; B "CCACHE_NODIRECT=1"; B "tup_vardict="]).
Proof. vm_compute. reflexivity. Qed.
(** "export CC=gcc" is taken without complaint and exports nothing. *)
Theorem C35_export_assignment_refuted : let h := [(true, e1, [B "CC=gcc"])] in
  option_map (fun te => envp te []) (get_environ (runs h) [B "CC=gcc"]) = Some (Some [B "CCACHE_NODIRECT=1"; B "tup_vardict="]).
Proof. vm_compute. reflexivity. Qed.
