From Verif Require Import Base ConfigModel ConfigSpec ConfigProofs OptModel OptSpec OptProofs.

(** ** The table *)
Definition valid_of (k : kind) : bytes -> bool := match k with Number => is_number | Flag => is_flag | Color => is_color end.
Lemma options_known m : options m = map (fun e => (fst (fst e), snd e, valid_of (snd (fst e)))) (known m).
Proof. reflexivity. Qed.
Lemma known_unique m : NoDup (map (fun e => fst (fst e)) (known m)).
Proof.
  cbn [map known fst]. repeat (constructor; [cbn [In]; let H := fresh in intros H; repeat (destruct H as [H|H]; [discriminate H|]); destruct H|]). constructor.
Qed.
Lemma find_known m o k d : is_option m o k d -> find_option m o = Some (d, valid_of k).
Proof.
  unfold is_option, find_option. rewrite options_known. pose proof (known_unique m) as U. induction (known m) as [|[[o' k'] d'] l IH]; intros I; [destruct I|].
  cbn [map find fst snd]. destruct (bytes_eqb_spec o' o) as [->|N].
  - destruct I as [I|I]; [congruence|]. inversion U as [|? ? X]; subst. elim X. apply in_map_iff. exists (o, k, d). auto.
  - destruct I as [I|I]; [congruence|]. inversion U; subst. apply IH; assumption.
Qed.
Lemma find_unknown m o : (forall k d, ~ is_option m o k d) -> find_option m o = None.
Proof.
  unfold is_option, find_option. rewrite options_known. induction (known m) as [|[[o' k'] d'] l IH]; intros N; [reflexivity|].
  cbn [map find fst snd]. destruct (bytes_eqb_spec o' o) as [->|Ne]; [elim (N k' d'); left; reflexivity|]. apply IH. intros k d I. apply (N k d). right. exact I.
Qed.
Lemma option_dec m o : (exists k d, is_option m o k d) \/ forall k d, ~ is_option m o k d.
Proof.
  unfold is_option. induction (known m) as [|[[o' k'] d'] l IH]; [right; intros k d []|]. destruct (bytes_eqb_spec o' o) as [->|N]; [left; exists k', d'; left; reflexivity|].
  destruct IH as [[k [d I]]|IH]; [left; exists k, d; right; exact I|right; intros k d [E|I]; [congruence|exact (IH k d I)]].
Qed.
Lemma option_fun m o k d k' d' : is_option m o k d -> is_option m o k' d' -> k = k' /\ d = d'.
Proof.
  unfold is_option. pose proof (known_unique m) as U. induction (known m) as [|[[o1 k1] d1] l IH]; intros A B0; [destruct A|]. cbn [map fst] in U. inversion U as [|? ? X V]; subst.
  destruct A as [A|A], B0 as [B0|B0]; [split; congruence|exfalso; apply X..|auto]; apply in_map_iff; eexists; (split; [|eassumption]); cbn; congruence.
Qed.
Lemma digit_spec c : digit c = true <-> In c (B "0123456789").
Proof.
  unfold digit. rewrite andb_true_iff, !Nat.leb_le. split.
  - intros H. rewrite <- (ascii_nat_embedding c). set (n := nat_of_ascii c) in *. assert (E : n = 48 \/ n = 49 \/ n = 50 \/ n = 51 \/ n = 52 \/ n = 53 \/ n = 54 \/ n = 55 \/ n = 56 \/ n = 57) by lia.
    repeat (destruct E as [E|E]; [rewrite E; cbn; auto 12|]). rewrite E. cbn. auto 12.
  - cbn. intros H. repeat (destruct H as [<-|H]; [cbn; lia|]). destruct H.
Qed.
Lemma existsb_in v l : existsb (bytes_eqb v) l = true <-> In v l.
Proof. rewrite existsb_exists. split; [intros [x [I E]]; apply bytes_eqb_eq in E; congruence|intros I; exists v; split; [exact I|apply bytes_eqb_refl]]. Qed.
Lemma valid_spec k v : valid_of k v = true <-> allowed k v.
Proof.
  destruct k; cbn [valid_of allowed].
  - unfold is_number. rewrite forallb_forall. split; intros H c I; apply digit_spec; auto.
  - unfold is_flag. rewrite existsb_in. cbn. tauto.
  - unfold is_color. apply existsb_in.
Qed.

(** ** A file *)
Lemma bom_line {U} (h : U -> bytes -> bytes -> bytes -> U * bool) s l : prefixb ConfigModel.bom l = false -> ini_line _ h 1 s (ConfigModel.bom ++ l) = ini_line _ h 1 s l.
Proof. intros P. unfold ini_line. change (prefixb ConfigModel.bom (ConfigModel.bom ++ l)) with true. rewrite P. reflexivity. Qed.
Lemma bom_prefix f : ~ begins_bom f -> prefixb ConfigModel.bom f = false.
Proof. intros N. destruct (prefixb ConfigModel.bom f) eqn:P; [|reflexivity]. elim N. apply prefixb_spec in P. exact P. Qed.
Lemma bom_part l r : prefixb ConfigModel.bom (l ++ r) = false -> prefixb ConfigModel.bom l = false.
Proof. intros P. destruct (prefixb ConfigModel.bom l) eqn:Q; [|reflexivity]. apply prefixb_spec in Q as [x ->]. rewrite <- app_assoc in P. assert (prefixb ConfigModel.bom (ConfigModel.bom ++ x ++ r) = true); [|congruence]. apply prefixb_spec. eauto. Qed.
Lemma nl_split l r l1 r1 : ~ In newline l -> ~ In newline l1 -> hd newline r = newline -> l ++ r = l1 ++ newline :: r1 -> l = l1 /\ r = newline :: r1.
Proof.
  intros N. revert l1. induction l as [|c l IH]; intros [|c1 l1] N1 H E; cbn in E.
  - auto.
  - destruct r as [|x r]; [discriminate|]. cbn in H. injection E as -> E. elim N1. left. exact H.
  - injection E as -> E. elim N. left. reflexivity.
  - injection E as -> E. destruct (IH (fun I => N (or_intror I)) l1 (fun I => N1 (or_intror I)) H E) as [-> ->]. auto.
Qed.
Lemma file_means {U} (h : U -> bytes -> bytes -> bytes -> U * bool) f ms s : file_says f ms -> ini_lines _ h (length f) 0 s f = means h 0 s ms.
Proof.
  intros [f' ms' T N|l r ms' T N Nl H L]; [apply lines_mean; [exact T|lia|intros _; apply bom_prefix, N]|].
  change bom with ConfigModel.bom in *. change "010"%char with newline in *. pose proof (bom_prefix _ N) as P. assert (Nb : forall x, ~ In newline x -> ~ In newline (ConfigModel.bom ++ x)) by (intros x X I; apply in_app_or in I; destruct I as [I|I]; [repeat (destruct I as [I|I]; [discriminate I|]); destruct I|auto]).
  assert (Ub : forall x, ~ In nul x -> ~ In nul (ConfigModel.bom ++ x)) by (intros x X I; apply in_app_or in I; destruct I as [I|I]; [repeat (destruct I as [I|I]; [discriminate I|]); destruct I|auto]).
  assert (K : forall x, (ConfigModel.bom ++ x)%list <> []) by discriminate. assert (Lb : forall x, length (ConfigModel.bom ++ x) = S (S (S (length x)))) by reflexivity.
  rewrite Lb. set (n := S (S (length (l ++ r)))). cbn [ini_lines]. destruct (ConfigModel.bom ++ l ++ r) as [|c0 t0] eqn:E0; [elim (K _ E0)|]. rewrite <- E0. clear c0 t0 E0.
  remember (l ++ r) as t eqn:Et. destruct T as [|l1 m L1 Nn S1|l1 m t ms2 L1 S1 T].
  - rewrite app_nil_r. cbn [means]. change (fgets (max_line - 1) ConfigModel.bom) with (ConfigModel.bom, @nil ascii). destruct n; reflexivity.
  - destruct L1 as [L1 [L2 L3]]. assert (r = []) as ->.
    { destruct r as [|x r]; [reflexivity|]. cbn in H. subst x. elim L1. rewrite Et. apply in_or_app. right. left. reflexivity. }
    rewrite app_nil_r in Et. subst l1. rewrite fgets_last by (apply Nb, L1 || (rewrite Lb; unfold max_line; lia)). rewrite c_string_id by (apply Ub, L2). rewrite bom_line by exact P.
    rewrite <- (app_nil_r l) at 1. rewrite (line_mean h 1 s l m []); [|exact S1|constructor|intros _; rewrite app_nil_r; exact P]. destruct n; reflexivity.
  - destruct L1 as [L1 [L2 L3]]. change "010"%char with newline in *. destruct (nl_split l r l1 t Nl L1 H (eq_sym Et)) as [-> ->]. rewrite app_assoc, fgets_line by (apply Nb, L1 || (rewrite Lb; unfold max_line; lia)).
    assert (Q : prefixb ConfigModel.bom (l1 ++ [newline]) = false) by (apply (bom_part _ t); rewrite <- app_assoc; exact P).
    rewrite c_string_id by (rewrite <- app_assoc; apply Ub; intros I; apply in_app_or in I; destruct I as [I|[I|[]]]; [exact (L2 I)|discriminate]). rewrite <- app_assoc, bom_line by exact Q.
    rewrite (line_mean h 1 s l1 m [newline]); [|exact S1|constructor; [cbn; auto 10|constructor]|intros _; exact Q].
    cbn [means]. apply lines_mean; [exact T|unfold n; rewrite app_length; cbn; lia|lia].
Qed.
Lemma callback_spec m v sec n w : length sec < 50 -> length n <= 198 ->
  parse_callback m v sec n w =
  match find_option m (sec ++ "."%char :: n) with Some (_, f) => if f w then (vardb_set v (sec ++ "."%char :: n) w, true) else (v, false) | None => (v, true) end.
Proof.
  intros L1 L2. unfold parse_callback. assert (length (sec ++ "."%char :: n) < 256) as L by (rewrite app_length; cbn; lia).
  destruct (Nat.leb_spec 256 (length (sec ++ "."%char :: n))); [lia|reflexivity].
Qed.
Definition short (m : meaning) : Prop := match m with Nothing | Broken => True | Heading s => length s < 50 | Setting n _ => length n <= 198 end.
Lemma text_short t ms : text_says t ms -> Forall short ms.
Proof.
  assert (forall l m, is_line l -> line_says l m -> short m) as H.
  { intros l m [_ [_ L]] H. destruct H; cbn; auto. rewrite !app_length in L. lia. }
  induction 1; constructor; eauto.
Qed.
Lemma file_short f ms : file_says f ms -> Forall short ms.
Proof. intros []; eapply text_short; eassumption. Qed.
Notation callback_st := (ini_st vardb).
Definition step1 (m : machine) := means (parse_callback m).
Lemma last_value_snoc l o w x : last_value (l ++ [(o, w)]) x = if bytes_eqb o x then Some w else last_value l x.
Proof. unfold last_value. rewrite rev_app_distr. reflexivity. Qed.
Lemma last_value_cons o w l x : last_value ((o, w) :: l) x = match last_value l x with Some y => Some y | None => if bytes_eqb o x then Some w else None end.
Proof.
  unfold last_value. cbn [rev]. induction (rev l) as [|[k y] r IH]; cbn; [reflexivity|]. destruct (bytes_eqb k x); [reflexivity|exact IH].
Qed.
Lemma fail_error {U} n (s : ini_st U) : n <> 0 -> error _ (fail_at _ n s) <> 0.
Proof. cbn. destruct (Nat.eqb_spec (error _ s) 0); auto. Qed.
Lemma means_error m ms : forall lineno (s : callback_st), error _ s <> 0 -> error _ (step1 m lineno s ms) <> 0.
Proof.
  unfold step1. induction ms as [|x ms IH]; intros lineno s E; [exact E|]. cbn [means]. apply IH. destruct x as [| |n v|]; [exact E..| |apply fail_error; discriminate]. cbn [mean].
  destruct (parse_callback m (user _ s) (section _ s) n v) as [u []]; [exact E|apply fail_error; discriminate].
Qed.
Lemma means_broken m ms : In Broken ms -> forall lineno s, error _ (step1 m lineno s ms) <> 0.
Proof.
  unfold step1. induction ms as [|x ms IH]; intros I lineno s; [destruct I|]. cbn [means]. destruct I as [->|I]; [|apply IH, I]. apply means_error, fail_error. discriminate.
Qed.
Lemma broken_spec m f : broken f -> parse_option_file m f = None.
Proof.
  intros [t [ms [-> [T I]]]]. cbn [parse_option_file]. unfold ini_parse. rewrite (file_means _ t ms _ T). cbv zeta.
  match goal with |- context [means (parse_callback m) 0 ?x ms] => pose proof (means_broken m ms I 0 x) as E; unfold step1 in E; destruct (Nat.eqb_spec (error vardb (means (parse_callback m) 0 x ms)) 0); [contradiction|reflexivity] end.
Qed.
Lemma means_spec m ms : Forall short ms -> ~ In Broken ms -> forall lineno (s : callback_st), length (section _ s) < 50 -> ordered (user _ s) -> error _ s = 0 ->
  let s' := step1 m lineno s ms in let l := settings (section _ s) ms in
  (error _ s' = 0 <-> acceptable m l) /\
  (error _ s' = 0 -> forall o k d, is_option m o k d -> vardb_get (user _ s') o = match last_value l o with Some v => Some v | None => vardb_get (user _ s) o end).
Proof.
  unfold step1. induction 1 as [|x ms H F IH]; intros NB lineno s L O E; cbn [means settings].
  - cbv zeta. split; [split; [intros _ o v k d []|auto]|]. reflexivity.
  - specialize (IH (fun I => NB (or_intror I))). destruct x as [|h|n v|]; [| | |elim NB; left; reflexivity].
    + apply IH; assumption.
    + apply (IH (S lineno) {| section := h; user := user _ s; error := error _ s |}); [exact H|exact O|exact E].
    + cbn [mean]. rewrite callback_spec by (exact L || exact H). set (o1 := section _ s ++ "."%char :: n). cbv zeta.
      destruct (option_dec m o1) as [[k1 [d1 K1]]|NK].
      * rewrite (find_known _ _ _ _ K1). destruct (valid_of k1 v) eqn:V.
        -- destruct (IH (S lineno) {| section := section _ s; user := vardb_set (user _ s) o1 v; error := error _ s |} L (set_ordered _ _ _ O) E) as [I1 I2]. cbn [section] in I1, I2. cbv zeta in I1, I2. split.
           ++ rewrite I1. split; [|intros A o w k d I; apply A; right; exact I]. intros A o w k d [I|I] K; [|exact (A o w k d I K)]. injection I as <- <-. destruct (option_fun _ _ _ _ _ _ K K1) as [-> _]. apply valid_spec, V.
           ++ intros E0 o k d K. rewrite (I2 E0 o k d K), last_value_cons. cbn [user]. rewrite get_set by exact O. destruct (last_value _ o); [reflexivity|]. destruct (bytes_eqb o1 o); reflexivity.
        -- assert (X : error _ (means (parse_callback m) (S lineno) (fail_at vardb (S lineno) {| section := section _ s; user := user _ s; error := error _ s |}) ms) <> 0) by (apply means_error, fail_error; discriminate).
           split; [|intros E0; contradiction]. split; [contradiction|]. intros A. exfalso. specialize (A o1 v k1 d1 (or_introl eq_refl) K1). apply valid_spec in A. congruence.
      * rewrite (find_unknown _ _ NK). destruct (IH (S lineno) {| section := section _ s; user := user _ s; error := error _ s |} L O E) as [I1 I2]. cbn [section user] in I1, I2. cbv zeta in I1, I2. split.
        -- rewrite I1. split; [|intros A o w k d I; apply A; right; exact I]. intros A o w k d [I|I] K; [|exact (A o w k d I K)]. injection I as <- <-. elim (NK _ _ K).
        -- intros E0 o k d K. rewrite (I2 E0 o k d K), last_value_cons. destruct (bytes_eqb_spec o1 o) as [->|]; [elim (NK _ _ K)|]. destruct (last_value _ o); reflexivity.
Qed.
Lemma file_spec m f l : source f l ->
  (acceptable m l <-> parse_option_file m f <> None) /\
  (forall v, parse_option_file m f = Some v -> forall o k d, is_option m o k d -> vardb_get v o = last_value l o).
Proof.
  destruct f as [t|]; cbn [source parse_option_file]; [|intros ->; split; [split; [intros _; discriminate|intros _ o v k d []]|intros v [= <-]; reflexivity]].
  intros [ms [T [NB ->]]]. unfold ini_parse. rewrite (file_means _ t ms _ T).
  - cbv zeta. match goal with |- context [means (parse_callback m) 0 ?x ms] => set (s0 := x) end.
    destruct (means_spec m ms (file_short _ _ T) NB 0 s0 ltac:(cbn; lia) (ord_nil) eq_refl) as [I1 I2]. cbn [section user s0] in I1, I2. cbv zeta in I1, I2. unfold step1 in *.
    destruct (Nat.eqb_spec (error _ (means (parse_callback m) 0 s0 ms)) 0) as [E|E].
    + split; [rewrite <- I1; split; [intros _; discriminate|auto]|]. intros v [= <-] o k d K. rewrite (I2 E o k d K). cbn. destruct (last_value _ o); reflexivity.
    + split; [rewrite <- I1; split; [contradiction|congruence]|discriminate].
Qed.

(** ** Arguments *)
Definition arg_of (a : bytes) : option (bytes * bytes) := match cmdline_arg a [] with Some (p :: _) => Some p | _ => None end.
Lemma cmdline_arg_spec a v : cmdline_arg a v = match cmdline_arg a [] with None => None | Some _ => match arg_of a with Some (o, w) => Some (vardb_set v o w) | None => Some v end end.
Proof.
  unfold arg_of, cmdline_arg. destruct (bytes_eqb a (B "--keep-going") || bytes_eqb a (B "-k")); [reflexivity|]. destruct (bytes_eqb a (B "--no-keep-going")); [reflexivity|].
  destruct (prefixb (B "-j") a); [reflexivity|]. destruct (bytes_eqb a (B "--no-sync")); [reflexivity|]. destruct (prefixb (B "--display-color") a); [|reflexivity].
  destruct (skipn 15 a) as [|c w]; [reflexivity|]. destruct (c =?c "="%char); [|reflexivity]. destruct (is_color w); reflexivity.
Qed.
Lemma arg_sets_of a o v : arg_sets a o v <-> arg_of a = Some (o, v).
Proof.
  split.
  - intros H. destruct H as [| | |n| |v H]; try reflexivity. unfold arg_of, cmdline_arg. cbn [app bytes_eqb orb prefixb].
    change (bytes_eqb (B "--display-color=" ++ v) (B "--keep-going") || bytes_eqb (B "--display-color=" ++ v) (B "-k")) with false.
    change (bytes_eqb (B "--display-color=" ++ v) (B "--no-keep-going")) with false. change (prefixb (B "-j") (B "--display-color=" ++ v)) with false.
    change (bytes_eqb (B "--display-color=" ++ v) (B "--no-sync")) with false. change (prefixb (B "--display-color") (B "--display-color=" ++ v)) with true. cbn match.
    change (skipn 15 (B "--display-color=" ++ v)) with ("="%char :: v). change ("="%char =?c "="%char) with true. cbn match. rewrite (proj2 (valid_spec Color v) H : is_color v = true). reflexivity.
  - unfold arg_of, cmdline_arg. destruct (bytes_eqb_spec a (B "--keep-going")) as [->|_]; cbn [orb]; [intros [= <- <-]; constructor|].
    destruct (bytes_eqb_spec a (B "-k")) as [->|_]; [intros [= <- <-]; constructor|]. destruct (bytes_eqb_spec a (B "--no-keep-going")) as [->|_]; [intros [= <- <-]; constructor|].
    destruct (prefixb (B "-j") a) eqn:P; [apply prefixb_spec in P as [r ->]; cbn; intros [= <- <-]; apply (a_jobs r)|].
    destruct (bytes_eqb_spec a (B "--no-sync")) as [->|_]; [intros [= <- <-]; constructor|]. destruct (prefixb (B "--display-color") a) eqn:P2; [|discriminate]. apply prefixb_spec in P2 as [r ->].
    change (skipn 15 (B "--display-color" ++ r)) with r. destruct r as [|c w]; [discriminate|]. destruct (Ascii.eqb_spec c "="%char) as [->|_]; [|discriminate]. destruct (is_color w) eqn:C; [|discriminate].
    cbn. intros [= <- <-]. apply (a_color w). apply (valid_spec Color), C.
Qed.
Lemma bad_arg_spec a : bad_arg a <-> cmdline_arg a [] = None.
Proof.
  unfold bad_arg, cmdline_arg. split.
  - intros [[t ->] N]. change (bytes_eqb (B "--display-color" ++ t) (B "--keep-going") || bytes_eqb (B "--display-color" ++ t) (B "-k")) with false.
    change (bytes_eqb (B "--display-color" ++ t) (B "--no-keep-going")) with false. change (prefixb (B "-j") (B "--display-color" ++ t)) with false.
    change (bytes_eqb (B "--display-color" ++ t) (B "--no-sync")) with false. change (prefixb (B "--display-color") (B "--display-color" ++ t)) with true. cbn match.
    change (skipn 15 (B "--display-color" ++ t)) with t. destruct t as [|c w]; [reflexivity|]. destruct (Ascii.eqb_spec c "="%char) as [->|_]; [|reflexivity]. destruct (is_color w) eqn:C; [|reflexivity].
    elim N. exists w. split; [reflexivity|]. apply (valid_spec Color), C.
  - destruct (bytes_eqb_spec a (B "--keep-going")) as [->|_]; cbn [orb]; [discriminate|]. destruct (bytes_eqb_spec a (B "-k")) as [->|_]; [discriminate|]. destruct (bytes_eqb_spec a (B "--no-keep-going")) as [->|_]; [discriminate|].
    destruct (prefixb (B "-j") a); [discriminate|]. destruct (bytes_eqb_spec a (B "--no-sync")) as [->|_]; [discriminate|]. destruct (prefixb (B "--display-color") a) eqn:P2; [|discriminate]. apply prefixb_spec in P2 as [r ->].
    change (skipn 15 (B "--display-color" ++ r)) with r. intros H. split; [eauto|]. intros [v [E A]]. change (B "--display-color=" ++ v) with (B "--display-color" ++ "="%char :: v) in E. apply app_inv_head in E. subst r.
    change ("="%char =?c "="%char) with true in H. cbn match in H. rewrite (proj2 (valid_spec Color v) A : is_color v = true) in H. discriminate.
Qed.
Lemma cmdline_some argv : forall v, cmdline argv v <> None <-> forall a, In a argv -> ~ bad_arg a.
Proof.
  induction argv as [|a argv IH]; intros v; cbn [cmdline]; [split; [intros _ a []|discriminate]|]. rewrite cmdline_arg_spec.
  destruct (cmdline_arg a []) as [p|] eqn:E.
  - assert (~ bad_arg a) as N by (rewrite bad_arg_spec; congruence). destruct (arg_of a) as [[o w]|]; rewrite IH; (split; [intros H b [<-|I]; auto|intros H b I; apply H; right; exact I]).
  - split; [congruence|]. intros H. elim (H a (or_introl eq_refl)). apply bad_arg_spec, E.
Qed.
Lemma cmdline_get argv : forall v v' o, ordered v -> cmdline argv v = Some v' -> ordered v' /\
  (forall r, args_say argv o r -> vardb_get v' o = match r with Some w => Some w | None => vardb_get v o end).
Proof.
  induction argv as [|a argv IH]; intros v v' o O H; cbn [cmdline] in H.
  - injection H as <-. split; [exact O|]. intros [w|] A; [destruct A as [[|? ?] [b [t [E _]]]]; discriminate|reflexivity].
  - rewrite cmdline_arg_spec in H. destruct (cmdline_arg a []); [|discriminate].
    assert (X : exists v1, cmdline argv v1 = Some v' /\ ordered v1 /\ vardb_get v1 o = match arg_of a with Some (o', w) => if bytes_eqb o' o then Some w else vardb_get v o | None => vardb_get v o end).
    { destruct (arg_of a) as [[o' w]|]; [exists (vardb_set v o' w)|exists v]; (split; [exact H|]); [split; [apply set_ordered, O|apply get_set, O]|auto]. }
    clear H. destruct X as [v1 [H [O1 G]]]. destruct (IH v1 v' o O1 H) as [Ov I]. split; [exact Ov|]. intros r A.
    destruct r as [w|]; cbn [args_say] in A.
    + destruct A as [[|b l] [x [t [E [S N]]]]]; injection E as -> E; subst.
      * assert (args_say t o None) as A' by exact N. rewrite (I None A'), G. apply arg_sets_of in S. rewrite S, bytes_eqb_refl. reflexivity.
      * apply (I (Some w)). cbn. exists l, x, t. auto.
    + assert (args_say argv o None) as A' by (intros b w J; apply A; right; exact J). rewrite (I None A'), G. destruct (arg_of a) as [[o' w]|] eqn:Ea; [|reflexivity].
      destruct (bytes_eqb_spec o' o) as [->|]; [|reflexivity]. elim (A a w (or_introl eq_refl)). apply arg_sets_of, Ea.
Qed.

Lemma cmdline_from argv o : forall v v' w, ordered v -> vardb_get v o = None -> cmdline argv v = Some v' -> vardb_get v' o = Some w -> exists a x, In a argv /\ arg_sets a o x.
Proof.
  induction argv as [|a argv IH]; intros v v' w O N H G; cbn [cmdline] in H; [congruence|]. rewrite cmdline_arg_spec in H. destruct (cmdline_arg a []); [|discriminate].
  destruct (arg_of a) as [[o' x]|] eqn:E.
  - destruct (bytes_eqb_spec o' o) as [->|Ne]; [exists a, x; split; [left; reflexivity|apply arg_sets_of, E]|].
    assert (vardb_get (vardb_set v o' x) o = None) as N' by (rewrite get_set by exact O; destruct (bytes_eqb_spec o' o); congruence).
    destruct (IH _ v' w (set_ordered _ _ _ O) N' H G) as [b [y [I S]]]. exists b, y. split; [right; exact I|exact S].
  - destruct (IH _ v' w O N H G) as [b [y [I S]]]. exists b, y. split; [right; exact I|exact S].
Qed.

(** ** Whatever the text, what is stored is a known option with an allowed value. *)
Definition sane (m : machine) (v : vardb) : Prop := forall o w, vardb_get v o = Some w -> exists k d, is_option m o k d /\ allowed k w.
Lemma callback_sane m v sec n w : ordered v -> sane m v -> ordered (fst (parse_callback m v sec n w)) /\ sane m (fst (parse_callback m v sec n w)).
Proof.
  intros O S. unfold parse_callback. destruct (256 <=? _); [auto|]. set (o := sec ++ _). destruct (option_dec m o) as [[k [d K]]|NK]; [rewrite (find_known _ _ _ _ K)|rewrite (find_unknown _ _ NK); auto].
  destruct (valid_of k w) eqn:V; [|auto]. cbn [fst]. split; [apply set_ordered, O|]. intros o' w' G. rewrite get_set in G by exact O. destruct (bytes_eqb_spec o o') as [<-|]; [|auto]. injection G as <-. exists k, d. split; [exact K|apply valid_spec, V].
Qed.
Lemma ini_line_sane m lineno s l : ordered (user _ s) -> sane m (user _ s) -> let s' := ini_line _ (parse_callback m) lineno s l in ordered (user _ s') /\ sane m (user _ s').
Proof.
  intros O S. unfold ini_line. destruct (lstrip _) as [|c t]; [auto|]. destruct (_ || _); [auto|]. destruct (c =?c "["%char).
  - destruct (find_chars _ _ t) as [name [|e r]]; [auto|]. destruct (e =?c "]"%char); auto.
  - destruct (find_chars _ _ (c :: t)) as [name [|e r]]; [auto|]. destruct (_ || _); [|auto].
    pose proof (callback_sane m (user _ s) (section _ s) (rstrip name) (rstrip (lstrip (fst (find_chars [] false r)))) O S) as H. destruct (parse_callback _ _ _ _ _) as [u ok]. cbn [fst] in H. destruct ok; exact H.
Qed.
Lemma ini_lines_sane m fuel : forall lineno s t, ordered (user _ s) -> sane m (user _ s) -> let s' := ini_lines _ (parse_callback m) fuel lineno s t in ordered (user _ s') /\ sane m (user _ s').
Proof.
  induction fuel as [|fuel IH]; intros lineno s t O Sa; [auto|]. cbn [ini_lines]. destruct t as [|c t]; [auto|]. destruct (fgets _ _) as [l r]. destruct (ini_line_sane m (S lineno) s (c_string l) O Sa). apply IH; assumption.
Qed.
Lemma file_sane m f v : parse_option_file m f = Some v -> sane m v.
Proof.
  destruct f as [t|]; cbn [parse_option_file]; [|intros [= <-] o w; discriminate]. unfold ini_parse. cbv zeta. destruct (_ =? 0); [|discriminate]. intros [= <-].
  apply ini_lines_sane; [constructor|]. intros o w; discriminate.
Qed.

(** ** Numbers *)
Lemma digits_acc s : forall acc, forallb digit s = true -> digits acc s = (acc * 10 ^ Z.of_nat (length s) + decimal s)%Z.
Proof.
  induction s as [|c s IH]; intros acc F; cbn [digits decimal length]; [cbn; lia|]. cbn in F. apply andb_true_iff in F as [D F]. rewrite D, IH by exact F.
  unfold digit in D. apply andb_true_iff in D as [D _]. apply Nat.leb_le in D. rewrite Nat2Z.inj_succ, Z.pow_succ_r by lia. rewrite Nat2Z.inj_sub by exact D. change (Z.of_nat 48) with 48%Z. ring.
Qed.
Lemma decimal_pos s : (0 <= decimal s)%Z.
Proof. induction s as [|c s IH]; cbn; [lia|]. pose proof (Z.pow_nonneg 10 (Z.of_nat (length s)) ltac:(lia)). nia. Qed.
Lemma atoi_digits v : is_number v = true -> (decimal v < 2147483648)%Z -> atoi v = decimal v.
Proof.
  intros N L. unfold atoi. assert (lstrip v = v) as ->.
  { destruct v as [|c v]; [reflexivity|]. cbn in N. apply andb_true_iff in N as [D _]. cbn. unfold digit in D. apply andb_true_iff in D as [D1 D2]. apply Nat.leb_le in D1, D2.
    unfold isspace. destruct (Nat.eqb_spec (nat_of_ascii c) 32); [lia|]. destruct (Nat.leb_spec (nat_of_ascii c) 13); [lia|]. rewrite andb_false_r. reflexivity. }
  destruct v as [|c v]; [reflexivity|]. pose proof N as N'. cbn in N'. apply andb_true_iff in N' as [D _].
  assert (c =?c "-"%char = false) as -> by (apply Ascii.eqb_neq; intros ->; discriminate). assert (c =?c "+"%char = false) as -> by (apply Ascii.eqb_neq; intros ->; discriminate).
  rewrite digits_acc by exact N. pose proof (decimal_pos (c :: v)). replace (0 * 10 ^ Z.of_nat (length (c :: v)) + decimal (c :: v))%Z with (decimal (c :: v)) by ring. set (z := decimal (c :: v)) in *.
  unfold clamp. rewrite Z.min_r, Z.max_r by lia. unfold to_int. rewrite Z.mod_small by lia. destruct (Z.ltb_spec z (2 ^ 31)); lia.
Qed.
