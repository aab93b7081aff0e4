From Verif Require Import Base ConfigModel ConfigSpec EnvModel EnvSpec.

Lemma get_put t n v m : get (put t n v) m = if bytes_eqb n m then Some v else get t m.
Proof.
  induction t as [|[k w] t IH]; cbn [put get]; [reflexivity|]. destruct (bytes_eqb_spec k n) as [->|N]; cbn [get].
  - destruct (bytes_eqb n m); reflexivity.
  - rewrite IH. destruct (bytes_eqb_spec k m) as [->|]; [|reflexivity]. destruct (bytes_eqb_spec n m) as [->|]; [congruence|reflexivity].
Qed.
Lemma put_nodup t n v : NoDup (map fst t) -> NoDup (map fst (put t n v)).
Proof.
  assert (X : forall l m, In m (map fst (put l n v)) -> m = n \/ In m (map fst l)).
  { induction l as [|[k w] l IH]; intros m H; cbn in H; [destruct H as [H|[]]; auto|]. destruct (bytes_eqb_spec k n) as [->|]; cbn in H; [cbn; tauto|]. destruct H as [H|H]; [cbn; auto|]. apply IH in H. cbn. tauto. }
  induction t as [|[k w] t IH]; intros D; cbn [put map fst]; [repeat constructor; intros []|]. inversion D as [|? ? N D']; subst.
  destruct (bytes_eqb_spec k n) as [->|Ne]; cbn [map fst]; constructor; auto. intros I. apply X in I as [E|I]; auto.
Qed.
Lemma in_add n l m : In m (add n l) <-> In m l \/ m = n.
Proof.
  unfold add. destruct (existsb (bytes_eqb n) l) eqn:E; [|cbn; intuition]. apply existsb_exists in E as [x [I E]]. apply bytes_eqb_eq in E. subst x. intuition congruence.
Qed.
Lemma existsb_in n l : existsb (bytes_eqb n) l = true <-> In n l.
Proof. rewrite existsb_exists. split; [intros [x [I E]]; apply bytes_eqb_eq in E; congruence|intros I; exists n; split; [exact I|apply bytes_eqb_refl]]. Qed.
Lemma skip_full n e : skipn (S (length n)) (fullenv n e) = e.
Proof. unfold fullenv. induction n as [|c n IH]; [reflexivity|exact IH]. Qed.
Lemma env_match_spec n stored env : env_match n stored env = true <-> stored = option_map (fullenv n) env.
Proof.
  destruct env as [e|], stored as [s|]; cbn [env_match option_map]; try (split; [discriminate|discriminate]); [|split; reflexivity]. split.
  - intros H. apply andb_true_iff in H as [H H4]. apply andb_true_iff in H as [H H3]. apply andb_true_iff in H as [H1 H2]. f_equal. unfold fullenv. apply bytes_eqb_eq in H2, H4.
    destruct (nth_error s (length n)) as [c|] eqn:E; [|discriminate]. apply Ascii.eqb_eq in H3. subst c. rewrite <- (firstn_skipn (length n) s) at 1. rewrite H2. f_equal.
    rewrite <- H4. clear - E. revert s E. induction (length n) as [|k IH]; intros [|x s] E; cbn in *; try discriminate; [congruence|apply IH, E].
  - intros [= ->]. rewrite skip_full, bytes_eqb_refl. unfold fullenv. rewrite app_length. cbn [length]. replace (length n + S (length e) =? length n + 1 + length e) with true by (symmetry; apply Nat.eqb_eq; lia).
    rewrite firstn_app, firstn_all, Nat.sub_diag, app_nil_r, bytes_eqb_refl, nth_error_app2, Nat.sub_diag by lia. reflexivity.
Qed.
Lemma getenv_spec e n : env_ok e -> name_ok n -> getenv (environ_of e) n = assoc e n.
Proof.
  intros E [N _]. unfold environ_of. induction e as [|[m v] e IH]; [reflexivity|]. cbn [map fst snd getenv assoc]. assert (env_ok e) as E' by (intros a b I; apply E; right; exact I).
  destruct (E m v (or_introl eq_refl)) as [[M _] _]. destruct (bytes_eqb_spec m n) as [->|Ne].
  - assert (prefixb (n ++ [eq_sign]) (n ++ "="%char :: v) = true) as -> by (apply prefixb_spec; exists v; rewrite <- app_assoc; reflexivity). f_equal. apply skip_full.
  - destruct (prefixb (n ++ [eq_sign]) (m ++ "="%char :: v)) eqn:P; [|apply IH, E']. exfalso. apply prefixb_spec in P as [r P]. rewrite <- app_assoc in P. cbn [app] in P. apply Ne. clear - P M N.
    revert n P N. induction m as [|c m IH]; intros [|d n] P N; cbn in P.
    + reflexivity.
    + injection P as <- _. elim N. left. reflexivity.
    + injection P as -> _. elim M. left. reflexivity.
    + injection P as -> P. f_equal. apply IH; [intros I; apply M; right; exact I|exact P|intros I; apply N; right; exact I].
Qed.

(** ** The check *)
Section Check.
  Variable check : bool.
  Variable environ : list bytes.
  Definition cb (s : st) (e : bytes * option bytes) : st := env_cb check environ s (fst e) (snd e).
  Definition new (n : bytes) (stored : option bytes) : option bytes :=
    if check then option_map (fullenv n) (getenv environ n) else option_map (fullenv n) (option_map (skipn (S (length n))) stored).
  Definition differs (n : bytes) (stored : option bytes) : Prop := check = true /\ stored <> option_map (fullenv n) (getenv environ n).
  Lemma cb_spec s n stored m : get (var s) n = Some stored ->
    get (envdb (cb s (n, stored))) m = (if bytes_eqb n m then Some (new n stored) else get (envdb s) m) /\
    get (var (cb s (n, stored))) m = (if bytes_eqb n m && check then Some (new n stored) else get (var s) m) /\
    (In m (modify_list (cb s (n, stored))) <-> In m (modify_list s) \/ (m = n /\ differs n stored)) /\
    (In m (create_list (cb s (n, stored))) <-> In m (create_list s) \/ (m = n /\ differs n stored)).
  Proof.
    intros G. unfold cb, env_cb, new, differs. cbn [fst snd]. destruct check; cbn [fst snd].
    - destruct (env_match n stored (getenv environ n)) eqn:E; unfold envdb_set; cbn [envdb var modify_list create_list]; rewrite get_put.
      + apply env_match_spec in E. split; [reflexivity|]. split; [|split; (split; [auto|intros [H|[_ [_ H]]]; [exact H|congruence]])]. rewrite andb_true_r. destruct (bytes_eqb_spec n m) as [<-|]; [|reflexivity]. rewrite G, E. reflexivity.
      + split; [reflexivity|]. split; [rewrite andb_true_r; apply get_put|]. assert (D : stored <> option_map (fullenv n) (getenv environ n)) by (intros D; apply env_match_spec in D; congruence).
        rewrite !in_add. split; intuition.
    - unfold envdb_set; cbn [envdb var modify_list create_list]. rewrite get_put, andb_false_r. split; [reflexivity|]. split; [reflexivity|]. split; (split; [auto|intros [H|[_ [H _]]]; [exact H|discriminate]]).
  Qed.
  Lemma cb_nodup s e : NoDup (map fst (var s)) -> NoDup (map fst (var (cb s e))).
  Proof. intros D. unfold cb, env_cb. destruct check; [destruct (env_match _ _ _)|]; unfold envdb_set; cbn [var]; [exact D|apply put_nodup, D|exact D]. Qed.
  Lemma fold_spec l : forall s m, NoDup (map fst l) -> (forall n w, get l n = Some w -> get (var s) n = Some w) ->
    let s' := fold_left cb l s in
    get (envdb s') m = match get l m with Some w => Some (new m w) | None => get (envdb s) m end /\
    get (var s') m = match get l m with Some w => if check then Some (new m w) else Some w | None => get (var s) m end /\
    (In m (modify_list s') <-> In m (modify_list s) \/ exists w, get l m = Some w /\ differs m w) /\
    (In m (create_list s') <-> In m (create_list s) \/ exists w, get l m = Some w /\ differs m w).
  Proof.
    induction l as [|[n w] l IH]; intros s m D G; cbn [fold_left get].
    - cbv zeta. split; [reflexivity|]. split; [reflexivity|]. split; (split; [auto|intros [H|[x [H _]]]; [exact H|discriminate]]).
    - inversion D as [|? ? N D']; subst. assert (Gn : get (var s) n = Some w) by (apply G; cbn [get]; rewrite bytes_eqb_refl; reflexivity).
      assert (Nl : get l n = None). { clear - N. induction l as [|[k x] l IH]; [reflexivity|]. cbn in *. destruct (bytes_eqb_spec k n) as [->|]; [elim N; auto|apply IH; auto]. }
      destruct (cb_spec s n w m Gn) as [C1 [C2 [C3 C4]]].
      assert (G' : forall k x, get l k = Some x -> get (var (cb s (n, w))) k = Some x).
      { intros k x K. destruct (cb_spec s n w k Gn) as [_ [C2' _]]. rewrite C2'. destruct (bytes_eqb_spec n k) as [->|Ne]; [congruence|]. cbn [andb]. apply G. cbn [get]. destruct (bytes_eqb_spec n k); congruence. }
      destruct (IH (cb s (n, w)) m D' G') as [I1 [I2 [I3 I4]]]. cbv zeta in *.
      assert (Z : forall P Q R : Prop, (P <-> Q \/ (m = n /\ differs n w)) -> (R <-> P \/ exists x, get l m = Some x /\ differs m x) ->
        (R <-> Q \/ exists x, (if bytes_eqb n m then Some w else get l m) = Some x /\ differs m x)).
      { intros P Q R A1 A2. rewrite A2, A1. destruct (bytes_eqb_spec n m) as [->|Ne].
        - rewrite Nl. split; [intros [[H|[_ H]]|[x [H _]]]; [auto|right; eauto|discriminate]|intros [H|[x [[= <-] H]]]; auto].
        - split; [intros [[H|[E _]]|H]; [auto|congruence|auto]|intros [H|H]; auto]. }
      split; [|split; [|split; [exact (Z _ _ _ C3 I3)|exact (Z _ _ _ C4 I4)]]].
      + rewrite I1, C1. destruct (bytes_eqb_spec n m) as [->|]; [rewrite Nl|]; reflexivity.
      + rewrite I2, C2. destruct (bytes_eqb_spec n m) as [->|]; cbn [andb]; [rewrite Nl|reflexivity]. destruct check; [reflexivity|exact Gn].
  Qed.
  Lemma fold_nodup l : forall s, NoDup (map fst (var s)) -> NoDup (map fst (var (fold_left cb l s))).
  Proof. induction l as [|e l IH]; intros s D; [exact D|]. apply IH, cb_nodup, D. Qed.
End Check.

(** ** The variables asked for *)
Lemma asked_spec environ l : forall s m, (forall n, get (envdb s) n = get (var s) n) -> NoDup (map fst (var s)) ->
  let s' := fold_left (findenv environ) l s in
  (forall n, get (envdb s') n = get (var s') n) /\
  get (var s') m = match get (var s) m with Some w => Some w | None => if existsb (bytes_eqb m) l then Some (option_map (fullenv m) (getenv environ m)) else None end /\
  modify_list s' = modify_list s /\ create_list s' = create_list s /\ NoDup (map fst (var s')).
Proof.
  induction l as [|n l IH]; intros s m E D; cbn [fold_left].
  - cbv zeta. repeat split; auto. destruct (get (var s) m); reflexivity.
  - unfold findenv at 2 4 6 8 10 12. destruct (get (envdb s) n) as [w|] eqn:G.
    + destruct (IH s m E D) as [I1 [I2 I3]]. cbv zeta. split; [exact I1|]. split; [|exact I3]. rewrite I2. destruct (get (var s) m) eqn:Gm; [reflexivity|]. cbn [existsb].
      destruct (bytes_eqb_spec m n) as [->|]; [rewrite E in G; congruence|reflexivity].
    + set (s1 := envdb_set s n (getenv environ n) true). assert (E1 : forall k, get (envdb s1) k = get (var s1) k) by (intros k; cbn; rewrite !get_put, E; reflexivity).
      destruct (IH s1 m E1 (put_nodup _ _ _ D)) as [I1 [I2 I3]]. cbv zeta. split; [exact I1|]. split; [|exact I3]. rewrite I2. cbn [s1 envdb_set var]. rewrite get_put. cbn [existsb]. rewrite E in G.
      destruct (bytes_eqb_spec n m) as [->|Ne]; [rewrite G, bytes_eqb_refl; reflexivity|]. destruct (bytes_eqb_spec m n); [congruence|reflexivity].
Qed.

(** ** Histories *)
Definition runs (h : history) : st := fold_right (fun r s => tup_run s (run_of r)) {| envdb := []; var := []; create_list := []; modify_list := [] |} h.
Definition faithful (s : st) (h : history) : Prop := NoDup (map fst (var s)) /\ forall n, get (var s) n = option_map (option_map (fullenv n)) (known h n).
Lemma known_ok h n v : Forall run_ok h -> known h n = Some v -> name_ok n.
Proof.
  revert v. induction h as [|[[c e] a] h IH]; intros v F K; [discriminate|]. inversion F as [|? ? [_ A] F']; subst. cbn [known] in K. destruct (known h n) as [w|]; [exact (IH w F' eq_refl)|].
  destruct (existsb (bytes_eqb n) a) eqn:E; [|discriminate]. apply A, existsb_in, E.
Qed.
Lemma run_spec s h r : faithful s h -> Forall run_ok (r :: h) ->
  let s' := tup_run s (run_of r) in
  faithful s' (r :: h) /\ (forall n, get (envdb s') n = get (var s') n) /\
  (forall n, In n (modify_list s') <-> In n (modify_list s) \/ (fst (fst r) = true /\ changed h (snd (fst r)) n)) /\
  (forall n, In n (create_list s') <-> In n (create_list s) \/ (fst (fst r) = true /\ changed h (snd (fst r)) n)).
Proof.
  intros [D F] R. destruct r as [[check e] asked]. inversion R as [|? ? [Eo A] R']; subst. cbn [fst snd] in Eo, A. unfold tup_run, run_of, check_env. cbn [fst snd checks env_of EnvModel.asked var]. cbv zeta.
  set (s0 := {| envdb := []; var := var s; create_list := create_list s; modify_list := modify_list s |}). change (var s) with (var s0).
  change (fun s e1 => env_cb check (environ_of e) s (fst e1) (snd e1)) with (cb check (environ_of e)).
  set (s1 := fold_left (cb check (environ_of e)) (var s0) s0).
  assert (P : forall m, get (envdb s1) m = get (var s1) m /\ get (var s1) m = match known h m with Some v => Some (option_map (fullenv m) (if check then assoc e m else v)) | None => None end /\
     (In m (modify_list s1) <-> In m (modify_list s) \/ (check = true /\ changed h e m)) /\ (In m (create_list s1) <-> In m (create_list s) \/ (check = true /\ changed h e m))).
  { intros m. destruct (fold_spec check (environ_of e) (var s0) s0 m D (fun n w H => H)) as [I1 [I2 [I3 I4]]]. fold s1 in I1, I2, I3, I4. rewrite I1, I2. change (get (var s0) m) with (get (var s) m) in *. rewrite (F m) in *. cbn [s0 envdb] in *.
    assert (Z : forall w, known h m = Some w -> new check (environ_of e) m (option_map (fullenv m) w) = option_map (fullenv m) (if check then assoc e m else w)).
    { intros w K. unfold new. destruct check; [rewrite (getenv_spec e m Eo (known_ok h m w R' K)); reflexivity|]. destruct w; cbn [option_map]; [rewrite skip_full|]; reflexivity. }
    assert (Y : (exists w, option_map (option_map (fullenv m)) (known h m) = Some w /\ differs check (environ_of e) m w) <-> check = true /\ changed h e m).
    { unfold differs, changed. split.
      - intros [w [K [C N]]]. split; [exact C|]. destruct (known h m) as [v|] eqn:Kv; [|discriminate]. injection K as <-. exists v. split; [reflexivity|]. intros ->. rewrite (getenv_spec e m Eo (known_ok h m _ R' Kv)) in N. congruence.
      - intros [C [v [K N]]]. rewrite K. exists (option_map (fullenv m) v). split; [reflexivity|]. split; [exact C|]. rewrite (getenv_spec e m Eo (known_ok h m _ R' K)). intros X. apply N. destruct v, (assoc e m); try discriminate X; [|reflexivity].
        injection X as X. apply (f_equal (skipn (S (length m)))) in X. rewrite !skip_full in X. congruence. }
    rewrite I3, I4, Y. destruct (known h m) as [w|] eqn:K; cbn [option_map]; [rewrite (Z w eq_refl)|]; (split; [|split; [|split; reflexivity]]); [destruct check; reflexivity|destruct check; reflexivity|reflexivity|reflexivity]. }
  assert (D1 : NoDup (map fst (var s1))) by (apply fold_nodup, D). assert (E1 : forall n, get (envdb s1) n = get (var s1) n) by (intros n; apply P).
  assert (Q := fun m => asked_spec (environ_of e) asked s1 m E1 D1). cbv zeta in Q. split; [split|split; [|split]].
  - apply (Q []).
  - intros n. destruct (Q n) as [_ [Q2 _]]. rewrite Q2, (proj1 (proj2 (P n))). cbn [known]. destruct (known h n) as [v|]; [destruct check; reflexivity|]. destruct (existsb (bytes_eqb n) asked) eqn:Ex; [|reflexivity].
    rewrite (getenv_spec e n Eo); [reflexivity|]. apply A, existsb_in, Ex.
  - apply (Q []).
  - intros n. destruct (Q n) as [_ [_ [Q3 _]]]. rewrite Q3. apply P.
  - intros n. destruct (Q n) as [_ [_ [_ [Q4 _]]]]. rewrite Q4. apply P.
Qed.
Lemma runs_faithful h : Forall run_ok h -> faithful (runs h) h.
Proof.
  induction h as [|r h IH]; intros F; [split; [constructor|reflexivity]|]. inversion F; subst. apply (run_spec (runs h) h r (IH H2) F).
Qed.

(** ** The block *)
Lemma cut_text v b : c_text v -> cut nul (v ++ nul :: b) = Some (v, b).
Proof.
  unfold c_text. induction v as [|c v IH]; intros N; cbn [app cut]; [rewrite Ascii.eqb_refl; reflexivity|]. assert (c =?c nul = false) as -> by (apply Ascii.eqb_neq; intros ->; apply N; left; reflexivity).
  rewrite IH; [reflexivity|]. intros I. apply N. right. exact I.
Qed.
Lemma strings_spec l : (forall v, In v l -> v <> [] /\ c_text v) -> forall fuel, length l < fuel -> strings fuel (flat_map (fun v => v ++ [nul]) l ++ [nul]) = Some l.
Proof.
  induction l as [|v l IH]; intros H [|fuel] F; cbn in F; try lia; [reflexivity|]. cbn [flat_map]. destruct (H v (or_introl eq_refl)) as [Nv T]. rewrite <- !app_assoc. set (z := flat_map (fun v => v ++ [nul]) l ++ [nul]).
  change (v ++ [nul] ++ z) with (v ++ nul :: z). destruct v as [|c v]; [congruence|]. assert (c =?c nul = false) as Ec by (apply Ascii.eqb_neq; intros ->; apply T; left; reflexivity).
  assert (X : forall b, strings (S fuel) (c :: b) = match cut nul (c :: b) with Some (s, r) => match strings fuel r with Some l => Some (s :: l) | None => None end | None => None end) by (intros b; cbn [strings]; rewrite Ec; reflexivity).
  change ((c :: v) ++ nul :: z) with (c :: (v ++ nul :: z)). rewrite X. change (c :: (v ++ nul :: z)) with ((c :: v) ++ nul :: z). rewrite (cut_text _ _ T). unfold z. rewrite IH; [reflexivity|intros x I; apply H; right; exact I|lia].
Qed.
Fixpoint texts (s : st) (root : list bytes) : list bytes :=
  match root with [] => [] | n :: r => match get (envdb s) n with Some (Some v) => v :: texts s r | _ => texts s r end end.
Lemma sizes_spec s root : (forall n, In n root -> get (envdb s) n <> None) -> forall size num,
  sizes s root size num = Some (size + length (flat_map (fun v => v ++ [nul]) (texts s root)), num + length (texts s root)) /\
  block s root = Some (flat_map (fun v => v ++ [nul]) (texts s root)).
Proof.
  induction root as [|n r IH]; intros K size num; cbn [sizes block texts].
  - cbn. rewrite !Nat.add_0_r. auto.
  - pose proof (K n (or_introl eq_refl)) as Kn. assert (K' : forall m, In m r -> get (envdb s) m <> None) by (intros m I; apply K; right; exact I).
    destruct (get (envdb s) n) as [[v|]|]; [| |congruence].
    + destruct (IH K' (size + (length v + 1)) (S num)) as [-> ->]. cbn [flat_map length]. rewrite !app_length. cbn [length]. split; [f_equal; f_equal; lia|]. rewrite <- app_assoc. reflexivity.
    + destruct (IH K' size num) as [-> ->]. auto.
Qed.
Lemma environ_spec s root vardict : (forall n, In n root -> get (envdb s) n <> None) -> (forall v, In v (texts s root) -> v <> [] /\ c_text v) ->
  exists te, get_environ s root = Some te /\ block_size te = length (envblock te) /\ envp te vardict = Some (texts s root ++ [B "CCACHE_NODIRECT=1"; B "tup_vardict=" ++ vardict]).
Proof.
  intros K T. unfold get_environ. destruct (sizes_spec s root K 1 0) as [-> ->]. eexists. split; [reflexivity|]. cbn [block_size envblock]. set (t := texts s root) in *. set (b := flat_map (fun v => v ++ [nul]) t).
  assert (L : 1 + length b + (length ccache_nodirect + 1) = length (b ++ ccache_nodirect ++ [nul] ++ [nul])) by (rewrite !app_length; cbn [length]; lia). split; [exact L|].
  unfold envp. cbn [block_size envblock num_entries]. rewrite L at 2. rewrite firstn_all. assert (E : b ++ ccache_nodirect ++ [nul] ++ [nul] = flat_map (fun v => v ++ [nul]) (t ++ [ccache_nodirect]) ++ [nul]).
  { rewrite flat_map_app. cbn [flat_map]. fold b. rewrite app_nil_r, <- !app_assoc. reflexivity. }
  rewrite E, strings_spec.
  - rewrite app_length. cbn [length]. replace (length t + 1 + 2 <=? 0 + length t + 1 + 2) with true by (symmetry; apply Nat.leb_le; lia). rewrite <- app_assoc. reflexivity.
  - intros v I. apply in_app_or in I as [I|[<-|[]]]; [apply T, I|]. split; [discriminate|]. intros J. cbn in J. repeat (destruct J as [J|J]; [discriminate J|]). exact J.
  - rewrite app_length. cbn [length]. assert (length t <= length b); [|cbn; lia]. unfold b. clear. induction t as [|v t IH]; cbn; [lia|]. rewrite !app_length. cbn. lia.
Qed.
Lemma texts_spec s root value : (forall n, In n root -> get (envdb s) n = Some (option_map (fullenv n) (value n))) -> texts s root = set_among value root.
Proof.
  induction root as [|n r IH]; intros H; [reflexivity|]. cbn [texts set_among]. rewrite (H n (or_introl eq_refl)), IH by (intros m I; apply H; right; exact I). destruct (value n); reflexivity.
Qed.
Lemma assoc_in {A} (e : list (bytes * A)) n v : assoc e n = Some v -> In (n, v) e.
Proof. induction e as [|[m w] e IH]; cbn; [discriminate|]. destruct (bytes_eqb_spec m n) as [->|]; [intros [= ->]; auto|auto]. Qed.
Lemma known_text h n v : Forall run_ok h -> known h n = Some (Some v) -> c_text v.
Proof.
  induction h as [|[[c e] a] h IH]; intros F K; [discriminate|]. inversion F as [|? ? [E A] F']; subst. cbn [fst snd] in E. cbn [known] in K.
  assert (X : assoc e n = Some v -> c_text v) by (intros H; apply assoc_in in H; apply (E n v H)).
  destruct (known h n) as [w|]; [destruct c|destruct (existsb _ a); [|discriminate]]; injection K as K; auto. subst w. apply IH; auto.
Qed.
