(** Names: numbers, components, prefixes. *)
From Verif Require Import Base ExecModel GraphModel TentModel FileModel FileSpec FuseModel FuseSpec.

(** *** Association lists *)
Lemma get_del_same {A} x (l : list (bytes * A)) : get x (del x l) = None.
Proof.
  induction l as [|[y v] l IH]; [reflexivity|]. unfold del in *. cbn [filter fst].
  destruct (bytes_eqb_spec y x) as [E|E]; cbn [negb]; [exact IH|]. cbn [get]. destruct (bytes_eqb_spec y x); [congruence|exact IH].
Qed.
Lemma get_del_other {A} x y (l : list (bytes * A)) : x <> y -> get x (del y l) = get x l.
Proof.
  intros N. induction l as [|[z v] l IH]; [reflexivity|]. unfold del in *. cbn [filter fst get].
  destruct (bytes_eqb_spec z y) as [E|E]; cbn [negb].
  - destruct (bytes_eqb_spec z x); [congruence|exact IH].
  - cbn [get]. destruct (bytes_eqb_spec z x); [reflexivity|exact IH].
Qed.
Lemma get_put_same {A} x v (l : list (bytes * A)) : get x (put x v l) = Some v.
Proof. unfold put. cbn [get]. rewrite bytes_eqb_refl. reflexivity. Qed.
Lemma get_put_other {A} x y v (l : list (bytes * A)) : x <> y -> get x (put y v l) = get x l.
Proof. intros N. unfold put. cbn [get]. destruct (bytes_eqb_spec y x); [congruence|]. apply get_del_other. exact N. Qed.
Lemma get_in {A} x (l : list (bytes * A)) : get x l <> None <-> In x (map fst l).
Proof.
  induction l as [|[y v] l IH]; cbn [get map fst In]; [tauto|]. destruct (bytes_eqb_spec y x) as [E|E]; [|rewrite IH; split; [auto|intros [C|C]; [contradiction|exact C]]].
  split; [left; exact E|discriminate].
Qed.

(** *** Numbers *)
Lemma digit_char_ok d : d < 16 -> digit_of (digit_char d) = Some d.
Proof. intros H. do 16 (destruct d as [|d]; [reflexivity|]). lia. Qed.
Lemma digit_char_slash d : d < 16 -> digit_char d <> slash.
Proof. intros H. do 16 (destruct d as [|d]; [discriminate|]). lia. Qed.
Lemma digit_char_zero d : d < 16 -> (digit_char d =?c "0"%char) = true -> d = 0.
Proof. intros H. do 16 (destruct d as [|d]; [try reflexivity; discriminate|]). lia. Qed.
Lemma digit_char_inj_x d : d < 10 -> (digit_char d =?c "x"%char) = false /\ (digit_char d =?c "X"%char) = false.
Proof. intros H. do 10 (destruct d as [|d]; [split; reflexivity|]). lia. Qed.

Lemma digits_chars f base n : base <= 16 -> 2 <= base -> Forall (fun c => c <> slash /\ exists d, d < base /\ c = digit_char d) (digits_rev f base n).
Proof.
  intros H1 H2. revert n; induction f as [|f IH]; intros n; [constructor|]. cbn [digits_rev].
  assert (n mod base < base) by (apply Nat.mod_upper_bound; lia).
  constructor; [split; [apply digit_char_slash; lia|exists (n mod base); auto]|]. destruct (n <? base); [constructor|apply IH].
Qed.
(** What the digits mean, before some [r]. *)
Lemma num_digits base : base <= 16 -> 2 <= base -> forall f n acc r, n < f -> exists k,
  num base acc (rev (digits_rev f base n) ++ r) = num base (acc * k + n) r.
Proof.
  intros H1 H2. induction f as [|f IH]; intros n acc r Hf; [lia|]. cbn [digits_rev rev].
  assert (M : n mod base < base) by (apply Nat.mod_upper_bound; lia).
  assert (D := Nat.div_mod n base ltac:(lia)).
  assert (Z : forall a, num base a (digit_char (n mod base) :: r) = num base (a * base + n mod base) r).
  { intros a. cbn [num]. rewrite digit_char_ok by lia. destruct (Nat.ltb_spec (n mod base) base); [reflexivity|lia]. }
  destruct (Nat.ltb_spec n base) as [L|L].
  - cbn [rev app]. exists base. rewrite Z, Nat.mod_small by lia. reflexivity.
  - assert (n / base < f) as Q. { assert (n / base < n) by (apply Nat.div_lt; lia). lia. }
    rewrite <- app_assoc. destruct (IH (n / base) acc ([digit_char (n mod base)] ++ r) Q) as [k K].
    exists (k * base). cbn [app] in *. rewrite K, Z. f_equal. nia.
Qed.
Lemma num_stop base acc r : match r with [] => True | c :: _ => c = slash end -> num base acc r = acc.
Proof. destruct r as [|c r]; [reflexivity|intros ->; reflexivity]. Qed.
Lemma num_print base n r : base <= 16 -> 2 <= base -> match r with [] => True | c :: _ => c = slash end -> num base 0 (print base n ++ r) = n.
Proof.
  intros H1 H2 H3. unfold print. destruct (num_digits base H1 H2 (S n) n 0 r ltac:(lia)) as [k ->]. cbn. apply num_stop. exact H3.
Qed.
Lemma print_inj n m : print 16 n = print 16 m -> n = m.
Proof. intros E. rewrite <- (num_print 16 n [] ltac:(lia) ltac:(lia) I), E. apply num_print; [lia|lia|exact I]. Qed.
Lemma tmp_name_inj n m : tmp_name n = tmp_name m -> n = m.
Proof. unfold tmp_name. intros E. apply app_inv_head in E. injection E as E. apply print_inj. exact E. Qed.
Lemma print_chars n c : In c (print 10 n) -> c <> slash /\ exists d, d < 10 /\ c = digit_char d.
Proof.
  unfold print. intros H. apply in_rev in H. pose proof (digits_chars (S n) 10 n ltac:(lia) ltac:(lia)) as F.
  rewrite Forall_forall in F. exact (F c H).
Qed.
(** The first digit is not 0. *)
Lemma digits_lead f : forall n, n < f -> 0 < n -> exists l d, digits_rev f 10 n = l ++ [digit_char d] /\ 0 < d < 10.
Proof.
  induction f as [|f IH]; intros n H P; [lia|]. cbn [digits_rev]. destruct (Nat.ltb_spec n 10) as [L|L].
  - exists [], n. rewrite Nat.mod_small by lia. split; [reflexivity|lia].
  - assert (D := Nat.div_mod n 10 ltac:(lia)). assert (n mod 10 < 10) by (apply Nat.mod_upper_bound; lia).
    destruct (IH (n / 10)) as [l [d [E K]]]; [assert (n / 10 < n) by (apply Nat.div_lt; lia); lia|lia|].
    exists (digit_char (n mod 10) :: l), d. rewrite E. split; [reflexivity|exact K].
Qed.
Lemma strtol_print n r : match r with [] => True | c :: _ => c = slash end -> strtol (print 10 n ++ r) = n.
Proof.
  intros H. destruct (Nat.eq_dec n 0) as [->|N].
  - change (print 10 0) with [("0"%char : ascii)]. cbn [app strtol]. rewrite Ascii.eqb_refl. destruct r as [|c r]; [reflexivity|]. subst c. reflexivity.
  - destruct (digits_lead (S n) n ltac:(lia) ltac:(lia)) as [l [d [E K]]].
    assert (P : print 10 n ++ r = digit_char d :: (rev l ++ r)).
    { unfold print. rewrite E, rev_app_distr. reflexivity. }
    transitivity (num 10 0 (print 10 n ++ r)); [|apply num_print; [lia|lia|exact H]]. rewrite P. unfold strtol.
    destruct (digit_char d =?c "0"%char) eqn:Z; [|reflexivity]. apply digit_char_zero in Z; lia.
Qed.

(** *** Components *)
Lemma good_name_spec c : good_name c = true <-> c <> [] /\ ~ In slash c.
Proof.
  unfold good_name. destruct c as [|a c]; [split; [discriminate|intros [H _]; contradiction]|].
  rewrite forallb_forall. split.
  - intros H. split; [discriminate|]. intros C. specialize (H _ C). rewrite Ascii.eqb_refl in H. discriminate.
  - intros [_ H] x Hx. destruct (Ascii.eqb_spec x slash) as [E|E]; [|reflexivity]. subst. contradiction.
Qed.
Lemma good_app p q : good (p ++ q) = good p && good q.
Proof. apply forallb_app. Qed.
Lemma good_cons c p : good (c :: p) = true <-> (c <> [] /\ ~ In slash c) /\ good p = true.
Proof. unfold good. cbn [forallb]. rewrite andb_true_iff, good_name_spec. reflexivity. Qed.
Lemma below_app p q : below (p ++ q) = below p ++ below q.
Proof. unfold below. rewrite map_app, concat_app. reflexivity. Qed.
Lemma below_cons c p : below (c :: p) = slash :: c ++ below p.
Proof. reflexivity. Qed.
Definition starts (r : bytes) : Prop := match r with [] => True | c :: _ => c = slash end.
Lemma below_starts p : starts (below p).
Proof. destruct p; exact I || reflexivity. Qed.
Lemma cut_unique c c' r r' : ~ In slash c -> ~ In slash c' -> starts r -> starts r' -> c ++ r = c' ++ r' -> c = c' /\ r = r'.
Proof.
  revert c'. induction c as [|a c IH]; intros [|b c'] H1 H2 S1 S2 E; cbn [app] in E.
  - auto.
  - subst r. cbn in S1. subst b. exfalso. apply H2. left. reflexivity.
  - subst r'. cbn in S2. subst a. exfalso. apply H1. left. reflexivity.
  - injection E as -> E. destruct (IH c') as [-> ->]; try assumption; [intros C; apply H1; right; exact C|intros C; apply H2; right; exact C|auto].
Qed.
Lemma below_inj p : forall q, good p = true -> good q = true -> below p = below q -> p = q.
Proof.
  induction p as [|c p IH]; intros [|c' q] G1 G2 E; try reflexivity; try discriminate.
  rewrite !below_cons in E. injection E as E. apply good_cons in G1. apply good_cons in G2. destruct G1 as [[_ G1] G1'], G2 as [[_ G2] G2'].
  destruct (cut_unique _ _ _ _ G1 G2 (below_starts p) (below_starts q) E) as [-> E2]. f_equal. apply IH; assumption.
Qed.
Lemma abs_cons c p : abs (c :: p) = below (c :: p).
Proof. reflexivity. Qed.
Lemma abs_snoc p c : abs (p ++ [c]) = below (p ++ [c]).
Proof. destruct p; reflexivity. Qed.
Lemma abs_inj p q : good p = true -> good q = true -> abs p = abs q -> p = q.
Proof.
  intros G1 G2 E. destruct p as [|c p], q as [|c' q]; [reflexivity| | |apply below_inj; assumption].
  - exfalso. cbn [abs] in E. rewrite below_cons in E. apply good_cons in G2. destruct G2 as [[G2 _] _]. destruct c'; [contradiction|discriminate].
  - exfalso. cbn [abs] in E. rewrite below_cons in E. apply good_cons in G1. destruct G1 as [[G1 _] _]. destruct c; [contradiction|discriminate].
Qed.

(** *** Paths of jobs *)
Lemma prefixb_app a b : prefixb a (a ++ b) = true.
Proof. apply prefixb_spec. exists b. reflexivity. Qed.
Lemma skipn_app_len {A} (a b : list A) : skipn (length a) (a ++ b) = b.
Proof. rewrite skipn_app, skipn_all, Nat.sub_diag. reflexivity. Qed.
Lemma job_number_path n p : job_number (job_path n p) = Some n.
Proof.
  unfold job_path, job_number. rewrite Ascii.eqb_refl, prefixb_app, skipn_app_len. f_equal. apply strtol_print. apply below_starts.
Qed.
Lemma from_slash_app a b : ~ In slash a -> from_slash (a ++ b) = from_slash b.
Proof.
  intros H. induction a as [|c a IH]; [reflexivity|]. cbn [app from_slash]. destruct (Ascii.eqb_spec c slash) as [E|E].
  - subst. exfalso. apply H. left. reflexivity.
  - apply IH. intros C. apply H. right. exact C.
Qed.
Lemma peel_path n p : peel (job_path n p) = abs p.
Proof.
  unfold job_path, peel. rewrite Ascii.eqb_refl, prefixb_app, skipn_app_len. cbn [andb].
  rewrite from_slash_app by (intros C; apply print_chars in C; tauto). destruct p as [|c p]; [reflexivity|].
  rewrite below_cons. cbn [from_slash]. rewrite Ascii.eqb_refl. reflexivity.
Qed.
Lemma get_finfo_path s n p : get_finfo s (job_path n p) = match jobs s n with Some j => Some (n, j) | None => None end.
Proof. unfold get_finfo. rewrite job_number_path. reflexivity. Qed.
Lemma dirname_rev_app a b : ~ In slash a -> dirname_rev (a ++ slash :: b) = b.
Proof.
  intros H. induction a as [|c a IH]; [reflexivity|]. cbn [app dirname_rev]. destruct (Ascii.eqb_spec c slash) as [E|E].
  - subst. exfalso. apply H. left. reflexivity.
  - apply IH. intros C. apply H. right. exact C.
Qed.
Lemma dirname_snoc a c : a <> [] -> ~ In slash c -> dirname (a ++ slash :: c) = a.
Proof.
  intros N H. unfold dirname. rewrite rev_app_distr. cbn [rev]. rewrite <- app_assoc. cbn [app].
  rewrite dirname_rev_app by (intros C; apply in_rev in C; contradiction). rewrite rev_involutive. destruct a; [contradiction|reflexivity].
Qed.
Lemma dirname_path n p c : good_name c = true -> dirname (job_path n (p ++ [c])) = job_path n p.
Proof.
  intros G. apply good_name_spec in G. destruct G as [_ G]. unfold job_path. rewrite below_app.
  assert (below [c] = slash :: c) as -> by (unfold below; cbn; rewrite app_nil_r; reflexivity).
  rewrite !app_assoc, app_comm_cons. apply dirname_snoc; [discriminate|exact G].
Qed.
Lemma dirname_abs p c : good (p ++ [c]) = true -> dirname (abs (p ++ [c])) = abs p.
Proof.
  intros G. rewrite good_app in G. apply andb_prop in G. destruct G as [Gp G]. unfold good in G. cbn [forallb] in G. rewrite andb_true_r in G.
  apply good_name_spec in G. destruct G as [N G]. rewrite abs_snoc, below_app.
  assert (below [c] = slash :: c) as -> by (unfold below; cbn; rewrite app_nil_r; reflexivity).
  destruct p as [|a p]; [|rewrite abs_cons; apply dirname_snoc; [discriminate|exact G]].
  unfold dirname. cbn [below map concat app rev]. rewrite dirname_rev_app by (intros C; apply in_rev in C; contradiction). reflexivity.
Qed.

(** *** Inside a directory *)
Lemma inside_spec p x : inside p x = true <-> exists r, x = p ++ slash :: r.
Proof.
  unfold inside. rewrite andb_true_iff, prefixb_spec. split.
  - intros [[r ->] H]. rewrite skipn_app_len in H. destruct r as [|c r]; [discriminate|]. apply Ascii.eqb_eq in H. subst c. exists r. reflexivity.
  - intros [r ->]. split; [exists (slash :: r); reflexivity|]. rewrite skipn_app_len. apply Ascii.eqb_refl.
Qed.
(** A prefix of a path that ends before a slash is a path. *)
Lemma below_prefix x p r : good x = true -> good p = true -> below x = below p ++ slash :: r -> exists c q, x = p ++ c :: q /\ r = c ++ below q.
Proof.
  revert x. induction p as [|a p IH]; intros x Gx Gp E.
  - destruct x as [|c x]; [discriminate|]. rewrite below_cons in E. cbn [below map concat app] in E. injection E as E. exists c, x. auto.
  - destruct x as [|c x]; [discriminate|]. rewrite !below_cons in E. cbn [app] in E. injection E as E. rewrite <- app_assoc in E.
    apply good_cons in Gx. apply good_cons in Gp. destruct Gx as [[_ G1] G1'], Gp as [[_ G2] G2'].
    assert (S1 : starts (below p ++ slash :: r)) by (destruct p; reflexivity).
    destruct (cut_unique _ _ _ _ G1 G2 (below_starts x) S1 E) as [-> E2].
    destruct (IH x G1' G2' E2) as [c [q [-> ->]]]. exists c, q. auto.
Qed.
Lemma inside_abs p x : good p = true -> good x = true -> p <> [] -> inside (abs p) (abs x) = true <-> under p x.
Proof.
  intros Gp Gx N. rewrite inside_spec. assert (abs p = below p) as -> by (destruct p; [contradiction|reflexivity]). split.
  - intros [r E]. destruct x as [|c x].
    + exfalso. cbn [abs] in E. destruct p as [|a p]; [contradiction|]. rewrite below_cons in E. injection E as E. destruct (a ++ below p); discriminate.
    + rewrite abs_cons in E. destruct (below_prefix _ _ _ Gx Gp E) as [d [q [-> _]]]. exists d, q. reflexivity.
  - intros [c [q ->]]. exists (c ++ below q). destruct p as [|a p]; [contradiction|]. change ((a :: p) ++ c :: q) with (a :: p ++ c :: q). rewrite abs_cons.
    change (a :: p ++ c :: q) with ((a :: p) ++ c :: q). rewrite below_app. reflexivity.
Qed.
Lemma inside_root x : good x = true -> inside [slash] (abs x) = false.
Proof.
  intros G. destruct (inside [slash] (abs x)) eqn:E; [|reflexivity]. apply inside_spec in E. destruct E as [r E]. cbn [app] in E.
  destruct x as [|c x]; [discriminate|]. rewrite abs_cons, below_cons in E. injection E as E. apply good_cons in G. destruct G as [[G1 G2] _].
  destruct c as [|a c]; [contradiction|]. cbn [app] in E. injection E as -> E. exfalso. apply G2. left. reflexivity.
Qed.
Lemma from_slash_none c : ~ In slash c -> from_slash c = None.
Proof. intros H. rewrite <- (app_nil_r c), from_slash_app by exact H. reflexivity. Qed.
Lemma from_slash_some c : from_slash c = None -> ~ In slash c.
Proof.
  induction c as [|a c IH]; cbn [from_slash]; [intros _ []|]. destruct (Ascii.eqb_spec a slash) as [E|E]; [discriminate|].
  intros H [C|C]; [contradiction|exact (IH H C)].
Qed.
(** The name of an entry of a directory. *)
Lemma entry_in_below p x c : good p = true -> good x = true -> x <> [] -> entry_in (below p) (abs x) = Some c <-> x = p ++ [c].
Proof.
  intros Gp Gx N. assert (abs x = below x) as -> by (destruct x; [contradiction|reflexivity]). unfold entry_in.
  destruct (inside (below p) (below x)) eqn:I.
  - apply inside_spec in I. destruct I as [r E]. destruct (below_prefix _ _ _ Gx Gp E) as [d [q [-> ->]]].
    assert (skipn (S (length (below p))) (below (p ++ d :: q)) = d ++ below q) as ->.
    { rewrite E. change (S (length (below p))) with (1 + length (below p)). rewrite Nat.add_comm.
      replace (length (below p) + 1) with (length (below p ++ [slash])) by (rewrite app_length; reflexivity).
      change (slash :: d ++ below q) with ([slash] ++ d ++ below q). rewrite app_assoc. apply skipn_app_len. }
    rewrite good_app in Gx. apply andb_prop in Gx. destruct Gx as [_ Gx]. apply good_cons in Gx. destruct Gx as [[_ Gd] Gq].
    rewrite from_slash_app by exact Gd. destruct q as [|e q].
    + cbn [below map concat from_slash]. rewrite app_nil_r. split; [intros K; injection K as ->; reflexivity|intros K; apply app_inv_head in K; injection K as ->; reflexivity].
    + rewrite below_cons. cbn [from_slash]. rewrite Ascii.eqb_refl. split; [discriminate|]. intros K. apply app_inv_head in K. discriminate.
  - split; [discriminate|]. intros ->. exfalso. rewrite below_app in I.
    assert (inside (below p) (below p ++ below [c]) = true) as C by (apply inside_spec; exists c; unfold below; cbn; rewrite app_nil_r; reflexivity). congruence.
Qed.

(** *** Prefixes of paths *)
Lemma strip_spec p x r : strip p x = Some r <-> x = p ++ r.
Proof.
  revert x; induction p as [|a p IH]; intros x; cbn [strip app].
  - split; [intros E; injection E as ->; reflexivity|intros ->; reflexivity].
  - destruct x as [|b x]; [split; discriminate|]. destruct (bytes_eqb_spec a b) as [E|E].
    + subst b. rewrite IH. split; [intros ->; reflexivity|intros H; injection H as ->; reflexivity].
    + split; [discriminate|intros H; injection H as -> _; contradiction].
Qed.
Lemma strip_none p x : strip p x = None <-> forall r, x <> p ++ r.
Proof.
  split.
  - intros H r E. apply strip_spec in E. congruence.
  - intros H. destruct (strip p x) as [r|] eqn:E; [|reflexivity]. apply strip_spec in E. destruct (H r E).
Qed.
Lemma same_spec p x : same p x = true <-> p = x.
Proof.
  unfold same. destruct (strip p x) as [r|] eqn:E.
  - apply strip_spec in E. subst x. destruct r as [|c r]; [rewrite app_nil_r; tauto|]. split; [discriminate|].
    intros K. exfalso. apply (f_equal (@length _)) in K. rewrite app_length in K. cbn in K. lia.
  - split; [discriminate|]. intros ->. rewrite strip_none in E. exfalso. apply (E []). rewrite app_nil_r. reflexivity.
Qed.
Lemma same_refl p : same p p = true.
Proof. apply same_spec. reflexivity. Qed.
Lemma same_neq p x : p <> x -> same p x = false.
Proof. intros H. destruct (same p x) eqn:E; [apply same_spec in E; contradiction|reflexivity]. Qed.
Lemma list_prefixb_spec p x : list_prefixb p x = true <-> exists r, x = p ++ r.
Proof.
  revert x; induction p as [|a p IH]; intros x; cbn [list_prefixb].
  - split; [exists x; reflexivity|reflexivity].
  - destruct x as [|b x]; [split; [discriminate|intros [r H]; discriminate]|]. rewrite andb_true_iff, bytes_eqb_eq, IH. split.
    + intros [-> [r ->]]. exists r. reflexivity.
    + intros [r H]. injection H as -> ->. split; [reflexivity|exists r; reflexivity].
Qed.
Lemma proper_prefixes_spec x d : In d (proper_prefixes x) <-> under d x.
Proof.
  unfold under. revert d. induction x as [|a x IH]; intros d; cbn [proper_prefixes In].
  - split; [tauto|intros [c [r E]]; destruct d; discriminate].
  - rewrite in_map_iff. split.
    + intros [<-|[e [<- H]]]; [exists a, x; reflexivity|]. apply IH in H. destruct H as [c [r ->]]. exists c, r. reflexivity.
    + intros [c [r E]]. destruct d as [|b d]; [left; reflexivity|]. right. cbn [app] in E. injection E as <- E. exists d. split; [reflexivity|].
      apply IH. exists c, r. exact E.
Qed.

(** *** Special names *)
Lemma prefixb_more m a b : prefixb m a = true -> prefixb m (a ++ b) = true.
Proof. rewrite !prefixb_spec. intros [r ->]. exists (r ++ b). rewrite app_assoc. reflexivity. Qed.
Lemma strstr_more m a b : strstr m a = true -> strstr m (a ++ b) = true.
Proof.
  induction a as [|c a IH].
  - cbn [strstr]. rewrite orb_false_r. intros H. destruct m; [|discriminate]. destruct b; reflexivity.
  - cbn [strstr app]. rewrite !orb_true_iff. intros [H|H]; [left; exact (prefixb_more m (c :: a) b H)|right; apply IH; exact H].
Qed.
Lemma after_more m a b : m <> [] -> after m a <> None -> after m (a ++ b) <> None.
Proof.
  intros N. induction a as [|c a IH].
  - cbn [after]. destruct m; [contradiction|]. cbn. congruence.
  - cbn [after app]. destruct (prefixb m (c :: a)) eqn:P.
    + change (c :: a ++ b) with ((c :: a) ++ b). rewrite (prefixb_more m (c :: a) b P). discriminate.
    + intros H. destruct (prefixb m (c :: a ++ b)); [discriminate|apply IH; exact H].
Qed.
Lemma virtual_more top a b : virtual_var top a <> None -> virtual_var top (a ++ b) <> None.
Proof.
  unfold virtual_var. destruct (prefixb top a) eqn:P; [|congruence]. rewrite (prefixb_more _ _ b P). apply prefixb_spec in P. destruct P as [r ->].
  rewrite <- app_assoc, !skipn_app_len. destruct r as [|c r]; [congruence|]. cbn [app]. destruct (c =?c slash); [|congruence]. apply after_more. discriminate.
Qed.
Definition special (top x : bytes) : bool :=
  is_hidden x || ignore_file x || strstr fuse_hidden x || match virtual_var top x with None => false | Some _ => true end.
Lemma special_more top a b : special top a = true -> special top (a ++ b) = true.
Proof.
  unfold special, is_hidden, ignore_file, is_ccache_path. rewrite !orb_true_iff. intros H.
  repeat match goal with H : _ \/ _ |- _ => destruct H as [H|H] end;
    try (apply (strstr_more _ _ b) in H); try (apply (prefixb_more _ _ b) in H); try tauto.
  right. assert (virtual_var top a <> None) as V by (destruct (virtual_var top a); congruence).
  apply (virtual_more top a b) in V. destruct (virtual_var top (a ++ b)); [reflexivity|contradiction].
Qed.
Lemma ordinary_spec top p : ordinary top p = true <-> good p = true /\ special top (abs p) = false.
Proof.
  unfold ordinary, special. destruct (good p), (is_hidden (abs p)), (ignore_file (abs p)), (strstr fuse_hidden (abs p)), (virtual_var top (abs p));
    cbn; split; try tauto; try (intros [? ?]; discriminate); try discriminate.
Qed.
Lemma special_root top : special top [slash] = false.
Proof.
  unfold special. assert (virtual_var top [slash] = None) as ->; [|reflexivity]. unfold virtual_var.
  destruct top as [|c top]; [reflexivity|]. cbn [prefixb]. destruct (c =?c slash); [|reflexivity]. destruct top; reflexivity.
Qed.
Lemma ordinary_prefix top p r : ordinary top (p ++ r) = true -> ordinary top p = true.
Proof.
  rewrite !ordinary_spec, good_app, andb_true_iff. intros [[G _] H]. split; [exact G|].
  destruct (special top (abs p)) eqn:E; [|reflexivity]. destruct p as [|c p]; [cbn [abs] in E; rewrite special_root in E; discriminate|].
  change ((c :: p) ++ r) with (c :: p ++ r) in H. rewrite abs_cons in *. change (c :: p ++ r) with ((c :: p) ++ r) in H. rewrite below_app, (special_more _ _ _ E) in H. discriminate.
Qed.
Lemma ordinary_under top d p : under d p -> ordinary top p = true -> ordinary top d = true.
Proof. intros [c [r ->]]. apply ordinary_prefix. Qed.
