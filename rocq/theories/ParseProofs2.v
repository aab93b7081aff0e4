(** Proofs about glob portions and %-flags. *)
From Verif Require Import Base ConfigModel ConfigSpec ConfigProofs ConfigProofs2 ParseModel ParseSpec ParseProofs.
From Coq Require Import ZArith Sorted.
From Verif Require EStringModel.

(** ** Glob portions *)
Lemma same_prefix_pre pre w rest m : not_next w m -> same_prefix (pre ++ w :: rest) (pre ++ m) = (w :: rest, m).
Proof.
  intros H. induction pre as [|c pre IH]; cbn [app same_prefix].
  - destruct m as [|d m]; [reflexivity|]. destruct (w =?c d) eqn:E; [|reflexivity]. apply Ascii.eqb_eq in E as ->.
    exfalso. exact (H m eq_refl).
  - rewrite Ascii.eqb_refl. exact IH.
Qed.
Lemma same_prefix_all s : same_prefix s s = ([], []).
Proof. induction s as [|c s IH]; [reflexivity|]. cbn. rewrite Ascii.eqb_refl. exact IH. Qed.
Lemma special_wild c : special c = true <-> wild c.
Proof.
  unfold special, wild. rewrite !orb_true_iff, !Ascii.eqb_eq. cbn [In].
  split; [intros [[->| ->]| ->]; auto|intros [<-|[<-|[<-|[]]]]; auto].
Qed.
Lemma span_full f s : Forall (fun c => f c = true) s -> span f s = (s, []).
Proof. induction 1 as [|c s H F IH]; [reflexivity|]. cbn. rewrite H, IH. reflexivity. Qed.
Lemma prefixb_app a b : prefixb a (a ++ b) = true.
Proof. apply prefixb_spec. exists b. reflexivity. Qed.
Lemma not_wild_special s : Forall (fun c => ~ wild c) s -> Forall (fun c => negb (special c) = true) s.
Proof. apply Forall_impl. intros c H. destruct (special c) eqn:E; [apply special_wild in E; tauto|reflexivity]. Qed.
Lemma nonempty_pattern (pre : bytes) w rest : exists c t, pre ++ w :: rest = c :: t.
Proof. destruct pre; cbn; eauto. Qed.

Lemma glob_star pre suf g : Forall (fun c => ~ wild c) suf -> not_next "*"%char g ->
  glob_parse (pre ++ "*"%char :: suf) (pre ++ g ++ suf) = [(length pre, Some (length g))].
Proof.
  intros F N. unfold glob_parse. destruct (nonempty_pattern pre "*"%char suf) as [c0 [t0 E0]].
  destruct (pre ++ "*"%char :: suf) eqn:E0'; [discriminate|]. rewrite <- E0'. clear E0 E0' c0 t0.
  assert (not_next "*"%char (g ++ suf)) as N2.
  { intros r E. destruct g as [|x g]; [|injection E as -> _; exact (N g eq_refl)]. cbn in E. subst suf. inversion F as [|? ? W _]; subst.
    apply W. left. reflexivity. }
  rewrite same_prefix_pre by exact N2.
  replace (length (pre ++ g ++ suf) - length (g ++ suf)) with (length pre) by (rewrite !app_length; lia).
  change (("*"%char =?c lbracket) || ("*"%char =?c quest)) with false. cbn match.
  assert (span (fun c => c =?c star) suf = ([], suf)) as ->.
  { destruct suf as [|x suf]; [reflexivity|]. cbn [span]. inversion F; subst. destruct (x =?c star) eqn:E; [|reflexivity].
    apply Ascii.eqb_eq in E as ->. exfalso. apply H1. left. reflexivity. }
  assert (existsb (fun c => (c =?c quest) || (c =?c lbracket)) (tl suf) = false) as ->.
  { destruct (existsb _ (tl suf)) eqn:E; [|reflexivity]. exfalso. apply existsb_exists in E as [x [I E]].
    assert (In x suf) as I2 by (destruct suf; [destruct I|right; exact I]). rewrite Forall_forall in F. apply (F x I2).
    apply orb_true_iff in E as [E|E]; apply Ascii.eqb_eq in E as ->; cbn; auto. }
  rewrite (span_full (fun c => negb (special c)) suf (not_wild_special _ F)). cbn [length repeat app]. f_equal. f_equal.
  destruct suf as [|x suf]; [rewrite app_nil_r; reflexivity|].
  rewrite app_length. replace (length (x :: suf) <=? length g + length (x :: suf)) with true by (symmetry; apply Nat.leb_le; lia).
  replace (length g + length (x :: suf) - length (x :: suf)) with (length g) by lia.
  assert (prefixb (x :: suf) (skipn (length g) (g ++ x :: suf)) = true) as P.
  { rewrite skipn_len by reflexivity. rewrite <- (app_nil_r (x :: suf)) at 2. apply prefixb_app. }
  destruct (length g); cbn [find_down]; rewrite P; reflexivity.
Qed.
Lemma glob_one pre w rest c s : In w ["?"; "["]%char -> c <> w ->
  glob_parse (pre ++ w :: rest) (pre ++ c :: s) = [(length pre, Some 1)].
Proof.
  intros W N. unfold glob_parse. destruct (pre ++ w :: rest) eqn:E0; [destruct pre; discriminate|]. rewrite <- E0. clear E0.
  rewrite same_prefix_pre; [|intros r E; injection E as -> _; exact (N eq_refl)].
  replace (length (pre ++ c :: s) - length (c :: s)) with (length pre) by (rewrite !app_length; lia).
  assert ((w =?c lbracket) || (w =?c quest) = true) as -> by (destruct W as [<-|[<-|[]]]; reflexivity). reflexivity.
Qed.
Lemma glob_plain s : glob_parse s s = [].
Proof. unfold glob_parse. destruct s; [reflexivity|]. rewrite same_prefix_all. reflexivity. Qed.

Lemma first_wild pre w rest pre' w' rest' : Forall (fun c => ~ wild c) pre -> Forall (fun c => ~ wild c) pre' -> wild w -> wild w' ->
  pre ++ w :: rest = pre' ++ w' :: rest' -> pre = pre' /\ w = w' /\ rest = rest'.
Proof.
  revert pre'. induction pre as [|c pre IH]; intros [|d pre'] F F' W W' E; cbn in E.
  - injection E as -> ->. auto.
  - exfalso. injection E as -> E. inversion F'; subst. tauto.
  - exfalso. injection E as <- E. inversion F; subst. tauto.
  - injection E as -> E. inversion F; inversion F'; subst. destruct (IH pre') as [-> [-> ->]]; auto.
Qed.
Lemma wild3 c : wild c <-> c = "*"%char \/ In c ["?"; "["]%char.
Proof. unfold wild. cbn [In]. intuition. Qed.

(** What [glob_part] says about a usual pattern. *)
Lemma usual_glob i : usual_pattern i ->
  (glob_parse (it_pattern i) (it_name i) = [] /\ forall g, ~ glob_part (it_pattern i) (it_name i) g) \/
  (exists at_ len, glob_parse (it_pattern i) (it_name i) = [(at_, Some len)] /\
     forall g, glob_part (it_pattern i) (it_name i) g <-> g = firstn len (skipn at_ (it_name i))).
Proof.
  assert (wild "*"%char) as W1 by (cbn; auto). assert (wild "?"%char) as W2 by (cbn; auto). assert (wild "["%char) as W3 by (cbn; auto).
  intros [[E F]|[[pre [suf [g0 [E [En [F1 [F2 N]]]]]]]|[pre [w [rest [c [s [W [E [En [F N]]]]]]]]]]].
  - left. rewrite E. split; [apply glob_plain|]. intros g G. rewrite <- E in F at 1.
    assert (exists c, In c (it_pattern i) /\ wild c) as [c [I Wc]].
    { rewrite <- E in G at 1. inversion G; subst; eexists; (split; [apply in_app_iff; right; left; reflexivity|assumption]). }
    rewrite Forall_forall in F. exact (F c I Wc).
  - right. exists (length pre), (length g0). rewrite E, En. split; [apply glob_star; assumption|].
    intros g. rewrite skipn_len by reflexivity. rewrite firstn_app, Nat.sub_diag, firstn_all, firstn_O, app_nil_r. split.
    + intros G. inversion G as [pre' suf' g' P1 P2 E1 E2|pre' rest' c' s' P1 E1 E2|pre' rest' c' s' P1 E1 E2]; subst.
      * apply first_wild in E1 as [-> [_ ->]]; try assumption. apply app_inv_head in E2. apply app_inv_tail in E2. exact E2.
      * apply first_wild in E1 as [_ [E1 _]]; try assumption. discriminate.
      * apply first_wild in E1 as [_ [E1 _]]; try assumption. discriminate.
    + intros ->. apply gp_star; assumption.
  - right. exists (length pre), 1. rewrite E, En. split; [apply glob_one; assumption|].
    intros g. rewrite skipn_len by reflexivity. cbn [firstn]. assert (wild w) as Ww by (apply wild3; auto). split.
    + intros G. inversion G as [pre' suf' g' P1 P2 E1 E2|pre' rest' c' s' P1 E1 E2|pre' rest' c' s' P1 E1 E2]; subst.
      * exfalso. apply first_wild in E1 as [_ [<- _]]; try assumption. destruct W as [W|[W|[]]]; discriminate.
      * apply first_wild in E1 as [-> [_ _]]; try assumption. apply app_inv_head in E2. injection E2 as -> _. reflexivity.
      * apply first_wild in E1 as [-> [_ _]]; try assumption. apply app_inv_head in E2. injection E2 as -> _. reflexivity.
    + intros ->. destruct W as [<-|[<-|[]]]; [apply gp_any|apply gp_set]; assumption.
Qed.

(** ** Entries *)
Lemma base_offset_file dir name : (dir = [] \/ exists d, dir = d ++ ["/"%char]) -> ~ In "/"%char name -> base_offset (dir ++ name) = length dir.
Proof.
  intros D N. unfold base_offset. rewrite rev_app_distr.
  assert (Forall (fun c => negb (c =?c slash) = true) (rev name)) as F.
  { rewrite Forall_forall. intros c I. apply in_rev in I. rewrite negb_true_iff, Ascii.eqb_neq. intros ->. exact (N I). }
  destruct D as [->|[d ->]].
  - cbn [rev]. rewrite app_nil_r. rewrite span_full by exact F. cbn [fst]. rewrite rev_length. cbn. lia.
  - rewrite rev_app_distr. cbn [rev app]. rewrite span_stop; [|exact F|reflexivity]. cbn [fst]. rewrite rev_length, !app_length. lia.
Qed.
Lemma last_dot_spec s k : last_dot s k <= k /\ (forall i, last_dot s k < i <= k -> nth i s nul <> dot) /\
  (last_dot s k <> 0 -> nth (last_dot s k) s nul = dot).
Proof.
  induction k as [|k [IH1 [IH2 IH3]]]; [cbn; repeat split; intros; lia|].
  cbn [last_dot]. destruct (nth (S k) s nul =?c dot) eqn:E.
  - apply Ascii.eqb_eq in E. repeat split; intros; [lia|lia|exact E].
  - apply Ascii.eqb_neq in E. repeat split; [lia| |exact IH3]. intros i H. destruct (Nat.eq_dec i (S k)) as [->|]; [exact E|apply IH2; lia].
Qed.
Lemma nth_mid {A} (a : list A) x b d : nth (length a) (a ++ x :: b) d = x.
Proof. rewrite app_nth2 by lia. rewrite Nat.sub_diag. reflexivity. Qed.
Lemma skipn_nth {A} (l : list A) k d : k < length l -> skipn k l = nth k l d :: skipn (S k) l.
Proof.
  revert l. induction k as [|k IH]; intros [|x l] H; cbn in H; try lia; [reflexivity|].
  change (skipn (S k) (x :: l)) with (skipn k l). rewrite IH by lia. reflexivity.
Qed.
Lemma nul_not_dot : nul <> dot. Proof. discriminate. Qed.

Lemma name_parts_dot name stem e : name_parts name stem e <->
  let k := last_dot name (length name) in
  if k =? 0 then stem = name /\ e = None else stem = firstn k name /\ e = Some (skipn (S k) name).
Proof.
  cbv zeta. destruct (last_dot_spec name (length name)) as [H1 [H2 H3]]. set (k := last_dot name (length name)) in *. clearbody k.
  assert (forall st ex, st <> [] -> ~ In "."%char ex -> name = st ++ "."%char :: ex -> k = length st) as U.
  { intros st ex Ns Nd En. destruct (lt_eq_lt_dec k (length st)) as [[L|Eq]|L]; [|exact Eq|].
    - exfalso. apply (H2 (length st)); [rewrite En, app_length; cbn; lia|]. rewrite En. apply nth_mid.
    - exfalso. assert (k <> 0) as K by lia. apply H3 in K. rewrite En in K. rewrite app_nth2 in K by lia.
      destruct (k - length st) as [|j] eqn:Ej; [lia|]. cbn [nth] in K. apply Nd. change "."%char with dot. rewrite <- K.
      destruct (lt_dec j (length ex)) as [J|J]; [apply nth_In; exact J|]. rewrite nth_overflow in K by lia. exfalso. exact (nul_not_dot K). }
  destruct (k =? 0) eqn:K.
  - apply Nat.eqb_eq in K. split.
    + intros H. inversion H; subst; [|auto]. exfalso. pose proof (U stem ext H0 H4 eq_refl) as L. destruct stem; [congruence|]. cbn in L. lia.
    + intros [-> ->]. apply np_none. intros st ex Ns En. apply (H2 (length st)).
      * rewrite K, En, app_length. destruct st; [congruence|]. cbn. lia.
      * rewrite En. apply nth_mid.
  - apply Nat.eqb_neq in K. specialize (H3 K).
    assert (k < length name) as L.
    { destruct (lt_dec k (length name)) as [L|L]; [exact L|]. rewrite nth_overflow in H3 by lia. exfalso. exact (nul_not_dot H3). }
    assert (name = firstn k name ++ "."%char :: skipn (S k) name) as D.
    { rewrite <- (firstn_skipn k name) at 1. f_equal. rewrite (skipn_nth name k nul L), H3. reflexivity. }
    assert (firstn k name <> []) as Ne.
    { intros G. apply (f_equal (@length _)) in G. rewrite firstn_length in G. cbn in G. lia. }
    split.
    + intros H. inversion H; subst.
      * assert (k = length stem) as Lk by (apply (U stem ext); auto). rewrite Lk.
        rewrite firstn_app, Nat.sub_diag, firstn_all, firstn_O, app_nil_r. split; [reflexivity|].
        f_equal. change (stem ++ "."%char :: ext) with (stem ++ ["."%char] ++ ext). rewrite app_assoc.
        rewrite skipn_len; [reflexivity|]. rewrite app_length. cbn. lia.
      * exfalso. exact (H0 _ _ Ne D).
    + intros [-> ->]. rewrite D at 1. apply np_ext; [exact Ne|].
      intros I. apply In_nth with (d := nul) in I as [j [J Ej]]. apply (H2 (S k + j)).
      * rewrite skipn_length in J. lia.
      * rewrite D. rewrite app_nth2 by (rewrite firstn_length; lia). rewrite firstn_length, Nat.min_l by lia.
        replace (S k + j - k) with (S j) by lia. cbn [nth]. exact Ej.
Qed.

Lemma file_base i o p t : well_formed i -> base_text (file_entry (it_dir i) (it_name i) o p t) = Ok (it_name i).
Proof.
  intros [D [N _]]. unfold base_text, file_entry. cbn [n_base n_path]. rewrite base_offset_file by assumption.
  rewrite skipn_len by reflexivity. reflexivity.
Qed.
Lemma file_stem i o p t stem e : well_formed i -> name_parts (it_name i) stem e ->
  extless_text (file_entry (it_dir i) (it_name i) o p t) = Ok stem.
Proof.
  intros [D [N _]] P. apply name_parts_dot in P. cbv zeta in P. unfold extless_text, file_entry. cbn [n_base n_path n_extless].
  rewrite base_offset_file by assumption. destruct (last_dot_spec (it_name i) (length (it_name i))) as [K _].
  set (k := last_dot (it_name i) (length (it_name i))) in *. rewrite app_length.
  destruct (k =? 0) eqn:K0.
  - destruct P as [-> _].
    replace (Z.of_nat (length (it_dir i) + length (it_name i) - length (it_dir i)) - (Z.of_nat (length (it_dir i) + length (it_name i)) - Z.of_nat (length (it_dir i) + length (it_name i))))%Z
      with (Z.of_nat (length (it_name i))) by lia.
    destruct (Z.ltb_spec (Z.of_nat (length (it_name i))) 0); [lia|]. rewrite Nat2Z.id, skipn_len, firstn_all by reflexivity. reflexivity.
  - destruct P as [-> _].
    replace (Z.of_nat (length (it_dir i) + length (it_name i) - length (it_dir i)) - (Z.of_nat (length (it_dir i) + length (it_name i)) - Z.of_nat (length (it_dir i) + k)))%Z
      with (Z.of_nat k) by lia.
    destruct (Z.ltb_spec (Z.of_nat k) 0); [lia|]. rewrite Nat2Z.id, skipn_len by reflexivity. reflexivity.
Qed.
Lemma name_parts_total name : exists stem e, name_parts name stem e.
Proof.
  set (k := last_dot name (length name)). destruct (k =? 0) eqn:K.
  - exists name, None. apply name_parts_dot. cbv zeta. fold k. rewrite K. auto.
  - exists (firstn k name), (Some (skipn (S k) name)). apply name_parts_dot. cbv zeta. fold k. rewrite K. auto.
Qed.
Lemma name_parts_fun name s1 e1 s2 e2 : name_parts name s1 e1 -> name_parts name s2 e2 -> s1 = s2 /\ e1 = e2.
Proof.
  intros P Q. apply name_parts_dot in P, Q. cbv zeta in P, Q. destruct (last_dot name (length name) =? 0); destruct P, Q; split; congruence.
Qed.
(** %O *)
Lemma last_dot_app dir name : ~ In "/"%char name -> forall stem ext, name_parts name stem (Some ext) ->
  last_dot (dir ++ name) (length (dir ++ name) - 1) = length dir + length stem.
Proof.
  intros _ stem ext P. inversion P as [st ex Hs Hd|]; subst. rewrite app_assoc.
  set (a := dir ++ stem). destruct (last_dot_spec (a ++ "."%char :: ext) (length (a ++ "."%char :: ext) - 1)) as [H1 [H2 H3]].
  set (k := last_dot _ _) in *. rewrite app_length in H1, H2. cbn [length] in H1, H2.
  rewrite <- app_length. fold a. destruct (lt_eq_lt_dec k (length a)) as [[L|Eq]|L]; [|exact Eq|].
  - exfalso. apply (H2 (length a)); [lia|]. apply nth_mid.
  - exfalso. assert (k <> 0) as K by lia. apply H3 in K. rewrite app_nth2 in K by lia.
    destruct (k - length a) as [|j] eqn:Ej; [lia|]. cbn [nth] in K. apply Hd. change "."%char with dot. rewrite <- K. apply nth_In. lia.
Qed.
Lemma output_stem i o t stem ext : well_formed i -> name_parts (it_name i) stem (Some ext) ->
  firstn (n_extless (output_entry (it_path i) o t)) (it_path i) = it_dir i ++ stem.
Proof.
  intros [D [N _]] P. cbn [output_entry n_extless]. unfold it_path. rewrite (last_dot_app _ _ N _ _ P).
  inversion P; subst. rewrite app_assoc. rewrite <- app_length. rewrite firstn_app, Nat.sub_diag, firstn_all, firstn_O, app_nil_r. reflexivity.
Qed.

(** ** Lists *)
Lemma joined_false f l ws : Forall2 (fun e w => f e = Ok w) l ws -> joined f false l = Ok (concat (map (cons space) ws)).
Proof. induction 1 as [|e w l ws H F IH]; [reflexivity|]. cbn [joined]. rewrite H. cbn [obind]. rewrite IH. reflexivity. Qed.
Lemma join_concat w ws : join (w :: ws) = w ++ concat (map (cons space) ws).
Proof.
  revert w. induction ws as [|w2 ws IH]; intros w; [cbn; symmetry; apply app_nil_r|].
  change (join (w :: w2 :: ws)) with (w ++ " "%char :: join (w2 :: ws)). rewrite IH. reflexivity.
Qed.
Lemma joined_true f l ws : Forall2 (fun e w => f e = Ok w) l ws -> joined f true l = Ok (join ws).
Proof.
  intros H. inversion H; subst; [reflexivity|]. cbn [joined]. rewrite H0. cbn [obind]. rewrite (joined_false _ _ _ H1).
  cbn [obind app]. rewrite join_concat. reflexivity.
Qed.
Lemma listed_ok f nl ws : Forall2 (fun e w => f e = Ok w) (nl_entries nl) ws -> ws <> [] -> listed f nl = Ok (join ws).
Proof. intros H N. unfold listed. destruct (nl_entries nl) eqn:E; [inversion H; congruence|]. apply joined_true, H. Qed.
Lemma listed_nil f nl : nl_entries nl = [] -> listed f nl = Bad.
Proof. intros H. unfold listed. rewrite H. reflexivity. Qed.

(** ** Numbers *)
Lemma digit_table : forall c k, nth_error ["0"; "1"; "2"; "3"; "4"; "5"; "6"; "7"; "8"; "9"]%char k = Some c -> isdigit c = true /\ digit c = Z.of_nat k.
Proof.
  intros c k H. do 10 (destruct k as [|k]; [injection H as <-; vm_compute; auto|]). cbn in H. destruct k; discriminate.
Qed.
Lemma isdigit_table c : isdigit c = true -> exists k, nth_error ["0"; "1"; "2"; "3"; "4"; "5"; "6"; "7"; "8"; "9"]%char k = Some c.
Proof.
  intros H. assert (48 <= nat_of_ascii c <= 57) as R.
  { unfold isdigit in H. apply andb_true_iff in H as [H1 H2]. apply Nat.leb_le in H1, H2. auto. }
  exists (nat_of_ascii c - 48). rewrite <- (ascii_nat_embedding c) at 2.
  remember (nat_of_ascii c) as m. clear -R. do 48 (destruct m as [|m]; [lia|]). do 10 (destruct m as [|m]; [reflexivity|]). lia.
Qed.
Lemma number_snoc d c : number (d ++ [c]) = (10 * number d + digit c)%Z.
Proof. unfold number. rewrite fold_left_app. reflexivity. Qed.
Lemma value_number d n : value d n <-> Forall (fun c => isdigit c = true) d /\ number d = n.
Proof.
  split.
  - induction 1 as [|d c n k H [F E] K]; [split; [constructor|reflexivity]|]. apply digit_table in K as [K1 K2]. split.
    + apply Forall_app. split; [exact F|constructor; [exact K1|constructor]].
    + rewrite number_snoc, K2, E. reflexivity.
  - intros [F E]. subst n. induction d as [|c d IH] using rev_ind; [apply v_nil|]. apply Forall_app in F as [F1 F2].
    inversion F2; subst. destruct (isdigit_table c H1) as [k K]. rewrite number_snoc. destruct (digit_table _ _ K) as [_ ->].
    apply v_snoc; [apply IH, F1|exact K].
Qed.
Lemma digit_nonneg c : (0 <= digit c)%Z. Proof. unfold digit. lia. Qed.
Lemma number_nonneg d : (0 <= number d)%Z.
Proof. induction d as [|c d IH] using rev_ind; [reflexivity|]. rewrite number_snoc. pose proof (digit_nonneg c). lia. Qed.
Lemma to_int_small n : (0 <= n < 2147483648)%Z -> to_int n = n.
Proof. intros H. unfold to_int. rewrite Z.mod_small by lia. destruct (Z.ltb_spec n 2147483648); lia. Qed.

(** The entries with a number. *)
Lemma pick_filter n l : StronglySorted le (map n_order l) -> pick n l = filter (fun e => (Z.of_nat (n_order e) =? n)%Z) l.
Proof.
  induction l as [|e l IH]; intros S; [reflexivity|]. cbn [map] in S. inversion S as [|? ? S1 S2]; subst. cbn [pick filter].
  destruct (Z.eqb_spec (Z.of_nat (n_order e)) n) as [E|E]; [f_equal; apply IH, S1|].
  destruct (Z.ltb_spec n (Z.of_nat (n_order e))) as [L|L]; [|apply IH, S1].
  symmetry. rewrite Forall_map, Forall_forall in S2. clear -S2 L. induction l as [|f l IH]; [reflexivity|]. cbn [filter].
  destruct (Z.eqb_spec (Z.of_nat (n_order f)) n) as [E|E]; [specialize (S2 f (or_introl eq_refl)); lia|]. apply IH. intros x I. apply S2. right. exact I.
Qed.
