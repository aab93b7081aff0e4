(** += , tup.rule, and names. *)
From Verif Require Import Base ConfigModel ConfigSpec ParseModel ParseSpec ParseProofs TextModel MacroModel MacroSpec MacroProofs MacroProofs2 LuaModel LuaSpec LuaProofs.

(** ** Tables *)
Lemma upd_length m a t : length (upd m a t) = length m.
Proof. revert a. induction m as [|x m IH]; intros [|a]; cbn; auto. Qed.
Lemma upd_same m a t u : nth_error m a = Some u -> nth_error (upd m a t) a = Some t.
Proof. revert a. induction m as [|x m IH]; intros [|a]; cbn; try discriminate; auto. Qed.
Lemma upd_other m a b t : a <> b -> nth_error (upd m a t) b = nth_error m b.
Proof. revert a b. induction m as [|x m IH]; intros [|a] [|b] N; cbn; try reflexivity; try lia. apply IH. lia. Qed.
Lemma new_same m t : nth_error (fst (new m t)) (length m) = Some t.
Proof. unfold new. cbn [fst]. rewrite nth_error_app2, Nat.sub_diag by lia. reflexivity. Qed.
Lemma new_other m t a u : nth_error m a = Some u -> nth_error (fst (new m t)) a = Some u.
Proof. intros E. unfold new. cbn [fst]. rewrite nth_error_app1; [exact E|]. apply nth_error_Some. congruence. Qed.


Definition exists_in (m : mem) (v : val) : Prop := forall a, v = Tab a -> a < length m.
Lemma append_core m m0 b x t m' r : nth_error m0 x = Some t -> (forall y u, nth_error m y = Some u -> nth_error m0 y = Some u) ->
  (forall y, b = Tab y -> y < length m) ->
  (match match b with Str _ => Some [b] | Tab y => match nth_error m0 y with Some u => Some (t_arr u) | None => None end | Nil => Some [] | _ => None end with
   | Some l => Ret (upd m0 x {| t_arr := t_arr t ++ l; t_named := t_named t; t_meta := true |}, Tab x) | None => Error end) = Ret (m', r) ->
  exists lb, elements m b lb /\ r = Tab x /\ nth_error m' x = Some {| t_arr := t_arr t ++ lb; t_named := t_named t; t_meta := true |} /\
    (forall y u, x <> y -> nth_error m y = Some u -> nth_error m' y = Some u).
Proof.
  intros T M V X. destruct b as [|b|k|s|y]; try discriminate.
  - injection X as <- <-. exists []. split; [constructor|]. split; [reflexivity|]. split; [exact (upd_same _ _ _ _ T)|]. intros y u N U. rewrite upd_other by exact N. auto.
  - injection X as <- <-. exists [Str s]. split; [constructor|]. split; [reflexivity|]. split; [exact (upd_same _ _ _ _ T)|]. intros y u N U. rewrite upd_other by exact N. auto.
  - assert (y < length m) as L by (apply V; reflexivity). destruct (nth_error m y) as [u|] eqn:U; [|apply nth_error_None in U; lia].
    rewrite (M _ _ U) in X. injection X as <- <-. exists (t_arr u). split; [constructor; exact U|]. split; [reflexivity|].
    split; [exact (upd_same _ _ _ _ T)|]. intros z w N W. rewrite upd_other by exact N. auto.
Qed.
Lemma append_spec m a b m' r : exists_in m b -> append_assignment m a b = Ret (m', r) ->
  exists la lb x t, elements m a la /\ elements m b lb /\ r = Tab x /\ nth_error m' x = Some t /\ t_arr t = la ++ lb /\ t_meta t = true /\
    (a = Tab x \/ (forall y, a <> Tab y) /\ x = length m) /\
    t_named t = match nth_error m x with Some u => t_named u | None => [] end /\
    (forall y u, x <> y -> nth_error m y = Some u -> nth_error m' y = Some u).
Proof.
  intros V E. unfold append_assignment in E. assert (nth_error m (length m) = None) as NN by (apply nth_error_None; lia).
  destruct a as [|b0|k|s|a]; try discriminate.
  - pose proof (new_same m (plain_table [])) as NS. unfold new in NS, E. cbn [fst] in NS. cbn iota in E. rewrite NS in E.
    destruct (append_core m _ b (length m) _ m' r NS (fun y u => new_other m (plain_table []) y u) V E) as [lb [L [-> [T O]]]].
    eexists [], lb, (length m), _. split; [constructor|]. split; [exact L|]. split; [reflexivity|]. split; [exact T|]. split; [reflexivity|]. split; [reflexivity|].
    split; [right; split; [discriminate|reflexivity]|]. rewrite NN. split; [reflexivity|exact O].
  - pose proof (new_same m (plain_table [Str s])) as NS. unfold new in NS, E. cbn [fst] in NS. cbn iota in E. rewrite NS in E.
    destruct (append_core m _ b (length m) _ m' r NS (fun y u => new_other m (plain_table [Str s]) y u) V E) as [lb [L [-> [T O]]]].
    eexists [Str s], lb, (length m), _. split; [constructor|]. split; [exact L|]. split; [reflexivity|]. split; [exact T|]. split; [reflexivity|]. split; [reflexivity|].
    split; [right; split; [discriminate|reflexivity]|]. rewrite NN. split; [reflexivity|exact O].
  - cbn iota in E. destruct (nth_error m a) as [t|] eqn:T; [|discriminate].
    destruct (append_core m m b a t m' r T (fun y u H => H) V E) as [lb [L [-> [T' O]]]].
    eexists (t_arr t), lb, a, _. split; [constructor; exact T|]. split; [exact L|]. split; [reflexivity|]. split; [exact T'|]. split; [reflexivity|]. split; [reflexivity|].
    split; [left; reflexivity|]. rewrite T. split; [reflexivity|exact O].
Qed.
Lemma append_ok m a b la lb : elements m a la -> elements m b lb -> exists p, append_assignment m a b = Ret p.
Proof.
  intros A X. unfold append_assignment.
  assert (forall m0 x t, nth_error m0 x = Some t -> (forall y u, nth_error m y = Some u -> nth_error m0 y = Some u) ->
    exists p, (match match b with Str _ => Some [b] | Tab y => match nth_error m0 y with Some u => Some (t_arr u) | None => None end | Nil => Some [] | _ => None end with
     | Some l => Ret (upd m0 x {| t_arr := t_arr t ++ l; t_named := t_named t; t_meta := true |}, Tab x) | None => Error end) = Ret p) as K.
  { intros m0 x t T M. destruct X as [|s|y u U]; [eauto|eauto|]. rewrite (M _ _ U). eauto. }
  destruct A as [|s|a t T].
  - unfold new. pose proof (new_same m (plain_table [])) as NS. unfold new in NS. cbn [fst] in NS. cbn iota. rewrite NS. apply (K _ _ _ NS). intros y u U. exact (new_other m (plain_table []) y u U).
  - unfold new. pose proof (new_same m (plain_table [Str s])) as NS. unfold new in NS. cbn [fst] in NS. cbn iota. rewrite NS. apply (K _ _ _ NS). intros y u U. exact (new_other m (plain_table [Str s]) y u U).
  - rewrite T. apply (K _ _ _ T). auto.
Qed.

(** ** Variables *)
Lemma find_put k v l x : find_var x (put k v l) = if bytes_eqb k x then match v with Nil => None | _ => Some v end else find_var x l.
Proof.
  assert (forall (l : list (bytes * val)), find_var x (drop k l) = if bytes_eqb k x then None else find_var x l) as D.
  { clear l. induction l as [|[y w] l IH]; [destruct (bytes_eqb k x); reflexivity|]. cbn [drop filter fst find_var].
    destruct (bytes_eqb_spec y k) as [-> |N]; cbn [negb].
    - fold (drop k l). rewrite IH. destruct (bytes_eqb k x); reflexivity.
    - cbn [find_var]. fold (drop k l). rewrite IH. destruct (bytes_eqb_spec y x) as [-> |N2]; [|reflexivity]. destruct (bytes_eqb_spec k x) as [-> |N3]; [congruence|reflexivity]. }
  destruct v; cbn [put find_var]; rewrite D; destruct (bytes_eqb k x); reflexivity.
Qed.
Lemma get_set St (l : lua St) x v y : frames St l <> [] -> v <> Nil -> get_var St (set_var St l x v) y = if bytes_eqb x y then v else get_var St l y.
Proof.
  intros N V. unfold get_var, set_var, set_top, top. cbn [frames globs]. destruct (frames St l) as [|f r]; [congruence|]. cbn [f_vars]. rewrite find_put.
  destruct (bytes_eqb x y); [destruct v; [congruence|reflexivity..]|reflexivity].
Qed.

(** ** What stays *)
Lemma keeps_refl m : keeps m m.
Proof. intros a t T. exists t. auto. Qed.
Lemma keeps_trans m1 m2 m3 : keeps m1 m2 -> keeps m2 m3 -> keeps m1 m3.
Proof.
  intros A C a t T. destruct (A a t T) as [t2 [T2 [E1 [E2 E3]]]]. destruct (C a t2 T2) as [t3 [T3 [F1 [F2 F3]]]]. exists t3. split; [exact T3|]. split; [congruence|]. split; [congruence|auto].
Qed.
Lemma keeps_new m t : keeps m (fst (new m t)).
Proof. intros a u U. exists u. split; [exact (new_other m t a u U)|auto]. Qed.
Lemma keeps_nil_field m a k : keeps m (set_field m a k Nil).
Proof.
  intros b t T. unfold set_field. destruct (nth_error m a) as [u|] eqn:U; [|exists t; auto]. destruct (Nat.eq_dec a b) as [-> |N].
  - rewrite T in U. injection U as <-. eexists. split; [exact (upd_same _ _ _ _ T)|]. cbn. split; [reflexivity|]. split; [reflexivity|]. intros ->. reflexivity.
  - exists t. rewrite upd_other by exact N. auto.
Qed.
Lemma keeps_tableize m v : keeps m (fst (tableize m v)).
Proof. destruct v; try apply keeps_new. apply keeps_refl. Qed.
Lemma keeps_names m m' v ns : keeps m m' -> names_in m v ns -> names_in m' v ns.
Proof.
  intros K N. destruct N as [s|a t ns T A E]; [constructor|]. destruct (K a t T) as [t' [T' [A' [_ E']]]]. apply (ni_tab m' a t' ns); [exact T'|congruence|auto].
Qed.
Lemma keeps_tostr m m' v s : keeps m m' -> tostr m v = Ret s -> tostr m' v = Ret s.
Proof.
  intros K E. destruct v; try exact E. cbn [tostr] in *. destruct (nth_error m a) as [t|] eqn:T; [|discriminate]. destruct (K a t T) as [t' [-> [-> [-> _]]]]. exact E.
Qed.
Lemma rmap_ret {A C} (f g : A -> res C) l r : (forall a c, f a = Ret c -> g a = Ret c) -> rmap f l = Ret r -> rmap g l = Ret r.
Proof.
  intros E. revert r. induction l as [|a l IH]; intros r; cbn [rmap]; [auto|]. intros X. apply rbind_ret in X. destruct X as [c [X1 X2]]. apply rbind_ret in X2. destruct X2 as [cs [X2 X3]].
  rewrite (E _ _ X1). cbn [rbind]. rewrite (IH _ X2). exact X3.
Qed.
Lemma keeps_copy m m' v s : keeps m m' -> copy m v = Ret s -> copy m' v = Ret s.
Proof.
  intros K E. destruct v; try exact E. cbn [copy] in *. destruct (nth_error m a) as [t|] eqn:T; [|discriminate]. destruct (K a t T) as [t' [-> [A [_ N]]]].
  unfold items in *. destruct (t_named t) eqn:EN; [|discriminate]. rewrite (N eq_refl). cbn [rbind] in *. rewrite A. apply rbind_ret in E. destruct E as [c [E1 E2]].
  rewrite (rmap_ret _ (tostr m') _ _ (fun a c => keeps_tostr m m' a c K) E1). exact E2.
Qed.

(** What definerule is given: a list of names as a table, or nothing. *)
Inductive listing (m : mem) : val -> list bytes -> Prop :=
| li_none v : (forall a, v <> Tab a) -> listing m v []
| li_tab a t ns : nth_error m a = Some t -> t_arr t = map Str ns -> t_named t = [] -> listing m (Tab a) ns.
Lemma keeps_listing m m' v ns : keeps m m' -> listing m v ns -> listing m' v ns.
Proof.
  intros K N. destruct N as [v N|a t ns T A E]; [constructor; exact N|]. destruct (K a t T) as [t' [T' [A' [_ E']]]]. apply (li_tab m' a t' ns); [exact T'|congruence|auto].
Qed.
Lemma tableize_names m v ns : names_in m v ns -> listing (fst (tableize m v)) (snd (tableize m v)) ns.
Proof.
  intros N. destruct N as [s|a t ns T A E]; cbn [tableize].
  - apply (li_tab _ (length m) (plain_table [Str s])); [apply new_same|reflexivity|reflexivity].
  - exact (li_tab _ a t ns T A E).
Qed.
Lemma names_truthy m v ns : names_in m v ns -> truthy v = true.
Proof. intros []; reflexivity. Qed.
Lemma field_var m a t k : nth_error m a = Some t -> field m a k = match find_var k (t_named t) with Some v => v | None => Nil end.
Proof. intros T. unfold field. rewrite T. reflexivity. Qed.
Lemma drop_only k l : (forall x (v : val), In (x, v) l -> x = k) -> drop k l = [].
Proof. induction l as [|[x v] l IH]; intros O; [reflexivity|]. cbn. rewrite (O x v (or_introl eq_refl)), bytes_eqb_refl. cbn. apply IH. intros y w I. apply (O y w). right; exact I. Qed.
Lemma drop_In k l x (v : val) : In (x, v) (drop k l) -> In (x, v) l /\ x <> k.
Proof. unfold drop. intros I. apply filter_In in I. destruct I as [I N]. split; [exact I|]. cbn in N. intros ->. rewrite bytes_eqb_refl in N. discriminate. Qed.
Lemma find_none_notin k l (v : val) : find_var k l = None -> ~ In (k, v) l.
Proof.
  induction l as [|[x w] l IH]; cbn; [auto|]. destruct (bytes_eqb_spec x k) as [-> |N]; [discriminate|]. intros E [X|X]; [injection X as -> _; congruence|exact (IH E X)].
Qed.
Lemma drop_find k k' (l : list (bytes * val)) : k <> k' -> find_var k' (drop k l) = find_var k' l.
Proof.
  intros N. induction l as [|[y w] l IH]; [reflexivity|]. cbn [drop filter fst]. destruct (bytes_eqb_spec y k) as [-> |N2]; cbn [negb].
  - fold (drop k l). cbn [find_var]. destruct (bytes_eqb_spec k k'); [congruence|exact IH].
  - cbn [find_var]. fold (drop k l). rewrite IH. reflexivity.
Qed.

(** The field [k] is taken out of table [a]. *)
Lemma take_extra_spec k m a t old ex : nth_error m a = Some t -> named_names m t k ex -> (forall x, old <> Tab x) ->
  exists m' e t', take_extra k m (Tab a) old = (m', e) /\ keeps m m' /\ listing m' e ex /\
    nth_error m' a = Some t' /\ t_arr t' = t_arr t /\ (forall x v, In (x, v) (t_named t') -> In (x, v) (t_named t) /\ x <> k) /\
    (forall k', k' <> k -> find_var k' (t_named t') = find_var k' (t_named t)).
Proof.
  intros T NN O. cbn [take_extra]. rewrite (field_var m a t k T). destruct NN as [F|v ns F NI]; rewrite F.
  - cbn [truthy]. exists m, old, t. split; [reflexivity|]. split; [apply keeps_refl|]. split; [constructor; exact O|]. split; [exact T|]. split; [reflexivity|].
    split; [|auto]. intros x v I. split; [exact I|]. intros ->. exact (find_none_notin k _ v F I).
  - rewrite (names_truthy m v ns NI). destruct (tableize m v) as [m1 e] eqn:TB. pose proof (keeps_tableize m v) as K1. rewrite TB in K1. cbn [fst] in K1.
    pose proof (tableize_names m v ns NI) as L1. rewrite TB in L1. cbn [fst snd] in L1.
    destruct (K1 a t T) as [t1 [T1 [A1 _]]].
    assert (t_named t1 = t_named t) as N1.
    { destruct v; cbn [tableize] in TB; try (inversion NI; fail); injection TB as <- <-; [pose proof (new_other m (plain_table [Str s]) a t T) as E; unfold new in E; cbn [fst] in E; congruence|congruence]. }
    exists (set_field m1 a k Nil), e, {| t_arr := t_arr t1; t_named := put k Nil (t_named t1); t_meta := t_meta t1 |}. split; [reflexivity|].
    pose proof (keeps_nil_field m1 a k) as K2. split; [exact (keeps_trans _ _ _ K1 K2)|]. split; [exact (keeps_listing _ _ _ _ K2 L1)|].
    split; [unfold set_field; rewrite T1; exact (upd_same _ _ _ _ T1)|]. split; [exact A1|]. cbn [t_named put]. rewrite N1. split.
    + intros x w I. exact (drop_In _ _ _ _ I).
    + intros k' NK. apply drop_find. congruence.
Qed.
Lemma take_bin_spec m a t old b : nth_error m a = Some t -> named_bin t b ->
  exists m' e t', take_bin m (Tab a) old = Ret (m', match b with None => old | Some _ => e end) /\ (forall x, b = Some x -> e = Str x) /\ keeps m m' /\
    nth_error m' a = Some t' /\ t_arr t' = t_arr t /\ (forall x v, In (x, v) (t_named t') -> In (x, v) (t_named t) /\ x <> B "bin").
Proof.
  intros T NB. cbn [take_bin]. rewrite (field_var m a t _ T). destruct NB as [F|s s' F E]; rewrite F.
  - cbn [truthy]. exists m, Nil, t. split; [reflexivity|]. split; [discriminate|]. split; [apply keeps_refl|]. split; [exact T|]. split; [reflexivity|].
    intros x v I. split; [exact I|]. intros ->. exact (find_none_notin _ _ v F I).
  - cbn [truthy]. exists (set_field m a (B "bin") Nil), (Str (strip_braces s)), {| t_arr := t_arr t; t_named := put (B "bin") Nil (t_named t); t_meta := t_meta t |}.
    split; [reflexivity|].
    assert (forall w, ~ In "{"%char w -> ~ In "}"%char w -> strip_braces w = w) as SB.
    { induction w as [|c w IH]; intros N1 N2; [reflexivity|]. unfold strip_braces in *. cbn [filter]. destruct (Ascii.eqb_spec c "{"%char) as [-> |X]; [elim N1; left; reflexivity|].
      destruct (Ascii.eqb_spec c "}"%char) as [-> |Y]; [elim N2; left; reflexivity|]. cbn. rewrite IH; [reflexivity|intros I; apply N1; right; exact I|intros I; apply N2; right; exact I]. }
    split. { intros x [= <-]. f_equal. destruct E as [[-> [N1 N2]]|[-> [N1 N2]]]; [exact (SB s N1 N2)|]. unfold strip_braces in *. cbn [filter Ascii.eqb orb negb]. cbn. rewrite filter_app. cbn. rewrite app_nil_r. exact (SB s' N1 N2). }
    split; [apply keeps_nil_field|]. split; [unfold set_field; rewrite T; exact (upd_same _ _ _ _ T)|]. split; [reflexivity|]. cbn [t_named put]. intros x w I. exact (drop_In _ _ _ _ I).
Qed.

(** tup.frule finds the parts. *)
Lemma frule_spec m i o c f ins exi outs exo b : given_inputs m i ins exi -> given_outputs m o outs exo b ->
  exists m' i' ei o' eo b', frule m {| a_inputs := i; a_extra_inputs := Nil; a_command := c; a_outputs := o; a_extra_outputs := Nil; a_bin := Nil; a_foreach := f |} =
      Ret (m', {| a_inputs := i'; a_extra_inputs := ei; a_command := c; a_outputs := o'; a_extra_outputs := eo; a_bin := b'; a_foreach := f |}) /\
    keeps m m' /\ listing m' i' ins /\ listing m' ei exi /\ listing m' o' outs /\ listing m' eo exo /\ b' = match b with None => Nil | Some x => Str x end.
Proof.
  intros GI GO. unfold frule. cbn [a_inputs a_extra_inputs a_outputs a_extra_outputs a_bin a_command a_foreach].
  assert (exists m1 i1 ei, (if truthy i then let '(m, ei) := take_extra (B "extra_inputs") m i Nil in let '(m, i) := tableize m i in (m, i, ei) else (m, i, Nil)) = (m1, i1, ei) /\
    keeps m m1 /\ listing m1 i1 ins /\ listing m1 ei exi /\
    (forall a t, nth_error m a = Some t -> o = Tab a -> exists t1, nth_error m1 a = Some t1 /\ t_arr t1 = t_arr t /\ (t_named t1 = t_named t \/ t_named t1 = [] /\ i = Tab a))) as [m1 [i1 [ei [E1 [K1 [L1 [L2 O1]]]]]]].
  { destruct GI as [|s|a t ns ex T A ON NN].
    - exists m, Nil, Nil. split; [reflexivity|]. split; [apply keeps_refl|]. split; [constructor; discriminate|]. split; [constructor; discriminate|]. intros a t T _. exists t. auto.
    - exists (m ++ [plain_table [Str s]]), (Tab (length m)), Nil. split; [reflexivity|]. split; [exact (keeps_new m (plain_table [Str s]))|].
      split; [exact (li_tab _ _ (plain_table [Str s]) [s] (new_same m (plain_table [Str s])) eq_refl eq_refl)|]. split; [constructor; discriminate|].
      intros a t T _. exists t. split; [exact (new_other m (plain_table [Str s]) a t T)|auto].
    - cbn [truthy]. destruct (take_extra_spec (B "extra_inputs") m a t Nil ex T NN) as [m1 [e [t1 [E [K [L [T1 [A1 [N1 F1]]]]]]]]]; [discriminate|].
      rewrite E. cbn [tableize]. exists m1, (Tab a), e. split; [reflexivity|]. split; [exact K|].
      assert (t_named t1 = []) as Z. { destruct (t_named t1) as [|[x v] r] eqn:EN; [reflexivity|]. exfalso. destruct (N1 x v (or_introl eq_refl)) as [I N]. destruct (ON x v I) as [X|[]]. congruence. }
      split; [exact (li_tab _ a t1 ns T1 (eq_trans A1 A) Z)|]. split; [exact L|].
      intros a2 t2 T2 _. destruct (Nat.eq_dec a a2) as [<- |NE].
      + rewrite T in T2. injection T2 as <-. exists t1. split; [exact T1|]. split; [exact A1|]. right. auto.
      + (* another table is as before *)
        cbn [take_extra] in E. destruct (truthy (field m a (B "extra_inputs"))).
        * destruct (tableize m (field m a (B "extra_inputs"))) as [m0 e0] eqn:TB. injection E as <- <-. exists t2.
          assert (nth_error m0 a2 = Some t2) as X.
          { destruct (field m a (B "extra_inputs")); cbn [tableize] in TB; injection TB as <- <-; try exact (new_other m _ a2 t2 T2). exact T2. }
          split; [|auto]. unfold set_field. destruct (nth_error m0 a); [|exact X]. rewrite upd_other by exact NE. exact X.
        * injection E as <- <-. exists t2. auto. }
  rewrite E1.
  destruct GO as [|s|a t ns ex b T A ON NN NB].
  - cbn [truthy rbind]. exists m1, i1, ei, Nil, Nil, Nil. split; [reflexivity|]. split; [exact K1|]. split; [exact L1|]. split; [exact L2|]. split; [constructor; discriminate|]. split; [constructor; discriminate|reflexivity].
  - cbn [truthy take_extra take_bin tableize rbind]. unfold new. eexists _, i1, ei, _, Nil, Nil. split; [reflexivity|]. pose proof (keeps_new m1 (plain_table [Str s])) as K2. unfold new in K2. cbn [fst] in K2.
    split; [exact (keeps_trans _ _ _ K1 K2)|]. split; [exact (keeps_listing _ _ _ _ K2 L1)|]. split; [exact (keeps_listing _ _ _ _ K2 L2)|].
    split; [exact (li_tab _ _ (plain_table [Str s]) [s] (new_same m1 (plain_table [Str s])) eq_refl eq_refl)|]. split; [constructor; discriminate|reflexivity].
  - destruct (O1 a t T eq_refl) as [t1 [T1 [A1 N1]]].
    assert (t_named t1 = t_named t) as NE.
    { destruct N1 as [N1|[N1 IA]]; [exact N1|]. rewrite N1. symmetry. destruct (t_named t) as [|[x v] r] eqn:EN; [reflexivity|]. exfalso.
      assert (In x [B "extra_outputs"; B "bin"]) as I1 by (apply (ON x v); rewrite EN; left; reflexivity).
      subst i. inversion GI as [| |a' t' ns' ex' T' A' ON' NN' EA]; subst. rewrite T in T'. injection T' as <-.
      assert (In x [B "extra_inputs"]) as I2 by (apply (ON' x v); rewrite EN; left; reflexivity).
      destruct I2 as [<- |[]]. destruct I1 as [X|[X|[]]]; discriminate X. }
    assert (named_names m1 t1 (B "extra_outputs") ex) as NN1.
    { destruct NN as [F|v ns2 F NI]; [apply nn_none; rewrite NE; exact F|apply (nn_some _ _ _ v); [rewrite NE; exact F|exact (keeps_names _ _ _ _ K1 NI)]]. }
    assert (named_bin t1 b) as NB1.
    { destruct NB as [F|s s' F X]; [apply nb_none; rewrite NE; exact F|apply (nb_some t1 s s'); [rewrite NE; exact F|exact X]]. }
    cbn [truthy]. destruct (take_extra_spec (B "extra_outputs") m1 a t1 Nil ex T1 NN1) as [m2 [eo [t2 [E2 [K2 [LE [T2 [A2 [N2 F2]]]]]]]]]; [discriminate|].
    rewrite E2.
    assert (named_bin t2 b) as NB2.
    { destruct NB1 as [F|s s' F X]; [apply nb_none|apply (nb_some t2 s s'); [|exact X]]; rewrite F2; try exact F; discriminate. }
    destruct (take_bin_spec m2 a t2 Nil b T2 NB2) as [m3 [bv [t3 [E3 [BV [K3 [T3 [A3 N3]]]]]]]]. rewrite E3. cbn [rbind tableize].
    pose proof (keeps_trans _ _ _ K1 (keeps_trans _ _ _ K2 K3)) as K13. pose proof (keeps_trans _ _ _ K2 K3) as K23.
    eexists m3, i1, ei, (Tab a), eo, _. split; [reflexivity|]. split; [exact K13|]. split; [exact (keeps_listing _ _ _ _ K23 L1)|]. split; [exact (keeps_listing _ _ _ _ K23 L2)|].
    split; [|split; [exact (keeps_listing _ _ _ _ K3 LE)|destruct b as [x|]; [exact (BV x eq_refl)|reflexivity]]].
    apply (li_tab _ a t3); [exact T3|congruence|].
    destruct (t_named t3) as [|[x v] r] eqn:EN; [reflexivity|]. exfalso. destruct (N3 x v (or_introl eq_refl)) as [I3 NB3]. destruct (N2 x v I3) as [I2 NX].
    rewrite NE in I2. destruct (ON x v I2) as [X|[X|[]]]; congruence.
Qed.
Lemma set_str_given m i ins exi : given_inputs m i ins exi -> given_inputs (fst (set_string_or_table m i)) (snd (set_string_or_table m i)) ins exi.
Proof.
  intros G. destruct G as [|s|a t ns ex T A ON NN]; cbn [set_string_or_table fst snd].
  - constructor.
  - apply (gi_tab _ (length m) (plain_table [Str s])); [apply new_same|reflexivity|intros k v []|apply nn_none; reflexivity].
  - exact (gi_tab m a t ns ex T A ON NN).
Qed.
Lemma set_str_given_out m i ins exi b : given_outputs m i ins exi b -> given_outputs (fst (set_string_or_table m i)) (snd (set_string_or_table m i)) ins exi b.
Proof.
  intros G. destruct G as [|s|a t ns ex b T A ON NN NB]; cbn [set_string_or_table fst snd].
  - constructor.
  - apply (go_tab _ (length m) (plain_table [Str s])); [apply new_same|reflexivity|intros k v []|apply nn_none; reflexivity|apply nb_none; reflexivity].
  - exact (go_tab m a t ns ex b T A ON NN NB).
Qed.
Lemma exact_names m m' v ns : (forall a t, nth_error m a = Some t -> nth_error m' a = Some t) -> names_in m v ns -> names_in m' v ns.
Proof. intros X N. destruct N as [s|a t ns T A E]; [constructor|]. apply (ni_tab m' a t ns); auto. Qed.
Lemma exact_given_in m m' i ins exi : (forall a t, nth_error m a = Some t -> nth_error m' a = Some t) -> given_inputs m i ins exi -> given_inputs m' i ins exi.
Proof.
  intros X G. destruct G as [|s|a t ns ex T A ON NN]; try constructor. apply (gi_tab m' a t); auto. destruct NN as [F|v ns2 F NI]; [apply nn_none; exact F|apply (nn_some _ _ _ v); [exact F|exact (exact_names _ _ _ _ X NI)]].
Qed.
Lemma exact_given_out m m' i ins exi b : (forall a t, nth_error m a = Some t -> nth_error m' a = Some t) -> given_outputs m i ins exi b -> given_outputs m' i ins exi b.
Proof.
  intros X G. destruct G as [|s|a t ns ex b T A ON NN NB]; try constructor. apply (go_tab m' a t); auto. destruct NN as [F|v ns2 F NI]; [apply nn_none; exact F|apply (nn_some _ _ _ v); [exact F|exact (exact_names _ _ _ _ X NI)]].
Qed.
Lemma set_str_exact m i a t : nth_error m a = Some t -> nth_error (fst (set_string_or_table m i)) a = Some t.
Proof. destruct i; cbn [set_string_or_table fst]; auto. apply new_other. Qed.
Lemma keeps_exact m m' : (forall a t, nth_error m a = Some t -> nth_error m' a = Some t) -> keeps m m'.
Proof. intros X a t T. exists t. auto. Qed.

Lemma args_spec m each a b c i cmd o ins exi outs exo bin : called a b c i cmd o -> given_inputs m i ins exi -> given_outputs m o outs exo bin ->
  exists m0 i0 o0, rule_args m each a b c = Ret (m0, {| a_inputs := i0; a_extra_inputs := Nil; a_command := Str cmd; a_outputs := o0; a_extra_outputs := Nil; a_bin := Nil; a_foreach := if each then Num 1 else Nil |}) /\
    keeps m m0 /\ given_inputs m0 i0 ins exi /\ given_outputs m0 o0 outs exo bin.
Proof.
  intros C GI GO. unfold rule_args. destruct C as [c|c a|a c|i c o NN].
  - cbn. exists m, Nil, Nil. split; [reflexivity|]. split; [apply keeps_refl|auto].
  - cbn. exists m, Nil, (Tab a). split; [reflexivity|]. split; [apply keeps_refl|auto].
  - cbn. exists m, (Tab a), Nil. split; [reflexivity|]. split; [apply keeps_refl|auto].
  - unfold get_abc. destruct (is_nil o) eqn:Z; [destruct o; try discriminate; congruence|].
    destruct (set_string_or_table m i) as [m1 i1] eqn:E1. cbn [set_command rbind]. destruct (set_string_or_table m1 o) as [m2 o2] eqn:E2. cbn [rbind].
    pose proof (set_str_given m i ins exi GI) as G1. rewrite E1 in G1. cbn [fst snd] in G1.
    pose proof (set_str_exact m i) as X1. rewrite E1 in X1. cbn [fst] in X1. pose proof (set_str_exact m1 o) as X2. rewrite E2 in X2. cbn [fst] in X2.
    exists m2, i1, o2. split; [reflexivity|]. split; [apply keeps_exact; auto|]. split; [exact (exact_given_in _ _ _ _ _ X2 G1)|].
    pose proof (set_str_given_out m1 o outs exo bin (exact_given_out _ _ _ _ _ _ X1 GO)) as G2. rewrite E2 in G2. exact G2.
Qed.

(** ** Rules *)
Section parser.
Variable St : Type.
Variable do_rule : St -> request -> outcome St.
Variable resolve : St -> plist -> bool -> outcome (St * list nle).
Variable flags : list nle -> bytes -> option bytes.
Variable ev : St -> list (bytes * res bytes) -> bytes -> option bytes.
Variable add_bin : St -> bytes -> outcome St.
Variable accepts : St -> bytes -> bool.
Variable plain : bytes -> bool.
Variable d : macros.
Variable returned : St -> St -> list bytes.
Notation rule := (rule St do_rule resolve flags ev add_bin accepts plain d returned).
Notation definerule := (definerule St do_rule resolve flags ev add_bin accepts plain d returned).
Notation expand := (path_list_to_nl St resolve flags ev plain).
Notation known := (fun n => find_macro n d).

Lemma numbers_numbered {A} (l : list A) : numbers l = numbered l.
Proof. reflexivity. Qed.
Lemma paths_listing (l : lua St) v ns ns' : listing (tabs St l) v ns -> Forall2 (fun n n' => ev (st St l) (texts St l) n = Some n' /\ accepts (st St l) n' = true) ns ns' -> table_to_path_list St ev accepts l v = Ret (numbered ns').
Proof.
  intros L S. destruct L as [v N|a t ns T A E].
  - inversion S; subst. destruct v; try reflexivity. elim (N a). reflexivity.
  - cbn [table_to_path_list]. rewrite T. unfold items. rewrite E. cbn [rbind]. rewrite A.
    assert (rmap (path_of St ev accepts l) (map Str ns) = Ret ns') as ->; [|reflexivity].
    clear A E T. induction S as [|n n' ns ns' [E A] S IH]; [reflexivity|]. cbn [map rmap]. unfold path_of at 1. cbn [tostr scalar rbind]. rewrite E. cbn [of_option rbind]. rewrite A. cbn [rbind]. rewrite IH. reflexivity.
Qed.
Lemma settled_stands l ns : settled St ev accepts (st St l) ns -> stands_for St ev accepts l ns ns.
Proof. unfold settled, stands_for. intros H. induction H as [|n ns [E A] H IH]; constructor; [split; auto|exact IH]. Qed.
Lemma settled_app s a b : settled St ev accepts s (a ++ b) -> settled St ev accepts s a /\ settled St ev accepts s b.
Proof. unfold settled. intros H. apply Forall_app in H. exact H. Qed.
Lemma sees_keeps (l : lua St) m : keeps (tabs St l) m -> sees St l (texts St (set_tabs St l m)).
Proof.
  intros K. unfold sees, texts. cbn [set_tabs tabs]. change (top St (set_tabs St l m)) with (top St l). induction (f_vars (top St l)) as [|[x v] r IH]; cbn [map]; constructor; [|exact IH].
  cbn [fst snd]. split; [reflexivity|]. intros t E. exact (keeps_copy _ _ _ _ K E).
Qed.
Lemma of_outcome_ret {A} (o : outcome A) a : of_outcome o = Ret a <-> o = Ok a.
Proof. destruct o; cbn; split; congruence. Qed.
Lemma numbered_nil {A} (l : list A) : match numbered l with [] => true | _ => false end = match l with [] => true | _ => false end.
Proof. destruct l; reflexivity. Qed.

Lemma rule_spec (l : lua St) each a b c i cmd o ins0 exi0 outs0 exo0 ins exi outs exo bin :
  called a b c i cmd o -> given_inputs (tabs St l) i ins0 exi0 -> given_outputs (tabs St l) o outs0 exo0 bin ->
  stands_for St ev accepts l ins0 ins -> stands_for St ev accepts l exi0 exi -> stands_for St ev accepts l outs0 outs -> stands_for St ev accepts l exo0 exo ->
  exists vs, sees St l vs /\ forall l' v,
  (rule l each a b c = Ret (l', v) ->
   exists s0 s1 nl, with_bin St add_bin bin (st St l) s0 /\ resolve s0 (numbered ins) (bytes_eqb cmd (B "!tup_preserve")) = Ok (s1, nl) /\
     rule_does St do_rule (expand vs) plain known (asked_rule each bin cmd nl ins exi outs exo) s1 (st St l') /\
     frames St l' = frames St l /\ globs St l' = globs St l /\
     (exists x, v = Tab x /\ names_in (tabs St l') (Tab x) (returned s1 (st St l'))) /\ keeps (tabs St l) (tabs St l')) /\
  (forall s0 s1 nl s2, with_bin St add_bin bin (st St l) s0 -> resolve s0 (numbered ins) (bytes_eqb cmd (B "!tup_preserve")) = Ok (s1, nl) ->
     rule_does St do_rule (expand vs) plain known (asked_rule each bin cmd nl ins exi outs exo) s1 s2 ->
     exists l' v, rule l each a b c = Ret (l', v) /\ st St l' = s2).
Proof.
  intros C GI GO S1 S2 S3 S4. destruct (args_spec _ each _ _ _ _ _ _ _ _ _ _ _ C GI GO) as [m0 [i0 [o0 [EA [K0 [GI0 GO0]]]]]].
  destruct (frule_spec m0 i0 o0 (Str cmd) (if each then Num 1 else Nil) _ _ _ _ _ GI0 GO0) as [m1 [i1 [ei [o1 [eo [b1 [EF [K1 [L1 [L2 [L3 [L4 ->]]]]]]]]]]]].
  unfold rule. rewrite EA. cbn [rbind fst snd]. rewrite EF. cbn [rbind fst snd].
  exists (texts St (set_tabs St l m1)). pose proof (sees_keeps l m1 (keeps_trans _ _ _ K0 K1)) as SK. split; [exact SK|].
  assert (forall ns ns', stands_for St ev accepts l ns ns' -> Forall2 (fun n n' => ev (st St (set_tabs St l m1)) (texts St (set_tabs St l m1)) n = Some n' /\ accepts (st St (set_tabs St l m1)) n' = true) ns ns') as ST.
  { intros ns ns' H. induction H as [|n n' r r' [E A] H IH]; constructor; [split; [exact (E _ SK)|exact A]|exact IH]. }
  apply ST in S1, S2, S3, S4. clear ST.
  set (l1 := set_tabs St l m1). change (st St l) with (st St l1) in *. change (frames St l) with (frames St l1). change (globs St l) with (globs St l1).
  unfold definerule. cbn [a_inputs a_extra_inputs a_outputs a_extra_outputs a_bin a_command a_foreach].
  rewrite (paths_listing l1 i1 ins0 ins L1 S1). cbn [rbind]. rewrite (paths_listing l1 ei exi0 exi L2 S2). cbn [rbind]. rewrite (paths_listing l1 o1 outs0 outs L3 S3). cbn [rbind]. rewrite (paths_listing l1 eo exo0 exo L4 S4). cbn [rbind].
  assert ((match match bin with None => Nil | Some x => Str x end with Nil => Ret None | v => rbind (tostr (tabs St l1) v) (fun b => Ret (Some b)) end) = Ret bin) as -> by (destruct bin; reflexivity).
  cbn [rbind tostr scalar].
  assert (truthy (if each then Num 1 else Nil) = each) as -> by (destruct each; reflexivity). rewrite numbered_nil.
  intros l' v. split.
  - intros E. apply rbind_ret in E. destruct E as [s0 [E0 E]]. apply rbind_ret in E. destruct E as [[s1 nl] [E1 E]].
    apply rbind_ret in E. destruct E as [s2 [E2 E]]. apply of_outcome_ret in E0. apply of_outcome_ret in E1. apply of_outcome_ret in E2.
    destruct (new (tabs St l1) (plain_table (map Str (returned s1 s2)))) as [m2 v2] eqn:EN. injection E as <- <-.
    exists s0, s1, nl. split; [unfold with_bin; destruct bin; congruence|]. split; [exact E1|]. split.
    { cbn [set_st st]. exact (proj1 (execute_ok St do_rule (expand (texts St l1)) plain d (asked_rule each bin cmd nl ins exi outs exo) s1 s2) E2). }
    split; [reflexivity|]. split; [reflexivity|]. unfold new in EN. injection EN as <- <-. split.
    + exists (length (tabs St l1)). split; [reflexivity|]. cbn [set_st set_tabs tabs st].
      apply (ni_tab _ _ (plain_table (map Str (returned s1 s2)))); [exact (new_same (tabs St l1) (plain_table (map Str (returned s1 s2))))|reflexivity|reflexivity].
    + cbn [set_st set_tabs tabs]. exact (keeps_trans _ _ _ (keeps_trans _ _ _ K0 K1) (keeps_new m1 (plain_table (map Str (returned s1 s2))))).
  - intros s0 s1 nl s2 W R X.
    assert ((match bin with None => Ok (st St l1) | Some b => add_bin (st St l1) b end) = Ok s0) as -> by (unfold with_bin in W; destruct bin; congruence).
    cbn [of_outcome rbind]. rewrite R. cbn [of_outcome rbind].
    pose proof (proj2 (execute_ok St do_rule (expand (texts St l1)) plain d (asked_rule each bin cmd nl ins exi outs exo) s1 s2) X) as E2. unfold rule_of, asked_rule in E2. cbn [w_each w_bin w_command w_more w_inputs w_nothing w_oo w_outputs w_extra] in E2. rewrite E2.
    cbn [of_outcome rbind]. unfold new. eexists _, _. split; reflexivity.
Qed.

(** The same from a line of a Tupfile. *)
Lemma eval_settled vs s nl names : (forall n, In n names -> ev s vs n = Some n) -> nl = None ->
  forall k, eval_path_list St flags ev plain vs s nl (combine names (seq k (length names))) = Ok (combine names (seq k (length names))).
Proof.
  intros S ->. induction names as [|n names IH]; intros k; [reflexivity|]. cbn [length seq combine eval_path_list]. unfold eval_path. cbn [fst snd].
  rewrite (S n (or_introl eq_refl)). rewrite bytes_eqb_refl. cbn [obind]. rewrite IH by (intros m I; apply S; right; exact I). reflexivity.
Qed.
Lemma rule_text (l : lua St) each a b c i cmd o ins exi outs exo bin p it ot nothing :
  called a b c i cmd o -> given_inputs (tabs St l) i ins exi -> given_outputs (tabs St l) o outs exo bin ->
  (forall s, settled St ev accepts s (ins ++ exi ++ outs ++ exo)) -> short_names (fun _ => true) (ins ++ exi ++ outs ++ exo) -> Forall (fun n => plain n = true) (outs ++ exo) ->
  (forall s k, resolve s [] k = Ok (s, [])) ->
  rule_line p it cmd ot bin -> inputs_text it each nothing ins exi -> (nothing = true <-> ins = []) -> outputs_text ot outs exo -> command_text cmd cmd None ->
  exists vs, sees St l vs /\ forall s',
    (exists l' v, rule l each a b c = Ret (l', v) /\ st St l' = s') <->
    parse_rule St do_rule (expand vs) add_bin accepts plain d (st St l) p = Ok s'.
Proof.
  intros C GI GO SE SH PL RN RL IT NO OT CT.
  assert (stands_for St ev accepts l ins ins /\ stands_for St ev accepts l exi exi /\ stands_for St ev accepts l outs outs /\ stands_for St ev accepts l exo exo) as [Q1 [Q2 [Q3 Q4]]].
  { pose proof (SE (st St l)) as X. apply settled_app in X. destruct X as [X1 X]. apply settled_app in X. destruct X as [X2 X]. apply settled_app in X. destruct X as [X3 X4]. auto using settled_stands. }
  destruct (rule_spec l each a b c i cmd o ins exi outs exo ins exi outs exo bin C GI GO Q1 Q2 Q3 Q4) as [vs [SV R]]. exists vs. split; [exact SV|]. intros s'.
  assert (nothing = match ins with [] => true | _ => false end) as EN.
  { destruct ins as [|n r]; [exact (proj2 NO eq_refl)|]. destruct nothing; [discriminate (proj1 NO eq_refl)|reflexivity]. }
  unfold short_names in SH. rewrite Forall_forall in SH.
  assert (forall s n, In n (ins ++ exi ++ outs ++ exo) -> (forall vs, ev s vs n = Some n) /\ accepts s n = true) as SE2.
  { intros s n I. pose proof (SE s) as X. unfold settled in X. rewrite Forall_forall in X. exact (X n I). }
  assert (forall s, expand vs s (numbered ins) None (bytes_eqb cmd (B "!tup_preserve")) = resolve s (numbered ins) (bytes_eqb cmd (B "!tup_preserve"))) as EX.
  { intros s. unfold path_list_to_nl, numbered. rewrite (eval_settled vs s None ins); [reflexivity| |reflexivity]. intros n I. apply SE2. apply in_or_app. left. exact I. }
  assert (forall s0 s1 nl, with_bin St add_bin bin (st St l) s0 -> resolve s0 (numbered ins) (bytes_eqb cmd (B "!tup_preserve")) = Ok (s1, nl) ->
    reads_as St (expand vs) add_bin accepts plain (st St l) p s1 (asked_rule each bin cmd nl ins exi outs exo)) as RA.
  { intros s0 s1 nl WB RS. unfold asked_rule. rewrite <- EN. apply (ra St (expand vs) add_bin accepts plain (st St l) p it cmd ot bin s0 each nothing ins exi s1 nl outs exo cmd None); auto.
    - unfold short_names. rewrite Forall_forall. intros n I. assert (In n (ins ++ exi ++ outs ++ exo)) as I2 by (apply in_app_or in I; destruct I; [apply in_or_app; left; exact H|apply in_or_app; right; apply in_or_app; left; exact H]).
      split; [exact (proj2 (SE2 s0 n I2))|exact (proj2 (SH n I2))].
    - destruct it as [x|]; [right; split; [discriminate|rewrite EX; exact RS]|]. left. inversion IT; subst. rewrite RN in RS. injection RS as <- <-. auto.
    - unfold short_names. rewrite Forall_forall in PL |- *. intros n I. split; [exact (PL n I)|]. apply SH. apply in_or_app. right. apply in_or_app. right. exact I. }
  split.
  - intros [l' [v [E <-]]]. destruct (proj1 (R l' v) E) as [s0 [s1 [nl [WB [RS [RD _]]]]]].
    exact (proj2 (parse_rule_reads St do_rule (expand vs) add_bin accepts plain d _ _ _ _ _ (RA s0 s1 nl WB RS)) RD).
  - intros P.
    (* the bin and the inputs succeed *)
    assert (exists s0, with_bin St add_bin bin (st St l) s0) as [s0 WB].
    { unfold parse_rule in P. apply split_line_spec in RL. rewrite RL in P. unfold with_bin. destruct bin as [x|]; [|eauto]. destruct (add_bin (st St l) x) as [s0| | |] eqn:E; [exists s0; reflexivity|discriminate P..]. }
    assert (exists s1 nl, resolve s0 (numbered ins) (bytes_eqb cmd (B "!tup_preserve")) = Ok (s1, nl)) as [s1 [nl RS]].
    { destruct it as [x|]; [|inversion IT; subst; rewrite RN; eauto].
      unfold parse_rule in P. apply split_line_spec in RL. rewrite RL in P.
      assert ((match bin with None => Ok (st St l) | Some b => add_bin (st St l) b end) = Ok s0) as EB by (unfold with_bin in WB; destruct bin; congruence).
      rewrite EB in P. cbn [obind] in P. destruct (inputs_take _ _ _ _ _ IT x eq_refl) as [r [T [NN PP]]]. rewrite T in P. cbn iota in P.
      rewrite (PP (accepts s0)) in P.
      - cbn [obind] in P. rewrite EX in P. destruct (resolve s0 (numbered ins) _) as [[s1 nl]| | |] eqn:E; [eauto|discriminate P..].
      - unfold short_names. rewrite Forall_forall. intros n I. assert (In n (ins ++ exi ++ outs ++ exo)) as I2 by (apply in_app_or in I; destruct I; [apply in_or_app; left; exact H|apply in_or_app; right; apply in_or_app; left; exact H]).
        split; [exact (proj2 (SE2 s0 n I2))|exact (proj2 (SH n I2))]. }
    pose proof (proj1 (parse_rule_reads St do_rule (expand vs) add_bin accepts plain d _ _ _ _ _ (RA s0 s1 nl WB RS)) P) as RD.
    exact (proj2 (R l Nil) s0 s1 nl s' WB RS RD).
Qed.

Lemma rule_rejects (l : lua St) each a b c : (forall i cmd o, ~ called a b c i cmd o) -> rule l each a b c = Error.
Proof.
  intros N. unfold rule, rule_args, get_abc.
  destruct c as [|cb|cn|cs|ca]; cbn [is_nil].
  2-5: destruct b as [|bb|bn|bs|ba]; cbn [set_command]; try (destruct (set_string_or_table (tabs St l) a); reflexivity); exfalso; eapply N; apply ca_ico; discriminate.
  destruct b as [|bb|bn|bs|ba], a as [|ab|an|sa|aa]; try reflexivity; exfalso; eapply N; constructor.
Qed.
End parser.

(** ** _G *)
Section quiet.
Variable St : Type.
Variable do_rule : St -> request -> outcome St.
Variable resolve : St -> plist -> bool -> outcome (St * list nle).
Variable flags : list nle -> bytes -> option bytes.
Variable ev : St -> list (bytes * res bytes) -> bytes -> option bytes.
Variable add_bin : St -> bytes -> outcome St.
Variable accepts : St -> bytes -> bool.
Variable plain : bytes -> bool.
Variable d : macros.
Variable returned : St -> St -> list bytes.
Variable getenv : bytes -> option bytes.
Notation eval_expr := (eval_expr St do_rule resolve flags ev add_bin accepts plain d returned).
Notation exec := (exec St do_rule resolve flags ev add_bin accepts plain d returned getenv).
Notation exec_all := (exec_all St do_rule resolve flags ev add_bin accepts plain d returned getenv).
Notation definerule := (definerule St do_rule resolve flags ev add_bin accepts plain d returned).
Lemma definerule_globs l a l' v : definerule l a = Ret (l', v) -> globs St l' = globs St l.
Proof.
  intros E. unfold LuaModel.definerule in E.
  do 8 (apply rbind_ret in E; destruct E as [? [_ E]]). destruct x6 as [s1 nl]. apply rbind_ret in E. destruct E as [s2 [_ E]].
  destruct (new _ _) in E. injection E as <- _. reflexivity.
Qed.
Lemma quiet_eval l e l' v : quiet_expr e -> eval_expr l e = Ret (l', v) -> globs St l' = globs St l.
Proof.
  intros Q E. destruct e as [a|items fields|a k|a|a|a|each a b c|i ei c o eo b f]; cbn [LuaModel.eval_expr] in E.
  - injection E as <- _. reflexivity.
  - destruct (forallb _ _); [|discriminate]. destruct (new _ _) in E. injection E as <- _. reflexivity.
  - destruct (atom_val St l a); try discriminate. injection E as <- _. reflexivity.
  - apply rbind_ret in E. destruct E as [s [_ E]]. injection E as <- _. reflexivity.
  - apply rbind_ret in E. destruct E as [s [_ E]]. injection E as <- _. reflexivity.
  - elim (Q a). reflexivity.
  - unfold LuaModel.rule in E. apply rbind_ret in E. destruct E as [x [_ E]]. apply rbind_ret in E. destruct E as [y [_ E]]. exact (definerule_globs _ _ _ _ E).
  - apply rbind_ret in E. destruct E as [y [_ E]]. exact (definerule_globs _ _ _ _ E).
Qed.
Lemma quiet_exec s : forall l l', quiet s -> exec l s = Ret l' -> globs St l' = globs St l.
Proof.
  induction s as [x e|x e|x k a|n|b IH] using stmt_ind'; intros l l' Q E.
  - inversion Q; subst. cbn [LuaModel.exec] in E. apply rbind_ret in E. destruct E as [[l1 v] [E1 E]]. injection E as <-. exact (quiet_eval _ _ _ _ H0 E1).
  - inversion Q; subst. cbn [LuaModel.exec] in E. apply rbind_ret in E. destruct E as [[l1 v] [E1 E]]. apply rbind_ret in E. destruct E as [q [_ E]]. injection E as <-. exact (quiet_eval _ _ _ _ H0 E1).
  - cbn [LuaModel.exec] in E. destruct (get_var St l x); try discriminate. injection E as <-. reflexivity.
  - inversion Q.
  - inversion Q as [| | |b' F]; subst. rewrite exec_other in E. apply rbind_ret in E. destruct E as [l1 [E1 E]]. injection E as <-. cbn [pop globs].
    change (globs St l) with (globs St (push St l)). generalize dependent (push St l). intros l0 E1. revert l0 E1. clear Q.
    induction b as [|s b IHb]; intros l0 E1; cbn [LuaModel.exec_all] in E1; [injection E1 as <-; reflexivity|].
    apply rbind_ret in E1. destruct E1 as [l2 [E2 E1]]. inversion IH; subst. inversion F; subst. rewrite (IHb H2 H4 l2 E1). exact (H1 _ _ H3 E2).
Qed.
End quiet.

(** ** Names *)
Lemma sep_iff c : is_sep c = true <-> separator c.
Proof. unfold is_sep, separator. cbn [In]. rewrite Bool.orb_true_iff, !Ascii.eqb_eq. intuition congruence. Qed.
Lemma past_none s : (forall c, In c s -> ~ separator c) -> past_sep s = None.
Proof. induction s as [|c s IH]; intros N; [reflexivity|]. cbn. destruct (is_sep c) eqn:E; [elim (N c (or_introl eq_refl)); apply sep_iff; exact E|]. apply IH. intros x I. apply N. right; exact I. Qed.
Lemma file_none fuel s : (forall c, In c s -> ~ separator c) -> file_loop fuel s = s.
Proof.
  revert s. induction fuel as [|fuel IH]; intros s N; [reflexivity|]. cbn [file_loop]. destruct s as [|c t]; [reflexivity|]. rewrite past_none by exact N. f_equal. apply IH. intros x I. apply N. right; exact I.
Qed.
Lemma past_some e c r : separator c -> exists e', past_sep (e ++ c :: r) = Some (e' ++ r) /\ length e' <= length e /\ directory_part e'.
Proof.
  intros SC. induction e as [|x e IH]; cbn.
  - rewrite (proj2 (sep_iff c) SC). exists []. split; [reflexivity|]. split; [cbn; lia|left; reflexivity].
  - destruct (is_sep x) eqn:E.
    + exists (e ++ [c]). rewrite <- app_assoc. split; [reflexivity|]. rewrite app_length. cbn. split; [lia|]. right. exists e, c. auto.
    + destruct IH as [e' [-> [L P]]]. exists e'. split; [reflexivity|]. split; [lia|exact P].
Qed.
Lemma file_spec d n : directory_part d -> (forall c, In c n -> ~ separator c) -> tup_file (d ++ n) = n.
Proof.
  intros D N. unfold tup_file. remember (S (length (d ++ n))) as fuel eqn:EF. assert (length d < fuel) as L by (subst; rewrite app_length; lia). clear EF.
  revert d D L. induction fuel as [|fuel IH]; intros d D L; [lia|]. destruct D as [-> |[e [c [-> SC]]]]; [exact (file_none _ _ N)|].
  rewrite <- app_assoc. cbn [app]. destruct (past_some e c n SC) as [e' [P [LE DE]]]. cbn [file_loop]. rewrite P.
  destruct (e ++ c :: n) eqn:X; [destruct e; discriminate|]. apply IH; [exact DE|]. rewrite app_length in L. cbn in L. lia.
Qed.
Lemma alnum_in c : In c (list_ascii_of_string "0123456789ABCDEFGHIJKLMNOPQRSTUVWXYZabcdefghijklmnopqrstuvwxyz") -> is_alnum c = true.
Proof.
  assert (Forall (fun c => is_alnum c = true) (list_ascii_of_string "0123456789ABCDEFGHIJKLMNOPQRSTUVWXYZabcdefghijklmnopqrstuvwxyz")) as F by (apply Forall_forall, forallb_forall; vm_compute; reflexivity).
  rewrite Forall_forall in F. exact (F c).
Qed.
Lemma dot_end_last p x : letters_and_digits x -> dot_end (p ++ "."%char :: x) = Some (p, x).
Proof.
  intros X. assert (forallb is_alnum x = true) as A by (apply forallb_forall; intros c I; unfold letters_and_digits in X; rewrite Forall_forall in X; exact (alnum_in c (X c I))).
  induction p as [|c p IH]; cbn [app dot_end].
  - rewrite A. reflexivity.
  - rewrite IH. replace ((c =?c "."%char) && forallb is_alnum (p ++ "."%char :: x)) with false; [reflexivity|]. rewrite forallb_app. cbn. rewrite !Bool.andb_false_r. reflexivity.
Qed.
Lemma dot_end_none s : ~ In "."%char s -> dot_end s = None.
Proof. induction s as [|c s IH]; intros N; [reflexivity|]. cbn. destruct (Ascii.eqb_spec c "."%char) as [-> |NE]; [elim N; left; reflexivity|]. cbn. rewrite IH; [reflexivity|]. intros I; apply N; right; exact I. Qed.
