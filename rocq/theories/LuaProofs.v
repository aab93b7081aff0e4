(** Running a Tupfile inside another one: everything in LuaModel.v commutes with
    putting other tables and other Tupfiles underneath. *)
From Verif Require Import Base ConfigModel ParseModel TextModel MacroModel LuaModel.

Lemma rbind_ret {A C} (r : res A) (f : A -> res C) c : rbind r f = Ret c <-> exists a, r = Ret a /\ f a = Ret c.
Proof. destruct r; cbn; split; try discriminate; try (intros [a [X _]]; discriminate). - intros H. eauto. - intros [x [X Y]]. congruence. Qed.

Definition sh (n : nat) (v : val) : val := match v with Tab a => Tab (n + a) | v => v end.
Definition shn (n : nat) (l : list (bytes * val)) : list (bytes * val) := map (fun e => (fst e, sh n (snd e))) l.
Definition sht (n : nat) (t : table) : table := {| t_arr := map (sh n) (t_arr t); t_named := shn n (t_named t); t_meta := t_meta t |}.
Definition shf (n : nat) (f : frame) : frame := {| f_vars := shn n (f_vars f); f_env := f_env f |}.
Definition em (H m : mem) : mem := H ++ map (sht (length H)) m.
Definition mapr {A C} (f : A -> C) (r : res A) : res C := match r with Ret a => Ret (f a) | Error => Error | Unknown => Unknown end.

Lemma mapr_rbind {A A' C C'} (f : A -> A') (g : C -> C') r k k' :
  (forall a, k' (f a) = mapr g (k a)) -> rbind (mapr f r) k' = mapr g (rbind r k).
Proof. intros E. destruct r; cbn; auto. Qed.
Lemma mapr_id {A} (r : res A) : mapr (fun x => x) r = r.
Proof. destruct r; reflexivity. Qed.

Section shift.
Variable H : mem.
Notation n := (length H).
Lemma em_nth m a : nth_error (em H m) (n + a) = option_map (sht n) (nth_error m a).
Proof. unfold em. rewrite nth_error_app2 by lia. replace (n + a - n) with a by lia. rewrite nth_error_map. reflexivity. Qed.
Lemma em_length m : length (em H m) = n + length m.
Proof. unfold em. rewrite app_length, map_length. reflexivity. Qed.
Lemma upd_app (P m : mem) a t : upd (P ++ m) (length P + a) t = P ++ upd m a t.
Proof. induction P as [|x P IH]; [reflexivity|cbn; f_equal; exact IH]. Qed.
Lemma upd_map (f : table -> table) m a t : upd (map f m) a (f t) = map f (upd m a t).
Proof. revert a. induction m as [|x m IH]; intros [|a]; cbn; try reflexivity. f_equal. apply IH. Qed.
Lemma em_upd m a t : upd (em H m) (n + a) (sht n t) = em H (upd m a t).
Proof. unfold em. rewrite upd_app, upd_map. reflexivity. Qed.
Lemma em_new m t : new (em H m) (sht n t) = (em H (fst (new m t)), sh n (snd (new m t))).
Proof. unfold new. cbn [fst snd sh]. rewrite em_length. f_equal. unfold em. rewrite map_app, app_assoc. reflexivity. Qed.
Lemma shn_drop k l : drop k (shn n l) = shn n (drop k l).
Proof. unfold drop, shn. induction l as [|[x v] l IH]; [reflexivity|]. cbn. destruct (negb (bytes_eqb x k)); cbn; rewrite IH; reflexivity. Qed.
Lemma shn_put k v l : put k (sh n v) (shn n l) = shn n (put k v l).
Proof. destruct v; cbn [put sh]; rewrite shn_drop; reflexivity. Qed.
Lemma shn_find k l : find_var k (shn n l) = option_map (sh n) (find_var k l).
Proof. induction l as [|[x v] l IH]; [reflexivity|]. cbn. destruct (bytes_eqb x k); [reflexivity|exact IH]. Qed.
Lemma shn_got k l : got k (shn n l) = sh n (got k l).
Proof. unfold got. rewrite shn_find. destruct (find_var k l); reflexivity. Qed.
Lemma em_field m a k : field (em H m) (n + a) k = sh n (field m a k).
Proof. unfold field. rewrite em_nth. destruct (nth_error m a) as [t|]; [apply shn_got|reflexivity]. Qed.
Lemma em_set_field m a k v : set_field (em H m) (n + a) k (sh n v) = em H (set_field m a k v).
Proof.
  unfold set_field. rewrite em_nth. destruct (nth_error m a) as [t|]; [|reflexivity]. cbn [option_map sht t_named t_arr t_meta].
  rewrite shn_put. exact (em_upd m a {| t_arr := t_arr t; t_named := put k v (t_named t); t_meta := t_meta t |}).
Qed.
Lemma sh_scalar v : scalar (sh n v) = scalar v.
Proof. destruct v; reflexivity. Qed.
Lemma rmap_ext {A A' C} (f : A -> res C) (g : A' -> res C) h l : (forall a, g (h a) = f a) -> rmap g (map h l) = rmap f l.
Proof. intros E. induction l as [|a l IH]; [reflexivity|]. cbn. rewrite E, IH. reflexivity. Qed.
Lemma em_tostr m v : tostr (em H m) (sh n v) = tostr m v.
Proof.
  destruct v; try reflexivity. cbn [sh tostr]. rewrite em_nth. destruct (nth_error m a) as [t|]; [|reflexivity].
  cbn [option_map sht t_meta t_arr]. destruct (t_meta t); [|reflexivity]. rewrite (rmap_ext scalar scalar (sh n)); [reflexivity|apply sh_scalar].
Qed.
Lemma sh_items t : items (sht n t) = mapr (map (sh n)) (items t).
Proof. unfold items. cbn [sht t_named]. destruct (t_named t); reflexivity. Qed.
Lemma sh_truthy v : truthy (sh n v) = truthy v.
Proof. destruct v as [|[]| | |]; reflexivity. Qed.
Definition emv (p : mem * val) : mem * val := (em H (fst p), sh n (snd p)).
Lemma em_plain l : sht n (plain_table l) = plain_table (map (sh n) l).
Proof. reflexivity. Qed.

Lemma em_append m a b : append_assignment (em H m) (sh n a) (sh n b) = mapr emv (append_assignment m a b).
Proof.
  unfold append_assignment.
  set (pick := fun (m : mem) (a : val) => match a with Str _ => Some (new m (plain_table [a])) | Tab _ => Some (m, a) | Nil => Some (new m (plain_table [])) | _ => None end).
  change (match sh n a with Str _ => Some (new (em H m) (plain_table [sh n a])) | Tab _ => Some (em H m, sh n a) | Nil => Some (new (em H m) (plain_table [])) | _ => None end) with (pick (em H m) (sh n a)).
  change (match a with Str _ => Some (new m (plain_table [a])) | Tab _ => Some (m, a) | Nil => Some (new m (plain_table [])) | _ => None end) with (pick m a).
  assert (pick (em H m) (sh n a) = option_map emv (pick m a)) as ->.
  { destruct a; cbn [pick sh option_map]; try reflexivity.
    - f_equal. exact (em_new m (plain_table [])).
    - f_equal. exact (em_new m (plain_table [Str s])). }
  destruct (pick m a) as [[m1 v1]|]; [|reflexivity]. cbn [option_map emv fst snd]. destruct v1; try reflexivity. cbn [sh].
  rewrite em_nth. destruct (nth_error m1 a0) as [t|]; [|reflexivity]. cbn [option_map].
  destruct b as [|b|k|s|y]; cbn [sh]; try reflexivity.
  - cbn [mapr]. unfold emv. cbn [fst snd sh]. rewrite <- em_upd. unfold sht. cbn [t_arr t_named t_meta]. rewrite map_app. reflexivity.
  - cbn [mapr]. unfold emv. cbn [fst snd sh]. rewrite <- em_upd. unfold sht. cbn [t_arr t_named t_meta]. rewrite map_app. reflexivity.
  - rewrite em_nth. destruct (nth_error m1 y) as [u|]; [|reflexivity]. cbn [option_map mapr]. unfold emv. cbn [fst snd sh]. rewrite <- em_upd.
    unfold sht. cbn [t_arr t_named t_meta]. rewrite map_app. reflexivity.
Qed.

Definition sha (a : args) : args :=
  {| a_inputs := sh n (a_inputs a); a_extra_inputs := sh n (a_extra_inputs a); a_command := sh n (a_command a); a_outputs := sh n (a_outputs a);
     a_extra_outputs := sh n (a_extra_outputs a); a_bin := sh n (a_bin a); a_foreach := sh n (a_foreach a) |}.
Definition ema (p : mem * args) : mem * args := (em H (fst p), sha (snd p)).
Lemma em_tableize m v : tableize (em H m) (sh n v) = emv (tableize m v).
Proof.
  destruct v as [|b|k|s|a]; cbn [tableize sh].
  - exact (em_new m (plain_table [Nil])).
  - exact (em_new m (plain_table [Bool b])).
  - exact (em_new m (plain_table [Num k])).
  - exact (em_new m (plain_table [Str s])).
  - reflexivity.
Qed.
Lemma em_take_extra k m v old : take_extra k (em H m) (sh n v) (sh n old) = emv (take_extra k m v old).
Proof.
  destruct v; try reflexivity. cbn [take_extra sh]. rewrite em_field, sh_truthy. destruct (truthy (field m a k)); [|reflexivity].
  rewrite em_tableize. destruct (tableize m (field m a k)) as [m1 e]. cbn [emv fst snd].
  unfold emv. cbn [fst snd]. f_equal. exact (em_set_field m1 a k Nil).
Qed.
Lemma em_take_bin m v old : take_bin (em H m) (sh n v) (sh n old) = mapr emv (take_bin m v old).
Proof.
  destruct v; try reflexivity. cbn [take_bin sh]. rewrite em_field, sh_truthy. destruct (truthy (field m a (B "bin"))); [|reflexivity].
  destruct (field m a (B "bin")); try reflexivity. cbn [sh mapr emv fst snd]. unfold emv. cbn [fst snd sh]. do 2 f_equal. exact (em_set_field m a (B "bin") Nil).
Qed.
Lemma em_frule m a : frule (em H m) (sha a) = mapr ema (frule m a).
Proof.
  unfold frule. cbn [sha a_inputs a_outputs a_extra_inputs a_extra_outputs a_bin a_command a_foreach].
  rewrite !sh_truthy.
  assert (forall T (K : mem -> val -> val -> T),
    (let '(m, i, ei) := if truthy (a_inputs a) then
        let '(m, ei) := take_extra (B "extra_inputs") (em H m) (sh n (a_inputs a)) (sh n (a_extra_inputs a)) in
        let '(m, i) := tableize m (sh n (a_inputs a)) in (m, i, ei) else (em H m, sh n (a_inputs a), sh n (a_extra_inputs a)) in K m i ei) =
    (let '(m, i, ei) := if truthy (a_inputs a) then
        let '(m, ei) := take_extra (B "extra_inputs") m (a_inputs a) (a_extra_inputs a) in
        let '(m, i) := tableize m (a_inputs a) in (m, i, ei) else (m, a_inputs a, a_extra_inputs a) in K (em H m) (sh n i) (sh n ei))) as E1.
  { intros T K. destruct (truthy (a_inputs a)); [|reflexivity]. rewrite em_take_extra.
    destruct (take_extra (B "extra_inputs") m (a_inputs a) (a_extra_inputs a)) as [m1 ei]. cbn [emv fst snd].
    rewrite em_tableize. destruct (tableize m1 (a_inputs a)) as [m2 i]. reflexivity. }
  rewrite E1.
  destruct (if truthy (a_inputs a) then
        let '(m, ei) := take_extra (B "extra_inputs") m (a_inputs a) (a_extra_inputs a) in
        let '(m, i) := tableize m (a_inputs a) in (m, i, ei) else (m, a_inputs a, a_extra_inputs a)) as [[m1 i] ei].
  set (body := fun (m : mem) (o eo b : val) => if truthy o then
      let '(m, eo) := take_extra (B "extra_outputs") m o eo in
      rbind (take_bin m o b) (fun x => let '(m, b) := x in let '(m, o) := tableize m o in Ret (m, o, eo, b)) else Ret (m, o, eo, b)).
  assert (forall m o eo b, body (em H m) (sh n o) (sh n eo) (sh n b) = mapr (fun x : mem * val * val * val => let '(m, o, eo, b) := x in (em H m, sh n o, sh n eo, sh n b)) (body m o eo b)) as E2.
  { intros m' o eo b. unfold body. rewrite sh_truthy. destruct (truthy o); [|reflexivity]. rewrite em_take_extra.
    destruct (take_extra (B "extra_outputs") m' o eo) as [m2 eo2]. cbn [emv fst snd]. rewrite em_take_bin.
    destruct (take_bin m2 o b) as [[m3 b3]| |]; [|reflexivity|reflexivity]. cbn [mapr rbind emv fst snd]. rewrite em_tableize.
    destruct (tableize m3 o) as [m4 o4]. reflexivity. }
  specialize (E2 m1 (a_outputs a) (a_extra_outputs a) (a_bin a)). unfold body in E2. rewrite sh_truthy in E2. rewrite E2.
  match goal with |- rbind (mapr _ ?r) _ = mapr _ (rbind ?r' _) => change r' with r; destruct r as [[[[m2 o] eo] b]| |]; reflexivity end.
Qed.
Lemma em_get_abc m a b c : get_abc (em H m) (sh n a) (sh n b) (sh n c) =
  mapr (fun x : mem * (val * val * val) => let '(m, (i, cmd, o)) := x in (em H m, (sh n i, sh n cmd, sh n o))) (get_abc m a b c).
Proof.
  unfold get_abc. assert (forall v, is_nil (sh n v) = is_nil v) as EN by (intros []; reflexivity). assert (forall v, is_str (sh n v) = is_str v) as ES by (intros []; reflexivity).
  rewrite !EN, !ES. destruct (is_nil c).
  - destruct (is_nil b); [destruct a; reflexivity|]. destruct (is_str a && is_str b); [reflexivity|]. destruct (is_str a); destruct a; try reflexivity; destruct b; reflexivity.
  - assert (forall m v, set_string_or_table (em H m) (sh n v) = emv (set_string_or_table m v)) as EV by (intros m' [| | |s|]; try reflexivity; exact (em_new m' (plain_table [Str s]))).
    rewrite EV. destruct (set_string_or_table m a) as [m1 i]. cbn [emv fst snd].
    destruct b; try reflexivity. cbn [sh set_command rbind]. rewrite EV. destruct (set_string_or_table m1 c) as [m2 o]. reflexivity.
Qed.
Lemma em_rule_args m each a b c : rule_args (em H m) each (sh n a) (sh n b) (sh n c) = mapr ema (rule_args m each a b c).
Proof.
  unfold rule_args. rewrite em_get_abc. apply mapr_rbind. intros [m' [[i cmd] o]]. unfold ema, sha. cbn. destruct each; reflexivity.
Qed.
End shift.

Section parser.
Variable St : Type.
Variable do_rule : St -> request -> outcome St.
Variable resolve : St -> plist -> bool -> outcome (St * list nle).
Variable flags : list nle -> bytes -> option bytes.
Variable ev : St -> list (bytes * res bytes) -> bytes -> option bytes.
Variable add_bin : St -> bytes -> outcome St.
Variable accepts : St -> bytes -> bool.
Variable plain : bytes -> bool.
Variable d : macros.
Variable returned : St -> St -> list bytes.
Variable getenv : bytes -> option bytes.
Notation lua := (lua St).
Notation exec := (exec St do_rule resolve flags ev add_bin accepts plain d returned getenv).
Notation exec_all := (exec_all St do_rule resolve flags ev add_bin accepts plain d returned getenv).
Notation eval_expr := (eval_expr St do_rule resolve flags ev add_bin accepts plain d returned).
Notation definerule := (definerule St do_rule resolve flags ev add_bin accepts plain d returned).

Section under.
Variable H : mem.
Variable fs : list frame.
Notation n := (length H).
Definition under (l : lua) : lua :=
  {| tabs := em H (tabs St l); globs := globs St l; frames := map (shf n) (frames St l) ++ fs; st := st St l |}.
Definition underv (p : lua * val) : lua * val := (under (fst p), sh n (snd p)).
Definition busy (l : lua) : Prop := frames St l <> [].

Lemma under_top l : busy l -> top St (under l) = shf n (top St l).
Proof. unfold busy, top, under. cbn [frames]. destruct (frames St l); [congruence|reflexivity]. Qed.
Lemma under_set_tabs l m : set_tabs St (under l) (em H m) = under (set_tabs St l m).
Proof. reflexivity. Qed.
Lemma under_set_top l f : busy l -> set_top St (under l) (shf n f) = under (set_top St l f).
Proof. unfold busy, set_top, under. cbn [frames tabs globs st]. destruct (frames St l); [congruence|reflexivity]. Qed.
Lemma under_get l x : busy l -> get_var St (under l) x = sh n (get_var St l x).
Proof.
  intros N. unfold get_var. rewrite (under_top l N). cbn [shf f_vars]. rewrite shn_find. destruct (find_var x (f_vars (top St l))); [reflexivity|].
  cbn [under globs]. destruct (find_var x (globs St l)); reflexivity.
Qed.
Lemma under_set_var l x v : busy l -> set_var St (under l) x (sh n v) = under (set_var St l x v).
Proof.
  intros N. unfold set_var. rewrite (under_top l N). cbn [shf f_vars f_env]. rewrite shn_put.
  exact (under_set_top l {| f_vars := put x v (f_vars (top St l)); f_env := f_env (top St l) |} N).
Qed.
Lemma under_atom l a : busy l -> atom_val St (under l) a = sh n (atom_val St l a).
Proof. intros N. destruct a; try reflexivity. exact (under_get l x N). Qed.
Lemma under_copy m v : copy (em H m) (sh n v) = copy m v.
Proof.
  destruct v; try reflexivity. cbn [copy sh]. rewrite em_nth. destruct (nth_error m a) as [t|]; [|reflexivity]. cbn [option_map].
  rewrite sh_items. destruct (items t); cbn [mapr rbind]; try reflexivity. rewrite (rmap_ext (tostr m) _ (sh n)); [reflexivity|]. intros v. apply em_tostr.
Qed.
Lemma under_texts l : busy l -> texts St (under l) = texts St l.
Proof.
  intros N. unfold texts. rewrite (under_top l N). cbn [shf f_vars under tabs]. unfold shn. rewrite map_map. apply map_ext. intros [x v]. cbn [fst snd]. rewrite under_copy. reflexivity.
Qed.
Lemma under_path l v : busy l -> path_of St ev accepts (under l) (sh n v) = path_of St ev accepts l v.
Proof. intros N. unfold path_of. rewrite (under_texts l N). cbn [under tabs st]. rewrite em_tostr. reflexivity. Qed.
Lemma under_paths l v : busy l -> table_to_path_list St ev accepts (under l) (sh n v) = table_to_path_list St ev accepts l v.
Proof.
  intros N. destruct v; try reflexivity. cbn [table_to_path_list sh]. cbn [under tabs]. rewrite em_nth. destruct (nth_error (tabs St l) a) as [t|]; [|reflexivity].
  cbn [option_map]. rewrite sh_items. destruct (items t); cbn [mapr rbind]; try reflexivity.
  rewrite (rmap_ext (path_of St ev accepts l) _ (sh n)); [reflexivity|]. intros v. exact (under_path l v N).
Qed.
Lemma under_definerule l a : busy l -> definerule (under l) (sha H a) = mapr underv (definerule l a).
Proof.
  intros N. unfold definerule. cbn [sha a_inputs a_extra_inputs a_outputs a_extra_outputs a_bin a_command a_foreach].
  rewrite !under_paths, (under_texts l N) by exact N. cbn [under tabs st]. rewrite em_tostr, sh_truthy.
  assert ((match sh n (a_bin a) with Nil => Ret None | v => rbind (tostr (em H (tabs St l)) v) (fun b => Ret (Some b)) end) =
          (match a_bin a with Nil => Ret None | v => rbind (tostr (tabs St l) v) (fun b => Ret (Some b)) end)) as ->.
  { pose proof (em_tostr H (tabs St l) (a_bin a)) as E. destruct (a_bin a); try reflexivity. cbn [sh] in *. rewrite E. reflexivity. }
  destruct (table_to_path_list St ev accepts l (a_inputs a)) as [ins| |]; cbn [rbind mapr]; try reflexivity.
  destruct (table_to_path_list St ev accepts l (a_extra_inputs a)) as [oo| |]; cbn [rbind mapr]; try reflexivity.
  destruct (table_to_path_list St ev accepts l (a_outputs a)) as [outs| |]; cbn [rbind mapr]; try reflexivity.
  destruct (table_to_path_list St ev accepts l (a_extra_outputs a)) as [ex| |]; cbn [rbind mapr]; try reflexivity.
  match goal with |- rbind ?r _ = _ => destruct r as [bin| |]; cbn [rbind mapr]; try reflexivity end.
  match goal with |- rbind ?r _ = _ => destruct r as [s0| |]; cbn [rbind mapr]; try reflexivity end.
  destruct (tostr (tabs St l) (a_command a)) as [cmd| |]; cbn [rbind mapr]; try reflexivity.
  match goal with |- rbind ?r _ = _ => destruct r as [[s1 nl]| |]; cbn [rbind mapr]; try reflexivity end.
  match goal with |- rbind ?r _ = _ => destruct r as [s2| |]; cbn [rbind mapr]; try reflexivity end.
  pose proof (em_new H (tabs St l) (plain_table (map Str (returned s1 s2)))) as E. rewrite em_plain, map_map in E. cbn [sh] in E. change (map (fun x : bytes => Str x)) with (map Str) in E. rewrite E.
  destruct (new (tabs St l) (plain_table (map Str (returned s1 s2)))) as [m v]. reflexivity.
Qed.
Lemma under_import l x : busy l -> import St getenv (under l) x = mapr under (import St getenv l x).
Proof.
  intros N. unfold import. destruct x as [|c x]; [reflexivity|]. destruct (import_parts (c :: x)) as [y dflt].
  set (value := match getenv y with Some v => Some v | None => dflt end). cbn [mapr]. f_equal.
  rewrite (under_top l N). cbn [shf f_vars f_env].
  change {| f_vars := shn n (f_vars (top St l)); f_env := y :: f_env (top St l) |} with (shf n {| f_vars := f_vars (top St l); f_env := y :: f_env (top St l) |}).
  rewrite (under_set_top l _ N). set (l1 := set_top St l {| f_vars := f_vars (top St l); f_env := y :: f_env (top St l) |}).
  assert (busy l1) as N1 by (unfold busy, l1, set_top in *; cbn [frames]; destruct (frames St l); congruence).
  destruct value as [v|].
  - cbn [tabs under]. pose proof (em_new H (tabs St l1) {| t_arr := map Str (string_to_lua v); t_named := []; t_meta := true |}) as E.
    unfold sht in E. cbn [t_arr t_named t_meta] in E. rewrite map_map in E. cbn [sh] in E. change (map (fun x : bytes => Str x)) with (map Str) in E. change (shn n []) with (@nil (bytes * val)) in E. rewrite E.
    destruct (new (tabs St l1) {| t_arr := map Str (string_to_lua v); t_named := []; t_meta := true |}) as [m t]. cbn [fst snd].
    rewrite under_set_tabs. rewrite (under_set_var (set_tabs St l1 m) y t N1). reflexivity.
  - pose proof (under_set_var l1 y Nil N1) as E. cbn [sh] in E. rewrite E. reflexivity.
Qed.
Lemma shn_fields l fields acc : busy l ->
  fold_left (fun k f => put (fst f) (atom_val St (under l) (snd f)) k) fields (shn n acc) = shn n (fold_left (fun k f => put (fst f) (atom_val St l (snd f)) k) fields acc).
Proof.
  intros N. revert acc. induction fields as [|f fields IH]; intros acc; [reflexivity|]. cbn [fold_left]. rewrite (under_atom l _ N), shn_put. apply IH.
Qed.
Lemma under_expr l e : busy l -> eval_expr (under l) e = mapr underv (eval_expr l e).
Proof.
  intros N. destruct e; cbn [eval_expr].
  - rewrite (under_atom l a N). reflexivity.
  - assert (map (atom_val St (under l)) l0 = map (sh n) (map (atom_val St l) l0)) as -> by (rewrite map_map; apply map_ext; intros a; exact (under_atom l a N)).
    assert (forallb non_nil (map (sh n) (map (atom_val St l) l0)) = forallb non_nil (map (atom_val St l) l0)) as ->.
    { induction (map (atom_val St l) l0) as [|v vs IH]; [reflexivity|]. cbn. rewrite IH. destruct v; reflexivity. }
    destruct (forallb non_nil (map (atom_val St l) l0)); [|reflexivity].
    change (@nil (bytes * val)) with (shn n []) at 1. rewrite (shn_fields l f [] N).
    match goal with |- context [new (tabs St l) ?t] => pose proof (em_new H (tabs St l) t) as E; unfold sht in E at 1; cbn [t_arr t_named t_meta] in E; change (tabs St (under l)) with (em H (tabs St l)); rewrite E; destruct (new (tabs St l) t) as [m v] end.
    reflexivity.
  - rewrite (under_atom l a N). destruct (atom_val St l a); try reflexivity. cbn [sh mapr]. unfold underv. cbn [fst snd]. do 2 f_equal. apply em_field.
  - rewrite (under_atom l a N), sh_scalar. destruct (scalar (atom_val St l a)); reflexivity.
  - rewrite (under_atom l a N), sh_scalar. destruct (scalar (atom_val St l a)); reflexivity.
  - rewrite (under_atom l a N), sh_scalar. destruct (scalar (atom_val St l a)); try reflexivity. cbn [rbind]. destruct (dot_end a0) as [[x y]|]; reflexivity.
  - rewrite !under_atom by exact N. unfold rule. change (tabs St (under l)) with (em H (tabs St l)). rewrite em_rule_args.
    apply mapr_rbind. intros [m a']. cbn [ema fst snd]. rewrite em_frule. apply mapr_rbind. intros [m2 a2]. cbn [ema fst snd].
    rewrite under_set_tabs. apply (under_definerule (set_tabs St l m2) a2 N).
  - rewrite !under_atom by exact N. change (tabs St (under l)) with (em H (tabs St l)).
    match goal with |- rbind (frule _ ?x) _ = mapr _ (rbind (frule _ ?y) _) => change x with (sha H y) end.
    rewrite em_frule. apply mapr_rbind. intros [m2 a2]. cbn [ema fst snd]. rewrite under_set_tabs. apply (under_definerule (set_tabs St l m2) a2 N).
Qed.

Lemma frames_expr l e l' v : eval_expr l e = Ret (l', v) -> frames St l' = frames St l.
Proof.
  assert (forall l a l' v, definerule l a = Ret (l', v) -> frames St l' = frames St l) as D.
  { intros l0 a l1 v0. unfold definerule.
    do 8 (match goal with |- rbind ?r _ = _ -> _ => destruct r; cbn [rbind]; try discriminate end). 
    match goal with |- context [let '(_, _) := ?x in _] => destruct x end.
    match goal with |- rbind ?r _ = _ -> _ => destruct r; cbn [rbind]; try discriminate end.
    match goal with |- context [new ?a ?b] => destruct (new a b) end. intros [= <- <-]. reflexivity. }
  destruct e; cbn [eval_expr].
  - intros [= <- <-]. reflexivity.
  - destruct (forallb _ _); [|discriminate]. match goal with |- context [new ?a ?b] => destruct (new a b) end. intros [= <- <-]. reflexivity.
  - destruct (atom_val St l a); try discriminate. intros [= <- <-]. reflexivity.
  - destruct (scalar _); cbn [rbind]; try discriminate. intros [= <- <-]. reflexivity.
  - destruct (scalar _); cbn [rbind]; try discriminate. intros [= <- <-]. reflexivity.
  - destruct (scalar _); cbn [rbind]; try discriminate. destruct (dot_end a0) as [[x y]|]; intros [= <- <-]; reflexivity.
  - unfold rule. destruct (rule_args _ _ _ _ _) as [[m a']| |]; cbn [rbind fst snd]; try discriminate. destruct (frule m a') as [[m2 a2]| |]; cbn [rbind fst snd]; try discriminate.
    intros X. apply D in X. exact X.
  - destruct (frule _ _) as [[m2 a2]| |]; cbn [rbind fst snd]; try discriminate. intros X. apply D in X. exact X.
Qed.
Lemma len_set_top (l : lua) f : length (frames St (set_top St l f)) = length (frames St l).
Proof. unfold set_top. cbn [frames]. destruct (frames St l); reflexivity. Qed.
End under.

Section ind.
Variable P : stmt -> Prop.
Hypothesis HSet : forall x e, P (SSet x e).
Hypothesis HApp : forall x e, P (SAppend x e).
Hypothesis HInd : forall x k a, P (SIndex x k a).
Hypothesis HImp : forall x, P (SImport x).
Hypothesis HOth : forall b, Forall P b -> P (SOther b).
Fixpoint stmt_ind' (s : stmt) : P s :=
  match s with
  | SSet x e => HSet x e | SAppend x e => HApp x e | SIndex x k a => HInd x k a | SImport x => HImp x
  | SOther b => HOth b ((fix go b : Forall P b := match b with [] => Forall_nil P | s :: b => Forall_cons s (stmt_ind' s) (go b) end) b)
  end.
End ind.

Lemma exec_other l b : exec l (SOther b) = rbind (exec_all (push St l) b) (fun l => Ret (pop St l)).
Proof. reflexivity. Qed.
Lemma len_exec s : forall l l', exec l s = Ret l' -> length (frames St l') = length (frames St l).
Proof.
  induction s using stmt_ind'; intros l l' X.
  - cbn [exec] in X. destruct (eval_expr l e) as [[l1 v]| |] eqn:E; try discriminate. injection X as <-. cbn [fst snd]. unfold set_var. rewrite len_set_top, (frames_expr _ _ _ _ E). reflexivity.
  - cbn [exec] in X. destruct (eval_expr l e) as [[l1 v]| |] eqn:E; try discriminate. cbn [rbind fst snd] in X. destruct (append_assignment _ _ _) as [[m w]| |]; try discriminate.
    injection X as <-. unfold set_var. rewrite len_set_top. cbn [fst snd set_tabs frames]. rewrite (frames_expr _ _ _ _ E). reflexivity.
  - cbn [exec] in X. destruct (get_var St l x); try discriminate. injection X as <-. reflexivity.
  - cbn [exec] in X. unfold import in X. destruct x as [|c x]; [discriminate|]. destruct (import_parts (c :: x)) as [y dflt].
    injection X as <-. cbn [set_globs frames]. destruct (match getenv y with Some v => Some v | None => dflt end).
    + unfold set_var. rewrite len_set_top. cbn [set_tabs frames]. rewrite len_set_top. reflexivity.
    + unfold set_var. rewrite !len_set_top. reflexivity.
  - rewrite exec_other in X. destruct (exec_all (push St l) b) as [l1| |] eqn:E; try discriminate. injection X as <-.
    assert (length (frames St l1) = S (length (frames St l))) as L.
    { change (S (length (frames St l))) with (length (frames St (push St l))). revert E. generalize (push St l). clear - H.
      induction H as [|s b P F IH]; intros l0 E; cbn [exec_all] in E; [injection E as <-; reflexivity|].
      destruct (exec l0 s) as [l2| |] eqn:E2; try discriminate. cbn [rbind] in E. rewrite (IH _ E). exact (P _ _ E2). }
    cbn [pop frames]. destruct (frames St l1); cbn in *; lia.
Qed.
Lemma len_exec_all b : forall l l', exec_all l b = Ret l' -> length (frames St l') = length (frames St l).
Proof.
  induction b as [|s b IH]; intros l l' E; cbn [exec_all] in E; [injection E as <-; reflexivity|].
  destruct (exec l s) as [l2| |] eqn:E2; try discriminate. cbn [rbind] in E. rewrite (IH _ _ E). exact (len_exec _ _ _ E2).
Qed.

Lemma under_exec s : forall H fs l, busy l -> exec (under H fs l) s = mapr (under H fs) (exec l s).
Proof.
  induction s using stmt_ind'; intros H' fs l N.
  - cbn [exec]. rewrite under_expr by exact N. destruct (eval_expr l e) as [[l1 v]| |] eqn:E; cbn [mapr rbind]; try reflexivity. cbn [underv fst snd].
    rewrite under_set_var; [reflexivity|]. unfold busy. rewrite (frames_expr _ _ _ _ E). exact N.
  - cbn [exec]. rewrite under_expr, under_get by exact N. destruct (eval_expr l e) as [[l1 v]| |] eqn:E; cbn [mapr rbind]; try reflexivity. cbn [underv fst snd].
    change (tabs St (under H' fs l1)) with (em H' (tabs St l1)). rewrite em_append. destruct (append_assignment (tabs St l1) (get_var St l x) v) as [[m w]| |]; cbn [mapr rbind]; try reflexivity.
    cbn [emv fst snd]. rewrite under_set_tabs, under_set_var; [reflexivity|]. unfold busy. cbn [set_tabs frames]. rewrite (frames_expr _ _ _ _ E). exact N.
  - cbn [exec]. rewrite under_get by exact N. destruct (get_var St l x); try reflexivity. cbn [sh mapr]. rewrite under_atom by exact N.
    change (tabs St (under H' fs l)) with (em H' (tabs St l)). rewrite em_set_field, under_set_tabs. reflexivity.
  - cbn [exec]. exact (under_import H' fs l x N).
  - rewrite !exec_other.
    assert (forall l, busy l -> exec_all (under H' fs l) b = mapr (under H' fs) (exec_all l b)) as A.
    { clear l N. induction H as [|s b P F IH]; intros l N; [reflexivity|]. cbn [exec_all]. rewrite (P _ _ _ N).
      destruct (exec l s) as [l1| |] eqn:E; cbn [mapr rbind]; try reflexivity. apply IH. unfold busy in *. apply len_exec in E. intros Z. rewrite Z in E. destruct (frames St l); [congruence|discriminate]. }
    change (push St (under H' fs l)) with (under H' fs (push St l)). rewrite A by (unfold busy; cbn; discriminate).
    destruct (exec_all (push St l) b) as [l1| |] eqn:E; cbn [mapr rbind]; try reflexivity. f_equal.
    apply len_exec_all in E. unfold pop, under. cbn [frames tabs globs st]. destruct (frames St l1); [cbn in E; discriminate|reflexivity].
Qed.
Lemma under_exec_all b : forall H fs l, busy l -> exec_all (under H fs l) b = mapr (under H fs) (exec_all l b).
Proof.
  induction b as [|s b IH]; intros H fs l N; [reflexivity|]. cbn [exec_all]. rewrite under_exec by exact N.
  destruct (exec l s) as [l1| |] eqn:E; cbn [mapr rbind]; try reflexivity. apply IH. apply len_exec in E. unfold busy in *. intros Z. rewrite Z in E. destruct (frames St l); [congruence|discriminate].
Qed.

(** A Tupfile inside another one. *)
Lemma other_alone l b :
  exec l (SOther b) = mapr (fun r => {| tabs := tabs St l ++ map (sht (length (tabs St l))) (tabs St r); globs := globs St r; frames := frames St l; st := st St r |})
                           (exec_all (start St (globs St l) (st St l)) b).
Proof.
  rewrite exec_other.
  assert (push St l = under (tabs St l) (frames St l) (start St (globs St l) (st St l))) as ->.
  { unfold push, under, start, em. cbn. rewrite app_nil_r. reflexivity. }
  rewrite under_exec_all by (unfold busy; cbn; discriminate).
  destruct (exec_all (start St (globs St l) (st St l)) b) as [r| |] eqn:E; cbn [mapr rbind]; try reflexivity. f_equal.
  apply len_exec_all in E. unfold pop, under. cbn [frames tabs globs st]. destruct (frames St r) as [|f [|g r']]; cbn in E; try discriminate. reflexivity.
Qed.
End parser.
