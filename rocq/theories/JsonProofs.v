From Verif Require Import Base EntryModel EntrySpec EntryProofs GraphModel ExpandModel JsonModel JsonSpec.

Lemma escape_app a b : escape (a ++ b) = escape a ++ escape b.
Proof. induction a as [|c a IH]; [reflexivity|]. cbn [escape app]. rewrite IH, app_assoc. reflexivity. Qed.
Lemma escape_le s : length (escape s) <= 2 * length s.
Proof. induction s as [|c s IH]; [cbn; lia|]. cbn [escape]. rewrite app_length. destruct (_ || _); cbn [length]; lia. Qed.
Lemma escape_lt s : existsb (fun c => negb ((c =?c backslash) || (c =?c dquote))) s = true -> length (escape s) < 2 * length s.
Proof.
  induction s as [|c s IH]; [discriminate|]. cbn [escape existsb]. rewrite app_length. pose proof (escape_le s). destruct ((c =?c backslash) || (c =?c dquote)); cbn [length negb orb]; [|lia].
  intros H2. specialize (IH H2). lia.
Qed.
Lemma print_json_ok s : existsb (fun c => negb ((c =?c backslash) || (c =?c dquote))) s = true -> print_json s = Written (escape s).
Proof. intros H. unfold print_json. apply escape_lt, Nat.ltb_lt in H. rewrite H. reflexivity. Qed.
Lemma print_json_inv s x : print_json s = Written x -> x = escape s.
Proof. unfold print_json. destruct (_ <? _); [|discriminate]. intros E. injection E as <-. reflexivity. Qed.

Lemma string_escape s r : no_control s -> string_rest (escape s ++ dquote :: r) = Some (s, r).
Proof.
  unfold no_control. induction s as [|c s IH]; intros H; [reflexivity|]. cbn [existsb] in H. apply orb_false_iff in H as [Hc Hs]. specialize (IH Hs).
  cbn [escape]. destruct (Ascii.eqb_spec c backslash) as [->|N1].
  - cbn [orb app]. cbn [string_rest]. rewrite Ascii.eqb_refl. change (backslash =?c """"%char) with false. cbn iota. cbn [orb]. rewrite IH. reflexivity.
  - destruct (Ascii.eqb_spec c dquote) as [->|N2].
    + cbn [orb app]. cbn [string_rest]. change (backslash =?c """"%char) with false. cbn iota. rewrite Ascii.eqb_refl. change (dquote =?c """"%char) with true. cbn [orb]. rewrite IH. reflexivity.
    + cbn [orb app]. cbn [string_rest]. destruct (Ascii.eqb_spec c """"%char) as [|_]; [contradiction|]. destruct (Ascii.eqb_spec c "\"%char) as [|_]; [contradiction|].
      rewrite Hc, IH. reflexivity.
Qed.
Lemma escape_id s : no_escape s -> escape s = s.
Proof.
  unfold no_escape. induction s as [|c s IH]; [reflexivity|]. cbn [existsb escape]. intros H. apply orb_false_iff in H as [Hc Hs].
  rewrite (IH Hs). rewrite orb_comm in Hc. unfold dquote, backslash. rewrite Hc. reflexivity.
Qed.
Lemma string_plain s r : no_control s -> no_escape s -> string_rest (s ++ dquote :: r) = Some (s, r).
Proof. intros C E. rewrite <- (escape_id s E) at 1. apply string_escape, C. Qed.

Definition entry_text (d c p : bytes) : bytes :=
  B "{" ++ [newline] ++ B "    ""directory"": """ ++ d ++ B """," ++ [newline] ++
  B "    ""command"": """ ++ c ++ B """," ++ [newline] ++ B "    ""file"": """ ++ p ++ B """" ++ [newline] ++ B "}".
Definition entry (d c p : bytes) : json :=
  JObject [(B "directory", JString d); (B "command", JString c); (B "file", JString p)].

Lemma members_step f pre key enc s tail : (forall z, blank (pre ++ dquote :: z) = dquote :: z) -> (forall z, string_rest (key ++ dquote :: z) = Some (key, z)) ->
  string_rest (enc ++ dquote :: tail) = Some (s, tail) ->
  members (S (S f)) (pre ++ dquote :: key ++ dquote :: B ": """ ++ enc ++ dquote :: tail) =
  match blank tail with
  | d :: r4 => if d =?c ","%char then option_map (fun p => ((key, JString s) :: fst p, snd p)) (members (S f) r4)
               else if d =?c "}"%char then Some ([(key, JString s)], r4) else None
  | [] => None
  end.
Proof.
  intros H1 H2 H3. cbn [members]. rewrite H1. change (dquote =?c """"%char) with true. cbn iota. rewrite H2.
  change (blank (B ": """ ++ enc ++ dquote :: tail)) with (":"%char :: " "%char :: dquote :: enc ++ dquote :: tail). cbv iota. rewrite Ascii.eqb_refl.
  change (value (S f) (" "%char :: dquote :: enc ++ dquote :: tail)) with (option_map (fun p => (JString (fst p), snd p)) (string_rest (enc ++ dquote :: tail))).
  rewrite H3. cbn [option_map fst snd]. reflexivity.
Qed.
Lemma value_entry f d c p r : no_control d -> no_control c -> no_control p -> no_escape p -> 5 <= f ->
  value f (entry_text (escape d) (escape c) p ++ r) = Some (entry d c p, r).
Proof.
  intros Cd Cc Cp Ep L. do 5 (destruct f as [|f]; [lia|]). unfold entry_text. rewrite <- !app_assoc.
  set (t3 := [newline] ++ B "}" ++ r).
  set (t2 := B "," ++ [newline] ++ B "    ""file"": """ ++ p ++ dquote :: t3).
  set (t1 := B "," ++ [newline] ++ B "    ""command"": """ ++ escape c ++ dquote :: t2).
  change (option_map (fun q => (JObject (fst q), snd q)) (members (S (S (S (S f)))) (([newline] ++ B "    ") ++ dquote :: B "directory" ++ dquote :: B ": """ ++ escape d ++ dquote :: t1)) = Some (entry d c p, r)).
  rewrite (members_step _ _ (B "directory") (escape d) d t1) by (first [intros; reflexivity|apply string_escape; exact Cd]).
  change (blank t1) with (","%char :: ([newline] ++ B "    ") ++ dquote :: B "command" ++ dquote :: B ": """ ++ escape c ++ dquote :: t2). cbv iota. rewrite Ascii.eqb_refl.
  rewrite (members_step _ _ (B "command") (escape c) c t2) by (first [intros; reflexivity|apply string_escape; exact Cc]).
  change (blank t2) with (","%char :: ([newline] ++ B "    ") ++ dquote :: B "file" ++ dquote :: B ": """ ++ p ++ dquote :: t3). cbv iota. rewrite Ascii.eqb_refl.
  rewrite (members_step _ _ (B "file") p p t3) by (first [intros; reflexivity|apply string_plain; assumption]).
  reflexivity.
Qed.

(** Entries with commas between them. *)
Fixpoint joined (first : bool) (l : list (bytes * bytes * bytes)) : bytes :=
  match l with
  | [] => []
  | (d, c, p) :: r => (if first then [] else B "," ++ [newline]) ++ entry_text (escape d) (escape c) p ++ joined false r
  end.
Definition ok_entry (x : bytes * bytes * bytes) : Prop :=
  let '(d, c, p) := x in no_control d /\ no_control c /\ no_control p /\ no_escape p.
Definition as_json (x : bytes * bytes * bytes) : json := let '(d, c, p) := x in entry d c p.

Lemma elements_joined l : forall x f r, Forall ok_entry (x :: l) -> 6 + length l <= f ->
  elements f (joined true (x :: l) ++ [newline] ++ B "]" ++ r) = Some (map as_json (x :: l), r).
Proof.
  induction l as [|y l IH]; intros [[d c] p] f r F L; (destruct f as [|f]; [cbn in L; lia|]); inversion F as [|? ? O F2]; subst; destruct O as [O1 [O2 [O3 O4]]].
  - cbn [joined]. rewrite app_nil_r. cbn [app]. cbn [elements]. rewrite value_entry by (cbn in L; try assumption; lia). reflexivity.
  - cbn [length] in L. specialize (IH y f r F2 ltac:(lia)). destruct y as [[d2 c2] p2].
    change (joined true ((d, c, p) :: (d2, c2, p2) :: l)) with (entry_text (escape d) (escape c) p ++ B "," ++ [newline] ++ joined true ((d2, c2, p2) :: l)).
    rewrite <- !app_assoc. cbn [elements]. rewrite value_entry by (try assumption; lia).
    set (rest := joined true ((d2, c2, p2) :: l) ++ [newline] ++ B "]" ++ r) in *. change (blank (B "," ++ [newline] ++ rest)) with (","%char :: newline :: rest).
    cbv iota. rewrite Ascii.eqb_refl. assert (elements f (newline :: rest) = elements f rest) as ->.
    { destruct f as [|f]; [reflexivity|]. cbn [elements]. assert (value f (newline :: rest) = value f rest) as -> by (destruct f; reflexivity). reflexivity. }
    rewrite IH. reflexivity.
Qed.
Lemma document_joined l : Forall ok_entry l -> reads_as (B "[" ++ [newline] ++ joined true l ++ [newline] ++ B "]" ++ [newline]) (JArray (map as_json l)).
Proof.
  intros F. exists (8 + length l). intros f L. do 2 (destruct f as [|f]; [lia|]). unfold document. destruct l as [|x l].
  - reflexivity.
  - cbn [length] in L. assert (value (S (S f)) (B "[" ++ [newline] ++ joined true (x :: l) ++ [newline] ++ B "]" ++ [newline]) =
      option_map (fun p => (JArray (fst p), snd p)) (elements (S f) (newline :: joined true (x :: l) ++ [newline] ++ B "]" ++ [newline]))) as ->.
    { destruct x as [[d c] p]. reflexivity. }
    assert (forall t, elements (S f) (newline :: t) = elements (S f) t) as E.
    { intros t. cbn [elements]. assert (value f (newline :: t) = value f t) as -> by (destruct f; reflexivity). reflexivity. }
    rewrite E, elements_joined by (try assumption; lia). reflexivity.
Qed.

(** ** What is written *)
Section Written.
Variable T : tree. Variable fuel top : nat. Variable top_path : bytes. Variable kind_of : nat -> kind.
Variable flags : nat -> bytes. Variable variant_of : nat -> nat. Variable srcdir : nat -> nat.
Variable commands : list nat. Variable stickies : nat -> list nat.

Definition row (c f : nat) (x : bytes * bytes * bytes) : Prop :=
  exists par rel p, parent T c = Some par /\ x = (top_path ++ B "/" ++ rel, name T c, p) /\
    (if srcdir par =? top then rel = [] else get_relative_dir T fuel top (srcdir par) = Some rel) /\
    get_relative_dir T fuel (srcdir par) f = Some p.

Lemma print_one first c f r : print_compile_db T fuel top top_path srcdir first c f = Written r ->
  exists x, row c f x /\ r = ((if first then [] else B "," ++ [newline]) ++ entry_text (escape (fst (fst x))) (escape (snd (fst x))) (snd x), false).
Proof.
  unfold print_compile_db. destruct (parent T c) as [par|] eqn:P; [|discriminate].
  assert (forall o (k : bytes -> JsonModel.outcome (bytes * bool)), bind o k = Written r -> exists a, o = Written a /\ k a = Written r) as Bi by (intros [a| |] k; cbn; intros E; [eauto|discriminate|discriminate]).
  cbv zeta. intros H. apply Bi in H as [rel [Hr H]]. apply Bi in H as [dir [Hd H]]. apply Bi in H as [tx [Ht H]]. apply Bi in H as [p [Hp H]].
  apply print_json_inv in Hd, Ht. subst dir tx. exists (top_path ++ B "/" ++ rel, name T c, p). split.
  - exists par, rel, p. split; [exact P|]. split; [reflexivity|]. split.
    + destruct (srcdir par =? top); [clear - Hr; congruence|]. unfold relative in Hr. destruct (get_relative_dir T fuel top (srcdir par)); [injection Hr as ->; reflexivity|discriminate].
    + unfold relative in Hp. destruct (get_relative_dir T fuel (srcdir par) f); [injection Hp as ->; reflexivity|discriminate].
  - assert (forall a b : bytes * bool, Written a = Written b -> b = a) as I by congruence. apply I in H. rewrite H. unfold entry_text. reflexivity.
Qed.

Definition after (first : bool) {A} (l : list A) : bool := match l with [] => first | _ => false end.
Lemma joined_app first a b : joined first (a ++ b) = joined first a ++ joined (after first a) b.
Proof.
  revert first. induction a as [|[[d c] p] a IH]; intros first; [reflexivity|]. cbn [joined app]. rewrite IH, <- !app_assoc. cbn [after]. destruct a; reflexivity.
Qed.
Lemma print_inputs_rows c ins : forall first r, print_inputs T fuel top top_path kind_of srcdir first c ins = Written r ->
  exists xs, Forall2 (row c) (filter (fun i => is_file (kind_of i)) ins) xs /\ r = (joined first xs, after first xs).
Proof.
  induction ins as [|i ins IH]; intros first r H; cbn [print_inputs] in H.
  - exists []. split; [constructor|]. injection H as <-. reflexivity.
  - cbn [filter]. destruct (is_file (kind_of i)); [|exact (IH _ _ H)].
    destruct (print_compile_db T fuel top top_path srcdir first c i) as [p| |] eqn:Pc; try discriminate. cbn [bind] in H.
    destruct (print_inputs T fuel top top_path kind_of srcdir (snd p) c ins) as [q| |] eqn:Pi; try discriminate. cbn [bind] in H.
    apply print_one in Pc as [[[d tx] pp] [R ->]]. cbn [fst snd] in *. apply IH in Pi as [xs [F ->]]. cbn [fst snd] in H.
    exists ((d, tx, pp) :: xs). split; [constructor; assumption|]. cbn [joined after]. assert (forall a b : bytes * bool, Written a = Written b -> b = a) as I by congruence. apply I in H. rewrite H.
    rewrite <- app_assoc. f_equal. destruct xs; reflexivity.
Qed.

(** The commands that are exported and their inputs. *)
Definition exported (v : nat) (cmds : list nat) : list (nat * nat) :=
  flat_map (fun c => map (fun f => (c, f)) (filter (fun i => is_file (kind_of i)) (stickies c)))
    (filter (fun c => existsb (Ascii.eqb "j"%char) (flags c) && (variant_of c =? v)) cmds).
Definition is_row (e : nat * nat) : bytes * bytes * bytes -> Prop := row (fst e) (snd e).
Lemma print_commands_rows v cmds : forall first r, print_commands T fuel top top_path kind_of flags variant_of srcdir stickies first v cmds = Written r ->
  exists xs, Forall2 is_row (exported v cmds) xs /\ r = (joined first xs, after first xs).
Proof.
  induction cmds as [|c cmds IH]; intros first r H; cbn [print_commands] in H.
  - exists []. split; [constructor|]. injection H as <-. reflexivity.
  - unfold exported. cbn [filter]. unfold is_compiledb in H. destruct (existsb (Ascii.eqb "j"%char) (flags c)); cbn [negb andb] in *; [|exact (IH _ _ H)].
    destruct (variant_of c =? v); cbn [negb] in *; [|exact (IH _ _ H)]. cbn [flat_map].
    destruct (print_inputs T fuel top top_path kind_of srcdir first c (stickies c)) as [p| |] eqn:Pi; try discriminate. cbn [bind] in H.
    destruct (print_commands T fuel top top_path kind_of flags variant_of srcdir stickies (snd p) v cmds) as [q| |] eqn:Pc; try discriminate. cbn [bind] in H.
    apply print_inputs_rows in Pi as [xs [F ->]]. cbn [fst snd] in *. apply IH in Pc as [ys [F2 ->]]. cbn [fst snd] in H. exists (xs ++ ys). split.
    + apply Forall2_app; [|exact F2]. clear - F. induction F; cbn [map]; constructor; assumption.
    + assert (forall a b : bytes * bool, Written a = Written b -> b = a) as I by congruence. apply I in H. rewrite H, joined_app. f_equal. destruct xs, ys; reflexivity.
Qed.
End Written.
