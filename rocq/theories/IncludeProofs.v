(** Proofs about include and include_rules. *)
From Verif Require Import Base ConfigModel ParseModel PathModel IfModel TextModel IncludeModel IncludeSpec.

Notation T := (B "Tuprules.tup").
Lemma skip_sep_plain c p : is_path_sep c = false -> skip_sep (c :: p) = c :: p.
Proof. intros H. cbn [skip_sep]. rewrite H. reflexivity. Qed.
Lemma split_dotdots n : forall f l, n < f ->
  split_loop f (dotdots n ++ T) {| pl := l; num := 0 |} = Some {| pl := l ++ repeat (B "..") n ++ [T]; num := 1 |}.
Proof.
  induction n as [|n IH]; intros f l F; (destruct f as [|f]; [lia|]).
  - cbn [dotdots app repeat]. destruct f; reflexivity.
  - cbn [dotdots]. rewrite <- app_assoc. change (B "../") with [("."%char : ascii); "."%char; "/"%char].
    cbn [app split_loop skip_sep is_path_sep Ascii.eqb Bool.eqb take_elem].
    change (add_elem {| pl := l; num := 0 |} ["."%char; "."%char]) with {| pl := l ++ [B ".."]; num := 0 |}.
    assert (split_loop f ("/"%char :: dotdots n ++ T) {| pl := l ++ [B ".."]; num := 0 |} = split_loop f (dotdots n ++ T) {| pl := l ++ [B ".."]; num := 0 |}) as ->.
    { destruct f; cbn [split_loop skip_sep]; replace (is_path_sep "/"%char) with true by reflexivity; reflexivity. }
    rewrite IH by lia. cbn [repeat]. rewrite <- app_assoc. reflexivity.
Qed.
Lemma dotdots_len n : n <= length (dotdots n).
Proof. induction n as [|n IH]; cbn [dotdots]; [lia|]. rewrite app_length. cbn [length B]. change (length (B "../")) with 3. lia. Qed.
Lemma elements n : split_path_elements (dotdots n ++ T) = Some {| pl := repeat (B "..") n ++ [T]; num := 1 |}.
Proof. unfold split_path_elements. rewrite split_dotdots; [reflexivity|]. rewrite app_length. pose proof (dotdots_len n). change (length T) with 12. lia. Qed.

Lemma firstn_removelast {A} (c : list A) n : S n <= length c -> firstn (length (removelast c) - n) (removelast c) = firstn (length c - S n) c.
Proof.
  intros H. destruct c as [|x c] using rev_ind; [cbn in H; lia|]. rewrite removelast_last, app_length. cbn [length].
  replace (length c + 1 - S n) with (length c - n) by lia. rewrite firstn_app. replace (length c - n - length c) with 0 by lia. cbn [firstn]. rewrite app_nil_r. reflexivity.
Qed.
Lemma removelast_length {A} (c : list A) : length (removelast c) = length c - 1.
Proof. destruct c as [|x c] using rev_ind; [reflexivity|]. rewrite removelast_last, app_length. cbn. lia. Qed.
Lemma walk_up is_node n : forall c, n <= length c -> walk is_node c (repeat (B "..") n) = Some (firstn (length c - n) c).
Proof.
  induction n as [|n IH]; intros c H; cbn [repeat walk].
  - rewrite Nat.sub_0_r, firstn_all. reflexivity.
  - replace (bytes_eqb (B "..") (B "..")) with true by reflexivity. destruct c as [|x c]; [cbn in H; lia|].
    rewrite IH by (rewrite removelast_length; lia). rewrite firstn_removelast by exact H. reflexivity.
Qed.
Lemma lexical_up n : forall c, n <= length c -> lexical c (repeat (B "..") n ++ [T]) = firstn (length c - n) c ++ [T].
Proof.
  induction n as [|n IH]; intros c H; cbn [repeat app lexical].
  - replace (bytes_eqb T (B "..")) with false by reflexivity. rewrite Nat.sub_0_r, firstn_all. reflexivity.
  - replace (bytes_eqb (B "..") (B "..")) with true by reflexivity.
    rewrite IH by (rewrite removelast_length; lia). rewrite firstn_removelast by exact H. reflexivity.
Qed.
Lemma not_hidden n : existsb elem_hidden (repeat (B "..") n ++ [T]) = false.
Proof. induction n as [|n IH]; [reflexivity|]. cbn [repeat app existsb]. rewrite IH. reflexivity. Qed.
Lemma not_full n : is_full_path (dotdots n ++ T) = false.
Proof. destruct n; reflexivity. Qed.
Lemma target_rules top is_node n c : n <= length c -> include_target top is_node c (dotdots n ++ T) = Some (firstn (length c - n) c, T).
Proof.
  intros H. unfold include_target, get_path_elements. rewrite elements. cbn [pl]. rewrite not_full.
  destruct (match_top top (repeat (B "..") n ++ [T])) as [left k]. cbn [andb negb pg_hidden pg_outside path_list pg_root].
  rewrite not_hidden. cbn [orb]. rewrite removelast_last, last_last.
  destruct (repeat (B "..") n ++ [T]) eqn:E; [destruct n; discriminate|]. rewrite walk_up by exact H. reflexivity.
Qed.
Lemma found_rules n c : n <= length c -> found_at c (dotdots n ++ T) = firstn (length c - n) c ++ [T].
Proof. intros H. unfold found_at. rewrite elements. cbn [pl]. apply lexical_up. exact H. Qed.
Lemma skip_dotdots n : skipn 3 (dotdots (S n) ++ T) = dotdots n ++ T.
Proof. reflexivity. Qed.

Section include.
Variable St : Type.
Variable top : bytes.
Variable eval_eq : dir -> St -> bytes -> St * option bool.
Variable var_ifdef : dir -> St -> bytes -> St * option bool.
Variable eval_name : dir -> St -> bytes -> St * option bytes.
Variable rest : dir -> St -> bytes -> St * bool.
Variable lua : dir -> St -> bytes -> St * bool.
Variable is_node : dir -> bool.
Variable on_disk : dir -> bool.
Variable note_read : St -> dir -> St * bool.
Variable open_file : St -> dir -> St * option bytes.
Notation pstate := (pstate St).
Notation parse_text := (parse_text St eval_eq var_ifdef).
Notation include_file := (include_file St top eval_eq var_ifdef lua is_node open_file).
Notation rules_loop := (rules_loop St top eval_eq var_ifdef lua is_node on_disk note_read open_file).
Notation include_rules := (include_rules St top eval_eq var_ifdef lua is_node on_disk note_read open_file).
Notation directive := (directive St top eval_eq var_ifdef eval_name rest lua is_node on_disk note_read open_file).

Notation state_at := (state_at St).
Notation obeys := (obeys St top eval_eq var_ifdef eval_name rest lua is_node on_disk note_read open_file).
Notation does := (does St top eval_eq var_ifdef eval_name rest lua is_node on_disk note_read open_file).
Notation names_file := (names_file top is_node).

(** What successful directives leave alone. *)
Definition same_place (s s' : pstate) : Prop := cur St s' = cur St s /\ incl St s' = incl St s /\ stuck St s' = stuck St s.
Lemma same_refl s : same_place s s.
Proof. repeat split. Qed.
Lemma same_trans a b c : same_place a b -> same_place b c -> same_place a c.
Proof. intros [A1 [A2 A3]] [B1 [B2 B3]]. split; [|split]; congruence. Qed.
Definition keeps (f : pstate -> bytes -> pstate * bool) : Prop := forall s l s', f s l = (s', true) -> same_place s s'.

Lemma do_if_keeps (ev : dir -> St -> bytes -> St * option bool) b s i a s1 i1 :
  do_if pstate (fun s e => let '(u, r) := ev (cur St s) (user St s) e in (set_user St s u, r)) b s i a = (s1, Some i1) -> same_place s s1.
Proof.
  unfold do_if. intros H. destruct (if_true i).
  - destruct (ev (cur St s) (user St s) a) as [u [r|]]; injection H as <- _; repeat split.
  - injection H as <- _. apply same_refl.
Qed.
Lemma do_line_keeps f s i l s1 i1 : keeps f ->
  do_line pstate (fun s e => let '(u, r) := eval_eq (cur St s) (user St s) e in (set_user St s u, r))
    (fun s e => let '(u, r) := var_ifdef (cur St s) (user St s) e in (set_user St s u, r)) f s i l = (s1, Some i1) -> same_place s s1.
Proof.
  intros K. unfold do_line. intros H. destruct (classify l).
  - injection H as <- _. apply same_refl.
  - injection H as <- _. apply same_refl.
  - exact (do_if_keeps _ _ _ _ _ _ _ H).
  - exact (do_if_keeps _ _ _ _ _ _ _ H).
  - exact (do_if_keeps _ _ _ _ _ _ _ H).
  - exact (do_if_keeps _ _ _ _ _ _ _ H).
  - destruct (if_true i); [|injection H as <- _; apply same_refl].
    destruct (f s l) as [s2 ok] eqn:F. destruct ok; [|discriminate]. injection H as <- _. exact (K _ _ _ F).
Qed.
Lemma parse_loop_keeps f : keeps f -> forall n s i lno r s',
  parse_loop pstate (fun s e => let '(u, r) := eval_eq (cur St s) (user St s) e in (set_user St s u, r))
    (fun s e => let '(u, r) := var_ifdef (cur St s) (user St s) e in (set_user St s u, r)) f n s i lno r = (s', Parsed) -> same_place s s'.
Proof.
  intros K. induction n as [|n IH]; intros s i lno r s' H; cbn [parse_loop] in H; [discriminate|].
  destruct (next_line (S (length r)) lno r) as [| |m l rest'].
  - destruct (if_check i); [|discriminate]. injection H as <-. apply same_refl.
  - discriminate.
  - match type of H with context [do_line ?a ?b ?c ?d ?e ?f ?g] => destruct (do_line a b c d e f g) as [s1 [i1|]] eqn:E end; [|discriminate].
    exact (same_trans _ _ _ (do_line_keeps _ _ _ _ _ _ K E) (IH _ _ _ _ _ H)).
Qed.
Lemma parse_text_keeps f : keeps f -> keeps (parse_text f).
Proof.
  intros K s text s' H. unfold IncludeModel.parse_text in H. match type of H with context [parse_tupfile ?a ?b ?c ?d ?e ?f] => destruct (parse_tupfile a b c d e f) as [s1 v] eqn:E end.
  destruct v; try discriminate. injection H as <-. exact (parse_loop_keeps f K _ _ _ _ _ _ E).
Qed.
Lemma include_file_keeps f : keeps f -> keeps (include_file f).
Proof.
  intros K s file s' H. unfold IncludeModel.include_file in H. destruct (include_target top is_node (cur St s) file) as [[d name]|]; [|discriminate].
  destruct (is_node (d ++ [name])); [|discriminate]. destruct (open_file (user St s) (d ++ [name])) as [u [text|]]; [|discriminate].
  destruct (is_lua file).
  - destruct (lua d u text) as [u1 ok]. injection H as <- ->. repeat split.
  - destruct (parse_text f (set_cur St (set_user St s u) d) text) as [s2 ok] eqn:E. injection H as <- ->.
    apply (parse_text_keeps f K) in E. destruct E as [_ E]. split; [reflexivity|exact E].
Qed.
Lemma rules_loop_keeps f : keeps f -> forall n s p s', rules_loop f n s p = (s', true) -> same_place s s'.
Proof.
  intros K. induction n as [|n IH]; intros s p s' H; cbn [IncludeModel.rules_loop] in H;
    (destruct (note_read (user St s) (found_at (cur St s) p)) as [u [|]]; [|discriminate]);
    (destruct (on_disk (found_at (cur St s) p)); [destruct (include_file f (set_user St s u) p) as [s1 ok] eqn:E; destruct ok; [|discriminate]; apply (include_file_keeps f K) in E|]).
  - injection H as <-. exact E.
  - injection H as <-. repeat split.
  - apply IH in H. exact (same_trans _ _ _ E H).
  - apply IH in H. exact H.
Qed.
Lemma include_rules_place f s s' : keeps f -> include_rules f s = (s', true) -> same_place s s' /\ incl St s = false.
Proof.
  intros K. unfold IncludeModel.include_rules. destruct (incl St s) eqn:I; [discriminate|].
  destruct (rules_loop f (length (cur St (set_incl St s true))) (set_incl St s true) (dotdots (length (cur St (set_incl St s true))) ++ T)) as [s1 ok] eqn:E.
  intros H. injection H as <- ->. apply (rules_loop_keeps f K) in E. destruct E as [E [_ E2]]. split; [|reflexivity]. split; [exact E|]. split; [symmetry; exact I|exact E2].
Qed.
Lemma directive_keeps fuel : keeps (directive fuel).
Proof.
  induction fuel as [|fuel IH]; intros s l s' H; cbn [IncludeModel.directive] in H;
  (destruct (prefixb (B "error ") l); [discriminate|]); (destruct (prefixb (B "include ") l); [destruct (eval_name (cur St s) (user St s) (skipn 8 l)) as [u [file|]]; [|discriminate]|
    destruct (bytes_eqb l (B "include_rules")); [|destruct (rest (cur St s) (user St s) l) as [u ok]; injection H as <- ->; repeat split]]).
  - discriminate.
  - discriminate.
  - apply (include_file_keeps _ IH) in H. exact H.
  - exact (proj1 (include_rules_place _ _ _ IH H)).
Qed.

(** ** More fuel *)
Definition below (f g : pstate -> bytes -> pstate * bool) : Prop := forall s l s', f s l = (s', true) -> g s l = (s', true).
Lemma do_line_below f g s i l s1 i1 : below f g ->
  do_line pstate (fun s e => let '(u, r) := eval_eq (cur St s) (user St s) e in (set_user St s u, r))
    (fun s e => let '(u, r) := var_ifdef (cur St s) (user St s) e in (set_user St s u, r)) f s i l = (s1, Some i1) ->
  do_line pstate (fun s e => let '(u, r) := eval_eq (cur St s) (user St s) e in (set_user St s u, r))
    (fun s e => let '(u, r) := var_ifdef (cur St s) (user St s) e in (set_user St s u, r)) g s i l = (s1, Some i1).
Proof.
  intros K. unfold do_line. destruct (classify l); try (intros H; exact H). destruct (if_true i); [|intros H; exact H].
  destruct (f s l) as [s2 ok] eqn:F. destruct ok; [|discriminate]. rewrite (K _ _ _ F). intros H. exact H.
Qed.
Lemma parse_loop_below f g : below f g -> forall n s i lno r s',
  parse_loop pstate (fun s e => let '(u, r) := eval_eq (cur St s) (user St s) e in (set_user St s u, r))
    (fun s e => let '(u, r) := var_ifdef (cur St s) (user St s) e in (set_user St s u, r)) f n s i lno r = (s', Parsed) ->
  parse_loop pstate (fun s e => let '(u, r) := eval_eq (cur St s) (user St s) e in (set_user St s u, r))
    (fun s e => let '(u, r) := var_ifdef (cur St s) (user St s) e in (set_user St s u, r)) g n s i lno r = (s', Parsed).
Proof.
  intros K. induction n as [|n IH]; intros s i lno r s' H; cbn [parse_loop] in *; [discriminate|].
  destruct (next_line (S (length r)) lno r) as [| |m l rest']; [exact H|exact H|].
  match type of H with context [do_line ?a ?b ?c ?d ?e ?f ?g] => destruct (do_line a b c d e f g) as [s1 [i1|]] eqn:E end; [|discriminate].
  rewrite (do_line_below f g _ _ _ _ _ K E). exact (IH _ _ _ _ _ H).
Qed.
Lemma parse_text_below f g : below f g -> below (parse_text f) (parse_text g).
Proof.
  intros K s text s' H. unfold IncludeModel.parse_text in *. match type of H with context [parse_tupfile ?a ?b ?c ?d ?e ?f] => destruct (parse_tupfile a b c d e f) as [s1 v] eqn:E end.
  destruct v; try discriminate. unfold parse_tupfile in *. rewrite (parse_loop_below f g K _ _ _ _ _ _ E). exact H.
Qed.
Lemma include_file_below f g : below f g -> below (include_file f) (include_file g).
Proof.
  intros K s file s' H. unfold IncludeModel.include_file in *. destruct (include_target top is_node (cur St s) file) as [[d name]|]; [|exact H].
  destruct (is_node (d ++ [name])); [|exact H]. destruct (open_file (user St s) (d ++ [name])) as [u [text|]]; [|exact H].
  destruct (is_lua file); [exact H|].
  destruct (parse_text f (set_cur St (set_user St s u) d) text) as [s2 ok] eqn:E. destruct ok; [|discriminate].
  rewrite (parse_text_below f g K _ _ _ E). exact H.
Qed.
Lemma rules_loop_below f g : below f g -> forall n s p s', rules_loop f n s p = (s', true) -> rules_loop g n s p = (s', true).
Proof.
  intros K. induction n as [|n IH]; intros s p s' H; cbn [IncludeModel.rules_loop] in *;
    (destruct (note_read (user St s) (found_at (cur St s) p)) as [u [|]]; [|exact H]);
    (destruct (on_disk (found_at (cur St s) p)); [destruct (include_file f (set_user St s u) p) as [s1 ok] eqn:E; destruct ok; [|discriminate]; rewrite (include_file_below f g K _ _ _ E)|]).
  - exact H.
  - exact H.
  - exact (IH _ _ _ H).
  - exact (IH _ _ _ H).
Qed.
Lemma include_rules_below f g s s' : below f g -> include_rules f s = (s', true) -> include_rules g s = (s', true).
Proof.
  intros K H. unfold IncludeModel.include_rules in *. destruct (incl St s); [exact H|].
  destruct (rules_loop f _ _ _) as [s1 ok] eqn:E in H. destruct ok; [|discriminate]. rewrite (rules_loop_below f g K _ _ _ _ E). exact H.
Qed.
Lemma directive_succ fuel : below (directive fuel) (directive (S fuel)).
Proof.
  induction fuel as [|fuel IH]; intros s l s' H; cbn [IncludeModel.directive] in *;
  (destruct (prefixb (B "error ") l); [exact H|]); (destruct (prefixb (B "include ") l); [destruct (eval_name (cur St s) (user St s) (skipn 8 l)) as [u [file|]]; [|exact H]|
    destruct (bytes_eqb l (B "include_rules")); [|exact H]]); try discriminate.
  - exact (include_file_below _ _ IH _ _ _ H).
  - exact (include_rules_below _ _ _ _ IH H).
Qed.
Lemma directive_more f g : f <= g -> below (directive f) (directive g).
Proof. intros H. induction H as [|g H IH]; intros s l s' E; [exact E|]. apply directive_succ, IH, E. Qed.

(** ** What is obeyed *)
Lemma state_eq s d b u : same_place (state_at d b u) s -> s = state_at d b (user St s).
Proof. intros [A [C D]]. destruct s as [c i k v]. cbn in *. subst. reflexivity. Qed.
Lemma include_one f n c u s' : keeps f -> n <= length c -> is_lua (dotdots n ++ T) = false ->
  include_file f (state_at c true u) (dotdots n ++ T) = (s', true) ->
  exists u2 text u3, is_node (firstn (length c - n) c ++ [T]) = true /\ open_file u (firstn (length c - n) c ++ [T]) = (u2, Some text) /\
    parse_text f (state_at (firstn (length c - n) c) true u2) text = (state_at (firstn (length c - n) c) true u3, true) /\ s' = state_at c true u3.
Proof.
  intros K N L H. unfold IncludeModel.include_file in H. cbn [cur state_at user] in H. rewrite target_rules in H by exact N. rewrite L in H.
  destruct (is_node (firstn (length c - n) c ++ [T])) eqn:I; [|discriminate].
  destruct (open_file u (firstn (length c - n) c ++ [T])) as [u2 [text|]] eqn:O; [|discriminate].
  change (set_cur St (set_user St (state_at c true u) u2) (firstn (length c - n) c)) with (state_at (firstn (length c - n) c) true u2) in H.
  destruct (parse_text f (state_at (firstn (length c - n) c) true u2) text) as [s2 ok] eqn:P. injection H as <- ->.
  pose proof (state_eq _ _ _ _ (parse_text_keeps f K _ _ _ P)) as E. exists u2, text, (user St s2). rewrite <- E. repeat split; try assumption.
  rewrite E. reflexivity.
Qed.
Lemma not_lua n : is_lua (dotdots n ++ T) = false.
Proof.
  unfold is_lua. assert (forall m, exists a b, strstr (B ".lua") (dotdots m ++ T) = None \/ strstr (B ".lua") (dotdots m ++ T) = Some (a, b) /\ b <> []) as H.
  { intros m. exists [], ["x"%char]. left. induction m as [|m IH]; [reflexivity|]. cbn [dotdots]. rewrite <- app_assoc. change (B "../") with ["."%char; "."%char; "/"%char]. cbn [app].
    cbn [strstr]. rewrite IH. destruct m; reflexivity. }
  destruct (H n) as [a [b [-> | [-> X]]]]; [reflexivity|]. destruct b; [congruence|reflexivity].
Qed.
Lemma levels_from (c : dir) n : n <= length c -> map (fun k => firstn k c) (seq (length c - n) (S n)) =
  firstn (length c - n) c :: match n with 0 => [] | S m => map (fun k => firstn k c) (seq (length c - m) (S m)) end.
Proof. intros H. cbn [seq map]. destruct n as [|m]; [reflexivity|]. f_equal. replace (S (length c - S m)) with (length c - m) by lia. reflexivity. Qed.

Lemma rules_loop_sound f c : keeps f -> forall n u s', n <= length c -> rules_loop f n (state_at c true u) (dotdots n ++ T) = (s', true) ->
  exists u', s' = state_at c true u' /\
  each_level St (fun d b text u u' => parse_text f (state_at d b u) text = (state_at d b u', true)) is_node on_disk note_read open_file
    (map (fun k => firstn k c) (seq (length c - n) (S n))) u u'.
Proof.
  intros K. induction n as [|n IH]; intros u s' N H; rewrite levels_from by exact N;
    cbn [IncludeModel.rules_loop] in H; cbn [cur state_at user] in H; rewrite found_rules in H by exact N;
    (destruct (note_read u (firstn _ c ++ [T])) as [u1 [|]] eqn:R; [|discriminate]);
    change (set_user St (state_at c true u) u1) with (state_at c true u1) in H;
    (destruct (on_disk (firstn _ c ++ [T])) eqn:D;
      [destruct (include_file f (state_at c true u1) _) as [s1 ok] eqn:E in H; destruct ok; [|discriminate];
       destruct (include_one f _ c u1 s1 K N (not_lua _) E) as [u2 [text [u3 [I [O [P ->]]]]]]|]).
  - injection H as <-. exists u3. split; [reflexivity|]. exact (el_present _ _ _ _ _ _ _ _ _ _ _ _ _ _ R D I O P (el_nil _ _ _ _ _ _ _)).
  - injection H as <-. exists u1. split; [reflexivity|]. exact (el_absent _ _ _ _ _ _ _ _ _ _ _ R D (el_nil _ _ _ _ _ _ _)).
  - rewrite skip_dotdots in H. apply IH in H; [|lia]. destruct H as [u' [-> EL]]. exists u'. split; [reflexivity|].
    exact (el_present _ _ _ _ _ _ _ _ _ _ _ _ _ _ R D I O P EL).
  - rewrite skip_dotdots in H. apply IH in H; [|lia]. destruct H as [u' [-> EL]]. exists u'. split; [reflexivity|].
    exact (el_absent _ _ _ _ _ _ _ _ _ _ _ R D EL).
Qed.
Lemma include_step f c b u file d name u2 text u3 : include_target top is_node c file = Some (d, name) -> is_node (d ++ [name]) = true ->
  open_file u (d ++ [name]) = (u2, Some text) -> is_lua file = false -> parse_text f (state_at d b u2) text = (state_at d b u3, true) ->
  include_file f (state_at c b u) file = (state_at c b u3, true).
Proof.
  intros H N O L P. unfold IncludeModel.include_file. change (cur St (state_at c b u)) with c. change (user St (state_at c b u)) with u. rewrite H, N, O, L.
  change (set_cur St (set_user St (state_at c b u) u2) d) with (state_at d b u2). rewrite P. reflexivity.
Qed.
Lemma rules_loop_complete f c : forall n u u', n <= length c ->
  each_level St (fun d b text u u' => parse_text f (state_at d b u) text = (state_at d b u', true)) is_node on_disk note_read open_file
    (map (fun k => firstn k c) (seq (length c - n) (S n))) u u' ->
  rules_loop f n (state_at c true u) (dotdots n ++ T) = (state_at c true u', true).
Proof.
  induction n as [|n IH]; intros u u' N H; rewrite levels_from in H by exact N;
    cbn [IncludeModel.rules_loop]; cbn [cur state_at user]; rewrite found_rules by exact N;
    inversion H as [|d ds a u1 b R D EL|d ds a u1 u2 text u3 b R D I O P EL]; subst; rewrite R, D;
    change (set_user St (state_at c true u) u1) with (state_at c true u1).
  - inversion EL; subst. reflexivity.
  - inversion EL; subst. rewrite (include_step f c true u1 _ _ _ u2 text u' (target_rules top is_node 0 c N) I O (not_lua 0) P). reflexivity.
  - rewrite skip_dotdots. apply IH; [lia|exact EL].
  - rewrite (include_step f c true u1 _ _ _ u2 text u3 (target_rules top is_node (S n) c N) I O (not_lua (S n)) P). rewrite skip_dotdots. apply IH; [lia|exact EL].
Qed.

Lemma each_level_fuel ds u u' : each_level St obeys is_node on_disk note_read open_file ds u u' ->
  exists f, each_level St (fun d b text u u' => parse_text (directive f) (state_at d b u) text = (state_at d b u', true)) is_node on_disk note_read open_file ds u u'.
Proof.
  intros H. assert (forall f g ds u u', f <= g ->
    each_level St (fun d b text u u' => parse_text (directive f) (state_at d b u) text = (state_at d b u', true)) is_node on_disk note_read open_file ds u u' ->
    each_level St (fun d b text u u' => parse_text (directive g) (state_at d b u) text = (state_at d b u', true)) is_node on_disk note_read open_file ds u u') as M.
  { intros f g es v v' L E. induction E as [u0|d ds0 u0 u1 v' R D E IH|d ds0 u0 u1 u2 text u3 v' R D I O P E IH].
    - constructor.
    - exact (el_absent _ _ _ _ _ _ _ _ _ _ _ R D IH).
    - exact (el_present _ _ _ _ _ _ _ _ _ _ _ _ _ _ R D I O (parse_text_below _ _ (directive_more f g L) _ _ _ P) IH). }
  induction H as [u0|d ds0 u0 u1 v' R D E IH|d ds0 u0 u1 u2 text u3 v' R D I O [f P] E IH].
  - exists 0. constructor.
  - destruct IH as [f IH]. exists f. exact (el_absent _ _ _ _ _ _ _ _ _ _ _ R D IH).
  - destruct IH as [g IH]. exists (Nat.max f g).
    exact (el_present _ _ _ _ _ _ _ _ _ _ _ _ _ _ R D I O (parse_text_below _ _ (directive_more f _ (Nat.le_max_l f g)) _ _ _ P) (M _ _ _ _ _ (Nat.le_max_r f g) IH)).
Qed.
Lemma each_level_some_fuel f ds u u' :
  each_level St (fun d b text u u' => parse_text (directive f) (state_at d b u) text = (state_at d b u', true)) is_node on_disk note_read open_file ds u u' ->
  each_level St obeys is_node on_disk note_read open_file ds u u'.
Proof.
  intros E. induction E as [u0|d ds0 u0 u1 v' R D E IH|d ds0 u0 u1 u2 text u3 v' R D I O P E IH].
  - constructor.
  - exact (el_absent _ _ _ _ _ _ _ _ _ _ _ R D IH).
  - exact (el_present _ _ _ _ _ _ _ _ _ _ _ _ _ _ R D I O (ex_intro _ f P) IH).
Qed.
Lemma seq_levels (c : dir) : map (fun k => firstn k c) (seq (length c - length c) (S (length c))) = levels c.
Proof. unfold levels. rewrite Nat.sub_diag. reflexivity. Qed.

Lemma include_rules_ok c b u u' : does c b (B "include_rules") u u' <-> b = false /\ each_level St obeys is_node on_disk note_read open_file (levels c) u u'.
Proof.
  split.
  - intros [[|fuel] H]; [discriminate|]. change (include_rules (directive fuel) (state_at c b u) = (state_at c b u', true)) in H.
    destruct b; [discriminate|]. split; [reflexivity|].
    change ((let '(s, ok) := rules_loop (directive fuel) (length c) (state_at c true u) (dotdots (length c) ++ T) in (set_incl St s false, ok)) = (state_at c false u', true)) in H.
    destruct (rules_loop (directive fuel) (length c) (state_at c true u) (dotdots (length c) ++ T)) as [s1 ok] eqn:E. pose proof (f_equal snd H) as H2. pose proof (f_equal (fun x => user St (fst x)) H) as H1. cbn [fst snd user set_incl state_at] in H1, H2. subst ok.
    apply rules_loop_sound in E; [|apply directive_keeps|lia]. destruct E as [v [-> E]]. rewrite seq_levels in E. cbn [user state_at] in H1. subst v. exact (each_level_some_fuel _ _ _ _ E).
  - intros [-> E]. apply each_level_fuel in E. destruct E as [f E]. exists (S f). change (include_rules (directive f) (state_at c false u) = (state_at c false u', true)).
    change ((let '(s, ok) := rules_loop (directive f) (length c) (state_at c true u) (dotdots (length c) ++ T) in (set_incl St s false, ok)) = (state_at c false u', true)).
    rewrite (rules_loop_complete (directive f) c (length c) u u'); [reflexivity|lia|]. rewrite seq_levels. exact E.
Qed.

(** ** include *)
Lemma leads_up c es d : leads is_node c (B ".." :: es) d -> exists c' x, c = c' ++ [x] /\ leads is_node c' es d.
Proof.
  intros H. remember (B ".." :: es) as l eqn:E. destruct H as [|c x es' d L|c e es' d NE N L]; [discriminate| |].
  - assert (es' = es) as -> by congruence. exists c, x. auto.
  - exfalso. apply NE. congruence.
Qed.
Lemma leads_down c e es d : e <> B ".." -> leads is_node c (e :: es) d -> is_node (c ++ [e]) = true /\ leads is_node (c ++ [e]) es d.
Proof.
  intros X H. remember (e :: es) as l eqn:E. destruct H as [|c x es' d L|c e' es' d NE N L]; [discriminate| |].
  - exfalso. apply X. congruence.
  - assert (e' = e) as -> by congruence. assert (es' = es) as -> by congruence. auto.
Qed.
Lemma walk_leads es : forall c d, walk is_node c es = Some d <-> leads is_node c es d.
Proof.
  induction es as [|e es IH]; intros c d; cbn [walk].
  - split; [intros E; injection E as <-; constructor|intros H; inversion H; reflexivity].
  - destruct (bytes_eqb e (B "..")) eqn:E.
    + apply bytes_eqb_eq in E. subst e. destruct c as [|x c] using rev_ind.
      * split; [discriminate|]. intros H. apply leads_up in H. destruct H as [c [x [E _]]]. destruct c; discriminate.
      * clear IHc. rewrite removelast_last. destruct (c ++ [x]) eqn:CX; [destruct c; discriminate|]. rewrite <- CX. rewrite IH. split.
        -- intros L. constructor. exact L.
        -- intros H. apply leads_up in H. destruct H as [c' [y [X L]]]. apply app_inj_tail in X. destruct X as [-> ->]. exact L.
    + assert (e <> B "..") as NE by (intros ->; rewrite bytes_eqb_refl in E; discriminate).
      destruct (is_node (c ++ [e])) eqn:N.
      * rewrite IH. split; [intros L; apply ld_down; assumption|]. intros H. exact (proj2 (leads_down _ _ _ _ NE H)).
      * split; [discriminate|]. intros H. apply leads_down in H; [|exact NE]. destruct H as [H _]. congruence.
Qed.
Lemma target_names c file d name : include_target top is_node c file = Some (d, name) <-> names_file c file d name.
Proof.
  unfold include_target, names_file. destruct (get_path_elements top file) as [pg|]; [|split; [discriminate|intros [pg [es [X _]]]; discriminate]].
  split.
  - intros H. exists pg. destruct (pg_hidden pg); [discriminate|]. destruct (pg_outside pg); [discriminate|]. cbn [orb] in H.
    destruct (path_list pg) as [|e l] eqn:L; [discriminate|]. destruct (exists_last (l := e :: l)) as [es [x E]]; [discriminate|].
    rewrite E in H. rewrite removelast_last, last_last in H.
    destruct (walk is_node (if pg_root pg then [] else c) es) as [d'|] eqn:W; [|discriminate]. injection H as -> ->.
    exists es. split; [reflexivity|]. split; [reflexivity|]. split; [reflexivity|]. split; [exact E|]. apply walk_leads. exact W.
  - intros [pg' [es [X [Hd [Ho [E W]]]]]]. injection X as <-. rewrite Hd, Ho. cbn [orb]. rewrite E, removelast_last, last_last.
    apply walk_leads in W. rewrite W. destruct es; reflexivity.
Qed.

Lemma include_ok c b text u u' : does c b (B "include " ++ text) u u' <->
  exists u1 file d name u2 contents, eval_name c u text = (u1, Some file) /\ names_file c file d name /\
    is_node (d ++ [name]) = true /\ open_file u1 (d ++ [name]) = (u2, Some contents) /\
    (is_lua file = true /\ lua d u2 contents = (u', true) \/ is_lua file = false /\ obeys d b contents u2 u').
Proof.
  split.
  - intros [fuel H].
    assert (exists u1 file f, eval_name c u text = (u1, Some file) /\ fuel = S f /\ include_file (directive f) (state_at c b u1) file = (state_at c b u', true)) as [u1 [file [f [E [-> I]]]]].
    { destruct fuel as [|f]; cbn [IncludeModel.directive] in H; replace (prefixb (B "error ") (B "include " ++ text)) with false in H by reflexivity;
        replace (prefixb (B "include ") (B "include " ++ text)) with true in H by reflexivity; change (skipn 8 (B "include " ++ text)) with text in H; cbn [cur user state_at] in H;
        (destruct (eval_name c u text) as [u1 [file|]]; [|discriminate]); [discriminate|]. exists u1, file, f. split; [reflexivity|]. split; [reflexivity|exact H]. }
    unfold IncludeModel.include_file in I. change (cur St (state_at c b u1)) with c in I. change (user St (state_at c b u1)) with u1 in I.
    destruct (include_target top is_node c file) as [[d name]|] eqn:T; [|discriminate]. apply target_names in T.
    destruct (is_node (d ++ [name])) eqn:N; [|discriminate]. destruct (open_file u1 (d ++ [name])) as [u2 [contents|]] eqn:O; [|discriminate].
    exists u1, file, d, name, u2, contents. split; [exact E|]. split; [exact T|]. split; [exact N|]. split; [exact O|].
    destruct (is_lua file).
    + left. split; [reflexivity|]. destruct (lua d u2 contents) as [u3 ok]. injection I as -> ->. reflexivity.
    + right. split; [reflexivity|]. change (set_cur St (set_user St (state_at c b u1) u2) d) with (state_at d b u2) in I.
      destruct (parse_text (directive f) (state_at d b u2) contents) as [s2 ok] eqn:P. pose proof (f_equal snd I) as I2. pose proof (f_equal (fun x => user St (fst x)) I) as I1. cbn [fst snd user set_cur state_at] in I1, I2. subst ok.
      exists f. rewrite P. pose proof (state_eq _ _ _ _ (parse_text_keeps _ (directive_keeps f) _ _ _ P)) as Q. rewrite I1 in Q. rewrite Q. reflexivity.
  - intros [u1 [file [d [name [u2 [contents [E [T [N [O X]]]]]]]]]]. apply target_names in T.
    assert (forall f, directive (S f) (state_at c b u) (B "include " ++ text) = include_file (directive f) (state_at c b u1) file) as DI.
    { intros f. cbn [IncludeModel.directive]. replace (prefixb (B "error ") (B "include " ++ text)) with false by reflexivity.
      replace (prefixb (B "include ") (B "include " ++ text)) with true by reflexivity. change (skipn 8 (B "include " ++ text)) with text. cbn [cur user state_at]. rewrite E. reflexivity. }
    destruct X as [[L X]|[L [f X]]].
    + exists 1. rewrite DI. unfold IncludeModel.include_file. cbn [cur state_at user]. rewrite T, N, O, L, X. reflexivity.
    + exists (S f). rewrite DI. exact (include_step _ _ _ _ _ _ _ _ _ _ T N O L X).
Qed.
Lemma nested_rules c u fuel : snd (directive (S fuel) (state_at c true u) (B "include_rules")) = false.
Proof. reflexivity. Qed.
End include.

(** ** Lua *)
Lemma strstr_first m s a r : strstr m s = Some (a, r) -> s = a ++ m ++ r /\ forall x y, s = x ++ m ++ y -> length a <= length x.
Proof.
  revert a r. induction s as [|c s IH]; intros a r; cbn [strstr].
  - destruct (prefixb m []) eqn:P; [|discriminate]. intros H. injection H as <- <-. apply prefixb_spec in P. destruct P as [t P]. split; [|intros; cbn; lia].
    destruct m; [reflexivity|discriminate].
  - destruct (prefixb m (c :: s)) eqn:P.
    + intros H. injection H as <- <-. apply prefixb_spec in P. destruct P as [t P]. split; [|intros; cbn; lia]. cbn [app]. rewrite P at 1. f_equal.
      rewrite P, skipn_app, skipn_all, Nat.sub_diag. reflexivity.
    + destruct (strstr m s) as [[a' r']|] eqn:E; [|discriminate]. intros H. injection H as <- <-. destruct (IH _ _ eq_refl) as [I1 I2]. split; [cbn [app]; congruence|].
      intros [|x0 x] y Q.
      * exfalso. assert (prefixb m (c :: s) = true) by (apply prefixb_spec; exists y; exact Q). congruence.
      * cbn [length]. apply le_n_S. apply (I2 x y). cbn [app] in Q. congruence.
Qed.
Lemma strstr_none m s : strstr m s = None -> forall x y, s <> x ++ m ++ y.
Proof.
  induction s as [|c s IH]; cbn [strstr]; intros H x y Q.
  - destruct (prefixb m []) eqn:P; [discriminate|]. symmetry in Q. apply app_eq_nil in Q. destruct Q as [-> Q]. apply app_eq_nil in Q. destruct Q as [-> ->]. discriminate.
  - destruct (prefixb m (c :: s)) eqn:P; [discriminate|]. destruct (strstr m s) as [[a r]|] eqn:E; [discriminate|].
    destruct x as [|x0 x].
    + assert (prefixb m (c :: s) = true) by (apply prefixb_spec; exists y; exact Q). congruence.
    + cbn [app] in Q. apply (IH eq_refl x y). congruence.
Qed.
Lemma is_lua_name file : is_lua file = true <-> lua_name file.
Proof.
  unfold is_lua, lua_name. destruct (strstr (B ".lua") file) as [[a r]|] eqn:E.
  - apply strstr_first in E. destruct E as [E1 E2]. split.
    + destruct r; [|discriminate]. intros _. split; [exists a; rewrite E1; rewrite app_nil_r; reflexivity|].
      intros x y Q. pose proof (E2 x y Q) as L. rewrite E1 in Q. apply (f_equal (@length _)) in Q. rewrite !app_length in Q.
      destruct y; [reflexivity|]. cbn [length] in Q. lia.
    + intros [_ H]. rewrite (H a r E1). reflexivity.
  - split; [discriminate|]. intros [[a H] _]. exfalso. apply (strstr_none _ _ E a []). rewrite app_nil_r. exact H.
Qed.
