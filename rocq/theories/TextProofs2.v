(** Every text is a sequence of items, and how it is obeyed. *)
From Verif Require Import Base ConfigModel ConfigSpec ConfigProofs ParseModel ParseSpec ParseProofs IfModel TextModel TextSpec TextProofs.
From Coq Require Import ZArith.

Lemma two (v : bytes) : v ++ ["\"; "013"]%char = (v ++ ["\"%char]) ++ ["013"%char].
Proof. rewrite <- app_assoc. reflexivity. Qed.
Lemma split_line s : exists b r, s = b ++ ending r /\ ~ In newline b.
Proof.
  induction s as [|c s [b [r [E N]]]]; [exists [], None; split; [reflexivity|auto]|].
  destruct (ascii_dec c newline) as [->|D]; [exists [], (Some s); split; [reflexivity|auto]|].
  exists (c :: b), r. split; [cbn; congruence|]. intros [H|H]; [congruence|auto].
Qed.
Lemma no_nul_app a b : no_nul (a ++ b) <-> no_nul a /\ no_nul b.
Proof. unfold no_nul. rewrite in_app_iff. tauto. Qed.
Definition pieces_text (ps : list (bytes * bool)) := concat (map piece_text ps).
Definition tail_break (k : bool) : bytes := if k then [backslash; cr] else [backslash].
Definition closed (l tr : bytes) : Prop := one_line l /\ ~ ends_white l /\ Forall white tr /\ one_line tr /\
  (forall t, l = t ++ [backslash] -> tr <> [] /\ tr <> [cr]).
Lemma unfinished_break b : unfinished b -> exists u k, b = u ++ tail_break k.
Proof. intros [t [H|H]]; [exists t, false|exists t, true]; exact H. Qed.
Lemma close_line b : one_line b -> continued b = false -> exists l tr, b = l ++ tr /\ closed l tr.
Proof.
  intros O C. destruct (rstrip_split b) as [a [E W]]. exists (rstrip b), a. split; [exact E|]. rewrite E in O. apply one_line_app in O. destruct O as [O1 O2].
  split; [exact O1|]. split; [apply rstrip_ends|]. split; [exact W|]. split; [exact O2|]. intros t T.
  split; intros Z; rewrite Z, T in E; assert (unfinished b) as U by (exists t; rewrite E, <- app_assoc; auto);
    apply continued_spec in U; congruence.
Qed.
Lemma gather k : forall s, length s <= k -> no_nul s ->
  exists ps, Forall (fun p => one_line (fst p)) ps /\
  ((exists l tr r, s = pieces_text ps ++ (l ++ tr) ++ ending r /\ closed l tr) \/
   (exists u b, s = pieces_text ps ++ u ++ tail_break b /\ one_line u)).
Proof.
  induction k as [|k IH]; intros s L Z.
  - destruct s; [|cbn in L; lia]. exists []. split; [constructor|]. left. exists [], [], None. split; [reflexivity|].
    repeat split; try (intros []; fail); [intros [t [c [H _]]]; destruct t; discriminate|constructor|destruct t; discriminate|destruct t; discriminate].
  - destruct (split_line s) as [b [r [E N]]]. assert (one_line b) as O.
    { split; [exact N|]. rewrite E in Z. apply no_nul_app in Z. exact (proj1 Z). }
    destruct (continued b) eqn:C.
    + apply continued_spec in C. destruct (unfinished_break b C) as [u [j U]]. assert (one_line u) as Ou by (rewrite U in O; apply one_line_app in O; exact (proj1 O)).
      destruct r as [r|].
      * destruct (IH r) as [ps [Hp H]].
        { rewrite E, app_length in L. cbn [ending length] in L. lia. }
        { rewrite E in Z. apply no_nul_app in Z. intros H. apply (proj2 Z). right. exact H. }
        assert (K : s = piece_text (u, j) ++ r) by (rewrite E, U; unfold piece_text, tail_break; cbn [fst snd ending]; destruct j; rewrite <- !app_assoc; reflexivity).
        exists ((u, j) :: ps). split; [constructor; assumption|]. unfold pieces_text in *. cbn [map concat].
        destruct H as [[l [tr [r' [H1 H2]]]]|[u' [b' [H1 H2]]]]; [left; exists l, tr, r'|right; exists u', b']; (split; [rewrite K, H1, <- !app_assoc; reflexivity|exact H2]).
      * exists []. split; [constructor|]. right. exists u, j. split; [rewrite E, U; cbn [ending]; rewrite app_nil_r; reflexivity|exact Ou].
    + destruct (close_line b O C) as [l [tr [B1 B2]]]. exists []. split; [constructor|]. left. exists l, tr, r. split; [rewrite E, B1; reflexivity|exact B2].
Qed.
Definition ended (l : list item) : bytes := concat (map (fun i => item_text i ++ [newline]) l).
Definition torn (s : bytes) : Prop := exists indent ps u b, s = indent ++ pieces_text ps ++ u ++ tail_break b /\
  Forall white indent /\ one_line indent /\ Forall (fun p => one_line (fst p)) ps /\ one_line u /\ ~ starts_white (pieces_text ps ++ u ++ tail_break b).
Lemma white_split b : one_line b -> Forall white b \/ exists i c t, b = i ++ c :: t /\ Forall white i /\ one_line i /\ ~ white c.
Proof.
  intros O. destruct (lstrip_split b) as [i [E W]]. destruct (lstrip b) as [|c t] eqn:L.
  - left. rewrite app_nil_r in E. congruence.
  - right. exists i, c, t. repeat split; [exact E|exact W| | |apply (lstrip_head b c t L)]; rewrite E in O; apply one_line_app in O; apply O.
Qed.
Lemma pieces_head ps rest c t : pieces_text ps ++ rest = c :: t -> pieces_text ps = [] -> ps = [] /\ rest = c :: t.
Proof.
  intros H E. destruct ps as [|p ps]; [auto|]. unfold pieces_text in E. cbn [map concat] in E. apply app_eq_nil in E. destruct E as [E _].
  unfold piece_text in E. apply app_eq_nil in E. destruct E as [_ E]. destruct (snd p); discriminate.
Qed.
Lemma white_newline : white newline. Proof. cbn. auto. Qed.
Lemma decompose k : forall s, length s <= k -> no_nul s ->
  exists items, Forall item_ok items /\ ((items <> [] /\ s = file_text items) \/ exists t, torn t /\ s = ended items ++ t).
Proof.
  induction k as [|k IH]; intros s L Z.
  - destruct s; [|cbn in L; lia]. exists [Blank []]. split; [|left; split; [discriminate|reflexivity]].
    constructor; [|constructor]. cbn. repeat split; auto; intros [].
  - destruct (split_line s) as [b [r [E N]]]. assert (one_line b) as O.
    { split; [exact N|]. rewrite E in Z. apply no_nul_app in Z. exact (proj1 Z). }
    assert (Step : forall i r', item_ok i -> s = item_text i ++ ending r' ->
      exists items, Forall item_ok items /\ ((items <> [] /\ s = file_text items) \/ exists t, torn t /\ s = ended items ++ t)).
    { intros i r' Oi Es. destruct r' as [r'|].
      - destruct (IH r') as [items [F D]].
        { rewrite Es, app_length in L. cbn [ending length] in L. lia. }
        { rewrite Es in Z. apply no_nul_app in Z. intros H. apply (proj2 Z). right. exact H. }
        exists (i :: items). split; [constructor; assumption|]. destruct D as [[D1 D2]|[t [D1 D2]]].
        + left. split; [discriminate|]. rewrite Es. cbn [ending]. destruct items as [|j items]; [congruence|]. rewrite D2. reflexivity.
        + right. exists t. split; [exact D1|]. rewrite Es, D2. unfold ended. cbn [map concat ending]. rewrite <- !app_assoc. reflexivity.
      - exists [i]. split; [constructor; [exact Oi|constructor]|]. left. split; [discriminate|]. rewrite Es. cbn [ending file_text]. apply app_nil_r. }
    destruct (white_split b O) as [W|[indent [c [t [B1 [B2 [B3 B4]]]]]]].
    + apply (Step (Blank b) r); [split; assumption|exact E].
    + assert (Hs : s = indent ++ (c :: t) ++ ending r) by (rewrite E, B1, <- app_assoc; reflexivity).
      assert (c <> newline) as Cn by (intros ->; apply B4, white_newline).
      destruct (gather (length ((c :: t) ++ ending r)) ((c :: t) ++ ending r) (le_n _)) as [ps [Hp H]].
      { rewrite Hs in Z. apply no_nul_app in Z. exact (proj2 Z). }
      destruct H as [[l [tr [r' [H1 [Cl1 [Cl2 [Cl3 [Cl4 Cl5]]]]]]]]|[u [j [H1 H2]]]].
      * assert (Hd : exists d x, pieces_text ps ++ l = d :: x /\ d = c).
        { destruct (pieces_text ps ++ l) as [|d x] eqn:X.
          - exfalso. apply app_eq_nil in X. destruct X as [X1 X2]. subst l. cbn [app] in H1. symmetry in H1.
            destruct (pieces_head _ _ _ _ H1 X1) as [_ H3]. destruct tr as [|w tr].
            + cbn [app] in H3. destruct r'; cbn [ending] in H3; [|discriminate]. injection H3 as H3 _. congruence.
            + cbn [app] in H3. injection H3 as -> _. inversion Cl3; contradiction.
          - exists d, x. split; [reflexivity|]. rewrite <- app_assoc, app_assoc, X in H1. cbn [app] in H1. congruence. }
        destruct Hd as [d [x [X ->]]].
        apply (Step (Statement indent ps l tr) r').
        -- cbn [item_ok]. fold (pieces_text ps). rewrite X. repeat split; auto; try apply B3; try apply Cl1; try apply Cl4; try discriminate.
           ++ intros [d [y [[= -> _] W]]]. contradiction.
           ++ intros Et. exact (proj1 (Cl5 _ H) Et).
           ++ intros Et. exact (proj2 (Cl5 _ H) Et).
        -- rewrite Hs, H1. cbn [item_text]. unfold pieces_text. rewrite <- !app_assoc. reflexivity.
      * exists []. split; [constructor|]. right. exists s. split; [|reflexivity]. exists indent, ps, u, j. rewrite Hs, H1.
        repeat split; auto; try apply B3; try apply H2. rewrite <- H1. intros [d [y [Y W]]]. cbn [app] in Y. injection Y as -> _. contradiction.
Qed.

Lemma torn_unfinished t : torn t -> unfinished t.
Proof.
  intros [i [ps [u [b [-> _]]]]]. exists (i ++ pieces_text ps ++ u). destruct b; [right|left]; cbn [tail_break]; rewrite <- !app_assoc; reflexivity.
Qed.
Lemma file_text_finished items : Forall item_ok items -> ~ unfinished (file_text items).
Proof.
  induction items as [|i items IH]; intros O U.
  - destruct U as [t [U|U]]; destruct t; discriminate.
  - inversion O as [|? ? Oi Or]; subst. destruct items as [|j items].
    + cbn [file_text] in U. apply continued_spec in U. destruct i as [ws|indent ps l tr].
      * destruct Oi as [W _]. pose proof (not_continued [] [] ws) as K. cbn [app] in K. cbn [item_text] in U.
        assert (continued ws = false) as C0; [|congruence]. apply K; [left; reflexivity| |exact W|]; [intros [t [c [H _]]]; destruct t; discriminate|intros t H; destruct t; discriminate].
      * destruct Oi as [_ [_ [_ [Hl [He [Hw [Ht [Hn [Hs Hb]]]]]]]]]. cbn [item_text] in U.
        assert (continued (l ++ tr) = false) as C by (apply (not_continued [] l tr); auto).
        assert (l ++ tr = [] \/ l ++ tr <> []) as [Em|Ne] by (destruct (l ++ tr); [left; reflexivity|right; discriminate]).
        -- apply app_eq_nil in Em. destruct Em as [-> ->]. rewrite !app_nil_r in *. apply continued_spec in U.
           destruct ps as [|p ps] using rev_ind; [cbn in Hn; congruence|]. clear IHps.
           rewrite map_app, concat_app in U. cbn [map concat] in U. rewrite app_nil_r in U.
           assert (exists w, piece_text p = w ++ [newline]) as [w Ew] by (unfold piece_text; destruct (snd p); [exists (fst p ++ ["\"; "013"]%char)|exists (fst p ++ ["\"%char])]; rewrite <- app_assoc; reflexivity).
           rewrite Ew, !app_assoc in U. destruct U as [v [U|U]]; [|rewrite two in U];
             apply app_inj_tail in U; destruct U as [_ U]; discriminate.
        -- apply continued_spec in U. rewrite app_assoc in U.
           assert (unfinished (l ++ tr)) as V; [|apply continued_spec in V; congruence]. destruct U as [v [U|U]].
           ++ apply ends_last in U; [|exact Ne]. destruct U as [y U]. exists y. left. exact U.
           ++ pose proof U as U0. rewrite two in U. apply ends_last in U; [|exact Ne].
              destruct U as [y U]. rewrite U, app_assoc in U0. rewrite two in U0.
              apply app_inj_tail in U0. destruct U0 as [U0 _]. destruct y as [|y0 y].
              ** exfalso. rewrite app_nil_r in U0. cbn [app] in U. destruct l as [|c l].
                 --- rewrite ?app_nil_r in *. destruct ps as [|p ps] using rev_ind; [cbn in Hn; congruence|]. clear IHps.
                     rewrite map_app, concat_app in U0. cbn [map concat] in U0. rewrite app_nil_r in U0.
                     assert (exists w, piece_text p = w ++ [newline]) as [w Ew] by (unfold piece_text; destruct (snd p); [exists (fst p ++ ["\"; "013"]%char)|exists (fst p ++ ["\"%char])]; rewrite <- app_assoc; reflexivity).
                     rewrite Ew, !app_assoc in U0. apply app_inj_tail in U0. destruct U0 as [_ U0]. discriminate.
                 --- apply He. destruct tr as [|w tr]; [|cbn [app] in U; injection U as _ U; destruct l; discriminate].
                     rewrite app_nil_r in U. exists [], "013"%char. split; [exact U|]. do 5 right. left. reflexivity.
              ** apply ends_last in U0; [|discriminate]. destruct U0 as [q U0]. exists q. right. rewrite U, U0, <- app_assoc. reflexivity.
    + apply (IH Or). change (file_text (i :: j :: items)) with (item_text i ++ newline :: file_text (j :: items)) in U.
      destruct U as [t U]. set (F := file_text (j :: items)) in *.
      destruct F as [|c F'].
      * destruct U as [U|U]; [|rewrite two in U];
          apply app_inj_tail in U; destruct U as [_ U]; discriminate.
      * replace (item_text i ++ newline :: c :: F') with ((item_text i ++ [newline]) ++ c :: F') in U by (rewrite <- app_assoc; reflexivity).
        destruct U as [U|U].
        -- apply ends_last in U; [|discriminate]. destruct U as [y U]. exists y. left. exact U.
        -- pose proof U as U0. rewrite two in U. apply ends_last in U; [|discriminate].
           destruct U as [y U]. rewrite U, app_assoc in U0. rewrite two in U0.
           apply app_inj_tail in U0. destruct U0 as [U0 _]. destruct y as [|y0 y].
           ++ rewrite app_nil_r in U0. apply app_inj_tail in U0. destruct U0 as [_ U0]. discriminate.
           ++ apply ends_last in U0; [|discriminate]. destruct U0 as [q U0]. exists q. right. rewrite U, U0, <- app_assoc. reflexivity.
Qed.
Lemma every_text s : no_nul s -> (~ unfinished s <-> exists items, items <> [] /\ Forall item_ok items /\ s = file_text items).
Proof.
  intros Z. split.
  - intros U. destruct (decompose (length s) s (le_n _) Z) as [items [F [[N E]|[t [T E]]]]]; [exists items; auto|].
    exfalso. apply U. apply torn_unfinished in T. destruct T as [v [T|T]]; rewrite E, T; exists (ended items ++ v); [left|right]; rewrite <- app_assoc; reflexivity.
  - intros [items [_ [F ->]]]. apply file_text_finished, F.
Qed.

(** ** Files that end in a backslash *)
Lemma lines_torn t n : torn t -> all_lines n t = ([], false).
Proof.
  intros [i [ps [u [b [-> [Hi [Hi1 [Hp [Hu Hs]]]]]]]]]. unfold all_lines. cbn [lines next_line]. rewrite white_one_line_skip by assumption. rewrite skip_stop by exact Hs.
  set (X := pieces_text ps ++ u ++ tail_break b). destruct X as [|c X'] eqn:E.
  - unfold X in E. apply app_eq_nil in E. destruct E as [_ E]. apply app_eq_nil in E. destruct E as [_ E]. destruct b; discriminate.
  - rewrite <- E at 2. unfold X. unfold pieces_text, tail_break. rewrite take_line_unfinished; [reflexivity|assumption|assumption|].
    rewrite <- E. unfold X, pieces_text. rewrite app_length. clear. induction ps as [|p ps IH]; [cbn; lia|]. cbn [map concat]. rewrite app_length.
    assert (1 <= length (piece_text p)) by (unfold piece_text; rewrite app_length; destruct (snd p); cbn; lia). cbn [length]. lia.
Qed.
Lemma lines_ended_torn t items : forall n, torn t -> Forall item_ok items ->
  exists st, statements (S n) items st /\ all_lines n (ended items ++ t) = (st, false).
Proof.
  induction items as [|i items IH]; intros n T O.
  - exists []. split; [constructor|]. apply lines_torn, T.
  - inversion O as [|? ? Oi Or]; subst. unfold ended. cbn [map concat]. fold (ended items). rewrite <- !app_assoc. cbn [app].
    destruct i as [ws|indent ps l tr].
    + destruct (IH (S n) T Or) as [st [S1 S2]]. exists st. split; [constructor; exact S1|]. destruct Oi as [W O1]. cbn [item_text]. rewrite blank_step by assumption. exact S2.
    + destruct (IH (S (n + length ps)) T Or) as [st [S1 S2]].
      destruct (statement_step n indent ps l tr (Some (ended items ++ t)) Oi) as [q [T1 [T2 T3]]]. cbn [ending] in T2, T3.
      destruct (comment_dec (said ps l)) as [C|C].
      * exists st. split; [apply st_comment; [exact C|exact S1]|]. rewrite (T2 C). exact S2.
      * exists ((S n + length ps, q) :: st). split; [apply st_statement; [exact C|exact T1|exact S1]|]. rewrite (T3 C), S2. reflexivity.
Qed.

(** ** Obeying *)
Section Obey.
Variable St : Type.
Variable eval_eq : St -> bytes -> St * option bool.
Variable var_ifdef : St -> bytes -> St * option bool.
Variable other : St -> bytes -> St * bool.
Notation dl := (do_line St eval_eq var_ifdef other).
Notation pl := (parse_loop St eval_eq var_ifdef other).
Notation thr := (through St if_stmt dl).
Definition final (i : if_stmt) (b : bool) : verdict := if b then (if if_check i then Parsed else MissingEndif) else OutOfBounds.
Fixpoint obey (s : St) (i : if_stmt) (st : list (nat * bytes)) (b : bool) : St * verdict :=
  match st with
  | [] => (s, final i b)
  | (n, l) :: r => match dl s i l with (s1, None) => (s1, ErrorAt n) | (s1, Some i1) => obey s1 i1 r b end
  end.
Lemma loop_obey fuel : forall s i n r, length r < fuel -> pl fuel s i n r = let '(st, b) := lines fuel n r in obey s i st b.
Proof.
  induction fuel as [|fuel IH]; intros s i n r F; [lia|]. cbn [parse_loop lines].
  destruct (next_line (S (length r)) n r) as [| |m l t] eqn:E; [reflexivity|reflexivity|].
  apply next_line_len in E. specialize (IH) with (r := t). destruct (lines fuel m t) as [x b] eqn:L. cbn [obey].
  destruct (dl s i l) as [s1 [i1|]]; [|reflexivity]. rewrite IH by lia. rewrite L. reflexivity.
Qed.
Lemma obey_cases st : forall s i b s' v, obey s i st b = (s', v) ->
  (exists i', thr s i (map snd st) s' i' /\ v = final i' b) \/
  (exists a n l c s1 i1, st = a ++ (n, l) :: c /\ thr s i (map snd a) s1 i1 /\ dl s1 i1 l = (s', None) /\ v = ErrorAt n).
Proof.
  induction st as [|[n l] st IH]; intros s i b s' v; cbn [obey map snd].
  - intros [= <- <-]. left. exists i. split; [constructor|reflexivity].
  - destruct (dl s i l) as [s1 [i1|]] eqn:D.
    + intros H. destruct (IH _ _ _ _ _ H) as [[i' [T V]]|[a [m [k [c [s2 [i2 [E [T [F V]]]]]]]]]].
      * left. exists i'. split; [econstructor; eassumption|exact V].
      * right. exists ((n, l) :: a), m, k, c, s2, i2. split; [rewrite E; reflexivity|]. split; [cbn [map snd]; econstructor; eassumption|]. auto.
    + intros [= <- <-]. right. exists [], n, l, st, s, i. split; [reflexivity|]. split; [constructor|]. auto.
Qed.
Lemma through_lines ls : forall s i s' i', thr s i ls s' i' -> parse_lines St eval_eq var_ifdef other s i ls = (s', if_check i').
Proof. induction ls as [|l ls IH]; intros s i s' i' H; inversion H; subst; cbn [parse_lines]; [reflexivity|]. match goal with D : do_line _ _ _ _ _ _ _ = _ |- _ => rewrite D end. apply IH. assumption. Qed.
Lemma obey_ok st : forall s i s' i', thr s i (map snd st) s' i' -> forall b, obey s i st b = (s', final i' b).
Proof.
  induction st as [|[n l] st IH]; intros s i s' i' H b; cbn [map snd] in H; inversion H; subst; cbn [obey]; [reflexivity|]. match goal with D : do_line _ _ _ _ _ _ _ = _ |- _ => rewrite D end. apply IH. assumption.
Qed.
Lemma obey_fail a : forall s i n l c s1 i1 s' b, thr s i (map snd a) s1 i1 -> dl s1 i1 l = (s', None) -> obey s i (a ++ (n, l) :: c) b = (s', ErrorAt n).
Proof.
  induction a as [|[m k] a IH]; intros s i n l c s1 i1 s' b T F; cbn [map snd] in T; inversion T; subst; cbn [app obey]; [rewrite F; reflexivity|].
  match goal with D : do_line _ _ _ _ s i k = _ |- _ => rewrite D end. eapply IH; eassumption.
Qed.

(** What a Tupfile does. *)
Lemma parse_finished items s s' v : items <> [] -> Forall item_ok items -> prefixb bom (file_text items) = false ->
  exists st, statements 1 items st /\
  (parse_tupfile St eval_eq var_ifdef other s (file_text items) = (s', v) <->
   (exists i', thr s if_init (map snd st) s' i' /\ v = if if_check i' then Parsed else MissingEndif) \/
   (exists a n l c s1 i1, st = a ++ (n, l) :: c /\ thr s if_init (map snd a) s1 i1 /\ dl s1 i1 l = (s', None) /\ v = ErrorAt n)).
Proof.
  intros N O Bm. destruct (lines_items items 0 O) as [st [S1 S2]]. exists st. split; [exact S1|].
  unfold parse_tupfile, slurp. rewrite Bm. rewrite loop_obey by lia. unfold all_lines in S2. rewrite S2. split.
  - intros H. apply obey_cases in H. exact H.
  - intros [[i' [T ->]]|[a [n [l [c [s1 [i1 [-> [T [F ->]]]]]]]]]].
    + rewrite (obey_ok _ _ _ _ _ T). reflexivity.
    + eapply obey_fail; eassumption.
Qed.
Lemma parse_torn f s s' v : no_nul f -> unfinished f -> prefixb bom f = false ->
  exists items st t, f = ended items ++ t /\ Forall item_ok items /\ statements 1 items st /\
  (parse_tupfile St eval_eq var_ifdef other s f = (s', v) <->
   (exists i', thr s if_init (map snd st) s' i' /\ v = OutOfBounds) \/
   (exists a n l c s1 i1, st = a ++ (n, l) :: c /\ thr s if_init (map snd a) s1 i1 /\ dl s1 i1 l = (s', None) /\ v = ErrorAt n)).
Proof.
  intros Z U Bm. destruct (decompose (length f) f (le_n _) Z) as [items [F [[N E]|[t [T E]]]]].
  - exfalso. rewrite E in U. exact (file_text_finished items F U).
  - destruct (lines_ended_torn t items 0 T F) as [st [S1 S2]]. exists items, st, t. split; [exact E|]. split; [exact F|]. split; [exact S1|].
    unfold parse_tupfile, slurp. rewrite Bm. rewrite loop_obey by lia. rewrite <- E in S2. unfold all_lines in S2. rewrite S2. split.
    + intros H. apply obey_cases in H. exact H.
    + intros [[i' [Th ->]]|[a [n [l [c [s1 [i1 [-> [Th [D ->]]]]]]]]]].
      * rewrite (obey_ok _ _ _ _ _ Th). reflexivity.
      * eapply obey_fail; eassumption.
Qed.
End Obey.

(** A test for [item_ok]. *)
Definition one_lineb (s : bytes) : bool := negb (existsb (Ascii.eqb newline) s) && negb (existsb (Ascii.eqb nul) s).
Definition item_okb (i : item) : bool :=
  match i with
  | Blank ws => forallb isspace ws && one_lineb ws
  | Statement indent ps l tr =>
      forallb isspace indent && one_lineb indent && forallb (fun p => one_lineb (fst p)) ps && one_lineb l && bytes_eqb (rstrip l) l &&
      forallb isspace tr && one_lineb tr && negb (match pieces_text ps ++ l with [] => true | c :: _ => isspace c end) && negb (continued (l ++ tr))
  end.
Lemma one_lineb_ok s : one_lineb s = true -> one_line s.
Proof.
  unfold one_lineb. rewrite andb_true_iff, !negb_true_iff. intros [H1 H2].
  assert (forall c, existsb (Ascii.eqb c) s = false -> ~ In c s) as K.
  { intros c E I. assert (existsb (Ascii.eqb c) s = true); [|congruence]. apply existsb_exists. exists c. split; [exact I|apply Ascii.eqb_refl]. }
  split; apply K; assumption.
Qed.
Lemma forallb_white s : forallb isspace s = true -> Forall white s.
Proof. intros H. apply Forall_forall. intros c I. apply isspace_white. rewrite forallb_forall in H. apply H, I. Qed.
Lemma item_okb_ok i : item_okb i = true -> item_ok i.
Proof.
  destruct i as [ws|indent ps l tr]; cbn [item_okb item_ok].
  - rewrite andb_true_iff. intros [H1 H2]. split; [apply forallb_white, H1|apply one_lineb_ok, H2].
  - rewrite !andb_true_iff. intros [[[[[[[[H1 H2] H3] H4] H5] H6] H7] H8] H9].
    split; [apply forallb_white, H1|]. split; [apply one_lineb_ok, H2|].
    split; [apply Forall_forall; intros p I; apply one_lineb_ok; rewrite forallb_forall in H3; apply H3, I|].
    split; [apply one_lineb_ok, H4|]. split; [apply bytes_eqb_eq in H5; rewrite <- H5; apply rstrip_ends|].
    split; [apply forallb_white, H6|]. split; [apply one_lineb_ok, H7|]. fold (pieces_text ps).
    split; [intros K; rewrite K in H8; discriminate|]. split; [intros [c [t [K W]]]; rewrite K in H8; apply isspace_white in W; rewrite W in H8; discriminate|].
    intros t ->. split; intros ->; cbn in H9; apply negb_true_iff in H9.
    + rewrite app_nil_r in H9. assert (continued (t ++ ["\"%char]) = true) by (apply continued_spec; exists t; auto). congruence.
    + assert (continued ((t ++ ["\"%char]) ++ ["013"%char]) = true) by (apply continued_spec; exists t; right; rewrite <- app_assoc; reflexivity). congruence.
Qed.
Lemma items_okb l : forallb item_okb l = true -> Forall item_ok l.
Proof. intros H. apply Forall_forall. intros i I. apply item_okb_ok. rewrite forallb_forall in H. apply H, I. Qed.
