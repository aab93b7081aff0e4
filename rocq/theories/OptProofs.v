From Verif Require Import Base ConfigModel ConfigSpec ConfigProofs OptModel OptSpec.

(** ** The store *)
Lemma get_assoc v o : vardb_get v o = assoc v o.
Proof. induction v as [|[k w] v IH]; cbn; [reflexivity|]. rewrite IH. reflexivity. Qed.
Lemma get_set v o w x : ordered v -> vardb_get (vardb_set v o w) x = if bytes_eqb o x then Some w else vardb_get v x.
Proof. intros O. rewrite !get_assoc. apply assoc_set, O. Qed.

(** ** Searching a line *)
Definition stops (chars : bytes) (ws : bool) (c : ascii) : bool := existsb (Ascii.eqb c) chars || (ws && (c =?c ";"%char)).
Fixpoint quiet (chars : bytes) (ws : bool) (a : bytes) : bool :=
  match a with [] => true | c :: t => negb (stops chars ws c) && quiet chars (isspace c) t end.
Fixpoint last_space (ws : bool) (a : bytes) : bool := match a with [] => ws | c :: t => last_space (isspace c) t end.
Lemma find_stop chars a : forall ws c r, quiet chars ws a = true -> stops chars (last_space ws a) c = true -> find_chars chars ws (a ++ c :: r) = (a, c :: r).
Proof.
  induction a as [|x a IH]; intros ws c r Q S; cbn [app find_chars].
  - cbn in S. unfold stops in S. rewrite S. reflexivity.
  - cbn in Q. apply andb_true_iff in Q as [Q1 Q2]. apply negb_true_iff in Q1. unfold stops in Q1. rewrite Q1. rewrite (IH _ c r Q2 S). reflexivity.
Qed.
Lemma find_none chars a : forall ws, quiet chars ws a = true -> find_chars chars ws a = (a, []).
Proof.
  induction a as [|x a IH]; intros ws Q; cbn [find_chars]; [reflexivity|].
  cbn in Q. apply andb_true_iff in Q as [Q1 Q2]. apply negb_true_iff in Q1. unfold stops in Q1. rewrite Q1, (IH _ Q2). reflexivity.
Qed.
Lemma quiet_app chars a b : forall ws, quiet chars ws (a ++ b) = quiet chars ws a && quiet chars (last_space ws a) b.
Proof. induction a as [|x a IH]; intros ws; cbn; [reflexivity|]. rewrite IH, andb_assoc. reflexivity. Qed.
Lemma last_space_app ws a b : last_space ws (a ++ b) = last_space (last_space ws a) b.
Proof. revert ws. induction a as [|x a IH]; intros ws; cbn; [reflexivity|apply IH]. Qed.
Lemma stops_spec chars ws c : stops chars ws c = true <-> In c chars \/ (ws = true /\ c = ";"%char).
Proof.
  unfold stops. rewrite orb_true_iff, andb_true_iff, existsb_exists, Ascii.eqb_eq. split; (intros [H|H]; [left|right; exact H]).
  - destruct H as [x [I E]]. apply Ascii.eqb_eq in E. congruence.
  - exists c. split; [exact H|apply Ascii.eqb_refl].
Qed.
Lemma no_comment_tail c s : no_comment (c :: s) -> no_comment s.
Proof. intros H a x b E. apply (H (c :: a) x b). rewrite E. reflexivity. Qed.
Lemma quiet_plain chars s : forall ws, (forall c, In c chars -> ~ In c s) -> no_comment s -> (ws = true -> hd "000"%char s <> ";"%char) -> quiet chars ws s = true.
Proof.
  induction s as [|c s IH]; intros ws N C W; cbn [quiet]; [reflexivity|]. apply andb_true_iff. split.
  - apply negb_true_iff. destruct (stops chars ws c) eqn:E; [|reflexivity]. apply stops_spec in E as [E|[-> ->]]; [elim (N c E); left; reflexivity|]. elim (W eq_refl eq_refl).
  - apply IH; [intros x I J; apply (N x I); right; exact J|exact (no_comment_tail _ _ C)|].
    intros E. destruct s as [|y s]; [discriminate|]. cbn. intros ->. apply (C [] c s eq_refl). apply isspace_white, E.
Qed.
Lemma quiet_white chars s : (forall c, In c chars -> ~ white c) -> Forall white s -> forall ws, quiet chars ws s = true.
Proof.
  intros N F. induction F as [|c s H F IH]; intros ws; cbn [quiet]; [reflexivity|]. rewrite IH, andb_true_r. apply negb_true_iff. destruct (stops chars ws c) eqn:E; [|reflexivity].
  apply stops_spec in E as [E|[_ ->]]; [elim (N c E H)|]. exfalso. cbn in H. intuition discriminate.
Qed.
Lemma last_space_white s : forall ws, Forall white s -> s <> [] -> last_space ws s = true.
Proof. induction s as [|c s IH]; intros ws F N; [congruence|]. inversion F; subst. cbn. destruct s as [|d s]; [cbn; apply isspace_white; assumption|]. apply IH; [assumption|discriminate]. Qed.

Lemma white_not c : ~ white c -> isspace c = false.
Proof. intros N. destruct (isspace c) eqn:E; [elim N; apply isspace_white, E|reflexivity]. Qed.
Lemma lstrip_id s : ~ starts_white s -> lstrip s = s.
Proof. destruct s as [|c s]; [reflexivity|]. intros N. cbn. rewrite white_not; [reflexivity|]. intros W. apply N. exists c, s. auto. Qed.
Lemma not_ends_app a c s : ~ ends_white (c :: s) -> ~ ends_white (a ++ c :: s).
Proof.
  intros N [t [x [E W]]]. apply N. destruct (exists_last (l := c :: s)) as [u [y Eu]]; [discriminate|]. rewrite Eu in E. rewrite app_assoc in E. apply app_inj_tail in E as [_ ->].
  exists u, x. auto.
Qed.

Lemma find_split chars s : forall ws, s = fst (find_chars chars ws s) ++ snd (find_chars chars ws s).
Proof. induction s as [|c s IH]; intros ws; cbn [find_chars]; [reflexivity|]. destruct (_ || _); [reflexivity|]. specialize (IH (isspace c)). destruct (find_chars chars (isspace c) s) as [a b]. cbn in *. congruence. Qed.
Lemma rstrip_sub s c : In c (rstrip s) -> In c s.
Proof. intros I. destruct (rstrip_split s) as [w [E _]]. rewrite E. apply in_or_app. left. exact I. Qed.

(** ** One line *)
Section Line.
  Context {U : Type} (handler : U -> bytes -> bytes -> bytes -> U * bool).
  Notation st := (ini_st U).
  Definition mean (lineno : nat) (s : st) (m : meaning) : st :=
    match m with
    | Nothing => s
    | Heading h => {| section := h; user := user _ s; error := error _ s |}
    | Setting n v => let '(u, ok) := handler (user _ s) (section _ s) n v in
                     let s' := {| section := section _ s; user := u; error := error _ s |} in if ok then s' else fail_at _ lineno s'
    | Broken => fail_at _ lineno s
    end.
  Lemma line_mean lineno s l m w : line_says l m -> Forall white w -> (lineno = 1 -> prefixb ConfigModel.bom (l ++ w) = false) ->
    ini_line _ handler lineno s (l ++ w) = mean lineno s m.
  Proof.
    intros H W Nb. unfold ini_line.
    assert ((if (lineno =? 1) && prefixb ConfigModel.bom (l ++ w) then skipn 3 (l ++ w) else l ++ w) = l ++ w) as ->.
    { destruct (Nat.eqb_spec lineno 1) as [E|E]; cbn [andb]; [rewrite Nb by exact E|]; reflexivity. }
    rewrite rstrip_app by exact W. destruct H as [l F|i c t F I|i n t F N1 N2 N3|i n sp e sp' v t F F1 Ie F2 T Nn Tn Cn E1 E2 Hn Tv Cv Hv|i n F N1|i c n F Nc Hc E1 E2].
    - rewrite (rstrip_white _ F). reflexivity.
    - assert (~ white c) as Nc by (cbn in I; destruct I as [<-|[<-|[]]]; cbn; intuition discriminate).
      rewrite (rstrip_keep _ _ _ Nc), (lstrip_white _ _ F). cbn [lstrip]. rewrite (white_not _ Nc). cbn in I. destruct I as [<-|[<-|[]]]; reflexivity.
    - assert (~ white "]"%char) as Nc by (cbn; intuition discriminate).
      change (i ++ "["%char :: n ++ "]"%char :: t) with (i ++ ("["%char :: n) ++ "]"%char :: t). rewrite app_assoc, (rstrip_keep _ _ _ Nc), <- app_assoc, (lstrip_white _ _ F). cbn [app lstrip].
      change (isspace "["%char) with false. cbn match. change (("["%char =?c ";"%char) || ("["%char =?c "#"%char)) with false. change ("["%char =?c "["%char) with true. cbn match.
      rewrite (find_stop (B "]") n false "]"%char (rstrip t)); [|apply quiet_plain; [intros c [<-|[]]; exact N1|exact N2|discriminate]|apply stops_spec; left; left; reflexivity].
      change ("]"%char =?c "]"%char) with true. cbn match. cbn [mean]. rewrite firstn_all2 by (unfold max_section; lia). reflexivity.
    - destruct n as [|c n]; [congruence|].
      assert (~ white c) as Nc by (intros X; apply (proj1 Tn); exists c, n; auto).
      assert (~ white e) as Ne by (cbn in Ie; destruct Ie as [<-|[<-|[]]]; cbn; intuition discriminate).
      rewrite !app_assoc, (rstrip_keep _ _ _ Ne), <- (app_assoc i (c :: n) sp), <- (app_assoc i), (lstrip_white _ _ F), <- (app_assoc (c :: n) sp). cbn [app lstrip]. rewrite (white_not _ Nc).
      assert ((c =?c ";"%char) || (c =?c "#"%char) = false) as ->.
      { apply orb_false_iff. split; apply Ascii.eqb_neq; intros ->; apply Hn; cbn; auto. }
      assert (c =?c "["%char = false) as -> by (apply Ascii.eqb_neq; intros ->; apply Hn; cbn; auto).
      assert (Q : quiet (B "=:") false ((c :: n) ++ sp) = true).
      { rewrite quiet_app. apply andb_true_iff. split; [apply quiet_plain; [intros x [<-|[<-|[]]]; assumption|exact Cn|discriminate]|].
        apply quiet_white; [intros x [<-|[<-|[]]]; cbn; intuition discriminate|exact F1]. }
      change (c :: n ++ sp ++ e :: rstrip ((sp' ++ v) ++ t)) with ((c :: n) ++ sp ++ e :: rstrip ((sp' ++ v) ++ t)). rewrite (app_assoc (c :: n) sp).
      rewrite (find_stop _ _ _ _ _ Q); [|apply stops_spec; left; exact Ie].
      assert ((e =?c "="%char) || (e =?c ":"%char) = true) as -> by (cbn in Ie; destruct Ie as [<-|[<-|[]]]; reflexivity).
      rewrite (rstrip_app _ _ F1), (rstrip_id _ (proj2 Tn)).
      assert (rstrip (lstrip (fst (find_chars [] false (rstrip ((sp' ++ v) ++ t))))) = v) as ->; [|reflexivity].
      assert (Qv : quiet [] false (sp' ++ v) = true).
      { rewrite quiet_app. apply andb_true_iff. split; [apply quiet_white; [intros x []|exact F2]|apply quiet_plain; [intros x []|exact Cv|intros _; exact Hv]]. }
      assert (St : rstrip (lstrip (sp' ++ v)) = v) by (rewrite (lstrip_white _ _ F2), (lstrip_id _ (proj1 Tv)), (rstrip_id _ (proj2 Tv)); reflexivity).
      destruct T as [Ft|[a [b [-> [Fa Na]]]]].
      + rewrite (rstrip_app _ _ Ft). destruct v as [|x v].
        * rewrite app_nil_r, (rstrip_white _ F2). reflexivity.
        * rewrite (rstrip_id (sp' ++ x :: v)) by (apply not_ends_app, Tv). rewrite (find_none _ _ _ Qv). exact St.
      + assert (~ white ";"%char) as Nsc by (cbn; intuition discriminate). rewrite app_assoc, (rstrip_keep _ _ _ Nsc).
        rewrite (find_stop [] ((sp' ++ v) ++ a) false ";"%char).
        * cbn [fst]. rewrite <- app_assoc, (lstrip_white _ _ F2). destruct v as [|x v].
          -- cbn [app]. assert (lstrip a = []) as -> by (rewrite <- (app_nil_r a), (lstrip_white _ _ Fa); reflexivity). reflexivity.
          -- rewrite lstrip_id; [|intros [y [u [E Wy]]]; apply (proj1 Tv); injection E as <- _; exists x, v; auto]. rewrite (rstrip_app _ _ Fa). apply rstrip_id, Tv.
        * rewrite quiet_app, Qv. apply quiet_white; [intros x []|exact Fa].
        * apply stops_spec. right. rewrite last_space_app. split; [apply last_space_white; assumption|reflexivity].
    - assert (~ white "["%char) as Nc by (cbn; intuition discriminate). rewrite (rstrip_keep _ _ _ Nc), (lstrip_white _ _ F). cbn [app lstrip].
      change (isspace "["%char) with false. cbn match. change (("["%char =?c ";"%char) || ("["%char =?c "#"%char)) with false. change ("["%char =?c "["%char) with true. cbn match.
      destruct (find_chars (B "]") false (rstrip n)) as [a [|e r]] eqn:E; [reflexivity|]. destruct (Ascii.eqb_spec e "]"%char) as [->|]; [|reflexivity]. exfalso. apply N1.
      apply rstrip_sub. rewrite (find_split (B "]") (rstrip n) false), E. apply in_or_app. right. left. reflexivity.
    - rewrite (rstrip_keep _ _ _ Nc), (lstrip_white _ _ F). cbn [app lstrip]. rewrite (white_not _ Nc).
      assert ((c =?c ";"%char) || (c =?c "#"%char) = false) as ->.
      { apply orb_false_iff. split; apply Ascii.eqb_neq; intros ->; apply Hc; cbn; auto. }
      assert (c =?c "["%char = false) as -> by (apply Ascii.eqb_neq; intros ->; apply Hc; cbn; auto).
      destruct (find_chars (B "=:") false (c :: rstrip n)) as [a [|e r]] eqn:E; [reflexivity|].
      assert (I : In e (c :: n)). { assert (J : In e (c :: rstrip n)) by (rewrite (find_split (B "=:") (c :: rstrip n) false), E; apply in_or_app; right; left; reflexivity). destruct J as [->|J]; [left; reflexivity|right; apply rstrip_sub, J]. }
      assert ((e =?c "="%char) || (e =?c ":"%char) = false) as ->; [|reflexivity]. apply orb_false_iff. split; apply Ascii.eqb_neq; intros ->; auto.
  Qed.

  (** ** The file *)
  Lemma fgets_line l : forall n t, ~ In newline l -> length l < n -> fgets n (l ++ newline :: t) = (l ++ [newline], t).
  Proof.
    induction l as [|c l IH]; intros n t N L; (destruct n as [|n]; [cbn in L; lia|]); cbn [app fgets].
    - rewrite Ascii.eqb_refl. reflexivity.
    - assert (c =?c newline = false) as -> by (apply Ascii.eqb_neq; intros ->; apply N; left; reflexivity). rewrite IH; [reflexivity|intros I; apply N; right; exact I|cbn in L; lia].
  Qed.
  Lemma fgets_last l : forall n, ~ In newline l -> length l <= n -> fgets n l = (l, []).
  Proof.
    induction l as [|c l IH]; intros n N L; (destruct n as [|n]; [cbn in L; try lia; reflexivity|]); cbn [fgets]; [reflexivity|].
    assert (c =?c newline = false) as -> by (apply Ascii.eqb_neq; intros ->; apply N; left; reflexivity). rewrite IH; [reflexivity|intros I; apply N; right; exact I|cbn in L; lia].
  Qed.
  Lemma cut_none c s : ~ In c s -> cut c s = None.
  Proof. induction s as [|x s IH]; intros N; cbn; [reflexivity|]. assert (x =?c c = false) as -> by (apply Ascii.eqb_neq; intros ->; apply N; left; reflexivity). rewrite IH; [reflexivity|]. intros I. apply N. right. exact I. Qed.
  Lemma c_string_id s : ~ In nul s -> c_string s = s.
  Proof. intros N. unfold c_string. rewrite cut_none by exact N. reflexivity. Qed.

  Fixpoint means (lineno : nat) (s : st) (ms : list meaning) : st :=
    match ms with [] => s | m :: r => means (S lineno) (mean (S lineno) s m) r end.
  Lemma lines_mean t ms : text_says t ms -> forall fuel lineno s, length t <= fuel -> (lineno = 0 -> prefixb ConfigModel.bom t = false) ->
    ini_lines _ handler fuel lineno s t = means lineno s ms.
  Proof.
    assert (NW : white newline) by (cbn; auto).
    induction 1 as [|l m L Nl H|l m t ms L H T IH]; intros fuel lineno s F Nb.
    - destruct fuel; reflexivity.
    - destruct fuel as [|fuel]; [destruct l; [congruence|cbn in F; lia]|]. cbn [ini_lines]. destruct l as [|c l]; [congruence|]. destruct L as [L1 [L2 L3]].
      rewrite fgets_last by (exact L1 || (unfold max_line; lia)). rewrite c_string_id by exact L2. rewrite <- (app_nil_r (c :: l)) at 1. rewrite (line_mean (S lineno) s (c :: l) m []); [|exact H|constructor|].
      + cbn [means]. destruct fuel; reflexivity.
      + intros E. rewrite app_nil_r. apply Nb. lia.
    - destruct fuel as [|fuel]; [rewrite app_length in F; cbn in F; lia|]. cbn [ini_lines]. destruct (l ++ "010"%char :: t) as [|c r] eqn:E; [destruct l; discriminate|]. rewrite <- E in *. clear c r E. destruct L as [L1 [L2 L3]].
      change "010"%char with newline in *. rewrite fgets_line by (exact L1 || (unfold max_line; lia)). rewrite c_string_id by (intros I; apply in_app_or in I; destruct I as [I|[I|[]]]; [exact (L2 I)|discriminate]).
      rewrite (line_mean (S lineno) s l m [newline]); [|exact H|repeat constructor; exact NW|].
      + cbn [means]. apply IH; [rewrite app_length in F; cbn in F; lia|lia].
      + intros E. assert (lineno = 0) as E0 by lia. specialize (Nb E0). destruct (prefixb ConfigModel.bom (l ++ [newline])) eqn:P; [|reflexivity]. apply prefixb_spec in P as [r P].
        assert (prefixb ConfigModel.bom (l ++ newline :: t) = true); [|congruence]. apply prefixb_spec. exists (r ++ t). change (newline :: t) with ([newline] ++ t). rewrite app_assoc, P, app_assoc. reflexivity.
  Qed.
End Line.
