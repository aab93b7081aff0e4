(** The lines of the script, run. *)
From Verif Require Import Base EntryModel EntrySpec EntryProofs ExecModel ExecSpec ExecProofs3 ExecProps GraphModel ExpandModel ExpandSpec GenModel GenSpec GenProofs.

(** ** Texts *)
Lemma quotable_app a b : quotable a -> quotable b -> a <> [] -> quotable (a ++ b).
Proof.
  intros [A1 [A2 A3]] [B1 [B2 B3]] N. split; [|split].
  - rewrite in_app_iff. tauto.
  - rewrite existsb_app, A2, B2. reflexivity.
  - destruct a; [contradiction|exact A3].
Qed.
Lemma bare_app a b : bare a -> bare b -> a <> [] -> bare (a ++ b).
Proof.
  intros [A1 [A2 A3]] [B1 [B2 B3]] N. split; [|split].
  - rewrite in_app_iff. tauto.
  - rewrite existsb_app, A2, B2. reflexivity.
  - destruct a; [contradiction|exact A3].
Qed.
Lemma quotable_slash w : quotable w -> quotable ("/"%char :: w).
Proof. intros [A1 [A2 A3]]. split; [|split; [exact A2|reflexivity]]. intros [E|E]; [discriminate|exact (A1 E)]. Qed.
Lemma bare_slash w : bare w -> bare ("/"%char :: w).
Proof. intros [A1 [A2 A3]]. split; [|split; [exact A2|reflexivity]]. intros [E|E]; [discriminate|exact (A1 E)]. Qed.
Lemma quotable_nil : quotable [].
Proof. repeat split. intros []. Qed.
Lemma quotable_slashed cs : Forall quotable cs -> quotable (slashed cs).
Proof.
  induction 1 as [|c cs Hc Hcs IH]; [exact quotable_nil|]. destruct cs as [|d cs]; [exact Hc|].
  change (quotable (c ++ "/"%char :: slashed (d :: cs))). destruct c as [|x c]; [apply quotable_slash, IH|].
  apply quotable_app; [exact Hc|apply quotable_slash, IH|discriminate].
Qed.
Lemma strip_sub a : forall b u d, strip_common a b = (u, d) -> forall x, In x d -> In x b.
Proof. intros b u d H x X. apply strip_spec in H as [c [_ ->]]. apply in_or_app. auto. Qed.
Lemma full_members T top member : directory_tree T top member -> forall fuel t l, member t -> full_path T fuel t = Some l -> forall x, In x l -> member x.
Proof.
  intros D. induction fuel as [|fuel IH]; intros t l M F x X; [discriminate|]. cbn in F. destruct (parent T t) as [p|] eqn:P.
  - destruct (full_path T fuel p) as [lp|] eqn:F2; [|discriminate]. injection F as <-. apply in_app_or in X as [X|[<-|[]]]; [|exact M].
    exact (IH p lp (dt_up _ _ _ D t p M P) F2 x X).
  - injection F as <-. destruct X as [<-|[]]. exact M.
Qed.
Lemma relative_quotable T top member fuel s e r : directory_tree T top member -> member e -> (forall d, member d -> quotable (name T d)) ->
  get_relative_dir T fuel s e = Some r -> quotable r.
Proof.
  intros D M Q H. unfold get_relative_dir, get_relative_dir_sep in H. destruct (full_path T fuel s) as [a|] eqn:Fa; [|discriminate].
  destruct (full_path T fuel e) as [b|] eqn:Fb; [|discriminate]. injection H as <-. unfold relative_text. destruct (strip_common a b) as [u d] eqn:St.
  assert (Forall quotable (map (fun _ => B "..") u ++ map (name T) d)) as F.
  { apply Forall_app. split; apply Forall_forall; intros x X; apply in_map_iff in X as [y [<- Y]].
    - repeat split. cbn. intuition discriminate.
    - apply Q. eapply full_members; eauto. eapply strip_sub; eauto. }
  destruct (map (fun _ => B "..") u ++ map (name T) d) as [|n l] eqn:E; [repeat split; cbn; intuition discriminate|].
  rewrite append_slashed. apply quotable_slashed, F.
Qed.

Lemma slashed_snoc cs c : cs <> [] -> slashed (cs ++ [c]) = slashed cs ++ B "/" ++ c.
Proof.
  induction cs as [|x cs IH]; intros N; [contradiction|]. destruct cs as [|y cs]; [reflexivity|].
  change (x ++ "/"%char :: slashed ((y :: cs) ++ [c]) = (x ++ "/"%char :: slashed (y :: cs)) ++ B "/" ++ c). rewrite IH by discriminate.
  rewrite <- app_assoc. reflexivity.
Qed.
Lemma leads_snoc T s x t c : leads T s x t -> parent T c = Some t -> plain_name (name T c) -> leads T s (x ++ B "/" ++ name T c) c.
Proof.
  intros [cs [N [F [-> W]]]] P Pl. exists (cs ++ [name T c]). split; [destruct cs; discriminate|]. split; [apply Forall_app; split; [exact F|constructor; [apply Pl|constructor]]|].
  split; [rewrite slashed_snoc by exact N; reflexivity|]. eapply walks_app; [exact W|]. apply w_down; [exact P|exact Pl|constructor].
Qed.
Lemma leads_one T s c : parent T c = Some s -> plain_name (name T c) -> leads T s (name T c) c.
Proof.
  intros P Pl. exists [name T c]. split; [discriminate|]. split; [constructor; [apply Pl|constructor]|]. split; [reflexivity|].
  apply w_down; [exact P|exact Pl|constructor].
Qed.
Lemma leads_nonempty T top member s x t : directory_tree T top member -> s = top -> member t -> t <> top -> leads T s x t -> x <> [].
Proof.
  intros D -> M N [cs [Nc [F [-> W]]]] E. destruct cs as [|c [|d cs]]; [contradiction| |].
  - cbn in E. subst c. inversion W as [| | |? ? ? ? P Pl W2 E3]; subst; try discriminate. destruct Pl as [Pl _]. congruence.
  - change (c ++ "/"%char :: slashed (d :: cs) = []) in E. destruct c; discriminate.
Qed.
Lemma plain_not_slash n : plain_name n -> slash_name n = false.
Proof.
  intros [N [_ [_ S]]]. destruct n as [|c n]; [reflexivity|]. cbn. destruct (Ascii.eqb_spec c "/"); [|reflexivity]. subst. exfalso. apply S. left. reflexivity.
Qed.

(** ** Lines *)
Lemma lines_app a b : lines (a ++ b) = lines a ++ lines b.
Proof. unfold lines. rewrite map_app, concat_app. reflexivity. Qed.
Lemma lines_one x : lines [x] = x ++ [newline].
Proof. unfold lines. cbn. apply app_nil_r. Qed.
Lemma lines_cons x l : lines (x :: l) = x ++ [newline] ++ lines l.
Proof. unfold lines. cbn. rewrite <- app_assoc. reflexivity. Qed.
Definition one_line (x : bytes) : Prop := ~ In newline x.
Lemma one_line_app a b : one_line a -> one_line b -> one_line (a ++ b).
Proof. unfold one_line. rewrite in_app_iff. tauto. Qed.
Ltac lit := clear; unfold one_line; cbn; intuition discriminate.

(** The lines are the text's only division. *)
Lemma read_no_newline c : forall m d r, read m d c = Some r -> one_line c.
Proof.
  induction c as [|x c IH]; intros m d r H; [intros []|]. cbn [read] in H. destruct (Ascii.eqb_spec x newline) as [|N]; [discriminate|].
  assert (exists m' d', read m' d' c = Some r) as [m' [d' R]].
  { destruct m; repeat match goal with H : (if ?b then _ else _) = Some _ |- _ => destruct b | H : match ?d with 0 => _ | S _ => _ end = Some _ |- _ => destruct d end; try discriminate; eauto. }
  intros [E|E]; [congruence|exact (IH _ _ _ R E)].
Qed.

Section Run.
Variable T : tree. Variable fuel top : nat. Variable kind_of : nat -> kind.
Variable gendir : nat -> bool. Variable variant : nat -> option nat. Variable srcdir : nat -> nat.
Variable groups_of : nat -> list group. Variable tmp_ok : bool.
Variable member : nat -> Prop.
Variable there : nat -> Prop.
Hypothesis D : directory_tree T top member.
Hypothesis Q : forall d, member d -> quotable (name T d).

Lemma print_internal_leads f : forall t x b, member t -> print_internal T f t None = Some (x, b) ->
  (t = top /\ x = [] /\ b = false) \/ (t <> top /\ b = true /\ leads T top x t /\ quotable x).
Proof.
  induction f as [|f IH]; intros t x b M H; [discriminate|]. cbn [print_internal] in H. destruct (parent T t) as [p|] eqn:P.
  - assert (t <> top) as N by (intros E; apply (dt_top _ _ _ D t M) in E; congruence). pose proof (dt_name _ _ _ D t M N) as Pl.
    rewrite (plain_not_slash _ Pl) in H. destruct (print_internal T f p None) as [[y c]|] eqn:Ip; [|discriminate]. injection H as <- <-. right. split; [exact N|].
    split; [reflexivity|]. pose proof (dt_up _ _ _ D t p M P) as Mp. destruct (IH p y c Mp Ip) as [[-> [-> ->]]|[Np [-> [L Qy]]]].
    + cbn [app]. split; [apply leads_one; assumption|apply Q, M].
    + split; [apply (leads_snoc T top y p t L P Pl)|]. apply quotable_app; [exact Qy|apply quotable_slash, Q, M|]. eapply leads_nonempty; eauto.
  - injection H as <- <-. left. split; [apply (dt_top _ _ _ D t M), P|auto].
Qed.
Lemma print_entry_leads t x : member t -> t <> top -> variant t = None -> print_entry T fuel variant t = Some x -> leads T top x t /\ quotable x.
Proof.
  intros M N V H. unfold print_entry in H. destruct (parent T t) as [p|] eqn:P; [|apply (dt_top _ _ _ D t M) in P; contradiction]. rewrite V in H.
  destruct (print_internal T fuel p None) as [[y c]|] eqn:Ip; [|discriminate]. injection H as <-.
  pose proof (dt_name _ _ _ D t M N) as Pl. pose proof (dt_up _ _ _ D t p M P) as Mp. destruct (print_internal_leads _ _ _ _ Mp Ip) as [[-> [-> ->]]|[Np [-> [L Qy]]]].
  - cbn [app]. split; [apply leads_one; assumption|apply Q, M].
  - split; [apply (leads_snoc T top y p t L P Pl)|]. apply quotable_app; [exact Qy|apply quotable_slash, Q, M|]. eapply leads_nonempty; eauto.
Qed.
Lemma write_entry_leads f : (forall d, member d -> bare (name T d)) -> forall t x, member t -> t <> top -> write_entry T top f t = Some x ->
  exists w, x = w ++ B "/" /\ leads T top w t /\ bare w.
Proof.
  intros Ba. induction f as [|f IH]; intros t x M N H; [discriminate|]. cbn [write_entry] in H. destruct (Nat.eqb_spec t top) as [|_]; [contradiction|].
  destruct (parent T t) as [p|] eqn:P; [|discriminate]. pose proof (dt_name _ _ _ D t M N) as Pl. pose proof (dt_up _ _ _ D t p M P) as Mp.
  destruct (Nat.eqb_spec p top) as [->|Np].
  - injection H as <-. exists (name T t). split; [reflexivity|]. split; [apply leads_one; assumption|apply Ba, M].
  - destruct (write_entry T top f p) as [y|] eqn:W; [|discriminate]. injection H as <-. destruct (IH p y Mp Np W) as [w [-> [L Bw]]].
    exists (w ++ B "/" ++ name T t). split; [rewrite <- !app_assoc; reflexivity|]. split; [apply (leads_snoc T top w p t L P Pl)|].
    apply bare_app; [exact Bw|apply bare_slash, Ba, M|]. eapply leads_nonempty; eauto.
Qed.

(** [ls] is run from [d] to [e], with [acts], making [ds]. *)
Definition part (d : nat) (made : list nat) (ls : list bytes) (acts : list act) (e : nat) (made' : list nat) : Prop :=
  forall rest more, run T there made' e rest more -> run T there made d (ls ++ rest) (acts ++ more).
Lemma part_nil d made : part d made [] [] d made.
Proof. intros rest more H. exact H. Qed.
Lemma part_app d made ls acts e made1 ls2 acts2 f made2 : part d made ls acts e made1 -> part e made1 ls2 acts2 f made2 ->
  part d made (ls ++ ls2) (acts ++ acts2) f made2.
Proof. intros H1 H2 rest more H. rewrite <- !app_assoc. apply H1, H2, H. Qed.

Lemma header_part verbose args made d : (forall a, In a args -> one_line a) ->
  exists ls, header verbose args = lines ls /\ Forall one_line ls /\ part d made ls [] d made.
Proof.
  intros A. exists [B "#! /bin/sh -e" ++ (if verbose then B "x" else []);
    B "# This file is automatically generated with: tup generate" ++ concat (map (fun a => " "%char :: a) args);
    B "export tup_vardict=" ++ B """$(cd $(dirname $0) && pwd)/tup-generate.vardict"""].
  split; [|split].
  - rewrite !lines_cons. unfold header. rewrite <- !app_assoc. cbn [lines map concat]. reflexivity.
  - constructor; [destruct verbose; lit|]. constructor; [|constructor; [lit|constructor]]. apply one_line_app; [lit|].
    clear - A. induction args as [|a l IH]; [intros []|]. cbn [map concat]. apply (one_line_app (" "%char :: a)); [|apply IH; intros; apply A; right; assumption].
    intros [E|E]; [discriminate|exact (A a (or_introl eq_refl) E)].
  - intros rest more H. cbn [app]. apply r_comment, r_comment, r_export, H.
Qed.

Lemma build_part ds : (forall d, member d -> bare (name T d)) -> (forall d, In d ds -> member d /\ d <> top) -> forall x made, build_dirs T fuel top ds = Some x ->
  exists ls, x = lines ls /\ Forall one_line ls /\ part top made ls (map Made ds) top (rev ds ++ made).
Proof.
  intros Ba. induction ds as [|d ds IH]; intros M x made H.
  - injection H as <-. exists []. split; [reflexivity|]. split; [constructor|apply part_nil].
  - cbn [build_dirs] in H. destruct (write_entry T top fuel d) as [y|] eqn:W; [|discriminate]. destruct (build_dirs T fuel top ds) as [z|] eqn:Bd; [|discriminate].
    injection H as <-. destruct (M d (or_introl eq_refl)) as [Md Nd]. destruct (write_entry_leads _ Ba _ _ Md Nd W) as [w [-> [L Bw]]].
    destruct (IH ltac:(intros; apply M; right; assumption) z (d :: made) eq_refl) as [ls [-> [F P]]]. exists ((B "mkdir -p " ++ w ++ B "/") :: ls). split; [|split].
    + rewrite lines_cons, <- !app_assoc. reflexivity.
    + constructor; [|exact F]. apply one_line_app; [lit|]. apply one_line_app; [apply Bw|lit].
    + intros rest more H. cbn [rev] in H. rewrite <- app_assoc in H. cbn [app] in H. cbn [app map]. apply r_mkdir_bare; [exact Bw|exact L|]. apply P, H.
Qed.

Hypothesis InTree : forall d, gendir d = true -> variant d = None.
Hypothesis TopReal : gendir top = false.

Lemma script_mkdir_part f : forall d seen x seen' made, member d -> script_mkdir T fuel gendir variant f d seen = Some (x, seen') ->
  exists ls ds, x = lines ls /\ Forall one_line ls /\ part top made ls (map Made ds) top (rev ds ++ made) /\
    (forall y, In y seen' <-> In y ds \/ In y seen) /\ (gendir d = true -> In d seen').
Proof.
  induction f as [|f IH]; intros d seen x seen' made M H; [discriminate|]. cbn [script_mkdir] in H.
  assert (forall x', Some ([], seen) = Some (x', seen') -> exists ls ds, x' = lines ls /\ Forall one_line ls /\ part top made ls (map Made ds) top (rev ds ++ made) /\
    (forall y, In y seen' <-> In y ds \/ In y seen)) as Nothing.
  { intros x' E. injection E as <- <-. exists [], []. split; [reflexivity|]. split; [constructor|]. split; [apply part_nil|]. cbn. clear. tauto. }
  destruct (gendir d) eqn:G; cbn [negb] in H.
  2:{ assert (x = []) as -> by congruence. destruct (Nothing _ H) as [ls [ds [A [A2 [A3 A4]]]]]. exists ls, ds. repeat split; auto; try apply A4; discriminate. }
  destruct (inb d seen) eqn:I.
  { assert (x = []) as -> by congruence. destruct (Nothing _ H) as [ls [ds [A [A2 [A3 A4]]]]]. exists ls, ds. repeat split; auto; try apply A4.
    intros _. apply A4. right. unfold inb in I. apply existsb_exists in I as [y [Y E]]. apply Nat.eqb_eq in E. subst. exact Y. }
  destruct (parent T d) as [p|] eqn:P; [|discriminate]. destruct (script_mkdir T fuel gendir variant f p (d :: seen)) as [[y seen2]|] eqn:Sp; [|discriminate].
  destruct (print_entry T fuel variant d) as [z|] eqn:Pe; [|discriminate]. injection H as <- <-.
  assert (d <> top) as N by congruence. pose proof (dt_up _ _ _ D d p M P) as Mp. destruct (IH p _ _ _ made Mp Sp) as [ls [ds [-> [F [Pa [Se _]]]]]].
  destruct (print_entry_leads d z M N (InTree d G) Pe) as [L Qz]. exists (ls ++ [B "mkdir -p """ ++ z ++ B """"]), (ds ++ [d]).
  split; [|split; [|split; [|split]]].
  - rewrite lines_app, lines_one, <- !app_assoc. reflexivity.
  - apply Forall_app. split; [exact F|]. constructor; [|constructor]. apply one_line_app; [lit|]. apply one_line_app; [apply Qz|lit].
  - rewrite map_app, rev_app_distr. eapply part_app; [exact Pa|]. intros rest more H. cbn [app map]. apply r_mkdir; [exact Qz|exact L|exact H].
  - intros v. rewrite Se, in_app_iff. cbn. clear. tauto.
  - intros _. apply Se. right. left. reflexivity.
Qed.

Lemma mkdirs_part ns : (forall n d, In n ns -> kind_of n = KGenerated -> parent T n = Some d -> member d) -> forall seen x made, mkdirs T fuel kind_of gendir variant ns seen = Some x ->
  exists ls ds, x = lines ls /\ Forall one_line ls /\ part top made ls (map Made ds) top (rev ds ++ made) /\
    (forall n d, In n ns -> kind_of n = KGenerated -> parent T n = Some d -> gendir d = true -> In d ds \/ In d seen).
Proof.
  induction ns as [|n ns IH]; intros Hm seen x made H.
  - injection H as <-. exists [], []. split; [reflexivity|]. split; [constructor|]. split; [apply part_nil|]. intros n d [].
  - cbn [mkdirs] in H. destruct (is_generated (kind_of n)) eqn:K.
    + assert (kind_of n = KGenerated) as K' by (destruct (kind_of n); try discriminate; reflexivity). destruct (parent T n) as [d|] eqn:P; [|discriminate].
      pose proof (Hm n d (or_introl eq_refl) K' P) as Md. destruct (script_mkdir T fuel gendir variant fuel d seen) as [[y seen1]|] eqn:Sm; [|discriminate].
      destruct (mkdirs T fuel kind_of gendir variant ns seen1) as [z|] eqn:Mk; [|discriminate]. injection H as <-.
      destruct (script_mkdir_part _ _ _ _ _ made Md Sm) as [ls [ds [-> [F [Pa [Se Gd]]]]]].
      destruct (IH ltac:(intros; eapply Hm; eauto; right; assumption) seen1 z (rev ds ++ made) Mk) as [ls2 [ds2 [-> [F2 [Pa2 C2]]]]].
      exists (ls ++ ls2), (ds ++ ds2). split; [rewrite lines_app; reflexivity|]. split; [apply Forall_app; auto|]. split.
      * rewrite map_app, rev_app_distr, <- app_assoc. eapply part_app; eauto.
      * intros m e [<-|I] Km Pm Ge; rewrite in_app_iff.
        -- assert (e = d) as -> by congruence. destruct (proj1 (Se d) (Gd Ge)); auto.
        -- destruct (C2 m e I Km Pm Ge) as [A|A]; [auto|]. apply Se in A. clear - A. tauto.
    + destruct (IH ltac:(intros; eapply Hm; eauto; right; assumption) seen x made H) as [ls [ds [A [A2 [A3 A4]]]]]. exists ls, ds. repeat split; auto.
      intros m e [<-|I] Km Pm Ge; [rewrite Km in K; discriminate|eauto].
Qed.

(** ** The commands *)
Definition work_of := generate_work T fuel kind_of srcdir groups_of tmp_ok.
Inductive works (s0 : script) : list id -> script -> Prop :=
| wk_nil : works s0 [] s0
| wk_snoc ns s n s' : works s0 ns s -> gen_node T fuel kind_of srcdir groups_of tmp_ok n s = Some (s', true) -> works s0 (ns ++ [n]) s'.

Lemma reach_works jobs g s0 s : steps work_of false (start jobs g s0) s -> (forall n, ~ In (Finish n false) (hist s)) -> works s0 (finished (hist s)) (ws s).
Proof.
  intros H. remember (start jobs g s0) as a eqn:Ea. induction H as [a|a b c H IH St]; intros N.
  - subst a. destruct (start_facts (WS := script) jobs g s0) as [-> [_ ->]]. constructor.
  - destruct (step_cases _ _ _ _ St) as [[Eh [_ Ew]]|[[n [Eh [_ Ew]]]|[n [ok [l [r [_ [_ [Eh Ew]]]]]]]]].
    + rewrite Eh, Ew. apply IH; [exact Ea|]. intros n I. apply (N n). rewrite Eh. exact I.
    + rewrite Eh, Ew. cbn [finished]. apply IH; [exact Ea|]. intros m I. apply (N m). rewrite Eh. right. exact I.
    + rewrite Eh. cbn [finished]. destruct ok; [|exfalso; apply (N n); rewrite Eh; left; reflexivity].
      eapply wk_snoc; [|exact Ew]. apply IH; [exact Ea|]. intros m I. apply (N m). rewrite Eh. right. exact I.
Qed.

(** What the text of a command may become in this run of tup. *)
Definition may_be (c : id) (x : bytes) : Prop :=
  exists par w u w', parent T c = Some par /\ session T fuel srcdir tmp_ok w /\
    expand_command T fuel srcdir tmp_ok par (groups_of c) (name T c) w = (Good (x, u), w').
Definition dir_of (c : id) : nat := match parent T c with Some p => srcdir p | None => top end.

Lemma works_part s0 ns s made : works s0 ns s -> member (cwd s0) -> session T fuel srcdir tmp_ok (res_files s0) ->
  (forall c, In c ns -> kind_of c = KCmd -> member (dir_of c) /\ present T there made (dir_of c) /\ forall x, may_be c x -> complete x) ->
  exists ls todo, text s = text s0 ++ lines ls /\ Forall one_line ls /\
    part (cwd s0) made ls (map (fun y => Ran (dir_of (fst y)) (snd y)) todo) (cwd s) made /\
    map fst todo = filter (fun c => is_cmd (kind_of c)) ns /\ (forall c x, In (c, x) todo -> may_be c x) /\
    member (cwd s) /\ session T fuel srcdir tmp_ok (res_files s).
Proof.
  intros H M0 S0. induction H as [|ns s n s' H IH G]; intros C.
  - exists [], []. split; [cbn; rewrite app_nil_r; reflexivity|]. split; [constructor|]. split; [apply part_nil|]. split; [reflexivity|]. split; [intros c x []|auto].
  - destruct (IH ltac:(intros; apply C; [apply in_or_app; auto|assumption])) as [ls [todo [Et [F [Pa [Ef [Em [Mc Sc]]]]]]]]. clear IH.
    unfold gen_node in G. rewrite filter_app. cbn [filter]. destruct (is_cmd (kind_of n)) eqn:K.
    2:{ injection G as <-. rewrite app_nil_r. exists ls, todo. auto 10. }
    assert (kind_of n = KCmd) as K' by (destruct (kind_of n); try discriminate; reflexivity).
    destruct (C n ltac:(apply in_or_app; right; left; reflexivity) K') as [Md [Pd Co]].
    destruct (parent T n) as [par|] eqn:P; [|discriminate]. unfold dir_of in Md, Pd. rewrite P in Md, Pd.
    assert (exists s1 lc, (if cwd s =? srcdir par then Some s
        else option_map (fun p => {| cwd := srcdir par; text := text s ++ B "cd """ ++ p ++ B """" ++ [newline]; res_files := res_files s |})
               (get_relative_dir T fuel (cwd s) (srcdir par))) = Some s1 /\ cwd s1 = srcdir par /\ text s1 = text s ++ lines lc /\ Forall one_line lc /\
        res_files s1 = res_files s /\ part (cwd s) made lc [] (srcdir par) made) as [s1 [lc [E1 [Ec [Etx [Fl [Er Pc]]]]]]].
    { destruct (Nat.eqb_spec (cwd s) (srcdir par)) as [E|E].
      - exists s, []. repeat split; auto; [cbn; rewrite app_nil_r; reflexivity|]. rewrite E. apply part_nil.
      - destruct (get_relative_dir T fuel (cwd s) (srcdir par)) as [p|] eqn:R; [|discriminate]. cbn [option_map] in *. eexists. exists [B "cd """ ++ p ++ B """"].
        split; [reflexivity|]. cbn [cwd text res_files]. split; [reflexivity|]. pose proof (relative_quotable _ _ _ _ _ _ _ D Md Q R) as Qp.
        split; [rewrite lines_one, <- !app_assoc; reflexivity|]. split; [constructor; [|constructor]; apply one_line_app; [lit|]; apply one_line_app; [apply Qp|lit]|].
        split; [reflexivity|]. intros rest more H'. cbn [app]. apply r_cd with (srcdir par); [exact Qp| |exact Pd|exact H'].
        eapply relative_leads; eauto. }
    rewrite E1 in G. clear E1. destruct (expand_command T fuel srcdir tmp_ok par (groups_of n) (name T n) (res_files s1)) as [r w'] eqn:Ex.
    destruct r as [[x u]| |]; try discriminate. injection G as <-. cbn [cwd text res_files].
    assert (may_be n x) as Mb by (exists par, (res_files s1), u, w'; rewrite Er in *; auto).
    pose proof (Co x Mb) as Cx. exists (ls ++ lc ++ [B "(" ++ x ++ B ")"]), (todo ++ [(n, x)]).
    split; [rewrite Etx, Et, !lines_app, lines_one, <- !app_assoc; reflexivity|]. split.
    { apply Forall_app. split; [exact F|]. apply Forall_app. split; [exact Fl|]. constructor; [|constructor]. apply one_line_app; [lit|]. apply one_line_app; [|lit].
      destruct Cx as [[m [Rd _]] _]. exact (read_no_newline _ _ _ _ Rd). }
    split.
    { rewrite map_app. eapply part_app; [exact Pa|]. change (map (fun y => Ran (dir_of (fst y)) (snd y)) [(n, x)]) with ([] ++ [Ran (dir_of n) x]).
      eapply part_app; [exact Pc|]. rewrite Ec. intros rest more H'. cbn [app]. unfold dir_of. rewrite P. apply r_command; [exact Cx|exact H']. }
    split; [rewrite map_app, Ef; reflexivity|]. split.
    { intros c y I. apply in_app_or in I as [I|[I|[]]]; [exact (Em c y I)|]. injection I as <- <-. exact Mb. }
    split; [rewrite Ec; exact Md|]. replace w' with (snd (expand_command T fuel srcdir tmp_ok par (groups_of n) (name T n) (res_files s1))) by (rewrite Ex; reflexivity).
    apply se_next. rewrite Er. exact Sc.
Qed.
End Run.
