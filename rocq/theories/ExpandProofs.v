(** Proofs for C61. *)
From Verif Require Import Base EntryModel EntrySpec EntryProofs EntryProps FuseModel FuseProofs ExpandModel ExpandSpec.

(** * Dividing the text *)
Lemma open_group_some s : forall pre rest, open_group s = Some (pre, rest) -> s = pre ++ B "%<" ++ rest /\ ~ within (B "%<") pre.
Proof.
  induction s as [|c t IH]; [discriminate|]. intros pre rest. cbn [open_group]. destruct t as [|d r]; [discriminate|].
  destruct ((c =?c "%"%char) && (d =?c "<"%char)) eqn:E.
  - intros [= <- <-]. apply andb_true_iff in E as [E1 E2]. apply Ascii.eqb_eq in E1, E2. subst. split; [reflexivity|].
    intros [a [b H]]. destruct a; discriminate.
  - destruct (open_group (d :: r)) as [[p q]|]; [|discriminate]. cbn [option_map fst snd]. intros [= <- <-].
    destruct (IH _ _ eq_refl) as [E1 E2]. split; [cbn [app]; rewrite E1; reflexivity|].
    intros [a [b H]]. destruct a as [|x a].
    + cbn in H. injection H as -> H. destruct p as [|y p]; [discriminate|]. cbn in E1. injection E1 as -> E1.
      injection H as -> _. cbn in E. discriminate.
    + injection H as -> H. apply E2. exists a, b. exact H.
Qed.
Lemma open_group_none s : open_group s = None -> ~ within (B "%<") s.
Proof.
  induction s as [|c t IH]; intros H [a [b E]]; [destruct a; discriminate|]. cbn [open_group] in H.
  destruct t as [|d r]; [destruct a as [|x [|y a]]; discriminate|].
  destruct ((c =?c "%"%char) && (d =?c "<"%char)) eqn:X; [discriminate|].
  destruct a as [|x a].
  - cbn in E. injection E as -> -> _. cbn in X. discriminate.
  - injection E as -> E. apply IH; [|exists a, b; exact E]. destruct (open_group (d :: r)); [discriminate|reflexivity].
Qed.
Lemma open_group_here pre rest : ~ within (B "%<") pre -> open_group (pre ++ B "%<" ++ rest) = Some (pre, rest).
Proof.
  intros N. destruct (open_group (pre ++ B "%<" ++ rest)) as [[p q]|] eqn:E.
  - destruct (open_group_some _ _ _ E) as [E1 E2]. assert (p = pre /\ q = rest) as [-> ->]; [|reflexivity].
    clear E. revert p E1 E2. induction pre as [|c pre IH]; intros p E1 E2.
    + destruct p as [|x [|y p]]; cbn in E1; [injection E1 as <-; auto|discriminate|]. exfalso. injection E1 as <- <- _. apply E2. exists [], p. reflexivity.
    + destruct p as [|x p]; cbn [app] in E1.
      * exfalso. destruct pre as [|d pre]; cbn in E1; [discriminate|]. injection E1 as -> -> E1. apply N. exists [], pre. reflexivity.
      * injection E1 as <- E1. destruct (IH ltac:(intros [a [b ->]]; apply N; exists (c :: a), b; reflexivity) p E1) as [-> ->];
          [intros [a [b ->]]; apply E2; exists (c :: a), b; reflexivity|auto].
  - exfalso. apply open_group_none in E. apply E. exists pre, rest. reflexivity.
Qed.
Lemma open_group_not s : ~ within (B "%<") s -> open_group s = None.
Proof. destruct (open_group s) as [[p q]|] eqn:E; [|auto]. intros N. destruct (open_group_some _ _ _ E) as [-> _]. exfalso. apply N. exists p, q. reflexivity. Qed.
Lemma close_group_here n r : ~ In ">"%char n -> close_group (n ++ ">"%char :: r) = Some (n, r).
Proof.
  induction n as [|c n IH]; intros N; [reflexivity|]. cbn [app close_group]. destruct (Ascii.eqb_spec c ">"%char) as [->|_]; [exfalso; apply N; left; reflexivity|].
  rewrite IH; [reflexivity|intros X; apply N; right; exact X].
Qed.
Lemma close_group_some s : forall n r, close_group s = Some (n, r) -> s = n ++ ">"%char :: r /\ ~ In ">"%char n.
Proof.
  induction s as [|c t IH]; [discriminate|]. intros n r. cbn [close_group]. destruct (Ascii.eqb_spec c ">"%char) as [->|N].
  - intros [= <- <-]. auto.
  - destruct (close_group t) as [[p q]|]; [|discriminate]. cbn [option_map fst snd]. intros [= <- <-]. destruct (IH _ _ eq_refl) as [-> E].
    split; [reflexivity|]. intros [X|X]; [congruence|auto].
Qed.

Lemma cut_prefix t : forall r k, prefixb k t = false -> (exists z, t ++ r = k ++ z) ->
  exists k', k' <> [] /\ k = t ++ k' /\ exists z, r = k' ++ z.
Proof.
  induction t as [|c t IH]; intros r k Pk [z Ez].
  - exists k. split; [destruct k; discriminate|]. split; [reflexivity|]. exists z. exact Ez.
  - destruct k as [|d k]; [discriminate|]. cbn [app] in Ez. injection Ez as -> Ez. cbn [prefixb] in Pk. rewrite Ascii.eqb_refl in Pk. cbn [andb] in Pk.
    destruct (IH r k Pk (ex_intro _ z Ez)) as [k' [A [C F]]]. exists k'. split; [exact A|]. split; [cbn; rewrite C; reflexivity|exact F].
Qed.

(** * Groups by name *)
Lemma same_name_eq name g : ~ In nul g -> plain_group {| g_id := 0; g_name := name; g_inputs := [] |} -> ~ In ">"%char g ->
  same_name name (B "<" ++ g ++ B ">") = bytes_eqb name (B "<" ++ g ++ B ">").
Proof.
  intros Z [n [E Nn]] Ng. cbn in E. unfold same_name. destruct (bytes_eqb_spec name (B "<" ++ g ++ B ">")) as [->|D].
  - apply bytes_eqb_eq. rewrite firstn_app, Nat.sub_diag, firstn_all, firstn_O, app_nil_r. reflexivity.
  - destruct (bytes_eqb_spec (firstn (length (B "<" ++ g ++ B ">")) (name ++ [nul])) (B "<" ++ g ++ B ">")) as [F|]; [|reflexivity].
    exfalso. apply D. subst name.
    assert (n ++ [">"%char] = g ++ [">"%char]) as X; [|change (B ">") with [">"%char]; rewrite X; reflexivity].
    cbn [B list_ascii_of_string app length firstn] in F. injection F as F. clear D.
    revert n Nn F. induction g as [|c g IH]; intros n Nn F.
    + destruct n as [|x n]; [reflexivity|]. cbn in F. injection F as ->. exfalso. apply Nn. left. reflexivity.
    + destruct n as [|x n].
      * cbn in F. injection F as <- F. exfalso. apply Ng. left. reflexivity.
      * cbn [app length firstn] in F. injection F as -> F. cbn [app]. f_equal. apply IH; [intros X; apply Z; right; exact X|intros X; apply Ng; right; exact X|intros X; apply Nn; right; exact X|exact F].
Qed.

(** * Numbers *)
Lemma print10_inj n m : print 10 n = print 10 m -> n = m.
Proof.
  intros E. pose proof (num_print 10 n [] ltac:(lia) ltac:(lia) I) as A. pose proof (num_print 10 m [] ltac:(lia) ltac:(lia) I) as C.
  rewrite E in A. rewrite A in C. exact C.
Qed.
Lemma tmpfilename_inj n m : tmpfilename n = tmpfilename m -> n = m.
Proof. unfold tmpfilename. intros E. apply app_inv_head in E. apply print10_inj. exact E. Qed.

(** * The texts *)
Section Run.
Variable T : tree.
Variable top : nat.
Variable member : nat -> Prop.
Hypothesis D : directory_tree T top member.
Variable fuel : nat.
Variable srcdir : nat -> nat.
Variable tmp_ok : bool.

Definition files_in (g : group) : list nat := map fst (filter snd (g_inputs g)).
(** The names for a list of files, when the fuel suffices. *)
Definition rels (dir : nat) (fs : list nat) (ps : list bytes) : Prop := Forall2 (fun f p => get_relative_dir T fuel dir f = Some p) fs ps.

Definition glue (inl first : bool) (ps : list bytes) : bytes :=
  if inl then match ps with [] => [] | _ => (if first then [] else B " ") ++ words ps end else lines ps.
Lemma glue_app inl first a b : glue inl first (a ++ b) = glue inl first a ++ glue inl (first && match a with [] => true | _ => false end) b.
Proof.
  destruct inl; cbn [glue].
  - destruct a as [|x a]; [rewrite andb_true_r; reflexivity|]. rewrite andb_false_r. cbn [app]. rewrite <- app_assoc. f_equal.
    revert x. induction a as [|y a IH]; intros x.
    + destruct b; [symmetry; exact (app_nil_r x)|reflexivity].
    + specialize (IH y). cbn [app words] in *. rewrite <- !app_assoc. do 2 f_equal. exact IH.
  - unfold lines. rewrite map_app, concat_app. reflexivity.
Qed.

Lemma put_inputs_good inl dir ins : forall first ps, rels dir (map fst (filter snd ins)) ps ->
  put_inputs T fuel inl dir ins first = Good (glue inl first ps, first && match ps with [] => true | _ => false end).
Proof.
  induction ins as [|[i g] r IH]; intros first ps R.
  - inversion R; subst. cbn. destruct inl, first; reflexivity.
  - cbn [filter snd map fst] in R. cbn [put_inputs]. destruct g; cbn [map fst] in R.
    + inversion R as [|f p fs ps' Ep Rp]; subst. rewrite Ep, (IH false ps' Rp). rewrite andb_false_r. do 2 f_equal.
      change (p :: ps') with ([p] ++ ps'). rewrite glue_app. cbn [glue words lines map concat]. rewrite andb_false_r.
      destruct inl, first; cbn [andb negb app glue]; try reflexivity; unfold lines; cbn [map concat]; rewrite ?app_nil_r, <- ?app_assoc; reflexivity.
    + exact (IH first ps R).
Qed.
Lemma put_groups_good inl dir g gs : Forall plain_group gs -> ~ In ">"%char g -> ~ In nul g -> forall first ps, rels dir (members g gs) ps ->
  exists b, put_groups T fuel inl dir (B "<" ++ g ++ B ">") gs first = Good (glue inl first ps, b, map g_id (named g gs)) /\
    (b = true <-> named g gs <> []).
Proof.
  intros P Ng Zg. induction gs as [|x r IH]; intros first ps R.
  - inversion R; subst. exists false. split; [destruct inl; reflexivity|]. split; [discriminate|intros X; contradiction].
  - inversion P as [|? ? Px Pr]; subst. cbn [put_groups]. unfold named in *. unfold members, named in *. cbn [filter] in *.
    rewrite (same_name_eq (g_name x) g Zg).
    2:{ destruct Px as [n E]. exists n. exact E. }
    2:{ exact Ng. }
    destruct (bytes_eqb (g_name x) (B "<" ++ g ++ B ">")).
    + cbn [flat_map] in R. apply Forall2_app_inv_l in R as [p1 [p2 [R1 [R2 ->]]]].
      rewrite (put_inputs_good inl dir (g_inputs x) first p1 R1).
      destruct (IH Pr (first && match p1 with [] => true | _ => false end) p2 R2) as [b [E _]]. rewrite E.
      exists true. split; [rewrite glue_app; reflexivity|]. split; [discriminate|reflexivity].
    + exact (IH Pr first ps R).
Qed.
Lemma expand_group_good inl dir g gs ps : Forall plain_group gs -> ~ In ">"%char g -> ~ In nul g -> rels dir (members g gs) ps -> named g gs <> [] ->
  expand_group T fuel inl dir (B "<" ++ g ++ B ">") gs = Good (if inl then words ps else lines ps, map g_id (named g gs)).
Proof.
  intros P Ng Zg R N. unfold expand_group. destruct (put_groups_good inl dir g gs P Ng Zg true ps R) as [b [E [_ H]]]. rewrite E, (H N).
  f_equal. f_equal. destruct inl; [destruct ps|]; reflexivity.
Qed.
Lemma expand_group_none inl dir g gs : Forall plain_group gs -> ~ In ">"%char g -> ~ In nul g -> named g gs = [] ->
  expand_group T fuel inl dir (B "<" ++ g ++ B ">") gs = Fail.
Proof.
  intros P Ng Zg N. unfold expand_group.
  destruct (put_groups_good inl dir g gs P Ng Zg true []) as [b [E [H _]]].
  { unfold members. rewrite N. constructor. }
  rewrite E. destruct b; [exfalso; apply H; [reflexivity|exact N]|reflexivity].
Qed.

Lemma rels_paths dir fs ps : member dir -> Forall member fs -> rels dir fs ps -> paths_to T dir fs ps.
Proof.
  intros Md M R. induction R as [|f p fs ps E R IH]; [constructor|]. inversion M; subst. constructor; [|apply IH; assumption].
  exact (C25_relative_path_leads T top member fuel dir f p D Md H1 E).
Qed.
Lemma rels_exist dir fs : (forall f, In f fs -> get_relative_dir T fuel dir f <> None) -> exists ps, rels dir fs ps.
Proof.
  induction fs as [|f fs IH]; intros H; [exists []; constructor|]. destruct IH as [ps R]; [intros x X; apply H; right; exact X|].
  destruct (get_relative_dir T fuel dir f) as [p|] eqn:E; [|exfalso; apply (H f); [left; reflexivity|exact E]].
  exists (p :: ps). constructor; assumption.
Qed.

Lemma dotdots_walk f : forall t n, member t -> num_dotdots T f t = Some n -> walks T t (repeat (B "..") n) top.
Proof.
  induction f as [|f IH]; [discriminate|]. intros t n M. cbn [num_dotdots]. destruct (parent T t) as [p|] eqn:E.
  - destruct (num_dotdots T f p) as [k|] eqn:K; [|discriminate]. intros [= <-]. cbn [repeat].
    apply w_up with p; [exact E|]. apply IH; [|exact K]. exact (dt_up _ _ _ D t p M E).
  - intros [= <-]. cbn. apply (dt_top _ _ _ D t M) in E. subst. constructor.
Qed.

(** * Sessions *)
Definition good_world (w : world) : Prop := forall n, In n (map fst (files w)) -> exists k, k < resno w /\ n = tmpfilename k.
Lemma fresh_name w : good_world w -> ~ In (tmpfilename (resno w)) (map fst (files w)).
Proof. intros G X. destruct (G _ X) as [k [L E]]. apply tmpfilename_inj in E. lia. Qed.

Definition grows (w w' : world) : Prop := exists l, files w' = l ++ files w.
Definition tidy (w : world) : Prop := good_world w /\ NoDup (map fst (files w)).
Lemma tidy_next w : tidy w -> tidy {| resno := S (resno w); files := files w |}.
Proof. intros [G N]. split; [|exact N]. intros n X. destruct (G n X) as [k [L E]]. exists k. cbn [resno]. split; [lia|exact E]. Qed.
Lemma tidy_add w c : tidy w -> tidy {| resno := S (resno w); files := (tmpfilename (resno w), c) :: files w |}.
Proof.
  intros [G N]. split.
  - intros n [<-|X]; [exists (resno w); cbn [resno]; split; [lia|reflexivity]|]. destruct (G n X) as [k [L E]]. exists k. cbn [resno]. split; [lia|exact E].
  - cbn. constructor; [apply fresh_name; exact G|exact N].
Qed.
Lemma grows_refl w : grows w w. Proof. exists []. reflexivity. Qed.
Lemma grows_trans a b c : grows a b -> grows b c -> grows a c.
Proof. intros [l E] [m F]. exists (m ++ l). rewrite F, E, app_assoc. reflexivity. Qed.

Lemma res_file_tidy par gn gs w : tidy w -> tidy (snd (expand_res_file T fuel srcdir tmp_ok par gn gs w)) /\ grows w (snd (expand_res_file T fuel srcdir tmp_ok par gn gs w)).
Proof.
  intros Tw. unfold expand_res_file. destruct (num_dotdots T fuel par); [|split; [exact Tw|apply grows_refl]].
  destruct tmp_ok; [|split; [apply tidy_next; exact Tw|exists []; reflexivity]].
  destruct (expand_group T fuel false (srcdir par) gn gs) as [[c u]| |]; cbn [snd].
  - split; [apply tidy_add; exact Tw|exists [(tmpfilename (resno w), c)]; reflexivity].
  - split; [apply tidy_next; exact Tw|exists []; reflexivity].
  - split; [apply tidy_next; exact Tw|exists []; reflexivity].
Qed.
Lemma loop_tidy lf par gs : forall tcmd acc used w, tidy w ->
  tidy (snd (expand_loop T fuel srcdir tmp_ok lf par gs tcmd acc used w)) /\ grows w (snd (expand_loop T fuel srcdir tmp_ok lf par gs tcmd acc used w)).
Proof.
  induction lf as [|lf IH]; intros tcmd acc used w Tw; cbn [expand_loop]; [split; [exact Tw|apply grows_refl]|].
  destruct (open_group tcmd) as [[pre rest]|]; [|split; [exact Tw|apply grows_refl]].
  destruct (close_group rest) as [[n after]|]; [|split; [exact Tw|apply grows_refl]].
  destruct (prefixb (B ".res") after).
  - destruct (res_file_tidy par (B "<" ++ n ++ B ">") gs w Tw) as [Tr Gr].
    destruct (expand_res_file T fuel srcdir tmp_ok par (B "<" ++ n ++ B ">") gs w) as [[[t u]| |] w']; cbn [snd] in *; auto.
    destruct (IH (skipn 4 after) (acc ++ pre ++ t) (used ++ u) w' Tr) as [A C]. split; [exact A|exact (grows_trans _ _ _ Gr C)].
  - destruct (expand_group T fuel true (srcdir par) (B "<" ++ n ++ B ">") gs) as [[t u]| |]; cbn [snd]; [apply IH; exact Tw| |]; (split; [exact Tw|apply grows_refl]).
Qed.
Lemma command_tidy par gs cmd w : tidy w ->
  tidy (snd (expand_command T fuel srcdir tmp_ok par gs cmd w)) /\ grows w (snd (expand_command T fuel srcdir tmp_ok par gs cmd w)).
Proof. intros Tw. unfold expand_command. destruct (open_group cmd); [apply loop_tidy; exact Tw|split; [exact Tw|apply grows_refl]]. Qed.
Lemma session_tidy w : session T fuel srcdir tmp_ok w -> tidy w.
Proof.
  induction 1 as [|w par gs cmd S IH]; [split; [intros n []|constructor]|]. apply command_tidy. exact IH.
Qed.

(** * The loop *)
Variable par : nat.
Variable gs : list group.
Hypothesis Mpar : member par.
Hypothesis Msrc : member (srcdir par).
Hypothesis Plain : Forall plain_group gs.
Hypothesis Mfiles : forall g f, In g gs -> In f (files_in g) -> member f.
Hypothesis Fuel : (forall g f, In g gs -> In f (files_in g) -> get_relative_dir T fuel (srcdir par) f <> None) /\ num_dotdots T fuel par <> None.

Lemma members_in g f : In f (members g gs) -> exists x, In x gs /\ In f (files_in x).
Proof. unfold members, named. rewrite in_flat_map. intros [x [X F]]. apply filter_In in X. exists x. split; [apply X|exact F]. Qed.
Lemma members_paths g : exists ps, rels (srcdir par) (members g gs) ps /\ paths_to T (srcdir par) (members g gs) ps.
Proof.
  destruct (rels_exist (srcdir par) (members g gs)) as [ps R].
  { intros f X. destruct (members_in g f X) as [x [A C]]. exact (proj1 Fuel x f A C). }
  exists ps. split; [exact R|]. apply rels_paths; [exact Msrc| |exact R].
  apply Forall_forall. intros f X. destruct (members_in g f X) as [x [A C]]. exact (Mfiles x f A C).
Qed.
(** The used groups of a list of pieces. *)
Definition used_by (ps : list piece) : list nat := flat_map (fun p => match names_group p with Some g => map g_id (named g gs) | None => [] end) ps.

Lemma within_app_l x a b : within x a -> within x (a ++ b).
Proof. intros [p [q ->]]. exists p, (q ++ b). rewrite <- !app_assoc. reflexivity. Qed.

Definition ok_piece (p : piece) : Prop := match names_group p with Some g => named g gs <> [] /\ ~ In nul g | None => True end.

Lemma concat_dots n : concat (repeat (B "../") n) = concat (map (fun u : bytes => u ++ B "/") (repeat (B "..") n)).
Proof. induction n as [|n IH]; [reflexivity|]. cbn [repeat map concat]. rewrite IH. reflexivity. Qed.

Lemma loop_good lf : forall ps acc used w, length (concat (map written ps)) < lf -> in_pieces ps -> tidy w ->
  Forall ok_piece ps -> ((exists g, In (PathFile g) ps) -> tmp_ok = true /\ srcdir par = par) ->
  exists out w', expand_loop T fuel srcdir tmp_ok lf par gs (concat (map written ps)) acc used w = (Good (acc ++ out, used ++ used_by ps), w') /\
    all_stand T top (srcdir par) gs (files w) ps out (files w').
Proof.
  induction lf as [|lf IH]; intros ps acc used w L P Tw Ok Res; [lia|].
  assert (Step : forall pre p r, ps = (match pre with [] => [] | _ => [Text pre] end) ++ p :: r -> ~ within (B "%<") pre ->
    names_group p <> None ->
    exists out w', expand_loop T fuel srcdir tmp_ok (S lf) par gs (concat (map written ps)) acc used w = (Good (acc ++ pre ++ out, used ++ used_by (p :: r)), w') /\
      all_stand T top (srcdir par) gs (files w) (p :: r) out (files w')).
  { intros pre p r E Npre Np.
    assert (in_pieces (p :: r)) as Pp.
    { subst ps. destruct pre as [|c pre]; [exact P|]. exact (proj2 (proj2 (proj2 P))). }
    assert (Forall ok_piece (p :: r)) as Okp. { subst ps. apply Forall_app in Ok. apply Ok. }
    assert (concat (map written ps) = pre ++ concat (map written (p :: r))) as Ec.
    { subst ps. rewrite map_app, concat_app. f_equal. destruct pre; [reflexivity|]. cbn. rewrite app_nil_r. reflexivity. }
    assert ((exists g, In (PathFile g) (p :: r)) -> tmp_ok = true /\ srcdir par = par) as Resp.
    { intros [g X]. apply Res. exists g. subst ps. apply in_or_app. right. exact X. }
    rewrite Ec in *. clear E Ec P Ok Res ps. inversion Okp as [|? ? Okh Okt]; subst.
    cbn [map concat] in *. destruct p as [t|g|g]; [contradiction Np; reflexivity| |]; cbn [names_group] in Okh; destruct Okh as [Nn Zg]; cbn [in_pieces] in Pp.
    - destruct Pp as [Ng [Nx Pr]]. cbn [written] in *. cbn [expand_loop].
      replace (pre ++ (B "%<" ++ g ++ B ">") ++ concat (map written r)) with (pre ++ B "%<" ++ (g ++ ">"%char :: concat (map written r))) in *
        by (rewrite <- !app_assoc; reflexivity).
      rewrite (open_group_here _ _ Npre), (close_group_here _ _ Ng).
      replace (prefixb (B ".res") (concat (map written r))) with false.
      2:{ destruct r as [|[t|h|h] r]; cbn [map concat written]; try reflexivity. destruct (prefixb (B ".res") (t ++ concat (map written r))) eqn:X; [|reflexivity].
          exfalso. cbn [in_pieces] in Pr. destruct Pr as [Ne [Nw [Nr _]]].
          (* t shorter than .res: the next piece starts with % *)
          apply prefixb_spec in X as [z X].
          destruct (cut_prefix t (concat (map written r)) (B ".res") Nx (ex_intro _ z X)) as [k' [A [C [z' F]]]].
          assert (In "%"%char (B ".res")) as Bad.
          { rewrite C. apply in_or_app. right. destruct k' as [|c k']; [contradiction|]. left.
            destruct r as [|[t'|h|h] r]; [discriminate|destruct Nr|injection F as <- _; reflexivity|injection F as <- _; reflexivity]. }
          cbn in Bad. intuition discriminate. }
      destruct (members_paths g) as [ps [R Rp]]. rewrite (expand_group_good true (srcdir par) g gs ps Plain Ng Zg R Nn).
      destruct (IH r (acc ++ pre ++ words ps) (used ++ map g_id (named g gs)) w) as [out [w' [E S]]].
      { clear - L. rewrite !app_length in L. cbn [length] in L. rewrite ?app_length in L. lia. }
      { exact Pr. } { exact Tw. } { exact Okt. } { intros [h X]. apply Resp. exists h. right. exact X. }
      exists (words ps ++ out), w'. rewrite E. cbn [used_by flat_map names_group]. rewrite <- !app_assoc. split; [reflexivity|].
      apply as_cons with (files w); [apply st_paths; exact Rp|exact S].
    - destruct Pp as [Ng Pr]. cbn [written] in *. cbn [expand_loop].
      replace (pre ++ (B "%<" ++ g ++ B ">.res") ++ concat (map written r)) with (pre ++ B "%<" ++ (g ++ ">"%char :: (B ".res" ++ concat (map written r)))) in *
        by (rewrite <- !app_assoc; reflexivity).
      rewrite (open_group_here _ _ Npre), (close_group_here _ _ Ng).
      replace (prefixb (B ".res") (B ".res" ++ concat (map written r))) with true by (symmetry; apply prefixb_spec; eauto).
      replace (skipn 4 (B ".res" ++ concat (map written r))) with (concat (map written r)) by reflexivity.
      destruct (members_paths g) as [ps [R Rp]]. destruct (Resp ltac:(exists g; left; reflexivity)) as [Tok Es].
      unfold expand_res_file. destruct (num_dotdots T fuel par) as [n|] eqn:Dn; [|exfalso; exact (proj2 Fuel eq_refl)].
      match goal with |- context [if tmp_ok then ?a else ?b] => replace (if tmp_ok then a else b) with a by (rewrite Tok; reflexivity) end.
      rewrite (expand_group_good false (srcdir par) g gs ps Plain Ng Zg R Nn).
      set (w1 := {| resno := S (resno w); files := (tmpfilename (resno w), lines ps) :: files w |}).
      destruct (IH r (acc ++ pre ++ concat (repeat (B "../") n) ++ tmpfilename (resno w)) (used ++ map g_id (named g gs)) w1) as [out [w' [E S]]].
      { clear - L. rewrite !app_length in L. cbn [length] in L. rewrite ?app_length in L. lia. }
      { exact Pr. } { apply tidy_add. exact Tw. } { exact Okt. } { intros [h X]. apply Resp. exists h. right. exact X. }
      exists ((concat (repeat (B "../") n) ++ tmpfilename (resno w)) ++ out), w'. rewrite E. cbn [used_by flat_map names_group]. rewrite <- !app_assoc. split; [reflexivity|].
      rewrite app_assoc. apply as_cons with (files w1); [|exact S]. rewrite concat_dots. apply st_file; [exact Rp| | |].
      + rewrite Es. exact (dotdots_walk fuel par n Mpar Dn).
      + apply Forall_forall. intros u Hu. apply repeat_spec in Hu. symmetry. exact Hu.
      + apply fresh_name. apply Tw. }
  destruct ps as [|p r].
  { exists [], w. split; [|constructor]. cbn. rewrite !app_nil_r. reflexivity. }
  destruct p as [t|g|g].
  - destruct P as [Ne [Nw [Nr Pr]]]. destruct r as [|p r].
    + exists t, w. cbn [map concat written]. rewrite app_nil_r. cbn [expand_loop]. rewrite (open_group_not _ Nw). cbn [used_by flat_map names_group].
      rewrite app_nil_r. split; [reflexivity|]. replace t with (t ++ []) by apply app_nil_r. apply as_cons with (files w); [|constructor]. rewrite app_nil_r. constructor.
    + destruct (Step t p r) as [out [w' [E S]]].
      * destruct t; [contradiction|reflexivity].
      * exact Nw.
      * destruct p; [destruct Nr|discriminate|discriminate].
      * exists (t ++ out), w'. split; [exact E|]. apply as_cons with (files w); [constructor|exact S].
  - destruct (Step [] (Paths g) r eq_refl) as [out [w' [E S]]]; [intros [[|x a] [b X]]; discriminate|discriminate|]. exists out, w'. auto.
  - destruct (Step [] (PathFile g) r eq_refl) as [out [w' [E S]]]; [intros [[|x a] [b X]]; discriminate|discriminate|]. exists out, w'. auto.
Qed.

Lemma pieces_no_open ps : in_pieces ps -> ~ within (B "%<") (concat (map written ps)) -> ps = [] \/ exists t, ps = [Text t].
Proof.
  intros P N. destruct ps as [|[t|g|g] r]; [auto| | |].
  - destruct P as [_ [_ [Nr _]]]. destruct r as [|[t'|g|g] r]; [right; exists t; reflexivity|destruct Nr| |]; exfalso; apply N; exists t; cbn [map concat written]; rewrite <- !app_assoc; eauto.
  - exfalso. apply N. exists []. cbn [map concat written]. rewrite <- !app_assoc. cbn [app]. eauto.
  - exfalso. apply N. exists []. cbn [map concat written]. rewrite <- !app_assoc. cbn [app]. eauto.
Qed.

Lemma command_good cmd ps w : template cmd ps -> session T fuel srcdir tmp_ok w -> Forall ok_piece ps ->
  ((exists g, In (PathFile g) ps) -> tmp_ok = true /\ srcdir par = par) ->
  exists out w', expand_command T fuel srcdir tmp_ok par gs cmd w = (Good (out, used_by ps), w') /\
    all_stand T top (srcdir par) gs (files w) ps out (files w').
Proof.
  intros [-> P] Se Ok Res. unfold expand_command. destruct (open_group (concat (map written ps))) eqn:E.
  - exact (loop_good (S (length (concat (map written ps)))) ps [] [] w ltac:(lia) P (session_tidy w Se) Ok Res).
  - apply open_group_none in E. destruct (pieces_no_open ps P E) as [->|[t ->]]; cbn [map concat written used_by flat_map names_group]; rewrite ?app_nil_r.
    + exists [], w. split; [reflexivity|constructor].
    + exists t, w. split; [reflexivity|]. replace t with (t ++ []) at 2 by apply app_nil_r. apply as_cons with (files w); [|constructor]. constructor.
Qed.

(** What expand_command accepts can be divided, and its groups are there. *)
Lemma loop_accepts lf : forall tcmd acc used w r w', ~ In nul tcmd -> expand_loop T fuel srcdir tmp_ok lf par gs tcmd acc used w = (Good r, w') ->
  exists ps, template tcmd ps /\ Forall ok_piece ps /\ ((exists g, In (PathFile g) ps) -> tmp_ok = true).
Proof using Plain.
  clear Fuel Mfiles Msrc Mpar.
  induction lf as [|lf IH]; intros tcmd acc used w r w' Z; cbn [expand_loop]; [discriminate|].
  destruct (open_group tcmd) as [[pre rest]|] eqn:Eo.
  - destruct (open_group_some _ _ _ Eo) as [-> Npre]. destruct (close_group rest) as [[n after]|] eqn:Ec; [|discriminate].
    destruct (close_group_some _ _ _ Ec) as [-> Nn].
    assert (~ In nul n /\ ~ In nul after) as [Zn Za].
    { split; intros X; apply Z; apply in_or_app; right; apply in_or_app; right; apply in_or_app; [left; exact X|right; right; exact X]. }
    assert (forall inl dir a, expand_group T fuel inl dir (B "<" ++ n ++ B ">") gs = Good a -> named n gs <> []) as Nm.
    { intros inl dir a Ea Nm. rewrite (expand_group_none inl dir n gs Plain Nn Zn Nm) in Ea. discriminate. }
    assert (Put : forall p r, in_pieces (p :: r) -> names_group p <> None -> Forall ok_piece (p :: r) ->
      in_pieces ((match pre with [] => [] | _ => [Text pre] end) ++ p :: r) /\
      Forall ok_piece ((match pre with [] => [] | _ => [Text pre] end) ++ p :: r) /\
      concat (map written ((match pre with [] => [] | _ => [Text pre] end) ++ p :: r)) = pre ++ written p ++ concat (map written r)).
    { intros p rr Pp Np Op. destruct pre as [|c pre]; [auto|]. split; [|split].
      - cbn [app in_pieces]. split; [discriminate|]. split; [exact Npre|]. split; [|exact Pp]. destruct p; [contradiction Np; reflexivity|exact I|exact I].
      - constructor; [exact I|exact Op].
      - reflexivity. }
    destruct (prefixb (B ".res") after) eqn:Er.
    + apply prefixb_spec in Er as [after' ->]. replace (skipn 4 (B ".res" ++ after')) with after' by reflexivity.
      unfold expand_res_file. destruct (num_dotdots T fuel par); [|discriminate]. destruct tmp_ok eqn:Tok; [|discriminate].
      destruct (expand_group T fuel false (srcdir par) (B "<" ++ n ++ B ">") gs) as [[c u]| |] eqn:Eg; try discriminate.
      intros E. apply IH in E as [ps [[-> P] [Ok _]]]; [|intros X; apply Za; apply in_or_app; right; exact X].
      destruct (Put (PathFile n) ps) as [A [C F]].
      { split; [exact Nn|exact P]. } { discriminate. } { constructor; [split; [exact (Nm _ _ _ Eg)|exact Zn]|exact Ok]. }
      eexists. split; [split; [|exact A]|split; [exact C|auto]]. rewrite F. cbn [written]. rewrite <- !app_assoc. reflexivity.
    + destruct (expand_group T fuel true (srcdir par) (B "<" ++ n ++ B ">") gs) as [[t u]| |] eqn:Eg; try discriminate.
      intros E. apply IH in E as [ps [[-> P] [Ok Rs]]]; [|exact Za].
      destruct (Put (Paths n) ps) as [A [C F]].
      { split; [exact Nn|]. split; [|exact P]. destruct ps as [|[t'|h|h] ps]; auto. destruct (prefixb (B ".res") t') eqn:X; [|reflexivity].
        apply prefixb_spec in X as [z ->]. cbn [map concat written] in Er. rewrite <- app_assoc in Er.
        assert (prefixb (B ".res") (B ".res" ++ z ++ concat (map written ps)) = true) as Y by (apply prefixb_spec; eauto). congruence. }
      { discriminate. } { constructor; [split; [exact (Nm _ _ _ Eg)|exact Zn]|exact Ok]. }
      eexists. split; [split; [|exact A]|split; [exact C|]]. { rewrite F. cbn [written]. rewrite <- !app_assoc. reflexivity. }
      intros [g X]. apply in_app_or in X as [X|[X|X]]; [destruct pre; [destruct X|destruct X as [X|[]]; discriminate]|discriminate|eauto].
  - intros _. apply open_group_none in Eo. destruct tcmd as [|c t].
    + exists []. split; [split; [reflexivity|exact I]|]. split; [constructor|intros [g []]].
    + exists [Text (c :: t)]. split; [split; [cbn [map concat written]; rewrite app_nil_r; reflexivity|]|].
      * cbn [in_pieces]. split; [discriminate|]. auto.
      * split; [repeat constructor|]. intros [g [X|[]]]. discriminate.
Qed.
Lemma command_accepts cmd w r w' : ~ In nul cmd -> expand_command T fuel srcdir tmp_ok par gs cmd w = (Good r, w') ->
  exists ps, template cmd ps /\ Forall ok_piece ps /\ ((exists g, In (PathFile g) ps) -> tmp_ok = true).
Proof using Plain.
  intros Z. unfold expand_command. destruct (open_group cmd) eqn:Eo; [apply loop_accepts; exact Z|]. intros _.
  assert (expand_loop T fuel srcdir tmp_ok 1 par gs cmd [] [] w = (Good (cmd, []), w)) as E by (cbn; rewrite Eo; reflexivity).
  exact (loop_accepts _ _ _ _ _ _ _ Z E).
Qed.
End Run.
