(** get_rel_tent makes the mirror of a directory. *)
From Verif Require Import Base DbModel VariantModel VariantSpec VariantProofs.

Definition dirs_ok (r : table) : Prop := forall x n p m, get r x = Some n -> ty n = TDir -> up n = Some p -> get r p = Some m -> ty m = TDir.
Definition kept (r r' : table) : Prop := forall y n, get r y = Some n -> ty n = TDir -> exists n', get r' y = Some n' /\ up n' = up n /\ nm n' = nm n /\ ty n' = TDir.
Definition held (r : table) (y : nat) : Prop := forall n p, get r y = Some n -> up n = Some p -> isdir r p.
Definition apart (r : table) (v w : nat) : Prop := ~ below r v w /\ ~ below r w v.

Lemma kept_trans a b c : kept a b -> kept b c -> kept a c.
Proof. intros P Q y n G T. destruct (P _ _ G T) as [m [Gm [Um [Nm Tm]]]]. destruct (Q _ _ Gm Tm) as [k [Gk [Uk [Nk Tk]]]]. exists k. split; [exact Gk|]. split; [congruence|]. split; [congruence|exact Tk]. Qed.
Lemma kept_dir r r' x : kept r r' -> isdir r x -> isdir r' x.
Proof. intros P [n [G T]]. destruct (P _ _ G T) as [m [Gm [_ [_ Tm]]]]. exists m. auto. Qed.
Lemma dir_up r top x n p : tree_ok r top -> dirs_ok r -> get r x = Some n -> ty n = TDir -> up n = Some p -> isdir r p.
Proof. intros K Dr G T U. destruct (t_up _ _ K _ _ _ G U) as [m Gm]. exists m. split; [exact Gm|]. exact (Dr _ _ _ _ G T U Gm). Qed.
Lemma dir_held r top y : tree_ok r top -> dirs_ok r -> isdir r y -> held r y.
Proof. intros K Dr [n [G T]] m p Gm U. assert (m = n) as -> by congruence. exact (dir_up r top y n p K Dr G T U). Qed.
Lemma anc_dir r top x y : tree_ok r top -> dirs_ok r -> below r x y -> isdir r y -> isdir r x.
Proof. intros K Dr. induction 1 as [y n G U|y n p G U Bl IH]; intros [m [Gm T]]; assert (m = n) as -> by congruence; [exact (dir_up r top y n x K Dr G T U)|apply IH; exact (dir_up r top y n p K Dr G T U)]. Qed.
Lemma twin_back r r' top v a x : tree_ok r top -> dirs_ok r -> kept r r' -> twin r' top v a x -> isdir r a -> isdir r x -> twin r top v a x.
Proof.
  intros K Dr P. induction 1 as [|p q a x n m H IH Ga Ua Gx Ux E]; intros Da Dx; [constructor|]. destruct Da as [n0 [Ga0 Ta]], Dx as [m0 [Gx0 Tx]].
  destruct (P _ _ Ga0 Ta) as [n1 [Ga1 [Ua1 [Na1 _]]]]. destruct (P _ _ Gx0 Tx) as [m1 [Gx1 [Ux1 [Nx1 _]]]]. assert (n1 = n) as -> by congruence. assert (m1 = m) as -> by congruence.
  apply (twin_sub r top v p q a x n0 m0); try assumption; try congruence. apply IH; [apply (dir_up r top a n0 p K Dr Ga0 Ta)|apply (dir_up r top x m0 q K Dr Gx0 Tx)]; congruence.
Qed.
Lemma below_back r r' top x y : tree_ok r top -> dirs_ok r -> kept r r' -> below r' x y -> isdir r y -> below r x y.
Proof.
  intros K Dr P. induction 1 as [y n G U|y n p G U Bl IH]; intros [n0 [G0 T0]]; destruct (P _ _ G0 T0) as [n1 [G1 [U1 _]]]; assert (n1 = n) as -> by congruence.
  - apply (below_child r x y n0); [exact G0|congruence].
  - apply (below_step r x y n0 p); [exact G0|congruence|]. apply IH. apply (dir_up r top y n0 p K Dr G0 T0). congruence.
Qed.
Lemma inside_back r r' top x y : tree_ok r top -> dirs_ok r -> kept r r' -> inside r' x y -> isdir r y -> inside r x y.
Proof. intros K Dr P [->|Bl] D; [left; reflexivity|right; exact (below_back r r' top x y K Dr P Bl D)]. Qed.
Lemma chain r top x y b : tree_ok r top -> inside r x b -> inside r y b -> x = y \/ below r x y \/ below r y x.
Proof.
  intros K [->|Hx]; [intros [->|Hy]; auto|]. induction Hx as [b n G U|b n p G U Bl IH]; intros [->|Hy].
  - right. left. eapply below_child; eauto.
  - destruct (below_up r y b n x G U Hy) as [->|Hp]; auto.
  - right. left. eapply below_step; eauto.
  - apply IH. exact (below_up r y b n p G U Hy).
Qed.
Lemma apart_kept r r' top v w : tree_ok r top -> dirs_ok r -> kept r r' -> isdir r v -> isdir r w -> apart r v w -> apart r' v w.
Proof. intros K Dr P Dv Dw [A1 A2]. split; intros Bl; [apply A1|apply A2]; eapply below_back; eauto. Qed.

(** ** A step *)
Section Step.
Variables (r1 r' : table) (top base p d t x : nat) (n : row).
Hypotheses (K : tree_ok r1 top) (Dr : dirs_ok r1) (Db : isdir r1 base).
Hypotheses (Gt : get r1 t = Some n) (Tt : ty n = TDir) (Ut : up n = Some p) (Nb : ~ inside r1 base t) (M : mirrors r1 top base p d).
Hypothesis (L : leveled d (nm n) t r1 x r' top).

Lemma step_d : isdir r1 d.
Proof. inversion M as [E1 E2|p0 q0 x0 y0 n0 m0 H0 G0 U0 Gy Uy E Ty Sy E1 E2]; [rewrite <- E2; exact Db|exists m0; auto]. Qed.
Lemma step_kept : kept r1 r'.
Proof.
  intros y m G T. destruct (lv_old _ _ _ _ _ _ _ L y m G) as [G'|[U [N E]]]; [exists m; auto|]. rewrite (E T) in *. destruct (lv_row _ _ _ _ _ _ _ L) as [nx [Gx [Ux [Nx [Tx _]]]]].
  exists nx. split; [exact Gx|]. split; [congruence|]. split; [congruence|exact Tx].
Qed.
Lemma step_dirs : dirs_ok r'.
Proof.
  intros y m q k G T U Gq. destruct (lv_new _ _ _ _ _ _ _ L y m G) as [G1| ->].
  - destruct (kept_dir _ _ _ step_kept (dir_up r1 top y m q K Dr G1 T U)) as [k' [Gk Tk]]. congruence.
  - destruct (lv_row _ _ _ _ _ _ _ L) as [nx [Gx [Ux _]]]. assert (m = nx) as -> by congruence. assert (q = d) as -> by congruence.
    destruct (kept_dir _ _ _ step_kept step_d) as [k' [Gk Tk]]. congruence.
Qed.
Lemma step_mirrors w a b : (w = base \/ apart r1 base w) -> isdir r1 a -> ~ inside r1 base a -> mirrors r1 top w a b -> mirrors r' top w a b.
Proof.
  intros Hw Da Na H. induction H as [|p' q' a b na m H IH Ga Ua Gb Ub E Tb Sb]; [constructor|]. destruct Da as [n0 [G0 T0]]. assert (n0 = na) as -> by congruence.
  destruct (step_kept _ _ Ga T0) as [na' [Ga' [Ua' [Na' _]]]].
  assert (mirrors r' top w p' q') as Hp.
  { apply IH; [exact (dir_up r1 top a na p' K Dr Ga T0 Ua)|]. intros [-> |Bl]; apply Na; right; [eapply below_child; eauto|eapply below_step; eauto]. }
  assert (get r' b = Some m) as Gb'.
  { destruct (lv_old _ _ _ _ _ _ _ L b m Gb) as [Gb'|[Uq [Nq _]]]; [exact Gb'|].
    assert (q' = d) as -> by congruence. assert (inside r1 base b) as Ib.
    { right. destruct (twin_inside _ _ _ _ _ (mirrors_twin _ _ _ _ _ M)) as [Ed|Bl]; [rewrite Ed in Ub; eapply below_child; eauto|eapply below_step; eauto]. }
    assert (inside r1 w b) as Iw.
    { right. destruct (twin_inside _ _ _ _ _ (mirrors_twin _ _ _ _ _ H)) as [Ed|Bl]; [rewrite Ed in Ub; eapply below_child; eauto|eapply below_step; eauto]. }
    assert (w = base) as ->. { destruct Hw as [Hw|[A1 A2]]; [exact Hw|]. destruct (chain r1 top base w b K Ib Iw) as [Ew|[Bl|Bl]]; [auto|contradiction|contradiction]. }
    pose proof (twin_fun r1 top base K _ _ (mirrors_twin _ _ _ _ _ M) _ (mirrors_twin _ _ _ _ _ H)) as ->.
    assert (a = t) as -> by (apply (t_names _ _ K a t na n Ga Gt); congruence).
    exact (lv_keep _ _ _ _ _ _ _ L b m Gb Uq Nq Tb Sb). }
  apply (mirrors_sub r' top w p' q' a b na' m); try assumption; congruence.
Qed.
Lemma step_mirror : mirrors r' top base t x.
Proof.
  destruct (step_kept _ _ Gt Tt) as [n' [G' [U' [N' _]]]]. destruct (lv_row _ _ _ _ _ _ _ L) as [nx [Gx [Ux [Nx [Tx Sx]]]]].
  apply (mirrors_sub r' top base p d t x n' nx); try assumption; try congruence. apply step_mirrors; [left; reflexivity|exact (dir_up r1 top t n p K Dr Gt Tt Ut)| |exact M].
  intros [Ep|Bl]; apply Nb; right; [rewrite Ep in Ut; eapply below_child; eauto|eapply below_step; eauto].
Qed.
End Step.

(** ** All of it *)
Record related (r : table) (k : list (nat * bytes)) (r' : table) (k' : list (nat * bytes)) (top base t m : nat) : Prop := {
  rl_tree : tree_ok r' top;
  rl_dirs : dirs_ok r';
  rl_disk : disk_ok r k -> disk_ok r' k';
  rl_grow : forall b, In b k -> In b k';
  rl_kept : kept r r';
  rl_mirror : mirrors r' top base t m;
  rl_frame : forall y n, get r y = Some n -> held r y ->
    get r' y = Some n \/ exists a, inside r a t /\ a <> top /\ twin r top base a y /\ (ty n = TDir -> mirrors r' top base a y);
  rl_out : forall y n, get r y = Some n -> ~ inside r base y -> get r' y = Some n;
  rl_new : forall y n', get r' y = Some n' -> get r y = Some n' \/ exists a, inside r a t /\ a <> top /\ mirrors r' top base a y;
  rl_mirrors : forall w a b, (w = base \/ apart r base w) -> isdir r w -> isdir r a -> ~ inside r base a -> mirrors r top w a b -> mirrors r' top w a b }.

Lemma out_back r r' b y n : (forall y n, get r y = Some n -> ~ inside r b y -> get r' y = Some n) -> (forall y n p, get r y = Some n -> up n = Some p -> exists m, get r p = Some m) ->
  get r y = Some n -> ~ inside r b y -> ~ inside r' b y.
Proof.
  intros F U G N [E|Bl]; [apply N; left; exact E|]. revert n G N. induction Bl as [y m Gm Um|y m p Gm Um Bl IH]; intros n G N; pose proof (F _ _ G N) as G'; assert (m = n) as -> by congruence.
  - apply N. right. eapply below_child; eauto.
  - destruct (U _ _ _ G Um) as [k Gk]. apply (IH k Gk). intros [Ep|Bp]; apply N; right; [rewrite Ep in Um; eapply below_child; eauto|eapply below_step; eauto].
Qed.

Lemma get_rel_step f base t s : get_rel (S f) base t s =
  match get (tbl s) t with
  | None => None
  | Some n => match up n with
              | None => Some (base, s)
              | Some p => match get_rel f base p s with
                          | None => None
                          | Some (d, s) => let '(x, r, k) := level d (nm n) t (tbl s) (disk s) in
                                           Some (x, {| tbl := r; disk := k; plist := plist s; removing := removing s |})
                          end
              end
  end.
Proof.
  cbn [get_rel]. destruct (get (tbl s) t) as [n|]; [|reflexivity]. destruct (up n) as [p|]; [|reflexivity]. destruct (get_rel f base p s) as [[d s1]|]; [|reflexivity]. unfold level.
  destruct (match find_in (tbl s1) d (nm n) with Some _ => _ | None => _ end) as [r k]. destruct (create_dir d (nm n) t r) as [[x c] r2]. reflexivity.
Qed.

Theorem get_rel_spec top base : forall f t s m s', tree_ok (tbl s) top -> dirs_ok (tbl s) -> isdir (tbl s) base -> isdir (tbl s) t -> ~ inside (tbl s) base t ->
  get_rel f base t s = Some (m, s') -> related (tbl s) (disk s) (tbl s') (disk s') top base t m /\ plist s' = plist s /\ removing s' = removing s.
Proof.
  induction f as [|f IH]; intros t s m s' K Dr Db Dt Nb H; [discriminate|]. rewrite get_rel_step in H. destruct Dt as [n [Gt Tt]]. rewrite Gt in H.
  destruct (up n) as [p|] eqn:Ut.
  2: { injection H as <- <-. apply (t_top _ _ K t n Gt) in Ut. subst t. split; [|auto]. split; auto; [intros y ny G T; exists ny; auto|constructor]. }
  pose proof (dir_up _ top t n p K Dr Gt Tt Ut) as Dp.
  assert (~ inside (tbl s) base p) as Nbp. { intros [Ep|Bl]; apply Nb; right; [rewrite Ep in Ut; eapply below_child; eauto|eapply below_step; eauto]. }
  destruct (get_rel f base p s) as [[d s1]|] eqn:G; [|discriminate]. destruct (IH p s d s1 K Dr Db Dp Nbp G) as [R [Pl Rm]]. clear IH.
  destruct (level d (nm n) t (tbl s1) (disk s1)) as [[x r'] k'] eqn:Lv. injection H as <- <-. cbn [tbl disk plist removing]. split; [|auto].
  destruct R as [K1 Dr1 Dk1 Gw1 P1 M1 F1 O1 N1 Ms1]. destruct (P1 _ _ Gt Tt) as [n1 [Gt1 [Ut1 [Nt1 Tt1]]]]. rewrite Ut in Ut1. rewrite <- Nt1 in Lv.
  pose proof (kept_dir _ _ _ P1 Db) as Db1.
  assert (~ inside (tbl s1) base t) as Nb1 by (intros I; apply Nb; apply (inside_back (tbl s) (tbl s1) top base t K Dr P1 I); exists n; auto).
  assert (exists nd, get (tbl s1) d = Some nd) as Gd. { destruct (step_d _ top base p d Db1 M1) as [nd [Gd _]]. eauto. }
  destruct (level_spec d (nm n1) t (tbl s1) (disk s1) top x r' k' K1 Gd Lv) as [L [Dk Gw]].
  pose proof (step_kept _ _ _ _ _ _ _ L) as P2.
  assert (forall w a b, (w = base \/ apart (tbl s1) base w) -> isdir (tbl s1) a -> ~ inside (tbl s1) base a -> mirrors (tbl s1) top w a b -> mirrors r' top w a b) as Ms2
    by (apply (step_mirrors (tbl s1) r' top base p d t x n1); assumption).
  assert (mirrors r' top base t x) as Mx by (eapply (step_mirror (tbl s1) r' top base p d t x n1); eassumption).
  split.
  - exact (lv_tree _ _ _ _ _ _ _ L).
  - apply (step_dirs (tbl s1) r' top base p d t x n1); assumption.
  - auto.
  - auto.
  - exact (kept_trans _ _ _ P1 P2).
  - exact Mx.
  - intros y ny Gy Hy. destruct (F1 y ny Gy Hy) as [Gy1|[a [Ia [Na [Tw Ma]]]]].
    + destruct (lv_old _ _ _ _ _ _ _ L y ny Gy1) as [Gy2|[Uy [Ny Ey]]]; [left; exact Gy2|right]. exists t. split; [left; reflexivity|]. split; [intros ->; pose proof (top_none _ _ _ K Gt); congruence|].
      split; [|intros T; rewrite (Ey T); exact Mx]. apply (twin_sub _ top base p d t y n ny); try assumption; [|congruence].
      apply (twin_back (tbl s) (tbl s1) top base p d K Dr P1 (mirrors_twin _ _ _ _ _ M1) Dp). exact (Hy ny d Gy Uy).
    + right. exists a. assert (below (tbl s) a t) as Ba. { destruct Ia as [Ea|Bl]; [rewrite <- Ea; eapply below_child; eauto|eapply below_step; eauto]. }
      split; [right; exact Ba|]. split; [exact Na|]. split; [exact Tw|]. intros T. assert (isdir (tbl s) a) as Da by (apply (anc_dir _ top a t K Dr Ba); exists n; auto).
      apply Ms2; [left; reflexivity|exact (kept_dir _ _ _ P1 Da)| |exact (Ma T)]. intros I. apply (inside_back _ _ top base a K Dr P1) in I; [|exact Da]. apply Nb.
      destruct I as [-> |Bl]; right; [exact Ba|exact (below_trans _ _ _ _ Bl Ba)].
  - intros y ny Gy Ny. pose proof (O1 _ _ Gy Ny) as Gy1. destruct (lv_old _ _ _ _ _ _ _ L y ny Gy1) as [Gy2|[Uy _]]; [exact Gy2|]. exfalso.
    apply (out_back (tbl s) (tbl s1) base y ny O1 (t_up _ _ K) Gy Ny). right. destruct (twin_inside _ _ _ _ _ (mirrors_twin _ _ _ _ _ M1)) as [Ed|Bl]; [rewrite Ed in Uy; eapply below_child; eauto|eapply below_step; eauto].
  - intros y ny Gy. destruct (lv_new _ _ _ _ _ _ _ L y ny Gy) as [Gy1| ->].
    + destruct (N1 _ _ Gy1) as [G0|[a [Ia [Na Ma]]]]; [left; exact G0|right]. exists a.
      assert (below (tbl s) a t) as Ba. { destruct Ia as [Ea|Bl]; [rewrite <- Ea; eapply below_child; eauto|eapply below_step; eauto]. }
      split; [right; exact Ba|]. split; [exact Na|]. assert (isdir (tbl s) a) as Da by (apply (anc_dir _ top a t K Dr Ba); exists n; auto).
      apply Ms2; [left; reflexivity|exact (kept_dir _ _ _ P1 Da)| |exact Ma]. intros I. apply (inside_back _ _ top base a K Dr P1) in I; [|exact Da]. apply Nb.
      destruct I as [-> |Bl]; right; [exact Ba|exact (below_trans _ _ _ _ Bl Ba)].
    + right. exists t. split; [left; reflexivity|]. split; [intros ->; pose proof (top_none _ _ _ K Gt); congruence|exact Mx].
  - intros w a b Hw Dw Da Na Hm. apply Ms2.
    + destruct Hw as [Hw|Hw]; [left; exact Hw|right]. exact (apart_kept _ _ top base w K Dr P1 Db Dw Hw).
    + exact (kept_dir _ _ _ P1 Da).
    + intros I. apply Na. exact (inside_back _ _ top base a K Dr P1 I Da).
    + exact (Ms1 w a b Hw Dw Da Na Hm).
Qed.
