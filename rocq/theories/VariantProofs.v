(** The table, and get_rel_tent. *)
From Verif Require Import Base DbModel VariantModel VariantSpec.

(** ** Rows *)
Lemma get_set x f r y : get (set_row x f r) y = if y =? x then option_map f (get r y) else get r y.
Proof.
  revert y. induction r as [|[z n] r IH]; intros y; [destruct (y =? x); reflexivity|]. cbn [set_row map fst snd get]. destruct (Nat.eqb_spec z x) as [->|N].
  - cbn [get]. specialize (IH y). destruct (y =? x); [reflexivity|exact IH].
  - cbn [get]. destruct (Nat.eqb_spec y z) as [->|M]; [|exact (IH y)]. destruct (Nat.eqb_spec z x); [contradiction|reflexivity].
Qed.
Lemma get_filter x r y : get (filter (fun p => negb (fst p =? x)) r) y = if y =? x then None else get r y.
Proof.
  revert y. induction r as [|[z n] r IH]; intros y; [destruct (y =? x); reflexivity|]. cbn [filter fst get]. destruct (Nat.eqb_spec z x) as [->|N]; cbn [negb].
  - rewrite IH. destruct (Nat.eqb_spec y x); reflexivity.
  - cbn [get]. rewrite IH. destruct (Nat.eqb_spec y z) as [->|M]; [|reflexivity]. destruct (Nat.eqb_spec z x); [contradiction|reflexivity].
Qed.
Lemma get_in r x n : get r x = Some n -> In (x, n) r.
Proof. induction r as [|[y m] r IH]; [discriminate|]. cbn [get]. destruct (Nat.eqb_spec x y) as [->|N]; [intros E; injection E as ->; left; reflexivity|right; auto]. Qed.
Lemma in_get r x n : NoDup (map fst r) -> In (x, n) r -> get r x = Some n.
Proof.
  induction r as [|[y m] r IH]; intros N I; [destruct I|]. cbn [get]. inversion N as [|? ? Ny Nr]; subst. destruct I as [E|I].
  - injection E as -> ->. rewrite Nat.eqb_refl. reflexivity.
  - destruct (Nat.eqb_spec x y) as [->|M]; [|auto]. exfalso. apply Ny. apply in_map_iff. exists (y, n). auto.
Qed.
Lemma fresh_gt r x n : get r x = Some n -> x < fresh r.
Proof.
  unfold fresh. induction r as [|[y m] r IH]; [discriminate|]. cbn [get map fst fold_right]. destruct (Nat.eqb_spec x y) as [->|N]; intros E; [lia|]. specialize (IH E). lia.
Qed.
Lemma fresh_none r : get r (fresh r) = None.
Proof. destruct (get r (fresh r)) as [n|] eqn:E; [|reflexivity]. apply fresh_gt in E. lia. Qed.
Lemma up_is_iff x n : up_is x n = true <-> up n = Some x.
Proof. unfold up_is. destruct (up n) as [p|]; [rewrite Nat.eqb_eq; split; congruence|split; discriminate]. Qed.
Lemma find_some r d name x : NoDup (map fst r) -> find_in r d name = Some x -> exists n, get r x = Some n /\ up n = Some d /\ nm n = name.
Proof.
  unfold find_in. intros N H. destruct (find _ r) as [[y n]|] eqn:F; [|discriminate]. injection H as <-. apply find_some in F as [I C]. cbn [snd] in C.
  apply andb_prop in C as [C1 C2]. apply up_is_iff in C1. apply bytes_eqb_eq in C2. exists n. split; [apply in_get; assumption|]. auto.
Qed.
Lemma find_none r d name : find_in r d name = None -> forall x n, get r x = Some n -> up n = Some d -> nm n = name -> False.
Proof.
  unfold find_in. intros H x n G U E. destruct (find _ r) as [[y m]|] eqn:F; [discriminate|]. apply get_in in G. pose proof (find_none _ _ F _ G) as C. cbn [snd] in C.
  rewrite (proj2 (up_is_iff d n) U), E, bytes_eqb_refl in C. discriminate.
Qed.
Lemma delete_other x r y : y <> x -> get (delete_row x r) y = get r y.
Proof. intros N. unfold delete_row. destruct (has_ghosts r x); [rewrite get_set|rewrite get_filter]; destruct (Nat.eqb_spec y x); congruence. Qed.
Lemma delete_self x r : get (delete_row x r) x = None \/ exists n, get r x = Some n /\ get (delete_row x r) x = Some (resrc NoSrc (retype TGhost n)).
Proof.
  unfold delete_row. destruct (has_ghosts r x); [rewrite get_set, Nat.eqb_refl; destruct (get r x) as [n|]; [right; exists n; auto|left; reflexivity]|left; rewrite get_filter, Nat.eqb_refl; reflexivity].
Qed.
Lemma no_ghosts r x y n : has_ghosts r x = false -> get r y = Some n -> up n <> Some x.
Proof.
  intros H G U. apply get_in in G. assert (has_ghosts r x = true); [|congruence]. unfold has_ghosts. apply existsb_exists. exists (y, n). split; [exact G|].
  cbn [snd]. rewrite (proj2 (up_is_iff x n) U). reflexivity.
Qed.
Lemma ids_set x f r : map fst (set_row x f r) = map fst r.
Proof. unfold set_row. rewrite map_map. apply map_ext. intros [y n]. cbn [fst]. destruct (y =? x); reflexivity. Qed.
Lemma nodup_filter_ids (P : nat * row -> bool) r : NoDup (map fst r) -> NoDup (map fst (filter P r)).
Proof.
  induction r as [|[y n] r IH]; intros N; [constructor|]. inversion N as [|? ? Ny Nr]; subst. cbn [filter]. destruct (P (y, n)); [|auto]. cbn [map fst]. constructor; [|auto].
  intros I. apply Ny. apply in_map_iff in I as [z [<- Z]]. apply filter_In in Z as [Z _]. apply in_map, Z.
Qed.

(** ** Trees *)
Lemma top_none r top n : tree_ok r top -> get r top = Some n -> up n = None.
Proof. intros K G. apply (t_top _ _ K top n G). reflexivity. Qed.
(** Rows keep their places, some are new, some are gone. *)
Definition places (r r' : table) : Prop := forall x n', get r' x = Some n' -> exists n, get r x = Some n /\ up n = up n' /\ nm n = nm n'.
Lemma places_below r r' x y : places r r' -> below r' x y -> below r x y.
Proof.
  intros P. induction 1 as [y n G U|y n p G U Bl IH]; destruct (P _ _ G) as [m [Gm [Um _]]]; [eapply below_child; eauto; congruence|eapply below_step; eauto; congruence].
Qed.
Lemma tree_same r r' top : tree_ok r top -> NoDup (map fst r') -> places r r' -> (forall x n p, get r' x = Some n -> up n = Some p -> exists m, get r' p = Some m) ->
  (exists n, get r' top = Some n) -> tree_ok r' top.
Proof.
  intros K N P U Tp. destruct (t_rank _ _ K) as [rank Rk]. split; [exact N| |exact U| |exact Tp|].
  - intros x y n m Gx Gy Ue Ne. destruct (P _ _ Gx) as [n0 [G0 [U0 N0]]]. destruct (P _ _ Gy) as [m0 [G1 [U1 N1]]]. apply (t_names _ _ K x y n0 m0 G0 G1); congruence.
  - intros x n G. destruct (P _ _ G) as [n0 [G0 [U0 _]]]. rewrite <- U0. exact (t_top _ _ K x n0 G0).
  - exists rank. intros x n p G E. destruct (P _ _ G) as [n0 [G0 [U0 _]]]. apply (Rk x n0 p G0). congruence.
Qed.
Lemma tree_set r top x f : (forall n, up (f n) = up n /\ nm (f n) = nm n) -> tree_ok r top -> tree_ok (set_row x f r) top /\ places r (set_row x f r).
Proof.
  intros F K. assert (places r (set_row x f r)) as P.
  { intros y n' G. rewrite get_set in G. destruct (Nat.eqb_spec y x) as [->|]; [|eauto]. destruct (get r x) as [n|]; [|discriminate]. injection G as <-. destruct (F n). exists n. auto. }
  split; [|exact P]. apply (tree_same r); auto.
  - rewrite ids_set. apply (t_ids _ _ K).
  - intros y n' p G E. destruct (P _ _ G) as [n [Gn [Un _]]]. destruct (t_up _ _ K y n p Gn ltac:(congruence)) as [m Gm]. rewrite get_set. destruct (Nat.eqb_spec p x) as [->|]; [rewrite Gm; cbn; eauto|eauto].
  - destruct (t_topin _ _ K) as [n G]. rewrite get_set. destruct (Nat.eqb_spec top x) as [->|]; [rewrite G; cbn; eauto|eauto].
Qed.
Lemma tree_delete r top x : tree_ok r top -> x <> top -> tree_ok (delete_row x r) top /\ places r (delete_row x r).
Proof.
  intros K Nt. unfold delete_row. destruct (has_ghosts r x) eqn:H; [apply tree_set; [intros n; split; reflexivity|exact K]|].
  assert (places r (filter (fun p => negb (fst p =? x)) r)) as P.
  { intros y n' G. rewrite get_filter in G. destruct (y =? x); [discriminate|eauto]. }
  split; [|exact P]. apply (tree_same r); auto.
  - apply nodup_filter_ids, (t_ids _ _ K).
  - intros y n p G E. rewrite get_filter in G. destruct (Nat.eqb_spec y x); [discriminate|]. destruct (t_up _ _ K y n p G E) as [m Gm]. exists m. rewrite get_filter.
    destruct (Nat.eqb_spec p x) as [->|]; [|exact Gm]. exfalso. exact (no_ghosts r x y n H G E).
  - destruct (t_topin _ _ K) as [n G]. exists n. rewrite get_filter. destruct (Nat.eqb_spec top x); [congruence|exact G].
Qed.
Lemma tree_insert r top d name s : tree_ok r top -> (exists n, get r d = Some n) -> find_in r d name = None ->
  tree_ok ((fresh r, {| up := Some d; nm := name; ty := TDir; srcid := Src s |}) :: r) top.
Proof.
  intros K [nd Gd] F. set (n0 := {| up := Some d; nm := name; ty := TDir; srcid := Src s |}). pose proof (fresh_none r) as Fn.
  assert (forall x n, get ((fresh r, n0) :: r) x = Some n -> x = fresh r /\ n = n0 \/ x <> fresh r /\ get r x = Some n) as C.
  { intros x n G. cbn [get] in G. destruct (Nat.eqb_spec x (fresh r)) as [->|N]; [left; split; congruence|right; auto]. }
  assert (forall x n, get r x = Some n -> get ((fresh r, n0) :: r) x = Some n) as Up.
  { intros x n G. cbn [get]. destruct (Nat.eqb_spec x (fresh r)) as [->|N]; [congruence|exact G]. }
  destruct (t_rank _ _ K) as [rank Rk]. split.
  - cbn [map fst]. constructor; [|apply (t_ids _ _ K)]. intros I. apply in_map_iff in I as [[x n] [E I]]. cbn [fst] in E. subst x. apply (in_get _ _ _ (t_ids _ _ K)) in I. congruence.
  - intros x y n m Gx Gy Ue Ne. apply C in Gx as [[-> ->]|[Nx Gx]]; apply C in Gy as [[-> ->]|[Ny Gy]].
    + reflexivity.
    + exfalso. cbn in Ue, Ne. exact (find_none r d name F y m Gy (eq_sym Ue) (eq_sym Ne)).
    + exfalso. cbn in Ue, Ne. exact (find_none r d name F x n Gx Ue Ne).
    + exact (t_names _ _ K x y n m Gx Gy Ue Ne).
  - intros x n p G E. apply C in G as [[-> ->]|[Nx G]]; [injection E as <-; eauto|]. destruct (t_up _ _ K x n p G E) as [m Gm]. eauto.
  - intros x n G. apply C in G as [[-> ->]|[Nx G]]; [|exact (t_top _ _ K x n G)]. split; [discriminate|]. intros E. destruct (t_topin _ _ K) as [m Gm]. congruence.
  - destruct (t_topin _ _ K) as [m Gm]. eauto.
  - exists (fun x => if x =? fresh r then S (rank d) else rank x). intros x n p G E.
    assert (forall z m, get r z = Some m -> (if z =? fresh r then S (rank d) else rank z) = rank z) as Old by (intros z m Gz; destruct (Nat.eqb_spec z (fresh r)); [congruence|reflexivity]).
    apply C in G as [[-> ->]|[Nx G]].
    + injection E as <-. rewrite Nat.eqb_refl, (Old _ _ Gd). lia.
    + destruct (t_up _ _ K x n p G E) as [m Gm]. rewrite (Old _ _ Gm), (Old _ _ G). exact (Rk x n p G E).
Qed.

Lemma below_irrefl r top x : tree_ok r top -> ~ below r x x.
Proof.
  intros K. destruct (t_rank _ _ K) as [rank Rk]. assert (forall y, below r x y -> rank x < rank y) as H.
  { induction 1 as [y n G U|y n p G U Bl IH]; pose proof (Rk _ _ _ G U); lia. }
  intros Bl. apply H in Bl. lia.
Qed.
Lemma below_trans r x y z : below r x y -> below r y z -> below r x z.
Proof. intros A. induction 1 as [z n G U|z n p G U Bl IH]; [eapply below_step; eauto|eapply below_step; eauto]. Qed.
Lemma below_up r x y n p : get r y = Some n -> up n = Some p -> below r x y -> inside r x p.
Proof. intros G U Bl. inversion Bl as [? m Gm Um|? m q Gm Um Bq]; subst; [left; congruence|right; assert (q = p) as <- by congruence; exact Bq]. Qed.

(** ** Twins *)
Lemma twin_inside r top v x y : twin r top v x y -> inside r v y.
Proof. induction 1 as [|p q x y n m H IH Gx Ux Gy Uy E]; [left; reflexivity|right]. destruct IH as [->|Bl]; [eapply below_child; eauto|eapply below_step; eauto]. Qed.
Lemma mirrors_twin r top v x y : mirrors r top v x y -> twin r top v x y.
Proof. induction 1; [constructor|econstructor; eauto]. Qed.
(** Only the top has the directory of the variant as its twin. *)
Lemma twin_v r top v x y : tree_ok r top -> twin r top v x y -> (x = top <-> y = v).
Proof.
  intros K H. inversion H as [|p q ? ? n m Hp Gx Ux Gy Uy E]; subst; [tauto|]. split; intros E0; exfalso; [subst x|subst y].
  - apply (t_top _ _ K) in Gx. destruct Gx as [_ Gx]. rewrite Gx in Ux by reflexivity. discriminate.
  - apply (below_irrefl r top v K). destruct (twin_inside _ _ _ _ _ Hp) as [E1|Bl]; [subst q; eapply below_child; eauto|eapply below_step; eauto].
Qed.
Lemma twin_fun r top v : tree_ok r top -> forall x y, twin r top v x y -> forall x', twin r top v x' y -> x' = x.
Proof.
  intros K. induction 1 as [|p q x y n m Hp IH Gx Ux Gy Uy E]; intros x' H'.
  - apply (twin_v r top v x' v K H'). reflexivity.
  - inversion H' as [E1 E2|p' q' x1 y1 n' m' Hp' Gx' Ux' Gy' Uy' E' E1 E2].
    + exfalso. pose proof (twin_sub r top v p q x y n m Hp Gx Ux Gy Uy E) as Hx. apply (twin_v r top v x y K) in Hx. destruct Hx as [_ Hx]. rewrite (Hx (eq_sym E2)) in Gx.
      pose proof (top_none _ _ _ K Gx). congruence.
    + assert (q' = q) as -> by congruence. apply (t_names _ _ K x' x n' n Gx' Gx); [|congruence]. rewrite Ux', Ux. f_equal. apply IH, Hp'.
Qed.
Lemma twin_det r top v : tree_ok r top -> forall x y, twin r top v x y -> forall y', twin r top v x y' -> y' = y.
Proof.
  intros K. induction 1 as [|p q x y n m Hp IH Gx Ux Gy Uy E]; intros y' H'.
  - apply (twin_v r top v top y' K H'). reflexivity.
  - inversion H' as [E1 E2|p' q' x1 y1 n' m' Hp' Gx' Ux' Gy' Uy' E' E1 E2].
    + exfalso. rewrite <- E1 in Gx. pose proof (top_none _ _ _ K Gx). congruence.
    + assert (p' = p) as -> by congruence. assert (n' = n) as -> by congruence. apply (t_names _ _ K y' y m' m Gy' Gy); [|congruence]. rewrite Uy', Uy. f_equal. apply IH, Hp'.
Qed.

(** ** One step of get_rel_tent *)
Definition level (d : nat) (name : bytes) (t : nat) (r : table) (k : list (nat * bytes)) : nat * table * list (nat * bytes) :=
  let '(r, k) :=
    match find_in r d name with
    | Some x =>
        match option_map ty (get r x) with
        | Some TGenerated => (delete_row x r, erase (d, name) k)
        | Some TGeneratedDir => (set_row x (retype TDir) r, k)
        | _ => (r, k)
        end
    | None => (r, k)
    end in
  let '(x, changed, r) := create_dir d name t r in (x, r, if changed then mkdir (d, name) k else k).
(** Only what has the name in the directory changes. *)
Record leveled (d : nat) (name : bytes) (t : nat) (r : table) (x : nat) (r' : table) (top : nat) : Prop := {
  lv_tree : tree_ok r' top;
  lv_row : exists n, get r' x = Some n /\ up n = Some d /\ nm n = name /\ ty n = TDir /\ srcid n = Src t;
  lv_new : forall y n', get r' y = Some n' -> get r y = Some n' \/ y = x;
  lv_old : forall y n, get r y = Some n -> get r' y = Some n \/ up n = Some d /\ nm n = name /\ (ty n = TDir -> y = x);
  lv_keep : forall y n, get r y = Some n -> up n = Some d -> nm n = name -> ty n = TDir -> srcid n = Src t -> get r' y = Some n }.

Lemma row_eta n d name k s : up n = Some d -> nm n = name -> ty n = k -> srcid n = s -> n = {| up := Some d; nm := name; ty := k; srcid := s |}.
Proof. destruct n. cbn. congruence. Qed.
(** A row that is there: it is made a directory with the srcid. *)
Lemma leveled_set d name t r top x n f : tree_ok r top -> get r x = Some n -> up n = Some d -> nm n = name ->
  f n = {| up := Some d; nm := name; ty := TDir; srcid := Src t |} -> (forall m, up (f m) = up m /\ nm (f m) = nm m) -> leveled d name t r x (set_row x f r) top.
Proof.
  intros K G U N Ef F. destruct (tree_set r top x f F K) as [K' P]. split; [exact K'| | | |].
  - rewrite get_set, Nat.eqb_refl, G. cbn [option_map]. eexists. split; [reflexivity|]. rewrite Ef. auto.
  - intros y n' Gy. rewrite get_set in Gy. destruct (Nat.eqb_spec y x); auto.
  - intros y m Gy. rewrite get_set. destruct (Nat.eqb_spec y x) as [->|]; [|left; exact Gy]. right. assert (m = n) as -> by congruence. auto.
  - intros y m Gy Uy Ny Ty Sy. rewrite get_set. destruct (Nat.eqb_spec y x) as [->|]; [|exact Gy]. assert (m = n) as -> by congruence. rewrite G. cbn [option_map].
    rewrite Ef. f_equal. symmetry. apply row_eta; assumption.
Qed.
(** No such row: a new one. *)
Lemma leveled_insert d name t r top : tree_ok r top -> (exists n, get r d = Some n) -> find_in r d name = None ->
  leveled d name t r (fresh r) ((fresh r, {| up := Some d; nm := name; ty := TDir; srcid := Src t |}) :: r) top.
Proof.
  intros K Gd F. pose proof (fresh_none r) as Fn. split; [apply tree_insert; assumption| | | |].
  - cbn [get]. rewrite Nat.eqb_refl. eexists. split; [reflexivity|]. auto.
  - intros y n' G. cbn [get] in G. destruct (Nat.eqb_spec y (fresh r)); auto.
  - intros y n G. left. cbn [get]. destruct (Nat.eqb_spec y (fresh r)); [congruence|exact G].
  - intros y n G U N. exfalso. exact (find_none r d name F y n G U N).
Qed.
(** A row that is not a directory: deleted, then one of the two. *)
Lemma leveled_delete d name t r top x n : tree_ok r top -> (exists n, get r d = Some n) -> get r x = Some n -> up n = Some d -> nm n = name -> ty n <> TDir ->
  exists y, (exists b, new_dir d name t (delete_row x r) = (y, true, b)) /\ leveled d name t r y (snd (new_dir d name t (delete_row x r))) top.
Proof.
  intros K [nd Gd] G U N Nt. assert (x <> top) as Ntop by (intros ->; pose proof (top_none _ _ _ K G); congruence).
  destruct (tree_delete r top x K Ntop) as [K1 P1]. unfold new_dir. pose proof (delete_self x r) as Self.
  assert (d <> x) as Ndx. { intros ->. apply (below_irrefl r top x K). eapply below_child; eauto. }
  assert (forall y r', leveled d name t (delete_row x r) y r' top -> (forall n', get r' x = Some n' -> x = y \/ get (delete_row x r) x = None) -> (get (delete_row x r) x <> None -> y = x) -> leveled d name t r y r' top) as Lift.
  { intros y r' [L1 L2 L3 L4 L5] Hx Hy. split; [exact L1|exact L2| | |].
    - intros z n' Gz. destruct (L3 _ _ Gz) as [Gd'|E]; [|right; exact E]. destruct (Nat.eq_dec z x) as [->|Nz]; [right; symmetry; apply Hy; congruence|]. rewrite (delete_other x r z Nz) in Gd'. left. exact Gd'.
    - intros z m Gz. destruct (Nat.eq_dec z x) as [->|Nz]; [right; assert (m = n) as -> by congruence; split; [exact U|]; split; [exact N|]; congruence|].
      rewrite <- (delete_other x r z Nz) in Gz. exact (L4 _ _ Gz).
    - intros z m Gz Uz Nz Tz Sz. destruct (Nat.eq_dec z x) as [->|Nx]; [congruence|]. rewrite <- (delete_other x r z Nx) in Gz. exact (L5 z m Gz Uz Nz Tz Sz). }
  destruct (find_in (delete_row x r) d name) as [z|] eqn:F; cbn [fst snd]; eexists; (split; [eexists; reflexivity|]).
  - apply (find_some _ _ _ _ (t_ids _ _ K1)) in F as [m [Gm [Um Nm]]]. assert (z = x) as ->.
    { destruct (P1 _ _ Gm) as [m0 [G0 [U0 N0]]]. apply (t_names _ _ K z x m0 n G0 G); congruence. }
    apply Lift; [|auto|auto]. apply (leveled_set d name t (delete_row x r) top x m); [exact K1|exact Gm|exact Um|exact Nm| |intros; split; reflexivity].
    unfold resrc, retype. cbn [up nm ty srcid]. rewrite Um, Nm. reflexivity.
  - assert (get (delete_row x r) x = None) as Gx.
    { destruct Self as [Self|[n1 [G1 Self]]]; [exact Self|]. exfalso. assert (n1 = n) as -> by congruence. exact (find_none _ _ _ F x _ Self U N). }
    apply Lift; [|auto|congruence]. apply leveled_insert; [exact K1| |exact F]. rewrite (delete_other x r d Ndx). eauto.
Qed.

Lemma set_set x f g r : set_row x g (set_row x f r) = set_row x (fun n => g (f n)) r.
Proof. unfold set_row. rewrite map_map. apply map_ext. intros [y n]. cbn [fst]. destruct (y =? x) eqn:E; cbn [fst snd]; rewrite E; reflexivity. Qed.
Lemma create_deleted d name t r top x n : tree_ok r top -> get r x = Some n -> up n = Some d -> nm n = name -> ty n <> TDir ->
  create_dir d name t (delete_row x r) = new_dir d name t (delete_row x r).
Proof.
  intros K G U N Nt. assert (x <> top) as Ntop by (intros ->; pose proof (top_none _ _ _ K G); congruence). destruct (tree_delete r top x K Ntop) as [K1 P1].
  unfold create_dir. destruct (find_in (delete_row x r) d name) as [z|] eqn:F; [|reflexivity]. apply (find_some _ _ _ _ (t_ids _ _ K1)) in F as [m [Gm [Um Nm]]].
  assert (z = x) as ->. { destruct (P1 _ _ Gm) as [m0 [G0 [U0 N0]]]. apply (t_names _ _ K z x m0 n G0 G); congruence. }
  destruct (delete_self x r) as [E|[n1 [G1 E]]]; [congruence|]. rewrite E. reflexivity.
Qed.

(** Directories are on the disk. *)
Definition disk_ok (r : table) (k : list (nat * bytes)) : Prop :=
  forall x n d, get r x = Some n -> up n = Some d -> ty n = TDir \/ ty n = TGeneratedDir -> In (d, nm n) k.
Lemma entry_iff a b : entry_eqb a b = true <-> a = b.
Proof.
  destruct a as [x m], b as [y n]. unfold entry_eqb. cbn [fst snd]. rewrite andb_true_iff, Nat.eqb_eq, bytes_eqb_eq. split; [intros [-> ->]; reflexivity|intros E; injection E as -> ->; auto].
Qed.
Lemma in_mkdir a b k : In b (mkdir a k) <-> b = a \/ In b k.
Proof.
  unfold mkdir. destruct (existsb (entry_eqb a) k) eqn:E; cbn [In]; [|intuition congruence]. apply existsb_exists in E as [c [I C]]. apply entry_iff in C. subst c. split; [auto|]. intros [->|H]; assumption.
Qed.
Lemma in_erase a b k : In b (erase a k) <-> In b k /\ b <> a.
Proof.
  unfold erase. rewrite filter_In. split; intros [I H]; (split; [exact I|]).
  - intros ->. rewrite (proj2 (entry_iff a a) eq_refl) in H. discriminate.
  - destruct (entry_eqb a b) eqn:E; [apply entry_iff in E; congruence|reflexivity].
Qed.

Theorem level_spec d name t r k top x r' k' : tree_ok r top -> (exists n, get r d = Some n) -> level d name t r k = (x, r', k') ->
  leveled d name t r x r' top /\ (disk_ok r k -> disk_ok r' k') /\ (forall b, In b k -> In b k').
Proof.
  intros K Gd H.
  assert (leveled d name t r x r' top /\ (In (d, name) k' \/ k' = k /\ exists z n, get r z = Some n /\ up n = Some d /\ nm n = name /\ (ty n = TDir \/ ty n = TGeneratedDir)) /\ (forall b, In b k -> b <> (d, name) -> In b k')) as [L [C F]].
  { unfold level in H. destruct (find_in r d name) as [z|] eqn:F.
    - pose proof F as F0. apply (find_some _ _ _ _ (t_ids _ _ K)) in F as [n [G [U N]]]. rewrite G in H. cbn [option_map] in H.
      assert (forall q, ty n <> TDir -> (let '(x0, c, r0) := new_dir d name t (delete_row z r) in (x0, r0, if c then mkdir (d, name) q else q)) = (x, r', k') ->
        leveled d name t r x r' top /\ k' = mkdir (d, name) q) as Del.
      { intros q Nt E. destruct (leveled_delete d name t r top z n K Gd G U N Nt) as [y [[b Eb] L]]. rewrite Eb in E, L. cbn [snd] in L. assert (y = x) as -> by congruence.
        assert (b = r') as -> by congruence. split; [exact L|]. congruence. }
      assert (ty n = TDir -> leveled d name t r z (set_row z (resrc (Src t)) r) top) as Re.
      { intros T. apply (leveled_set d name t r top z n _ K G U N); [unfold resrc; rewrite U, N, T; reflexivity|intros; split; reflexivity]. }
      assert (leveled d name t r z (set_row z (fun m => resrc (Src t) (retype TDir m)) r) top) as Re2.
      { apply (leveled_set d name t r top z n _ K G U N); [unfold resrc, retype; cbn [up nm ty srcid]; rewrite U, N; reflexivity|intros; split; reflexivity]. }
      destruct (ty n) eqn:T; try (unfold create_dir in H; rewrite F0, G in H; cbn [option_map] in H; rewrite T in H).
      all: try (apply Del in H; [|congruence]; destruct H as [L ->]; split; [exact L|]; split; [left; apply in_mkdir; auto|intros b I _; apply in_mkdir; auto]).
      all: try (rewrite (create_deleted d name t r top z n K G U N) in H by congruence; apply Del in H; [|congruence]; destruct H as [L ->]; split; [exact L|]; split; [left; apply in_mkdir; auto|intros b I Nb; apply in_mkdir; right; apply in_erase; auto]).
      + injection H as <- <- <-. split; [apply Re; reflexivity|]. split; [right; split; [reflexivity|]; exists z, n; rewrite T; auto|auto].
      + unfold new_dir in H. rewrite F0 in H. injection H as <- <- <-. split; [exact Re2|]. split; [left; apply in_mkdir; auto|intros b I _; apply in_mkdir; auto].
      + unfold create_dir in H. assert (find_in (set_row z (retype TDir) r) d name = Some z) as F1.
        { destruct (tree_set r top z (retype TDir) ltac:(intros; split; reflexivity) K) as [K1 P1]. destruct (find_in (set_row z (retype TDir) r) d name) as [w|] eqn:Fw.
          - apply (find_some _ _ _ _ (t_ids _ _ K1)) in Fw as [m [Gm [Um Nm]]]. destruct (P1 _ _ Gm) as [m0 [G0 [U0 N0]]]. f_equal. apply (t_names _ _ K w z m0 n G0 G); congruence.
          - exfalso. apply (find_none _ _ _ Fw z (retype TDir n)); [rewrite get_set, Nat.eqb_refl, G; reflexivity|exact U|exact N]. }
        rewrite F1, get_set, Nat.eqb_refl, G in H. cbn [option_map retype ty] in H. injection H as <- <- <-. rewrite set_set. split; [exact Re2|]. split; [right; split; [reflexivity|]; exists z, n; rewrite T; auto|auto].
    - unfold create_dir in H. rewrite F in H. unfold new_dir in H. rewrite F in H. injection H as <- <- <-. split; [apply leveled_insert; assumption|]. split; [left; apply in_mkdir; auto|intros b I _; apply in_mkdir; auto]. }
  split; [exact L|]. split.
  2: { intros b I. destruct (entry_eqb b (d, name)) eqn:E; [|apply F; [exact I|intros E2; apply entry_iff in E2; congruence]]. apply entry_iff in E. subst b. destruct C as [C|[-> _]]; [exact C|exact I]. }
  intros Dk y n dd G U T. destruct L as [L1 [nx [Gx [Ux [Nx _]]]] L3 L4 L5]. destruct (L3 _ _ G) as [G0| ->].
  - pose proof (Dk _ _ _ G0 U T) as I. destruct (entry_eqb (dd, nm n) (d, name)) eqn:E; [|apply F; [exact I|intros E2; apply entry_iff in E2; congruence]].
    apply entry_iff in E. rewrite E in *. destruct C as [C|[-> _]]; [exact C|exact I].
  - assert (n = nx) as -> by congruence. assert (dd = d) as -> by congruence. rewrite Nx. destruct C as [C|[-> [z [m [Gz [Uz [Nz Tz]]]]]]]; [exact C|]. rewrite <- Nz. exact (Dk _ _ _ Gz Uz Tz).
Qed.
