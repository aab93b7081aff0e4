(** Removing the directories of variants. *)
From Verif Require Import Base DbModel VariantModel VariantSpec VariantProofs VariantProofs2 VariantProofs3.

Lemma places_refl r : places r r.
Proof. intros x n G. exists n. auto. Qed.
Lemma places_trans a b c : places a b -> places b c -> places a c.
Proof. intros P Q x n G. destruct (Q _ _ G) as [m [Gm [Um Nm]]]. destruct (P _ _ Gm) as [k [Gk [Uk Nk]]]. exists k. split; [exact Gk|]. split; congruence. Qed.
Lemma places_delete x r : places r (delete_row x r).
Proof.
  intros y n G. destruct (Nat.eq_dec y x) as [-> |Ne]; [|rewrite (delete_other x r y Ne) in G; exists n; auto]. destruct (delete_self x r) as [E|[m [Gm E]]]; [congruence|].
  assert (n = resrc NoSrc (retype TGhost m)) as -> by congruence. exists m. auto.
Qed.
Lemma ids_delete x r : NoDup (map fst r) -> NoDup (map fst (delete_row x r)).
Proof. intros N. unfold delete_row. destruct (has_ghosts r x); [rewrite ids_set; exact N|apply nodup_filter_ids, N]. Qed.
Lemma dead_delete x r y n : get (delete_row x r) y = Some n -> get r y = Some n \/ ty n = TGhost.
Proof.
  intros G. destruct (Nat.eq_dec y x) as [-> |Ne]; [|rewrite (delete_other x r y Ne) in G; auto]. destruct (delete_self x r) as [E|[m [Gm E]]]; [congruence|].
  right. assert (n = resrc NoSrc (retype TGhost m)) as -> by congruence. reflexivity.
Qed.
Lemma inside_trans r x y z : inside r x y -> inside r y z -> inside r x z.
Proof. intros [-> |A] [-> |Bl]; [left; reflexivity|right; exact Bl|right; exact A|right; exact (below_trans _ _ _ _ A Bl)]. Qed.
Lemma places_inside r r' x y : places r r' -> inside r' x y -> inside r x y.
Proof. intros P [-> |Bl]; [left; reflexivity|right; exact (places_below _ _ _ _ P Bl)]. Qed.

Section Remove.
Variable (r1 : table).    (* the table before *)

(** What can be in the way from [s] to [s']: rows strictly below [x], files in
    directories inside [x], and nodes inside [x]. *)
Record cut (x : nat) (s s' : state) : Prop := {
  c_ids : NoDup (map fst (tbl s'));
  c_places : places (tbl s) (tbl s');
  c_rows : forall y n, get (tbl s) y = Some n -> ~ below (tbl s) x y -> get (tbl s') y = Some n;
  c_dead : forall y n, get (tbl s') y = Some n -> get (tbl s) y = Some n \/ ty n = TGhost;
  c_sub : forall b, In b (disk s') -> In b (disk s);
  c_disk : forall b, In b (disk s) -> ~ inside (tbl s) x (fst b) -> In b (disk s');
  c_pl : forall y, In y (plist s') -> In y (plist s);
  c_plist : forall y, In y (plist s) -> ~ inside (tbl s) x y -> In y (plist s');
  c_rs : forall y, In y (removing s') -> In y (removing s);
  c_rem : forall y, In y (removing s) -> y = x \/ In y (removing s') \/ gone r1 s' y }.

Lemma gone_stable s s' y : (forall z n, get (tbl s') z = Some n -> get (tbl s) z = Some n \/ ty n = TGhost) -> (forall b, In b (disk s') -> In b (disk s)) -> gone r1 s y -> gone r1 s' y.
Proof.
  intros Hd Hs [G1 [G2 G3]]. split; [|split].
  - intros n G. destruct (Hd _ _ G) as [E|E]; auto.
  - auto.
  - intros n d G U I. exact (G3 n d G U (Hs _ I)).
Qed.
Lemma cut_refl x s : NoDup (map fst (tbl s)) -> cut x s s.
Proof. intros N. split; auto. apply places_refl. Qed.
Lemma cut_unlink x s name : NoDup (map fst (tbl s)) -> cut x s (unlink (x, name) s).
Proof.
  intros N. split; cbn [unlink tbl disk plist removing]; auto.
  - apply places_refl.
  - intros b I. apply in_erase in I as [I _]. exact I.
  - intros b I Nb. apply in_erase. split; [exact I|]. intros ->. apply Nb. left. reflexivity.
Qed.
Lemma cut_leave x s : NoDup (map fst (tbl s)) -> cut x s (leave x s).
Proof.
  intros N. assert (forall y l, In y l -> y = x \/ In y (filter (fun y => negb (y =? x)) l)) as F.
  { intros y l I. destruct (Nat.eqb_spec y x) as [-> |Ne]; [left; reflexivity|right]. apply filter_In. split; [exact I|]. apply Nat.eqb_neq in Ne. rewrite Ne. reflexivity. }
  split; cbn [leave tbl disk plist removing]; auto.
  - apply places_refl.
  - intros y I. apply filter_In in I as [I _]. exact I.
  - intros y I Ny. destruct (F y _ I) as [-> |E]; [|exact E]. exfalso. apply Ny. left. reflexivity.
  - intros y I. apply filter_In in I as [I _]. exact I.
  - intros y I. destruct (F y _ I); auto.
Qed.
Lemma leave_out x s : ~ In x (removing (leave x s)) /\ ~ In x (plist (leave x s)).
Proof. cbn [leave removing plist]. split; intros I; apply filter_In in I as [_ E]; rewrite Nat.eqb_refl in E; discriminate. Qed.
(** Both of one region. *)
Lemma cut_same x s s1 s' : cut x s s1 -> cut x s1 s' -> (In x (removing s1) -> In x (removing s')) -> cut x s s'.
Proof.
  intros [A1 A2 A3 A4 A5 A6 A7 A8 A9 A10] [B1 B2 B3 B4 B5 B6 B7 B8 B9 B10] Hx.
  assert (forall z, ~ below (tbl s) x z -> ~ below (tbl s1) x z) as N1 by (intros z Nz Bz; apply Nz; exact (places_below _ _ _ _ A2 Bz)).
  assert (forall z, ~ inside (tbl s) x z -> ~ inside (tbl s1) x z) as N2 by (intros z Nz Bz; apply Nz; exact (places_inside _ _ _ _ A2 Bz)).
  split; auto.
  - exact (places_trans _ _ _ A2 B2).
  - intros z n G. destruct (B4 _ _ G) as [E|E]; auto.
  - intros z Iz. destruct (A10 z Iz) as [E|[E|E]]; [auto| |right; right; exact (gone_stable s1 s' z B4 B5 E)].
    destruct (B10 z E) as [Ez|[E2|E2]]; auto.
Qed.

Definition each (del : nat -> state -> option state) (x : nat) : list (nat * row) -> state -> option state :=
  fix each (l : list (nat * row)) (s : state) : option state :=
    match l with
    | [] => Some s
    | (y, n) :: l =>
        let o := match ty n with
                 | TDir => match del y s with Some s => rmdir y (x, nm n) s | None => None end
                 | TGenerated => Some (unlink (x, nm n) s)
                 | _ => Some s
                 end in
        match o with Some s => each l (drop_row y s) | None => None end
    end.
Lemma delete_dir_step fuel x s : delete_dir (S fuel) x s = each (delete_dir fuel) x (filter (fun p => up_is x (snd p)) (tbl s)) (leave x s).
Proof. reflexivity. Qed.

Lemma rmdir_some x a s s' : rmdir x a s = Some s' -> s' = unlink a s /\ forall b, In b (disk s) -> fst b <> x.
Proof.
  unfold rmdir. destruct (existsb (fun b => fst b =? x) (disk s)) eqn:E; [discriminate|]. intros H. injection H as <-. split; [reflexivity|]. intros b I Eb. assert (existsb (fun b => fst b =? x) (disk s) = true); [|congruence].
  apply existsb_exists. exists b. split; [exact I|]. apply Nat.eqb_eq, Eb.
Qed.
(** A directory that was emptied, removed and dropped. *)
Lemma gone_now s x n d : (forall m, get r1 x = Some m -> up m = Some d /\ nm m = nm n) -> (forall b, In b (disk s) -> fst b <> x) -> gone r1 (drop_row x (unlink (d, nm n) s)) x.
Proof.
  intros R E. split; [|split]; cbn [drop_row with_tbl unlink tbl disk].
  - intros m G. destruct (delete_self x (tbl s)) as [G2|[k [Gk G2]]]; [congruence|]. assert (m = resrc NoSrc (retype TGhost k)) as -> by congruence. reflexivity.
  - intros b I. apply in_erase in I as [I _]. exact (E b I).
  - intros m q G U I. destruct (R m G) as [U1 N1]. apply in_erase in I as [_ Ne]. apply Ne. rewrite N1. f_equal. congruence.
Qed.

Theorem delete_dir_spec : forall fuel x s s', NoDup (map fst (tbl s)) -> places r1 (tbl s) -> delete_dir fuel x s = Some s' -> cut x s s' /\ ~ In x (removing s') /\ ~ In x (plist s').
Proof.
  induction fuel as [|fuel IH]; intros x s s' N P H; [discriminate|]. rewrite delete_dir_step in H. pose proof (cut_leave x s N) as C0. destruct (leave_out x s) as [L1 L2].
  assert (forall l, (forall y n, In (y, n) l -> get (tbl s) y = Some n /\ up n = Some x) -> forall u, cut x s u -> ~ In x (removing u) -> ~ In x (plist u) -> each (delete_dir fuel) x l u = Some s' ->
    cut x s s' /\ ~ In x (removing s') /\ ~ In x (plist s')) as Loop.
  { induction l as [|[y n] l IHl]; intros Hl u C R1 R2 E; cbn [each] in E; [injection E as <-; auto|]. destruct (Hl y n (or_introl eq_refl)) as [Gy Uy].
    assert (below (tbl s) x y) as By by (eapply below_child; eauto).
    assert (forall w, cut x s w -> cut x s (drop_row y w)) as Drop.
    { intros w Cw. split; cbn [drop_row with_tbl tbl disk plist removing].
      - apply ids_delete, (c_ids _ _ _ Cw).
      - exact (places_trans _ _ _ (c_places _ _ _ Cw) (places_delete y (tbl w))).
      - intros z m Gz Nz. rewrite delete_other; [exact (c_rows _ _ _ Cw z m Gz Nz)|]. intros ->. contradiction.
      - intros z m Gz. apply dead_delete in Gz as [Gz|Gz]; [exact (c_dead _ _ _ Cw z m Gz)|right; exact Gz].
      - exact (c_sub _ _ _ Cw).
      - exact (c_disk _ _ _ Cw).
      - exact (c_pl _ _ _ Cw).
      - exact (c_plist _ _ _ Cw).
      - exact (c_rs _ _ _ Cw).
      - intros z Iz. destruct (c_rem _ _ _ Cw z Iz) as [E2|[E2|E2]]; auto. right. right. refine (gone_stable w _ z _ _ E2); cbn [drop_row with_tbl tbl disk]; [intros z0 m; apply dead_delete|auto]. }
    assert (forall w, cut x s w -> ~ In x (removing w) -> ~ In x (plist w) -> each (delete_dir fuel) x l (drop_row y w) = Some s' -> cut x s s' /\ ~ In x (removing s') /\ ~ In x (plist s')) as Go.
    { intros w Cw W1 W2 Ew. apply (IHl (fun z m Iz => Hl z m (or_intror Iz)) (drop_row y w)); auto. }
    assert (forall w nm0, cut x s w -> ~ In x (removing w) -> cut x s (unlink (x, nm0) w)) as Unl.
    { intros w nm0 Cw W1. apply (cut_same x s w); [exact Cw|apply cut_unlink, (c_ids _ _ _ Cw)|auto]. }
    destruct (ty n); try (apply (Go u); assumption).
    - destruct (delete_dir fuel y u) as [w|] eqn:Dd; [|discriminate]. destruct (rmdir y (x, nm n) w) as [w'|] eqn:Rd; [|discriminate]. apply rmdir_some in Rd as [-> Em].
      destruct (IH y u w (c_ids _ _ _ C) (places_trans _ _ _ P (c_places _ _ _ C)) Dd) as [Cy [Y1 Y2]].
      assert (forall m, get r1 y = Some m -> up m = Some x /\ nm m = nm n) as Rr by (intros m Gm; destruct (P _ _ Gy) as [m0 [G0 [U0 N0]]]; assert (m = m0) as -> by congruence; split; congruence).
      assert (gone r1 (drop_row y (unlink (x, nm n) w)) y) as Gone by (apply gone_now; assumption).
      apply (IHl (fun z m Iz => Hl z m (or_intror Iz)) (drop_row y (unlink (x, nm n) w))); [| | |exact E].
      + pose proof (c_ids _ _ _ Cy) as Nw. assert (gone r1 (drop_row y (unlink (x, nm n) w)) y /\ True) as _ by auto.
        destruct C as [A1 A2 A3 A4 A5 A6 A7 A8 A9 A10], Cy as [B1 B2 B3 B4 B5 B6 B7 B8 B9 B10].
        assert (forall z, ~ below (tbl s) x z -> ~ below (tbl u) y z) as N1 by (intros z Nz Bz; apply Nz; exact (below_trans _ _ _ _ By (places_below _ _ _ _ A2 Bz))).
        assert (forall z, ~ inside (tbl s) x z -> ~ inside (tbl u) y z) as N2 by (intros z Nz Bz; apply Nz; apply (inside_trans _ x y z); [right; exact By|exact (places_inside _ _ _ _ A2 Bz)]).
        assert (forall z m, get (delete_row y (tbl w)) z = Some m -> get (tbl u) z = Some m \/ ty m = TGhost) as Dd1 by (intros z m Gz; apply dead_delete in Gz as [Gz|Gz]; auto).
        split; cbn [drop_row with_tbl unlink tbl disk plist removing]; auto.
        * apply ids_delete, Nw.
        * exact (places_trans _ _ _ A2 (places_trans _ _ _ B2 (places_delete y (tbl w)))).
        * intros z m Gz Nz. rewrite delete_other; [auto|]. intros ->. contradiction.
        * intros z m Gz. destruct (Dd1 z m Gz) as [E2|E2]; auto.
        * intros b I. apply in_erase in I as [I _]. auto.
        * intros b I Nb. apply in_erase. split; [auto|]. intros ->. apply Nb. left. reflexivity.
        * intros z Iz. destruct (A10 z Iz) as [E2|[E2|E2]]; [auto| |].
          -- destruct (B10 z E2) as [E3|[E3|E3]]; [subst z; right; right; exact Gone|auto|]. right. right.
             refine (gone_stable w _ z _ _ E3); cbn [drop_row with_tbl unlink tbl disk]; [intros z0 m; apply dead_delete|intros b I; apply in_erase in I as [I _]; exact I].
          -- right. right. refine (gone_stable u _ z _ _ E2); cbn [drop_row with_tbl unlink tbl disk]; [exact Dd1|intros b I; apply in_erase in I as [I _]; auto].
      + cbn [drop_row with_tbl unlink removing]. intros I. apply R1. exact (c_rs _ _ _ Cy x I).
      + cbn [drop_row with_tbl unlink plist]. intros I. apply R2. exact (c_pl _ _ _ Cy x I).
    - apply (Go (unlink (x, nm n) u)); auto. }
  apply (Loop (filter (fun p => up_is x (snd p)) (tbl s))) with (u := leave x s); auto.
  intros y n I. apply filter_In in I as [I U]. split; [exact (in_get _ _ _ N I)|]. apply up_is_iff, U.
Qed.

(** ** What is in a removed directory *)
Definition dead (s : state) (x : nat) : Prop := forall n, get (tbl s) x = Some n -> ty n = TGhost.
Record good (s : state) : Prop := {
  g_ids : NoDup (map fst (tbl s));
  g_places : places r1 (tbl s);
  g_same : forall y n, get (tbl s) y = Some n -> get r1 y = Some n \/ ty n = TGhost;
  g_dead : forall q, isdir r1 q -> dead s q -> gone r1 s q /\ forall p m, get r1 p = Some m -> up m = Some q -> dead s p }.
Lemma dead_stable s s' p : (forall z n, get (tbl s') z = Some n -> get (tbl s) z = Some n \/ ty n = TGhost) -> dead s p -> dead s' p.
Proof. intros Hd D n G. destruct (Hd _ _ G) as [E|E]; auto. Qed.
Lemma drop_dead y s : dead (drop_row y s) y.
Proof. intros n G. cbn [drop_row with_tbl tbl] in G. destruct (delete_self y (tbl s)) as [E|[m [Gm E]]]; [congruence|]. assert (n = resrc NoSrc (retype TGhost m)) as -> by congruence. reflexivity. Qed.
Lemma good_unlink a s : good s -> good (unlink a s).
Proof.
  intros [A1 A2 A3 A4]. split; cbn [unlink tbl]; auto. intros q Dq Dd. destruct (A4 q Dq Dd) as [Gq Cq]. split; [|exact Cq]. refine (gone_stable s _ q _ _ Gq); cbn [unlink tbl disk]; [auto|intros b I; apply in_erase in I as [I _]; exact I].
Qed.
Lemma good_drop y s : good s -> (isdir r1 y -> gone r1 (drop_row y s) y /\ forall p m, get r1 p = Some m -> up m = Some y -> dead s p) -> good (drop_row y s).
Proof.
  intros [A1 A2 A3 A4] Hy. assert (forall z n, get (tbl (drop_row y s)) z = Some n -> get (tbl s) z = Some n \/ ty n = TGhost) as Dr by (intros z n; apply dead_delete).
  split; cbn [drop_row with_tbl tbl].
  - apply ids_delete, A1.
  - exact (places_trans _ _ _ A2 (places_delete y (tbl s))).
  - intros z n G. destruct (dead_delete y (tbl s) z n G) as [E|E]; auto.
  - intros q Dq Dd. destruct (Nat.eq_dec q y) as [-> |Nq].
    + destruct (Hy Dq) as [Gq Cq]. split; [exact Gq|]. intros p m Gp Up. exact (dead_stable s _ p Dr (Cq p m Gp Up)).
    + assert (dead s q) as Dq2 by (intros n G; apply (Dd n); cbn [drop_row with_tbl tbl]; rewrite delete_other by exact Nq; exact G).
      destruct (A4 q Dq Dq2) as [Gq Cq]. split; [exact (gone_stable s _ q Dr (fun b I => I) Gq)|]. intros p m Gp Up. exact (dead_stable s _ p Dr (Cq p m Gp Up)).
Qed.
Theorem delete_dir_dead : forall fuel x s s', good s -> delete_dir fuel x s = Some s' -> good s' /\ forall p m, get r1 p = Some m -> up m = Some x -> dead s' p.
Proof.
  induction fuel as [|fuel IH]; intros x s s' Gs H; [discriminate|]. rewrite delete_dir_step in H.
  assert (good (leave x s)) as G0 by (destruct Gs as [A1 A2 A3 A4]; split; auto).
  assert (forall l, (forall y n, In (y, n) l -> get (tbl s) y = Some n /\ up n = Some x) -> forall u, good u -> (forall p, dead s p -> dead u p) -> each (delete_dir fuel) x l u = Some s' ->
    good s' /\ (forall p n, In (p, n) l -> dead s' p) /\ (forall p, dead u p -> dead s' p)) as Loop.
  { induction l as [|[y n] l IHl]; intros Hl u Gu Du E; cbn [each] in E; [injection E as <-; split; [exact Gu|]; split; [intros p n []|auto]|]. destruct (Hl y n (or_introl eq_refl)) as [Gy Uy].
    assert (forall w, good (drop_row y w) -> (forall p, dead u p -> dead w p) -> each (delete_dir fuel) x l (drop_row y w) = Some s' ->
      good s' /\ (forall p n0, In (p, n0) ((y, n) :: l) -> dead s' p) /\ (forall p, dead u p -> dead s' p)) as Go.
    { intros w Gw Dw Ew. assert (forall p, dead u p -> dead (drop_row y w) p) as Dw2 by (intros p Hp; apply (dead_stable w); [intros z m; apply dead_delete|auto]).
      destruct (IHl (fun z m Iz => Hl z m (or_intror Iz)) (drop_row y w) Gw (fun p Hp => Dw2 p (Du p Hp)) Ew) as [B1 [B2 B3]]. split; [exact B1|]. split; [|auto].
      intros p m [Ep|Ip]; [injection Ep as -> ->; apply B3, drop_dead|exact (B2 p m Ip)]. }
    assert (ty n <> TDir -> forall w, good w -> (forall p, dead u p -> dead w p) -> good (drop_row y w)) as NotDir.
    { intros Nt w Gw Dw. apply good_drop; [exact Gw|]. intros Dy. assert (dead w y) as Dwy.
      { apply Dw, Du. intros m Gm. assert (m = n) as -> by congruence. destruct (g_same _ Gs y n Gy) as [E1|E1]; [|exact E1]. destruct Dy as [m' [Gm' Tm']]. congruence. }
      destruct (g_dead _ Gw y Dy Dwy) as [Q1 Q2]. split; [|exact Q2]. refine (gone_stable w _ y _ _ Q1); [intros z m; apply dead_delete|auto]. }
    destruct (ty n) eqn:T; try (apply (Go u); [apply NotDir; [congruence|exact Gu|auto]|auto|exact E]).
    - destruct (delete_dir fuel y u) as [w|] eqn:Dd; [|discriminate]. destruct (rmdir y (x, nm n) w) as [w'|] eqn:Rd; [|discriminate]. apply rmdir_some in Rd as [-> Em].
      destruct (IH y u w Gu Dd) as [Gw Cw]. destruct (delete_dir_spec fuel y u w (g_ids _ Gu) (g_places _ Gu) Dd) as [Cy _].
      apply (Go (unlink (x, nm n) w)); [|intros p Hp; exact (dead_stable u w p (c_dead _ _ _ Cy) Hp)|exact E].
      apply good_drop; [apply good_unlink, Gw|]. intros _. split; [|exact Cw]. apply gone_now; [|exact Em].
      intros m Gm. destruct (g_places _ Gs _ _ Gy) as [m0 [G0' [U0 N0]]]. assert (m = m0) as -> by congruence. split; congruence.
    - apply (Go (unlink (x, nm n) u)); [apply NotDir; [congruence|apply good_unlink, Gu|auto]|auto|exact E]. }
  destruct (Loop (filter (fun p => up_is x (snd p)) (tbl s))) with (u := leave x s) as [B1 [B2 B3]]; auto.
  - intros y n I. apply filter_In in I as [I U]. split; [exact (in_get _ _ _ (g_ids _ Gs) I)|]. apply up_is_iff, U.
  - split; [exact B1|]. intros p m Gp Up. destruct (get (tbl s) p) as [n|] eqn:Gn.
    + apply (B2 p n). apply filter_In. split; [exact (get_in _ _ _ Gn)|]. apply up_is_iff. destruct (g_places _ Gs _ _ Gn) as [m0 [G0' [U0 _]]]. cbn [snd]. congruence.
    + apply B3. intros n G. cbn [leave tbl] in G. congruence.
Qed.
Theorem remove_all_dead fuel : forall n s s', good s -> remove_all fuel n s = Some s' -> good s'.
Proof.
  induction n as [|n IH]; intros s s' Gs H; [discriminate|]. cbn [remove_all] in H. destruct (removing s) as [|x l]; [injection H as <-; exact Gs|].
  destruct (delete_dir fuel x s) as [s1|] eqn:D; [|discriminate]. destruct (cleanup_dir x s1) as [s2|] eqn:Cl; [|discriminate]. apply (IH s2 s'); [|exact H].
  destruct (delete_dir_dead fuel x s s1 Gs D) as [Gs1 Cx]. unfold cleanup_dir in Cl. destruct (get (tbl s1) x) as [m|] eqn:G; [|discriminate]. destruct (up m) as [d|] eqn:U; [|discriminate].
  destruct (existsb (entry_eqb (d, nm m)) (disk s1)); [|discriminate]. destruct (rmdir x (d, nm m) s1) as [s3|] eqn:Rd; [|discriminate]. injection Cl as <-. apply rmdir_some in Rd as [-> Em].
  apply good_drop; [apply good_unlink, Gs1|]. intros _. split; [|exact Cx]. apply gone_now; [|exact Em]. intros m1 Gm. destruct (g_places _ Gs1 _ _ G) as [m0 [G0 [U0 N0]]]. assert (m1 = m0) as -> by congruence. split; congruence.
Qed.

(** ** The loop over the removing list *)
Variables (top : nat) (fuel : nat) (Z : list nat) (k1 : list (nat * bytes)) (pl : list nat).
Hypothesis (K1 : tree_ok r1 top).
Record rinv (s : state) : Prop := {
  v_ids : NoDup (map fst (tbl s));
  v_places : places r1 (tbl s);
  v_rows : forall y n, get r1 y = Some n -> (forall z, In z Z -> ~ inside r1 z y) -> get (tbl s) y = Some n;
  v_disk : forall b, In b k1 -> (forall z, In z Z -> ~ inside r1 z (fst b)) -> (forall z n, In z Z -> get r1 z = Some n -> up n = Some (fst b) -> nm n <> snd b) -> In b (disk s);
  v_plist : forall y, In y pl -> (forall z, In z Z -> ~ inside r1 z y) -> In y (plist s);
  v_rem : forall z, In z (removing s) -> In z Z;
  v_gone : forall z, In z Z -> In z (removing s) \/ gone r1 s z;
  v_pl : forall z, In z Z -> ~ In z (plist s) }.

Lemma rinv_step x s s1 s' : rinv s -> In x Z -> delete_dir fuel x s = Some s1 -> cleanup_dir x s1 = Some s' -> rinv s'.
Proof.
  intros [V1 V2 V3 V4 V5 V6 V7 V8] Ix D H. destruct (delete_dir_spec fuel x s s1 V1 V2 D) as [[C1 C2 C3 C4 C5 C6 C7 C8 C9 C10] [R1 R2]].
  unfold cleanup_dir in H. destruct (get (tbl s1) x) as [n|] eqn:G; [|discriminate]. destruct (up n) as [d|] eqn:U; [|discriminate]. destruct (existsb (entry_eqb (d, nm n)) (disk s1)); [|discriminate].
  destruct (rmdir x (d, nm n) s1) as [s2|] eqn:Rd; [|discriminate]. injection H as <-. apply rmdir_some in Rd as [-> Em].
  assert (forall m, get r1 x = Some m -> up m = Some d /\ nm m = nm n) as Rr.
  { intros m Gm. destruct (places_trans _ _ _ V2 C2 _ _ G) as [m0 [G0 [U0 N0]]]. assert (m = m0) as -> by congruence. split; congruence. }
  assert (exists m, get r1 x = Some m) as [mx Gx] by (destruct (places_trans _ _ _ V2 C2 _ _ G) as [m0 [G0 _]]; eauto).
  assert (gone r1 (drop_row x (unlink (d, nm n) s1)) x) as Gone by (apply gone_now; assumption).
  assert (forall y, ~ inside r1 x y -> ~ inside (tbl s) x y) as Ni by (intros y Ny I; apply Ny; exact (places_inside _ _ _ _ V2 I)).
  split; cbn [drop_row with_tbl unlink tbl disk plist removing].
  - apply ids_delete, C1.
  - exact (places_trans _ _ _ V2 (places_trans _ _ _ C2 (places_delete x (tbl s1)))).
  - intros y m Gy Ny. rewrite delete_other by (intros ->; apply (Ny x Ix); left; reflexivity). apply C3; [exact (V3 y m Gy Ny)|]. intros Bl. apply (Ni y (Ny x Ix)). right. exact Bl.
  - intros b I Nb Ne. apply in_erase. split.
    + apply C6; [exact (V4 b I Nb Ne)|]. exact (Ni _ (Nb x Ix)).
    + intros ->. destruct (Rr mx Gx) as [Um Nm]. exact (Ne x mx Ix Gx Um Nm).
  - intros y Iy Ny. apply C8; [exact (V5 y Iy Ny)|exact (Ni y (Ny x Ix))].
  - auto.
  - intros z Iz. destruct (V7 z Iz) as [E|E].
    + destruct (C10 z E) as [-> |[E2|E2]]; [right; exact Gone|auto|right].
      refine (gone_stable s1 _ z _ _ E2); cbn [drop_row with_tbl unlink tbl disk]; [intros z0 m; apply dead_delete|intros b I; apply in_erase in I as [I _]; exact I].
    + right. refine (gone_stable s _ z _ _ E); cbn [drop_row with_tbl unlink tbl disk]; [intros z0 m Gz; apply dead_delete in Gz as [Gz|Gz]; auto|intros b I; apply in_erase in I as [I _]; auto].
  - intros z Iz I. exact (V8 z Iz (C7 z I)).
Qed.
Lemma rinv_all : forall n s s', rinv s -> remove_all fuel n s = Some s' -> rinv s' /\ removing s' = [].
Proof.
  induction n as [|n IH]; intros s s' V H; [discriminate|]. cbn [remove_all] in H. destruct (removing s) as [|x l] eqn:R; [injection H as <-; auto|].
  destruct (delete_dir fuel x s) as [s1|] eqn:D; [|discriminate]. destruct (cleanup_dir x s1) as [s2|] eqn:Cl; [|discriminate].
  apply (IH s2 s'); [|exact H]. apply (rinv_step x s s1 s2 V); [|exact D|exact Cl]. apply (v_rem s V). rewrite R. left. reflexivity.
Qed.
End Remove.
