(** Proofs about the monitor's queue. *)
From Verif Require Import Base MonModel MonSpec.

Lemma key_eqb_eq a b : key_eqb a b = true <-> a = b.
Proof.
  unfold key_eqb. destruct a as [a1 a2], b as [b1 b2]. cbn [fst snd]. rewrite andb_true_iff, Nat.eqb_eq, bytes_eqb_eq. split; [intros [-> ->]; reflexivity|intros H; injection H as -> ->; auto].
Qed.
Lemma key_eqb_refl a : key_eqb a a = true. Proof. apply key_eqb_eq. reflexivity. Qed.
Lemma key_eqb_ne a b : a <> b -> key_eqb a b = false.
Proof. intros N. destruct (key_eqb a b) eqn:E; [|reflexivity]. apply key_eqb_eq in E. congruence. Qed.
Lemma key_dec (a b : key) : {a = b} + {a <> b}.
Proof. destruct (key_eqb a b) eqn:E; [left; apply key_eqb_eq; exact E|right; intros H; apply key_eqb_eq in H; congruence]. Qed.
Lemma set_eq {A} (f : key -> A) k v : set f k v k = v. Proof. unfold set. rewrite key_eqb_refl. reflexivity. Qed.
Lemma set_ne {A} (f : key -> A) k v x : x <> k -> set f k v x = f x. Proof. intros N. unfold set. rewrite key_eqb_ne; auto. Qed.

(** What a queue does to one file. *)
Inductive ef := Own (m : mask) | Gone.
Definition eff1 (k : key) (m : entry) : list ef :=
  match emask m with
  | None => []
  | Some x => (if key_eqb (ekey m) k then [Own x] else []) ++
              (match x with KTo => match efrom m with Some a => if key_eqb a k then [Gone] else [] | None => [] end | _ => [] end)
  end.
Definition eff (k : key) (l : list entry) : list ef := flat_map (eff1 k) l.
Lemma eff_app k l r : eff k (l ++ r) = eff k l ++ eff k r. Proof. apply flat_map_app. Qed.

Definition value := (option Z * bool)%type.
Definition pv (d : dbs) (k : key) : value := (rec d k, touched d k).
Definition effect (f : option Z) (v : value) (e : ef) : value :=
  match e with
  | Own KCreate => match f with
                   | None => v
                   | Some t => match fst v with Some t0 => if Z.eqb t0 t then v else (Some t, true) | None => (Some t, true) end
                   end
  | Own KModify | Own KTo => match f with Some t => (Some t, true) | None => match fst v with Some _ => (None, true) | None => v end end
  | _ => match fst v with Some _ => (None, true) | None => v end
  end.

Lemma pv_set d k a b x : pv {| rec := set (rec d) k a; touched := set (touched d) k b |} x = if key_eqb x k then (a, b) else pv d x.
Proof. unfold pv, set. cbn. destruct (key_eqb x k); reflexivity. Qed.
Lemma key_eqb_sym a b : key_eqb a b = key_eqb b a.
Proof. destruct (key_eqb b a) eqn:E; [apply key_eqb_eq in E; subst; apply key_eqb_refl|]. apply key_eqb_ne. intros ->. rewrite key_eqb_refl in E. discriminate. Qed.

Lemma pv_del f k d x : pv (del k d) x = if key_eqb k x then effect f (pv d x) Gone else pv d x.
Proof.
  unfold del. destruct (key_dec k x) as [<-|N].
  - rewrite key_eqb_refl. cbn. destruct (rec d k) eqn:R; [rewrite pv_set, key_eqb_refl; reflexivity|reflexivity].
  - rewrite (key_eqb_ne _ _ N). destruct (rec d k); [|reflexivity]. rewrite pv_set, key_eqb_ne by auto. reflexivity.
Qed.
Lemma pv_mod fs k d x : pv (file_modified fs k d) x = if key_eqb k x then effect (fs x) (pv d x) (Own KModify) else pv d x.
Proof.
  unfold file_modified. destruct (key_dec k x) as [<-|N].
  - rewrite key_eqb_refl. destruct (fs k) as [t|] eqn:F; cbn.
    + unfold mod_mtime. destruct (rec d k); rewrite ?orb_true_r; cbv iota; rewrite pv_set, key_eqb_refl; reflexivity.
    + rewrite (pv_del None), key_eqb_refl. reflexivity.
  - rewrite (key_eqb_ne _ _ N). destruct (fs k) as [t|]; [|rewrite (pv_del None), (key_eqb_ne _ _ N); reflexivity].
    unfold mod_mtime. destruct (rec d k); rewrite ?orb_true_r; cbv iota; rewrite pv_set, key_eqb_ne by auto; reflexivity.
Qed.
Lemma pv_watch fs k d x : pv (watch fs k d) x = if key_eqb k x then effect (fs x) (pv d x) (Own KCreate) else pv d x.
Proof.
  unfold watch. destruct (key_dec k x) as [<-|N].
  - rewrite key_eqb_refl. destruct (fs k) as [t|] eqn:F; cbn; [|reflexivity]. unfold mod_mtime. destruct (rec d k) as [t0|] eqn:R; [|rewrite pv_set, key_eqb_refl; reflexivity].
    rewrite orb_false_r. destruct (Z.eqb t0 t); cbn; [reflexivity|rewrite pv_set, key_eqb_refl; reflexivity].
  - rewrite (key_eqb_ne _ _ N). destruct (fs k) as [t|]; [|reflexivity]. unfold mod_mtime. destruct (rec d k) as [t0|]; [|rewrite pv_set, key_eqb_ne by auto; reflexivity].
    rewrite orb_false_r. destruct (Z.eqb t0 t); cbn; [reflexivity|rewrite pv_set, key_eqb_ne by auto; reflexivity].
Qed.

Lemma handle_eff fs m d k : pv (handle fs m d) k = fold_left (effect (fs k)) (eff1 k m) (pv d k).
Proof.
  unfold handle, eff1. destruct (emask m) as [x|]; [|reflexivity]. destruct x; rewrite ?app_nil_r.
  - rewrite pv_watch. destruct (key_eqb (ekey m) k); reflexivity.
  - rewrite pv_mod. destruct (key_eqb (ekey m) k); reflexivity.
  - rewrite (pv_del (fs k)). destruct (key_eqb (ekey m) k); reflexivity.
  - rewrite (pv_del (fs k)). destruct (key_eqb (ekey m) k); reflexivity.
  - destruct (efrom m) as [a|].
    + rewrite (pv_del (fs k)), pv_mod. rewrite fold_left_app. destruct (key_eqb (ekey m) k), (key_eqb a k); reflexivity.
    + rewrite app_nil_r. destruct (key_dec (ekey m) k) as [<-|N].
      * rewrite key_eqb_refl. cbn [fold_left]. assert (E : forall d1, pv d1 (ekey m) = effect (fs (ekey m)) (pv d (ekey m)) (Own KCreate) ->
          pv (match rec d1 (ekey m) with Some _ => file_modified fs (ekey m) d1 | None => d1 end) (ekey m) = effect (fs (ekey m)) (pv d (ekey m)) (Own KTo)).
        { intros d1 E. destruct (rec d1 (ekey m)) as [t|] eqn:R.
          - rewrite pv_mod, key_eqb_refl, E. clear. destruct (pv d (ekey m)) as [[r|] b]; cbn; destruct (fs (ekey m)) as [z|]; reflexivity.
          - rewrite E. unfold pv at 1 in E. rewrite R in E. destruct (pv d (ekey m)) as [r b]. cbn in *. destruct (fs (ekey m)) as [z|]; [destruct r as [t|]; [destruct (Z.eqb t z)|]; discriminate|].
            injection E as E1 E2. rewrite <- E1. reflexivity. }
        apply E. rewrite pv_watch, key_eqb_refl. reflexivity.
      * rewrite (key_eqb_ne _ _ N). cbn. destruct (rec (watch fs (ekey m) d) (ekey m)); rewrite ?pv_mod, ?pv_watch, !(key_eqb_ne _ _ N); reflexivity.
Qed.
Lemma flush_eff fs l d k : pv (fold_left (fun d m => handle fs m d) l d) k = fold_left (effect (fs k)) (eff k l) (pv d k).
Proof. revert d. induction l as [|m l IH]; intros d; cbn; [reflexivity|]. rewrite fold_left_app, IH, handle_eff. reflexivity. Qed.

(** The same for the plain way. *)
Definition peff (k : key) (o : op) : list ef :=
  let at_ x e := if key_eqb x k then [e] else [] in
  match o with
  | Create x _ => at_ x (Own KCreate) | Write x _ => at_ x (Own KModify) | Remove x | MoveOut x => at_ x Gone
  | Rename a b => at_ b (Own KTo) ++ at_ a Gone | MoveIn x _ => at_ x (Own KTo)
  end.
Lemma plain_eff fs l d k : pv (fold_left (fun d o => record fs o d) l d) k = fold_left (effect (fs k)) (flat_map (peff k) l) (pv d k).
Proof.
  revert d. induction l as [|o l IH]; intros d; cbn; [reflexivity|]. rewrite fold_left_app, IH. f_equal.
  destruct o as [x t|x t|x|a b|x|x t]; cbn; rewrite ?pv_watch, ?pv_mod, ?(pv_del (fs k)), ?pv_mod; try (destruct (key_eqb x k); reflexivity).
  rewrite fold_left_app. destruct (key_eqb b k), (key_eqb a k); reflexivity.
Qed.

(** The outcome of a list of effects. *)
Lemma fold_last f l x v : fst (fold_left (effect f) (l ++ [x]) v) = fst (effect f (fold_left (effect f) l v) x).
Proof. rewrite fold_left_app. reflexivity. Qed.
Definition ends (f r : option Z) (l : list ef) : Prop :=
  match rev l with
  | [] => f = r
  | (Own KCreate | Own KTo) :: _ => f <> None
  | Own KModify :: _ => True
  | _ => f = None
  end.
Lemma ends_value f l v : ends f (fst v) l -> fst (fold_left (effect f) l v) = f.
Proof.
  unfold ends. destruct (rev l) as [|x r] eqn:E.
  - assert (l = []) as -> by (rewrite <- (rev_involutive l), E; reflexivity). cbn. auto.
  - assert (l = rev r ++ [x]) as -> by (rewrite <- (rev_involutive l), E; reflexivity). rewrite fold_last. generalize (fold_left (effect f) (rev r) v). intros [r0 t0] H.
    destruct x as [[]|]; destruct f as [z|]; try congruence; cbn; destruct r0 as [z0|]; try reflexivity. destruct (Z.eqb z0 z) eqn:G; [|reflexivity]. apply Z.eqb_eq in G. cbn. congruence.
Qed.
Lemma effect_change f v x : fst (effect f v x) <> fst v -> snd (effect f v x) = true.
Proof. destruct v as [r t]. destruct x as [[]|]; cbn; destruct f as [z|], r as [z0|]; cbn; try congruence; try (destruct (Z.eqb z0 z)); cbn; congruence. Qed.
Lemma effect_stays f v x : snd v = true -> snd (effect f v x) = true.
Proof. destruct v as [r t]. destruct x as [[]|]; cbn; destruct f as [z|], r as [z0|]; cbn; try congruence; try (destruct (Z.eqb z0 z)); cbn; congruence. Qed.
Lemma fold_stays f l v : snd v = true -> snd (fold_left (effect f) l v) = true.
Proof. revert v. induction l as [|x l IH]; cbn; intros v H; [exact H|]. apply IH, effect_stays, H. Qed.
Lemma oz_dec (a b : option Z) : {a = b} + {a <> b}. Proof. decide equality. apply Z.eq_dec. Qed.
Lemma fold_change f l v : fst (fold_left (effect f) l v) <> fst v -> snd (fold_left (effect f) l v) = true.
Proof.
  revert v. induction l as [|x l IH]; cbn; intros v H; [congruence|]. destruct (oz_dec (fst (effect f v x)) (fst v)) as [E|N]; [apply IH; congruence|]. apply fold_stays, effect_change, N.
Qed.
Lemma fold_absent l v : fst v = None -> fold_left (effect None) l v = v.
Proof. intros H. induction l as [|x l IH]; cbn; [reflexivity|]. destruct v as [r t]. cbn in H. subst r. destruct x as [[]|]; exact IH. Qed.
Lemma fold_head f e l v : fst v <> None -> e <> Own KCreate -> snd (fold_left (effect f) (e :: l) v) = true.
Proof. intros N E. cbn. apply fold_stays. destruct v as [[z|] t]; [|cbn in N; congruence]. destruct e as [[]|]; cbn; try congruence; destruct f; reflexivity. Qed.

(** Two lists of effects that end alike give the same. *)
Lemma same_outcome f v l p : ends f (fst v) l -> ends f (fst v) p ->
  (fst v <> None -> (l = [] <-> p = [])) -> (fst v <> None -> hd_error l <> Some (Own KCreate)) -> (fst v <> None -> hd_error p <> Some (Own KCreate)) ->
  fold_left (effect f) l v = fold_left (effect f) p v.
Proof.
  intros El Ep E Hl Hp. destruct (fst v) as [z|] eqn:V.
  - assert (N : fst v <> None) by congruence. assert (N' : Some z <> None) by discriminate. specialize (E N'). specialize (Hl N'). specialize (Hp N'). rewrite <- V in El, Ep. destruct l as [|x l].
    + destruct E as [E _]. rewrite (E eq_refl). reflexivity.
    + destruct p as [|y p]; [destruct E as [_ E]; discriminate (E eq_refl)|].
      apply ends_value in El. apply ends_value in Ep.
      assert (Sl : snd (fold_left (effect f) (x :: l) v) = true) by (apply fold_head; [exact N|intros ->; apply Hl; reflexivity]).
      assert (Sp : snd (fold_left (effect f) (y :: p) v) = true) by (apply fold_head; [exact N|intros ->; apply Hp; reflexivity]).
      rewrite (surjective_pairing (fold_left (effect f) (x :: l) v)), (surjective_pairing (fold_left (effect f) (y :: p) v)). congruence.
  - rewrite <- V in El, Ep. destruct f as [z|]; [|rewrite !fold_absent by exact V; reflexivity].
    apply ends_value in El. apply ends_value in Ep.
    assert (Sl : snd (fold_left (effect (Some z)) l v) = true) by (apply fold_change; congruence).
    assert (Sp : snd (fold_left (effect (Some z)) p v) = true) by (apply fold_change; congruence).
    rewrite (surjective_pairing (fold_left (effect (Some z)) l v)), (surjective_pairing (fold_left (effect (Some z)) p v)). congruence.
Qed.
