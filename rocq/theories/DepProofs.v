(** Round trip of access records. *)
From Verif Require Import Base ConfigModel ConfigProofs2 DepModel DepSpec.

Lemma unbyte_byte z : unbyte (byte z) = (z mod 256)%Z.
Proof. unfold unbyte, byte. pose proof (Z.mod_pos_bound z 256 ltac:(lia)). rewrite nat_ascii_embedding by lia. lia. Qed.
Lemma un32_le32 z : (0 <= z < 2147483648)%Z -> un32 (le32 z) = z.
Proof.
  intros H. unfold un32, le32. rewrite !unbyte_byte.
  assert (E : (z mod 256 + 256 * (z / 256 mod 256) + 65536 * (z / 65536 mod 256) + 16777216 * (z / 16777216 mod 256))%Z = z).
  { replace (z / 65536)%Z with (z / 256 / 256)%Z by (rewrite Z.div_div; [reflexivity|lia|lia]). replace (z / 16777216)%Z with (z / 256 / 256 / 256)%Z by (rewrite !Z.div_div; [reflexivity|lia..]).
    Z.to_euclidean_division_equations. lia. }
  rewrite E. destruct (Z.ltb_spec z 2147483648); lia.
Qed.
Lemma le32_len z : length (le32 z) = 4. Proof. reflexivity. Qed.
Lemma header_len a b c : length (header a b c) = 12. Proof. reflexivity. Qed.

Lemma is_full_spec p : is_full_path p = match p with "/"%char :: _ => true | _ => false end.
Proof. destruct p as [|[[] [] [] [] [] [] [] []] p]; reflexivity. Qed.
Lemma full_true p dir : is_full_path p = true -> path_in dir p = p.
Proof. unfold path_in. rewrite is_full_spec. destruct p as [|[[] [] [] [] [] [] [] []] p]; try discriminate; reflexivity. Qed.
Lemma full_false p dir : is_full_path p = false -> path_in dir p = dir ++ "/"%char :: p.
Proof. unfold path_in. rewrite is_full_spec. destruct p as [|[[] [] [] [] [] [] [] []] p]; try discriminate; reflexivity. Qed.

(** The record as header and two strings. *)
Lemma record_eq a : let '(at_, p, p2) := seen a in
  record a = header at_ (Z.of_nat (length p)) (Z.of_nat (length p2)) ++ (p ++ [nul]) ++ (p2 ++ [nul]).
Proof.
  unfold seen, record, writes. cbn [concat app].
  set (rel2 := match a_file2 a with [] => false | _ => negb (is_full_path (a_file2 a)) end).
  set (p2 := match a_file2 a with [] => [] | _ => path_in (a_dir a) (a_file2 a) end).
  assert (P2 : p2 = if rel2 then a_dir a ++ "/"%char :: a_file2 a else a_file2 a).
  { unfold p2, rel2. destruct (a_file2 a) as [|c t] eqn:F; [reflexivity|]. destruct (is_full_path (c :: t)) eqn:X; cbn [negb]; [apply full_true, X|apply full_false, X]. }
  assert (P1 : path_in (a_dir a) (a_file a) = if negb (is_full_path (a_file a)) then a_dir a ++ "/"%char :: a_file a else a_file a).
  { destruct (is_full_path (a_file a)) eqn:X; cbn [negb]; [apply full_true, X|apply full_false, X]. }
  rewrite P1, P2. clear. destruct (negb (is_full_path (a_file a))), rel2; cbn [concat app]; rewrite ?app_nil_r, ?concat_app; cbn [concat app]; rewrite ?app_nil_r, <- ?app_assoc; cbn [app].
  all: do 2 (f_equal; try (f_equal; rewrite ?app_length; cbn [length]; lia)); rewrite <- ?app_assoc; reflexivity.
Qed.

Lemma cstr_nul p : no_nul p -> cstr (p ++ [nul]) = p.
Proof.
  unfold cstr. intros N. induction p as [|c p IH]; cbn [app span]; [reflexivity|]. assert (c =?c nul = false) as -> by (apply Ascii.eqb_neq; intros ->; apply N; left; reflexivity). cbn [negb].
  destruct (span (fun c => negb (c =?c nul)) (p ++ [nul])) as [x y]. cbn [fst] in *. f_equal. apply IH. intros I. apply N. right. exact I.
Qed.
Lemma ends_nul_snoc p : ends_nul (p ++ [nul]) = true. Proof. unfold ends_nul. rewrite rev_app_distr. reflexivity. Qed.
Lemma read_path_ok p s : read_path (Z.of_nat (length p)) ((p ++ [nul]) ++ s) = Ok (p ++ [nul], s).
Proof.
  unfold read_path. destruct (Z.ltb_spec (Z.of_nat (length p)) (-2)); [lia|]. destruct (Z.ltb_spec (Z.of_nat (length p)) 0); [lia|]. rewrite Nat2Z.id.
  assert (L : length (p ++ [nul]) = S (length p)) by (rewrite app_length; cbn; lia). rewrite app_length, L. replace (S (length p) + length s <? S (length p)) with false by (symmetry; apply Nat.ltb_ge; lia).
  rewrite <- L, firstn_app, Nat.sub_diag, firstn_all, skipn_app, Nat.sub_diag, skipn_all. cbn. rewrite app_nil_r. reflexivity.
Qed.
Lemma header_read a b c s : (0 <= a < 2147483648)%Z -> (0 <= b < 2147483648)%Z -> (0 <= c < 2147483648)%Z -> let t := header a b c ++ s in
  un32 (firstn 4 t) = a /\ un32 (firstn 4 (skipn 4 t)) = b /\ un32 (firstn 4 (skipn 8 t)) = c /\ skipn 12 t = s.
Proof.
  intros A B0 C0 t. unfold t, header. change (firstn 4 ((le32 a ++ le32 b ++ le32 c) ++ s)) with (le32 a). change (firstn 4 (skipn 4 ((le32 a ++ le32 b ++ le32 c) ++ s))) with (le32 b).
  change (firstn 4 (skipn 8 ((le32 a ++ le32 b ++ le32 c) ++ s))) with (le32 c). rewrite !un32_le32 by assumption. auto.
Qed.
Lemma seen_pos a : length (path_in (a_dir a) (a_file a)) <> 0.
Proof. destruct (is_full_path (a_file a)) eqn:F; [rewrite full_true by exact F; destruct (a_file a); discriminate|]. rewrite full_false by exact F. rewrite app_length. cbn. lia. Qed.
Lemma good_strings a : good a -> no_nul (path_in (a_dir a) (a_file a)) /\ no_nul (snd (seen a)).
Proof.
  intros [Nd [N1 [N2 _]]].
  assert (H : forall p, no_nul p -> no_nul (path_in (a_dir a) p)).
  { intros p Np. destruct (is_full_path p) eqn:F; [rewrite full_true; auto|]. rewrite full_false by exact F. intros I. apply in_app_or in I. destruct I as [I|[I|I]]; [exact (Nd I)|discriminate|exact (Np I)]. }
  split; [auto|]. cbn. destruct (a_file2 a) eqn:E; [intros []|]. rewrite <- E in *. auto.
Qed.

Lemma process_step fuel at_ p p2 s : (0 <= at_ < 2147483648)%Z -> length p <> 0 -> (Z.of_nat (length p) < 4095)%Z -> (Z.of_nat (length p2) < 4095)%Z -> no_nul p -> no_nul p2 ->
  process (S fuel) (header at_ (Z.of_nat (length p)) (Z.of_nat (length p2)) ++ (p ++ [nul]) ++ (p2 ++ [nul]) ++ s) =
  match process fuel s with Ok r => Ok ((at_, p, p2) :: r) | o => o end.
Proof.
  intros A N L1 L2 N1 N2. set (t := header _ _ _ ++ _).
  destruct (header_read at_ (Z.of_nat (length p)) (Z.of_nat (length p2)) ((p ++ [nul]) ++ (p2 ++ [nul]) ++ s) A ltac:(lia) ltac:(lia)) as [H1 [H2 [H3 H4]]]. fold t in H1, H2, H3, H4.
  assert (T : exists c r, t = c :: r) by (unfold t; eexists; eexists; reflexivity). destruct T as [c [r T]].
  cbn [process]. rewrite T at 1. assert (Lt : length t <? 12 = false) by (apply Nat.ltb_ge; unfold t; rewrite app_length, header_len; lia).
  rewrite T in *. rewrite Lt, H1, H2, H3, H4. destruct (Z.eqb_spec (Z.of_nat (length p)) 0); [lia|]. unfold PATH_MAX. destruct (Z.leb_spec (4096 - 1) (Z.of_nat (length p))); [lia|]. destruct (Z.leb_spec (4096 - 1) (Z.of_nat (length p2))); [lia|].
  rewrite read_path_ok, read_path_ok, !ends_nul_snoc. cbn [andb]. rewrite !cstr_nul by assumption. reflexivity.
Qed.
Lemma process_record fuel a s : good a -> process (S fuel) (record a ++ s) = match process fuel s with Ok r => Ok (seen a :: r) | o => o end.
Proof.
  intros G. pose proof (record_eq a) as R. destruct (good_strings a G) as [N1 N2]. destruct G as [_ [_ [_ [A [L1 L2]]]]]. unfold seen in *. cbn [fst snd] in *. rewrite R, <- !app_assoc.
  rewrite (app_assoc (path_in (a_dir a) (a_file a))). rewrite (app_assoc _ [nul] s). apply process_step; auto. apply seen_pos.
Qed.
Lemma record_len a : 12 < length (record a).
Proof. pose proof (record_eq a) as R. unfold seen in R. rewrite R, !app_length, header_len. cbn. lia. Qed.
Lemma process_records l : forall fuel s, Forall good l -> length (flat_map record l ++ s) < fuel ->
  process fuel (flat_map record l ++ s) = match process (fuel - length l) s with Ok r => Ok (map seen l ++ r) | o => o end.
Proof.
  induction l as [|a l IH]; intros fuel s G L; cbn [flat_map map app length]; [rewrite Nat.sub_0_r; destruct (process fuel s); reflexivity|]. inversion G; subst.
  destruct fuel as [|fuel]; [lia|]. rewrite <- app_assoc. rewrite process_record by assumption. cbn [flat_map] in L. rewrite <- app_assoc, app_length in L. pose proof (record_len a). rewrite IH by (auto; lia). cbn [Nat.sub].
  destruct (process (fuel - length l) s); reflexivity.
Qed.
Lemma flat_len l : length l <= length (flat_map record l).
Proof. induction l as [|a l IH]; cbn; [lia|]. rewrite app_length. pose proof (record_len a). lia. Qed.
Lemma round_trip l : Forall good l -> process_depfile (flat_map record l) = Ok (map seen l).
Proof.
  intros G. unfold process_depfile. rewrite <- (app_nil_r (flat_map record l)) at 2. rewrite process_records by (auto; rewrite app_nil_r; lia).
  pose proof (flat_len l). destruct (S (length (flat_map record l)) - length l) eqn:E; [lia|]. cbn. rewrite app_nil_r. reflexivity.
Qed.

(** A record that is not complete. *)
Lemma read_path_short n s : length s <= n -> read_path (Z.of_nat n) s = Bad.
Proof. intros L. unfold read_path. destruct (Z.ltb_spec (Z.of_nat n) (-2)); [lia|]. destruct (Z.ltb_spec (Z.of_nat n) 0); [lia|]. rewrite Nat2Z.id. replace (length s <? S n) with true by (symmetry; apply Nat.ltb_lt; lia). reflexivity. Qed.
Lemma prefix_app {A} (p q a b : list A) : p ++ q = a ++ b -> (exists t, p = a ++ t /\ b = t ++ q) \/ (exists t, a = p ++ t /\ t <> []).
Proof.
  revert a. induction p as [|x p IH]; intros a H; cbn in H.
  - destruct a as [|y a]; [left; exists []; cbn in *; auto|right; exists (y :: a); split; [reflexivity|discriminate]].
  - destruct a as [|y a]; cbn in H; [left; exists (x :: p); cbn; auto|]. injection H as -> H. destruct (IH a H) as [[t [-> ->]]|[t [-> N]]]; [left|right]; exists t; cbn; auto.
Qed.
Lemma process_cut fuel a p q : good a -> record a = p ++ q -> p <> [] -> q <> [] -> process (S fuel) p = Bad.
Proof.
  intros G R Np Nq. pose proof (record_eq a) as E. destruct (good_strings a G) as [N1 N2]. destruct G as [_ [_ [_ [A [L1 L2]]]]]. pose proof (seen_pos a) as P0. unfold seen in *. cbn [fst snd] in *.
  set (p1 := path_in (a_dir a) (a_file a)) in *. set (p2 := match a_file2 a with [] => [] | _ => path_in (a_dir a) (a_file2 a) end) in *. rewrite R in E.
  cbn [process]. destruct p as [|c0 p0] eqn:Ep; [congruence|]. rewrite <- Ep in *. clear c0 p0 Ep.
  destruct (prefix_app _ _ _ _ E) as [[t [-> B0]]|[t [H N]]].
  - rewrite app_length, header_len. replace (12 + length t <? 12) with false by (symmetry; apply Nat.ltb_ge; lia).
    destruct (header_read (a_at a) (Z.of_nat (length p1)) (Z.of_nat (length p2)) t A ltac:(lia) ltac:(lia)) as [H1 [H2 [H3 H4]]]. rewrite H1, H2, H3, H4.
    destruct (Z.eqb_spec (Z.of_nat (length p1)) 0); [lia|]. unfold PATH_MAX. destruct (Z.leb_spec (4096 - 1) (Z.of_nat (length p1))); [lia|]. destruct (Z.leb_spec (4096 - 1) (Z.of_nat (length p2))); [lia|].
    symmetry in B0. destruct (prefix_app _ _ _ _ B0) as [[u [-> B1]]|[u [H5 N5]]].
    + rewrite read_path_ok. rewrite read_path_short; [reflexivity|]. apply (f_equal (@length ascii)) in B1. rewrite !app_length in B1. destruct q; [congruence|]. cbn in B1. lia.
    + rewrite read_path_short; [reflexivity|]. apply (f_equal (@length ascii)) in H5. rewrite !app_length in H5. destruct u; [congruence|]. cbn in H5. lia.
  - apply (f_equal (@length ascii)) in H. rewrite header_len, app_length in H. destruct t; [congruence|]. cbn in H. replace (length p <? 12) with true by (symmetry; apply Nat.ltb_lt; lia). reflexivity.
Qed.
Lemma cut_short l a p q : Forall good l -> good a -> record a = p ++ q -> p <> [] -> q <> [] -> process_depfile (flat_map record l ++ p) = Bad.
Proof.
  intros G Ga R Np Nq. unfold process_depfile. rewrite process_records by (auto; lia). pose proof (flat_len l). rewrite app_length.
  destruct (S (length (flat_map record l) + length p) - length l) eqn:E; [lia|]. rewrite (process_cut n a p q); auto.
Qed.

(** A path that is too long. *)
Lemma process_long fuel a s : (0 <= a_at a < 2147483648)%Z -> (Z.of_nat (length (snd (fst (seen a)))) < 2147483648)%Z -> (Z.of_nat (length (snd (seen a))) < 2147483648)%Z ->
  (4095 <= Z.of_nat (length (snd (fst (seen a)))) \/ 4095 <= Z.of_nat (length (snd (seen a))))%Z -> process (S fuel) (record a ++ s) = Bad.
Proof.
  intros A M1 M2 L. pose proof (record_eq a) as R. pose proof (seen_pos a) as P0. unfold seen in *. cbn [fst snd] in *. rewrite R, <- !app_assoc.
  set (p1 := path_in (a_dir a) (a_file a)) in *. set (p2 := match a_file2 a with [] => [] | _ => path_in (a_dir a) (a_file2 a) end) in *. set (rest := p1 ++ _). set (t := header _ _ _ ++ rest).
  destruct (header_read (a_at a) (Z.of_nat (length p1)) (Z.of_nat (length p2)) rest A ltac:(lia) ltac:(lia)) as [H1 [H2 [H3 H4]]]. fold t in H1, H2, H3, H4.
  assert (T : exists c r, t = c :: r) by (unfold t; eexists; eexists; reflexivity). destruct T as [c [r T]].
  cbn [process]. rewrite T at 1. assert (Lt : length t <? 12 = false) by (apply Nat.ltb_ge; unfold t; rewrite app_length, header_len; lia).
  rewrite T in *. rewrite Lt, H1, H2, H3. destruct (Z.eqb_spec (Z.of_nat (length p1)) 0); [lia|]. unfold PATH_MAX. destruct (Z.leb_spec (4096 - 1) (Z.of_nat (length p1))); [reflexivity|]. destruct (Z.leb_spec (4096 - 1) (Z.of_nat (length p2))); [reflexivity|lia].
Qed.

(** The schedules. *)
Definition order_ok (mid : kills) (progs : nat -> list access) (s : wst) (order : list (nat * access)) : Prop :=
  (forall i, exists rest, filter sends (progs i) = of_process i order ++ rest /\ (filter sends (todo (procs s i)) = rest \/ mid <> NoKill /\ todo (procs s i) = [])) /\
  (forall i, incl (todo (procs s i)) (progs i)) /\
  (forall p, In p order -> sends (snd p) = true /\ In (snd p) (progs (fst p))) /\
  match holder s with
  | None => file s = flat_map record (map snd order)
  | Some i => exists done_ o a, order = o ++ [(i, a)] /\ file s = flat_map record (map snd o) ++ concat done_ /\ writes a = done_ ++ now (procs s i)
  end.
Lemma of_process_snoc {A} i j (a : A) l : of_process i (l ++ [(j, a)]) = of_process i l ++ (if j =? i then [a] else []).
Proof. unfold of_process. rewrite filter_app, map_app. cbn. destruct (j =? i); reflexivity. Qed.
Lemma pset_eq f i p : pset f i p i = p. Proof. unfold pset. rewrite Nat.eqb_refl. reflexivity. Qed.
Lemma pset_ne f i j p : j <> i -> pset f i p j = f j. Proof. unfold pset. intros N. destruct (Nat.eqb_spec j i); congruence. Qed.

Lemma order_start mid progs : order_ok mid progs (wstart progs) [].
Proof. split; [|split; [|split]]; cbn; [|intros i x H; exact H|intros p []|reflexivity]. intros i. exists (filter sends (progs i)). auto. Qed.
Lemma order_step mid progs s t o : mid <> Anywhere -> wstep mid s t -> order_ok mid progs s o -> exists o', order_ok mid progs t o'.
Proof.
  intros NA St [O1 [O2 [O3 O4]]]. destruct St as [s i a r T Sf Hn|s i a r Hn T Sf|s i b l Hn Nw|s i Hn Nw|s i Hk Hn|s i Hk Hn].
  - exists o. split; [|split; [|split]]; cbn [procs holder file].
    + intros j. destruct (Nat.eq_dec j i) as [->|Ne]; [|rewrite pset_ne by exact Ne; apply O1]. destruct (O1 i) as [rest [E [R|[_ R]]]]; [|congruence]. exists rest. split; [exact E|left]. rewrite pset_eq. cbn [todo]. rewrite T in R. cbn [filter] in R. rewrite Sf in R. exact R.
    + intros j. destruct (Nat.eq_dec j i) as [->|Ne]; [|rewrite pset_ne by exact Ne; apply O2]. rewrite pset_eq. cbn [todo]. intros x Hx. apply (O2 i). rewrite T. right. exact Hx.
    + exact O3.
    + destruct (holder s) as [j|]; [|exact O4]. rewrite pset_ne by congruence. exact O4.
  - exists (o ++ [(i, a)]). split; [|split; [|split]]; cbn [procs holder file].
    + intros j. rewrite of_process_snoc. destruct (Nat.eq_dec j i) as [->|Ne].
      * rewrite Nat.eqb_refl, pset_eq. cbn [todo]. destruct (O1 i) as [rest [E [R|[_ R]]]]; [|congruence]. rewrite T in R. cbn [filter] in R. rewrite Sf in R. exists (filter sends r). split; [|auto]. rewrite E, <- R, <- app_assoc. reflexivity.
      * rewrite pset_ne by exact Ne. destruct (Nat.eqb_spec i j) as [X|_]; [congruence|]. rewrite app_nil_r. apply O1.
    + intros j. destruct (Nat.eq_dec j i) as [->|Ne]; [|rewrite pset_ne by exact Ne; apply O2]. rewrite pset_eq. cbn [todo]. intros x Hx. apply (O2 i). rewrite T. right. exact Hx.
    + intros p Hp. apply in_app_or in Hp. destruct Hp as [Hp|[<-|[]]]; [apply O3, Hp|]. cbn. split; [exact Sf|]. apply (O2 i). rewrite T. left. reflexivity.
    + rewrite Hn in O4. exists [], o, a. rewrite pset_eq. cbn [now concat app]. rewrite app_nil_r. auto.
  - exists o. rewrite Hn in O4. destruct O4 as [d [o' [a [E1 [E2 E3]]]]]. split; [|split; [|split]]; cbn [procs holder file].
    + intros j. destruct (Nat.eq_dec j i) as [->|Ne]; [rewrite pset_eq|rewrite pset_ne by exact Ne]; apply O1.
    + intros j. destruct (Nat.eq_dec j i) as [->|Ne]; [rewrite pset_eq|rewrite pset_ne by exact Ne]; apply O2.
    + exact O3.
    + exists (d ++ [b]), o', a. rewrite pset_eq. cbn [now]. split; [exact E1|]. rewrite E2, concat_app, <- app_assoc. cbn [concat]. rewrite app_nil_r. split; [reflexivity|]. rewrite E3, Nw, <- app_assoc. reflexivity.
  - exists o. rewrite Hn in O4. destruct O4 as [d [o' [a [E1 [E2 E3]]]]]. split; [exact O1|split; [exact O2|split; [exact O3|]]]. cbn [holder file]. rewrite Nw, app_nil_r in E3. rewrite E2, E1, map_app, flat_map_app. cbn [map flat_map snd]. unfold record at 3. rewrite E3, app_nil_r. reflexivity.
  - exists o. split; [|split; [|split]]; cbn [procs holder file].
    + intros j. destruct (Nat.eq_dec j i) as [->|Ne]; [|rewrite pset_ne by exact Ne; apply O1]. destruct (O1 i) as [rest [E _]]. exists rest. split; [exact E|right]. rewrite pset_eq. auto.
    + intros j. destruct (Nat.eq_dec j i) as [->|Ne]; [|rewrite pset_ne by exact Ne; apply O2]. rewrite pset_eq. intros x [].
    + exact O3.
    + destruct (holder s) as [j|]; [|exact O4]. rewrite pset_ne by congruence. exact O4.
  - congruence.
Qed.
Lemma order_steps mid progs t : mid <> Anywhere -> wsteps mid (wstart progs) t -> exists o, order_ok mid progs t o.
Proof.
  intros NA H. remember (wstart progs) as s eqn:E. induction H as [s|s t u H IH St]; [subst; eexists; apply order_start|]. destruct (IH E) as [o O]. eapply order_step; eassumption.
Qed.
Lemma schedule mid progs t : mid <> Anywhere -> (forall i, Forall good (progs i)) -> wsteps mid (wstart progs) t -> holder t = None ->
  exists o, process_depfile (file t) = Ok (map seen (map snd o)) /\
    forall i, exists rest, filter sends (progs i) = of_process i o ++ rest /\ (filter sends (todo (procs t i)) = rest \/ mid <> NoKill /\ todo (procs t i) = []).
Proof.
  intros NA G H Hn. destruct (order_steps mid progs t NA H) as [o [O1 [_ [O3 O4]]]]. rewrite Hn in O4. exists o. split; [|exact O1]. rewrite O4. apply round_trip.
  apply Forall_forall. intros a Ha. apply in_map_iff in Ha. destruct Ha as [p [<- Hp]]. destruct (O3 p Hp) as [_ I]. exact (proj1 (Forall_forall _ _) (G (fst p)) _ I).
Qed.

(** Runs given by a schedule, for the examples: process i goes on, or is killed. *)
Definition exec1 (mid : kills) (x : nat * bool) (s : wst) : option wst :=
  let i := fst x in
  if snd x then
    match mid, holder s with
    | Anywhere, Some j => if i =? j then Some {| file := file s; holder := None; procs := pset (procs s) i {| todo := []; now := [] |} |} else None
    | BetweenRecords, None => Some {| file := file s; holder := holder s; procs := pset (procs s) i {| todo := []; now := [] |} |}
    | _, _ => None
    end
  else
    match holder s with
    | Some j =>
        if i =? j then
          match now (procs s i) with
          | b :: l => Some {| file := file s ++ b; holder := Some i; procs := pset (procs s) i {| todo := todo (procs s i); now := l |} |}
          | [] => Some {| file := file s; holder := None; procs := procs s |}
          end
        else None
    | None =>
        match todo (procs s i) with
        | a :: r => Some (if sends a then {| file := file s; holder := Some i; procs := pset (procs s) i {| todo := r; now := writes a |} |}
                          else {| file := file s; holder := None; procs := pset (procs s) i {| todo := r; now := [] |} |})
        | [] => None
        end
    end.
Fixpoint exec (mid : kills) (l : list (nat * bool)) (s : wst) : option wst :=
  match l with [] => Some s | x :: r => match exec1 mid x s with Some t => exec mid r t | None => None end end.
Lemma exec1_sound mid x s t : exec1 mid x s = Some t -> wstep mid s t.
Proof.
  destruct x as [i k]. unfold exec1. cbn [fst snd]. destruct k.
  - destruct mid; [discriminate|destruct (holder s) eqn:Hn; [discriminate|]; intros [= <-]; rewrite <- Hn; apply w_kill; [discriminate|congruence]|]. destruct (holder s) as [j|] eqn:Hn; [|discriminate]. destruct (Nat.eqb_spec i j) as [<-|]; [|discriminate]. intros [= <-]. apply w_kill_mid; auto.
  - destruct (holder s) as [j|] eqn:Hn.
    + destruct (Nat.eqb_spec i j) as [<-|]; [|discriminate]. destruct (now (procs s i)) as [|b l] eqn:N; intros [= <-]; [eapply w_unlock; eauto|eapply w_write; eauto].
    + destruct (todo (procs s i)) as [|a r] eqn:T; [discriminate|]. destruct (sends a) eqn:Sa; intros [= <-]; [eapply w_lock; eauto|rewrite <- Hn; eapply w_skip; eauto; congruence].
Qed.
Lemma wsteps_left mid s t u : wstep mid s t -> wsteps mid t u -> wsteps mid s u.
Proof. intros H K. induction K as [t|t v u K IH L]; [eapply ws_step; [apply ws_refl|exact H]|]. eapply ws_step; [apply IH, H|exact L]. Qed.
Lemma exec_sound mid l : forall s t, exec mid l s = Some t -> wsteps mid s t.
Proof. induction l as [|x l IH]; cbn [exec]; intros s t H; [injection H as <-; apply ws_refl|]. destruct (exec1 mid x s) eqn:E; [|discriminate]. eapply wsteps_left; [eapply exec1_sound, E|apply IH, H]. Qed.
Lemma exec_some mid l s : match exec mid l s with Some _ => true | None => false end = true -> wsteps mid s (match exec mid l s with Some t => t | None => s end).
Proof. destruct (exec mid l s) eqn:E; [intros _; eapply exec_sound, E|discriminate]. Qed.

Lemma strstr_spec m s : strstr m s = true <-> contains m s.
Proof.
  unfold contains. induction s as [|c s IH]; cbn [strstr]; rewrite orb_true_iff, prefixb_spec.
  - split; [intros [[r E]|X]; [exists [], r; exact E|discriminate]|]. intros [l [r E]]. left. destruct l; [exists r; exact E|discriminate].
  - rewrite IH. split.
    + intros [[r E]|[l [r ->]]]; [exists [], r; exact E|exists (c :: l), r; reflexivity].
    + intros [[|x l] [r E]]; [left; exists r; exact E|right]. injection E as -> ->. exists l, r. reflexivity.
Qed.
Lemma ignore_spec p : ignore_file p = true <-> unreported p.
Proof. unfold ignore_file, is_ccache_path, unreported, starts. rewrite !orb_true_iff, !prefixb_spec, !strstr_spec. tauto. Qed.
