From Verif Require Import Base GitModel GitSpec.

Lemma tg_marker : tg_str = marker.
Proof. reflexivity. Qed.
Lemma tg_len : length tg_str = tg_str_len.
Proof. reflexivity. Qed.
Lemma advance_suffix k c : k < tg_str_len -> exists x, firstn k tg_str ++ [c] = x ++ firstn (advance k c) tg_str.
Proof.
  intros L. unfold advance. destruct (nth_error tg_str k) as [d|] eqn:E; [|apply nth_error_None in E; rewrite tg_len in E; lia].
  destruct (Ascii.eqb_spec d c) as [->|]; [|exists (firstn k tg_str ++ [c]); symmetry; apply app_nil_r].
  exists []. cbn [app]. clear L. revert k E. induction tg_str as [|x l IH]; intros [|k] E; cbn in *; [discriminate..|congruence|]. rewrite (IH k E). reflexivity.
Qed.
Lemma advance_bound k c : k < tg_str_len -> advance k c <= tg_str_len.
Proof. intros L. unfold advance. destruct (nth_error tg_str k); [destruct (_ =?c _)|]; lia. Qed.
Lemma copy_false s : forall k a, copy k s = (a, false) -> a = s.
Proof.
  induction s as [|c s IH]; intros k a H; cbn [copy] in H; [congruence|]. destruct (advance k c =? tg_str_len); [discriminate|].
  destruct (copy (advance k c) s) as [b f] eqn:E. injection H as <- ->. f_equal. eapply IH, E.
Qed.
Lemma copy_true s : forall k a, k < tg_str_len -> copy k s = (a, true) -> (exists b, s = a ++ b) /\ exists x, firstn k tg_str ++ a = x ++ tg_str.
Proof.
  induction s as [|c s IH]; intros k a L H; cbn [copy] in H; [discriminate|]. destruct (advance_suffix k c L) as [x X]. destruct (Nat.eqb_spec (advance k c) tg_str_len) as [E|E].
  - injection H as <-. split; [exists s; reflexivity|]. exists x. rewrite X, E. rewrite <- tg_len, firstn_all. reflexivity.
  - destruct (copy (advance k c) s) as [b f] eqn:Ec. injection H as <- ->. assert (advance k c < tg_str_len) as L' by (pose proof (advance_bound k c L); lia).
    destruct (IH _ b L' Ec) as [[y ->] [z Z]]. split; [exists y; reflexivity|]. exists (x ++ z). change (c :: b) with ([c] ++ b). rewrite app_assoc, X, <- app_assoc, Z, app_assoc. reflexivity.
Qed.
Lemma copy_clean u : ~ occurs marker u -> copy 0 u = (u, false).
Proof.
  intros N. destruct (copy 0 u) as [a []] eqn:E; [|f_equal; exact (copy_false _ _ _ E)]. destruct (copy_true u 0 a ltac:(unfold tg_str_len; lia) E) as [[b ->] [x X]]. cbn in X. subst a. elim N. exists x, b. rewrite <- app_assoc. reflexivity.
Qed.
Fixpoint run (k : nat) (s : bytes) : nat := match s with [] => k | c :: t => run (advance k c) t end.
Lemma copy_app u : forall k v, copy k u = (u, false) -> copy k (u ++ v) = (u ++ fst (copy (run k u) v), snd (copy (run k u) v)).
Proof.
  induction u as [|c u IH]; intros k v H; cbn [app run]; [apply surjective_pairing|]. cbn [copy] in *. destruct (advance k c =? tg_str_len); [discriminate|].
  destruct (copy (advance k c) u) as [a f] eqn:E. injection H as -> ->. rewrite (IH _ v E). reflexivity.
Qed.
Lemma run_app a : forall k b, run k (a ++ b) = run (run k a) b.
Proof. induction a as [|c a IH]; intros k b; cbn; [reflexivity|apply IH]. Qed.
Lemma run_bound u : forall k, k < tg_str_len -> copy k u = (u, false) -> run k u < tg_str_len.
Proof.
  induction u as [|c u IH]; intros k L H; cbn [run]; [exact L|]. cbn [copy] in H. destruct (Nat.eqb_spec (advance k c) tg_str_len); [discriminate|].
  destruct (copy (advance k c) u) as [a f] eqn:E. injection H as -> ->. apply IH; [pose proof (advance_bound k c L); lia|exact E].
Qed.
Lemma advance_nl k : k < tg_str_len -> advance k nl = 0 \/ advance k nl = tg_str_len.
Proof.
  intros L. do 26 (destruct k as [|k]; [vm_compute; auto|]). unfold tg_str_len in L. lia.
Qed.
Lemma run_whole u : whole u -> ~ occurs marker u -> run 0 u = 0.
Proof.
  intros [->|[t ->]] N; [reflexivity|]. pose proof (copy_clean _ N) as C. assert (Nt : ~ occurs marker t) by (intros [a [b ->]]; apply N; exists a, (b ++ [nl]); rewrite !app_assoc; reflexivity).
  pose proof (run_bound _ 0 ltac:(unfold tg_str_len; lia) C) as B1. pose proof (run_bound t 0 ltac:(unfold tg_str_len; lia) (copy_clean _ Nt)) as B2. rewrite run_app in *. cbn [run] in *. destruct (advance_nl _ B2) as [E|E]; [exact E|lia].
Qed.
Lemma copy_marked u s : whole u -> ~ occurs marker u -> copy 0 (u ++ marker ++ s) = (u ++ marker, true).
Proof. intros W N. rewrite (copy_app _ _ _ (copy_clean _ N)), (run_whole _ W N). reflexivity. Qed.

(** What follows the marker. *)
Definition section (top : bool) (names : list bytes) (alone : bool) : bytes := header ++ (if top then B ".tup" ++ ["010"%char] else []) ++ write_gitignore names (negb alone).
Definition isnil (u : bytes) : bool := match u with [] => true | _ => false end.
Lemma gitignore_part top names old u : users_part old u -> gitignore top names old = u ++ marker ++ section top names (isnil u).
Proof.
  intros [|s W N|v s W N]; unfold gitignore.
  - reflexivity.
  - rewrite (copy_clean _ N). rewrite tg_marker. unfold section. destruct s; reflexivity.
  - rewrite (copy_marked _ _ W N). rewrite app_length. change (length marker) with tg_str_len. rewrite Nat.add_sub. unfold section. rewrite <- app_assoc. destruct v; reflexivity.
Qed.
Lemma users_part_inv old u : users_part old u -> whole u /\ ~ occurs marker u.
Proof. intros [|s W N|v s W N]; [|auto..]. split; [left; reflexivity|]. intros [[|c a] [b E]]; discriminate E. Qed.
Lemma kept_section top names old u : users_part old u -> users_part (Some (gitignore top names old)) u.
Proof. intros H. destruct (users_part_inv _ _ H) as [W N]. rewrite (gitignore_part top names old u H). constructor; assumption. Qed.
Lemma remove_part f u : users_part (Some f) u -> remove_tup_gitignore f = match u with [] => None | _ => Some u end.
Proof.
  intros H. unfold remove_tup_gitignore. remember (Some f) as o eqn:Eo. destruct H as [|s W N|v s W N]; [discriminate| |].
  - assert (f = s) as -> by congruence. rewrite (copy_clean _ N). reflexivity.
  - assert (f = v ++ marker ++ s) as -> by congruence. rewrite (copy_marked _ _ W N). rewrite app_length. change (length marker) with tg_str_len. rewrite Nat.add_sub, firstn_app, firstn_all, Nat.sub_diag, app_nil_r. reflexivity.
Qed.
Lemma kept_any top names u s : ~ occurs marker u -> exists t, gitignore top names (Some (u ++ s)) = u ++ t.
Proof.
  intros N. unfold gitignore. rewrite (copy_app _ _ _ (copy_clean _ N)). destruct (copy (run 0 u) s) as [a f]. cbn [fst snd]. cbv zeta. rewrite <- app_assoc. eauto.
Qed.

(** ** The lines of the section *)
Lemma lines_app a la b lb : lines a la -> lines b lb -> lines (a ++ b) (la ++ lb).
Proof. induction 1 as [|l s r N H IH]; intros K; cbn [app]; [exact K|]. rewrite <- app_assoc. constructor; [exact N|]. apply IH, K. Qed.
Definition esc (n : bytes) : bytes := flat_map escape1 n.
Lemma esc_no_nl n : ~ In nl n -> ~ In nl (esc n).
Proof.
  intros N I. apply in_flat_map in I as [c [J K]]. unfold escape1 in K. destruct (_ || _); cbn in K.
  - destruct K as [K|[K|[]]]; [discriminate|subst; auto].
  - destruct K as [K|[]]; subst; auto.
Qed.
Definition listed (alone : bool) (n : bytes) : bool := alone || negb (bytes_eqb n (B ".gitignore")).
Lemma write_lines names alone : (forall n, In n names -> ~ In nl n) ->
  lines (write_gitignore names (negb alone)) (map (fun n => "/"%char :: esc n) (filter (listed alone) names)).
Proof.
  unfold write_gitignore, listed. rewrite negb_involutive. induction names as [|n names IH]; intros H; cbn [flat_map filter map]; [constructor|].
  destruct (alone || negb (bytes_eqb n (B ".gitignore"))); [|apply IH; intros x I; apply H; right; exact I].
  cbn [map]. assert (G : forall z, gitignore_line n ++ z = ("/"%char :: esc n) ++ nl :: z) by (intros z; unfold gitignore_line, esc; cbn [app]; rewrite <- app_assoc; reflexivity). rewrite G.
  constructor; [|apply IH; intros x I; apply H; right; exact I]. intros [I|I]; [discriminate|]. apply (esc_no_nl n); [apply H; left; reflexivity|exact I].
Qed.
Definition header_lines (top : bool) : list bytes := [B "##### Lines below automatically generated by Tup."; B "##### Do not edit."] ++ if top then [B ".tup"] else [].
Ltac nots := let H := fresh in cbn; intros H; repeat (destruct H as [H|H]; [discriminate H|]); exact H.
Lemma section_lines top names alone : (forall n, In n names -> ~ In nl n) ->
  lines (section top names alone) (header_lines top ++ map (fun n => "/"%char :: esc n) (filter (listed alone) names)).
Proof.
  intros H. unfold section, header_lines, header. rewrite <- !app_assoc.
  apply (ls_cons (B "##### Lines below automatically generated by Tup.")); [nots|]. apply (ls_cons (B "##### Do not edit.")); [nots|].
  apply lines_app; [|apply write_lines, H]. destruct top; [|constructor]. apply (ls_cons (B ".tup")); [nots|constructor].
Qed.

(** ** What a line matches *)
Lemma match_esc n : (forall c, In c n -> ~ In c (B "*?\")) -> forall x, matches (esc n) x <-> x = n.
Proof.
  unfold esc. induction n as [|c n IH]; intros P x; cbn [flat_map]; [split; [intros M; inversion M; reflexivity|intros ->; constructor]|].
  assert (Pc : ~ In c (B "*?\")) by (apply P; left; reflexivity). specialize (IH (fun d I => P d (or_intror I))). unfold escape1.
  destruct ((c =?c "["%char) || (c =?c "]"%char)) eqn:E; cbn [app].
  - split.
    + intros M. inversion M; subst; [match goal with N : ~ In _ _ |- _ => elim N; cbn; auto end|]. f_equal. apply IH. assumption.
    + intros ->. constructor. apply IH. reflexivity.
  - apply orb_false_iff in E as [E _]. apply Ascii.eqb_neq in E. split.
    + intros M. inversion M; subst; [f_equal; apply IH; assumption|elim Pc; cbn; auto..].
    + intros ->. constructor; [|apply IH; reflexivity]. cbn in *. intuition congruence.
Qed.
Lemma esc_end n : no_blank_end n -> no_blank_end (esc n).
Proof.
  intros N [t E]. destruct n as [|c n] using rev_ind; [destruct t; discriminate|]. unfold esc in E. rewrite flat_map_app in E. cbn [flat_map] in E. rewrite app_nil_r in E. unfold escape1 in E.
  destruct ((c =?c "["%char) || (c =?c "]"%char)) eqn:F.
  - change ["\"%char; c] with (["\"%char] ++ [c]) in E. rewrite app_assoc in E. apply app_inj_tail in E as [_ ->]. discriminate.
  - apply app_inj_tail in E as [_ ->]. apply N. eexists. reflexivity.
Qed.
Lemma ignored_section top names alone : (forall n, In n names -> plain n) -> forall x,
  ignored_by (header_lines top ++ map (fun n => "/"%char :: esc n) (filter (listed alone) names)) x <-> In x names /\ (alone = false -> x <> B ".gitignore").
Proof.
  intros P x. unfold ignored_by. split.
  - intros [p [I [_ M]]]. apply in_app_or in I as [I|I].
    + exfalso. unfold header_lines in I. destruct top; cbn [app In] in I; repeat (destruct I as [I|I]; [discriminate I|]); exact I.
    + apply in_map_iff in I as [n [E I]]. injection E as <-. apply filter_In in I as [I L]. apply match_esc in M; [|intros c J; apply (proj1 (P n I) c J)]. subst x. split; [exact I|].
      intros -> ->. discriminate L.
  - intros [I N]. exists (esc x). split; [|split; [apply esc_end, P, I|apply match_esc; [intros c J; apply (proj1 (P x I) c J)|reflexivity]]].
    apply in_or_app. right. apply in_map_iff. exists x. split; [reflexivity|]. apply filter_In. split; [exact I|]. unfold listed. destruct alone; [reflexivity|]. cbn [orb]. apply negb_true_iff. destruct (bytes_eqb_spec x (B ".gitignore")) as [E|]; [elim (N eq_refl E)|reflexivity].
Qed.
