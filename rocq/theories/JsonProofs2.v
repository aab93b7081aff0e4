(** The file of one variant, and the files of all. *)
From Verif Require Import Base EntryModel EntrySpec EntryProofs GraphModel ExpandModel GenProofs2 JsonModel JsonSpec JsonProofs.

(** ** Paths *)
Definition all_c (bad : ascii -> bool) (s : bytes) : Prop := existsb bad s = false.
Lemma all_c_app bad a b : all_c bad a -> all_c bad b -> all_c bad (a ++ b).
Proof. unfold all_c. intros A C. rewrite existsb_app, A, C. reflexivity. Qed.
Lemma slashed_c bad cs : bad "/"%char = false -> Forall (all_c bad) cs -> all_c bad (slashed cs).
Proof.
  intros Sl. induction 1 as [|c cs Hc Hcs IH]; [reflexivity|]. destruct cs as [|d cs]; [exact Hc|].
  change (all_c bad (c ++ "/"%char :: slashed (d :: cs))). apply all_c_app; [exact Hc|]. unfold all_c. cbn [existsb]. rewrite Sl. exact IH.
Qed.
Lemma relative_c bad T top member fuel s e r : bad "/"%char = false -> bad "."%char = false -> directory_tree T top member -> member e -> (forall d, member d -> all_c bad (name T d)) ->
  get_relative_dir T fuel s e = Some r -> all_c bad r.
Proof.
  intros Sl Dot D M Q H. unfold get_relative_dir, get_relative_dir_sep in H. destruct (full_path T fuel s) as [a|] eqn:Fa; [|discriminate].
  destruct (full_path T fuel e) as [b|] eqn:Fb; [|discriminate]. injection H as <-. unfold relative_text. destruct (strip_common a b) as [u d] eqn:St.
  assert (Forall (all_c bad) (map (fun _ => B "..") u ++ map (name T) d)) as F.
  { apply Forall_app. split; apply Forall_forall; intros x X; apply in_map_iff in X as [y [<- Y]].
    - unfold all_c. cbn [B list_ascii_of_string existsb]. rewrite Dot. reflexivity.
    - apply Q. eapply full_members; eauto. eapply strip_sub; eauto. }
  destruct (map (fun _ => B "..") u ++ map (name T) d) as [|n l] eqn:E; [unfold all_c; cbn [B list_ascii_of_string existsb]; rewrite Dot; reflexivity|].
  rewrite append_slashed. apply slashed_c; assumption.
Qed.

Section Files.
Variable T : tree. Variable fuel top : nat. Variable top_path : bytes. Variable kind_of : nat -> kind.
Variable flags : nat -> bytes. Variable variant_of : nat -> nat. Variable srcdir : nat -> nat.
Variable commands : list nat. Variable stickies : nat -> list nat.
Variable member : nat -> Prop.
Hypothesis D : directory_tree T top member.
Hypothesis MTop : member top.
Hypothesis TopOk : no_control top_path.
Hypothesis Names : forall d, member d -> no_control (name T d) /\ no_escape (name T d).

Notation E := (exported kind_of flags variant_of stickies).
Notation files := (compiledb T fuel top top_path kind_of flags variant_of srcdir commands stickies).
Notation create := (create_compile_db T fuel top top_path kind_of flags variant_of srcdir commands stickies).

Definition good_pair (c f : nat) : Prop :=
  no_control (name T c) /\ member f /\ exists par, parent T c = Some par /\ member (srcdir par).

Lemma row_ok c f x : good_pair c f -> row T fuel top top_path srcdir c f x -> ok_entry x.
Proof.
  intros [Nc [Mf [par [P Ms]]]] [par' [rel [p [P' [-> [R1 R2]]]]]]. assert (par' = par) as -> by congruence. cbn [ok_entry].
  assert (no_control rel) as Hrel.
  { destruct (srcdir par =? top); [rewrite R1; reflexivity|]. eapply (relative_c control); [reflexivity|reflexivity|exact D|exact Ms|intros d0 Md0; apply (Names d0 Md0)|exact R1]. }
  split; [|split; [exact Nc|split]].
  - apply (all_c_app control); [exact TopOk|]. apply (all_c_app control (B "/")); [reflexivity|exact Hrel].
  - eapply (relative_c control); [reflexivity|reflexivity|exact D|exact Mf|intros d0 Md0; apply (Names d0 Md0)|exact R2].
  - eapply (relative_c (fun c => (c =?c """"%char) || (c =?c "\"%char))); [reflexivity|reflexivity|exact D|exact Mf|intros d0 Md0; apply (Names d0 Md0)|exact R2].
Qed.

Lemma create_reads v r : (forall c f, In (c, f) (E v commands) -> good_pair c f) -> create true v = Written r ->
  exists xs, Forall2 (is_row T fuel top top_path srcdir) (E v commands) xs /\ reads_as (fst r) (JArray (map as_json xs)) /\ snd r = after true xs.
Proof.
  intros G H. unfold create_compile_db in H. destruct (print_commands _ _ _ _ _ _ _ _ _ _ _ _) as [p| |] eqn:Pc; try discriminate. cbn [bind] in H.
  apply print_commands_rows in Pc as [xs [F ->]]. cbn [fst snd] in H. injection H as <-. exists xs. split; [exact F|]. split; [|reflexivity].
  cbn [fst]. apply document_joined. clear - F G TopOk Names D. induction F as [|[c f] x l xs R F IH]; constructor.
  - eapply row_ok; [apply G; left; reflexivity|exact R].
  - apply IH. intros c' f' I. apply G. right. exact I.
Qed.
Lemma files_app vs1 : forall first v vs2 fs, files first (vs1 ++ v :: vs2) = Written fs -> first = true -> (forall u, In u vs1 -> E u commands = []) ->
  exists r, create true v = Written r /\ exists f1 f2, fs = f1 ++ (v, fst r) :: f2 /\ map fst f1 = vs1 /\ map fst f2 = vs2.
Proof.
  assert (forall vs first fs, files first vs = Written fs -> map fst fs = vs) as Hm.
  { clear. induction vs as [|v vs IH]; intros first fs H; cbn [compiledb] in H; [injection H as <-; reflexivity|]. destruct (create first v) as [p| |]; try discriminate. cbn [bind] in H.
    destruct (files (snd p) vs) as [q| |] eqn:F; try discriminate. cbn [bind] in H. injection H as <-. cbn [map fst]. f_equal. eapply IH, F. }
  induction vs1 as [|u vs1 IH]; intros first v vs2 fs H -> Z; cbn [compiledb app] in H.
  - destruct (create true v) as [p| |] eqn:C; try discriminate. cbn [bind] in H. destruct (files (snd p) vs2) as [q| |] eqn:F; try discriminate. cbn [bind] in H. injection H as <-.
    exists p. split; [reflexivity|]. exists [], q. split; [reflexivity|]. split; [reflexivity|eapply Hm, F].
  - destruct (create true u) as [p| |] eqn:C; try discriminate. cbn [bind] in H. destruct (files (snd p) (vs1 ++ v :: vs2)) as [q| |] eqn:F; try discriminate. cbn [bind] in H. injection H as <-.
    apply IH in F as [r [Cr [f1 [f2 [-> [M1 M2]]]]]].
    + exists r. split; [exact Cr|]. exists ((u, fst p) :: f1), f2. split; [reflexivity|]. split; [cbn [map fst]; f_equal; exact M1|exact M2].
    + unfold create_compile_db in C. destruct (print_commands _ _ _ _ _ _ _ _ _ _ _ _) as [w| |] eqn:Pc; try discriminate. cbn [bind] in C. injection C as <-. cbn [snd].
      apply print_commands_rows in Pc as [xs [X ->]]. rewrite (Z u (or_introl eq_refl)) in X. inversion X. reflexivity.
    + intros x X. apply Z. right. exact X.
Qed.

(** What is exported. *)
Lemma exported_iff v c f : In (c, f) (E v commands) <->
  In c commands /\ In "j"%char (flags c) /\ variant_of c = v /\ In f (stickies c) /\ (kind_of f = KFile \/ kind_of f = KGenerated).
Proof.
  unfold exported. rewrite in_flat_map. split.
  - intros [x [Hx Y]]. apply filter_In in Hx as [I C]. apply andb_prop in C as [C1 C2]. apply in_map_iff in Y as [y [Q Y]]. injection Q as -> ->. apply filter_In in Y as [Y K].
    apply Nat.eqb_eq in C2. apply existsb_exists in C1 as [j [Ij Ej]]. apply Ascii.eqb_eq in Ej as <-. split; [exact I|]. split; [exact Ij|]. split; [exact C2|]. split; [exact Y|].
    destruct (kind_of f); try discriminate; auto.
  - intros [I [J [V [Y K]]]]. exists c. split.
    + apply filter_In. split; [exact I|]. rewrite V, Nat.eqb_refl, andb_true_r. apply existsb_exists. exists "j"%char. split; [exact J|reflexivity].
    + apply in_map. apply filter_In. split; [exact Y|]. destruct K as [-> | ->]; reflexivity.
Qed.
Lemma exported_nodup v : NoDup commands -> (forall c, NoDup (stickies c)) -> NoDup (E v commands).
Proof.
  clear. intros N S. unfold exported. induction N as [|c l I N IH]; cbn [filter flat_map]; [constructor|].
  destruct (_ && _); [|exact IH]. cbn [flat_map]. induction (NoDup_filter (fun i => is_file (kind_of i)) (S c)) as [|f fs If Nf IHf]; [exact IH|].
  cbn [map app]. constructor; [|exact IHf]. rewrite in_app_iff. intros [X|X].
  - apply in_map_iff in X as [y [Q X]]. injection Q as ->. exact (If X).
  - apply in_flat_map in X as [x [X1 X2]]. apply in_map_iff in X2 as [y [Q _]]. injection Q as -> ->. apply filter_In in X1 as [X1 _]. exact (I X1).
Qed.
End Files.

(** ** The files are written *)
Section Enough.
Variable T : tree. Variable top : nat. Variable top_path : bytes. Variable kind_of : nat -> kind.
Variable flags : nat -> bytes. Variable variant_of : nat -> nat. Variable srcdir : nat -> nat.
Variable commands : list nat. Variable stickies : nat -> list nat.
Variable member : nat -> Prop.
Hypothesis D : directory_tree T top member.
Hypothesis MTop : member top.
Definition has_plain (s : bytes) : Prop := exists c, In c s /\ c <> dquote /\ c <> backslash.
Lemma print_json_plain s : has_plain s -> exists t, print_json s = Written t.
Proof.
  intros [c [I [N1 N2]]]. exists (escape s). apply print_json_ok. apply existsb_exists. exists c. split; [exact I|].
  apply negb_true_iff, orb_false_iff. split; apply Ascii.eqb_neq; assumption.
Qed.
Definition writable (c f : nat) : Prop := has_plain (name T c) /\ member f /\ exists par, parent T c = Some par /\ member (srcdir par).

Lemma one_written c f : writable c f -> exists n, forall fuel, n < fuel -> forall first, exists r, print_compile_db T fuel top top_path srcdir first c f = Written r.
Proof.
  intros [Pl [Mf [par [P Ms]]]]. destruct (relative_enough T top member top (srcdir par) D MTop Ms) as [n Hn]. destruct (relative_enough T top member (srcdir par) f D Ms Mf) as [m Hm].
  exists (n + m). intros fuel L first. specialize (Hn fuel ltac:(lia)). specialize (Hm fuel ltac:(lia)). unfold print_compile_db. rewrite P. cbv zeta.
  assert (exists rel, (if srcdir par =? top then Written [] else relative T fuel top (srcdir par)) = Written rel) as [rel ->].
  { unfold relative. destruct (srcdir par =? top); [eauto|]. destruct (get_relative_dir T fuel top (srcdir par)); [eauto|contradiction]. }
  cbn [bind]. destruct (print_json_plain (top_path ++ B "/" ++ rel)) as [d ->].
  { exists "/"%char. split; [apply in_or_app; right; left; reflexivity|split; discriminate]. }
  cbn [bind]. destruct (print_json_plain (name T c) Pl) as [tx ->]. cbn [bind]. unfold relative. destruct (get_relative_dir T fuel (srcdir par) f); [|contradiction]. cbn [bind]. eauto.
Qed.
Lemma inputs_written c ins : (forall f, In f ins -> is_file (kind_of f) = true -> writable c f) ->
  exists n, forall fuel, n < fuel -> forall first, exists r, print_inputs T fuel top top_path kind_of srcdir first c ins = Written r.
Proof.
  induction ins as [|i ins IH]; intros W; [exists 0; cbn [print_inputs]; eauto|]. destruct IH as [n Hn]; [intros f I; apply W; right; exact I|].
  destruct (is_file (kind_of i)) eqn:K.
  - destruct (one_written c i (W i (or_introl eq_refl) K)) as [m Hm]. exists (n + m). intros fuel L first. cbn [print_inputs]. rewrite K.
    destruct (Hm fuel ltac:(lia) first) as [p ->]. cbn [bind]. destruct (Hn fuel ltac:(lia) (snd p)) as [q ->]. cbn [bind]. eauto.
  - exists n. intros fuel L first. cbn [print_inputs]. rewrite K. apply Hn, L.
Qed.
Lemma commands_written v cmds : (forall c f, In c cmds -> is_compiledb flags c = true -> variant_of c = v -> In f (stickies c) -> is_file (kind_of f) = true -> writable c f) ->
  exists n, forall fuel, n < fuel -> forall first, exists r, print_commands T fuel top top_path kind_of flags variant_of srcdir stickies first v cmds = Written r.
Proof.
  induction cmds as [|c cmds IH]; intros W; [exists 0; cbn [print_commands]; eauto|]. destruct IH as [n Hn]; [intros x f I; apply W; right; exact I|].
  destruct (is_compiledb flags c) eqn:J; [destruct (variant_of c =? v) eqn:V|].
  - apply Nat.eqb_eq in V. destruct (inputs_written c (stickies c)) as [m Hm]; [intros f I K; exact (W c f (or_introl eq_refl) J V I K)|]. exists (n + m). intros fuel L first.
    cbn [print_commands]. rewrite J. cbn [negb]. subst v. rewrite Nat.eqb_refl. cbn [negb]. destruct (Hm fuel ltac:(lia) first) as [p ->]. cbn [bind]. destruct (Hn fuel ltac:(lia) (snd p)) as [q ->]. cbn [bind]. eauto.
  - exists n. intros fuel L first. cbn [print_commands]. rewrite J, V. cbn [negb]. apply Hn, L.
  - exists n. intros fuel L first. cbn [print_commands]. rewrite J. cbn [negb]. apply Hn, L.
Qed.
Lemma files_written vs : (forall v c f, In v vs -> In (c, f) (exported kind_of flags variant_of stickies v commands) -> writable c f) ->
  exists n, forall fuel, n < fuel -> forall first, exists fs, compiledb T fuel top top_path kind_of flags variant_of srcdir commands stickies first vs = Written fs.
Proof.
  induction vs as [|v vs IH]; intros W; [exists 0; cbn [compiledb]; eauto|]. destruct IH as [n Hn]; [intros u c f I; apply W; right; exact I|].
  destruct (commands_written v commands) as [m Hm].
  { intros c f I J V F K. apply (W v); [left; reflexivity|]. apply exported_iff. split; [exact I|]. unfold is_compiledb in J. apply existsb_exists in J as [j [Ij Ej]]. apply Ascii.eqb_eq in Ej as <-.
    split; [exact Ij|]. split; [exact V|]. split; [exact F|]. destruct (kind_of f); try discriminate; auto. }
  exists (n + m). intros fuel L first. cbn [compiledb]. unfold create_compile_db. destruct (Hm fuel ltac:(lia) first) as [p ->]. cbn [bind].
  destruct (Hn fuel ltac:(lia) (snd p)) as [q Q]. cbn [snd]. rewrite Q. cbn [bind]. eauto.
Qed.
End Enough.
