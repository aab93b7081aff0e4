(** C40: tup's section of a .gitignore file. *)
From Verif Require Import Base GitModel GitSpec GitProofs.

(** The user's part stays as it is, and what follows depends only on the names and on whether
    there is a user's part. *)
Theorem C40_users_part top names old u : users_part old u -> exists sec,
  gitignore top names old = u ++ marker ++ sec /\
  (forall old' u', users_part old' u' -> (u' = [] <-> u = []) -> gitignore top names old' = u' ++ marker ++ sec).
Proof.
  intros H. exists (section top names (isnil u)). split; [apply gitignore_part, H|]. intros old' u' H' E. rewrite (gitignore_part _ _ _ _ H').
  replace (isnil u') with (isnil u); [reflexivity|]. destruct u, u'; try reflexivity; exfalso; [discriminate (proj2 E eq_refl)|discriminate (proj1 E eq_refl)].
Qed.
Print Assumptions C40_users_part.

(** Writing it again changes nothing, and after the names have changed it is as if written for
    the first time. *)
Theorem C40_again top names names' old u : users_part old u ->
  gitignore top names (Some (gitignore top names' old)) = gitignore top names old /\ gitignore top names (Some (gitignore top names old)) = gitignore top names old.
Proof.
  intros H. assert (X : forall l, gitignore top names (Some (gitignore top l old)) = gitignore top names old); [|auto].
  intros l. rewrite (gitignore_part _ _ _ u (kept_section top l old u H)). symmetry. apply gitignore_part, H.
Qed.
Print Assumptions C40_again.

(** Taking the section out gives back the user's part, and a file without one is deleted. *)
Theorem C40_removed top names old u : users_part old u ->
  remove_tup_gitignore (gitignore top names old) = match u with [] => None | _ => Some u end.
Proof. intros H. apply remove_part, kept_section, H. Qed.
Print Assumptions C40_removed.

(** Whatever the bytes: text before the first marker is never lost, neither in writing the
    section nor in taking it out. *)
Theorem C40_text_kept top names u s : ~ occurs marker u -> exists t, gitignore top names (Some (u ++ s)) = u ++ t.
Proof. apply kept_any. Qed.
Theorem C40_text_kept_removed u s : ~ occurs marker u -> whole u -> u <> [] -> exists t, remove_tup_gitignore (u ++ s) = Some (u ++ t).
Proof.
  intros N W Ne. unfold remove_tup_gitignore. rewrite (copy_app _ _ _ (copy_clean _ N)), (run_whole _ W N). destruct (copy 0 s) as [a f] eqn:E. cbn [fst snd]. destruct f.
  - destruct (copy_true s 0 a ltac:(unfold tg_str_len; lia) E) as [_ [x X]]. cbn [firstn app] in X. subst a. rewrite !app_length. change (length tg_str) with tg_str_len. rewrite Nat.add_assoc, Nat.add_sub.
    rewrite app_assoc, <- app_length, firstn_app, firstn_all, Nat.sub_diag, app_nil_r. exists x. destruct u; [congruence|reflexivity].
  - exists a. destruct u; [congruence|reflexivity].
Qed.
Print Assumptions C40_text_kept_removed.

(** The section ignores the generated files and directories and nothing else; the .gitignore
    itself only if all of it is ours. At the top it also has the line for .tup. *)
Theorem C40_ignores top names old u : users_part old u -> (forall n, In n names -> plain n) ->
  exists sec ls, gitignore top names old = u ++ marker ++ sec /\ lines sec ls /\
    (forall x, ignored_by ls x <-> In x names /\ (u <> [] -> x <> B ".gitignore")) /\ (In (B ".tup") ls <-> top = true).
Proof.
  intros H P. exists (section top names (isnil u)), (header_lines top ++ map (fun n => "/"%char :: esc n) (filter (listed (isnil u)) names)).
  split; [apply gitignore_part, H|]. split; [apply section_lines; intros n I J; apply (proj2 (proj1 (P n I) nl J)); reflexivity|]. split.
  - intros x. rewrite ignored_section by exact P. split; intros [A C]; (split; [exact A|]); intros D; apply C; destruct u; [congruence|reflexivity|discriminate D|discriminate].
  - rewrite in_app_iff. split.
    + intros [I|I]; [|apply in_map_iff in I as [n [E _]]; discriminate E]. destruct top; [reflexivity|]. cbn in I. repeat (destruct I as [I|I]; [discriminate I|]). destruct I.
    + intros ->. left. cbn. auto.
Qed.
Print Assumptions C40_ignores.

(** ** Examples *)
Definition mine : bytes := B "*.o" ++ [nl] ++ B "# ## notes" ++ [nl].
Example ex_mine : users_part (Some mine) mine.
Proof.
  constructor; [right; exists (B "*.o" ++ [nl] ++ B "# ## notes"); reflexivity|]. intros H.
  assert (C : copy 0 mine = (mine, false)) by reflexivity. destruct H as [a [b E]]. apply (f_equal (@length _)) in E. rewrite !app_length in E. cbn in E. lia.
Qed.
Example ex_write : gitignore true [B "a.out"; B "x[1]"; B ".gitignore"] (Some mine) =
  mine ++ marker ++ B "##### Lines below automatically generated by Tup." ++ [nl] ++ B "##### Do not edit." ++ [nl] ++ B ".tup" ++ [nl] ++ B "/a.out" ++ [nl] ++ B "/x\[1\]" ++ [nl].
Proof. reflexivity. Qed.
Example ex_plain : forall n, In n [B "a.out"; B "x[1]"; B ".gitignore"] -> plain n.
Proof.
  intros n H. repeat (destruct H as [<-|H]; [split; [intros c I; cbn in I; repeat (destruct I as [<-|I]; [split; [nots|discriminate]|]); destruct I|
    intros [t E]; apply (f_equal (@rev _)) in E; rewrite rev_app_distr in E; discriminate E]|]). destruct H.
Qed.
Example ex_again : gitignore false [B "b"] (Some (gitignore false [B "a"] None)) = marker ++ header ++ B "/b" ++ [nl].
Proof. reflexivity. Qed.

(** ** Where more could be expected *)
(** The last line of a file that does not end in a newline is changed: its pattern is lost, and if
    it ends in # the section is not found again, so that a second one is added with the old one left
    among the user's lines. *)
Theorem C40_last_line_refuted : let f := B "secret" in
  exists ls, lines (gitignore false [] (Some f)) ls /\ ~ In f ls.
Proof.
  cbv zeta. exists [B "secret##### TUP GITIGNORE #####"; B "##### Lines below automatically generated by Tup."; B "##### Do not edit."]. split.
  - apply (ls_cons (B "secret##### TUP GITIGNORE #####")); [nots|]. apply (ls_cons (B "##### Lines below automatically generated by Tup.")); [nots|]. apply (ls_cons (B "##### Do not edit.")); [nots|constructor].
  - intros H. repeat (destruct H as [H|H]; [discriminate H|]). exact H.
Qed.
Theorem C40_again_refuted : let f := B "#emacs#" in
  gitignore false [B "a"] (Some (gitignore false [B "a"] (Some f))) <> gitignore false [B "a"] (Some f) /\
  ignored_by [B "/old"] (B "old") /\ (exists a b, gitignore false [] (Some (gitignore false [B "old"] (Some f))) = a ++ B "/old" ++ [nl] ++ b).
Proof.
  cbv zeta. split; [vm_compute; discriminate|]. split.
  - exists (B "old"). split; [left; reflexivity|]. split; [intros [t E]; apply (f_equal (@rev _)) in E; rewrite rev_app_distr in E; discriminate E|]. repeat (constructor; [nots|]). constructor.
  - exists (B "#emacs#" ++ marker ++ header), (marker ++ header). vm_compute. reflexivity.
Qed.
(** A user's line that ends like the marker is taken for it: the lines below are lost. *)
Theorem C40_lookalike_refuted : let f := B "# not ##### TUP GITIGNORE #####" ++ [nl] ++ B "secret" ++ [nl] in
  gitignore false [] (Some f) = B "# not " ++ marker ++ header.
Proof. reflexivity. Qed.
(** Other characters with a meaning are not escaped: a generated file x* ignores every file that
    begins with x, and a generated a\b is not ignored. *)
Theorem C40_star_refuted : matches (B "x*") (B "xyz") /\ gitignore_line (B "x*") = B "/x*" ++ [nl].
Proof. split; [|reflexivity]. apply m_char; [nots|]. do 2 apply m_more. apply m_none, m_end. Qed.
Theorem C40_backslash_refuted : gitignore_line (B "a\b") = B "/a\b" ++ [nl] /\ ~ matches (B "a\b") (B "a\b").
Proof.
  split; [reflexivity|]. intros M. inversion M as [|? ? ? ? M1| | | |]; subst. inversion M1 as [|? ? ? N| | | |]; subst. apply N. cbn. auto.
Qed.
