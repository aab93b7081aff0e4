(** C23, C24: path normalisation and the inside/outside decision. *)
From Verif Require Import Base PathModel PathSpec PathProofs.

(** C23. Every path is accepted. *)
Theorem C23_path_total : forall top p, exists g, get_path_elements top p = Some g.
Proof. exact get_path_elements_total. Qed.
Print Assumptions C23_path_total.

(** C23. The elements have no "." and no empty name, and ".." only in front. *)
Theorem C23_path_normal : forall top p g,
  get_path_elements top p = Some g -> normal (path_list g).
Proof. exact path_normal. Qed.
Print Assumptions C23_path_normal.
Example C23_path_normal_ex : exists g,
  get_path_elements (B "/h/p") (B "../a//./b/../c/") = Some g /\
  path_list g = [B ".."; B "a"; B "c"].
Proof. eexists; split; vm_compute; reflexivity. Qed.

(** C23. Walking the elements of a relative path from any directory reaches
    what the path denotes there. *)
Theorem C23_path_relative_denotes : forall top p g,
  get_path_elements top p = Some g -> absolute p = false ->
  pg_root g = false /\ pg_outside g = false /\
  forall cwd, walk cwd (path_list g) = denotes cwd p.
Proof. exact path_relative. Qed.
Print Assumptions C23_path_relative_denotes.
Example C23_path_relative_denotes_ex :
  absolute (B "x/../../y") = false /\
  denotes [B "h"; B "p"] (B "x/../../y") = [B "h"; B "y"].
Proof. vm_compute; split; reflexivity. Qed.

(** C23. The same for absolute paths outside of the project. *)
Theorem C23_path_outside_denotes : forall top p g,
  get_path_elements top p = Some g -> pg_outside g = true ->
  absolute p = true /\ walk [] (path_list g) = denotes [] p.
Proof. exact path_outside. Qed.
Print Assumptions C23_path_outside_denotes.
Example C23_path_outside_denotes_ex : exists g,
  get_path_elements (B "/h/p") (B "/usr/../etc/x") = Some g /\ pg_outside g = true.
Proof. eexists; split; vm_compute; reflexivity. Qed.

(** C23. Redundant separators and "." do not matter. *)
Theorem C23_path_double_separator : forall top p q,
  get_path_elements top (p ++ B "//" ++ q) = get_path_elements top (p ++ B "/" ++ q).
Proof. exact path_double_sep. Qed.
Print Assumptions C23_path_double_separator.

Theorem C23_path_dot : forall top p q,
  get_path_elements top (p ++ B "/./" ++ q) = get_path_elements top (p ++ B "/" ++ q).
Proof. exact path_dot. Qed.
Print Assumptions C23_path_dot.

(** C33. A path is hidden iff one of its elements is an ignored name. *)
Theorem C33_path_hidden : forall top p g, get_path_elements top p = Some g ->
  (pg_hidden g = true <->
   exists e, In e (path_list g) /\ e <> B ".." /\ In e ignored_names).
Proof. exact path_hidden. Qed.
Print Assumptions C33_path_hidden.
Example C33_path_hidden_ex :
  (exists g, get_path_elements (B "/h/p") (B "a/.git/b") = Some g /\ pg_hidden g = true) /\
  (exists g, get_path_elements (B "/h/p") (B "a/.gitignore") = Some g /\ pg_hidden g = false).
Proof. split; eexists; split; vm_compute; reflexivity. Qed.

(** C24, the full statement, would be:
      absolute p -> (pg_outside g = false <-> inside (canon names) p).
    Both directions fail. *)
Theorem C24_inside_iff_prefix_refuted :
  exists names p g, Forall plain names /\ absolute p = true /\
    get_path_elements (canon names) p = Some g /\
    pg_outside g = false /\ ~ inside (canon names) p.
Proof.
  exists [B "foo"; B "barbaz"], (B "/foo/bar/baz/secret").
  eexists. split; [|split; [reflexivity|split; [vm_compute; reflexivity|split; [reflexivity|]]]].
  - repeat constructor; try discriminate; vm_compute; intuition discriminate.
  - intros [rest H]; vm_compute in H; discriminate.
Qed.
Print Assumptions C24_inside_iff_prefix_refuted.

Theorem C24_inside_missed_refuted :
  exists names p g, Forall plain names /\ absolute p = true /\
    get_path_elements (canon names) p = Some g /\
    pg_outside g = true /\ inside (canon names) p.
Proof.
  exists [B "home"; B "proj"], (B "/../home/proj/x").
  eexists. split; [|split; [reflexivity|split; [vm_compute; reflexivity|split; [reflexivity|]]]].
  - repeat constructor; try discriminate; vm_compute; intuition discriminate.
  - exists [B "x"]; vm_compute; reflexivity.
Qed.
Print Assumptions C24_inside_missed_refuted.

(** C24, what holds: paths inside are recognised, with the right remainder,
    unless they climb above the root directory. *)
Theorem C24_inside_complete_partial : forall names p g, Forall plain names ->
  absolute p = true -> inside (canon names) p ->
  get_path_elements (canon names) p = Some g -> ~ climbs p ->
  pg_outside g = false /\ denotes [] p = names ++ path_list g.
Proof. exact inside_complete. Qed.
Print Assumptions C24_inside_complete_partial.
Example C24_inside_complete_ex :
  inside (canon [B "h"; B "p"]) (B "/h/x/../p//a/b") /\ ~ climbs (B "/h/x/../p//a/b").
Proof.
  split; [exists [B "a"; B "b"]; vm_compute; reflexivity|].
  intros [l1 [l2 [H W]]]. vm_compute in H.
  destruct l1 as [|x1 [|x2 [|x3 [|x4 [|x5 [|x6 [|x7 l1]]]]]]]; try discriminate H;
  injection H; intros; subst; vm_compute in W; discriminate.
Qed.

(** C24, what holds: a path treated as inside is inside, unless one of its
    components is a proper prefix of a component of the top directory. *)
Theorem C24_inside_sound_partial : forall names p g, Forall plain names ->
  absolute p = true -> get_path_elements (canon names) p = Some g ->
  pg_outside g = false ->
  (forall e c, In e (components p) -> In c names -> ~ proper_prefix e c) ->
  inside (canon names) p /\ denotes [] p = names ++ walk [] (path_list g).
Proof. exact inside_sound. Qed.
Print Assumptions C24_inside_sound_partial.
Example C24_inside_sound_ex : exists g,
  get_path_elements (canon [B "h"; B "p"]) (B "/h/p/a/b") = Some g /\ pg_outside g = false /\
  (forall e c, In e (components (B "/h/p/a/b")) -> In c [B "h"; B "p"] -> ~ proper_prefix e c).
Proof.
  eexists; split; [vm_compute; reflexivity|split; [reflexivity|]].
  intros e c He Hc [r [Hr E]]. vm_compute in He, Hc.
  repeat (destruct He as [<-|He]); try contradiction;
  repeat (destruct Hc as [<-|Hc]); try contradiction; cbn in E;
  try discriminate E; injection E as <-; apply Hr; reflexivity.
Qed.
