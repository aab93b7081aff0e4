(** C64: the directories of variants mirror the source tree. *)
From Verif Require Import Base DbModel VariantModel VariantSpec VariantProofs VariantProofs2 VariantProofs3 VariantProofs4 VariantProofs5 VariantExamples.

(** After the flagged directories were gone through:
    - each flagged directory of the source tree will be parsed, and in every
      variant it has a directory at the same path that refers to it, is on the
      disk and will be parsed too;
    - each flagged directory of a variant that lost its source directory is gone,
      with all that was in it, and will not be parsed;
    - nothing in the source tree changed;
    - nothing else in the variants changed, or was deleted. *)
Theorem C64_mirrors_partial top variants fuel n flagged r k s :
  project_ok r top variants k -> not_replaced r top variants flagged -> create_dirs top variants fuel n flagged r k = Some s ->
  (forall x, In x flagged -> source_dir r top variants x ->
     In x (plist s) /\ forall v, In v variants -> exists m, mirrors (tbl s) top v x m /\ In m (plist s) /\ forall nx d, get (tbl s) m = Some nx -> up nx = Some d -> In (d, nm nx) (disk s)) /\
  (forall x, In x flagged -> stale r top variants x -> cleared r s x /\ ~ In x (plist s)) /\
  (forall y m, get r y = Some m -> in_source r variants y -> get (tbl s) y = Some m) /\
  (forall y m, get r y = Some m -> (forall p, up m = Some p -> isdir r p) -> (forall z, In z flagged -> stale r top variants z -> ~ inside r z y) ->
     (forall v a, In v variants -> in_source r variants a -> isdir r a -> ~ twin r top v a y) ->
     get (tbl s) y = Some m /\ forall d, up m = Some d -> In (d, nm m) k -> In (d, nm m) (disk s)).
Proof.
  intros Pr Nr H. destruct (stages r top variants k flagged fuel n s Pr Nr H) as [s1 [I [V [Gd E]]]]. split; [|split; [|split]].
  - intros x Fx Sx. exact (mirrored r top variants k flagged s Pr Nr s1 I V x Fx Sx).
  - intros x Fx St. exact (removed r top variants k flagged s Pr Nr s1 I V x Gd E Fx St).
  - intros y m G Sy. exact (source_kept r top variants k flagged s Pr s1 I V y m G Sy).
  - intros y m G Hp Hz Ht. exact (rest_kept r top variants k flagged s Pr s1 I V y m G Hp Hz Ht).
Qed.
Print Assumptions C64_mirrors_partial.
Example C64_mirrors_case : project_ok ex_tbl 1 [2; 3] ex_disk /\ not_replaced ex_tbl 1 [2; 3] ex_flagged /\ create_dirs 1 [2; 3] 20 20 ex_flagged ex_tbl ex_disk = Some ex_end /\
  Forall (source_dir ex_tbl 1 [2; 3]) [5; 6] /\ Forall (stale ex_tbl 1 [2; 3]) [8; 10; 11] /\ In 5 ex_flagged /\ In 11 ex_flagged.
Proof. destruct ex_ok as [A [C D]]. destruct ex_flags as [E F]. refine (conj A (conj C (conj D (conj E (conj F (conj _ _)))))); cbn; auto 10. Qed.

(** Making the directory of one source directory in one variant: it and those it
    is in get one, what was there before at another path stays as it was. *)
Theorem C64_one_dir top base fuel t s m s' :
  tree_ok (tbl s) top -> (forall x n p m, get (tbl s) x = Some n -> ty n = TDir -> up n = Some p -> get (tbl s) p = Some m -> ty m = TDir) ->
  isdir (tbl s) base -> isdir (tbl s) t -> ~ inside (tbl s) base t -> get_rel fuel base t s = Some (m, s') ->
  mirrors (tbl s') top base t m /\ tree_ok (tbl s') top /\
  (forall y n, get (tbl s) y = Some n -> ~ inside (tbl s) base y -> get (tbl s') y = Some n) /\
  (forall y n, get (tbl s) y = Some n -> (forall p, up n = Some p -> isdir (tbl s) p) -> (forall a, inside (tbl s) a t -> a <> top -> ~ twin (tbl s) top base a y) -> get (tbl s') y = Some n) /\
  (forall b, In b (disk s) -> In b (disk s')).
Proof.
  intros K Dr Db Dt Nb H. destruct (get_rel_spec top base fuel t s m s' K Dr Db Dt Nb H) as [[R1 R2 R3 Rg R4 R5 R6 R7 R8 R9] _].
  split; [exact R5|]. split; [exact R1|]. split; [exact R7|]. split; [|exact Rg]. intros y n G Hp Ht.
  destruct (R6 y n G) as [E|[a [Ia [Na [Tw _]]]]]; [intros n1 p G1 U; assert (n1 = n) as -> by congruence; exact (Hp p U)|exact E|]. exfalso. exact (Ht a Ia Na Tw).
Qed.
Print Assumptions C64_one_dir.
Example C64_one_dir_case : exists m s', get_rel 20 3 6 {| tbl := ex_tbl; disk := ex_disk; plist := []; removing := [] |} = Some (m, s') /\ rel (tbl s') m = [B "."; B "fast"; B "src"; B "lib"].
Proof. eexists. eexists. split; vm_compute; reflexivity. Qed.

(** If the path of a removed directory is that of a renamed one, the directory of
    the variant is taken for the renamed directory and then removed: that has no
    directory in the variant, and is not parsed for it. *)
Theorem C64_replaced_refuted : exists r top variants flagged k s x v,
  project_ok r top variants k /\ create_dirs top variants 20 20 flagged r k = Some s /\
  In x flagged /\ source_dir r top variants x /\ In v variants /\ (forall m, ~ mirrors (tbl s) top v x m) /\ (forall m, ~ twin (tbl s) top v x m) /\ plist s = [x].
Proof.
  exists rep_tbl, 1, [2], [6; 5; 4], (names rep_tbl), rep_end, 4, 2. assert (forall m, ~ twin (tbl rep_end) 1 2 4 m) as No.
  { intros m Tw. assert (tbl rep_end = [(1, root); (2, dir 1 (B "build") (Src 1)); (4, dir 1 (B "a") NoSrc)]) as E by (vm_compute; reflexivity). rewrite E in Tw.
    inversion Tw as [E1 E2|p q a1 x1 n1 m1 Hp Ga Ua Gx Ux En E1 E2]. cbn in Ga. injection Ga as <-. injection Ua as <-. inversion Hp as [E3 E4|p' q' a2 x2 n2 m2 Hp' Ga' Ua' Gx' Ux' En' E3 E4]; [|cbn in Ga'; injection Ga' as <-; discriminate].
    subst q. cbn in Gx. destruct (m =? 1); [injection Gx as <-; discriminate|]. destruct (m =? 2); [injection Gx as <-; discriminate|]. destruct (m =? 4); [injection Gx as <-; discriminate|discriminate]. }
  split; [apply ok_sound; vm_compute; reflexivity|]. split; [vm_compute; reflexivity|]. split; [cbn; auto|]. split; [split; [apply source_iff; vm_compute; reflexivity|eexists; split; [vm_compute; reflexivity|split; reflexivity]]|].
  split; [left; reflexivity|]. split; [|split; [exact No|vm_compute; reflexivity]]. intros m M. exact (No m (mirrors_twin _ _ _ _ _ M)).
Qed.
Print Assumptions C64_replaced_refuted.

(** A directory that was moved but kept its name keeps its old directory in the
    variant: it stays on the disk and is parsed although no source directory has
    its path. *)
Theorem C64_moved_refuted : exists r top variants flagged k s x y v,
  project_ok r top variants k /\ not_replaced r top variants flagged /\ create_dirs top variants 20 20 flagged r k = Some s /\
  In v variants /\ inside r v x /\ In x flagged /\ In y flagged /\ source_dir r top variants y /\
  (exists n, get (tbl s) x = Some n /\ ty n = TDir /\ srcid n = Src y /\ exists d, up n = Some d /\ In (d, nm n) (disk s)) /\ In x (plist s) /\ ~ twin (tbl s) top v y x.
Proof.
  exists mov_tbl, 1, [2], [8; 7; 6; 5; 4; 3], (names mov_tbl), mov_end, 8, 5, 2.
  split; [apply ok_sound; vm_compute; reflexivity|]. split; [apply not_replaced_sound; vm_compute; reflexivity|]. split; [vm_compute; reflexivity|]. split; [left; reflexivity|].
  split; [apply inside_iff; vm_compute; reflexivity|]. split; [cbn; auto|]. split; [cbn; auto 10|]. split; [split; [apply source_iff; vm_compute; reflexivity|eexists; split; [vm_compute; reflexivity|split; reflexivity]]|].
  split; [eexists; split; [vm_compute; reflexivity|]; split; [reflexivity|]; split; [reflexivity|]; eexists; split; [reflexivity|vm_compute; auto 10]|]. split; [vm_compute; auto 10|].
  intros Tw. apply (twin_sound (tbl mov_end) 1 2 ltac:(vm_compute; reflexivity) 9 5 8 ltac:(lia)) in Tw. vm_compute in Tw. discriminate.
Qed.
Print Assumptions C64_moved_refuted.

(** If a command made a directory for its outputs in the variant's directory of a
    source directory, that source directory can not be removed: every update
    fails. *)
Theorem C64_generated_dir_refuted : exists r top variants flagged k x,
  project_ok r top variants k /\ not_replaced r top variants flagged /\ In x flagged /\ stale r top variants x /\
  (forall b, In b k -> exists y n, get r y = Some n /\ b = (match up n with Some d => d | None => y end, nm n)) /\
  forall fuel n, create_dirs top variants fuel n flagged r k = None.
Proof.
  exists gen_tbl, 1, [2], [5], (names gen_tbl), 5. split; [apply ok_sound; vm_compute; reflexivity|]. split; [apply not_replaced_sound; vm_compute; reflexivity|]. split; [left; reflexivity|].
  split; [apply stale_iff; vm_compute; reflexivity|]. split; [|exact gen_fails].
  intros b I. vm_compute in I. destruct I as [<-|[<-|[<-|[<-|[]]]]]; [exists 2|exists 5|exists 6|exists 7]; eexists; (split; [vm_compute; reflexivity|reflexivity]).
Qed.
Print Assumptions C64_generated_dir_refuted.
