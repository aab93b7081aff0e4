(** C66: the change between a build in the source tree and variants. *)
From Verif Require Import Base ModeModel ModeSpec ModeExamples ModeProofs ModeProofs2 ModeProofs5 ModeProofs6.

(** After each update that works, whatever tup.config files were added, changed
    and removed before, with scans and failed updates in between, the generated
    files are those that the Tupfiles make in each directory of the top with a
    tup.config, or in the source tree if there is none: nothing is left of a
    build in another place and nothing is missing. What the user wrote did not
    change. Missing: variants in deeper directories, outputs named like a variant
    and variants that come back in other ways than in [allowed], where it is
    false (below). *)
Theorem C66_outputs_partial V ss t w b n ok w' b' :
  project V ss t -> reach V ss t w b n -> update ok w b = (w', b', true) ->
  (forall g, In g (wgen w') <-> wanted w g) /\
  srcs w' = srcs w /\ wconf w' = wconf w /\ wtup w' = wtup w /\ wextra w' = wextra w.
Proof.
  intros P R E. pose proof (reach_inv V ss t P w b n R) as I.
  pose proof (update_same ok w b) as S. rewrite E in S. cbn [fst] in S. cbv zeta in S. split; [|exact S].
  destruct (update_spec V ss t P ok w b n w' b' true I E) as [A _]. destruct (A eq_refl) as [_ [_ A3]].
  intros g. rewrite (A3 g). destruct S as [S1 [S2 [S3 _]]].
  unfold wanted, variant, no_variants, has_config. rewrite S1, S2, S3. tauto.
Qed.
Print Assumptions C66_outputs_partial.

(** An update works if the commands do, new variants are in empty directories
    and no other file is in its way. *)
Theorem C66_works_partial V ss t w b n ok :
  project V ss t -> reach V ss t w b n -> workable V w b -> (forall g, ok g = true) ->
  exists w' b', update ok w b = (w', b', true).
Proof.
  intros P R F Hok. pose proof (update_works V ss t w b n ok P (reach_inv V ss t P w b n R) F Hok) as H.
  destruct (update ok w b) as [[w' b'] x]. cbn in H. subst x. eauto.
Qed.
Print Assumptions C66_works_partial.

(** The examples. *)
Definition ab (d : path) : Prop := d = va \/ d = vb.
Definition srcs0 : list path := [[]; sub; builds].
Example C66_project : project ab srcs0 outs.
Proof.
  constructor.
  - left. reflexivity.
  - intros s c Hs Hc. cbn in Hs. destruct Hs as [<- |[<- |[<- |[]]]]; cbn in Hc; intuition (subst; reflexivity).
  - intros d [-> | ->]; reflexivity.
  - intros s o. unfold outs. destruct (path_eqb s []) eqn:E1; [|destruct (path_eqb s sub) eqn:E2; [|intros []]].
    + apply path_eqb_eq in E1. subst s. intros [<- |[]]. split; [intros [H|H]; discriminate|cbn; intuition discriminate].
    + apply path_eqb_eq in E2. subst s. intros [<- |[]]. split; [intros [H|H]; discriminate|cbn; intuition discriminate].
Qed.
Definition after_update (wb : world * db) : world * db := fst (update all_ok (fst wb) (snd wb)).
Lemma reach_next V ss t wb n : reach V ss t (fst wb) (snd wb) n -> snd (update all_ok (fst wb) (snd wb)) = true ->
  reach V ss t (fst (after_update wb)) (snd (after_update wb)) quiet_notes.
Proof.
  intros R E. unfold after_update. destruct (update all_ok (fst wb) (snd wb)) as [[w' b'] x] eqn:U. cbn in *. subst x.
  eapply r_update; eauto.
Qed.

(** A build in the source tree, then a variant, which is removed; this is
    scanned, it comes back together with another one, and then an output is
    removed and a Tupfile changes. *)
Definition s1 := after_update (home, init).
Definition s2 := after_update (act (AddConfig va 1) (fst s1), snd s1).
Definition w3 := scanned (act (RmTree va) (fst s2)).
Definition d3 := scan (act (RmTree va) (fst s2)) (snd s2).
Definition s4 := after_update (act (AddConfig vb 2) (act (AddConfig va 2) w3), d3).
Definition w5 := act (Edit sub [B "y.o"]) (act (RmOut (vb, B "prog")) (fst s4)).
Example C66_history :
  reach ab srcs0 outs w5 (snd s4) quiet_notes /\ workable ab w5 (snd s4) /\
  wgen (fst s1) = [(sub, B "x.o"); ([], B "prog")] /\
  wgen (fst s2) = [(va, B "prog"); (va ++ sub, B "x.o")] /\ wgen w3 = [] /\
  (exists w' b', update all_ok w5 (snd s4) = (w', b', true) /\ In (vb ++ sub, B "y.o") (wgen w') /\ ~ In (sub, B "x.o") (wgen w')).
Proof.
  assert (R1 : reach ab srcs0 outs (fst s1) (snd s1) quiet_notes).
  { refine (reach_next ab srcs0 outs (home, init) quiet_notes _ _); [apply r_start|vm_compute; reflexivity]. }
  assert (R2 : reach ab srcs0 outs (fst s2) (snd s2) quiet_notes).
  { refine (reach_next ab srcs0 outs (act (AddConfig va 1) (fst s1), snd s1) _
      (r_op ab srcs0 outs (fst s1) (snd s1) quiet_notes (AddConfig va 1) _ R1
        (a_add ab (fst s1) quiet_notes va 1 (or_intror (or_introl eq_refl)))) _).
    vm_compute; reflexivity. }
  assert (R3 : reach ab srcs0 outs w3 d3 {| away := [va]; gone := [va]; back := [] |}).
  { refine (r_scan ab srcs0 outs (act (RmTree va) (fst s2)) (snd s2) {| away := [va]; gone := []; back := [] |}
      (r_op ab srcs0 outs (fst s2) (snd s2) quiet_notes (RmTree va) _ R2
        (a_tree ab (fst s2) quiet_notes va (or_introl eq_refl) _)) eq_refl).
    replace (srcs (fst s2)) with srcs0 by (vm_compute; reflexivity).
    intros s Hs. cbn in Hs. destruct Hs as [<- |[<- |[<- |[]]]]; reflexivity. }
  assert (R4 : reach ab srcs0 outs (fst s4) (snd s4) quiet_notes).
  { refine (reach_next ab srcs0 outs (act (AddConfig vb 2) (act (AddConfig va 2) w3), d3) _
      (r_op ab srcs0 outs (act (AddConfig va 2) w3) d3 _ (AddConfig vb 2) _
        (r_op ab srcs0 outs w3 d3 _ (AddConfig va 2) _ R3 (a_add ab w3 _ va 2 (or_intror (or_introl eq_refl))))
        (a_add ab (act (AddConfig va 2) w3) _ vb 2 (or_intror (or_intror eq_refl)))) _).
    vm_compute; reflexivity. }
  assert (R5 : reach ab srcs0 outs w5 (snd s4) quiet_notes).
  { refine (r_op ab srcs0 outs (act (RmOut (vb, B "prog")) (fst s4)) (snd s4) quiet_notes (Edit sub [B "y.o"]) quiet_notes
      (r_op ab srcs0 outs (fst s4) (snd s4) quiet_notes (RmOut (vb, B "prog")) quiet_notes R4 (a_out ab (fst s4) quiet_notes (vb, B "prog")))
      (a_edit ab _ quiet_notes sub [B "y.o"] _)).
    replace (srcs (act (RmOut (vb, B "prog")) (fst s4))) with srcs0 by (vm_compute; reflexivity).
    intros o [<- |[]]. split; [intros [H|H]; discriminate|cbn; intuition discriminate]. }
  split; [exact R5|]. split; [|split; [vm_compute; reflexivity|split; [vm_compute; reflexivity|split; [vm_compute; reflexivity|]]]].
  - assert (E1 : wconf w5 = [(vb, 2); (va, 2)]) by (vm_compute; reflexivity).
    assert (E2 : wextra w5 = []) by (vm_compute; reflexivity).
    constructor; rewrite ?E2.
    + intros d [t H] Hn. rewrite E1 in H. left. destruct H as [H|[H|[]]]; injection H as <- _; split; apply (proj1 (mem_In _ _)); vm_compute; reflexivity.
    + intros g d r [].
    + intros s o _ _ [].
  - destruct (update all_ok w5 (snd s4)) as [[w' b'] x] eqn:U.
    assert (A : x = true) by (change x with (snd (w', b', x)); rewrite <- U; vm_compute; reflexivity).
    assert (G : wgen w' = wgen (fst (fst (update all_ok w5 (snd s4))))) by (rewrite U; reflexivity).
    exists w', b'. subst x. split; [reflexivity|]. rewrite G. split.
    + apply (proj1 (fmem_In _ _)). vm_compute. reflexivity.
    + intros H. apply (proj2 (fmem_In _ _)) in H. vm_compute in H. discriminate.
Qed.

(** A variant in a deeper directory that is removed: later updates build in it
    again as well. *)
Definition v1 : path := [B "builds"; B "v1"].
Theorem C66_nested_removed_refuted :
  result [Do (AddConfig v1 1); Upd; Do (RmConfig v1); Upd; Do (Edit sub [B "y.o"]); Upd] =
    ([(sub, B "y.o"); (v1 ++ sub, B "y.o"); ([], B "prog")], [true; true; true]) /\
  let '(w, _, _) := run [Do (AddConfig v1 1); Upd; Do (RmConfig v1); Upd; Do (Edit sub [B "y.o"]); Upd] home init in
  ~ has_config w v1.
Proof. split; [vm_compute; reflexivity|]. vm_compute. intros [t []]. Qed.
Print Assumptions C66_nested_removed_refuted.

(** If it is then created again, only the outputs of the top are built in it, and
    those of the source tree stay. *)
Theorem C66_nested_again_refuted :
  result [Do (AddConfig v1 1); Upd; Do (RmConfig v1); Upd; Do (AddConfig v1 2); Upd] =
    ([(v1, B "prog"); (sub, B "x.o"); ([], B "prog")], [true; true; true]).
Proof. vm_compute; reflexivity. Qed.
Print Assumptions C66_nested_again_refuted.

(** A new variant builds/sub deletes the outputs of a/sub in the other variant. *)
Definition bs : path := [B "builds"; B "sub"].
Theorem C66_nested_new_refuted :
  result [Do (AddConfig va 1); Upd; Do (AddConfig bs 1); Upd] =
    ([(bs, B "prog"); (bs ++ sub, B "x.o"); (va, B "prog")], [true; true]).
Proof. vm_compute; reflexivity. Qed.
Print Assumptions C66_nested_new_refuted.

(** A variant was removed with its directory, this was scanned, and the
    directory comes back without a tup.config: the update works and builds
    nothing, and later ones also build in that directory. *)
Theorem C66_back_empty_refuted :
  let h := [Do (AddConfig va 1); Upd; Do (RmTree va); Scan; Do (AddConfig va 3); Do (RmConfig va); Upd] in
  result h = ([], [true; true]) /\
  result (h ++ [Do (Edit sub [B "y.o"]); Upd]) = ([(sub, B "y.o"); (va ++ sub, B "y.o")], [true; true; true]).
Proof. split; vm_compute; reflexivity. Qed.
Print Assumptions C66_back_empty_refuted.

(** It comes back with its tup.config, but is scanned before the update: the
    outputs of the sub-directories are missing. *)
Theorem C66_back_scanned_refuted :
  result [Do (AddConfig va 1); Upd; Do (RmTree va); Scan; Do (AddConfig va 3); Scan; Upd] =
    ([(va, B "prog")], [true; true]).
Proof. vm_compute; reflexivity. Qed.
Print Assumptions C66_back_scanned_refuted.

(** An output with the name of another variant is lost when that one is removed. *)
Theorem C66_output_name_refuted :
  result [Do (AddConfig va 1); Do (AddConfig vb 1); Do (Edit [] [B "b"]); Upd; Do (RmConfig vb); Upd] =
    ([(va ++ sub, B "x.o")], [true; true]).
Proof. vm_compute; reflexivity. Qed.
Print Assumptions C66_output_name_refuted.
