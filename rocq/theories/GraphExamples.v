(** Concrete databases for the graph theorems. *)
From Verif Require Import Base ExecModel ExecSpec GraphModel GraphSpec.

(** A source file 1 used by command 2, which makes 3 and 4; command 5 makes 6
    from 3; an unrelated source 7 used by command 8, which makes 9. *)
Definition xkind (n : id) : kind :=
  match n with 0 => KRoot | 1 | 7 => KFile | 2 | 5 | 8 => KCmd | 3 | 4 | 6 | 9 => KGenerated | _ => KOther end.
Definition xlinks (n : id) : list id :=
  match n with 1 => [2] | 2 => [3; 4] | 3 => [5] | 5 => [6] | 7 => [8] | 8 => [9] | _ => [] end.
Definition xinputs (n : id) : list id := match n with 2 => [1] | 5 => [3] | 8 => [7] | _ => [] end.
Definition none (_ : id) : list id := [].
Definition no (_ : id) : bool := false.
Definition xuniverse := [1; 2; 3; 4; 5; 6; 7; 8; 9].

Lemma xnext_lt a b : next xkind xlinks none a b -> In b (xlinks a).
Proof. intros [H|[_ []]]. exact H. Qed.
Lemma x_ok : NoDup xuniverse /\ db_ok xkind xlinks none 0 xuniverse [1; 7] /\ kinds_ok xkind xlinks none xinputs 0.
Proof.
  split; [repeat (constructor; [cbn; lia|]); constructor|]. split; split.
  - cbn. lia.
  - intros x H; repeat (destruct H as [<-|H]; [cbn; tauto|]); destruct H.
  - intros a b Ha H. apply xnext_lt in H.
    repeat (destruct Ha as [<-|Ha]; [cbn in H; repeat (destruct H as [<-|H]; [cbn; tauto|]); destruct H|]); destruct Ha.
  - reflexivity.
  - intros a n [].
  - intros n. do 9 (destruct n as [|n]; [cbn; lia|]). cbn. tauto.
  - intros a n Ha H. apply xnext_lt in H. do 10 (destruct a as [|a]; [cbn in *; try discriminate; intuition; subst; discriminate|]). destruct H.
  - intros a n H. apply xnext_lt in H. do 10 (destruct a as [|a]; [cbn in *; intuition; subst; discriminate|]). destruct H.
Qed.
Definition xgraph := update_graph xkind xlinks none xinputs no 0 (Some KCmd) 19 [1; 7].
Definition xb : bgraph := match xgraph with Done b => b | _ => create_graph xkind no 0 end.
Lemma x_builds : xgraph = Done xb /\ node_list (gr_ xb) = [0; 9; 8; 7; 4; 6; 5; 3; 2; 1] /\ length (edges (gr_ xb)) = 12.
Proof. split; [vm_compute; reflexivity|]. vm_compute. auto. Qed.
(** Asking for 6 keeps 2 with both of its outputs and leaves 8 for later. *)
Lemma x_prunes : exists b, prune_graph xkind no 0 xb [1; 7] [6] = Some (b, [8; 1; 7]) /\
  node_list (gr_ b) = [0; 7; 4; 6; 5; 3; 2; 1].
Proof. eexists. vm_compute. split; reflexivity. Qed.

(** Source 1 is used by commands 2 and 3; 2 makes 4, which 3 uses; 3 makes 5,
    which 2 uses. *)
Definition ckind (n : id) : kind := match n with 0 => KRoot | 1 => KFile | 2 | 3 => KCmd | _ => KGenerated end.
Definition clinks (n : id) : list id := match n with 1 => [2; 3] | 2 => [4] | 3 => [5] | 4 => [3] | 5 => [2] | _ => [] end.
Definition clinks1 (n : id) : list id := match n with 1 => [2] | 2 => [4] | 3 => [5] | 4 => [3] | 5 => [2] | _ => [] end.
Definition cinputs (n : id) : list id := match n with 2 => [1; 5] | 3 => [1; 4] | _ => [] end.
Lemma c_ok : NoDup [1; 2; 3; 4; 5] /\ db_ok ckind clinks none 0 [1; 2; 3; 4; 5] [1] /\ kinds_ok ckind clinks none cinputs 0.
Proof.
  split; [repeat (constructor; [cbn; lia|]); constructor|]. split; split.
  - cbn. lia.
  - intros x H; repeat (destruct H as [<-|H]; [cbn; tauto|]); destruct H.
  - intros a b Ha H. destruct H as [H|[_ []]].
    repeat (destruct Ha as [<-|Ha]; [cbn in H; repeat (destruct H as [<-|H]; [cbn; tauto|]); destruct H|]); destruct Ha.
  - reflexivity.
  - intros a n [].
  - intros n. do 5 (destruct n as [|n]; [cbn; lia|]). cbn. tauto.
  - intros a n Ha [H|[_ []]]. do 6 (destruct a as [|a]; [cbn in *; try discriminate; intuition; subst; discriminate|]). destruct H.
  - intros a n [H|[_ []]]. do 6 (destruct a as [|a]; [cbn in *; intuition; subst; discriminate|]). destruct H.
Qed.
Lemma c_path : path ckind clinks none 2 2 /\ affected ckind clinks none [1] 2.
Proof.
  split; [apply path_step with 5; [apply path_step with 3; [apply path_step with 4; [apply path_one|]|]|]; left; cbn; auto|].
  apply aff_next with 1; [apply aff_flag; cbn; auto|left; cbn; auto].
Qed.
Lemma c_undetected : exists b, update_graph ckind clinks none cinputs no 0 (Some KCmd) 19 [1] = Done b.
Proof. eexists. vm_compute. reflexivity. Qed.
Lemma c_detected : update_graph ckind clinks1 none cinputs no 0 (Some KCmd) 19 [1] = Circular.
Proof. vm_compute. reflexivity. Qed.

Definition tg : graph := {| plist := []; node_list := [0; 1; 2; 3; 4];
  edges := [{| src := 1; dst := 2; normal := true |}; {| src := 2; dst := 3; normal := true |};
            {| src := 3; dst := 2; normal := true |}; {| src := 3; dst := 4; normal := true |}];
  state := fun _ => Finished; trans := fun _ => TNone; expanded := fun _ => true |}.
Lemma tg_cycle : gpath tg 2 2.
Proof.
  apply (gpath_step tg 2 {| src := 3; dst := 2; normal := true |}); [|cbn; auto].
  apply (gpath_one tg {| src := 2; dst := 3; normal := true |}). cbn. auto.
Qed.
