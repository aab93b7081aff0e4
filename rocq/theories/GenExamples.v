(** Concrete projects for GenProps.v. *)
From Verif Require Import Base EntryModel EntrySpec ExecModel ExecSpec GraphModel ExpandModel ExpandSpec GenModel GenSpec GenProofs2.

(** One schedule of the execution, computed. *)
Section Drive.
Variable T : tree. Variable fuel top : nat. Variable kind_of : nat -> kind.
Variable gendir : nat -> bool. Variable variant : nat -> option nat. Variable srcdir : nat -> nat.
Variable groups_of : nat -> list group. Variable tmp_ok : bool.
Definition next (s : @exec script) : option exec :=
  match running s with
  | n :: r =>
      match gen_node T fuel kind_of srcdir groups_of tmp_ok n (ws s) with
      | Some (w, ok) => Some {| gr := gr s; free := free s; running := r; fin := (n, ok) :: fin s; active := active s; failed := failed s;
                                dead := dead s; at_ := at_ s; ws := w; hist := Finish n ok :: hist s |}
      | None => None
      end
  | [] =>
      match at_ s with
      | Loop => if loop_cond false s then match plist (gr s) with [] => None | n :: _ => Some (loop_body s n) end else Some (set_pc s (Returned (final_rc s)))
      | Check => if check_cond false s then match fin s with [] => None | (n, ok) :: r => Some (reap s n ok r) end else Some (set_pc s Loop)
      | _ => None
      end
  end.
Lemma next_step s s' : next s = Some s' -> step (generate_work T fuel kind_of srcdir groups_of tmp_ok) false s s'.
Proof.
  unfold next. destruct (running s) as [|n r] eqn:R.
  - destruct (at_ s) eqn:A; try discriminate.
    + destruct (loop_cond false s) eqn:C; [destruct (plist (gr s)) as [|n p] eqn:P; [discriminate|]|]; intros E; injection E as <-; [eapply S_loop; eauto|apply S_return; assumption].
    + destruct (check_cond false s) eqn:C; [destruct (fin s) as [|[n ok] p] eqn:P; [discriminate|]|]; intros E; injection E as <-; [apply S_reap; assumption|apply S_check; assumption].
  - destruct (gen_node T fuel kind_of srcdir groups_of tmp_ok n (ws s)) as [[w ok]|] eqn:G; [|discriminate]. intros E. injection E as <-.
    apply (S_worker _ _ s n [] r w ok); [exact R|exact G].
Qed.
Fixpoint drive (k : nat) (s : @exec script) : exec :=
  match k with 0 => s | S k => match next s with Some s' => drive k s' | None => s end end.
Lemma drive_steps k : forall s0 s, steps (generate_work T fuel kind_of srcdir groups_of tmp_ok) false s0 s -> steps (generate_work T fuel kind_of srcdir groups_of tmp_ok) false s0 (drive k s).
Proof.
  induction k as [|k IH]; intros s0 s H; [exact H|]. cbn. destruct (next s) as [s'|] eqn:N; [|exact H]. apply IH. eapply steps_step; [exact H|]. apply next_step, N.
Qed.
Definition result (k : nat) verbose args bdirs (g : graph) : option bytes :=
  match preamble T fuel top kind_of gendir variant verbose args bdirs g with
  | None => None
  | Some s0 => let s := drive k (start 1 g s0) in match at_ s with Returned Z0 => Some (text (ws s)) | _ => None end
  end.
Lemma result_generated k verbose args bdirs g t : result k verbose args bdirs g = Some t ->
  generated T fuel top kind_of gendir variant srcdir groups_of tmp_ok verbose args bdirs g t.
Proof.
  unfold result, generated. destruct (preamble _ _ _ _ _ _ _ _ _ _) as [s0|]; [|discriminate]. intros H. exists s0, (drive k (start 1 g s0)).
  split; [reflexivity|]. split; [apply drive_steps; constructor|]. cbv zeta in H. destruct (at_ (drive k (start 1 g s0))) as [| |[| |]|]; try discriminate. injection H as <-. split; reflexivity.
Qed.
End Drive.

(** In src a command makes a.o in the generated directory "my out"; at the top
    another one makes prog of it. 9 is the root of the graph. *)
Definition xT (c1 c2 : bytes) : tree :=
  {| parent := fun n => match n with 1 => Some 0 | 2 => Some 0 | 3 => Some 1 | 4 => Some 2 | 5 => Some 0 | 6 => Some 0 | _ => None end;
     name := fun n => match n with 0 => B "." | 1 => B "src" | 2 => B "my out" | 3 => c1 | 4 => B "a.o" | 5 => c2 | 6 => B "prog" | _ => [] end |}.
Definition xkind (n : nat) : kind := match n with 3 | 5 => KCmd | 4 | 6 => KGenerated | 9 => KRoot | 0 | 1 => KDir | _ => KOther end.
Definition xgen (n : nat) : bool := n =? 2.
Definition e (a b : id) : edge := {| src := a; dst := b; normal := true |}.
Definition xg : graph :=
  {| plist := []; node_list := [9; 6; 5; 4; 3]; edges := [e 9 3; e 3 4; e 4 5; e 5 6];
     state := fun _ => Initialized; trans := fun _ => TNone; expanded := fun _ => true |}.
Definition c1 : bytes := B "cc -c 'a.c' -o '../my out/a.o'".
Definition c2 : bytes := B "ld 'my out/a.o' -o prog".
Definition no_groups (_ : nat) : list group := [].
Definition same (n : nat) : nat := n.

Lemma xg_prepared : prepared xg 9 [6; 5; 4; 3].
Proof.
  split; cbn; try reflexivity.
  - repeat (constructor; [cbn; lia|]); constructor.
  - intros x H; repeat (destruct H as [<-|H]; [cbn; tauto|]); destruct H.
  - intros x H; repeat (destruct H as [<-|H]; [cbn; tauto|]); destruct H.
  - intros n. intuition; subst.
    + exists (e 5 6); cbn; auto 10.
    + exists (e 4 5); cbn; auto 10.
    + exists (e 3 4); cbn; auto 10.
    + exists (e 9 3); cbn; auto.
  - discriminate.
  - discriminate.
Qed.
Lemma xg_depends : depends xg 9 3 5.
Proof. apply dep_trans with 4; [apply dep_direct; [exists (e 3 4); cbn; auto|lia]|exists (e 4 5); cbn; auto 6|lia]. Qed.

Lemma x_tree a b : a <> B "src" -> a <> B "my out" -> b <> B "src" -> b <> B "my out" -> b <> B "prog" -> directory_tree (xT a b) 0 (fun d => d < 3).
Proof.
  intros A1 A2 B1 B2 B3. split.
  - intros t H. destruct t as [|[|[|t]]]; cbn; [tauto|split; discriminate|split; discriminate|lia].
  - intros t p H. destruct t as [|[|[|t]]]; cbn; intros E; inversion E; lia.
  - exists (fun n => n). intros t p H. destruct t as [|[|[|t]]]; cbn; intros E; inversion E; lia.
  - intros t H N. destruct t as [|[|[|t]]]; [lia| | |lia]; repeat split; cbn; try discriminate; intuition discriminate.
  - intros s t p. cbn. destruct s as [|[|[|[|[|[|[|s]]]]]]], t as [|[|[|[|[|[|[|t]]]]]]]; cbn; intros E1 E2 E3; try reflexivity; try discriminate; try congruence;
      exfalso; first [exact (B1 E3)|exact (B1 (eq_sym E3))|exact (B2 E3)|exact (B2 (eq_sym E3))|exact (B3 E3)|exact (B3 (eq_sym E3))].
Qed.
Lemma x_project a b : a <> B "src" -> a <> B "my out" -> b <> B "src" -> b <> B "my out" -> b <> B "prog" ->
  project (xT a b) 0 (fun d => d < 3) (fun c => xkind c = KCmd) (fun f => xkind f = KGenerated) (fun d => xgen d = true) same (fun d => d < 2) [6; 5; 4; 3].
Proof.
  intros A1 A2 B1 B2 B3. split.
  - apply x_tree; assumption.
  - split; [lia|discriminate].
  - intros d H. destruct d as [|[|[|d]]]; [| | |lia]; (split; [cbn; intuition discriminate|split; reflexivity]).
  - intros d H G. unfold xgen in G. destruct (Nat.eqb_spec d 2); [contradiction G; reflexivity|lia].
  - intros c [<-|[<-|[<-|[<-|[]]]]] K; try discriminate K; eexists; (split; [reflexivity|]); unfold same, xgen; (split; [lia|intros G; discriminate G]).
  - intros c [<-|[<-|[<-|[<-|[]]]]] K; try discriminate K; eexists; (split; [reflexivity|lia]).
Qed.
Definition x_script : bytes := lines
  [B "#! /bin/sh -e"; B "# This file is automatically generated with: tup generate build.sh";
   B "export tup_vardict=""$(cd $(dirname $0) && pwd)/tup-generate.vardict""";
   B "mkdir -p ""my out"""; B "cd ""src"""; B "(cc -c 'a.c' -o '../my out/a.o')"; B "cd "".."""; B "(ld 'my out/a.o' -o prog)"].
Lemma x_generated : generated (xT c1 c2) 9 0 xkind xgen (fun _ => None) same no_groups true false [B "build.sh"] [] xg x_script.
Proof. apply (result_generated _ _ _ _ _ _ _ _ _ 40). vm_compute. reflexivity. Qed.
Lemma x_complete c x : In c [6; 5; 4; 3] -> xkind c = KCmd -> may_be (xT c1 c2) 9 same no_groups true c x -> complete x.
Proof.
  intros I K [par [w [u [w' [P [_ E]]]]]]. destruct I as [<-|[<-|[<-|[<-|[]]]]]; try discriminate; unfold expand_command in E; cbn [name xT] in E.
  - assert (x = c2) as -> by (change (open_group c2) with (@None (bytes * bytes)) in E; congruence).
    split; [exists Word; split; [vm_compute; reflexivity|auto]|split; vm_compute; reflexivity].
  - assert (x = c1) as -> by (change (open_group c1) with (@None (bytes * bytes)) in E; congruence).
    split; [exists Word; split; [vm_compute; reflexivity|auto]|split; vm_compute; reflexivity].
Qed.

(** With --builddir: the same with "my out" in the variant's directory. *)
Definition vT : tree :=
  {| parent := fun n => match n with 1 => Some 0 | 2 => Some 1 | 3 => Some 1 | 4 => Some 2 | _ => None end;
     name := fun n => match n with 0 => B "." | 1 => B "build" | 2 => B "gen" | 3 => B "touch build/gen/a" | 4 => B "a" | _ => [] end |}.
Definition vkind (n : nat) : kind := match n with 3 => KCmd | 4 => KGenerated | 9 => KRoot | 0 | 1 => KDir | _ => KOther end.
Definition vvar (n : nat) : option nat := match n with 0 => None | _ => Some 1 end.
Definition vsrc (n : nat) : nat := match n with 1 => 0 | _ => n end.
Definition vg : graph :=
  {| plist := []; node_list := [9; 4; 3]; edges := [e 9 3; e 3 4]; state := fun _ => Initialized; trans := fun _ => TNone; expanded := fun _ => true |}.
Lemma vg_prepared : prepared vg 9 [4; 3].
Proof.
  split; cbn; try reflexivity.
  - repeat (constructor; [cbn; lia|]); constructor.
  - intros x H; repeat (destruct H as [<-|H]; [cbn; tauto|]); destruct H.
  - intros x H; repeat (destruct H as [<-|H]; [cbn; tauto|]); destruct H.
  - intros n. intuition; subst; [exists (e 3 4)|exists (e 9 3)]; cbn; auto.
  - discriminate.
  - discriminate.
Qed.
Definition v_script : bytes := lines
  [B "#! /bin/sh -e"; B "# This file is automatically generated with: tup generate --builddir build build.sh";
   B "export tup_vardict=""$(cd $(dirname $0) && pwd)/tup-generate.vardict""";
   B "mkdir -p build/"; B "mkdir -p ""[build] gen"""; B "(touch build/gen/a)"].
Lemma v_generated : generated vT 9 0 vkind xgen vvar vsrc no_groups true false [B "--builddir"; B "build"; B "build.sh"] [1] vg v_script.
Proof. apply (result_generated _ _ _ _ _ _ _ _ _ 40). vm_compute. reflexivity. Qed.

(** A comment at the end of a command; a symlink. *)
Definition c_comment : bytes := B "ld 'my out/a.o' -o prog # all of it".
Definition c_link : bytes := B "!tup_ln 'my out/a.o' prog".
Definition script_with (c : bytes) : bytes := lines
  [B "#! /bin/sh -e"; B "# This file is automatically generated with: tup generate build.sh";
   B "export tup_vardict=""$(cd $(dirname $0) && pwd)/tup-generate.vardict""";
   B "mkdir -p ""my out"""; B "cd ""src"""; B "(cc -c 'a.c' -o '../my out/a.o')"; B "cd "".."""; B "(" ++ c ++ B ")"].
Lemma x_comment : generated (xT c1 c_comment) 9 0 xkind xgen (fun _ => None) same no_groups true false [B "build.sh"] [] xg (script_with c_comment).
Proof. apply (result_generated _ _ _ _ _ _ _ _ _ 40). vm_compute. reflexivity. Qed.
Lemma x_link : generated (xT c1 c_link) 9 0 xkind xgen (fun _ => None) same no_groups true false [B "build.sh"] [] xg (script_with c_link).
Proof. apply (result_generated _ _ _ _ _ _ _ _ _ 40). vm_compute. reflexivity. Qed.

(** A directory with a blank in its name. *)
Definition bT : tree :=
  {| parent := fun n => match n with 1 => Some 0 | _ => None end; name := fun n => match n with 0 => B "." | 1 => B "my build" | _ => [] end |}.

Lemma v_no_way : ~ leads vT 0 (B "[build] gen") 2.
Proof.
  intros [cs [N [F [E W]]]]. destruct cs as [|x [|y cs]]; [contradiction| |].
  - cbn in E. subst x. inversion W as [| | |? c ? ? P Pl W2 E3]; subst. inversion W2; subst. cbn in P. discriminate.
  - change (B "[build] gen" = x ++ "/"%char :: slashed (y :: cs)) in E. assert (In "/"%char (B "[build] gen")) as I by (rewrite E; apply in_elt).
    revert I. cbn. intuition discriminate.
Qed.
Lemma v_way : leads vT 0 (B "build/gen") 2.
Proof.
  exists [B "build"; B "gen"]. split; [discriminate|]. split; [repeat constructor; cbn; intuition discriminate|]. split; [reflexivity|].
  apply (w_down vT 0 1); [reflexivity|repeat split; cbn; try discriminate; intuition discriminate|].
  apply (w_down vT 1 2); [reflexivity|repeat split; cbn; try discriminate; intuition discriminate|constructor].
Qed.
