(** C62: the script of "tup generate" does what the update would do. *)
From Verif Require Import Base EntryModel EntrySpec ExecModel ExecSpec GraphModel ExpandModel ExpandSpec GenModel GenSpec GenProofs2 GenProofs3 GenExamples.

Section Props.
Variable T : tree. Variable fuel top : nat. Variable kind_of : nat -> kind.
Variable gendir : nat -> bool. Variable variant : nat -> option nat. Variable srcdir : nat -> nat.
Variable groups_of : nat -> list group. Variable tmp_ok : bool.
Variable member there : nat -> Prop.
Variable g : graph. Variable root : id. Variable nodes : list id.
Hypothesis Prep : prepared g root nodes.
Hypothesis Proj : project T top member (fun c => kind_of c = KCmd) (fun f => kind_of f = KGenerated) (fun d => gendir d = true) srcdir there nodes.
Hypothesis RootKind : kind_of root = KRoot.
(* only generated files are transient *)
Hypothesis NoTrans : forall c, kind_of c = KCmd -> trans g c = TNone.

(** [x] is the text of the command [c] after %<group> is replaced (C61), at
    some point of this run of tup. *)
Definition text_of (c : id) (x : bytes) : Prop :=
  exists par w u w', parent T c = Some par /\ session T fuel srcdir tmp_ok w /\
    expand_command T fuel srcdir tmp_ok par (groups_of c) (name T c) w = (Good (x, u), w').
(** Where a command runs. *)
Definition runs_in (c : id) (d : nat) : Prop := exists p, parent T c = Some p /\ d = srcdir p.

(** When tup generate succeeds, its script can be run in one way only, from the
    top of the project: it makes directories, then runs every command of the
    graph once, in the command's directory, after everything it depends on;
    and the directories of all output files are there when the first command
    is run. Missing for the full property: generated directories of a
    --builddir ([C62_builddir_refuted]), names the shell would change
    ([C62_blank_refuted]), and commands that are not one complete line
    ([C62_comment_refuted]). *)
Theorem C62_script_partial : forall verbose args bdirs t,
  (forall d, gendir d = true -> variant d = None) ->
  (forall a, In a args -> ~ In newline a) ->
  (bdirs <> [] -> forall d, member d -> bare (name T d)) -> (forall d, In d bdirs -> member d /\ d <> top) ->
  (forall c x, In c nodes -> kind_of c = KCmd -> text_of c x -> complete x) ->
  generated T fuel top kind_of gendir variant srcdir groups_of tmp_ok verbose args bdirs g t ->
  exists ls ds todo,
    t = lines ls /\ Forall (fun l => ~ In newline l) ls /\
    (forall acts, run T there [] top ls acts <-> acts = map Made ds ++ map (fun y => Ran (snd (fst y)) (snd y)) todo) /\
    (forall c d x, In (c, d, x) todo -> runs_in c d /\ text_of c x) /\
    NoDup (map (fun y => fst (fst y)) todo) /\
    (forall c, In c (map (fun y => fst (fst y)) todo) <-> In c nodes /\ kind_of c = KCmd) /\
    (forall a b, depends g root a b -> In a nodes -> kind_of a = KCmd -> In b nodes -> kind_of b = KCmd ->
       earlier (map (fun y => fst (fst y)) todo) a b) /\
    (forall f d, In f nodes -> kind_of f = KGenerated -> parent T f = Some d -> present T there ds d).
Proof.
  intros verbose args bdirs t InTree Ha Hb Hd Hc G.
  destruct (script_runs T fuel top kind_of gendir variant srcdir groups_of tmp_ok member there g root nodes Prep Proj RootKind InTree NoTrans
    verbose args bdirs t Ha Hb Hd Hc G) as [ls [ds [todo [acts [E [F [Ea [R [U [N [I [M [O P]]]]]]]]]]]]].
  set (todo' := map (fun y => (fst y, dir_of T top srcdir (fst y), snd y)) todo).
  assert (map (fun y => fst (fst y)) todo' = map fst todo) as E1 by (unfold todo'; rewrite map_map; reflexivity).
  assert (map (fun y => Ran (snd (fst y)) (snd y)) todo' = map (fun y => Ran (dir_of T top srcdir (fst y)) (snd y)) todo) as E2 by (unfold todo'; rewrite map_map; reflexivity).
  exists ls, ds, todo'. rewrite E1, E2. split; [exact E|]. split; [exact F|]. split.
  { intros a. rewrite <- Ea. split; [apply U|intros ->; exact R]. }
  split.
  { intros c d x X. unfold todo' in X. apply in_map_iff in X as [[c' x'] [Q X]]. injection Q as <- <- <-. split; [|exact (M _ _ X)].
    destruct (M _ _ X) as [p [? [? [? [Pp _]]]]]. exists p. split; [exact Pp|]. unfold dir_of. cbn [fst]. rewrite Pp. reflexivity. }
  split; [exact N|]. split; [exact I|]. split; [|exact P].
  intros a b Dp A1 A2 B1 B2. apply O; [exact Dp|apply I; auto|apply I; auto].
Qed.
End Props.
Print Assumptions C62_script_partial.

(** With --builddir, the directory of an output is written for the reader, as
    "[build] gen", and the script makes a directory of that name. *)
Theorem C62_builddir_refuted : exists T fuel kind_of gendir variant srcdir g ls f d,
  prepared g 9 [f; 3] /\
  generated T fuel 0 kind_of gendir variant srcdir no_groups true false [B "--builddir"; B "build"; B "build.sh"] [1] g (lines ls) /\
  kind_of f = KGenerated /\ parent T f = Some d /\ leads T 0 (B "build/gen") d /\
  In (B "mkdir -p ""[build] gen""") ls /\ ~ leads T 0 (B "[build] gen") d /\ ~ In (B "mkdir -p ""build/gen""") ls.
Proof.
  exists vT, 9, vkind, xgen, vvar, vsrc, vg. eexists. exists 4, 2. split; [exact vg_prepared|]. split; [exact v_generated|].
  split; [reflexivity|]. split; [reflexivity|]. split; [exact v_way|]. split; [cbn [In]; auto 10|]. split; [exact v_no_way|].
  cbn [In]. intuition discriminate.
Qed.
Print Assumptions C62_builddir_refuted.

(** The directories of --builddir are not quoted. *)
Theorem C62_blank_refuted : exists T d, name T d = B "my build" /\ parent T d = Some 0 /\
  build_dirs T 3 0 [d] = Some (B "mkdir -p my build/" ++ [newline]).
Proof. exists bT, 1. split; [reflexivity|]. split; [reflexivity|]. vm_compute. reflexivity. Qed.
Print Assumptions C62_blank_refuted.

(** A command with a comment at its end is complete for the update, which gives
    it to a shell of its own; in the script the comment hides the closing
    parenthesis, which is still missing at the end of the script. *)
Theorem C62_comment_refuted : exists T c ls,
  prepared xg 9 [6; 5; 4; 3] /\ name T 5 = c /\ run_by_update c = Shell c /\ read Gap 0 c = Some (Comment, 0) /\
  generated T 9 0 xkind xgen (fun _ => None) same no_groups true false [B "build.sh"] [] xg (lines (ls ++ [B "(" ++ c ++ B ")"])) /\
  read Gap 0 (B "(" ++ c ++ B ")") = Some (Comment, 1).
Proof.
  exists (xT c1 c_comment), c_comment. exists [B "#! /bin/sh -e"; B "# This file is automatically generated with: tup generate build.sh";
   B "export tup_vardict=""$(cd $(dirname $0) && pwd)/tup-generate.vardict""";
   B "mkdir -p ""my out"""; B "cd ""src"""; B "(cc -c 'a.c' -o '../my out/a.o')"; B "cd "".."""].
  split; [exact xg_prepared|]. split; [reflexivity|]. split; [vm_compute; reflexivity|]. split; [vm_compute; reflexivity|]. split; [exact x_comment|vm_compute; reflexivity].
Qed.
Print Assumptions C62_comment_refuted.

(** tup's own commands are in the script as they are, for the shell. *)
Theorem C62_symlink_refuted : exists T c ls args,
  prepared xg 9 [6; 5; 4; 3] /\ name T 5 = c /\ run_by_update c = Link args /\
  generated T 9 0 xkind xgen (fun _ => None) same no_groups true false [B "build.sh"] [] xg (lines ls) /\
  complete c /\ In (B "(" ++ c ++ B ")") ls.
Proof.
  exists (xT c1 c_link), c_link. exists [B "#! /bin/sh -e"; B "# This file is automatically generated with: tup generate build.sh";
   B "export tup_vardict=""$(cd $(dirname $0) && pwd)/tup-generate.vardict""";
   B "mkdir -p ""my out"""; B "cd ""src"""; B "(cc -c 'a.c' -o '../my out/a.o')"; B "cd "".."""; B "(" ++ c_link ++ B ")"]. eexists.
  split; [exact xg_prepared|]. split; [reflexivity|]. split; [vm_compute; reflexivity|]. split; [exact x_link|].
  split; [|cbn [In]; auto 12]. split; [exists Word; split; [vm_compute; reflexivity|auto]|split; vm_compute; reflexivity].
Qed.
Print Assumptions C62_symlink_refuted.

(** The hypotheses are met, and this is the script. *)
Example script_somewhere :
  prepared xg 9 [6; 5; 4; 3] /\ depends xg 9 3 5 /\
  project (xT c1 c2) 0 (fun d => d < 3) (fun c => xkind c = KCmd) (fun f => xkind f = KGenerated) (fun d => xgen d = true) same (fun d => d < 2) [6; 5; 4; 3] /\
  (forall c x, In c [6; 5; 4; 3] -> xkind c = KCmd -> text_of (xT c1 c2) 9 same no_groups true c x -> complete x) /\
  generated (xT c1 c2) 9 0 xkind xgen (fun _ => None) same no_groups true false [B "build.sh"] [] xg x_script /\
  run (xT c1 c2) (fun d => d < 2) [] 0
    [B "#! /bin/sh -e"; B "# This file is automatically generated with: tup generate build.sh";
     B "export tup_vardict=""$(cd $(dirname $0) && pwd)/tup-generate.vardict""";
     B "mkdir -p ""my out"""; B "cd ""src"""; B "(cc -c 'a.c' -o '../my out/a.o')"; B "cd "".."""; B "(ld 'my out/a.o' -o prog)"]
    [Made 2; Ran 1 c1; Ran 0 c2].
Proof.
  assert (project (xT c1 c2) 0 (fun d => d < 3) (fun c => xkind c = KCmd) (fun f => xkind f = KGenerated) (fun d => xgen d = true) same (fun d => d < 2) [6; 5; 4; 3]) as Pr
    by (apply x_project; discriminate).
  split; [exact xg_prepared|]. split; [exact xg_depends|]. split; [exact Pr|]. split; [exact x_complete|]. split; [exact x_generated|].
  apply (r_comment _ _ _ _ (B "! /bin/sh -e")), (r_comment _ _ _ _ (B " This file is automatically generated with: tup generate build.sh")),
    (r_export _ _ _ _ (B """$(cd $(dirname $0) && pwd)/tup-generate.vardict""")).
  apply (r_mkdir _ _ _ _ (B "my out")); [split; [cbn; intuition discriminate|split; reflexivity]| |].
  { apply (leads_one (xT c1 c2) 0 2); [reflexivity|]. repeat split; cbn; try discriminate; intuition discriminate. }
  apply (r_cd _ _ _ _ (B "src") 1); [split; [cbn; intuition discriminate|split; reflexivity]| |left; lia|].
  { apply (leads_one (xT c1 c2) 0 1); [reflexivity|]. repeat split; cbn; try discriminate; intuition discriminate. }
  apply (r_command _ _ _ _ c1); [split; [exists Word; split; [vm_compute; reflexivity|auto]|split; vm_compute; reflexivity]|].
  apply (r_cd _ _ _ _ (B "..") 0); [split; [cbn; intuition discriminate|split; reflexivity]| |left; lia|].
  { exists [B ".."]. split; [discriminate|]. split; [repeat constructor; cbn; intuition discriminate|]. split; [reflexivity|]. eapply w_up; [reflexivity|constructor]. }
  apply (r_command _ _ _ _ c2); [split; [exists Word; split; [vm_compute; reflexivity|auto]|split; vm_compute; reflexivity]|]. constructor.
Qed.
