(** C63: compile_commands.json lists the ^j commands. *)
From Verif Require Import Base EntryModel EntrySpec EntryProofs GraphModel ExpandModel JsonModel JsonSpec JsonProofs JsonProofs2.

Section Props.
Variable T : tree. Variable top : nat. Variable top_path : bytes. Variable kind_of : nat -> kind.
Variable flags : nat -> bytes. Variable variant_of : nat -> nat. Variable srcdir : nat -> nat.
Variable commands : list nat. Variable stickies : nat -> list nat.
Variable member : nat -> Prop.
Hypothesis Tree : directory_tree T top member.
Hypothesis MTop : member top.

(** The command [c] of the variant [v] is exported for its input [f]. *)
Definition listed (v c f : nat) : Prop :=
  In c commands /\ In "j"%char (flags c) /\ variant_of c = v /\ In f (stickies c) /\ (kind_of f = KFile \/ kind_of f = KGenerated).
(** What the database must say about it: the directory the command runs in, its
    text, and the way from there to the file. *)
Definition describes (cf : nat * nat) (j : json) : Prop :=
  exists par rel p, parent T (fst cf) = Some par /\ j = compile_entry (top_path ++ B "/" ++ rel) (name T (fst cf)) p /\
    (srcdir par = top /\ rel = [] \/ leads T top rel (srcdir par)) /\ leads T (srcdir par) p (snd cf).

(** The file that tup compiledb writes for a variant is JSON, and is the list of
    the exported commands with their inputs, each once. Missing for the full
    property: further variants ([C63_variants_refuted]), control characters
    ([C63_tab_refuted]), quotes in the names of files ([C63_name_refuted]),
    commands of quotes and backslashes only ([C63_overrun_refuted]), and
    %<group>, which is not expanded. *)
Theorem C63_compiledb_partial : forall vs1 v vs2,
  no_control top_path -> (forall d, member d -> no_control (name T d) /\ no_escape (name T d)) ->
  (forall u c f, In u (vs1 ++ v :: vs2) -> listed u c f ->
     no_control (name T c) /\ (exists x, In x (name T c) /\ x <> """"%char /\ x <> "\"%char) /\
     member f /\ exists par, parent T c = Some par /\ member (srcdir par)) ->
  (* no earlier variant has an entry *)
  (forall u c f, In u vs1 -> ~ listed u c f) ->
  exists n, forall fuel, n < fuel -> exists fs1 t fs2 E js,
    compiledb T fuel top top_path kind_of flags variant_of srcdir commands stickies true (vs1 ++ v :: vs2) = Written (fs1 ++ (v, t) :: fs2) /\
    map fst fs1 = vs1 /\ map fst fs2 = vs2 /\
    reads_as t (JArray js) /\ Forall2 describes E js /\
    (forall c f, In (c, f) E <-> listed v c f) /\ (NoDup commands -> (forall c, NoDup (stickies c)) -> NoDup E).
Proof.
  intros vs1 v vs2 Tp Nm Ok First.
  destruct (files_written T top top_path kind_of flags variant_of srcdir commands stickies member Tree MTop (vs1 ++ v :: vs2)) as [n Hn].
  { intros u c f U I. apply exported_iff in I. destruct (Ok u c f U I) as [_ [Pl [M [par P]]]]. split; [exact Pl|]. split; [exact M|]. exists par. exact P. }
  exists n. intros fuel L. destruct (Hn fuel L true) as [fs Fs]. pose proof Fs as Fs0.
  apply files_app in Fs as [r [C [f1 [f2 [-> [M1 M2]]]]]]; [|reflexivity|].
  2:{ intros u U. destruct (exported kind_of flags variant_of stickies u commands) as [|[c f] l] eqn:Eu; [reflexivity|]. exfalso. apply (First u c f U).
      apply exported_iff. rewrite Eu. left. reflexivity. }
  assert (forall c f, In (c, f) (exported kind_of flags variant_of stickies v commands) -> good_pair T srcdir member c f) as G.
  { intros c f I. apply exported_iff in I. destruct (Ok v c f (in_elt v vs1 vs2) I) as [Nc [_ [M P]]]. split; [exact Nc|]. split; [exact M|exact P]. }
  destruct (create_reads T fuel top top_path kind_of flags variant_of srcdir commands stickies member Tree Tp Nm v r G C) as [xs [F [Re _]]].
  exists f1, (fst r), f2, (exported kind_of flags variant_of stickies v commands), (map as_json xs).
  split; [exact Fs0|]. split; [exact M1|]. split; [exact M2|]. split; [exact Re|]. split; [|split].
  - clear - F G Tree MTop. induction F as [|[c f] x l xs R F IH]; cbn [map]; constructor; [|apply IH; intros c' f' I; apply G; right; exact I].
    destruct (G c f (or_introl eq_refl)) as [_ [Mf [par' [P' Ms]]]]. destruct R as [par [rel [p [P [-> [R1 R2]]]]]]. cbn [fst snd] in *.
    assert (par' = par) as -> by congruence. exists par, rel, p. split; [exact P|]. split; [reflexivity|]. split.
    + destruct (srcdir par =? top) eqn:Q; [left; apply Nat.eqb_eq in Q; auto|right]. exact (relative_leads T top member fuel _ _ Tree MTop Ms _ R1).
    + exact (relative_leads T top member fuel _ _ Tree Ms Mf _ R2).
  - intros c f. apply exported_iff.
  - apply exported_nodup.
Qed.
End Props.
Print Assumptions C63_compiledb_partial.

(** A project: 1 is src, 2 src/a.c, 3 and 4 are commands of src, 5 is b.c and 6 a command at the
    top. The command 4 has no ^j. Variants 0 and 7. *)
Definition xT (c a : bytes) : tree :=
  {| parent := fun n => match n with 1 => Some 0 | 2 => Some 1 | 3 => Some 1 | 4 => Some 1 | 5 => Some 0 | 6 => Some 0 | _ => None end;
     name := fun n => match n with 0 => B "." | 1 => B "src" | 2 => a | 3 => c | 4 => B "ld" | 5 => B "b.c" | 6 => c | _ => [] end |}.
Definition xkind (n : nat) : kind := match n with 2 | 5 => KFile | 3 | 4 | 6 => KCmd | _ => KDir end.
Definition xflags (n : nat) : bytes := match n with 3 | 6 => B "oj" | _ => B "o" end.
Definition xsticky (n : nat) : list nat := match n with 3 => [1; 2; 5] | 4 | 6 => [2] | _ => [] end.
Definition xvariant (n : nat) : nat := match n with 6 => 7 | _ => 0 end.
Definition xdb (c a : bytes) := compiledb (xT c a) 9 0 (B "/home/p") xkind xflags xvariant (fun d => d) [3; 4; 6] xsticky true.
Definition xmember (n : nat) : Prop := n = 0 \/ n = 1 \/ n = 2 \/ n = 5.
Definition text_at (k : nat) (o : JsonModel.outcome (list (nat * bytes))) : bytes := match o with Written l => snd (nth k l (0, [])) | _ => [] end.

(** The hypotheses hold, and this is what is read. *)
Example C63_compiledb_met : let c := B "gcc -DX=\""1\"" a.c" in
  directory_tree (xT c (B "a.c")) 0 xmember /\ (forall d, xmember d -> no_control (name (xT c (B "a.c")) d) /\ no_escape (name (xT c (B "a.c")) d)) /\
  no_control c /\ listed xkind xflags xvariant [3; 4; 6] xsticky 0 3 2 /\
  document 20 (text_at 0 (xdb c (B "a.c") [0])) =
    Some (JArray [compile_entry (B "/home/p/src") c (B "a.c"); compile_entry (B "/home/p/src") c (B "../b.c")]).
Proof.
  cbv zeta. split.
  { split.
    - intros t [-> |[-> |[-> | ->]]]; cbn; split; intros H; try reflexivity; discriminate.
    - intros t p [-> |[-> |[-> | ->]]]; cbn; intros H; try discriminate; injection H as <-; unfold xmember; auto.
    - exists (fun n => match n with 0 => 0 | 1 => 1 | _ => 2 end). intros t p [-> |[-> |[-> | ->]]]; cbn; intros H; try discriminate; injection H as <-; lia.
    - intros t [-> |[-> |[-> | ->]]] N; [contradiction| | |]; (split; [discriminate|]); (split; [discriminate|]); (split; [discriminate|]); cbn; intuition discriminate.
    - intros s t p. unfold xT. cbn [parent name]. do 7 (destruct s as [|s]; [do 7 (destruct t as [|t]; [try reflexivity; intros; cbn in *; congruence|]); intros; cbn in *; congruence|]); intros; cbn in *; congruence. }
  split; [intros d [-> |[-> |[-> | ->]]]; split; reflexivity|]. split; [reflexivity|]. split; [|vm_compute; reflexivity].
  split; [left; reflexivity|]. split; [right; left; reflexivity|]. split; [reflexivity|]. split; [right; left; reflexivity|]. left. reflexivity.
Qed.

(** The static first_time: the file of the second variant begins with a comma,
    and no reader accepts it. *)
Lemma comma_unreadable t : unreadable (B "[" ++ [newline] ++ B "," ++ t).
Proof.
  intros f. unfold document. do 3 (destruct f as [|f]; [reflexivity|]). reflexivity.
Qed.
Theorem C63_variants_refuted : exists t, xdb (B "gcc a.c") (B "a.c") [0; 7] = Written [(0, text_at 0 (xdb (B "gcc a.c") (B "a.c") [0])); (7, t)] /\
  (exists js, document 20 (text_at 0 (xdb (B "gcc a.c") (B "a.c") [0])) = Some js) /\
  (exists js, document 20 (text_at 0 (xdb (B "gcc a.c") (B "a.c") [7])) = Some js) /\ unreadable t.
Proof.
  exists (text_at 1 (xdb (B "gcc a.c") (B "a.c") [0; 7])). split; [vm_compute; reflexivity|]. split; [eexists; vm_compute; reflexivity|]. split; [eexists; vm_compute; reflexivity|].
  match goal with |- unreadable ?x => let y := eval vm_compute in x in change (unreadable y) end.
  match goal with |- unreadable (_ :: _ :: _ :: ?x) => exact (comma_unreadable x) end.
Qed.
Print Assumptions C63_variants_refuted.

(** A tab in the command is not escaped. *)
Theorem C63_tab_refuted : exists t, xdb (B "gcc	a.c") (B "a.c") [0] = Written [(0, t)] /\ unreadable t.
Proof.
  eexists. split; [vm_compute; reflexivity|]. intros f. do 8 (destruct f as [|f]; [vm_compute; reflexivity|]). vm_compute. reflexivity.
Qed.
Print Assumptions C63_tab_refuted.

(** The path of the file is not escaped. *)
Theorem C63_name_refuted : exists t, xdb (B "gcc x") (B "a""b.c") [0] = Written [(0, t)] /\ unreadable t.
Proof.
  eexists. split; [vm_compute; reflexivity|]. intros f. do 8 (destruct f as [|f]; [vm_compute; reflexivity|]). vm_compute. reflexivity.
Qed.
Print Assumptions C63_name_refuted.
(** It can also be read as another file. *)
Theorem C63_name2_refuted : document 20 (text_at 0 (xdb (B "gcc x") (B "\tmp") [7])) = Some (JArray [compile_entry (B "/home/p/") (B "gcc x") (B "src/" ++ "009"%char :: B "mp")]).
Proof. vm_compute. reflexivity. Qed.
Print Assumptions C63_name2_refuted.

(** A text of characters that all must be escaped, or an empty one, does not
    fit the buffer. *)
Theorem C63_overrun_refuted : (forall s, (forall x, In x s -> x = """"%char \/ x = "\"%char) -> print_json s = Overrun) /\
  xdb (B """""") (B "a.c") [0] = Overrun.
Proof.
  split; [|vm_compute; reflexivity]. intros s H. unfold print_json.
  assert (length (escape s) = 2 * length s) as ->; [|rewrite Nat.ltb_irrefl; reflexivity].
  induction s as [|c s IH]; [reflexivity|]. cbn [escape]. assert ((c =?c backslash) || (c =?c dquote) = true) as ->.
  { destruct (H c (or_introl eq_refl)) as [-> | ->]; reflexivity. }
  cbn [app length]. rewrite IH by (intros x X; apply H; right; exact X). lia.
Qed.
Print Assumptions C63_overrun_refuted.
