(** The table of the groups, and the graph that is built from it. *)
From Verif Require Import Base ExecModel GraphModel GraphProofs GraphProofs2 CircModel CircSpec.
Require Import Lia.

Lemma row_eqb_eq a b : row_eqb a b = true <-> a = b.
Proof.
  destruct a as [[x y] z], b as [[u v] w]. cbn. rewrite !andb_true_iff, !Nat.eqb_eq. split; [intros [[-> ->] ->]; reflexivity|]. intros E. injection E as -> -> ->. auto.
Qed.
Lemma insert_all_ok : forall rs l, NoDup rs -> (forall r, In r rs -> ~ In r l) -> exists l', insert_all rs l = Some l' /\ forall r, In r l' <-> In r rs \/ In r l.
Proof.
  induction rs as [|r rs IH]; intros l N D; cbn [insert_all].
  - exists l. split; [reflexivity|]. intros r. cbn. tauto.
  - inversion N as [|? ? N1 N2]; subst. unfold group_link_insert. destruct (existsb (row_eqb r) l) eqn:E.
    + exfalso. apply existsb_exists in E as [x [X Y]]. apply row_eqb_eq in Y. subst x. apply (D r); [left; reflexivity|exact X].
    + cbn [obind]. destruct (IH (r :: l) N2) as [l' [E' H]].
      * intros x X [<-|Y]; [contradiction|]. apply (D x); [right; exact X|exact Y].
      * exists l'. split; [exact E'|]. intros x. rewrite H. cbn. tauto.
Qed.
Lemma remove_all_ok : forall rs l r, In r (remove_all rs l) <-> In r l /\ ~ In r rs.
Proof.
  induction rs as [|x rs IH]; intros l r; cbn [remove_all fold_left].
  - cbn. tauto.
  - unfold remove_all in IH. rewrite IH. unfold group_link_remove. rewrite filter_In, negb_true_iff. split.
    + intros [[A C] D]. split; [exact A|]. intros [<-|Z]; [|exact (D Z)]. rewrite (proj2 (row_eqb_eq x x) eq_refl) in C. discriminate.
    + intros [A C]. split; [split; [exact A|]|intros Z; apply C; right; exact Z]. destruct (row_eqb r x) eqn:E; [|reflexivity]. exfalso. apply C. left. apply row_eqb_eq in E. auto.
Qed.
Lemma delete_ok c l a b x : In (a, b, x) (delete_group_links c l) <-> In (a, b, x) l /\ x <> c.
Proof. unfold delete_group_links. rewrite filter_In, negb_true_iff. cbn [snd]. rewrite Nat.eqb_neq. tauto. Qed.
Lemma inb_in n l : inb n l = true <-> In n l.
Proof. unfold inb. rewrite existsb_exists. split; [intros [x [X E]]; apply Nat.eqb_eq in E; subst; exact X|intros X; exists n; split; [exact X|apply Nat.eqb_refl]]. Qed.
Lemma upd_same {A} (f : id -> A) i v : upd f i v i = v.
Proof. unfold upd. rewrite Nat.eqb_refl. reflexivity. Qed.
Lemma upd_other {A} (f : id -> A) i v j : j <> i -> upd f i v j = f j.
Proof. intros N. unfold upd. apply Nat.eqb_neq in N. rewrite N. reflexivity. Qed.
Lemma opt_eqb_eq a b : opt_eqb a b = true <-> a = b.
Proof. destruct a, b; cbn; split; try discriminate; try reflexivity; [intros E; apply Nat.eqb_eq in E; subst; reflexivity|intros E; injection E as ->; apply Nat.eqb_refl]. Qed.

(** The graph. *)
Definition known (g : graph) (n : id) : Prop := In n (plist g) \/ In n (node_list g).
Lemma find_known g n : find_node g n = true <-> known g n.
Proof. unfold find_node, known. rewrite orb_true_iff, !inb_in. tauto. Qed.
Lemma find_unknown g n : find_node g n = false <-> ~ known g n.
Proof. rewrite <- find_known. destruct (find_node g n); intuition congruence. Qed.

Section Circ.
Variables (is_grp : id -> bool) (root : id).

(** The table says what the rules say. *)
Definition table (s : gdb) : Prop := forall a b c, In (a, b, c) (g_link s) <-> In a (g_in s c) /\ g_out s c = Some b.
Definition typed (s : gdb) : Prop := forall c,
  (forall a, In a (g_in s c) -> is_grp a = true /\ a <> root) /\ (forall b, g_out s c = Some b -> is_grp b = true /\ b <> root /\ is_grp c = false /\ c <> root).

Lemma rows_nodup ins g c : NoDup ins -> NoDup (map (fun i : id => (i, g, c) : row) ins).
Proof.
  induction 1 as [|x l N1 N2 IH]; cbn; constructor; [|exact IH]. intros Z. apply in_map_iff in Z as [y [E Y]]. injection E as ->. contradiction.
Qed.
Lemma in_rows a b x ins g c : In (a, b, x) (map (fun i : id => (i, g, c) : row) ins) <-> In a ins /\ b = g /\ x = c.
Proof.
  rewrite in_map_iff. split; [intros [i [E I]]; injection E as <- <- <-; auto|intros [I [-> ->]]; exists a; auto].
Qed.

Lemma write_ok c ins group s : table s -> NoDup ins -> exists s' new, write_inputs c ins group s = Some (s', new) /\
  g_in s' = upd (g_in s) c ins /\ g_out s' = upd (g_out s) c group /\ table s' /\ (new = true -> group <> None) /\
  (forall a b x, In (a, b, x) (g_link s') -> In (a, b, x) (g_link s) \/ new = true /\ group = Some b).
Proof.
  intros T N. unfold table in T. unfold write_inputs. destruct (opt_eqb group (g_out s c)) eqn:E.
  - apply opt_eqb_eq in E. destruct group as [g|].
    + set (added := filter (fun i => negb (inb i (g_in s c))) ins). set (removed := filter (fun i => negb (inb i ins)) (g_in s c)).
      destruct (insert_all_ok (map (fun i => (i, g, c)) added) (g_link s)) as [l [-> H]].
      { apply rows_nodup, NoDup_filter, N. } { intros [[a b] x] R. apply in_rows in R as [A [-> ->]]. intros Z. apply T in Z as [Z _]. apply filter_In in A as [_ A]. apply negb_true_iff in A. apply inb_in in Z. congruence. }
      cbn [obind]. do 2 eexists. split; [reflexivity|]. cbn [g_in g_out g_link]. split; [reflexivity|]. split; [reflexivity|].
      assert (forall a b x, In (a, b, x) (remove_all (map (fun i => (i, g, c)) removed) l) <-> (In a added /\ b = g /\ x = c \/ In (a, b, x) (g_link s)) /\ ~ (In a removed /\ b = g /\ x = c)) as Q.
      { intros a b x. rewrite remove_all_ok, H, !in_rows. tauto. }
      split; [|split].
      * intros a b x. cbn [g_in g_out g_link]. rewrite Q, T. destruct (Nat.eq_dec x c) as [->|Nx].
        -- rewrite !upd_same. unfold added, removed. rewrite !filter_In, !negb_true_iff, <- E. split.
           ++ intros [[[[A _] [-> _]]|[A B]] C]; [auto|]. injection B as <-. split; [|reflexivity]. destruct (inb a ins) eqn:I; [apply inb_in; exact I|]. exfalso. apply C. auto.
           ++ intros [A B]. injection B as <-. split; [|intros [[_ Z] _]; apply inb_in in A; congruence]. destruct (inb a (g_in s c)) eqn:I; [right; apply inb_in in I; auto|left; auto].
        -- rewrite !upd_other by exact Nx. tauto.
      * discriminate.
      * intros a b x R. apply Q in R as [[[A [-> ->]]|R] _]; [right|left; exact R]. split; [|reflexivity]. destruct added; [destruct A|reflexivity].
    + do 2 eexists. split; [reflexivity|]. cbn [g_in g_out g_link]. split; [reflexivity|]. split; [reflexivity|]. split; [|split; [discriminate|auto]].
      intros a b x. cbn [g_in g_out g_link]. rewrite T. destruct (Nat.eq_dec x c) as [->|Nx]; [rewrite !upd_same, <- E; split; intros [_ Z]; discriminate|rewrite !upd_other by exact Nx; tauto].
  - assert (group <> g_out s c) as Ne by (intros Z; apply opt_eqb_eq in Z; congruence).
    set (l := match g_out s c with Some _ => delete_group_links c (g_link s) | None => g_link s end).
    assert (forall a b x, In (a, b, x) l <-> In (a, b, x) (g_link s) /\ x <> c) as L.
    { intros a b x. unfold l. destruct (g_out s c) eqn:O; [apply delete_ok|]. split; [|tauto]. intros R. split; [exact R|]. intros ->. apply T in R as [_ R]. congruence. }
    destruct group as [g|].
    + destruct (insert_all_ok (map (fun i => (i, g, c)) ins) l) as [l' [-> H]].
      { apply rows_nodup, N. } { intros [[a b] x] R Z. apply in_rows in R as [_ [_ ->]]. apply L in Z. tauto. }
      cbn [obind]. do 2 eexists. split; [reflexivity|]. cbn [g_in g_out g_link]. split; [reflexivity|]. split; [reflexivity|]. split; [|split].
      * intros a b x. cbn [g_in g_out g_link]. rewrite H, in_rows, L, T. destruct (Nat.eq_dec x c) as [->|Nx].
        -- rewrite !upd_same. split; [intros [[A [-> _]]|[_ Z]]; [auto|congruence]|]. intros [A B]. injection B as <-. auto.
        -- rewrite !upd_other by exact Nx. tauto.
      * discriminate.
      * intros a b x R. apply H in R as [R|R]; [apply in_rows in R as [_ [-> _]]; right; auto|left; apply L in R; tauto].
    + do 2 eexists. split; [reflexivity|]. cbn [g_in g_out g_link]. split; [reflexivity|]. split; [reflexivity|]. split; [|split; [discriminate|]].
      * intros a b x. cbn [g_in g_out g_link]. rewrite L, T. destruct (Nat.eq_dec x c) as [->|Nx]; [rewrite !upd_same; split; [tauto|intros [_ Z]; discriminate]|rewrite !upd_other by exact Nx; tauto].
      * intros a b x R. left. apply L in R. tauto.
Qed.

Record fit (g : graph) : Prop := {
  f_nodup : NoDup (plist g ++ node_list g);
  f_root : In root (node_list g);
  f_exp : forall n, known g n -> n <> root -> expanded g n = true;
  f_new : forall n, ~ known g n -> state g n = Initialized }.

(** A node that was not there is put on the stack. *)
Record pushed (g : graph) (n : id) (g' : graph) : Prop := {
  p_plist : plist g' = n :: plist g;
  p_nodes : node_list g' = node_list g;
  p_edges : edges g' = edges g;
  p_state : forall x, state g' x = if x =? n then Initialized else state g x;
  p_exp : forall x, expanded g' x = if x =? n then true else expanded g x }.
Lemma rm_tail n l : ~ In n l -> rm n (l ++ [n]) = l.
Proof. apply rm_fresh_tail. Qed.

(** What the callback makes of nodes [n] and [c]. *)
Record called (g : graph) (cur n c : id) (g' : graph) (new : list id) : Prop := {
  c_plist : plist g' = new ++ plist g;
  c_nodes : node_list g' = node_list g;
  c_edges : edges g' = {| src := c; dst := n; normal := true |} :: {| src := cur; dst := c; normal := true |} :: edges g;
  c_new : forall x, In x new <-> (x = n \/ x = c) /\ ~ known g x;
  c_nodup : NoDup new;
  c_state : forall x, state g' x = if inb x new then Initialized else state g x;
  c_exp : forall x, expanded g' x = if inb x new then true else expanded g x }.

Lemma upd_if {A} (f : id -> A) i v j : upd f i v j = if j =? i then v else f j.
Proof. reflexivity. Qed.
Lemma expand_last g n a b : node_list g = a ++ n :: b -> ~ In n a -> ~ In n b -> ~ In n (plist g) -> expand_node g n =
  Some {| plist := n :: plist g; node_list := a ++ b; edges := edges g; state := state g; trans := trans g; expanded := upd (expanded g) n true |}.
Proof.
  intros E A C P. unfold expand_node, off_nodes. cbn [set_expanded node_list plist edges state trans expanded]. rewrite E. replace (inb n (a ++ n :: b)) with true by (symmetry; apply inb_in, in_or_app; right; left; reflexivity).
  rewrite rm_app. cbn [rm]. rewrite Nat.eqb_refl, !rm_notin by assumption. cbn [obind]. unfold to_plist_head. cbn [plist node_list edges state trans expanded].
  replace (inb n (plist g)) with false by (symmetry; apply inb_false; exact P). replace (inb n (a ++ b)) with false; [reflexivity|]. symmetry. apply inb_false. intros Z. apply in_app_or in Z as [Z|Z]; auto.
Qed.

Lemma cb_ok cur n c g : fit g -> n <> c -> n <> root -> c <> root -> exists g' new, build_group_cb cur n c g = Some g' /\ called g cur n c g' new.
Proof.
  intros F Nc Nr Cr. unfold build_group_cb, find_or_create_node. destruct (find_node g n) eqn:Fn.
  - apply find_known in Fn. pose proof (f_exp _ F n Fn Nr) as En. destruct (find_node g c) eqn:Fc.
    + apply find_known in Fc. pose proof (f_exp _ F c Fc Cr) as Ec. unfold expand_once. rewrite En. cbn [obind]. rewrite Ec. cbn [obind]. exists (create_edge (create_edge g cur c true) c n true), []. split; [reflexivity|].
      split; try reflexivity; try (intros x; reflexivity); [|constructor]. intros x. cbn. split; [tauto|]. intros [[-> | ->] K]; contradiction.
    + apply find_unknown in Fc. assert (~ In c (plist g) /\ ~ In c (node_list g)) as [Cp Cn] by (unfold known in Fc; tauto). unfold expand_once. cbn [new_node expanded]. rewrite upd_other by exact Nc. rewrite En. cbn [obind new_node expanded]. rewrite upd_same.
      rewrite (expand_last _ c (node_list g) []); [|reflexivity|exact Cn|intros []|exact Cp]. cbn [obind new_node edges state trans expanded plist]. rewrite app_nil_r. eexists. exists [c]. split; [reflexivity|].
      split; cbn [create_edge set_edges plist node_list edges state expanded]; try reflexivity.
      * intros x. cbn. split; [intros [<-|[]]; auto|intros [[-> | ->] K]; [contradiction|auto]].
      * repeat constructor. intros [].
      * intros x. rewrite upd_if. unfold inb. cbn [existsb]. rewrite orb_false_r. reflexivity.
      * intros x. rewrite !upd_if. unfold inb. cbn [existsb]. rewrite orb_false_r. destruct (x =? c); reflexivity.
  - apply find_unknown in Fn. assert (~ In n (plist g) /\ ~ In n (node_list g)) as [Np Nn] by (unfold known in Fn; tauto). assert (known (new_node g n) c <-> known g c) as Kc.
    { unfold known. cbn [new_node plist node_list]. rewrite in_app_iff. cbn. intuition congruence. }
    destruct (find_node (new_node g n) c) eqn:Fc.
    + apply find_known, Kc in Fc. pose proof (f_exp _ F c Fc Cr) as Ec. unfold expand_once. cbn [new_node expanded]. rewrite upd_same.
      rewrite (expand_last _ n (node_list g) []); [|reflexivity|exact Nn|intros []|exact Np]. cbn [obind new_node edges state trans expanded plist]. rewrite !upd_other by auto. rewrite Ec. cbn [obind]. rewrite app_nil_r. eexists. exists [n]. split; [reflexivity|].
      split; cbn [create_edge set_edges plist node_list edges state expanded]; try reflexivity.
      * intros x. cbn. split; [intros [<-|[]]; auto|intros [[-> | ->] K]; [auto|contradiction]].
      * repeat constructor. intros [].
      * intros x. rewrite upd_if. unfold inb. cbn [existsb]. rewrite orb_false_r. reflexivity.
      * intros x. rewrite !upd_if. unfold inb. cbn [existsb]. rewrite orb_false_r. destruct (x =? n); reflexivity.
    + apply find_unknown in Fc. rewrite Kc in Fc. assert (~ In c (plist g) /\ ~ In c (node_list g)) as [Cp Cn] by (unfold known in Fc; tauto). unfold expand_once. cbn [new_node expanded]. rewrite upd_other by exact Nc. rewrite upd_same.
      rewrite (expand_last _ n (node_list g) [c]); [|cbn [new_node node_list]; rewrite <- app_assoc; reflexivity|exact Nn|intros [Z|[]]; auto|exact Np]. cbn [obind new_node edges state trans expanded plist node_list]. rewrite upd_other by auto. rewrite upd_same.
      rewrite (expand_last _ c (node_list g) []); [|reflexivity|exact Cn|intros []|cbn [plist]; intros [Z|Z]; auto]. cbn [obind edges state trans expanded plist]. rewrite app_nil_r. eexists. exists [c; n]. split; [reflexivity|].
      split; cbn [create_edge set_edges plist node_list edges state expanded]; try reflexivity.
      * intros x. cbn. split; [intros [<-|[<-|[]]]; auto|intros [[-> | ->] K]; auto].
      * repeat constructor; cbn; intuition congruence.
      * intros x. rewrite !upd_if. unfold inb. cbn [existsb]. rewrite orb_false_r. destruct (x =? c), (x =? n); reflexivity.
      * intros x. rewrite !upd_if. unfold inb. cbn [existsb]. rewrite orb_false_r. destruct (x =? c), (x =? n); reflexivity.
Qed.

Lemma called_fit g cur n c g' new : called g cur n c g' new -> fit g -> n <> root -> c <> root -> fit g' /\ (forall x, known g' x <-> known g x \/ x = n \/ x = c) /\ (forall x, state g' x = state g x).
Proof.
  intros C F Nr Cr. assert (forall x, known g' x <-> known g x \/ In x new) as K.
  { intros x. unfold known. rewrite (c_plist _ _ _ _ _ _ C), (c_nodes _ _ _ _ _ _ C), in_app_iff. tauto. }
  assert (forall x, state g' x = state g x) as St.
  { intros x. rewrite (c_state _ _ _ _ _ _ C). destruct (inb x new) eqn:I; [|reflexivity]. apply inb_in, (c_new _ _ _ _ _ _ C) in I as [_ I]. symmetry. apply (f_new _ F x I). }
  split; [|split; [|exact St]].
  - split.
    + rewrite (c_plist _ _ _ _ _ _ C), (c_nodes _ _ _ _ _ _ C), <- app_assoc. apply NoDup_app_intro; [apply C|apply F|]. intros x X Y. apply (c_new _ _ _ _ _ _ C) in X as [_ X]. apply X. apply in_app_or in Y. exact Y.
    + rewrite (c_nodes _ _ _ _ _ _ C). apply F.
    + intros x X R. rewrite (c_exp _ _ _ _ _ _ C). destruct (inb x new) eqn:I; [reflexivity|]. apply K in X as [X|X]; [apply F; assumption|]. apply inb_in in X. congruence.
    + intros x X. rewrite St. apply F. rewrite K in X. tauto.
  - intros x. rewrite K, (c_new _ _ _ _ _ _ C). split; [tauto|]. intros [X|X]; [auto|]. destruct (find_node g x) eqn:Fx; [apply find_known in Fx; auto|apply find_unknown in Fx; auto].
Qed.

Lemma cbs_ok cur : forall rs g, fit g -> (forall a b c, In (a, b, c) rs -> b <> c /\ b <> root /\ c <> root) -> exists g', group_cbs cur rs g = Some g' /\ fit g' /\
  (forall x, known g' x <-> known g x \/ exists a b c, In (a, b, c) rs /\ (x = b \/ x = c)) /\ (forall x, state g' x = state g x) /\ node_list g' = node_list g /\ (exists new, plist g' = new ++ plist g) /\
  (forall e, In e (edges g') <-> In e (edges g) \/ exists a b c, In (a, b, c) rs /\ (e = {| src := cur; dst := c; normal := true |} \/ e = {| src := c; dst := b; normal := true |})).
Proof.
  induction rs as [|[[a b] c] rs IH]; intros g F T; cbn [group_cbs].
  - exists g. split; [reflexivity|]. split; [exact F|]. split; [intros x; split; [auto|intros [X|[? [? [? [[] _]]]]]; exact X]|]. split; [reflexivity|]. split; [reflexivity|]. split; [exists []; reflexivity|].
    intros e. split; [auto|intros [X|[? [? [? [[] _]]]]]; exact X].
  - destruct (T a b c (or_introl eq_refl)) as [T1 [T2 T3]]. cbn [fst snd]. destruct (cb_ok cur b c g F T1 T2 T3) as [g1 [new [E C]]]. rewrite E. cbn [obind].
    destruct (called_fit g cur b c g1 new C F T2 T3) as [F1 [K1 S1]]. destruct (IH g1 F1 (fun a b c I => T a b c (or_intror I))) as [g' [E' [F' [K' [S' [N' [[new' P'] E2]]]]]]]. exists g'.
    split; [exact E'|]. split; [exact F'|]. split.
    { intros x. rewrite K', K1. split.
      - intros [[X|X]|[a' [b' [c' [I X]]]]]; [auto|right; exists a, b, c; split; [left; reflexivity|exact X]|right; exists a', b', c'; split; [right; exact I|exact X]].
      - intros [X|[a' [b' [c' [[I|I] X]]]]]; [auto|injection I as <- <- <-; auto|right; eauto 6]. }
    split; [intros x; rewrite S'; apply S1|]. split; [rewrite N'; apply C|]. split; [exists (new' ++ new); rewrite P', (c_plist _ _ _ _ _ _ C), app_assoc; reflexivity|].
    intros e. rewrite E2, (c_edges _ _ _ _ _ _ C). cbn [In]. split.
    + intros [[X|[X|X]]|[a' [b' [c' [I X]]]]]; [right; exists a, b, c; auto|right; exists a, b, c; auto|auto|right; exists a', b', c'; auto].
    + intros [X|[a' [b' [c' [[I|I] X]]]]]; [auto|injection I as <- <- <-; destruct X as [-> | ->]; auto|right; eauto 6].
Qed.
End Circ.
