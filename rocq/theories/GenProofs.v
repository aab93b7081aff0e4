(** The execution of the graph: each command's work once and in order. *)
From Verif Require Import Base EntryModel EntrySpec EntryProofs ExecModel ExecSpec ExecProofs3 ExecProps GraphModel ExpandModel ExpandSpec GenModel GenSpec.

(** ** Starts and finishes *)
Section Count.
Context {WS : Type}.
Variable work : graph -> id -> WS -> WS -> bool -> Prop.
Variable kg : bool.

Definition finishes (n : id) (h : list event) : nat :=
  length (filter (fun e => match e with Finish m _ => m =? n | _ => false end) h).
Definition occ (n : id) (l : list id) : nat := length (filter (Nat.eqb n) l).

Lemma occ_app n a b : occ n (a ++ b) = occ n a + occ n b.
Proof. unfold occ. rewrite filter_app, app_length. reflexivity. Qed.

Definition balanced (s : @exec WS) : Prop := forall n, finishes n (hist s) + occ n (running s) = starts n (hist s).
Lemma starts_start n m h : starts n (Start m :: h) = (if m =? n then S (starts n h) else starts n h).
Proof. unfold starts. cbn. destruct (m =? n); reflexivity. Qed.
Lemma starts_finish n m ok h : starts n (Finish m ok :: h) = starts n h.
Proof. reflexivity. Qed.
Lemma finishes_start n m h : finishes n (Start m :: h) = finishes n h.
Proof. reflexivity. Qed.
Lemma finishes_finish n m ok h : finishes n (Finish m ok :: h) = (if m =? n then S (finishes n h) else finishes n h).
Proof. unfold finishes. cbn. destruct (m =? n); reflexivity. Qed.
Lemma occ_cons n m l : occ n (m :: l) = (if n =? m then S (occ n l) else occ n l).
Proof. unfold occ. cbn. destruct (n =? m); reflexivity. Qed.

Lemma with_graph_hist (s : @exec WS) o p : hist (with_graph s o p) = hist s /\ running (with_graph s o p) = running s /\ ws (with_graph s o p) = ws s.
Proof. destruct o; repeat split. Qed.

(** What a step does to the history, the workers and the worker's state. *)
Lemma step_cases s s' : step work kg s s' ->
  (hist s' = hist s /\ running s' = running s /\ ws s' = ws s) \/
  (exists n, hist s' = Start n :: hist s /\ running s' = n :: running s /\ ws s' = ws s) \/
  (exists n ok l r, running s = l ++ n :: r /\ running s' = l ++ r /\ hist s' = Finish n ok :: hist s /\ work (gr s) n (ws s) (ws s') ok).
Proof.
  intros H. destruct H as [s n p At C Pl|s At C|s n ok r At C Fi|s At C|s n l r ws' ok Ru W|s De]; try (left; repeat split; fail).
  - unfold loop_body. destruct (has_incoming (gr s) n); [left; apply with_graph_hist|]. destruct (negb (expanded (gr s) n)); [left; apply with_graph_hist|].
    destruct (off_plist (gr s) n); [|left; repeat split]. destruct (free s); [left; repeat split|]. right. left. exists n. repeat split.
  - left. unfold reap. destruct ok; match goal with |- context [with_graph ?x ?o ?p] => destruct (with_graph_hist x o p) as [-> [-> ->]] end; repeat split.
  - right. right. exists n, ok, l, r. repeat split; assumption.
Qed.

Lemma balanced_step s s' : step work kg s s' -> balanced s -> balanced s'.
Proof.
  intros H Bs n. specialize (Bs n). destruct (step_cases _ _ H) as [[-> [-> _]]|[[m [-> [-> _]]]|[m [ok [l [r [R [-> [-> _]]]]]]]]].
  - exact Bs.
  - rewrite finishes_start, starts_start, occ_cons, (Nat.eqb_sym n m). destruct (m =? n); lia.
  - rewrite R, occ_app, occ_cons in Bs. rewrite finishes_finish, starts_finish, occ_app. rewrite (Nat.eqb_sym n m) in Bs. destruct (m =? n); lia.
Qed.

(** In every suffix of the history. *)
Definition suffix_ok (h : list event) : Prop := forall h1 h2 n, h = h1 ++ h2 -> finishes n h2 <= starts n h2.
Lemma suffix_step s s' : step work kg s s' -> balanced s -> suffix_ok (hist s) -> suffix_ok (hist s').
Proof.
  intros H Bs So h1 h2 n E. destruct h1 as [|e h1].
  - cbn in E. subst h2. pose proof (balanced_step _ _ H Bs n). lia.
  - destruct (step_cases _ _ H) as [[Hh _]|[[m [Hh _]]|[m [ok [l [r [_ [_ [Hh _]]]]]]]]]; rewrite Hh in E.
    + exact (So _ _ _ E).
    + injection E as _ E. exact (So _ _ _ E).
    + injection E as _ E. exact (So _ _ _ E).
Qed.

Lemma start_facts jobs g (w : WS) : hist (start jobs g w) = [] /\ running (start jobs g w) = [] /\ ws (start jobs g w) = w.
Proof. unfold start. destruct (node_list g) as [|r l]; [repeat split|]. match goal with |- context [with_graph ?x ?o ?p] => destruct (with_graph_hist x o p) as [-> [-> ->]] end. repeat split. Qed.

Lemma reach_counts jobs g w s : steps work kg (start jobs g w) s -> balanced s /\ suffix_ok (hist s).
Proof.
  intros H. remember (start jobs g w) as s0 eqn:E0. induction H as [s|s s' s'' H IH St].
  - subst s. destruct (start_facts jobs g w) as [Eh [Er _]]. split.
    + intros n. rewrite Eh, Er. reflexivity.
    + rewrite Eh. intros h1 h2 n E. apply eq_sym, app_eq_nil in E as [_ ->]. cbn. lia.
  - destruct (IH E0) as [B1 S1]. split; [eapply balanced_step; eauto|eapply suffix_step; eauto].
Qed.

(** The nodes in the order in which they finished. *)
Fixpoint finished (h : list event) : list id :=
  match h with
  | [] => []
  | Finish n _ :: r => finished r ++ [n]
  | Start _ :: r => finished r
  end.
Lemma finished_app a b : finished (a ++ b) = finished b ++ finished a.
Proof. induction a as [|[m|m ok] a IH]; cbn; [rewrite app_nil_r; reflexivity|exact IH|rewrite IH, app_assoc; reflexivity]. Qed.
Lemma finishes_occ n h : finishes n h = occ n (finished h).
Proof.
  induction h as [|[m|m ok] h IH]; [reflexivity|cbn [finished]; rewrite finishes_start; exact IH|].
  cbn [finished]. rewrite finishes_finish, occ_app, occ_cons, (Nat.eqb_sym n m). unfold occ at 2. cbn. destruct (m =? n); lia.
Qed.
Lemma occ_in n l : 0 < occ n l <-> In n l.
Proof.
  unfold occ. split.
  - intros H. destruct (filter (Nat.eqb n) l) as [|x r] eqn:E; [cbn in H; lia|].
    assert (In x (filter (Nat.eqb n) l)) as I by (rewrite E; left; reflexivity). apply filter_In in I as [I Q]. apply Nat.eqb_eq in Q. subst. exact I.
  - intros H. assert (In n (filter (Nat.eqb n) l)) as I by (apply filter_In; split; [exact H|apply Nat.eqb_refl]).
    destruct (filter (Nat.eqb n) l); [destruct I|cbn; lia].
Qed.
Lemma finished_in n h : In n (finished h) <-> exists ok, In (Finish n ok) h.
Proof.
  induction h as [|[m|m ok] h IH]; cbn [finished].
  - cbn. split; [intros []|intros [ok []]].
  - rewrite IH. split; intros [ok H]; exists ok; [right; exact H|destruct H as [H|H]; [discriminate|exact H]].
  - rewrite in_app_iff, IH. cbn. split.
    + intros [[o H]|[<-|[]]]; eauto.
    + intros [o [H|H]]; [injection H as -> ->; auto|eauto].
Qed.
Lemma occ_nodup (p : id -> bool) l : (forall n, p n = true -> occ n l <= 1) -> NoDup (filter p l).
Proof.
  induction l as [|m l IH]; intros H; [constructor|]. cbn.
  assert (forall n, p n = true -> occ n l <= 1) as H' by (intros n N; specialize (H n N); rewrite occ_cons in H; destruct (n =? m); lia).
  destruct (p m) eqn:P; [|exact (IH H')]. constructor; [|exact (IH H')]. intros I. apply filter_In in I as [I _]. apply occ_in in I.
  specialize (H m P). rewrite occ_cons, Nat.eqb_refl in H. lia.
Qed.
End Count.
