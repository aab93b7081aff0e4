(** How queueing an event changes what the queue does to each file. *)
From Verif Require Import Base MonModel MonSpec MonProofs.

Definition core (m : entry) := (eid m, ekey m, ecookie m).
Definition apart (l : list entry) : Prop := forall m a, In m l -> efrom m = Some a -> a <> ekey m.

(** ephemeral_event seen from its own file. *)
Fixpoint cut (ke : mask) (cad rc : bool) (l : list ef) : mask * bool * list ef :=
  match l with
  | [] => (ke, rc, [])
  | Gone :: r => let '(ke', rc', r') := cut ke cad rc r in (ke', rc', Gone :: r')
  | Own x :: r =>
      if is_new x && is_del ke then cut ke true true r
      else if is_del x && is_new ke then cut KModify true rc r
      else if cad then cut ke cad rc r
      else let '(ke', rc', r') := cut ke cad rc r in (ke', rc', Own x :: r')
  end.

Lemma eph_core k ke cad rc l : map core (snd (eph k ke cad rc l)) = map core l.
Proof.
  revert ke cad rc. induction l as [|m l IH]; intros ke cad rc; cbn [eph]; [reflexivity|].
  destruct (key_eqb (ekey m) k); [destruct (emask m) as [x|]; [destruct (is_new x && is_del ke); [|destruct (is_del x && is_new ke); [|destruct cad]]|]|].
  all: match goal with |- context [eph ?a ?b ?c ?d ?z] => specialize (IH b c d); destruct (eph a b c d z) as [[k1 r1] l1] end; cbn [snd map] in *; rewrite IH; reflexivity.
Qed.
Lemma eph_from k ke cad rc l m a : In m (snd (eph k ke cad rc l)) -> efrom m = Some a -> exists m0, In m0 l /\ efrom m0 = Some a /\ ekey m0 = ekey m.
Proof.
  revert ke cad rc. induction l as [|x l IH]; intros ke cad rc; cbn [eph]; [intros []|]. intros H F.
  assert (K : m = x \/ m = masked x \/ exists ke cad rc, In m (snd (eph k ke cad rc l))).
  { destruct (key_eqb (ekey x) k); [destruct (emask x) as [y|]; [destruct (is_new y && is_del ke); [|destruct (is_del y && is_new ke); [|destruct cad]]|]|];
    match type of H with context [eph ?a ?b ?c ?d l] =>
      assert (W : In m (snd (eph a b c d l)) -> exists ke' cad' rc', In m (snd (eph k ke' cad' rc' l))) by (intros Z; exists b, c, d; exact Z);
      destruct (eph a b c d l) as [[k1 r1] l1] end;
    cbn [snd] in *; destruct H as [<-|H]; auto. }
  destruct K as [->|[->|[ke' [cad' [rc' K]]]]].
  - exists x. cbn. auto.
  - exists x. cbn in *. auto.
  - destruct (IH _ _ _ K F) as [m0 [I0 [F0 E0]]]. exists m0. cbn. auto.
Qed.
Lemma eph_apart k ke cad rc l : apart l -> apart (snd (eph k ke cad rc l)).
Proof. intros A m a I F. destruct (eph_from _ _ _ _ _ _ _ I F) as [m0 [I0 [F0 E0]]]. rewrite <- E0. exact (A _ _ I0 F0). Qed.

Lemma eff1_own k m x : emask m = Some x -> key_eqb (ekey m) k = true -> (forall a, efrom m = Some a -> a <> ekey m) -> eff1 k m = [Own x].
Proof.
  intros M K A. unfold eff1. rewrite M, K. destruct x; try reflexivity. destruct (efrom m) as [a|] eqn:F; [|reflexivity]. apply key_eqb_eq in K.
  rewrite key_eqb_ne; [reflexivity|]. rewrite <- K. apply A. reflexivity.
Qed.
Lemma eff1_masked k m : eff1 k (masked m) = []. Proof. reflexivity. Qed.
Lemma eff1_other k m : key_eqb (ekey m) k = false -> eff1 k m = [] \/ eff1 k m = [Gone].
Proof. intros K. unfold eff1. rewrite K. destruct (emask m) as [[]|]; auto. destruct (efrom m) as [a|]; auto. cbn. destruct (key_eqb a k); auto. Qed.

Lemma eph_cut k ke cad rc l : apart l -> cut ke cad rc (eff k l) = let '(ke', rc', l') := eph k ke cad rc l in (ke', rc', eff k l').
Proof.
  revert ke cad rc. induction l as [|m l IH]; intros ke cad rc A; cbn [eph eff flat_map]; [reflexivity|]. fold (eff k l).
  assert (A' : apart l) by (intros x a I; apply A; right; exact I).
  assert (Am : forall a, efrom m = Some a -> a <> ekey m) by (intros a F; exact (A m a (or_introl eq_refl) F)).
  destruct (key_eqb (ekey m) k) eqn:K.
  - destruct (emask m) as [x|] eqn:M.
    + pose proof (eff1_own k m x M K Am) as E1. rewrite E1. cbn [app cut]. destruct (is_new x && is_del ke); [|destruct (is_del x && is_new ke); [|destruct cad]].
      all: rewrite (IH _ _ _ A'); match goal with |- context [eph ?a ?b ?c ?d ?z] => destruct (eph a b c d z) as [[k1 r1] l1] end; unfold eff; cbn [flat_map]; rewrite ?eff1_masked, ?E1; reflexivity.
    + assert (E1 : eff1 k m = []) by (unfold eff1; rewrite M; reflexivity). rewrite E1. cbn [app]. rewrite (IH _ _ _ A'). destruct (eph k ke cad rc l) as [[k1 r1] l1]. unfold eff; cbn [flat_map]. rewrite E1. reflexivity.
  - destruct (eff1_other k m K) as [E1|E1]; rewrite E1; cbn [app cut]; rewrite (IH _ _ _ A'); destruct (eph k ke cad rc l) as [[k1 r1] l1]; unfold eff; cbn [flat_map]; rewrite E1; reflexivity.
Qed.

(** ... and from the other files: some of their Gone may disappear. *)
Inductive dropg : list ef -> list ef -> Prop :=
| dg_nil : dropg [] []
| dg_keep x l l' : dropg l l' -> dropg (x :: l) (x :: l')
| dg_drop l l' : dropg l l' -> dropg (Gone :: l) l'.
Lemma dropg_refl l : dropg l l. Proof. induction l; constructor; auto. Qed.
Lemma dropg_app l1 l2 r1 r2 : dropg l1 l2 -> dropg r1 r2 -> dropg (l1 ++ r1) (l2 ++ r2).
Proof. intros H. induction H; cbn; intros; [auto|constructor; auto|constructor; auto]. Qed.
Lemma dropg_nil l : dropg [] l -> l = []. Proof. inversion 1; auto. Qed.
Lemma dropg_last l l' r x : dropg l l' -> l = r ++ [x] -> x <> Gone -> exists r', l' = r' ++ [x].
Proof.
  intros H. revert r. induction H as [|y l l' H IH|l l' H IH]; intros r E N.
  - destruct r; discriminate.
  - destruct r as [|z r]; cbn in E; injection E as -> E; [subst l; apply dropg_nil in H; subst l'; exists []; reflexivity|]. destruct (IH r E N) as [r' ->]. exists (z :: r'). reflexivity.
  - destruct r as [|z r]; cbn in E; injection E as E1 E; [congruence|]. exact (IH r E N).
Qed.

Lemma eff1_dropg x m : key_eqb (ekey m) x = false -> dropg (eff1 x m) [].
Proof. intros K. destruct (eff1_other x m K) as [-> | ->]; repeat constructor. Qed.
Lemma eph_dropg k x ke cad rc l : x <> k -> dropg (eff x l) (eff x (snd (eph k ke cad rc l))).
Proof.
  intros N. revert ke cad rc. induction l as [|m l IH]; intros ke cad rc; [constructor|]. cbn [eph eff flat_map]. fold (eff x l).
  destruct (key_eqb (ekey m) k) eqn:K.
  - assert (Kx : key_eqb (ekey m) x = false) by (apply key_eqb_eq in K; apply key_eqb_ne; congruence).
    destruct (emask m) as [y|]; [destruct (is_new y && is_del ke); [|destruct (is_del y && is_new ke); [|destruct cad]]|];
    match goal with |- context [eph ?a ?b ?c ?d l] => specialize (IH b c d); destruct (eph a b c d l) as [[k1 r1] l1] end; cbn [snd eff flat_map] in *; fold (eff x l1);
    (apply dropg_app; [|exact IH]); rewrite ?eff1_masked; first [apply dropg_refl|apply eff1_dropg; exact Kx].
  - specialize (IH ke cad rc). destruct (eph k ke cad rc l) as [[k1 r1] l1]. cbn [snd eff flat_map] in *. fold (eff x l1). apply dropg_app; [apply dropg_refl|exact IH].
Qed.
(** None disappears if no IN_MOVED_TO of this file is queued. *)
Lemma eff1_noto x m y : key_eqb (ekey m) x = false -> emask m = Some y -> y <> KTo -> eff1 x m = [].
Proof. intros K M N. unfold eff1. rewrite M, K. destruct y; try reflexivity. congruence. Qed.
Lemma eph_same k x ke cad rc l : x <> k -> apart l -> ~ In (Own KTo) (eff k l) -> eff x (snd (eph k ke cad rc l)) = eff x l.
Proof.
  intros N. revert ke cad rc. induction l as [|m l IH]; intros ke cad rc A T; [reflexivity|]. cbn [eff flat_map] in T. fold (eff k l) in T.
  assert (A' : apart l) by (intros y a I; apply A; right; exact I).
  assert (Am : forall a, efrom m = Some a -> a <> ekey m) by (intros a F; exact (A m a (or_introl eq_refl) F)).
  assert (T' : ~ In (Own KTo) (eff k l)) by (intros I; apply T, in_or_app; auto).
  cbn [eph eff flat_map]. fold (eff x l). destruct (key_eqb (ekey m) k) eqn:K.
  - assert (Kx : key_eqb (ekey m) x = false) by (apply key_eqb_eq in K; apply key_eqb_ne; congruence).
    destruct (emask m) as [y|] eqn:M.
    + assert (y <> KTo) as Ny by (intros ->; apply T, in_or_app; left; rewrite (eff1_own k m KTo M K Am); left; reflexivity).
      pose proof (eff1_noto x m y Kx M Ny) as E1. rewrite E1. destruct (is_new y && is_del ke); [|destruct (is_del y && is_new ke); [|destruct cad]];
      match goal with |- context [eph ?a ?b ?c ?d l] => specialize (IH b c d A' T'); destruct (eph a b c d l) as [[k1 r1] l1] end; unfold eff in *; cbn [snd flat_map] in *; rewrite ?eff1_masked, ?E1, IH; reflexivity.
    + specialize (IH ke cad rc A' T'). destruct (eph k ke cad rc l) as [[k1 r1] l1]. unfold eff in *; cbn [snd flat_map] in *. rewrite IH. reflexivity.
  - specialize (IH ke cad rc A' T'). destruct (eph k ke cad rc l) as [[k1 r1] l1]. unfold eff in *; cbn [snd flat_map] in *. rewrite IH. reflexivity.
Qed.
Lemma eph_snoc k ke cad rc l m : key_eqb (ekey m) k = false ->
  eph k ke cad rc (l ++ [m]) = let '(ke', rc', l') := eph k ke cad rc l in (ke', rc', l' ++ [m]).
Proof.
  intros K. revert ke cad rc. induction l as [|y l IH]; intros ke cad rc; cbn [app eph]; [rewrite K; reflexivity|].
  destruct (key_eqb (ekey y) k); [destruct (emask y) as [z|]; [destruct (is_new z && is_del ke); [|destruct (is_del z && is_new ke); [|destruct cad]]|]|];
  rewrite IH; match goal with |- context [eph ?a ?b ?c ?d l] => destruct (eph a b c d l) as [[k1 r1] l1] end; reflexivity.
Qed.

(** Lists of effects on which the loop changes nothing. *)
Lemma eph_quiet k ke l : apart l -> (forall y, In (Own y) (eff k l) -> is_new y && is_del ke = false /\ is_del y && is_new ke = false) ->
  forall rc, eph k ke false rc l = (ke, rc, l).
Proof.
  induction l as [|m l IH]; intros A Q rc; cbn [eph]; [reflexivity|]. cbn [eff flat_map] in Q. fold (eff k l) in Q.
  assert (A' : apart l) by (intros y a I; apply A; right; exact I).
  assert (Am : forall a, efrom m = Some a -> a <> ekey m) by (intros a F; exact (A m a (or_introl eq_refl) F)).
  rewrite (IH A' (fun y I => Q y (in_or_app _ _ _ (or_intror I)))).
  destruct (key_eqb (ekey m) k) eqn:K; [|reflexivity]. destruct (emask m) as [x|] eqn:M; [|reflexivity].
  destruct (Q x) as [Q1 Q2]; [apply in_or_app; left; rewrite (eff1_own k m x M K Am); left; reflexivity|]. rewrite Q1, Q2. reflexivity.
Qed.
Definition owns (l : list ef) : Prop := Forall (fun e => e <> Gone) l.
Lemma cut_cad_del ke l : is_del ke = true -> owns l -> cut ke true true l = (ke, true, []).
Proof.
  intros D. induction l as [|[x|] l IH]; intros H; [reflexivity| |inversion H; congruence]. inversion H as [|? ? _ H']; subst. cbn. rewrite D. rewrite (IH H').
  destruct (is_new x); [reflexivity|]. replace (is_new ke) with false by (destruct ke; try discriminate; reflexivity). rewrite andb_false_r. reflexivity.
Qed.
(** A removal wipes the file's events from its creation on. *)
Lemma cut_created ke pre post : is_del ke = true -> (forall x, In (Own x) pre -> is_new x = false) -> owns post -> forall n, is_new n = true ->
  cut ke false false (pre ++ Own n :: post) = (ke, true, pre).
Proof.
  intros D P O n N. induction pre as [|[x|] pre IH]; cbn.
  - rewrite N, D. cbn. apply cut_cad_del; auto.
  - rewrite (P x) by (left; reflexivity). cbn. replace (is_new ke) with false by (destruct ke; try discriminate; reflexivity). rewrite andb_false_r.
    rewrite IH; [reflexivity|]. intros y I. apply P. right. exact I.
  - rewrite IH; [reflexivity|]. intros y I. apply P. right. exact I.
Qed.
Definition is_gone (e : ef) : bool := match e with Gone => true | _ => false end.
Lemma cut_cad_new l rc : cut KModify true rc l = (KModify, rc, filter is_gone l).
Proof. induction l as [|[x|] l IH]; cbn; [reflexivity| |rewrite IH; reflexivity]. rewrite !andb_false_r. exact IH. Qed.
(** A creation after a removal wipes the removal and what follows. *)
Lemma cut_removed ke pre d post : is_new ke = true -> (forall x, In (Own x) pre -> is_del x = false) -> is_del d = true ->
  cut ke false false (pre ++ Own d :: post) = (KModify, false, pre ++ filter is_gone post).
Proof.
  intros N P D. induction pre as [|[x|] pre IH]; cbn.
  - replace (is_del ke) with false by (destruct ke; try discriminate; reflexivity). rewrite andb_false_r, D, N. cbn. apply cut_cad_new.
  - replace (is_del ke) with false by (destruct ke; try discriminate; reflexivity). rewrite andb_false_r, (P x) by (left; reflexivity). cbn.
    rewrite IH; [reflexivity|]. intros y I. apply P. right. exact I.
  - rewrite IH; [reflexivity|]. intros y I. apply P. right. exact I.
Qed.
(** Whatever the list, the mask of a creation stays new or becomes modify. *)
Lemma cut_new_mask ke cad rc l : is_del ke = false -> forall k1 r1 l1, cut ke cad rc l = (k1, r1, l1) -> (k1 = ke \/ k1 = KModify) /\ r1 = rc.
Proof.
  revert ke cad rc. induction l as [|[x|] l IH]; intros ke cad rc D k1 r1 l1 E; cbn in E.
  - injection E as <- <- <-. auto.
  - rewrite D, andb_false_r in E. destruct (is_del x && is_new ke).
    + destruct (IH KModify true rc eq_refl _ _ _ E) as [[H|H] R]; auto.
    + destruct cad; [eauto|]. destruct (cut ke false rc l) as [[k2 r2] l2] eqn:C. injection E as <- <- <-. eauto.
  - destruct (cut ke cad rc l) as [[k2 r2] l2] eqn:C. injection E as <- <- <-. eauto.
Qed.
Lemma cut_del_mask ke cad rc l : is_new ke = false -> forall k1 r1 l1, cut ke cad rc l = (k1, r1, l1) -> k1 = ke.
Proof.
  revert cad rc. induction l as [|[x|] l IH]; intros cad rc D k1 r1 l1 E; cbn in E.
  - injection E as <- <- <-. auto.
  - rewrite D, andb_false_r in E. destruct (is_new x && is_del ke); [eauto|]. destruct cad; [eauto|]. destruct (cut ke false rc l) as [[k2 r2] l2] eqn:C. injection E as <- <- <-. eauto.
  - destruct (cut ke cad rc l) as [[k2 r2] l2] eqn:C. injection E as <- <- <-. eauto.
Qed.
