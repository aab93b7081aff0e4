From Verif Require Import Base ConfigModel EntryModel EntrySpec.

Lemma walks_app T s a m : walks T s a m -> forall b e, walks T m b e -> walks T s (a ++ b) e.
Proof. induction 1; intros b e' H'; cbn; [exact H'|apply w_stay; auto|eapply w_up; eauto|eapply w_down; eauto]. Qed.

(** Walking is unambiguous. *)
Lemma walks_fun T top member : directory_tree T top member -> forall s cs e1, walks T s cs e1 -> forall e2, walks T s cs e2 -> e1 = e2.
Proof.
  intros D s cs e1 H1. induction H1 as [s|s cs e H IH|s p cs e P H IH|s c cs e P N H IH]; intros e2 H2.
  - inversion H2. reflexivity.
  - remember (B "." :: cs) as l eqn:El. destruct H2 as [s|s cs2 e2 H2|s p cs2 e2 P2 H2|s c cs2 e2 P2 N2 H2]; try discriminate El.
    + injection El as ->. apply IH, H2.
    + injection El as E1 E2. destruct N2 as [_ [N2 _]]. contradiction.
  - remember (B ".." :: cs) as l eqn:El. destruct H2 as [s|s cs2 e2 H2|s p2 cs2 e2 P2 H2|s c cs2 e2 P2 N2 H2]; try discriminate El.
    + injection El as ->. rewrite P in P2. injection P2 as <-. apply IH, H2.
    + injection El as E1 E2. destruct N2 as [_ [_ [N2 _]]]. contradiction.
  - remember (name T c :: cs) as l eqn:El. destruct H2 as [s|s cs2 e2 H2|s p2 cs2 e2 P2 H2|s c2 cs2 e2 P2 N2 H2]; try discriminate El.
    + injection El as E1 E2. destruct N as [_ [N _]]. symmetry in E1. contradiction.
    + injection El as E1 E2. destruct N as [_ [_ [N _]]]. symmetry in E1. contradiction.
    + injection El as E1 ->. assert (c2 = c) as -> by (eapply (dt_unique _ _ _ D); eauto). apply IH, H2.
Qed.

(** Full paths. *)
Fixpoint chain (T : tree) (p : option nat) (l : list nat) : Prop :=
  match l with
  | [] => True
  | x :: t => parent T x = p /\ chain T (Some x) t
  end.
Lemma chain_app T l : forall p m, chain T p (l ++ m) <-> chain T p l /\ chain T (match rev l with [] => p | x :: _ => Some x end) m.
Proof.
  induction l as [|x l IH]; intros p m; cbn; [tauto|]. rewrite IH. destruct (rev l) as [|y r] eqn:R; cbn; [tauto|]. tauto.
Qed.
Lemma full_chain T fuel : forall t l, full_path T fuel t = Some l -> chain T None l /\ exists m, l = m ++ [t].
Proof.
  induction fuel as [|fuel IH]; intros t l H; [discriminate|]. cbn in H. destruct (parent T t) as [p|] eqn:P.
  - destruct (full_path T fuel p) as [lp|] eqn:F; [|discriminate]. injection H as <-. destruct (IH _ _ F) as [C [m ->]].
    split; [|eauto]. apply chain_app. split; [exact C|]. rewrite rev_app_distr. cbn. auto.
  - injection H as <-. split; [cbn; auto|exists []; reflexivity].
Qed.
Lemma full_some T (member : nat -> Prop) (rank : nat -> nat) :
  (forall t p, member t -> parent T t = Some p -> rank p < rank t /\ member p) ->
  forall fuel t, member t -> rank t < fuel -> exists l, full_path T fuel t = Some l /\ forall x, In x l -> member x.
Proof.
  intros R. induction fuel as [|fuel IH]; intros t M L; [lia|]. cbn. destruct (parent T t) as [p|] eqn:P.
  - destruct (R t p M P) as [Rp Mp]. destruct (IH p Mp ltac:(lia)) as [l [-> H]]. exists (l ++ [t]). split; [reflexivity|].
    intros x X. apply in_app_or in X as [X|[<-|[]]]; auto.
  - exists [t]. split; [reflexivity|]. intros x [<-|[]]. exact M.
Qed.

Lemma strip_spec a : forall b u d, strip_common a b = (u, d) -> exists c, a = c ++ u /\ b = c ++ d.
Proof.
  induction a as [|x a IH]; intros b u d H; [injection H as <- <-; exists []; auto|].
  destruct b as [|y b]; [injection H as <- <-; exists []; auto|]. cbn in H. destruct (x =? y) eqn:E.
  - apply Nat.eqb_eq in E. subst y. destruct (IH b u d H) as [c [-> ->]]. exists (x :: c). auto.
  - injection H as <- <-. exists []. auto.
Qed.
Lemma strip_head a b u d x y : strip_common (x :: a) (y :: b) = (u, d) -> x = y -> strip_common a b = (u, d).
Proof. intros H ->. cbn in H. rewrite Nat.eqb_refl in H. exact H. Qed.

(** Up from the end of a chain to the parent of its first. *)
Lemma walk_up T l : forall p, chain T (Some p) l -> walks T (last l p) (map (fun _ => B "..") l) p.
Proof.
  intros p. revert l. refine (rev_ind _ _ _); [intros _; constructor|]. intros x l IH C. rewrite last_last, map_app.
  apply chain_app in C as [C1 C2]. cbn in C2. destruct C2 as [P _].
  assert (map (fun _ => B "..") l ++ map (fun _ => B "..") [x] = B ".." :: map (fun _ : nat => B "..") l) as ->.
  { clear. induction l; cbn in *; congruence. }
  apply (w_up T x (last l p)).
  - rewrite P. destruct l as [|y l]; [reflexivity|]. destruct (rev (y :: l)) as [|z r] eqn:R; [apply (f_equal (@length nat)) in R; rewrite rev_length in R; discriminate|].
    apply (f_equal (@rev nat)) in R. rewrite rev_involutive in R. cbn in R. rewrite R, last_last. reflexivity.
  - apply IH, C1.
Qed.
Lemma walk_down T l : forall p, chain T (Some p) l -> Forall (fun x => plain_name (name T x)) l -> walks T p (map (name T) l) (last l p).
Proof.
  induction l as [|x l IH]; intros p C F; [constructor|]. destruct C as [P C]. inversion F as [|? ? Fx Fl]; subst.
  cbn [map]. apply (w_down T p x); [exact P|exact Fx|]. destruct l as [|y l]; [constructor|]. change (last (x :: y :: l) p) with (last (y :: l) p).
  assert (last (y :: l) p = last (y :: l) x) as ->; [|apply IH; assumption]. clear. revert y. induction l; intros y; [reflexivity|]. apply IHl.
Qed.

Lemma append_slashed l : append_parts "/"%char true l = slashed l.
Proof.
  assert (forall l, append_parts "/"%char false l = match l with [] => [] | _ => "/"%char :: slashed l end) as K.
  { clear. induction l as [|n l IH]; [reflexivity|]. cbn [append_parts]. rewrite IH. destruct l; [cbn; rewrite app_nil_r; reflexivity|]. reflexivity. }
  destruct l as [|n l]; [reflexivity|]. cbn [append_parts]. rewrite K. destruct l; [cbn; apply app_nil_r|reflexivity].
Qed.

Lemma relative_leads T top member fuel s e : directory_tree T top member -> member s -> member e ->
  forall r, get_relative_dir T fuel s e = Some r -> leads T s r e.
Proof.
  intros D Ms Me r H. unfold get_relative_dir, get_relative_dir_sep in H.
  destruct (full_path T fuel s) as [a|] eqn:Fa; [|discriminate]. destruct (full_path T fuel e) as [b|] eqn:Fb; [|discriminate]. injection H as <-.
  destruct (full_chain _ _ _ _ Fa) as [Ca [ma Ea]]. destruct (full_chain _ _ _ _ Fb) as [Cb [mb Eb]].
  assert (forall fuel t l, member t -> full_path T fuel t = Some l -> (forall x, In x l -> member x) /\ exists l', l = top :: l') as Top.
  { clear - D. induction fuel as [|fuel IH]; intros t l M F; [discriminate|]. cbn in F. destruct (parent T t) as [p|] eqn:P.
    - destruct (full_path T fuel p) as [lp|] eqn:F2; [|discriminate]. injection F as <-. destruct (IH p lp (dt_up _ _ _ D t p M P) F2) as [A [l' ->]].
      split; [|exists (l' ++ [t]); reflexivity]. intros x X. apply in_app_or in X as [X|[<-|[]]]; auto.
    - injection F as <-. pose proof (proj1 (dt_top _ _ _ D t M) P) as ->. split; [intros x [<-|[]]; exact M|exists []; reflexivity]. }
  destruct (Top _ _ _ Ms Fa) as [_ [a' ->]]. destruct (Top _ _ _ Me Fb) as [Mb [b' ->]].
  unfold relative_text. destruct (strip_common (top :: a') (top :: b')) as [u d] eqn:S. apply strip_head in S; [|reflexivity].
  apply strip_spec in S as [c [-> ->]].
  (* the last common entry *)
  set (k := last c top).
  assert (chain T (Some k) u /\ chain T (Some k) d) as [Cu Cd].
  { destruct Ca as [_ Ca], Cb as [_ Cb]. apply chain_app in Ca as [_ Ca], Cb as [_ Cb].
    assert (match rev c with [] => Some top | x :: _ => Some x end = Some k) as E.
    { unfold k. destruct (rev c) as [|z r] eqn:R.
      - apply (f_equal (@rev nat)) in R. rewrite rev_involutive in R. cbn in R. subst c. reflexivity.
      - apply (f_equal (@rev nat)) in R. rewrite rev_involutive in R. cbn in R. rewrite R, last_last. reflexivity. }
    rewrite E in Ca, Cb. auto. }
  assert (forall u m t, top :: c ++ u = m ++ [t] -> last u k = t) as L.
  { clear. intros u m t E. assert (last (top :: c ++ u) top = t) as <- by (rewrite E; apply last_last).
    destruct u as [|y u].
    - rewrite app_nil_r. unfold k. destruct c; reflexivity.
    - assert (forall (l : list nat) x y u d, last (x :: l ++ y :: u) d = last (y :: u) d) as K.
      { clear. induction l as [|z l IH]; intros x y u d; [reflexivity|]. change (last (x :: (z :: l) ++ y :: u) d) with (last (z :: l ++ y :: u) d). apply IH. }
      rewrite K. clear. revert y. induction u; intros y; [reflexivity|]. apply IHu. }
  assert (Fd : Forall (fun x => plain_name (name T x)) d).
  { apply Forall_forall. intros x X. apply (dt_name _ _ _ D); [apply Mb; right; apply in_or_app; auto|]. intros ->.
    assert (exists p, parent T top = Some p) as [p P]; [|rewrite (proj2 (dt_top _ _ _ D top (Mb top (or_introl eq_refl))) eq_refl) in P; discriminate].
    clear - Cd X. revert Cd. generalize k. clear k. induction d as [|y d IH]; intros k C; [destruct X|]. destruct C as [P C]. destruct X as [->|X]; eauto. }
  assert (W : walks T s (map (fun _ => B "..") u ++ map (name T) d) e).
  { apply (walks_app T s _ k).
    - rewrite <- (L u ma s Ea). apply walk_up, Cu.
    - rewrite <- (L d mb e Eb). apply walk_down; assumption. }
  assert (F : Forall (fun x => ~ In "/"%char x) (map (fun _ => B "..") u ++ map (name T) d)).
  { apply Forall_app. split; [apply Forall_forall; intros x X; apply in_map_iff in X as [? [<- _]]; cbn; intuition discriminate|].
    apply Forall_forall. intros x X. apply in_map_iff in X as [y [<- Y]]. rewrite Forall_forall in Fd. apply (Fd y Y). }
  destruct (map (fun _ => B "..") u ++ map (name T) d) as [|n l] eqn:El.
  - exists [B "."]. split; [discriminate|]. split; [apply Forall_cons; [cbn; intuition discriminate|apply Forall_nil]|]. split; [reflexivity|]. apply w_stay, W.
  - exists (n :: l). split; [discriminate|]. split; [exact F|]. split; [apply append_slashed|exact W].
Qed.

(** Absolute text. *)
Lemma snprint_spec T len fuel : forall t text rc, snprint T fuel len t = Ok (text, rc) -> rc < len ->
  exists l, full_path T fuel t = Some l /\ text = concat (map (fun x => "/"%char :: name T x) (tl l)) /\ rc = length text.
Proof.
  induction fuel as [|fuel IH]; intros t text rc H L; [discriminate|]. cbn [snprint full_path] in H |- *. destruct (parent T t) as [p|] eqn:P.
  - destruct (snprint T fuel len p) as [[tx r]| | |] eqn:E; try discriminate. destruct (Nat.ltb_spec len r) as [Lr|Lr]; [discriminate|].
    injection H as <- <-. destruct (IH p tx r E ltac:(cbn [length] in L; lia)) as [l [Fl [-> Er]]]. rewrite Fl. exists (l ++ [t]). cbn [option_map]. split; [reflexivity|].
    set (tx := concat _) in *. assert (concat (map (fun x => "/"%char :: name T x) (tl (l ++ [t]))) = tx ++ "/"%char :: name T t) as ->.
    { assert (l <> []) as N by (intros ->; destruct (full_chain _ _ _ _ Fl) as [_ [m Bad]]; destruct m; discriminate).
      destruct l as [|x l]; [contradiction|]. cbn [app tl]. rewrite map_app, concat_app. cbn. rewrite app_nil_r. reflexivity. }
    rewrite firstn_all2 by (rewrite app_length; cbn [length]; cbn [length] in L; lia). split; [reflexivity|]. rewrite app_length. cbn [length]. lia.
  - injection H as <- <-. exists [t]. auto.
Qed.

(** A text divides at the slashes in one way. *)
Lemma slashed_head c cs : Forall (fun c => ~ In "/"%char c) (c :: cs) -> forall d ds, Forall (fun c => ~ In "/"%char c) (d :: ds) ->
  slashed (c :: cs) = slashed (d :: ds) -> c = d.
Proof.
  intros Fc d ds Fd E. apply Forall_inv in Fc. apply Forall_inv in Fd.
  assert (exists r1, slashed (c :: cs) = c ++ r1 /\ (r1 = [] \/ exists t, r1 = "/"%char :: t)) as [r1 [E1 R1]].
  { destruct cs; [exists []; cbn; rewrite app_nil_r; auto|]. exists ("/"%char :: slashed (l :: cs)). split; [reflexivity|right; eauto]. }
  assert (exists r2, slashed (d :: ds) = d ++ r2 /\ (r2 = [] \/ exists t, r2 = "/"%char :: t)) as [r2 [E2 R2]].
  { destruct ds; [exists []; cbn; rewrite app_nil_r; auto|]. exists ("/"%char :: slashed (l :: ds)). split; [reflexivity|right; eauto]. }
  rewrite E1, E2 in E. clear E1 E2 cs ds. revert d Fd E. induction c as [|x c IH]; intros [|y d] Fd E; cbn [app] in E.
  - reflexivity.
  - destruct R1 as [->|[t ->]]; [discriminate|]. injection E as <- _. exfalso. apply Fd. left. reflexivity.
  - destruct R2 as [->|[t ->]]; [discriminate|]. injection E as -> _. exfalso. apply Fc. left. reflexivity.
  - assert (x = y) as -> by congruence. f_equal. apply IH; [intros K; apply Fc; right; exact K|intros K; apply Fd; right; exact K|congruence].
Qed.
Lemma slashed_inj cs : forall ds, cs <> [] -> ds <> [] -> Forall (fun c => ~ In "/"%char c) cs -> Forall (fun c => ~ In "/"%char c) ds ->
  slashed cs = slashed ds -> cs = ds.
Proof.
  induction cs as [|c cs IH]; intros [|d ds] N1 N2 F1 F2 E; try contradiction.
  pose proof (slashed_head _ _ F1 _ _ F2 E) as ->. f_equal. inversion F1; inversion F2; subst.
  destruct cs as [|c2 cs], ds as [|d2 ds]; [reflexivity| | |].
  - exfalso. change (d = d ++ "/"%char :: slashed (d2 :: ds)) in E. apply (f_equal (@length ascii)) in E. rewrite app_length in E. cbn [length] in E. lia.
  - exfalso. change (d ++ "/"%char :: slashed (c2 :: cs) = d) in E. apply (f_equal (@length ascii)) in E. rewrite app_length in E. cbn [length] in E. lia.
  - apply IH; try assumption; try discriminate. change (d ++ "/"%char :: slashed (c2 :: cs) = d ++ "/"%char :: slashed (d2 :: ds)) in E. apply app_inv_head in E. congruence.
Qed.
Lemma leads_fun T top member s p e1 e2 : directory_tree T top member -> leads T s p e1 -> leads T s p e2 -> e1 = e2.
Proof.
  intros D [c1 [N1 [F1 [E1 W1]]]] [c2 [N2 [F2 [E2 W2]]]]. subst p. apply slashed_inj in E2; try assumption. subst c2. eapply walks_fun; eauto.
Qed.

Lemma full_enough T top member t : directory_tree T top member -> member t -> exists n, forall fuel, n < fuel -> full_path T fuel t <> None.
Proof.
  intros D M. destruct (dt_rank _ _ _ D) as [rank R]. exists (rank t). intros fuel L.
  destruct (full_some T member rank) with (fuel := fuel) (t := t) as [l [-> _]]; [|assumption|assumption|discriminate].
  intros u p Mu P. split; [exact (R u p Mu P)|exact (dt_up _ _ _ D u p Mu P)].
Qed.
Lemma relative_enough T top member s e : directory_tree T top member -> member s -> member e ->
  exists n, forall fuel, n < fuel -> get_relative_dir T fuel s e <> None.
Proof.
  intros D Ms Me. destruct (full_enough _ _ _ _ D Ms) as [n Hn]. destruct (full_enough _ _ _ _ D Me) as [m Hm]. exists (n + m). intros fuel L.
  unfold get_relative_dir, get_relative_dir_sep. specialize (Hn fuel ltac:(lia)). specialize (Hm fuel ltac:(lia)).
  destruct (full_path T fuel s); [|contradiction]. destruct (full_path T fuel e); [discriminate|contradiction].
Qed.

(** The full text leads from the top to the entry: after the first slash. *)
Lemma full_text_leads T top member fuel t l : directory_tree T top member -> member t -> t <> top -> full_path T fuel t = Some l ->
  exists p, concat (map (fun x => "/"%char :: name T x) (tl l)) = "/"%char :: p /\ leads T top p t.
Proof.
  intros D M N F.
  assert (get_relative_dir T fuel top t = Some (slashed (map (name T) (tl l))) /\ exists l', l = top :: l' /\ l' <> []) as [G [l' [-> NE]]].
  { unfold get_relative_dir, get_relative_dir_sep. rewrite F.
    assert (exists l', l = top :: l') as [l' ->].
    { clear N. revert t l M F. induction fuel as [|fuel IH]; intros t l M F; [discriminate|]. cbn in F. destruct (parent T t) as [p|] eqn:P.
      - destruct (full_path T fuel p) as [lp|] eqn:F2; [|discriminate]. injection F as <-. destruct (IH p lp (dt_up _ _ _ D t p M P) F2) as [l' ->].
        exists (l' ++ [t]); reflexivity.
      - injection F as <-. pose proof (proj1 (dt_top _ _ _ D t M) P) as ->. exists []; reflexivity. }
    assert (l' <> []) as NE by (intros ->; destruct (full_chain _ _ _ _ F) as [_ [[|? [|? ?]] E]]; [injection E as E; congruence|discriminate|discriminate]).
    assert (member top) as Mt.
    { destruct (dt_rank _ _ _ D) as [rank R]. destruct (full_some T member rank) with (fuel := S (rank t)) (t := t) as [l2 [F2 H2]]; [|assumption|lia|].
      - intros u p Mu P. split; [exact (R u p Mu P)|exact (dt_up _ _ _ D u p Mu P)].
      - apply H2. clear - D M F2. revert t l2 M F2. generalize (rank). intros r t. generalize (S (r t)) as f. intros f. revert t.
        induction f as [|fuel IH]; intros t l M F; [discriminate|]. cbn in F. destruct (parent T t) as [p|] eqn:P.
        + destruct (full_path T fuel p) as [lp|] eqn:F2; [|discriminate]. injection F as <-. apply in_or_app. left. apply (IH p lp (dt_up _ _ _ D t p M P) F2).
        + injection F as <-. pose proof (proj1 (dt_top _ _ _ D t M) P) as ->. left. reflexivity. }
    destruct fuel as [|fuel]; [discriminate|]. cbn [full_path]. rewrite (proj2 (dt_top _ _ _ D top Mt) eq_refl).
    split; [|eauto]. unfold relative_text. cbn [strip_common]. rewrite Nat.eqb_refl. cbn [strip_common map app tl].
    destruct l' as [|x l']; [contradiction|]. cbn [map]. rewrite append_slashed. reflexivity. }
  exists (slashed (map (name T) l')). split.
  - cbn [tl]. clear - NE. induction l' as [|x l IH]; [contradiction|]. destruct l as [|y l]; [cbn; rewrite app_nil_r; reflexivity|].
    cbn [map concat]. change (("/"%char :: name T x) ++ concat (map (fun x => "/"%char :: name T x) (y :: l)) = "/"%char :: name T x ++ "/"%char :: slashed (map (name T) (y :: l))).
    rewrite IH by discriminate. reflexivity.
  - cbn [tl] in G. assert (member top) as Mt.
    { destruct (dt_rank _ _ _ D) as [rank R]. destruct (full_some T member rank) with (fuel := S (rank t)) (t := t) as [l2 [F2 H2]]; [|assumption|lia|].
      - intros u p Mu P. split; [exact (R u p Mu P)|exact (dt_up _ _ _ D u p Mu P)].
      - apply H2. clear - D M F2. revert l2 F2. generalize (S (rank t)) as f. intros f. revert t M.
        induction f as [|fuel IH]; intros t M l F; [discriminate|]. cbn in F. destruct (parent T t) as [p|] eqn:P.
        + destruct (full_path T fuel p) as [lp|] eqn:F2; [|discriminate]. injection F as <-. apply in_or_app. left. apply (IH p (dt_up _ _ _ D t p M P) lp F2).
        + injection F as <-. pose proof (proj1 (dt_top _ _ _ D t M) P) as ->. left. reflexivity. }
    apply (relative_leads T top member fuel top t D Mt M _ G).
Qed.
