(** Proofs for C61: one way to divide, and enough fuel. *)
From Verif Require Import Base EntryModel EntrySpec EntryProofs EntryProps FuseModel ExpandModel ExpandSpec ExpandProofs.

Definition text (ps : list piece) : bytes := concat (map written ps).
Definition opt (pre : bytes) : list piece := match pre with [] => [] | _ => [Text pre] end.

Lemma written_no_res ps : in_pieces ps -> match ps with Text t :: _ => prefixb (B ".res") t = false | _ => True end ->
  prefixb (B ".res") (text ps) = false.
Proof.
  intros P H. unfold text. destruct ps as [|[t|g|g] r]; cbn [map concat written]; try reflexivity.
  destruct (prefixb (B ".res") (t ++ concat (map written r))) eqn:X; [|reflexivity]. exfalso. apply prefixb_spec in X as [z X].
  destruct (cut_prefix t (concat (map written r)) (B ".res") H (ex_intro _ z X)) as [k' [A [C [z' F]]]].
  assert (In "%"%char (B ".res")) as Bad.
  { rewrite C. apply in_or_app. right. destruct k' as [|c k']; [contradiction|]. left. cbn [in_pieces] in P. destruct P as [_ [_ [Nr _]]].
    destruct r as [|[t'|h|h] r]; [discriminate|destruct Nr|injection F as <- _; reflexivity|injection F as <- _; reflexivity]. }
  cbn in Bad. intuition discriminate.
Qed.

Lemma head_cases ps : in_pieces ps ->
  match open_group (text ps) with
  | None => ps = opt (text ps)
  | Some (pre, rest) => exists p r, ps = opt pre ++ p :: r /\ names_group p <> None /\ in_pieces (p :: r) /\ written p ++ text r = B "%<" ++ rest
  end.
Proof.
  intros P.
  assert (forall pre p r, ~ within (B "%<") pre -> names_group p <> None -> in_pieces (p :: r) -> ps = opt pre ++ p :: r ->
    match open_group (text ps) with
    | None => ps = opt (text ps)
    | Some (pre', rest) => exists p r, ps = opt pre' ++ p :: r /\ names_group p <> None /\ in_pieces (p :: r) /\ written p ++ text r = B "%<" ++ rest
    end) as H.
  { intros pre p r N Np Pp ->.
    assert (exists rest, written p ++ text r = B "%<" ++ rest) as [rest E].
    { destruct p as [t|g|g]; [contradiction Np; reflexivity| |]; cbn [written]; rewrite <- !app_assoc; eauto. }
    assert (text (opt pre ++ p :: r) = pre ++ B "%<" ++ rest) as ->.
    { rewrite <- E. unfold text. rewrite map_app, concat_app. f_equal. destruct pre; [reflexivity|]. cbn. rewrite app_nil_r. reflexivity. }
    rewrite (open_group_here pre rest N). exists p, r. auto. }
  destruct ps as [|[t|g|g] r]; [reflexivity| | |].
  - destruct P as [Ne [Nw [Nr Pr]]]. destruct r as [|p r].
    + unfold text. cbn [map concat written]. rewrite app_nil_r, (open_group_not t Nw). destruct t; [contradiction|reflexivity].
    + apply (H t p r); [exact Nw|destruct p; [destruct Nr|discriminate|discriminate]|exact Pr|]. destruct t; [contradiction|reflexivity].
  - apply (H [] (Paths g) r); [intros [[|x a] [b X]]; discriminate|discriminate|exact P|reflexivity].
  - apply (H [] (PathFile g) r); [intros [[|x a] [b X]]; discriminate|discriminate|exact P|reflexivity].
Qed.

Lemma template_unique_aux n : forall a b, length (text a) < n -> in_pieces a -> in_pieces b -> text a = text b -> a = b.
Proof.
  induction n as [|n IH]; intros a b L Pa Pb E; [lia|].
  pose proof (head_cases a Pa) as Ha. pose proof (head_cases b Pb) as Hb. rewrite <- E in Hb.
  destruct (open_group (text a)) as [[pre rest]|]; [|congruence].
  destruct Ha as [p [r [Ea [Np [Pp Wp]]]]]. destruct Hb as [q [s [Eb [Nq [Pq Wq]]]]].
  assert (text r = text s /\ p = q) as [Et ->].
  { destruct p as [t|g|g]; [contradiction Np; reflexivity| |]; (destruct q as [t'|h|h]; [contradiction Nq; reflexivity| |]);
      cbn [written] in Wp, Wq; rewrite <- !app_assoc in Wp, Wq; apply app_inv_head in Wp, Wq; subst rest; cbn [in_pieces] in Pp, Pq.
    - pose proof (close_group_here g (text r) (proj1 Pp)) as C1. pose proof (close_group_here h (text s) (proj1 Pq)) as C2.
      change (B ">" ++ text r) with (">"%char :: text r) in Wq. change (B ">" ++ text s) with (">"%char :: text s) in Wq. rewrite Wq in C2. rewrite C2 in C1. injection C1 as -> ->. auto.
    - exfalso. pose proof (close_group_here g (text r) (proj1 Pp)) as C1. pose proof (close_group_here h (B ".res" ++ text s) (proj1 Pq)) as C2.
      change (B ">" ++ text r) with (">"%char :: text r) in Wq. change (B ">.res" ++ text s) with (">"%char :: B ".res" ++ text s) in Wq. rewrite Wq in C2. rewrite C2 in C1. injection C1 as _ C1.
      pose proof (written_no_res r (proj2 (proj2 Pp)) (proj1 (proj2 Pp))) as X. rewrite <- C1 in X.
      assert (prefixb (B ".res") (B ".res" ++ text s) = true) as Y by (apply prefixb_spec; eauto). unfold B in X, Y. cbn [list_ascii_of_string app] in X, Y. congruence.
    - exfalso. pose proof (close_group_here g (B ".res" ++ text r) (proj1 Pp)) as C1. pose proof (close_group_here h (text s) (proj1 Pq)) as C2.
      change (B ">.res" ++ text r) with (">"%char :: B ".res" ++ text r) in Wq. change (B ">" ++ text s) with (">"%char :: text s) in Wq. rewrite Wq in C2. rewrite C2 in C1. injection C1 as _ C1.
      pose proof (written_no_res s (proj2 (proj2 Pq)) (proj1 (proj2 Pq))) as X. rewrite C1 in X.
      assert (prefixb (B ".res") (B ".res" ++ text r) = true) as Y by (apply prefixb_spec; eauto). unfold B in X, Y. cbn [list_ascii_of_string app] in X, Y. congruence.
    - pose proof (close_group_here g (B ".res" ++ text r) (proj1 Pp)) as C1. pose proof (close_group_here h (B ".res" ++ text s) (proj1 Pq)) as C2.
      change (B ">.res" ++ text r) with (">"%char :: B ".res" ++ text r) in Wq. change (B ">.res" ++ text s) with (">"%char :: B ".res" ++ text s) in Wq. rewrite Wq in C2. rewrite C2 in C1.
      injection C1 as -> C1. auto. }
  rewrite Ea, Eb. do 2 f_equal. apply IH; [| | |exact Et].
  - rewrite Ea in L. unfold text in *. rewrite map_app, concat_app, app_length in L. cbn [map concat] in L. rewrite app_length in L.
    assert (0 < length (written q)); [|lia]. destruct q; [contradiction Nq; reflexivity| |]; cbn [written]; rewrite app_length; cbn; lia.
  - destruct q; cbn [in_pieces] in Pp; tauto.
  - destruct q; cbn [in_pieces] in Pq; tauto.
Qed.

Lemma dotdots_enough T top member t : directory_tree T top member -> member t -> exists n, forall fuel, n < fuel -> num_dotdots T fuel t <> None.
Proof.
  intros D. destruct (dt_rank _ _ _ D) as [rank Rk].
  assert (forall k t, rank t <= k -> member t -> forall fuel, k < fuel -> num_dotdots T fuel t <> None) as H.
  { induction k as [|k IH]; intros x Lk M fuel L; (destruct fuel as [|fuel]; [lia|]); cbn [num_dotdots]; (destruct (parent T x) as [p|] eqn:E; [|discriminate]);
      pose proof (Rk x p M E); [lia|]. specialize (IH p ltac:(lia) (dt_up _ _ _ D x p M E) fuel ltac:(lia)). destruct (num_dotdots T fuel p); [discriminate|contradiction]. }
  intros M. exists (rank t). exact (H (rank t) t (le_n _) M).
Qed.
Lemma all_enough T top member d fs : directory_tree T top member -> member d -> Forall member fs ->
  exists n, forall fuel, n < fuel -> forall f, In f fs -> get_relative_dir T fuel d f <> None.
Proof.
  intros D Md F. induction F as [|f fs Mf F [n IH]]; [exists 0; intros fuel _ f []|].
  destruct (relative_enough T top member d f D Md Mf) as [m H]. exists (n + m). intros fuel L x [<-|X]; [apply H; lia|apply IH; [lia|exact X]].
Qed.
