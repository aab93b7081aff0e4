(** Concrete databases and runs for TransProps.v. *)
From Verif Require Import Base ExecModel ExecSpec GraphModel GraphSpec TransModel TransSpec ExecProofs.

Definition assoc (l : list (id * list id)) (n : id) : list id :=
  match find (fun p => fst p =? n) l with Some p => snd p | None => [] end.
Definition inverse (l : list (id * list id)) (f : id) : list id :=
  map fst (filter (fun p => inb f (snd p)) l).

(** A database: kinds, links, declared inputs, ids with ^t, ids with ^o. *)
Record db := {
  d_kind : list (id * kind);
  d_links : list (id * list id);
  d_inputs : list (id * list id);
  d_t : list id;
  d_o : list id;
}.
Definition kd (d : db) (n : id) : kind := match find (fun p => fst p =? n) (d_kind d) with Some p => snd p | None => KOther end.
Definition lk (d : db) := assoc (d_links d).
Definition ip (d : db) := assoc (d_inputs d).
Definition us (d : db) := inverse (d_inputs d).
Definition tr (d : db) (n : id) := inb n (d_t d).
Definition co (d : db) (n : id) := inb n (d_o d).
Definition none (_ : id) : list id := [].
Definition no (_ : id) : bool := false.
Definition graph_of (d : db) (rows flags : list id) : outcome bgraph :=
  tgraph (kd d) (lk d) none (ip d) (us d) (tr d) 0 (Some KCmd) rows 100 flags.

(** All commands succeed; [same] are the outputs that do not change. *)
Section Drive.
Variable d : db.
Variable same : list id.
Notation work := (work (kd d) (tr d) no (co d)).
Definition do_work (g : graph) (n : id) (w : files) : files * bool :=
  if is_cmd (kd d n) then
    if skp w n then ({| there := there w; row := skip_rows (tr d) n (row w); skp := done_skips g n (skp w); ran := ran w; broke := broke w |}, true)
    else ({| there := fun x => inb x (outputs (kd d) no g n) || there w x;
             row := done_rows (tr d) n (marked (kd d) no g n) (row w);
             skp := done_skips g n (run_skips (kd d) no (co d) g n (fun x => inb x same) (skp w));
             ran := n :: ran w; broke := broke w |}, true)
  else
    let sk := if skp w n then skp w else clear_skips g n (skp w) in
    match trans g n with
    | TDelete =>
      if there w n then ({| there := upd (there w) n false; row := upd (row w) n false; skp := sk; ran := ran w; broke := broke w |}, true)
      else ({| there := there w; row := row w; skp := sk; ran := ran w; broke := broke w |}, false)
    | _ => ({| there := there w; row := row w; skp := sk; ran := ran w; broke := broke w |}, true)
    end.
Lemma do_work_ok g n w : work g n w (fst (do_work g n w)) (snd (do_work g n w)).
Proof.
  unfold do_work. destruct (is_cmd (kd d n)) eqn:K.
  - assert (kd d n = KCmd) as K' by (destruct (kd d n); try discriminate K; reflexivity).
    destruct (skp w n) eqn:S; cbn [fst snd]; [apply W_skip; assumption|].
    apply (W_ran (kd d) (tr d) no (co d) g n w (fun x => inb x same)); assumption.
  - assert (kd d n <> KCmd) as K' by (intros E; rewrite E in K; discriminate K).
    destruct (trans g n) eqn:T; [| |destruct (there w n) eqn:Th]; cbn [fst snd].
    + apply W_file; [exact K'|congruence].
    + apply W_file; [exact K'|congruence].
    + apply W_unlink; assumption.
    + apply W_missing; assumption.
Qed.

Definition main_step (s : @exec files) : option exec :=
  match at_ s with
  | Loop => if loop_cond false s then
              match plist (gr s) with [] => None | n :: _ => Some (loop_body s n) end
            else Some (set_pc s (Returned (final_rc s)))
  | Check => if check_cond false s then
               match fin s with [] => None | (n, ok) :: r => Some (reap s n ok r) end
             else Some (set_pc s Loop)
  | _ => None
  end.
Definition worker_step (s : @exec files) : option exec :=
  match running s with
  | [] => None
  | n :: r => let p := do_work (gr s) n (ws s) in
              Some {| gr := gr s; free := free s; running := r; fin := (n, snd p) :: fin s; active := active s; failed := failed s;
                      dead := dead s; at_ := at_ s; ws := fst p; hist := Finish n (snd p) :: hist s |}
  end.
(** The main thread goes first; stop before the worker of [stop] ends. *)
Fixpoint run (stop : id) (fuel : nat) (s : exec) : exec :=
  match fuel with
  | O => s
  | S k => match main_step s with
           | Some s' => run stop k s'
           | None => if inb stop (running s) then s else
                     match worker_step s with Some s' => run stop k s' | None => s end
           end
  end.
Lemma main_step_ok s s' : main_step s = Some s' -> step work false s s'.
Proof.
  unfold main_step. destruct (at_ s) eqn:A; try discriminate.
  - destruct (loop_cond false s) eqn:C.
    + destruct (plist (gr s)) as [|n p] eqn:P; [discriminate|]. intros H. injection H as <-. exact (S_loop _ _ s n p A C P).
    + intros H. injection H as <-. exact (S_return _ _ s A C).
  - destruct (check_cond false s) eqn:C.
    + destruct (fin s) as [|[n ok] r] eqn:P; [discriminate|]. intros H. injection H as <-. exact (S_reap _ _ s n ok r A C P).
    + intros H. injection H as <-. exact (S_check _ _ s A C).
Qed.
Lemma worker_step_ok s s' : worker_step s = Some s' -> step work false s s'.
Proof.
  unfold worker_step. destruct (running s) as [|n r] eqn:R; [discriminate|]. intros H. injection H as <-.
  exact (S_worker _ _ s n [] r _ _ R (do_work_ok (gr s) n (ws s))).
Qed.
Lemma run_ok stop fuel : forall s0 s, steps work false s0 s -> steps work false s0 (run stop fuel s).
Proof.
  induction fuel as [|k IH]; intros s0 s H; [exact H|]. cbn [run].
  destruct (main_step s) as [s'|] eqn:M.
  - apply IH. exact (steps_step _ _ _ _ _ H (main_step_ok _ _ M)).
  - destruct (inb stop (running s)); [exact H|]. destruct (worker_step s) as [s'|] eqn:W; [|exact H].
    apply IH. exact (steps_step _ _ _ _ _ H (worker_step_ok _ _ W)).
Qed.

Lemma some_inj {A} (x y : A) : Some x = Some y -> x = y.
Proof. intros H. exact (f_equal (fun o => match o with Some z => z | None => x end) H). Qed.

(** The update with the files [disk] there at the start. *)
Definition update (rows flags disk : list id) (stop : id) : option (@exec files) :=
  match graph_of d rows flags with
  | Done b => Some (run stop 200 (start 2 (gr_ b) (begins b (fun x => inb x disk) (fun x => inb x rows))))
  | _ => None
  end.
Lemma update_reach rows flags disk stop s : update rows flags disk stop = Some s ->
  exists b, graph_of d rows flags = Done b /\
    steps work false (start 2 (gr_ b) (begins b (fun x => inb x disk) (fun x => inb x rows))) s.
Proof.
  unfold update. destruct (graph_of d rows flags) as [b| | |]; try discriminate. intros H. apply some_inj in H. rewrite <- H.
  exists b. split; [reflexivity|]. apply run_ok. apply steps_refl.
Qed.
End Drive.

Lemma assoc_in l n x : In x (assoc l n) -> exists k, In (n, k) l /\ In x k.
Proof.
  unfold assoc. destruct (find (fun p => fst p =? n) l) as [p|] eqn:F; [|intros []]. apply find_some in F. destruct F as [F1 F2].
  apply Nat.eqb_eq in F2. intros H. exists (snd p). split; [|exact H]. rewrite <- F2. destruct p; exact F1.
Qed.
(** A check of the conditions on databases. *)
Definition nodup_keys (l : list (id * list id)) : Prop := NoDup (map fst l).
Lemma assoc_inverse l f u : nodup_keys l -> (In u (inverse l f) <-> In f (assoc l u)).
Proof.
  intros ND. unfold inverse. rewrite in_map_iff. split.
  - intros [[k v] [<- H]]. apply filter_In in H. destruct H as [H1 H2]. cbn [fst snd] in *. apply inb_In in H2.
    unfold assoc. destruct (find (fun p => fst p =? k) l) as [p|] eqn:F.
    + apply find_some in F. destruct F as [F1 F2]. apply Nat.eqb_eq in F2. destruct p as [k' v']. cbn in *. subst k'.
      assert (v' = v) as ->; [|exact H2]. clear -ND H1 F1. unfold nodup_keys in ND. induction l as [|[a b] l IH]; [destruct H1|].
      cbn [map fst] in ND. apply NoDup_cons_iff in ND. destruct ND as [N1 N2].
      assert (forall x, In (k, x) l -> In k (map fst l)) as IM by (intros x Hx; apply in_map_iff; exists (k, x); auto).
      destruct H1 as [H1|H1], F1 as [F1|F1]; try congruence.
      * injection H1 as -> ->. exfalso. exact (N1 (IM _ F1)).
      * injection F1 as -> ->. exfalso. exact (N1 (IM _ H1)).
      * exact (IH N2 H1 F1).
    + exfalso. pose proof (find_none _ _ F _ H1) as X. cbn in X. rewrite Nat.eqb_refl in X. discriminate.
  - intros H. apply assoc_in in H. destruct H as [k [H1 H2]]. exists (u, k). split; [reflexivity|]. apply filter_In. split; [exact H1|].
    apply inb_In. exact H2.
Qed.

(** Checks of the conditions on databases. *)
Definition pairs (l : list (id * list id)) : list (id * id) := flat_map (fun p => map (fun b => (fst p, b)) (snd p)) l.
Lemma assoc_pairs l a b : In b (assoc l a) -> In (a, b) (pairs l).
Proof.
  intros H. apply assoc_in in H. destruct H as [k [H1 H2]]. apply in_flat_map. exists (a, k). split; [exact H1|].
  apply in_map_iff. exists b. auto.
Qed.
Lemma next_pairs d a b : next (kd d) (lk d) none a b -> In (a, b) (pairs (d_links d)).
Proof. intros [H|[_ []]]. exact (assoc_pairs _ _ _ H). Qed.

Lemma pairs_to (l : list (id * id)) (a f : id) : In (a, f) l -> In a (map fst (filter (fun p => snd p =? f) l)).
Proof. intros H. apply in_map_iff. exists (a, f). split; [reflexivity|]. apply filter_In. split; [exact H|]. apply Nat.eqb_refl. Qed.
Ltac each_pair H :=
  cbn in H; repeat (destruct H as [H|H]; [injection H as <- <-|]); try destruct H.
Ltac each_in H := cbn in H; repeat (destruct H as [H|H]; [subst|]); try destruct H.
Ltac nodup := cbv; repeat (apply NoDup_cons; [cbv; intuition discriminate|]); apply NoDup_nil.
Ltac decide_in := cbn; tauto.

Lemma store_by d rows flags universe :
  kd d 0 = KRoot -> ~ In 0 universe -> incl (flags ++ rows) universe -> nodup_keys (d_inputs d) ->
  (forall a b, In (a, b) (pairs (d_links d)) ->
     In b universe /\ (kd d a = KGenerated -> kd d b <> KGenerated) /\ kd d b <> KFile) ->
  (forall u f, In (u, f) (pairs (d_inputs d)) -> f <> 0 /\ kd d u = KCmd) ->
  store_ok (kd d) (lk d) none (ip d) rows flags (us d) 0 universe.
Proof.
  intros H0 H1 H2 H3 H4 H5. constructor.
  - constructor; [exact H1|exact H2|]. intros a b _ N. exact (proj1 (H4 _ _ (next_pairs _ _ _ N))).
  - constructor.
    + exact H0.
    + intros a n [].
    + intros n H. exact (proj1 (H5 _ _ (assoc_pairs _ _ _ H)) eq_refl).
    + intros a n K N. exact (proj1 (proj2 (H4 _ _ (next_pairs _ _ _ N))) K).
    + intros a n N. exact (proj2 (proj2 (H4 _ _ (next_pairs _ _ _ N)))).
  - intros f u. exact (assoc_inverse _ _ _ H3).
  - intros f u H. exact (proj2 (H5 _ _ (assoc_pairs _ _ _ H))).
Qed.
Ltac store :=
  apply store_by;
    [reflexivity
    |cbn; intuition discriminate
    |let H := fresh "H" in intros ? H; each_in H; decide_in
    |nodup
    |let H := fresh "H" in intros ? ? H; each_pair H;
     (split; [decide_in|split; [let K := fresh "K" in intros K; vm_compute in K; (discriminate K || discriminate)|discriminate]])
    |let H := fresh "H" in intros ? ? H; each_pair H; (split; [discriminate|reflexivity])].

Lemma makers_by d maker :
  (forall f, In f (d_t d) -> kd d f = KGenerated ->
     kd d (maker f) = KCmd /\ tr d (maker f) = true /\ In f (lk d (maker f)) /\
     (forall a, In (a, f) (pairs (d_links d)) -> a = maker f)) ->
  makers (kd d) (lk d) none (tr d) no maker.
Proof.
  intros H.
  assert (forall f, temporary (kd d) (tr d) f -> In f (d_t d) /\ kd d f = KGenerated) as T
    by (intros f [K T]; split; [apply inb_In; exact T|exact K]).
  constructor.
  - intros f F. destruct (T f F) as [F1 F2]. destruct (H f F1 F2) as (A & B & _). auto.
  - intros f F. destruct (T f F) as [F1 F2]. destruct (H f F1 F2) as (_ & _ & C & _). exact C.
  - intros f a F N. destruct (T f F) as [F1 F2]. destruct (H f F1 F2) as (_ & _ & _ & D). apply D. exact (next_pairs _ _ _ N).
  - reflexivity.
Qed.
Ltac makers :=
  apply makers_by; let H := fresh "H" in let K := fresh "K" in intros ? H K; each_in H; try discriminate K;
  (split; [reflexivity|split; [reflexivity|split; [decide_in|]]]);
  let N := fresh "N" in intros ? N; apply pairs_to in N; each_in N; reflexivity.

Lemma waiting_in d flags c : waiting (kd d) (tr d) flags c -> In c (filter (fun c => is_cmd (kd d c) && tr d c) flags).
Proof. intros (A & B & C). apply filter_In. split; [exact A|]. rewrite B, C. reflexivity. Qed.
Lemma plain_by d flags :
  NoDup flags ->
  (forall c, In c (filter (fun c => is_cmd (kd d c) && tr d c) flags) ->
     NoDup (lk d c) /\
     forall f, In f (lk d c) -> (forall a, In (a, f) (pairs (d_links d)) -> a = c) /\ kd d f = KGenerated /\ ~ In f flags /\ ~ In f (ip d c)) ->
  plain (kd d) (lk d) none (ip d) (tr d) flags.
Proof.
  intros ND H. constructor.
  - exact ND.
  - intros c W. exact (proj1 (H c (waiting_in _ _ _ W))).
  - intros c f a W L N. exact (proj1 (proj2 (H c (waiting_in _ _ _ W)) f L) a (next_pairs _ _ _ N)).
  - intros c f W L. exact (proj1 (proj2 (proj2 (H c (waiting_in _ _ _ W)) f L))).
  - intros c f W L. exact (proj1 (proj2 (proj2 (proj2 (H c (waiting_in _ _ _ W)) f L)))).
  - intros c f W L. exact (proj2 (proj2 (proj2 (proj2 (H c (waiting_in _ _ _ W)) f L)))).
Qed.
Ltac plain :=
  apply plain_by; [nodup|];
  let c := fresh "c" in let H := fresh "H" in intros c H; each_in H;
  (split; [nodup|]);
  let f := fresh "f" in let L := fresh "L" in intros f L; each_in L;
  (split; [let N := fresh "N" in intros ? N; apply pairs_to in N; each_in N; reflexivity|split; [reflexivity|split; cbn; intuition discriminate]]).

(** in.txt (1) -> ^t command (2) -> tmp (3) -> command (4) -> out (5); the command 4 also reads
    in2.txt (6). *)
Definition d1 : db := {|
  d_kind := [(0, KRoot); (1, KFile); (2, KCmd); (3, KGenerated); (4, KCmd); (5, KGenerated); (6, KFile)];
  d_links := [(1, [2]); (2, [3]); (3, [4]); (4, [5]); (6, [4])];
  d_inputs := [(2, [1]); (4, [3; 6])];
  d_t := [2; 3]; d_o := [] |}.

Example d1_store : store_ok (kd d1) (lk d1) none (ip d1) [] [6; 2] (us d1) 0 [1; 2; 3; 4; 5; 6].
Proof. store. Qed.
Example d1_makers : makers (kd d1) (lk d1) none (tr d1) no (fun _ => 2).
Proof. makers. Qed.
Example d1_plain : plain (kd d1) (lk d1) none (ip d1) (tr d1) [6; 2].
Proof. plain. Qed.
Definition peek {A} (o : option (@exec files)) (f : exec -> A) (dflt : A) : A := match o with Some s => f s | None => dflt end.

(** As d1, with a second output 7 of the ^t command, which the command 8 uses
    with in2.txt (6). *)
Definition d_torn : db := {|
  d_kind := [(0, KRoot); (1, KFile); (2, KCmd); (3, KGenerated); (4, KCmd); (5, KGenerated); (6, KFile); (7, KGenerated); (8, KCmd); (9, KGenerated)];
  d_links := [(1, [2]); (2, [3; 7]); (3, [4]); (4, [5]); (6, [8]); (7, [8]); (8, [9])];
  d_inputs := [(2, [1]); (4, [3]); (8, [6; 7])];
  d_t := [2; 3; 7]; d_o := [] |}.
(** in (1) -> ^o command (2) -> g (3) -> ^t command (4) -> tmp (5) -> command (6) -> out (7); in2 (8) -> 6. *)
Definition d_caret_o : db := {|
  d_kind := [(0, KRoot); (1, KFile); (2, KCmd); (3, KGenerated); (4, KCmd); (5, KGenerated); (6, KCmd); (7, KGenerated); (8, KFile)];
  d_links := [(1, [2]); (2, [3]); (3, [4]); (4, [5]); (5, [6]); (6, [7]); (8, [6])];
  d_inputs := [(2, [1]); (4, [3]); (6, [5; 8])];
  d_t := [4; 5]; d_o := [2] |}.
(** in (1) -> ^t command (2) -> tmp (3), used by the commands 4 (-> 6) and 5 (-> 7); in2 (8) -> 5. *)
Definition d_two : db := {|
  d_kind := [(0, KRoot); (1, KFile); (2, KCmd); (3, KGenerated); (4, KCmd); (5, KCmd); (6, KGenerated); (7, KGenerated); (8, KFile)];
  d_links := [(1, [2]); (2, [3]); (3, [4; 5]); (4, [6]); (5, [7]); (8, [5])];
  d_inputs := [(2, [1]); (4, [3]); (5, [3; 8])];
  d_t := [2; 3]; d_o := [] |}.
(** As d1, with a group 7 as a further output of the ^t command, which the command 4 also writes to
    and the command 8 waits for. *)
Definition d_group : db := {|
  d_kind := [(0, KRoot); (1, KFile); (2, KCmd); (3, KGenerated); (4, KCmd); (5, KGenerated); (6, KFile); (7, KGroup); (8, KCmd); (9, KGenerated)];
  d_links := [(1, [2]); (2, [7; 3]); (3, [4]); (4, [5; 7]); (6, [4]); (7, [8]); (8, [9])];
  d_inputs := [(2, [1]); (4, [3; 6]); (8, [7])];
  d_t := [2; 3]; d_o := [] |}.
