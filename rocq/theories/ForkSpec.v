(** What is expected of [ForkModel], in terms of what happened (the latest event
    first): calls, children and their endings. *)
From Verif Require Import Base ForkModel.
Open Scope nat_scope.

(** [child i] is the child of call [i]. *)
Definition justified (child : nat -> nat) (before : list event) (e : event) : Prop :=
  match e with
  | Called i r => forall r', ~ In (Called i r') before
  | Refused i => exists r j r', In (Called i r) before /\ j <> i /\ In (Called j r') before /\ sid r' = sid r /\ forall st, ~ In (Returned j st) before
  | Forked k r => (exists i, child i = k /\ In (Called i r) before) /\ forall r', ~ In (Forked k r') before
  | Exited k st => (exists r, In (Forked k r) before) /\ forall st', ~ In (Exited k st') before
  | Returned i st => exists r, In (Called i r) before /\ In (Forked (child i) r) before /\ In (Exited (child i) st) before /\
      forall st', ~ In (Returned i st') before
  end.
Definition own_status (h : list event) : Prop :=
  exists child : nat -> nat, (forall i j, child i = child j -> i = j) /\
    forall h1 e h2, h = h1 ++ e :: h2 -> justified child h2 e.

(** Between the fork of a child and its entry in the tree of children, the child
    has not ended, and its pid is not one that is still in the tree. *)
Definition in_time (s : state) : Prop :=
  forall r p k, mph s = MIns r p k -> find_pid (tree s) p = None /\ exists c, In c (kids s) /\ k_no c = k /\ k_st c = None.

(** A run in which this is always so. *)
Inductive timely (cap : nat) : state -> state -> Prop :=
| T_refl s : timely cap s s
| T_step s s' s'' : timely cap s s' -> step cap s' s'' -> in_time s'' -> timely cap s s''.

(** A timely run of [n] steps without new calls. *)
Inductive goes_on (cap : nat) : nat -> state -> state -> Prop :=
| G_refl s : goes_on cap 0 s s
| G_step n s s' s'' : goes_on cap n s s' -> step cap s' s'' -> in_time s'' -> length (calls s'') = length (calls s') -> goes_on cap (S n) s s''.

(** Every call is over, the forking process has ended and so has the thread that
    hands out statuses. *)
Definition all_over (s : state) : Prop := forallb finished (calls s) = true /\ mph s = MDone /\ nph s = NDone.

(** Call [i] does not return. *)
Definition never_returns (cap : nat) (s : state) (i : nat) : Prop := forall s' st, steps cap s s' -> ~ In (Returned i st) (hist s').
