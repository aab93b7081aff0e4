(** Model of the monitor's table of watched directories: src/tup/dircache.c, the functions of
    src/tup/tupid_tree.c that it uses, and its users in src/tup/monitor/inotify.c. The red-black trees
    of bsd/tree.h are search trees without rotations, which do not change the order of the nodes.
    The comparison of ids (tupid_tree.c:26-29) is taken to be exact: it is, for ids below 2^31. *)
Require Import ZArith List Bool.
Import ListNotations.
Open Scope Z_scope.

(** A node is the number of a struct dircache. *)
Inductive tree := Leaf | Node (l : tree) (i : nat) (r : tree).
Fixpoint inorder (t : tree) : list nat := match t with Leaf => [] | Node l i r => inorder l ++ i :: inorder r end.
(** RB_FIND, tupid_tree.c:33-39 tupid_tree_search *)
Fixpoint search (key : nat -> Z) (t : tree) (x : Z) : option nat :=
  match t with Leaf => None | Node l i r => if x <? key i then search key l x else if key i <? x then search key r x else Some i end.
(** RB_INSERT, tupid_tree.c:41-47 tupid_tree_insert: [None] if there is a node with this key *)
Fixpoint insert (key : nat -> Z) (t : tree) (n : nat) : option tree :=
  match t with
  | Leaf => Some (Node Leaf n Leaf)
  | Node l i r => if key n <? key i then option_map (fun l => Node l i r) (insert key l n) else if key i <? key n then option_map (fun r => Node l i r) (insert key r n) else None
  end.
(** RB_REMOVE, tupid_tree.h tupid_tree_rm: a node with two children is replaced by the next one. The
    node is found by its pointers and not by its key. [None] if it is not in the tree: then the
    pointers are not set, and anything can happen. *)
Fixpoint take_min (l : tree) (i : nat) (r : tree) : nat * tree :=
  match l with Leaf => (i, r) | Node l' i' r' => let (m, l2) := take_min l' i' r' in (m, Node l2 i r) end.
Definition join (l r : tree) : tree :=
  match l, r with Leaf, _ => r | _, Leaf => l | _, Node a j b => let (m, r') := take_min a j b in Node l m r' end.
Fixpoint mem (t : tree) (n : nat) : bool := match t with Leaf => false | Node l i r => mem l n || Nat.eqb i n || mem r n end.
Fixpoint rm_node (t : tree) (n : nat) : tree :=
  match t with Leaf => Leaf | Node l i r => if Nat.eqb i n then join l r else if mem l n then Node (rm_node l n) i r else Node l i (rm_node r n) end.
Definition remove (t : tree) (n : nat) : option tree := if mem t n then Some (rm_node t n) else None.

(** dircache.h: the two trees, and what each struct has; [next] is one that is not in use. *)
Record st := { wd_root : tree; dt_root : tree; wd_of : nat -> Z; dt_of : nat -> Z; next : nat }.
Definition empty : st := {| wd_root := Leaf; dt_root := Leaf; wd_of := fun _ => 0; dt_of := fun _ => 0; next := O |}.
Definition set (f : nat -> Z) (n : nat) (v : Z) : nat -> Z := fun i => if Nat.eqb i n then v else f i.

(** dircache.c:61-69 dircache_lookup_wd *)
Definition lookup_wd (s : st) (wd : Z) : option nat := search (wd_of s) (wd_root s) wd.
(** dircache.c:71-79 dircache_lookup_dt *)
Definition lookup_dt (s : st) (dt : Z) : option nat := search (dt_of s) (dt_root s) dt.
(** dircache.c:54-59 dircache_del *)
Definition dircache_del (s : st) (n : nat) : option st :=
  match remove (wd_root s) n, remove (dt_root s) n with
  | Some w, Some d => Some {| wd_root := w; dt_root := d; wd_of := wd_of s; dt_of := dt_of s; next := next s |}
  | _, _ => None
  end.
(** The results of tupid_tree_insert are not looked at. *)
Definition insert_or (key : nat -> Z) (t : tree) (n : nat) : tree := match insert key t n with Some t => t | None => t end.
(** dircache.c:32-52 dircache_add; malloc does not fail *)
Definition dircache_add (s : st) (wd dt : Z) : option st :=
  match (match lookup_wd s wd with Some n => dircache_del s n | None => Some s end) with
  | None => None
  | Some s =>
      let n := next s in
      let w := set (wd_of s) n wd in
      let d := set (dt_of s) n dt in
      Some {| wd_root := insert_or w (wd_root s) n; dt_root := insert_or d (dt_root s) n; wd_of := w; dt_of := d; next := S n |}
  end.

(** What changes the table: wp_callback (inotify.c:710-731) for a directory that the kernel watches
    with [wd]; monitor_rmdir_cb (1094-1103); queue_event (751-762) and handle_event (1109-1120) for
    IN_IGNORED. *)
Inductive op := Watch (wd dt : Z) | Rmdir (dt : Z) | QueueIgnored (wd : Z) | HandleIgnored (wd : Z).
Definition step (o : op) (s : st) : option st :=
  match o with
  | Watch wd dt => dircache_add s wd dt
  | Rmdir dt => match lookup_dt s dt with Some n => dircache_del s n | None => Some s end
  | QueueIgnored wd =>
      match lookup_wd s wd with
      | Some n => Some {| wd_root := wd_root s; dt_root := dt_root s; wd_of := wd_of s; dt_of := set (dt_of s) n (-1); next := next s |}
      | None => Some s
      end
  | HandleIgnored wd => match lookup_wd s wd with Some n => dircache_del s n | None => Some s end
  end.
Fixpoint run (os : list op) (s : st) : option st :=
  match os with [] => Some s | o :: os => match step o s with Some s => run os s | None => None end end.
(** inotify.c:1122-1133: the directory that an event is for. [None]: an error; [Some (-1)]: skipped *)
Definition event_dir (s : st) (wd : Z) : option Z := option_map (dt_of s) (lookup_wd s wd).
(** inotify.c:1098-1100: the watch of a directory *)
Definition dir_watch (s : st) (dt : Z) : option Z := option_map (wd_of s) (lookup_dt s dt).
