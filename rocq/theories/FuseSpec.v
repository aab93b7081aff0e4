(** A plain file system, and what a job sees of the real one. *)
From Verif Require Import Base TentModel FileModel FuseModel.

(** Names are lists of components; [] is the root. *)
Definition fs := list bytes -> option node.
Definition under (p x : list bytes) : Prop := exists c r, x = p ++ c :: r.
Fixpoint strip (p x : list bytes) : option (list bytes) :=
  match p, x with
  | [], _ => Some x
  | a :: p', b :: x' => if bytes_eqb a b then strip p' x' else None
  | _ :: _, [] => None
  end.
Definition same (p x : list bytes) : bool := match strip p x with Some [] => true | _ => false end.
Definition upd (f : fs) (p : list bytes) (v : option node) : fs := fun x => if same p x then v else f x.
Definition not_dir (x : option node) : Prop := exists n, x = Some n /\ n <> NDir.

(** When a request succeeds on a plain file system (apart from permissions). *)
Definition allowed (f : fs) (o : op) : Prop :=
  let dirs_above p := forall d, under d p -> f d = Some NDir in
  let fresh p := dirs_above p /\ f p = None in
  match o with
  | OLook p => f p <> None
  | OCreate p | OSymlink _ p | OMkdir p => fresh p
  | ORmdir p => f p = Some NDir /\ forall x, under p x -> f x = None
  | OUnlink p => not_dir (f p)
  | ORename p q =>
      f p <> None /\
      (p = q \/
       ~ under p q /\ ~ under q p /\ dirs_above q /\
       (f p = Some NDir -> f q = None \/ f q = Some NDir /\ forall x, under q x -> f x = None) /\
       (not_dir (f p) -> f q <> Some NDir))
  | OOpen p _ | ORead p | OWrite p _ _ | OTruncate p _ => exists d, f p = Some (NFile d)
  | OList p => f p = Some NDir
  end.

(** What it then does. *)
Definition on_file (g : bytes -> bytes) (x : option node) : option node :=
  match x with Some (NFile d) => Some (NFile (g d)) | _ => x end.
Definition effect (o : op) (f : fs) : fs :=
  match o with
  | OLook _ | OOpen _ _ | ORead _ | OList _ => f
  | OCreate p => upd f p (Some (NFile []))
  | OSymlink t p => upd f p (Some (NLink t))
  | OMkdir p => upd f p (Some NDir)
  | ORmdir p | OUnlink p => upd f p None
  | ORename p q =>
      if same p q then f
      else fun x => match strip q x with
                    | Some r => f (p ++ r)
                    | None => match strip p x with Some _ => None | None => f x end
                    end
  | OWrite p off d => upd f p (on_file (fun old => pwrite old off d) (f p))
  | OTruncate p n => upd f p (on_file (fun old => ftruncate old n) (f p))
  end.
(** The answer. *)
Definition answer (f : fs) (o : op) (r : reply) : Prop :=
  match o with
  | OLook p => exists x, f p = Some x /\ r = RNode x
  | ORead p => exists d, f p = Some (NFile d) /\ r = RData d
  | OList p => exists l, r = RNames l
  | _ => r = ROk
  end.

(** Components are not empty and have no slash. *)
Definition good_name (c : bytes) : bool := match c with [] => false | _ => forallb (fun x => negb (x =?c slash)) c end.
Definition good (p : list bytes) : bool := forallb good_name p.
(** The absolute name. *)
Definition abs (p : list bytes) : bytes := match p with [] => [slash] | _ => below p end.

(** Names that the server does not treat specially; special are hidden files,
    /dev, /sys, /proc, ccache's files, @tup@ and .fuse_hidden. *)
Definition ordinary (top : bytes) (p : list bytes) : bool :=
  good p && negb (is_hidden (abs p)) && negb (ignore_file (abs p)) && negb (strstr fuse_hidden (abs p)) &&
  match virtual_var top (abs p) with None => true | Some _ => false end.
Definition paths (o : op) : list (list bytes) :=
  match o with
  | OLook p | OCreate p | OSymlink _ p | OMkdir p | ORmdir p | OUnlink p | OOpen p _ | ORead p | OWrite p _ _ | OTruncate p _ | OList p => [p]
  | ORename p q => [p; q]
  end.

(** A real tree of files: the root is a directory, each file is in a directory. *)
Definition tree (d : list (bytes * node)) : Prop :=
  get [slash] d = Some NDir /\
  (forall p c, good (p ++ [c]) = true -> get (abs (p ++ [c])) d <> None -> get (abs p) d = Some NDir) /\
  forall x, get x d <> None -> exists p, good p = true /\ x = abs p.

(** The view of job [n] is what a lookup finds, for ordinary names. *)
Definition view (top : bytes) (s : state) (n : nat) : fs := fun p => if ordinary top p then look top s n p else None.

(** What does not work as on a plain file system (see the refuted statements in
    FuseProps.v): to rename over a real file or directory; to rename a real file
    over one of the job; to rename a directory that is not empty or over an
    existing one; to open a real file for writing or to truncate it. *)
Definition fair (top : bytes) (s : state) (n : nat) (o : op) : Prop :=
  match o with
  | ORename p q =>
      p = q \/
      get (abs q) (disk s) = None /\
      (get (abs p) (disk s) <> None -> view top s n q = None) /\
      (get (abs p) (disk s) = None -> view top s n p = Some NDir ->
         view top s n q = None /\ forall x, under p x -> view top s n x = None)
  | OOpen p true | OTruncate p _ => get (abs p) (disk s) = None
  | _ => True
  end.
(** The request is about a file of the job, or only looks. *)
Definition mine (s : state) (o : op) : Prop :=
  match o with
  | ORmdir p | OUnlink p | OWrite p _ _ | OTruncate p _ | OOpen p true => get (abs p) (disk s) = None
  | ORename p q => get (abs p) (disk s) = None
  | _ => True
  end.

(** The states that the server reaches: it starts on a tree of files; jobs
    start, make requests (about ordinary names, in any order and interleaving)
    and end. A file that is published at the end of a job is not one that another
    running job has created, too. *)
Inductive reachable (top : bytes) (excluded writable : bytes -> bool) (top_writable : bool) : state -> Prop :=
| reach_init s : tree (disk s) -> (forall n, jobs s n = None) -> reachable top excluded writable top_writable s
| reach_start s n : reachable top excluded writable top_writable s -> jobs s n = None ->
    reachable top excluded writable top_writable (start_job s n)
| reach_request s n o : reachable top excluded writable top_writable s -> jobs s n <> None ->
    (forall p, In p (paths o) -> ordinary top p = true) -> fair top s n o ->
    reachable top excluded writable top_writable (fst (request top excluded writable top_writable s n o))
| reach_end s n keep : reachable top excluded writable top_writable s ->
    (forall m p, m <> n -> jobs s m <> None -> get (abs p) (disk s) = None -> view top s n p = None \/ view top s m p = None) ->
    reachable top excluded writable top_writable (end_job s n keep).
