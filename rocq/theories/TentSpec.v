(** Vocabulary for the statements about entry sets and a command's files. *)
From Verif Require Import Base ExecModel GraphModel TentModel.
From Coq Require Import ZArith Sorted.

(** An entry set as a walk from RB_MIN with RB_NEXT sees it. *)
Definition sorted (t : list id) : Prop := StronglySorted lt t.
(** All ids fit in 31 bits. *)
Definition small (t : list id) : Prop := forall x, In x t -> (Z.of_nat x < 2 ^ 31)%Z.

(** One difference between two sets. *)
Inductive difference := OnlyFirst (x : id) | OnlySecond (x : id).

(** Telling the two callbacks about the differences, one by one, until one of
    them fails. *)
Fixpoint tell {S} (f g : option (id -> S -> option S)) (l : list difference) (s : S) : option S :=
  match l with
  | [] => Some s
  | d :: r =>
    let cb := match d with OnlyFirst _ => f | OnlySecond _ => g end in
    let x := match d with OnlyFirst x | OnlySecond x => x end in
    match cb with
    | None => tell f g r s
    | Some h => match h x s with None => None | Some s' => tell f g r s' end
    end
  end.

(** Does a report blame the command for writing [x]? *)
Definition blames_write (r : report) (x : id) : Prop :=
  r = Unspecified x \/ r = Delete x \/ r = Reschedule x \/ r = Overwritten x.

(** A chain of stored links leads from [a] to [b]: [b] is downstream of [a]. *)
Inductive leads_to (links : id -> list id) : id -> id -> Prop :=
| leads_one a b : In b (links a) -> leads_to links a b
| leads_more a b c : leads_to links a b -> In c (links b) -> leads_to links a c.

(** The order of execution is fixed by what the Tupfile says: [x] is a declared
    input, is a member of a group that is a declared input, or something
    declared as input is made from it. *)
Definition ordered_by_declaration (links : id -> list id) (sticky groups : list id) (x : id) : Prop :=
  In x sticky \/ (exists g, In g groups /\ In g (links x)) \/ (exists v, In v sticky /\ leads_to links x v).

(** Stored links stay within a finite set of nodes. *)
Record finite_db (links : id -> list id) (root : id) (universe : list id) : Prop := {
  f_nodup : NoDup universe;
  f_root : ~ In root universe;
  f_closed : forall a b, In a universe -> In b (links a) -> In b universe
}.

(** The files that may be read at all: not those of another variant, and not a
    name that belongs to a command. *)
Definition readable (kind_of : id -> kind) (variant_of : id -> option id) (cmd x : id) : Prop :=
  (variant_of x = None \/ (exists v, variant_of x = Some v /\ variant_of cmd = Some v)) /\
  kind_of x <> KCmd /\ x <> cmd /\ x <> 0.

(** The state in which a finished command's reads are checked. *)
Record check_ok (kind_of : id -> kind) (links : id -> list id) (root : id) (universe reads sticky old outputs : list id)
    (fuel : nat) (partial : list id -> list id) : Prop := {
  c_root : kind_of root = KRoot;
  c_db : finite_db links root universe;
  c_small : small universe;
  c_reads : sorted reads /\ incl reads universe;
  c_sticky : sorted sticky /\ incl sticky universe;
  c_old : sorted old /\ incl old universe;
  c_outputs : sorted outputs /\ incl outputs universe;
  c_fuel : 2 * length universe < fuel;
  c_partial : forall l, sorted l -> sorted (partial l) /\ incl (partial l) l
}.
