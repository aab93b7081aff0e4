(** What the server should see of an access. *)
From Verif Require Import Base DepModel.

(** The path meant by a name in a directory. *)
Definition path_in (dir name : bytes) : bytes :=
  match name with "/"%char :: _ => name | _ => dir ++ "/"%char :: name end.
Definition seen (a : access) : Z * bytes * bytes :=
  (a_at a, path_in (a_dir a) (a_file a), match a_file2 a with [] => [] | _ => path_in (a_dir a) (a_file2 a) end).
(** C strings, a type that is an int, and paths that fit the server's buffers. *)
Definition good (a : access) : Prop :=
  no_nul (a_dir a) /\ no_nul (a_file a) /\ no_nul (a_file2 a) /\ (0 <= a_at a < 2147483648)%Z /\
  (Z.of_nat (length (snd (fst (seen a)))) < 4095)%Z /\ (Z.of_nat (length (snd (seen a))) < 4095)%Z.
(** The bytes of a record. *)
Definition record (a : access) : bytes := concat (writes a).

(** Everything that process i contributed to a common sequence. *)
Definition of_process {A} (i : nat) (l : list (nat * A)) : list A := map snd (filter (fun p => fst p =? i) l).
Definition all_done (s : wst) : Prop := holder s = None /\ forall i, todo (procs s i) = [].

(** Files that are not reported: those of the kernel's file systems, and of compiler caches. *)
Definition starts (p s : bytes) : Prop := exists r, s = p ++ r.
Definition contains (m s : bytes) : Prop := exists l r, s = l ++ m ++ r.
Definition unreported (p : bytes) : Prop :=
  starts (B "/dev/") p \/ starts (B "/sys/") p \/ starts (B "/proc/") p \/
  contains (B "/.ccache") p \/ contains (B "/.cache/ccache") p \/ contains (B "/ccache-tmp/") p \/ starts (B "/tmp/.icecream-") p.
