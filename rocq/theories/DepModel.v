(** The access records of a job, written by the preloaded library (src/ldpreload/ldpreload.c)
    and read by the server (src/tup/server/depfile.c). *)
From Verif Require Import Base ConfigModel.
From Coq Require Import ZArith.

(** The fields of struct access_event are int, in memory order on a little-endian machine
    (access_event.h 50-63); enum access_type is kept as its number. *)
Definition byte (z : Z) : ascii := ascii_of_nat (Z.to_nat (z mod 256)).
Definition le32 (z : Z) : bytes := [byte z; byte (z / 256); byte (z / 65536); byte (z / 16777216)].
Definition unbyte (c : ascii) : Z := Z.of_nat (nat_of_ascii c).
Definition un32 (s : bytes) : Z :=
  match s with
  | [a; b; c; d] => let u := (unbyte a + 256 * unbyte b + 65536 * unbyte c + 16777216 * unbyte d)%Z in
                    if (u <? 2147483648)%Z then u else (u - 4294967296)%Z
  | _ => 0%Z
  end.

Definition nul : ascii := "000"%char.
Definition PATH_MAX : Z := 4096.

(** compat.c is_full_path on Unix. *)
Definition is_full_path (p : bytes) : bool := match p with c :: _ => c =?c "/"%char | [] => false end.
(** ccache.c 24-47 is_ccache_path: strstr, strncmp. *)
Fixpoint strstr (p : bytes) (s : bytes) : bool :=
  prefixb p s || match s with [] => false | _ :: t => strstr p t end.
Definition is_ccache_path (p : bytes) : bool :=
  strstr (B "/.ccache") p || strstr (B "/.cache/ccache") p || strstr (B "/ccache-tmp/") p || prefixb (B "/tmp/.icecream-") p.
(** ldpreload.c 726-737 ignore_file *)
Definition ignore_file (p : bytes) : bool :=
  prefixb (B "/dev/") p || prefixb (B "/sys/") p || prefixb (B "/proc/") p || is_ccache_path p.

(** An access as the library sees it: the directory (current, or that of the descriptor), the
    two names, the second one empty if there is none, and the type. *)
Record access := { a_dir : bytes; a_file : bytes; a_file2 : bytes; a_at : Z }.

(** ldpreload.c 631-690 handle_file_locked, 655-681: the write calls of one record. *)
Definition header (at_ len len2 : Z) : bytes := le32 at_ ++ le32 len ++ le32 len2.
Definition writes (a : access) : list bytes :=
  let len := Z.of_nat (length (a_file a)) in
  let len2 := Z.of_nat (length (a_file2 a)) in
  let dirlen := Z.of_nat (length (a_dir a)) in
  let rel1 := negb (is_full_path (a_file a)) in
  let rel2 := match a_file2 a with [] => false | _ => negb (is_full_path (a_file2 a)) end in
  [header (a_at a) (if rel1 then len + dirlen + 1 else len)%Z (if rel2 then len2 + dirlen + 1 else len2)%Z] ++
  (if rel1 then [a_dir a; B "/"] else []) ++ [a_file a ++ [nul]] ++
  (if rel2 then [a_dir a; B "/"] else []) ++ [a_file2 a ++ [nul]].
(** 639-642: nothing is written for ignored files. *)
Definition sends (a : access) : bool := negb (ignore_file (a_file a)) && negb (ignore_file (a_file2 a)).

(** depfile.c process_depfile: the calls of handle_file. [Over]: an access outside of the
    buffers; read with a count of -1 or 0 passes the test of its result (len -2 and -1), other
    negative counts are an error (EINVAL). *)
Definition cstr (s : bytes) : bytes := fst (span (fun c => negb (c =?c nul)) s).
Definition read_path (len : Z) (s : bytes) : outcome (bytes * bytes) :=
  if (len <? -2)%Z then Bad
  else if (len <? 0)%Z then Over
  else
    let n := S (Z.to_nat len) in
    if length s <? n then Bad
    else Ok (firstn n s, skipn n s).
Definition ends_nul (s : bytes) : bool := match rev s with c :: _ => c =?c nul | [] => false end.
Fixpoint process (fuel : nat) (s : bytes) : outcome (list (Z * bytes * bytes)) :=
  match fuel with
  | 0 => NoFuel
  | S fuel =>
      match s with
      | [] => Ok []
      | _ =>
          if length s <? 12 then Bad
          else
            let at_ := un32 (firstn 4 s) in
            let len := un32 (firstn 4 (skipn 4 s)) in
            let len2 := un32 (firstn 4 (skipn 8 s)) in
            let s := skipn 12 s in
            if (len =? 0)%Z then process fuel s
            else if (PATH_MAX - 1 <=? len)%Z then Bad
            else if (PATH_MAX - 1 <=? len2)%Z then Bad
            else
              match read_path len s with
              | Ok (e1, s) =>
                  match read_path len2 s with
                  | Ok (e2, s) =>
                      if ends_nul e1 && ends_nul e2 then
                        match process fuel s with
                        | Ok r => Ok ((at_, cstr e1, cstr e2) :: r)
                        | o => o
                        end
                      else Bad
                  | Bad => Bad | Over => Over | NoFuel => NoFuel
                  end
              | Bad => Bad | Over => Over | NoFuel => NoFuel
              end
      end
  end.
Definition process_depfile (s : bytes) : outcome (list (Z * bytes * bytes)) := process (S (length s)) s.

(** The processes of a job append to the same file (O_APPEND, 161). Each takes the lock of the file
    before a record (651), writes it call by call and drops the lock (682). A thread of a
    process is excluded by a mutex (694), so that a process writes one record at a time. *)
Record wproc := { todo : list access; now : list bytes }.
Record wst := { file : bytes; holder : option nat; procs : nat -> wproc }.
Definition pset (f : nat -> wproc) (i : nat) (p : wproc) : nat -> wproc := fun j => if j =? i then p else f j.
(** When processes of the job are killed. *)
Inductive kills := NoKill | BetweenRecords | Anywhere.
Inductive wstep (mid : kills) : wst -> wst -> Prop :=
| w_skip s i a r : todo (procs s i) = a :: r -> sends a = false -> holder s <> Some i ->
    wstep mid s {| file := file s; holder := holder s; procs := pset (procs s) i {| todo := r; now := [] |} |}
| w_lock s i a r : holder s = None -> todo (procs s i) = a :: r -> sends a = true ->
    wstep mid s {| file := file s; holder := Some i; procs := pset (procs s) i {| todo := r; now := writes a |} |}
| w_write s i b l : holder s = Some i -> now (procs s i) = b :: l ->
    wstep mid s {| file := file s ++ b; holder := Some i; procs := pset (procs s) i {| todo := todo (procs s i); now := l |} |}
| w_unlock s i : holder s = Some i -> now (procs s i) = [] ->
    wstep mid s {| file := file s; holder := None; procs := procs s |}
(** The process is killed: its lock goes away. *)
| w_kill s i : mid <> NoKill -> holder s <> Some i ->
    wstep mid s {| file := file s; holder := holder s; procs := pset (procs s) i {| todo := []; now := [] |} |}
| w_kill_mid s i : mid = Anywhere -> holder s = Some i ->
    wstep mid s {| file := file s; holder := None; procs := pset (procs s) i {| todo := []; now := [] |} |}.
Inductive wsteps (mid : kills) : wst -> wst -> Prop :=
| ws_refl s : wsteps mid s s
| ws_step s t u : wsteps mid s t -> wstep mid t u -> wsteps mid s u.
Definition wstart (progs : nat -> list access) : wst :=
  {| file := []; holder := None; procs := fun i => {| todo := progs i; now := [] |} |}.
