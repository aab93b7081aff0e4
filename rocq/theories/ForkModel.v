(** How commands are started and how their exit status comes back:
    server/master_fork.c. The threads of tup send requests through a socket to
    a process that forks a child for each ([master_fork_loop]); a thread of that
    process waits for the children ([child_waiter]) and sends each status back,
    where a thread of tup hands it to the caller ([child_wait_notifier]). Errors
    of system calls are left out, but that wait fails without children. *)
From Verif Require Import Base.
Require Export ZArith.
Open Scope nat_scope.

(** master_fork.h:27-39 struct execmsg and the texts that follow it. [flags]:
    num_env_entries, single_output, need_namespacing, run_in_bash,
    streaming_mode. The texts are the bytes that are sent, with their NUL. *)
Record req := {
  sid : Z;
  flags : list Z;
  job : bytes; dir : bytes; cmd : bytes; env : bytes; vardict : bytes;
}.
Record hdr := { h_sid : Z; h_flags : list Z; h_job : nat; h_dir : nat; h_cmd : nat; h_env : nat; h_var : nat }.
(** What is in the socket: the header, taken as one unit, and bytes. *)
Inductive cell := H (h : hdr) | Bt (b : Ascii.ascii).

(** master_fork.c:330-341: what is written for a request. *)
Definition header (r : req) : hdr :=
  {| h_sid := sid r; h_flags := flags r; h_job := length (job r); h_dir := length (dir r); h_cmd := length (cmd r);
     h_env := length (env r); h_var := length (vardict r) |}.
Definition enc (r : req) : list cell :=
  H (header r) :: map Bt (job r) ++ map Bt (dir r) ++ map Bt (cmd r) ++ map Bt (env r) ++ map Bt (vardict r).

(** master_fork.c:624-658: read_all for the header and the five texts, in terms
    of all the cells read so far. *)
Definition byte (c : cell) : Ascii.ascii := match c with Bt b => b | H _ => Ascii.zero end.
Definition total (h : hdr) : nat := h_job h + h_dir h + h_cmd h + h_env h + h_var h.
Definition take (n : nat) (l : list cell) : bytes := map byte (firstn n l).
Definition parts (h : hdr) (l : list cell) : req :=
  let l1 := skipn (h_job h) l in
  let l2 := skipn (h_dir h) l1 in
  let l3 := skipn (h_cmd h) l2 in
  let l4 := skipn (h_env h) l3 in
  {| sid := h_sid h; flags := h_flags h;
     job := take (h_job h) l; dir := take (h_dir h) l1; cmd := take (h_cmd h) l2; env := take (h_env h) l3; vardict := take (h_var h) l4 |}.

(** master_fork_exec (306-349) in a thread of tup: after the entry in
    status_root; with the lock and what remains to be written; waiting for the
    status; returned; returned -1. *)
Inductive phase := CNew | CWrite (rest : list cell) | CWait | CDone | CFail.
Record call := { c_req : req; c_ph : phase; c_set : option Z }.
(** master_fork_loop (541-777). *)
Inductive mphase := MRead (got : list cell) | MFork (r : req) | MIns (r : req) (pid k : nat)
                  | MClose | MJoin | MDone | MDead.
(** child_waiter (779-833). *)
Inductive wphase := WCheck | WWait | WGot (pid : nat) (st : Z) (k : nat) | WSend (s : Z) (st : Z) (k : nat) | WDone | WDead.
(** child_wait_notifier (835-861). *)
Inductive nphase := NRead | NDone | NDead.
Record kid := { k_no : nat; k_pid : nat; k_st : option Z }.

(** What happens: call [i] with request [r]; the [k]th child is started with a
    request; it ends with a status; the call returns the status, or -1. *)
Inductive event := Called (i : nat) (r : req) | Refused (i : nat) | Forked (k : nat) (r : req) | Exited (k : nat) (st : Z)
                 | Returned (i : nat) (st : Z).

(** Numbers of children in [kids], [tree], [down] and in the phases only serve
    to tell children with the same pid apart, and [order] only lists the calls in
    the order in which they got the lock; nothing depends on them. [root] is
    status_root (67) with the calls that wait for an entry; [tree] is
    child_waiter_root; [up] and [down] are what is in the socket in each
    direction. When the forking process ends early ([MDead]), the thread that
    hands out statuses ends too in the code, without a status for those who wait;
    here it stays. *)
Record state := {
  calls : list call;
  root : list (Z * nat);
  lock : option nat;
  up : list cell;
  mph : mphase;
  forks : nat;
  kids : list kid;
  tree : list (nat * (Z * nat));
  exiting : bool;
  wph : wphase;
  down : list (Z * Z * nat);
  nph : nphase;
  shut : bool;
  order : list nat;
  hist : list event;
}.

Definition init : state :=
  {| calls := []; root := []; lock := None; up := []; mph := MRead []; forks := 0; kids := []; tree := [];
     exiting := false; wph := WCheck; down := []; nph := NRead; shut := false; order := []; hist := [] |}.

Definition set_calls (s : state) c := {| calls := c; root := root s; lock := lock s; up := up s; mph := mph s; forks := forks s; kids := kids s; tree := tree s; exiting := exiting s; wph := wph s; down := down s; nph := nph s; shut := shut s; order := order s; hist := hist s |}.
Definition set_root (s : state) r := {| calls := calls s; root := r; lock := lock s; up := up s; mph := mph s; forks := forks s; kids := kids s; tree := tree s; exiting := exiting s; wph := wph s; down := down s; nph := nph s; shut := shut s; order := order s; hist := hist s |}.
Definition set_lock (s : state) l := {| calls := calls s; root := root s; lock := l; up := up s; mph := mph s; forks := forks s; kids := kids s; tree := tree s; exiting := exiting s; wph := wph s; down := down s; nph := nph s; shut := shut s; order := order s; hist := hist s |}.
Definition set_up (s : state) u := {| calls := calls s; root := root s; lock := lock s; up := u; mph := mph s; forks := forks s; kids := kids s; tree := tree s; exiting := exiting s; wph := wph s; down := down s; nph := nph s; shut := shut s; order := order s; hist := hist s |}.
Definition set_mph (s : state) m := {| calls := calls s; root := root s; lock := lock s; up := up s; mph := m; forks := forks s; kids := kids s; tree := tree s; exiting := exiting s; wph := wph s; down := down s; nph := nph s; shut := shut s; order := order s; hist := hist s |}.
Definition set_forks (s : state) f := {| calls := calls s; root := root s; lock := lock s; up := up s; mph := mph s; forks := f; kids := kids s; tree := tree s; exiting := exiting s; wph := wph s; down := down s; nph := nph s; shut := shut s; order := order s; hist := hist s |}.
Definition set_kids (s : state) k := {| calls := calls s; root := root s; lock := lock s; up := up s; mph := mph s; forks := forks s; kids := k; tree := tree s; exiting := exiting s; wph := wph s; down := down s; nph := nph s; shut := shut s; order := order s; hist := hist s |}.
Definition set_tree (s : state) t := {| calls := calls s; root := root s; lock := lock s; up := up s; mph := mph s; forks := forks s; kids := kids s; tree := t; exiting := exiting s; wph := wph s; down := down s; nph := nph s; shut := shut s; order := order s; hist := hist s |}.
Definition set_exiting (s : state) := {| calls := calls s; root := root s; lock := lock s; up := up s; mph := mph s; forks := forks s; kids := kids s; tree := tree s; exiting := true; wph := wph s; down := down s; nph := nph s; shut := shut s; order := order s; hist := hist s |}.
Definition set_wph (s : state) w := {| calls := calls s; root := root s; lock := lock s; up := up s; mph := mph s; forks := forks s; kids := kids s; tree := tree s; exiting := exiting s; wph := w; down := down s; nph := nph s; shut := shut s; order := order s; hist := hist s |}.
Definition set_down (s : state) d := {| calls := calls s; root := root s; lock := lock s; up := up s; mph := mph s; forks := forks s; kids := kids s; tree := tree s; exiting := exiting s; wph := wph s; down := d; nph := nph s; shut := shut s; order := order s; hist := hist s |}.
Definition set_nph (s : state) n := {| calls := calls s; root := root s; lock := lock s; up := up s; mph := mph s; forks := forks s; kids := kids s; tree := tree s; exiting := exiting s; wph := wph s; down := down s; nph := n; shut := shut s; order := order s; hist := hist s |}.
Definition set_shut (s : state) := {| calls := calls s; root := root s; lock := lock s; up := up s; mph := mph s; forks := forks s; kids := kids s; tree := tree s; exiting := exiting s; wph := wph s; down := down s; nph := nph s; shut := true; order := order s; hist := hist s |}.
Definition set_order (s : state) o := {| calls := calls s; root := root s; lock := lock s; up := up s; mph := mph s; forks := forks s; kids := kids s; tree := tree s; exiting := exiting s; wph := wph s; down := down s; nph := nph s; shut := shut s; order := o; hist := hist s |}.
Definition note (s : state) e := {| calls := calls s; root := root s; lock := lock s; up := up s; mph := mph s; forks := forks s; kids := kids s; tree := tree s; exiting := exiting s; wph := wph s; down := down s; nph := nph s; shut := shut s; order := order s; hist := e :: hist s |}.

Definition set_nth (l : list call) (i : nat) (c : call) : list call := firstn i l ++ c :: skipn (S i) l.
Definition upd_call (s : state) (i : nat) (c : call) : state := set_calls s (set_nth (calls s) i c).
Definition with_ph (c : call) (p : phase) : call := {| c_req := c_req c; c_ph := p; c_set := c_set c |}.

Definition find_sid (l : list (Z * nat)) (x : Z) : option nat := option_map snd (find (fun p => Z.eqb (fst p) x) l).
Definition rm_sid (l : list (Z * nat)) (x : Z) : list (Z * nat) := filter (fun p => negb (Z.eqb (fst p) x)) l.
Definition find_pid (l : list (nat * (Z * nat))) (x : nat) : option (Z * nat) := option_map snd (find (fun p => fst p =? x) l).
Definition rm_pid (l : list (nat * (Z * nat))) (x : nat) : list (nat * (Z * nat)) := filter (fun p => negb (fst p =? x)) l.
Definition finished (c : call) : bool := match c_ph c with CDone | CFail => true | _ => false end.

(** The exit message (server_post_exit, 266): sid -1 and nothing else. *)
Definition bye : hdr := {| h_sid := -1; h_flags := []; h_job := 0; h_dir := 0; h_cmd := 0; h_env := 0; h_var := 0 |}.

(** [cap] is the capacity of the sockets, in units; each unit is written and
    read in a step of its own. *)
Section Step.
Variable cap : nat.

Inductive step (s : state) : state -> Prop :=
(* 313-328: a call that can enter its sid; the id of a command is not -1 *)
| S_call r : shut s = false -> sid r <> (-1)%Z -> find_sid (root s) (sid r) = None ->
    step s (note (set_root (set_calls s (calls s ++ [{| c_req := r; c_ph := CNew; c_set := None |}]))
                    ((sid r, length (calls s)) :: root s)) (Called (length (calls s)) r))
| S_refuse r i : shut s = false -> find_sid (root s) (sid r) = Some i ->
    step s (note (note (set_calls s (calls s ++ [{| c_req := r; c_ph := CFail; c_set := None |}]))
                    (Called (length (calls s)) r)) (Refused (length (calls s))))
(* 329 *)
| S_lock i c : lock s = None -> nth_error (calls s) i = Some c -> c_ph c = CNew ->
    step s (set_order (set_lock (upd_call s i (with_ph c (CWrite (enc (c_req c))))) (Some i)) (order s ++ [i]))
(* 330-341 *)
| S_write i c x rest : nth_error (calls s) i = Some c -> c_ph c = CWrite (x :: rest) -> length (up s) < cap ->
    step s (set_up (upd_call s i (with_ph c (CWrite rest))) (up s ++ [x]))
(* 342 *)
| S_unlock i c : nth_error (calls s) i = Some c -> c_ph c = CWrite [] ->
    step s (set_lock (upd_call s i (with_ph c CWait)) None)
(* 863-873 wait_for_my_sid, 343-344 *)
| S_return i c st : nth_error (calls s) i = Some c -> c_ph c = CWait -> c_set c = Some st ->
    step s (note (upd_call s i (with_ph c CDone)) (Returned i st))
(* 624-658; a byte instead of the header, or the other way round, would be misread *)
| S_header h rest : mph s = MRead [] -> up s = H h :: rest -> h_sid h <> (-1)%Z ->
    step s (set_mph (set_up s rest) (if total h =? 0 then MFork (parts h []) else MRead [H h]))
| S_byte h l b rest : mph s = MRead (H h :: l) -> up s = Bt b :: rest ->
    step s (set_mph (set_up s rest) (if S (length l) =? total h then MFork (parts h (l ++ [Bt b])) else MRead (H h :: l ++ [Bt b])))
| S_misread got x rest : mph s = MRead got -> up s = x :: rest ->
    (match got, x with [], H _ => False | _ :: _, Bt _ => False | _, _ => True end) ->
    step s (set_wph (set_mph s MDead) WDead)
(* 680-734: the pid is not that of a child, running or not waited for *)
| S_fork r pid : mph s = MFork r -> (forall k, In k (kids s) -> k_pid k <> pid) ->
    step s (note (set_mph (set_forks (set_kids s ({| k_no := forks s; k_pid := pid; k_st := None |} :: kids s)) (S (forks s))) (MIns r pid (forks s)))
              (Forked (forks s) r))
(* 735-741 *)
| S_insert r pid k : mph s = MIns r pid k -> find_pid (tree s) pid = None ->
    step s (set_mph (set_tree s ((pid, (sid r, k)) :: tree s)) (MRead []))
| S_twice r pid k e : mph s = MIns r pid k -> find_pid (tree s) pid = Some e ->
    step s (set_wph (set_mph s MDead) WDead)
(* any child ends at any time *)
| S_exit a k b st : kids s = a ++ k :: b -> k_st k = None ->
    step s (note (set_kids s (a ++ {| k_no := k_no k; k_pid := k_pid k; k_st := Some st |} :: b)) (Exited (k_no k) st))
(* 790-797 *)
| S_nonempty : wph s = WCheck -> tree s <> [] -> exiting s = false -> step s (set_wph s WWait)
| S_exiting : wph s = WCheck -> exiting s = true -> step s (set_wph s WDone)
(* 799-803 *)
| S_wait a k b st : wph s = WWait -> kids s = a ++ k :: b -> k_st k = Some st ->
    step s (set_wph (set_kids s (a ++ b)) (WGot (k_pid k) st (k_no k)))
| S_nochild : wph s = WWait -> kids s = [] -> step s (set_wph s WDead)
(* 805-813 *)
| S_found pid st k x k' : wph s = WGot pid st k -> find_pid (tree s) pid = Some (x, k') ->
    step s (set_wph (set_tree s (rm_pid (tree s) pid)) (WSend x st k))
| S_lost pid st k : wph s = WGot pid st k -> find_pid (tree s) pid = None -> step s (set_wph s WDead)
(* 825 *)
| S_send x st k : wph s = WSend x st k -> length (down s) < cap ->
    step s (set_wph (set_down s (down s ++ [(x, st, k)])) WCheck)
(* 842-858 *)
| S_notify x st k rest i c : nph s = NRead -> down s = (x, st, k) :: rest -> x <> (-1)%Z -> find_sid (root s) x = Some i ->
    nth_error (calls s) i = Some c ->
    step s (set_root (set_down (upd_call s i {| c_req := c_req c; c_ph := c_ph c; c_set := Some st |}) rest) (rm_sid (root s) x))
| S_unknown x st k rest : nph s = NRead -> down s = (x, st, k) :: rest -> x <> (-1)%Z -> find_sid (root s) x = None ->
    step s (set_nph (set_down s rest) NDead)
| S_bye st k rest : nph s = NRead -> down s = ((-1)%Z, st, k) :: rest -> step s (set_nph (set_down s rest) NDone)
(* 263-294 server_post_exit, when all the calls are over *)
| S_shut : shut s = false -> forallb finished (calls s) = true -> length (up s) < cap ->
    step s (set_shut (set_up s (up s ++ [H bye])))
| S_last rest h : mph s = MRead [] -> up s = H h :: rest -> h_sid h = (-1)%Z -> step s (set_mph (set_up s rest) MClose)
(* 744-758 *)
| S_close : mph s = MClose -> length (down s) < cap ->
    step s (set_mph (set_down s (down s ++ [((-1)%Z, 0%Z, 0)])) MJoin)
(* 760-764; pthread_join *)
| S_quit : mph s = MJoin -> exiting s = false -> step s (set_exiting s)
| S_join : mph s = MJoin -> exiting s = true -> wph s = WDone -> step s (set_mph s MDone).

Inductive steps : state -> state -> Prop :=
| steps_refl s : steps s s
| steps_step s s' s'' : steps s s' -> step s' s'' -> steps s s''.
End Step.

(** fuse_server.c:552-565 and updater.c:2622-2648: when the command counts as
    successful. A wait status is 256 times the exit code, or a signal number
    below 128 (with the core dump bit, 128). *)
Inductive ending := Exit (code : Z) | Signal (n : Z) | Other.
Definition decode (st : Z) : ending :=
  (let low := Z.land st 127 in
   if low =? 0 then Exit (Z.land (Z.shiftr st 8) 255)
   else if low =? 127 then Other else Signal low)%Z.
