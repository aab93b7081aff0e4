(** Model of the figures of the progress bar and of measured times: src/tup/progress.c and
    src/tup/timespan.c. What is printed around the figures, and the estimate of the remaining time,
    which is computed in floating point, are not modelled. *)
Require Import ZArith List Bool.
Import ListNotations.
Open Scope Z_scope.

(** An int: results that do not fit wrap around (which is what the compiled code does; the C standard
    leaves it open). *)
Definition int (z : Z) : Z := (z + 2147483648) mod 4294967296 - 2147483648.
(** progress.c:34-39: the counters, all of them ints. *)
Record progress := { sum : Z; total : Z; job_time : Z; total_time : Z }.
(** progress.c:137-168 start_progress *)
Definition start_progress (new_total new_total_time : Z) : progress := {| sum := 0; total := int new_total; job_time := 0; total_time := int new_total_time |}.
(** progress.c:170-176 skip_result, for a command; the recorded time of the command is in ms *)
Definition skip_result (mtime : Z) (p : progress) : progress :=
  {| sum := int (sum p + 1); total := total p; job_time := job_time p; total_time := int (total_time p - mtime) |}.
(** progress.c:193-205 show_result: the part that changes the counters *)
Definition show_result (mtime : Z) (p : progress) : progress :=
  {| sum := int (sum p + 1); total := total p; job_time := int (job_time p + mtime); total_time := total_time p |}.
(** progress.c:178-191 percent_complete *)
Definition percent_complete (p : progress) : Z :=
  if total p =? 0 then 0 else
  if 0 <? total_time p then Z.quot (int (job_time p * 100)) (total_time p) else
  Z.quot (int (sum p * 100)) (total p).
(** progress.c:297-324 show_progress: how many characters of the bar are filled, and its length. The
    bar is in a buffer of [console_width + color_len + 1] bytes. *)
Definition bar (console_width : Z) (p : progress) : Z * Z :=
  let max := console_width - 9 in
  let max := if total p <? max then total p else max in
  (if max =? total p then sum p else Z.quot (int (max * percent_complete p)) 100, max).
(** progress.c:233, 337: whether the figures are marked as approximate *)
Definition approximate (p : progress) : bool := total_time p =? -1.
(** What happens to a command: updater.c:2139-2158 update_work *)
Inductive event := Ran (t : Z) | Skipped (t : Z).
Definition step (p : progress) (e : event) : progress := match e with Ran t => show_result t p | Skipped t => skip_result t p end.
Definition progress_after (n t : Z) (h : list event) : progress := fold_left step h (start_progress n t).
(** graph.c:250, 303-311: the number of commands and the sum of their times, or -1 if one of them has no
    time. This sum is a time_t (graph.h:88), which is wide enough; start_progress makes it an int. *)
Definition total_mtime (js : list Z) : Z :=
  fold_left (fun a t => if a =? -1 then a else if t =? -1 then -1 else a + t) js 0.

(** timespan.h: a struct timeval *)
Record timeval := { tv_sec : Z; tv_usec : Z }.
Record timespan := { start : timeval; end_ : timeval }.
(** timespan.c:34-39 timespan_milliseconds; C rounds quotients towards 0 *)
Definition timespan_milliseconds (ts : timespan) : Z :=
  (tv_sec (end_ ts) - tv_sec (start ts)) * 1000 + Z.quot (tv_usec (end_ ts) - tv_usec (start ts) + 500) 1000.
(** timespan.c:47-58 timespan_add_delta *)
Definition timespan_add_delta (ts delta : timespan) : timespan :=
  let sec := tv_sec (start ts) + (tv_sec (end_ delta) - tv_sec (start delta)) in
  let usec := tv_usec (start ts) + (tv_usec (end_ delta) - tv_usec (start delta)) in
  {| start := if 1000000 <=? usec then {| tv_sec := sec + 1; tv_usec := usec - 1000000 |}
              else if usec <? 0 then {| tv_sec := sec - 1; tv_usec := usec + 1000000 |}
              else {| tv_sec := sec; tv_usec := usec |};
     end_ := end_ ts |}.
