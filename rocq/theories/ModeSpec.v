(** What the change between a build in the source tree and variants should do. *)
From Verif Require Import Base ModeModel.

(** The variants of a project: the directories other than the top that have a
    tup.config; if there is none, the build is in the source tree. *)
Definition has_config (w : world) (d : path) : Prop := exists t, In (d, t) (wconf w).
Definition no_variants (w : world) : Prop := forall d, has_config w d -> d = [].
Definition variant (w : world) (v : path) : Prop :=
  (v <> [] /\ has_config w v) \/ (v = [] /\ no_variants w).

(** The files that should be there: for each variant and each Tupfile what it
    makes, in the directory of the variant. *)
Definition wanted (w : world) (g : file) : Prop :=
  exists v s o, variant w v /\ In s (srcs w) /\ In o (wtup w s) /\ g = (v ++ s, o).

(** The histories. Variants are only in directories of the top, [V] are those
    that the history uses. A directory that was removed while it was a variant
    ([away]) and whose removal was noticed by a scan or a failed update ([gone])
    may come back with its tup.config ([back]), but then its tup.config stays
    and the next scan is that of an update that works. *)
Record notes := { away : list path; gone : list path; back : list path }.
Definition quiet_notes : notes := {| away := []; gone := []; back := [] |}.

Inductive allowed (V : path -> Prop) (w : world) (n : notes) : op -> notes -> Prop :=
| a_add d t : (d = [] \/ V d) ->
    allowed V w n (AddConfig d t)
      {| away := del d (away n); gone := gone n; back := if mem d (gone n) then d :: back n else back n |}
| a_rm d : ~ In d (back n) -> allowed V w n (RmConfig d) n
| a_tree d : V d -> (forall s, In s (srcs w) -> under d s = false) ->
    allowed V w n (RmTree d) {| away := d :: away n; gone := gone n; back := del d (back n) |}
| a_out g : allowed V w n (RmOut g) n
| a_file g : In (fst g) (wdirs w) -> ~ In g (wgen w) -> allowed V w n (AddFile g) n
| a_edit s os : (forall o, In o os -> ~ V (s ++ [o]) /\ ~ In (s ++ [o]) (srcs w)) -> allowed V w n (Edit s os) n.

Inductive reach (V : path -> Prop) (ss : list path) (t : path -> list bytes) : world -> db -> notes -> Prop :=
| r_start : reach V ss t (start ss t) init quiet_notes
| r_op w b n o n' : reach V ss t w b n -> allowed V w n o n' -> reach V ss t (act o w) b n'
| r_scan w b n : reach V ss t w b n -> back n = [] ->
    reach V ss t (scanned w) (scan w b) {| away := away n; gone := away n ++ gone n; back := [] |}
| r_fail ok w b n w' b' : reach V ss t w b n -> back n = [] -> update ok w b = (w', b', false) ->
    reach V ss t w' b' {| away := away n; gone := away n ++ gone n; back := [] |}
| r_update ok w b n w' b' : reach V ss t w b n -> update ok w b = (w', b', true) ->
    reach V ss t w' b' quiet_notes.

(** Projects: the top has a Tupfile; no source directory is hidden; variants
    are directories of the top; outputs are not named like source directories
    or variants. *)
Record project (V : path -> Prop) (ss : list path) (t : path -> list bytes) : Prop := {
  p_top : In [] ss;
  p_hidden : forall s c, In s ss -> In c s -> hidden c = false;
  p_one : forall d, V d -> length d = 1;
  p_outs : forall s o, In o (t s) -> ~ V (s ++ [o]) /\ ~ In (s ++ [o]) ss }.

(** When an update should work: the directory of a variant that is new has
    nothing in it that the scan looks at, no other file is in the directory of a
    variant or is one that a Tupfile makes. *)
Definition empty_dir (w : world) (d : path) : Prop :=
  ~ In d (srcs w) /\ (forall c r, ~ In (d ++ c :: r) (wdirs w)) /\ (forall g r, In g (wgen w) -> fst g <> d ++ r).
Record workable (V : path -> Prop) (w : world) (b : db) : Prop := {
  f_new : forall d, has_config w d -> d <> [] -> (In d (dvars b) /\ In d (ddirs b)) \/ empty_dir w d;
  f_stray : forall g d r, In g (wextra w) -> V d -> fst g <> d ++ r;
  f_clash : forall s o, In s (srcs w) -> In o (wtup w s) -> ~ In (s, o) (wextra w) }.
