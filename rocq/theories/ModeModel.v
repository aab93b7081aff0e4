(** Model of the change between a build in the source tree and variants:
    updater.c:139-220 updater, 755-768 delete_in_tree, 800-893, 895-1153
    process_config_nodes, 1156-1219 get_rel_tent, 1384-1640
    process_create_nodes, variant.c, create_name_file.c:120-330, path.c and
    db.c:999-1139, 1700-1780, 1860-1935. *)
From Verif Require Import Base.

(** A directory, relative to the top; the top is []. *)
Definition path := list bytes.
Fixpoint path_eqb (p q : path) : bool :=
  match p, q with
  | [], [] => true
  | a :: p', b :: q' => bytes_eqb a b && path_eqb p' q'
  | _, _ => false
  end.
Definition mem (p : path) (l : list path) : bool := existsb (path_eqb p) l.
(** "insert or ignore into", "delete from" *)
Definition add (p : path) (l : list path) : list path := if mem p l then l else p :: l.
(** The rows of variant_list come in the order of ids, taken to be the order in
    which they were inserted. *)
Definition add_last (p : path) (l : list path) : list path := if mem p l then l else l ++ [p].
Definition del (p : path) (l : list path) : list path := filter (fun q => negb (path_eqb p q)) l.
(** The rest of p after d, if p is d or below d. *)
Fixpoint strip (d p : path) : option path :=
  match d, p with
  | [], _ => Some p
  | a :: d', b :: p' => if bytes_eqb a b then strip d' p' else None
  | _ :: _, [] => None
  end.
Definition under (d p : path) : bool := match strip d p with Some _ => true | None => false end.
Definition below (d p : path) : bool := match strip d p with Some (_ :: _) => true | _ => false end.
(** A file: its directory and its name. *)
Definition file : Type := path * bytes.
Definition file_eqb (f g : file) : bool := path_eqb (fst f) (fst g) && bytes_eqb (snd f) (snd g).
Definition fmem (f : file) (l : list file) : bool := existsb (file_eqb f) l.
Fixpoint lookup {A} (p : path) (l : list (path * A)) : option A :=
  match l with [] => None | (q, x) :: t => if path_eqb p q then Some x else lookup p t end.

(** What is on the disk: the directories with a Tupfile (which do not change
    here), the tup.config files with their times, all directories, the
    generated files, other files, what each Tupfile makes in its own directory,
    and the directories in which a Tupfile or another file changed since the
    last scan. *)
Record world := {
  srcs : list path; wconf : list (path * nat); wdirs : list path;
  wgen : list file; wextra : list file; wtup : path -> list bytes; wdirty : list path }.
(** The database: the tup.config nodes (without a time: ghosts), config_list,
    variant_list, create_list, the generated files and the directories. *)
Record db := {
  dnode : list (path * option nat); dconf : list path; dvars : list path;
  dcreate : list path; dgen : list file; ddirs : list path }.

(** What the Tupfile of a directory makes. Outputs in other directories are
    not modelled. *)
Definition makes (w : world) (s : path) : list bytes := if mem s (srcs w) then wtup w s else [].

(** entry.c:442-453 tup_entry_variant_null: the nearest directory upwards that
    has a variant. *)
Fixpoint owner (l : list path) (pre p : path) : option path :=
  match p with
  | [] => if mem pre l then Some pre else None
  | c :: p' =>
      match owner l (pre ++ [c]) p' with
      | Some v => Some v
      | None => if mem pre l then Some pre else None
      end
  end.
Definition rest (d p : path) : path := match strip d p with Some r => r | None => [] end.

(** The scan (path.c:39-171, create_name_file.c:120-465). *)
Definition missing (w : world) (b : db) (p : path) : bool := mem p (ddirs b) && negb (mem p (wdirs w)).
(** create_name_file.c:120-211 and 213-228: a tup.config node follows the disk;
    one that is removed becomes a ghost. *)
Definition scan_node (w : world) (b : db) : list (path * option nat) :=
  map (fun c => (fst c, Some (snd c))) (wconf w) ++
  map (fun n => (fst n, None)) (filter (fun n => match lookup (fst n) (wconf w) with None => true | Some _ => false end) (dnode b)).
Definition onat_eqb (a b : option nat) : bool :=
  match a, b with Some x, Some y => x =? y | None, None => true | _, _ => false end.
Definition changed (w : world) (b : db) : list path :=
  filter (fun d => negb (onat_eqb (match lookup d (dnode b) with Some o => o | None => None end) (lookup d (wconf w))))
         (map fst (wconf w) ++ map fst (dnode b)).
(** create_name_file.c:262-284 and 357-416: the directory of a variant itself is
    removed with force; for a directory of a variant that is still there the
    source directory is parsed again; otherwise the directory above is. *)
Definition scan_missing (w : world) (b : db) (p : path) : list path :=
  match owner (del [] (dvars b)) [] p with
  | Some v => if missing w b v then [] else [rest v p]
  | None => [removelast p]
  end.
Definition scan (w : world) (b : db) : db := {|
  dnode := scan_node w b;
  dconf := fold_right add (dconf b) (changed w b);
  dvars := dvars b;
  dcreate := filter (fun p => negb (missing w b p)) (dcreate b) ++ wdirty w ++
             filter (fun p => negb (mem p (ddirs b))) (wdirs w) ++
             flat_map (scan_missing w b) (filter (missing w b) (ddirs b)) ++
             filter (fun d => match lookup d (wconf w) with Some _ => true | None => false end) (changed w b);
  dgen := filter (fun g => negb (missing w b (fst g))) (dgen b);
  ddirs := wdirs w |}.
Definition scanned (w : world) : world := {|
  srcs := srcs w; wconf := wconf w; wdirs := wdirs w; wgen := wgen w;
  wextra := wextra w; wtup := wtup w; wdirty := [] |}.
(** variant.c:35-50 variant_load, before the scan; LIST_INSERT_HEAD turns the
    order around. db.c:1051-1066: a variant whose directory was a ghost and is
    there again is taken from the list. *)
Definition load (w : world) (b : db) : list path :=
  filter (fun d => negb (mem d (wdirs w) && negb (mem d (ddirs b)))) (rev (dvars b)).

(** A step that works, or one that fails and leaves the disk as it is then; the
    database is rolled back. *)
Inductive res (A : Type) := Good (a : A) | Bad (w : world).
Arguments Good {A} a.
Arguments Bad {A} w.

(** The state of process_config_nodes: the list of variants in memory,
    node_list, variants_removed and new_variants. *)
Record cstate := {
  cw : world; cb : db; loaded : list path; newv : list path; removed : bool; fresh : bool }.

Definition with_dirs (w : world) (g : list file) (d : list path) : world := {|
  srcs := srcs w; wconf := wconf w; wdirs := d; wgen := g; wextra := wextra w; wtup := wtup w; wdirty := wdirty w |}.

(** db.c:1700-1766 delete_variant_dir: all that is below d, in the database and
    on the disk. Files that tup did not make stay, and the directory they are
    in then cannot be removed. *)
Definition stuck (w : world) (d : path) : bool :=
  existsb (fun e => below d (fst e)) (wextra w) || existsb (fun c => below d (fst c)) (wconf w).
Definition clear_world (d : path) (w : world) : world :=
  with_dirs w (filter (fun g => negb (under d (fst g))) (wgen w)) (filter (fun p => negb (below d p)) (wdirs w)).
Definition clear_db (d : path) (b : db) : db := {|
  dnode := filter (fun n => negb (below d (fst n))) (dnode b);
  dconf := filter (fun p => negb (below d p)) (dconf b);
  dvars := filter (fun p => negb (below d p)) (dvars b);
  dcreate := filter (fun p => negb (below d p)) (dcreate b);
  dgen := filter (fun g => negb (under d (fst g))) (dgen b);
  ddirs := filter (fun p => negb (below d p)) (ddirs b) |}.

(** updater.c:871-893 recurse_delete_variant *)
Definition forget_config (d : path) (b : db) : db := {|
  dnode := filter (fun n => negb (path_eqb d (fst n))) (dnode b);
  dconf := del d (dconf b); dvars := del d (dvars b);
  dcreate := if mem d (ddirs b) then add d (dcreate b) else dcreate b;
  dgen := dgen b; ddirs := ddirs b |}.
Definition unflag_config (d : path) (b : db) : db := {|
  dnode := dnode b; dconf := del d (dconf b); dvars := dvars b;
  dcreate := dcreate b; dgen := dgen b; ddirs := ddirs b |}.
Definition set_vars (l : list path) (b : db) : db := {|
  dnode := dnode b; dconf := dconf b; dvars := l;
  dcreate := dcreate b; dgen := dgen b; ddirs := ddirs b |}.

(** updater.c:800-836 check_empty_variant: names that start with a dot, and
    tup.config, do not count. The Tupfile of a source directory does. *)
Definition hidden (c : bytes) : bool :=
  match c with a :: _ => (a =?c ".") || bytes_eqb c (B "tup.config") | [] => false end.
Definition quiet (d : path) (p : path) : bool := match strip d p with Some (c :: _) => hidden c | _ => true end.
Definition check_empty (w : world) (d : path) : bool :=
  negb (mem d (srcs w)) &&
  forallb (quiet d) (wdirs w) &&
  forallb (fun g => quiet d (fst g ++ [snd g])) (wgen w) &&
  forallb (fun g => quiet d (fst g ++ [snd g])) (wextra w).

(** updater.c:838-859 delete_variant_dirs and 652-677 cleanup_dir: the
    directory with the last name of d in each variant. Ghosts with that name
    are not modelled. *)
Fixpoint delete_dirs (vs : list path) (name : bytes) (w : world) (b : db) : res (world * db) :=
  match vs with
  | [] => Good (w, b)
  | v :: r =>
      let t := v ++ [name] in
      if path_eqb v [] then delete_dirs r name w b
      else if mem t (ddirs b) then
        let w1 := clear_world t w in
        if stuck w t || existsb (fun e => path_eqb t (fst e)) (wextra w) || existsb (fun c => path_eqb t (fst c)) (wconf w)
        then Bad w1
        else let b1 := clear_db t b in
             delete_dirs r name (with_dirs w1 (wgen w1) (del t (wdirs w1)))
               {| dnode := dnode b1; dconf := dconf b1; dvars := dvars b1;
                  dcreate := del t (dcreate b1); dgen := dgen b1; ddirs := del t (ddirs b1) |}
      else if fmem (v, name) (dgen b) || fmem (v, name) (wextra w) then Bad w
      else delete_dirs r name w b
  end.

Definition ghost (b : db) (d : path) : bool := match lookup d (dnode b) with Some (Some _) => false | _ => true end.

(** updater.c:950-1084: one tup.config of the config list. The branch for a
    variant in the list that is disabled (1048-1063) is left out: only the one
    of the top is ever disabled, and that after the loop. Reading the
    variables (C08, C38) and their errors are left out. *)
Definition config_node (n : path) (c : cstate) : res cstate :=
  if ghost (cb c) n && negb (path_eqb n []) then
    if mem n (loaded c) then
      match n with
      | [_] =>
          let w1 := clear_world n (cw c) in
          if stuck (cw c) n then Bad w1
          else Good {| cw := w1; cb := forget_config n (clear_db n (cb c));
                       loaded := del n (loaded c); newv := newv c; removed := true; fresh := fresh c |}
      | _ => Good {| cw := cw c; cb := unflag_config n (cb c); loaded := del n (loaded c);
                     newv := newv c; removed := true; fresh := fresh c |}
      end
    else Good {| cw := cw c; cb := unflag_config n (cb c); loaded := loaded c;
                 newv := newv c; removed := removed c; fresh := fresh c |}
  else if mem n (loaded c) then
    Good {| cw := cw c; cb := unflag_config n (cb c); loaded := loaded c;
            newv := newv c; removed := removed c; fresh := fresh c |}
  else if path_eqb n [] then
    Good {| cw := cw c; cb := unflag_config n (set_vars (add_last n (dvars (cb c))) (cb c));
            loaded := n :: loaded c; newv := newv c; removed := removed c; fresh := fresh c |}
  else if check_empty (cw c) n then
    match delete_dirs (loaded c) (last n []) (cw c) (cb c) with
    | Bad w => Bad w
    | Good (w, b) =>
        Good {| cw := w; cb := unflag_config n (set_vars (add_last n (dvars b)) b);
                loaded := n :: loaded c; newv := n :: newv c; removed := removed c; fresh := true |}
    end
  else Bad (cw c).
Fixpoint config_nodes (l : list path) (c : cstate) : res cstate :=
  match l with
  | [] => Good c
  | n :: r => match config_node n c with Bad w => Bad w | Good c' => config_nodes r c' end
  end.

(** updater.c:921-941: using_variants, using_in_tree. *)
Fixpoint in_use (b : db) (l : list path) : bool * bool :=
  match l with
  | [] => (false, false)
  | d :: r => if path_eqb d [] then (false, true) else if ghost b d then in_use b r else (true, false)
  end.

(** updater.c:1094-1123: the variant of the top. The result says whether it is
    enabled; it is in the list in any case. *)
Definition root_node (u : bool * bool) (c : cstate) : cstate * bool :=
  let upd w b l := {| cw := w; cb := b; loaded := l; newv := newv c; removed := removed c; fresh := fresh c |} in
  if negb (mem [] (loaded c)) then
    match loaded c with
    | [] => (upd (cw c) (set_vars (add_last [] (dvars (cb c))) (cb c)) [[]], true)
    | _ => (upd (cw c) (cb c) ([] :: loaded c), false)
    end
  else
    let b := cb c in
    let wb := if snd u && fresh c
              then (with_dirs (cw c) (filter (fun g => negb (fmem g (dgen b))) (wgen (cw c))) (wdirs (cw c)),
                    {| dnode := dnode b; dconf := dconf b; dvars := dvars b; dcreate := dcreate b; dgen := []; ddirs := ddirs b |})
              else (cw c, b) in
    if fst u || fresh c then (upd (fst wb) (set_vars (del [] (dvars b)) (snd wb)) (loaded c), false)
    else (upd (fst wb) (snd wb) (loaded c), true).

(** db.c:7459-7470 tup_db_reparse_all *)
Definition reparse_all (b : db) : db := {|
  dnode := dnode b; dconf := dconf b; dvars := dvars b; dcreate := ddirs b; dgen := dgen b; ddirs := ddirs b |}.
(** db.c:1854-1935 tup_db_duplicate_directory_structure *)
Definition sources (l : list path) (dirs : list path) : list path :=
  filter (fun s => match s, owner l [] s with _ :: _, Some [] => true | _, _ => false end) dirs.
Definition duplicate (l : list path) (v : path) (wb : world * db) : world * db :=
  let (w, b) := wb in
  let new := map (fun s => v ++ s) (sources l (ddirs b)) in
  (with_dirs w (wgen w) (new ++ wdirs w),
   {| dnode := dnode b; dconf := dconf b; dvars := dvars b; dcreate := new ++ dcreate b; dgen := dgen b; ddirs := new ++ ddirs b |}).

(** updater.c:895-1153 process_config_nodes: the world, the database, the
    variants in memory and whether the build in the source tree is enabled. *)
Definition process_config (l : list path) (w : world) (b : db) : res (world * db * list path * bool) :=
  let u := in_use b l in
  match config_nodes (dconf b) {| cw := w; cb := b; loaded := l; newv := []; removed := false; fresh := false |} with
  | Bad w' => Bad w'
  | Good c =>
      let (c1, on) := root_node u c in
      let b1 := if negb (fst u) && removed c1 then reparse_all (cb c1) else cb c1 in
      let (w2, b2) := fold_right (duplicate (loaded c1)) (cw c1, b1) (newv c1) in
      Good (w2, b2, loaded c1, on)
  end.

(** updater.c:1407-1483: the directories that are flagged; those outside
    variants are also parsed in every variant. That directories of variants are
    removed when their source is (1451-1481) is C64. *)
Definition flagged (b : db) : list path := filter (fun p => mem p (ddirs b)) (dcreate b).
Definition outside (l : list path) (p : path) : bool := match owner l [] p with Some (_ :: _) => false | _ => true end.
Definition mirrors (l : list path) (b : db) : list (path * path) :=
  flat_map (fun p => map (fun v => (v, p)) (del [] l)) (filter (outside l) (flagged b)).
(** The directories to parse, each as a variant and a source directory; those
    of a variant that is disabled are skipped (updater.c:2084-2112). *)
Definition jobs (l : list path) (on : bool) (b : db) : list (path * path) :=
  mirrors l b ++
  flat_map (fun p =>
    match owner l [] p with
    | Some (c :: v) => [(c :: v, rest (c :: v) p)]
    | _ => if on then [([], p)] else []
    end) (flagged b).
(** updater.c:1156-1219 get_rel_tent: the directory in the variant is made; a
    generated file in its place is deleted. *)
Definition place (j : path * path) : path := fst j ++ snd j.
Definition displaced (ms : list (path * path)) (g : file) : bool :=
  existsb (fun j => path_eqb (place j) (fst g ++ [snd g])) ms.

(** parser.c: the Tupfile of a directory is parsed; its outputs must not be
    other files or directories. *)
Definition parse (w : world) (j : path * path) (b : db) : option db :=
  let q := place j in
  if existsb (fun o => mem (q ++ [o]) (ddirs b) || fmem (q, o) (wextra w)) (makes w (snd j)) then None
  else Some {| dnode := dnode b; dconf := dconf b; dvars := dvars b; dcreate := dcreate b;
               dgen := map (fun o => (q, o)) (makes w (snd j)) ++ filter (fun g => negb (path_eqb q (fst g))) (dgen b);
               ddirs := ddirs b |}.
Fixpoint parse_all (w : world) (js : list (path * path)) (b : db) : option db :=
  match js with
  | [] => Some b
  | j :: r => match parse w j b with None => None | Some b' => parse_all w r b' end
  end.
(** updater.c:1384-1640 process_create_nodes. Files that are no longer made are
    deleted (680-700 delete_files). *)
Definition process_create (l : list path) (on : bool) (w : world) (b : db) : res (world * db) :=
  let ms := mirrors l b in
  let w1 := with_dirs w (filter (fun g => negb (displaced ms g && fmem g (dgen b))) (wgen w)) (map place ms ++ wdirs w) in
  let b1 := {| dnode := dnode b; dconf := dconf b; dvars := dvars b; dcreate := dcreate b;
               dgen := filter (fun g => negb (displaced ms g)) (dgen b); ddirs := map place ms ++ ddirs b |} in
  match parse_all w1 (jobs l on b) b1 with
  | None => Bad w1
  | Some b2 =>
      Good (with_dirs w1 (filter (fun g => fmem g (dgen b2) || negb (fmem g (dgen b1))) (wgen w1)) (wdirs w1),
            {| dnode := dnode b2; dconf := dconf b2; dvars := dvars b2; dcreate := []; dgen := dgen b2; ddirs := ddirs b2 |})
  end.

(** updater.c:1642- process_update_nodes: the commands whose output is not there
    run (create_name_file.c:430-465 flags the command of an output that is
    missing); [ok] says which of them work. *)
Definition process_update (ok : file -> bool) (w : world) (b : db) : world * bool :=
  let run := filter (fun g => negb (fmem g (wgen w))) (dgen b) in
  (with_dirs w (filter ok run ++ wgen w) (wdirs w), forallb ok run).

(** updater.c:139-220 updater *)
Definition update (ok : file -> bool) (w0 : world) (b0 : db) : world * db * bool :=
  let b := scan w0 b0 in
  let w := scanned w0 in
  match process_config (load w0 b0) w b with
  | Bad w1 => (w1, b, false)
  | Good (w1, b1, l, on) =>
      match process_create l on w1 b1 with
      | Bad w2 => (w2, b1, false)
      | Good (w2, b2) => let (w3, good) := process_update ok w2 b2 in (w3, b2, good)
      end
  end.

(** What the user does. *)
Inductive op :=
| AddConfig (d : path) (t : nat)        (* write d/tup.config, make d *)
| RmConfig (d : path)                   (* rm d/tup.config *)
| RmTree (d : path)                     (* rm -rf d *)
| RmOut (g : file)                      (* rm of a generated file *)
| AddFile (g : file)                    (* write some other file *)
| Edit (s : path) (os : list bytes).    (* change what the Tupfile of s makes *)
Definition act (o : op) (w : world) : world :=
  match o with
  | AddConfig d t =>
      {| srcs := srcs w; wconf := (d, t) :: filter (fun c => negb (path_eqb d (fst c))) (wconf w); wdirs := add d (wdirs w);
         wgen := wgen w; wextra := wextra w; wtup := wtup w; wdirty := wdirty w |}
  | RmConfig d =>
      {| srcs := srcs w; wconf := filter (fun c => negb (path_eqb d (fst c))) (wconf w); wdirs := wdirs w;
         wgen := wgen w; wextra := wextra w; wtup := wtup w; wdirty := wdirty w |}
  | RmTree d =>
      {| srcs := srcs w; wconf := filter (fun c => negb (under d (fst c))) (wconf w);
         wdirs := filter (fun p => negb (under d p)) (wdirs w);
         wgen := filter (fun g => negb (under d (fst g))) (wgen w);
         wextra := filter (fun g => negb (under d (fst g))) (wextra w); wtup := wtup w; wdirty := wdirty w |}
  | RmOut g =>
      {| srcs := srcs w; wconf := wconf w; wdirs := wdirs w; wgen := filter (fun h => negb (file_eqb g h)) (wgen w);
         wextra := wextra w; wtup := wtup w; wdirty := wdirty w |}
  | AddFile g =>
      {| srcs := srcs w; wconf := wconf w; wdirs := wdirs w; wgen := wgen w; wextra := g :: wextra w; wtup := wtup w;
         wdirty := fst g :: wdirty w |}
  | Edit s os =>
      {| srcs := srcs w; wconf := wconf w; wdirs := wdirs w; wgen := wgen w; wextra := wextra w;
         wtup := fun p => if path_eqb p s then os else wtup w p; wdirty := s :: wdirty w |}
  end.
(** A new project: nothing was scanned. *)
Definition start (ss : list path) (t : path -> list bytes) : world :=
  {| srcs := ss; wconf := []; wdirs := ss; wgen := []; wextra := []; wtup := t; wdirty := [] |}.
Definition init : db := {| dnode := []; dconf := []; dvars := []; dcreate := []; dgen := []; ddirs := [] |}.
