(** The queue of file events in the monitor: src/tup/monitor/inotify.c,
    src/tup/create_name_file.c, src/tup/path.c. *)
From Verif Require Import Base.

(** A file: the watch of its directory and its name (struct inotify_event wd, name). *)
Definition key := (nat * bytes)%type.
Definition key_eqb (a b : key) : bool := Nat.eqb (fst a) (fst b) && bytes_eqb (snd a) (snd b).

(** Masks of the events on files that the monitor asks for (inotify.c 723); IN_ATTRIB is
    handled as IN_MODIFY (1279). Events on directories are not modelled. *)
Inductive mask := KCreate | KModify | KDelete | KFrom | KTo.
Definition mask_eqb (a b : mask) : bool :=
  match a, b with KCreate, KCreate | KModify, KModify | KDelete, KDelete | KFrom, KFrom | KTo, KTo => true | _, _ => false end.
(** newflags and delflags, inotify.c 1010-1011. *)
Definition is_new (m : mask) : bool := match m with KCreate | KTo => true | _ => false end.
Definition is_del (m : mask) : bool := match m with KDelete | KFrom => true | _ => false end.

Record event := { vkey : key; vmask : mask; vcookie : nat }.
(** struct monitor_event: the address, the event (mask None stands for 0), and the
    file of the from_event of an IN_MOVED_TO. *)
Record entry := { eid : nat; ekey : key; emask : option mask; ecookie : nat; efrom : option key }.
Definition masked (m : entry) : entry := {| eid := eid m; ekey := ekey m; emask := None; ecookie := ecookie m; efrom := efrom m |}.

(** event_list with queue_last_e (its last element, or none); moved_from_list, which points to
    events; and the next address. *)
Record mst := { q : list entry; mfl : list nat; nid : nat }.

(** inotify.c 978-988 eventcmp with queue_last_e (748). *)
Definition same_as_last (e : event) (l : list entry) : bool :=
  match rev l with
  | m :: _ => key_eqb (ekey m) (vkey e) && match emask m with Some x => mask_eqb x (vmask e) | None => false end && Nat.eqb (ecookie m) (vcookie e)
  | [] => false
  end.

(** inotify.c 1004-1058 ephemeral_event: the loop, with the current mask of the event, the
    flag create_and_delete and whether rc is 0. *)
Fixpoint eph (k : key) (ke : mask) (cad rc : bool) (l : list entry) : mask * bool * list entry :=
  match l with
  | [] => (ke, rc, [])
  | m :: r =>
      if key_eqb (ekey m) k then
        match emask m with
        | Some x =>
            if is_new x && is_del ke then let '(ke', rc', r') := eph k ke true true r in (ke', rc', masked m :: r')
            else if is_del x && is_new ke then let '(ke', rc', r') := eph k KModify true rc r in (ke', rc', masked m :: r')
            else if cad then let '(ke', rc', r') := eph k ke cad rc r in (ke', rc', masked m :: r')
            else let '(ke', rc', r') := eph k ke cad rc r in (ke', rc', m :: r')
        | None => let '(ke', rc', r') := eph k ke cad rc r in (ke', rc', m :: r')
        end
      else let '(ke', rc', r') := eph k ke cad rc r in (ke', rc', m :: r')
  end.
Definition ephemeral (e : event) (l : list entry) : mask * bool * list entry :=
  if is_new (vmask e) || is_del (vmask e) then eph (vkey e) (vmask e) false false l else (vmask e, false, l).

Fixpoint find_entry (i : nat) (l : list entry) : option entry :=
  match l with [] => None | m :: r => if Nat.eqb (eid m) i then Some m else find_entry i r end.
Definition mask_entry (i : nat) (l : list entry) : list entry := map (fun m => if Nat.eqb (eid m) i then masked m else m) l.

(** inotify.c 1079-1090 check_from_events. The outer None is a read of an event that was
    freed: the list points to an event that is no longer queued. *)
Fixpoint claim (c : nat) (fl : list nat) (l : list entry) : option (option (nat * key)) :=
  match fl with
  | [] => Some None
  | i :: r => match find_entry i l with
              | None => None
              | Some m => if Nat.eqb (ecookie m) c then Some (Some (i, ekey m)) else claim c r l
              end
  end.

(** inotify.c 740-794 queue_event, after skip_event. None is undefined behaviour. *)
Definition queue_event (e : event) (s : mst) : option mst :=
  if same_as_last e (q s) then Some s
  else
    let '(ke, rc, l) := ephemeral e (q s) in
    if rc then Some {| q := l; mfl := mfl s; nid := nid s |}
    else
      let add l f fl := {| q := l ++ [{| eid := nid s; ekey := vkey e; emask := Some ke; ecookie := vcookie e; efrom := f |}]; mfl := fl; nid := S (nid s) |} in
      match ke with
      | KTo => match claim (vcookie e) (mfl s) l with
               | None => None
               | Some None => Some (add l None (mfl s))
               | Some (Some (i, a)) => Some (add (mask_entry i l) (Some a) (filter (fun j => negb (Nat.eqb j i)) (mfl s)))
               end
      | KFrom => Some (add l None (nid s :: mfl s))
      | _ => Some (add l None (mfl s))
      end.
Fixpoint queue_events (es : list event) (s : mst) : option mst :=
  match es with [] => Some s | e :: r => match queue_event e s with Some s' => queue_events r s' | None => None end end.

(** What the database knows of user files: the recorded mtime, and whether the
    file was entered in the create or modify lists (with its dependents). Generated
    files, directories, tup.config and .gitignore are not modelled. *)
Record dbs := { rec : key -> option Z; touched : key -> bool }.
Definition set {A} (f : key -> A) (k : key) (v : A) : key -> A := fun x => if key_eqb x k then v else f x.

(** create_name_file.c 235-260 tup_file_del. *)
Definition del (k : key) (d : dbs) : dbs :=
  match rec d k with None => d | Some _ => {| rec := set (rec d) k None; touched := set (touched d) k true |} end.
(** create_name_file.c 118-212 tup_file_mod_mtime. *)
Definition mod_mtime (k : key) (t : Z) (force : bool) (d : dbs) : dbs :=
  match rec d k with
  | None => {| rec := set (rec d) k (Some t); touched := set (touched d) k true |}
  | Some t0 => if negb (Z.eqb t0 t) || force then {| rec := set (rec d) k (Some t); touched := set (touched d) k true |} else d
  end.
(** create_name_file.c 97-116 tup_file_mod; fs gives the mtimes of the files that exist. *)
Definition file_modified (fs : key -> option Z) (k : key) (d : dbs) : dbs :=
  match fs k with None => del k d | Some t => mod_mtime k t true d end.
(** path.c 42-66 watch_path on a file. *)
Definition watch (fs : key -> option Z) (k : key) (d : dbs) : dbs :=
  match fs k with None => d | Some t => mod_mtime k t false d end.

(** inotify.c 1104-1315 handle_event. *)
Definition handle (fs : key -> option Z) (m : entry) (d : dbs) : dbs :=
  match emask m with
  | None => d
  | Some KTo => match efrom m with
                | Some a => del a (file_modified fs (ekey m) d)
                | None => let d1 := watch fs (ekey m) d in
                          match rec d1 (ekey m) with Some _ => file_modified fs (ekey m) d1 | None => d1 end
                end
  | Some KCreate => watch fs (ekey m) d
  | Some KModify => file_modified fs (ekey m) d
  | Some KDelete | Some KFrom => del (ekey m) d
  end.
(** inotify.c 796-852 flush_queue: the queue is emptied; an IN_MOVED_FROM that was handled is
    removed from moved_from_list (1261). *)
Definition flush (fs : key -> option Z) (s : mst) (d : dbs) : mst * dbs :=
  (let handled := map eid (filter (fun m => match emask m with Some KFrom => true | _ => false end) (q s)) in
   {| q := []; mfl := filter (fun i => negb (existsb (Nat.eqb i) handled)) (mfl s); nid := nid s |},
   fold_left (fun d m => handle fs m d) (q s) d).
