(** Model of src/tup/pel_group.c (Linux variants of the macros in
    src/tup/compat.h:44-49). *)
From Verif Require Import Base.

(** compat.h:44 [is_path_sep]: the byte is '/'. *)
Definition is_path_sep (c : ascii) : bool := c =?c "/"%char.

(** compat.h:45 [is_full_path] is [is_path_sep] on the first byte; the
    terminating NUL of an empty string is not a separator. *)
Definition is_full_path (p : bytes) : bool :=
  match p with [] => false | c :: _ => is_path_sep c end.

(** pel_group.c:30-52 [pel_ignored], for [len >= 0] (the explicit length) or
    [len < 0] with [path] NUL-terminated; in both cases the name is [path]. *)
Definition pel_ignored (path : bytes) : bool :=
  bytes_eqb path (B ".") || bytes_eqb path (B "..") ||
  bytes_eqb path (B ".tup") || bytes_eqb path (B ".git") ||
  bytes_eqb path (B ".hg") || bytes_eqb path (B ".bzr") ||
  bytes_eqb path (B ".svn") || bytes_eqb path (B ".ccache").

(** pel_group.c:90-92: skip separators. *)
Fixpoint skip_sep (p : bytes) : bytes :=
  match p with
  | c :: p' => if is_path_sep c then skip_sep p' else p
  | [] => []
  end.

(** pel_group.c:96-98: advance to the next separator or the end; returns the
    element and the rest. *)
Fixpoint take_elem (p : bytes) : bytes * bytes :=
  match p with
  | [] => ([], [])
  | c :: p' =>
    if is_path_sep c then ([], p)
    else let (e, r) := take_elem p' in (c :: e, r)
  end.

(** State of the loop in [split_path_elements]: the TAILQ of path elements and
    [num_elements].  [num_elements] is an int that the loop keeps >= 0. *)
Record pels := { pl : list bytes; num : nat }.

(** pel_group.c:99-128: what the loop body does with the element [path] of
    length [len > 0]. [removelast] is TAILQ_REMOVE of TAILQ_LAST. *)
Definition add_elem (st : pels) (path : bytes) : pels :=
  if bytes_eqb path (B ".") then st
  else if bytes_eqb path (B "..") then
    match num st with
    | S n => {| pl := removelast (pl st); num := n |}
    | O => {| pl := pl st ++ [path]; num := 0 |}
    end
  else {| pl := pl st ++ [path]; num := S (num st) |}.

(** pel_group.c:78-131 [split_path_elements]; mempool allocation always
    succeeds here. Each round consumes at least one byte, so [length dir]
    rounds are enough (fuel exhaustion is [None]). *)
Fixpoint split_loop (fuel : nat) (p : bytes) (st : pels) : option pels :=
  match skip_sep p with
  | [] => Some st
  | p1 =>
    match fuel with
    | O => None
    | S f => let (e, r) := take_elem p1 in split_loop f r (add_elem st e)
    end
  end.

Definition split_path_elements (dir : bytes) : option pels :=
  split_loop (length dir) dir {| pl := []; num := 0 |}.

(** pel_group.c:144-154: the comparison of the elements with the project's top
    directory. Returns what is left of [top] and the number of elements
    matched. [name_cmp_n(top, path, len) != 0] is [strncmp]; [path] has [len]
    bytes and no NUL, so it is zero iff [path] is a prefix of [top]. *)
Fixpoint match_top (top : bytes) (es : list bytes) : bytes * nat :=
  match es with
  | [] => (top, 0)
  | e :: es' =>
    let top1 := skip_sep top in
    if prefixb e top1 then
      let (r, n) := match_top (skipn (length e) top1) es' in (r, S n)
    else (top1, 0)
  end.

Record pel_group := {
  path_list : list bytes;
  pg_root : bool;
  pg_outside : bool;
  pg_hidden : bool;
  pg_group : bool }.

(** pel_group.c:170-180: [PG_HIDDEN]. Elements do not contain NUL and are not
    empty. *)
Definition elem_hidden (e : bytes) : bool :=
  match e with
  | c :: _ => (c =?c "."%char) && negb (bytes_eqb e (B "..")) && pel_ignored e
  | [] => false
  end.

(** pel_group.c:182-187: [PG_GROUP]. *)
Definition elem_group (e : bytes) : bool :=
  match e with
  | c :: _ => (c =?c "<"%char) && (last e "000"%char =?c ">"%char)
  | [] => false
  end.

(** pel_group.c:133-190 [get_path_elements]; [top] is [get_tup_top()]. *)
Definition get_path_elements (top path : bytes) : option pel_group :=
  match split_path_elements path with
  | None => None
  | Some st =>
    let root := is_full_path path in
    let (left_top, n) := match_top top (pl st) in
    let outside := root && negb (bytes_eqb left_top []) in
    let es := if root && negb outside then skipn n (pl st) else pl st in
    Some {| path_list := es;
            pg_root := root;
            pg_outside := outside;
            pg_hidden := existsb elem_hidden es;
            pg_group := match es with [] => false | _ => elem_group (last es []) end |}
  end.
