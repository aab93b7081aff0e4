(** What %<group> in a command stands for. *)
From Verif Require Import Base EntryModel EntrySpec ExpandModel.

(** A command's text in pieces: plain text, [%<g>] and [%<g>.res]. *)
Inductive piece := Text (t : bytes) | Paths (g : bytes) | PathFile (g : bytes).
Definition written (p : piece) : bytes :=
  match p with
  | Text t => t
  | Paths g => B "%<" ++ g ++ B ">"
  | PathFile g => B "%<" ++ g ++ B ">.res"
  end.
(** Somewhere in [s] is [x]. *)
Definition within (x s : bytes) : Prop := exists a b, s = a ++ x ++ b.
(** Only one way to divide a text: the plain text between two %< is one piece,
    a name ends at the first '>', and .res belongs to what is before it. *)
Fixpoint in_pieces (ps : list piece) : Prop :=
  match ps with
  | [] => True
  | Text t :: r => t <> [] /\ ~ within (B "%<") t /\ match r with Text _ :: _ => False | _ => True end /\ in_pieces r
  | Paths g :: r => ~ In ">"%char g /\ match r with Text t :: _ => prefixb (B ".res") t = false | _ => True end /\ in_pieces r
  | PathFile g :: r => ~ In ">"%char g /\ in_pieces r
  end.
Definition template (cmd : bytes) (ps : list piece) : Prop := cmd = concat (map written ps) /\ in_pieces ps.

(** The groups with the name [<g>], and their generated files. *)
Definition named (g : bytes) (gs : list group) : list group :=
  filter (fun x => bytes_eqb (g_name x) (B "<" ++ g ++ B ">")) gs.
Definition members (g : bytes) (gs : list group) : list nat :=
  flat_map (fun x => map fst (filter snd (g_inputs x))) (named g gs).
Definition names_group (p : piece) : option bytes :=
  match p with Text _ => None | Paths g | PathFile g => Some g end.

(** Words with one blank between them. *)
Fixpoint words (l : list bytes) : bytes :=
  match l with [] => [] | [x] => x | x :: r => x ++ B " " ++ words r end.
(** One on each line. *)
Definition lines (l : list bytes) : bytes := concat (map (fun x => x ++ [newline]) l).

(** [ps] are paths to the files [fs], for one who stands in [dir]. *)
Definition paths_to (T : tree) (dir : nat) (fs : list nat) (ps : list bytes) : Prop :=
  Forall2 (fun f p => leads T dir p f /\ forall f', leads T dir p f' -> f' = f) fs ps.

(** [stands T top dir gs w p out w']: in a command that runs in [dir], [p] is
    replaced by [out], and the files that exist change from [w] to [w']. *)
Inductive stands (T : tree) (top dir : nat) (gs : list group) (w : list (bytes * bytes)) : piece -> bytes -> list (bytes * bytes) -> Prop :=
| st_text t : stands T top dir gs w (Text t) t w
| st_paths g ps : paths_to T dir (members g gs) ps -> stands T top dir gs w (Paths g) (words ps) w
| st_file g ps ups name : paths_to T dir (members g gs) ps -> walks T dir ups top -> Forall (eq (B "..")) ups ->
    ~ In name (map fst w) ->
    stands T top dir gs w (PathFile g) (concat (map (fun u => u ++ B "/") ups) ++ name) ((name, lines ps) :: w).
Inductive all_stand (T : tree) (top dir : nat) (gs : list group) : list (bytes * bytes) -> list piece -> bytes -> list (bytes * bytes) -> Prop :=
| as_nil w : all_stand T top dir gs w [] [] w
| as_cons w p out w1 ps outs w2 : stands T top dir gs w p out w1 -> all_stand T top dir gs w1 ps outs w2 ->
    all_stand T top dir gs w (p :: ps) (out ++ outs) w2.

(** Names of groups as they are meant: <name>, with no '>' inside. *)
Definition plain_group (g : group) : Prop := exists n, g_name g = B "<" ++ n ++ B ">" /\ ~ In ">"%char n.

(** The files of one run of tup: what its commands have left so far. *)
Inductive session T fuel srcdir tmp_ok : world -> Prop :=
| se_start : session T fuel srcdir tmp_ok {| resno := 0; files := [] |}
| se_next w par gs cmd : session T fuel srcdir tmp_ok w -> session T fuel srcdir tmp_ok (snd (expand_command T fuel srcdir tmp_ok par gs cmd w)).
