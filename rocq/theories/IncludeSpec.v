(** What include and include_rules mean. *)
From Verif Require Import Base PathModel TextModel IncludeModel.

(** The directories from the top of the project down to [c]. *)
Definition levels (c : dir) : list dir := map (fun n => firstn n c) (seq 0 (S (length c))).

Section spec.
Variable St : Type.
(** [obeys d b text u u']: obeying the text of a file in directory [d] turns
    [u] into [u']; [b]: the text is, or is included by, a Tuprules.tup. *)
Variable obeys : dir -> bool -> bytes -> St -> St -> Prop.
Variable is_node : dir -> bool.
Variable on_disk : dir -> bool.
Variable note_read : St -> dir -> St * bool.
Variable open_file : St -> dir -> St * option bytes.

(** Every Tuprules.tup in these directories is noted; those that exist are
    obeyed, one after the other, each in its own directory. *)
Inductive each_level : list dir -> St -> St -> Prop :=
| el_nil u : each_level [] u u
| el_absent d ds u u1 u' : note_read u (d ++ [B "Tuprules.tup"]) = (u1, true) -> on_disk (d ++ [B "Tuprules.tup"]) = false ->
    each_level ds u1 u' -> each_level (d :: ds) u u'
| el_present d ds u u1 u2 text u3 u' : note_read u (d ++ [B "Tuprules.tup"]) = (u1, true) -> on_disk (d ++ [B "Tuprules.tup"]) = true ->
    is_node (d ++ [B "Tuprules.tup"]) = true -> open_file u1 (d ++ [B "Tuprules.tup"]) = (u2, Some text) ->
    obeys d true text u2 u3 -> each_level ds u3 u' -> each_level (d :: ds) u u'.
End spec.

(** The file that a relative path names from directory [c], if all directories
    on the way exist: '..' goes up, '.' and empty names stay. *)
Section names.
Variable is_node : dir -> bool.
Inductive leads : dir -> list bytes -> dir -> Prop :=
| ld_nil c : leads c [] c
| ld_up c x es d : leads c es d -> leads (c ++ [x]) (B ".." :: es) d
| ld_down c e es d : e <> B ".." -> is_node (c ++ [e]) = true -> leads (c ++ [e]) es d -> leads c (e :: es) d.
End names.

(** The file with this name, as it is written in directory [c], or from the top
    of the project if it is written as a full path (C23 and C24 say what the
    parts of a path are): directory and last name. *)
Definition names_file (top : bytes) (is_node : dir -> bool) (c : dir) (file : bytes) (d : dir) (name : bytes) : Prop :=
  exists pg es, get_path_elements top file = Some pg /\ pg_hidden pg = false /\ pg_outside pg = false /\ path_list pg = es ++ [name] /\
    leads is_node (if pg_root pg then [] else c) es d.

(** What a text, and a single line, do in directory [d]. The model bounds the
    depth of includes; here any bound will do. The text and the line are left in
    the directory in which they started. *)
Section obeys.
Variable St : Type.
Variable top : bytes.
Variable eval_eq : dir -> St -> bytes -> St * option bool.
Variable var_ifdef : dir -> St -> bytes -> St * option bool.
Variable eval_name : dir -> St -> bytes -> St * option bytes.
Variable rest : dir -> St -> bytes -> St * bool.
Variable lua : dir -> St -> bytes -> St * bool.
Variable is_node : dir -> bool.
Variable on_disk : dir -> bool.
Variable note_read : St -> dir -> St * bool.
Variable open_file : St -> dir -> St * option bytes.
Definition state_at (d : dir) (b : bool) (u : St) : pstate St := {| cur := d; incl := b; stuck := false; user := u |}.
Definition obeys (d : dir) (b : bool) (text : bytes) (u u' : St) : Prop :=
  exists fuel, parse_text St eval_eq var_ifdef (directive St top eval_eq var_ifdef eval_name rest lua is_node on_disk note_read open_file fuel)
                 (state_at d b u) text = (state_at d b u', true).
Definition does (d : dir) (b : bool) (line : bytes) (u u' : St) : Prop :=
  exists fuel, directive St top eval_eq var_ifdef eval_name rest lua is_node on_disk note_read open_file fuel (state_at d b u) line = (state_at d b u', true).
End obeys.

(** The files that are read as Lua: the name ends in .lua, and this is the only
    place where .lua stands in it. *)
Definition lua_name (file : bytes) : Prop :=
  (exists a, file = a ++ B ".lua") /\ forall x y, file = x ++ B ".lua" ++ y -> y = [].
