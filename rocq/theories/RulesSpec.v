(** The commands of a database, the rules of a directory, and ^-flags. *)
From Verif Require Import Base ExecModel GraphModel TentModel TentSpec LinkModel LinkSpec RulesModel.

(** ** Command strings *)
(** A flags word: no space and no ^, and not empty where it has to be told from a
    display. *)
Definition word (s : bytes) : Prop := forall c, In c s -> c <> " "%char /\ c <> "^"%char.
Definition no_caret (s : bytes) : Prop := ~ In "^"%char s.
(** The text starts with something that is not a space, or is empty. *)
Definition trimmed (s : bytes) : Prop := match s with c :: _ => isspace c = false | [] => True end.
Definition spaces (s : bytes) : Prop := forall c, In c s -> isspace c = true.
(** What a command string says: nothing about flags; flags only; flags (perhaps
    none) and a display text. *)
Inductive means : bytes -> split -> Prop :=
| Plain w t : spaces w -> trimmed t -> (forall s, w ++ t <> "^"%char :: s) -> means (w ++ t) {| s_flags := []; s_display := None; s_cmd := t |}
| FlagsOnly f w t : word f -> spaces w -> trimmed t -> means ("^"%char :: f ++ "^"%char :: w ++ t) {| s_flags := f; s_display := None; s_cmd := t |}
| FlagsDisplay f v d w t : word f -> spaces v -> no_caret d -> trimmed d -> spaces w -> trimmed t ->
    means ("^"%char :: f ++ " "%char :: v ++ d ++ "^"%char :: w ++ t) {| s_flags := f; s_display := Some d; s_cmd := t |}.
(** The closing ^ is missing. *)
Definition unclosed (s : bytes) : Prop := exists r, s = "^"%char :: r /\ no_caret r.

(** ** The database *)
Section spec.
Variable kind_of : id -> kind.
Variable excl : id -> bool.
Variable is_env : id -> bool.
Variable dir : id.

(** A command of the database. *)
Definition has (D : db) (c : id) : Prop := exists m, In m (cmds D) /\ cm_id m = c.
Definition in_dir (D : db) (c : id) : Prop := exists m, In m (cmds D) /\ cm_id m = c /\ cm_dir m = dir.
(** The database is as tup keeps it: each command has an id of its own and a text of
    its own in its directory; the rows of each command fit together (C51); each file
    has one maker (C16) and is in one group; new ids are unused. *)
Record good (D : db) : Prop := {
  g_ids : NoDup (map cm_id (cmds D));
  g_texts : forall m n, In m (cmds D) -> In n (cmds D) -> cm_dir m = cm_dir n -> cm_text m = cm_text n -> m = n;
  g_rows : forall c, has D c -> consistent kind_of excl is_env c (view D c);
  g_maker : forall b c x, has D b -> has D c -> makes kind_of excl (view D b) x -> makes kind_of excl (view D c) x -> b = c;
  g_member : forall x g h, In (x, g) (db_member D) -> In (x, h) (db_member D) -> g = h;
  g_groups : forall x g, In (x, g) (db_member D) -> group_id kind_of g;
  g_cmds : forall c, has D c -> kind_of c = KCmd /\ c < next D;
  g_next : forall i, next D <= i -> kind_of i = KCmd /\ links_of D i = no_links }.
(** What do_rule() makes of any rule. *)
Definition decent (r : rule) : Prop :=
  (forall c, kind_of c = KCmd -> proper kind_of excl is_env c (r_decl r)) /\ (forall x, In x (r_main r) -> In x (d_outs (r_decl r))).

(** The command [c] is the rule's: text, flags and display; outputs and inputs. *)
Definition named (D : db) (r : rule) (c : id) : Prop :=
  exists m, In m (cmds D) /\ cm_id m = c /\ cm_dir m = dir /\ cm_text m = r_text r /\ cm_flags m = r_flags r.
Definition shown (D : db) (r : rule) (c : id) : Prop := forall m, In m (cmds D) -> cm_id m = c -> cm_display m = r_display r.
Definition described (D : db) (r : rule) (c : id) : Prop :=
  named D r c /\ same_outputs kind_of excl (r_decl r) (view D c) /\ same_inputs (r_decl r) (view D c).

(** Which command a rule becomes: the one with its text in the directory; else the
    maker of the first listed output that has one; else a new one. *)
Definition same_text (D : db) (r : rule) (c : id) : Prop := exists m, In m (cmds D) /\ cm_id m = c /\ cm_dir m = dir /\ cm_text m = r_text r.
Definition made_by (D : db) (x c : id) : Prop := has D c /\ makes kind_of excl (view D c) x.
Definition first_maker (D : db) (l : list id) (c : id) : Prop :=
  exists l1 x l2, l = l1 ++ x :: l2 /\ made_by D x c /\ (forall y b, In y l1 -> ~ made_by D y b).
Definition becomes (D : db) (r : rule) (c : id) : Prop :=
  same_text D r c \/
  (forall b, ~ same_text D r b) /\ (first_maker D (r_main r) c \/ (forall x b, In x (r_main r) -> ~ made_by D x b) /\ c = next D).

(** The outputs that rules declare. *)
Definition declares (l : list rule) (x : id) : Prop := exists r, In r l /\ In x (d_outs (r_decl r)).
(** The outputs of [c] without those that the rules [l] declare. *)
Definition rest (l : list rule) (D : db) (c : id) : rows :=
  let v := view D c in
  {| nin := nin v; stk := stk v; outs := filter (fun x => negb (existsb (fun r => inb x (d_outs (r_decl r))) l)) (outs v); member := member v; glinks := glinks v;
     modlist := modlist v; translist := translist v; ghostq := ghostq v; poked := poked v |}.
(** An output may be taken: nobody makes it, or a command of this directory, or one
    that no rule kept, or one of a directory that is yet to be parsed. *)
Definition takeable (waiting leftover : id -> bool) (D : db) (x : id) : Prop :=
  forall b, made_by D x b -> in_dir D b \/ leftover b = true \/ exists m, In m (cmds D) /\ cm_id m = b /\ cm_dir m <> dir /\ waiting (cm_dir m) = true.
(** Rules that can be in one directory. *)
Record acceptable (waiting leftover : id -> bool) (D : db) (l : list rule) : Prop := {
  a_distinct : ForallOrdPairs (fun r r' => r_text r <> r_text r' /\ forall x, In x (d_outs (r_decl r)) -> ~ In x (d_outs (r_decl r'))) l;
  a_circular : forall r, In r l -> ~ circular (r_decl r);
  a_takeable : forall x, declares l x -> takeable waiting leftover D x }.

(** The same database, row by row; the same but for display texts. *)
Definition same_db (D E : db) : Prop :=
  cmds E = cmds D /\ (forall c, links_of E c = links_of D c) /\ db_member E = db_member D /\ db_mod E = db_mod D /\ db_trans E = db_trans D /\
  db_ghost E = db_ghost D /\ db_poked E = db_poked D /\ next E = next D.
Definition like (m n : command) : Prop := cm_id m = cm_id n /\ cm_dir m = cm_dir n /\ cm_text m = cm_text n /\ cm_flags m = cm_flags n.
Definition quiet (D E : db) : Prop :=
  Forall2 like (cmds D) (cmds E) /\ (forall c, links_of E c = links_of D c) /\ db_member E = db_member D /\ db_mod E = db_mod D /\ db_trans E = db_trans D /\
  db_ghost E = db_ghost D /\ db_poked E = db_poked D /\ next E = next D.
End spec.
