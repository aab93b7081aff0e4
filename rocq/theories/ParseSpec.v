(** What the rule syntax means, independent of parser.c. *)
From Verif Require Import Base ConfigSpec.
From Coq Require Import ZArith.

Definition starts_white (s : bytes) : Prop := exists c t, s = c :: t /\ white c.
(** [t] is [s] without the white space around it. *)
Definition trimmed (s t : bytes) : Prop :=
  exists a b, s = a ++ t ++ b /\ Forall white a /\ Forall white b /\ ~ starts_white t /\ ~ ends_white t.

(** ** A rule line: inputs |> command |> outputs {bin} *)
Definition has_marker (s : bytes) : Prop := exists a b, s = a ++ B "|>" ++ b.
(** A brace at the start or after white space opens a bin. *)
Definition opens_bin (s : bytes) : Prop := exists a b, s = a ++ "{"%char :: b /\ (a = [] \/ ends_white a).

Inductive output_part : bytes -> bytes -> option bytes -> Prop :=
| op_plain ws o : Forall white ws -> ~ starts_white o -> ~ opens_bin o -> output_part (ws ++ o) o None
| op_bin ws o sp b : Forall white ws -> ~ starts_white o -> ~ ends_white o -> ~ opens_bin o ->
    Forall white sp -> (o = [] <-> sp = []) -> ~ In "}"%char b ->
    output_part (ws ++ o ++ sp ++ "{"%char :: b ++ ["}"%char]) o (Some b).

Inductive rule_line : bytes -> option bytes -> bytes -> bytes -> option bytes -> Prop :=
| rl I C O i c o b : ~ has_marker I -> ~ has_marker C ->
    (Forall white I /\ i = None \/ exists t, trimmed I t /\ t <> [] /\ i = Some t) ->
    trimmed C c -> output_part O o b ->
    rule_line (I ++ B "|>" ++ C ++ B "|>" ++ O) i c o b.

(** ** A command: ^flags text^ command *)
Inductive command_parts : bytes -> bytes -> option bytes -> bytes -> Prop :=
| cp_plain ws cmd : (forall r, ws ++ cmd <> "^"%char :: r) -> Forall white ws -> ~ starts_white cmd ->
    command_parts (ws ++ cmd) [] None cmd
| cp_flags f ws cmd : ~ In " "%char f -> ~ In "^"%char f -> Forall white ws -> ~ starts_white cmd ->
    command_parts ("^"%char :: f ++ "^"%char :: ws ++ cmd) f None cmd
| cp_text f sp text ws cmd : ~ In " "%char f -> ~ In "^"%char f -> Forall white sp ->
    ~ starts_white text -> ~ In "^"%char text -> Forall white ws -> ~ starts_white cmd ->
    command_parts ("^"%char :: f ++ " "%char :: sp ++ text ++ "^"%char :: ws ++ cmd) f (Some text) cmd.

(** ** Names in a list *)
(** [spelled q n w]: the text [w] stands for the name [n]; [q] is whether [w]
    starts inside double quotes. *)
Inductive spelled : bool -> bytes -> bytes -> Prop :=
| sp_end : spelled false [] []
| sp_escape q c n w : spelled q n w -> spelled q (c :: n) ("\"%char :: c :: w)
| sp_char q c n w : c <> "\"%char -> c <> """"%char -> q = true \/ ~ white c -> spelled q n w -> spelled q (c :: n) (c :: w)
| sp_quote q n w : spelled (negb q) n w -> spelled q n (""""%char :: w).
(** Names written one after the other with white space between them. *)
Inductive listed_as : list bytes -> bytes -> Prop :=
| la_nil : listed_as [] []
| la_last n w sp : spelled false n w -> w <> [] -> Forall white sp -> listed_as [n] (w ++ sp)
| la_cons n w sp ns s : spelled false n w -> w <> [] -> Forall white sp -> sp <> [] -> ns <> [] ->
    listed_as ns s -> listed_as (n :: ns) (w ++ sp ++ s).
(** Two ways to write any name. *)
Definition in_quotes (n : bytes) : bytes :=
  """"%char :: flat_map (fun c => if (c =?c "\"%char) || (c =?c """"%char) then ["\"%char; c] else [c]) n ++ [""""%char].
Definition with_backslashes (n : bytes) : bytes := flat_map (fun c => ["\"%char; c]) n.
Definition numbered {A} (l : list A) : list (A * nat) := combine l (seq 1 (length l)).

(** ** Inputs and outputs of a command, and %-flags *)
Record item := { it_dir : bytes; it_name : bytes; it_number : nat; it_pattern : bytes }.
Definition it_path (i : item) : bytes := it_dir i ++ it_name i.
(** The directory part is empty or ends in a slash, the name has none. *)
Definition well_formed (i : item) : Prop := (it_dir i = [] \/ exists d, it_dir i = d ++ ["/"%char]) /\ ~ In "/"%char (it_name i) /\ it_name i <> [].

(** A name is its stem, a dot and its extension; a leading dot does not count. *)
Inductive name_parts : bytes -> bytes -> option bytes -> Prop :=
| np_ext stem ext : stem <> [] -> ~ In "."%char ext -> name_parts (stem ++ "."%char :: ext) stem (Some ext)
| np_none name : (forall stem ext, stem <> [] -> name <> stem ++ "."%char :: ext) -> name_parts name name None.

Definition wild (c : ascii) : Prop := In c ["*"; "?"; "["]%char.
(** The part of the name that the wildcard of the pattern stands for. *)
Inductive glob_part : bytes -> bytes -> bytes -> Prop :=
| gp_star pre suf g : Forall (fun c => ~ wild c) pre -> Forall (fun c => ~ wild c) suf ->
    glob_part (pre ++ "*"%char :: suf) (pre ++ g ++ suf) g
| gp_any pre rest c s : Forall (fun c => ~ wild c) pre ->
    glob_part (pre ++ "?"%char :: rest) (pre ++ c :: s) [c]
| gp_set pre rest c s : Forall (fun c => ~ wild c) pre ->
    glob_part (pre ++ "["%char :: rest) (pre ++ c :: s) [c].

(** Patterns for which the code finds that part: no wildcard at all, or one
    star, or a ? or [ first; and the name does not continue with the wildcard
    character itself. *)
Definition not_next (w : ascii) (m : bytes) : Prop := forall r, m <> w :: r.
Definition usual_pattern (i : item) : Prop :=
  (it_pattern i = it_name i /\ Forall (fun c => ~ wild c) (it_name i)) \/
  (exists pre suf g, it_pattern i = pre ++ "*"%char :: suf /\ it_name i = pre ++ g ++ suf /\
     Forall (fun c => ~ wild c) pre /\ Forall (fun c => ~ wild c) suf /\ not_next "*"%char g) \/
  (exists pre w rest c s, In w ["?"; "["]%char /\ it_pattern i = pre ++ w :: rest /\ it_name i = pre ++ c :: s /\
     Forall (fun c => ~ wild c) pre /\ c <> w).

Fixpoint join (l : list bytes) : bytes :=
  match l with [] => [] | [w] => w | w :: t => w ++ " "%char :: join t end.

Record rule_env := {
  r_in : list item;
  r_out : option (list item);
  r_oo : option (list item);
  r_ext : option bytes;
  r_dir : bytes }.

Definition is_digit (c : ascii) : Prop := In c ["0"; "1"; "2"; "3"; "4"; "5"; "6"; "7"; "8"; "9"]%char.
(** Decimal value. *)
Inductive value : bytes -> Z -> Prop :=
| v_nil : value [] 0
| v_snoc d c n k : value d n -> nth_error ["0"; "1"; "2"; "3"; "4"; "5"; "6"; "7"; "8"; "9"]%char k = Some c ->
    value (d ++ [c]) (10 * n + Z.of_nat k).

(** What a letter after % stands for, for a list of items. *)
Inductive names_of : ascii -> list item -> list bytes -> Prop :=
| no_path c l : In c ["f"; "o"; "i"]%char -> names_of c l (map it_path l)
| no_base l : names_of "b"%char l (map it_name l)
| no_stem l stems : Forall2 (fun i stem => exists e, name_parts (it_name i) stem e) l stems -> names_of "B"%char l stems.
Definition list_for (E : rule_env) (c : ascii) (l : list item) : Prop :=
  In c ["f"; "b"; "B"]%char /\ l = r_in E \/ c = "o"%char /\ r_out E = Some l \/ c = "i"%char /\ r_oo E = Some l.
Definition with_number (n : Z) (l : list item) : list item := filter (fun i => (Z.of_nat (it_number i) =? n)%Z) l.

Section expands.
Variable quote : ascii -> bytes -> bytes.
Variable E : rule_env.
Variable percperc : bool.
(** [one_flag f o]: the flag [f] (the text after %) stands for [o]. *)
Inductive one_flag : bytes -> bytes -> Prop :=
| of_list c l names : list_for E c l -> l <> [] -> names_of c l names -> one_flag [c] (join names)
| of_quoted q c l : In q ["'"; """"]%char -> In c ["f"; "o"]%char -> list_for E c l -> l <> [] ->
    one_flag [q; c] (join (map (fun i => q :: quote q (it_path i) ++ [q]) l))
| of_ext x : r_ext E = Some x -> one_flag (B "e") x
| of_stem i stem x : r_out E = Some [i] -> name_parts (it_name i) stem x -> one_flag (B "O") (it_dir i ++ stem)
| of_dir : one_flag (B "d") (r_dir E)
| of_glob i g : r_in E = [i] -> glob_part (it_pattern i) (it_name i) g -> one_flag (B "g") g
| of_number d n c l names : value d n -> d <> [] -> (1 <= n <= 99)%Z -> list_for E c l ->
    names_of c (with_number n l) names -> one_flag (d ++ [c]) (join names)
| of_node d n : value d n -> d <> [] -> (n < 2 ^ 63)%Z -> one_flag (d ++ B "t") ("%"%char :: d ++ B "t")
| of_group : one_flag (B "<") (B "%<")
| of_percent : one_flag (B "%") (if percperc then B "%" else B "%%").
(** [expands s o]: the command text [s] becomes [o]. *)
Inductive expands : bytes -> bytes -> Prop :=
| ex_end : expands [] []
| ex_char c s o : c <> "%"%char -> expands s o -> expands (c :: s) (c :: o)
| ex_flag f a s o : one_flag f a -> expands s o -> expands ("%"%char :: f ++ s) (a ++ o).
End expands.

(** ** Variables *)
Section evaluates.
Variables dollar atvar amp : bytes -> option bytes.
(** [evaluates s o]: text [s] becomes [o]. *)
Inductive evaluates : bytes -> bytes -> Prop :=
| ev_end : evaluates [] []
| ev_char c s o : ~ In c ["\"; "$"; "@"; "&"]%char -> evaluates s o -> evaluates (c :: s) (c :: o)
| ev_var c f name v s o : In (c, f) [("$"%char, dollar); ("@"%char, atvar); ("&"%char, amp)] ->
    ~ In ")"%char name -> f name = Some v -> evaluates s o ->
    evaluates (c :: "("%char :: name ++ ")"%char :: s) (v ++ o)
| ev_lone c s o : In c ["$"; "@"; "&"]%char -> (forall t, s <> "("%char :: t) -> evaluates s o -> evaluates (c :: s) (c :: o)
| ev_escaped c s o : In c ["$"; "@"]%char -> evaluates ("("%char :: s) o -> evaluates ("\"%char :: c :: "("%char :: s) (c :: o)
| ev_backslash s o : (forall c t, In c ["$"; "@"]%char -> s <> c :: "("%char :: t) -> evaluates s o ->
    evaluates ("\"%char :: s) ("\"%char :: o).
End evaluates.

(** References to nodes, %<number>t: [resolved node s o] says that [s] becomes [o]. *)
Inductive decimal : bytes -> Z -> Prop :=
| dec_nil : decimal [] 0
| dec_digit s n c v : decimal s n -> In (c, v) (combine (B "0123456789") [0; 1; 2; 3; 4; 5; 6; 7; 8; 9]%Z) -> decimal (s ++ [c]) (10 * n + v).
Definition node_ref (s : bytes) (n : Z) (rest : bytes) : Prop :=
  exists d, s = "%"%char :: d ++ "t"%char :: rest /\ d <> [] /\ decimal d n /\ (n < 2 ^ 63)%Z.
Inductive resolved (node : Z -> option bytes) : bytes -> bytes -> Prop :=
| res_end : resolved node [] []
| res_node s n r p o : node_ref s n r -> node n = Some p -> resolved node r o -> resolved node s (p ++ o)
| res_char c s o : (forall n r, ~ node_ref (c :: s) n r) -> resolved node s o -> resolved node (c :: s) (c :: o).
