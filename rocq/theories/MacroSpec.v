(** What !-macros mean. Only the data types of the model and the meaning of
    lists of names and rule lines (ParseSpec.v) are used. *)
From Verif Require Import Base ConfigModel ConfigSpec ParseModel ParseSpec MacroModel.

(** ** Definitions *)
(** A name, '=', and a text; blanks around the '=' do not count. *)
Inductive definition_line : bytes -> bytes -> bytes -> Prop :=
| dl n sp1 sp2 v : ~ In "="%char n -> ~ ends_white n -> Forall white sp1 -> Forall white sp2 -> ~ starts_white v ->
    definition_line (n ++ sp1 ++ "="%char :: sp2 ++ v) n v.

(** The part before the first |> of a macro: foreach or not, and the text of
    the order-only inputs. *)
Inductive macro_before : option bytes -> bool -> option bytes -> Prop :=
| mb_none : macro_before None false None
| mb_each : macro_before (Some (B "foreach")) true (Some [])
| mb_oo sp t : Forall white sp -> ~ starts_white t -> macro_before (Some ("|"%char :: sp ++ t)) false (Some t)
| mb_each_oo sp0 sp t : Forall white sp0 -> Forall white sp -> ~ starts_white t ->
    macro_before (Some (B "foreach" ++ sp0 ++ "|"%char :: sp ++ t)) true (Some t).

Definition short_names (plain : bytes -> bool) (l : list bytes) : Prop := Forall (fun n => plain n = true /\ (N.of_nat (length n) < 4096)%N) l.
(** The part after the second |>: outputs, and extra outputs after a bar. *)
Inductive outputs_text : bytes -> list bytes -> list bytes -> Prop :=
| ot_plain s outs : listed_as outs s -> ~ In "|"%char s -> outputs_text s outs []
| ot_extra s outs sp t extra : listed_as outs s -> ~ In "|"%char s -> Forall white sp -> listed_as extra t ->
    outputs_text (s ++ "|"%char :: sp ++ t) outs extra.

Inductive macro_text (plain : bytes -> bool) : bytes -> macro -> Prop :=
| mt v i c o fe oo outs extra : rule_line v i c o None -> macro_before i fe oo -> outputs_text o outs extra ->
    short_names plain (outs ++ extra) ->
    macro_text plain v {| m_foreach := fe; m_input := oo; m_command := c; m_outputs := numbered outs; m_extra := numbered extra |}.

(** ** Use *)
(** A rule as it is written: foreach, bin, command, the text after the name of
    a macro, inputs, whether no inputs were asked for, order-only inputs,
    outputs, extra outputs. *)
Record written := {
  w_each : bool; w_bin : option bytes; w_command : bytes; w_more : option bytes; w_inputs : list nle; w_nothing : bool;
  w_oo : plist; w_outputs : plist; w_extra : plist }.
Definition names_macro (c : bytes) : Prop := exists n, c = "!"%char :: n.

(** Two inputs are one file; inputs without repetitions, in order. *)
Definition one_file (a b : nle) : Prop := exists i, n_tent a = Some i /\ n_tent b = Some i.
Inductive distinct_inputs : list nle -> list nle -> list nle -> Prop :=
| di_nil seen : distinct_inputs seen [] []
| di_again seen f e l r : In f seen -> one_file e f -> distinct_inputs seen l r -> distinct_inputs seen (e :: l) r
| di_new seen e l r : (forall f, In f seen -> ~ one_file e f) -> distinct_inputs (e :: seen) l r -> distinct_inputs seen (e :: l) (e :: r).

Section use.
Variable St : Type.
Variable do_rule : St -> request -> outcome St.
Variable expand : St -> plist -> option (list nle) -> bool -> outcome (St * list nle).
Variable add_bin : St -> bytes -> outcome St.
Variable accepts : St -> bytes -> bool.
Variable plain : bytes -> bool.
(** The macros defined so far. *)
Variable known : bytes -> option macro.
Variable w : written.

(** The macro for an input with this extension: the one for the extension, or
    else the general one. *)
Inductive macro_for (name : bytes) : option bytes -> macro -> Prop :=
| mf_ext e m : known (name ++ B "." ++ e) = Some m -> macro_for name (Some e) m
| mf_any e m : (forall x, e = Some x -> known (name ++ B "." ++ x) = None) -> known name = Some m -> macro_for name e m.
Definition chosen (ext : option bytes) (m : option macro) : Prop :=
  ~ names_macro (w_command w) /\ m = None \/
  names_macro (w_command w) /\ exists x, m = Some x /\ macro_for (w_command w) ext x.

(** The order-only inputs that the macro adds. *)
Inductive macro_oo : option macro -> option (list nle) -> St -> St -> list nle -> Prop :=
| mo_none arg s : macro_oo None arg s s []
| mo_no_text m arg s : m_input m = None -> macro_oo (Some m) arg s s []
| mo_text m arg s t l s' oo : m_input m = Some t -> get_path_list plain t = Ok l -> expand s l arg false = Ok (s', oo) ->
    macro_oo (Some m) arg s s' oo.

(** The command that is asked for: the macro's command; the outputs of the rule
    or, if it lists none, of the macro; the extra outputs of both. *)
Definition asked (m : option macro) (ins : list nle) (ext : option bytes) (oo moo : list nle) : request :=
  {| q_command := match m with Some m => m_command m | None => w_command w end;
     q_extra_command := w_more w; q_bin := w_bin w; q_inputs := ins; q_ext := ext;
     q_outputs := match w_outputs w, m with [], Some m => m_outputs m | o, _ => o end;
     q_extra := w_extra w; q_macro_extra := match m with Some m => m_extra m | None => [] end;
     q_oo := oo; q_macro_oo := moo |}.

(** foreach: one command for each input, in order. *)
Inductive for_each : St -> list nle -> St -> Prop :=
| fe_nil s : for_each s [] s
| fe_cons s e rest m s1 moo s2 oo s3 s4 : chosen (foreach_ext e) m -> macro_oo m (Some [e]) s s1 moo ->
    expand s1 (w_oo w) (Some [e]) false = Ok (s2, oo) ->
    do_rule s2 (asked m [e] (foreach_ext e) oo moo) = Ok s3 -> for_each s3 rest s4 ->
    for_each s (e :: rest) s4.
(** Otherwise one command, if there are inputs or none were asked for; if there
    are none, the macro for that case, if it is defined. *)
Inductive once : St -> list nle -> St -> Prop :=
| on_run s ins m s1 oo s2 moo s3 : ins <> [] \/ w_nothing w = true ->
    expand s (w_oo w) (Some ins) false = Ok (s1, oo) -> chosen None m -> macro_oo m None s1 s2 moo ->
    do_rule s2 (asked m ins None oo moo) = Ok s3 -> once s ins s3
| on_empty s m s1 oo s2 moo s3 : w_nothing w = false -> names_macro (w_command w) -> known (w_command w ++ B ".EMPTY") = Some m ->
    expand s (w_oo w) (Some []) false = Ok (s1, oo) -> macro_oo (Some m) None s1 s2 moo ->
    do_rule s2 (asked (Some m) [] None oo moo) = Ok s3 -> once s [] s3
| on_none s s1 oo : w_nothing w = false -> (names_macro (w_command w) -> known (w_command w ++ B ".EMPTY") = None) ->
    expand s (w_oo w) (Some []) false = Ok (s1, oo) -> once s [] s1.
(** Either the rule or the macro says foreach. *)
Definition each : Prop := w_each w = true \/ names_macro (w_command w) /\ exists m, known (w_command w) = Some m /\ m_foreach m = true.
Definition rule_does (s s' : St) : Prop :=
  exists ins, distinct_inputs [] (w_inputs w) ins /\ (each /\ for_each s ins s' \/ ~ each /\ once s ins s').
End use.

(** ** The text of a rule *)
Inductive inputs_text : option bytes -> bool -> bool -> list bytes -> list bytes -> Prop :=
| it_none : inputs_text None false true [] []
| it_names s names : s <> [] -> listed_as names s -> ~ In "|"%char s -> (forall r, s <> B "foreach" ++ r) ->
    inputs_text (Some s) false false names []
| it_both s names sp t oo : s <> [] -> listed_as names s -> ~ In "|"%char s -> (forall r, s <> B "foreach" ++ r) -> Forall white sp -> listed_as oo t ->
    inputs_text (Some (s ++ "|"%char :: sp ++ t)) false false names oo
| it_oo sp t oo : Forall white sp -> listed_as oo t -> inputs_text (Some ("|"%char :: sp ++ t)) false true [] oo
| it_each sp s n names oo : Forall white sp -> sp <> [] -> ~ starts_white s -> inputs_text (Some s) false n names oo ->
    inputs_text (Some (B "foreach" ++ sp ++ s)) true n names oo
| it_each_only : inputs_text (Some (B "foreach")) true false [] [].
(** The name of a macro may be followed by a space and more text. *)
Inductive command_text : bytes -> bytes -> option bytes -> Prop :=
| ct_plain c : ~ names_macro c -> command_text c c None
| ct_macro c : names_macro c -> ~ In " "%char c -> command_text c c None
| ct_more c e : names_macro c -> ~ In " "%char c -> command_text (c ++ " "%char :: e) c (Some e).

Section text.
Variable St : Type.
Variable expand : St -> plist -> option (list nle) -> bool -> outcome (St * list nle).
Variable add_bin : St -> bytes -> outcome St.
Variable accepts : St -> bytes -> bool.
Variable plain : bytes -> bool.
Definition with_bin (b : option bytes) (s s' : St) : Prop := match b with None => s' = s | Some x => add_bin s x = Ok s' end.
Inductive reads_as : St -> bytes -> St -> written -> Prop :=
| ra s p i c o b s0 fe nothing names oo s1 ins outs extra cmd more :
    rule_line p i c o b -> with_bin b s s0 ->
    inputs_text i fe nothing names oo -> short_names (accepts s0) (names ++ oo) ->
    (i = None /\ s1 = s0 /\ ins = [] \/ i <> None /\ expand s0 (numbered names) None (bytes_eqb c (B "!tup_preserve")) = Ok (s1, ins)) ->
    outputs_text o outs extra -> short_names plain (outs ++ extra) ->
    command_text c cmd more ->
    reads_as s p s1 {| w_each := fe; w_bin := b; w_command := cmd; w_more := more; w_inputs := ins; w_nothing := nothing;
                       w_oo := numbered oo; w_outputs := numbered outs; w_extra := numbered extra |}.
End text.
