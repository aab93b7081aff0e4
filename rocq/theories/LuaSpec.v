(** What the functions of Lua Tupfiles mean. Of the model only the data types,
    texts of variables ([copy]), and what rules mean (MacroSpec.v) are used. *)
From Verif Require Import Base ConfigModel ConfigSpec ParseModel ParseSpec TextModel MacroModel MacroSpec LuaModel.

(** ** Lists *)
(** The values that [v] stands for in a +=. *)
Inductive elements (m : mem) : val -> list val -> Prop :=
| el_nil : elements m Nil []
| el_str s : elements m (Str s) [Str s]
| el_tab a t : nth_error m a = Some t -> elements m (Tab a) (t_arr t).

(** A list of names: one string, or a table of strings. *)
Inductive names_in (m : mem) : val -> list bytes -> Prop :=
| ni_str s : names_in m (Str s) [s]
| ni_tab a t ns : nth_error m a = Some t -> t_arr t = map Str ns -> t_named t = [] -> names_in m (Tab a) ns.
(** A field of a table that may be missing. *)
Inductive named_names (m : mem) (t : table) (k : bytes) : list bytes -> Prop :=
| nn_none : find_var k (t_named t) = None -> named_names m t k []
| nn_some v ns : find_var k (t_named t) = Some v -> names_in m v ns -> named_names m t k ns.
Inductive named_bin (t : table) : option bytes -> Prop :=
| nb_none : find_var (B "bin") (t_named t) = None -> named_bin t None
| nb_some s s' : find_var (B "bin") (t_named t) = Some (Str s) -> (s' = s /\ ~ In "{"%char s /\ ~ In "}"%char s \/ s = "{"%char :: s' ++ ["}"%char] /\ ~ In "{"%char s' /\ ~ In "}"%char s') -> named_bin t (Some s').
Definition only (ks : list bytes) (t : table) : Prop := forall k v, In (k, v) (t_named t) -> In k ks.

(** The inputs of a rule: inputs and extra inputs. *)
Inductive given_inputs (m : mem) : val -> list bytes -> list bytes -> Prop :=
| gi_none : given_inputs m Nil [] []
| gi_str s : given_inputs m (Str s) [s] []
| gi_tab a t ns ex : nth_error m a = Some t -> t_arr t = map Str ns -> only [B "extra_inputs"] t -> named_names m t (B "extra_inputs") ex -> given_inputs m (Tab a) ns ex.
(** The outputs: outputs, extra outputs and the bin, with or without its braces. *)
Inductive given_outputs (m : mem) : val -> list bytes -> list bytes -> option bytes -> Prop :=
| go_none : given_outputs m Nil [] [] None
| go_str s : given_outputs m (Str s) [s] [] None
| go_tab a t ns ex b : nth_error m a = Some t -> t_arr t = map Str ns -> only [B "extra_outputs"; B "bin"] t -> named_names m t (B "extra_outputs") ex -> named_bin t b ->
    given_outputs m (Tab a) ns ex b.

(** The forms of tup.rule: command; command and list of outputs; list of inputs
    and command; inputs, command and outputs. *)
Inductive called : val -> val -> val -> val -> bytes -> val -> Prop :=
| ca_c c : called (Str c) Nil Nil Nil c Nil
| ca_co c a : called (Str c) (Tab a) Nil Nil c (Tab a)
| ca_ic a c : called (Tab a) (Str c) Nil (Tab a) c Nil
| ca_ico i c o : o <> Nil -> called i (Str c) o i c o.

(** Tables keep their elements, and a table without named fields gets none. *)
Definition keeps (m m' : mem) : Prop :=
  forall a t, nth_error m a = Some t -> exists t', nth_error m' a = Some t' /\ t_arr t' = t_arr t /\ t_meta t' = t_meta t /\ (t_named t = [] -> t_named t' = []).

(** The rule that is asked for, in the terms of C49. *)
Definition asked_rule (each : bool) (bin : option bytes) (cmd : bytes) (nl : list nle) (ins exi outs exo : list bytes) : written :=
  {| w_each := each; w_bin := bin; w_command := cmd; w_more := None; w_inputs := nl; w_nothing := match ins with [] => true | _ => false end;
     w_oo := numbered exi; w_outputs := numbered outs; w_extra := numbered exo |}.

(** ** Names *)
Definition separator (c : ascii) : Prop := In c ["/"; "\"]%char.
Definition directory_part (d : bytes) : Prop := d = [] \/ exists e c, d = e ++ [c] /\ separator c.
Definition letters_and_digits (s : bytes) : Prop :=
  Forall (fun c => In c (list_ascii_of_string "0123456789ABCDEFGHIJKLMNOPQRSTUVWXYZabcdefghijklmnopqrstuvwxyz")) s.

(** ** Tupfiles that put nothing in _G *)
Definition quiet_expr (e : expr) : Prop := forall a, e <> EExt a.
Inductive quiet : stmt -> Prop :=
| q_set x e : quiet_expr e -> quiet (SSet x e)
| q_append x e : quiet_expr e -> quiet (SAppend x e)
| q_index x k a : quiet (SIndex x k a)
| q_other b : Forall quiet b -> quiet (SOther b).

Section Parser.
Variable St : Type.
(** The variables as the rest of the parser sees them when a rule is made: each
    with its text. *)
Definition sees (l : lua St) (vs : list (bytes * res bytes)) : Prop :=
  Forall2 (fun e r => fst r = fst e /\ forall t, copy (tabs St l) (snd e) = Ret t -> snd r = Ret t) (f_vars (top St l)) vs.
(** Names that mean themselves: no references to variables, nothing that the
    check of a path rejects. *)
Definition settled (ev : St -> list (bytes * res bytes) -> bytes -> option bytes) (accepts : St -> bytes -> bool) (s : St) (ns : list bytes) : Prop :=
  Forall (fun n => (forall vs, ev s vs n = Some n) /\ accepts s n = true) ns.
(** What the names [ns] stand for, with the variables of the Tupfile. *)
Definition stands_for (ev : St -> list (bytes * res bytes) -> bytes -> option bytes) (accepts : St -> bytes -> bool) (l : lua St) (ns ns' : list bytes) : Prop :=
  Forall2 (fun n n' => (forall vs, sees l vs -> ev (st St l) vs n = Some n') /\ accepts (st St l) n' = true) ns ns'.
End Parser.
