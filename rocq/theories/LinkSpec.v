(** What the database says about a command, and what a rule declares. *)
From Verif Require Import Base ExecModel GraphModel TentModel TentSpec LinkModel.

Section spec.
Variable kind_of : id -> kind.
Variable excl : id -> bool.
(** The entries of environment variables. *)
Variable is_env : id -> bool.
Variable c : id.
Definition group_id (x : id) : Prop := kind_of x = KGroup.

(** The command's output group, and its outputs without groups and exclusions. *)
Definition writes_group (r : rows) (g : id) : Prop := In g (outs r) /\ group_id g.
Definition makes (r : rows) (x : id) : Prop := In x (outs r) /\ ~ group_id x /\ excl x = false.
Definition excludes (r : rows) (x : id) : Prop := In x (outs r) /\ ~ group_id x /\ excl x = true.

(** The rows fit together: the command is not its own output; one output group at most; the outputs are members of
    it and of no other; group_link holds the pairs of input and output groups; the
    links of environment variables are declared ones. *)
Record consistent (r : rows) : Prop := {
  k_unique : NoDup (outs r);
  k_self : ~ In c (outs r);
  k_small : small (outs r) /\ small (stk r) /\ small (nin r);
  k_group : forall g h, writes_group r g -> writes_group r h -> g = h;
  k_member : forall x g, makes r x -> (In (x, g) (member r) <-> writes_group r g);
  k_glinks : forall a b, In (a, b) (glinks r) <-> (group_id a /\ In a (stk r)) /\ writes_group r b;
  k_env : forall x, is_env x = true -> In x (nin r) -> In x (stk r) }.

(** What do_rule() makes of a rule, whatever the rule says: sets of entries of the
    right kinds, the environment among the inputs. *)
Record proper (d : declared) : Prop := {
  p_sorted : sorted (d_outs d) /\ sorted (d_excl d) /\ sorted (d_ins d) /\ sorted (d_env d);
  p_small : small (d_outs d) /\ small (d_excl d) /\ small (d_ins d) /\ (forall g, d_group d = Some g -> small [g]);
  p_real : forall x, In x (d_outs d) \/ In x (d_excl d) \/ In x (d_ins d) \/ d_group d = Some x -> x <> c /\ x <> 0;
  p_outs : forall x, In x (d_outs d) -> ~ group_id x /\ excl x = false;
  p_excl : forall x, In x (d_excl d) -> ~ group_id x /\ excl x = true;
  p_group : forall g, d_group d = Some g -> group_id g;
  p_env : forall x, In x (d_env d) -> In x (d_ins d) /\ is_env x = true }.
(** The outputs that are new to the command are members of no group: do_rule() took
    them away from their old command before (tup_db_create_unique_link). *)
Definition taken_over (d : declared) (r : rows) : Prop :=
  forall x g, In x (d_outs d) -> ~ In x (outs r) -> ~ In (x, g) (member r).

(** A rule that cannot be right: an output or the group is an input too. *)
Definition circular (d : declared) : Prop :=
  (exists g, d_group d = Some g /\ In g (d_ins d)) \/ (exists x, In x (d_outs d) /\ In x (d_ins d)).

(** The database says what the rule says. *)
Definition same_outputs (d : declared) (r : rows) : Prop :=
  (forall x, makes r x <-> In x (d_outs d)) /\ (forall x, excludes r x <-> In x (d_excl d)) /\ (forall g, writes_group r g <-> d_group d = Some g).
Definition same_inputs (d : declared) (r : rows) : Prop := forall x, In x (stk r) <-> In x (d_ins d).

(** A group is no longer an input. *)
Definition loses_group (d : declared) (r : rows) : Prop := exists g, group_id g /\ In g (stk r) /\ ~ In g (d_ins d).
(** What the command has to run again for. *)
Definition rule_changed (d : declared) (modified : bool) (r : rows) : Prop :=
  modified = true \/ ~ same_outputs d r \/ loses_group d r \/
  (exists x, In x (stk r) /\ In x (nin r) /\ ~ In x (d_ins d)) \/ (exists x, In x (d_env d) /\ ~ In x (stk r)).
End spec.
