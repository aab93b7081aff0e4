(** Model of "tup generate": updater.c:222-239 generate_script_mkdir, the
    script written by 243-531 generate, 2220-2258 generate_work, and of the
    two ways to write an entry's path, entry.c:198-262 and 287-304. *)
From Verif Require Import Base EntryModel ExecModel GraphModel ExpandModel.

(** The text of the script so far, generate_cwd (updater.c:241) and the files
    of expand_command. *)
Record script := { cwd : nat; text : bytes; res_files : world }.

Section Generate.
Variable T : tree.                      (* tent->parent and tent->name.s, of commands too *)
Variable fuel : nat.                    (* for walking up *)
Variable top : nat.                     (* DOT_DT *)
Variable kind_of : nat -> kind.         (* tent->type *)
Variable gendir : nat -> bool.          (* tent->type == TUP_NODE_GENERATED_DIR *)
Variable variant : nat -> option nat.   (* tup_entry_variant_null, None for the root variant *)
Variable srcdir : nat -> nat.           (* variant_tent_to_srctent *)
Variable groups_of : nat -> list group. (* group_sticky_root of tup_db_get_inputs *)
Variable tmp_ok : bool.                 (* .tup/tmp can be written *)

Definition slash_name (n : bytes) : bool := match n with c :: _ => c =?c "/"%char | [] => false end.

(** entry.c:198-212 print_tup_entry_internal. The bool is the return value. *)
Fixpoint print_internal (f : nat) (t : nat) (stop : option nat) : option (bytes * bool) :=
  match f with
  | 0 => None
  | S f =>
      match parent T t with
      | None => Some ([], false)
      | Some p =>
          if match stop with Some s => t =? s | None => false end then Some ([], false)
          else
            match print_internal f p stop with
            | None => None
            | Some (x, printed) =>
                Some (x ++ (if printed then B "/" else []) ++ (if slash_name (name T t) then [] else name T t), true)
            end
      end
  end.

(** entry.c:232-235: the last entry on the way up that has the variant. *)
Definition same_variant (a b : option nat) : bool :=
  match a, b with Some x, Some y => x =? y | _, _ => false end.
Fixpoint variant_part (f : nat) (v : option nat) (t : nat) : option nat :=
  match f with
  | 0 => None
  | S f =>
      match parent T t with
      | None => Some t
      | Some p => if same_variant (variant p) v then variant_part f v p else Some t
      end
  end.

(** entry.c:214-262 print_tup_entry, for a directory and a file that is not a
    terminal: no colors (colors.c:72-80), no display name. *)
Definition print_entry (t : nat) : option bytes :=
  match parent T t with
  | None => Some (name T t)
  | Some p =>
      match variant t with
      | None =>
          match print_internal fuel p None with
          | None => None
          | Some (x, printed) => Some (x ++ (if printed then B "/" else []) ++ name T t)
          end
      | Some v =>
          match variant_part fuel (Some v) t with
          | None => None
          | Some vp =>
              match print_internal fuel vp None with
              | None => None
              | Some (y, _) =>
                  if t =? vp then Some (B "[" ++ y ++ B "] .")
                  else
                    match print_internal fuel p (Some vp) with
                    | None => None
                    | Some (x, printed) => Some (B "[" ++ y ++ B "] " ++ x ++ (if printed then B "/" else []) ++ name T t)
                    end
              end
          end
      end
  end.

(** entry.c:287-304 write_tup_entry, for a directory (TUP_NODE_DIR). *)
Fixpoint write_entry (f : nat) (t : nat) : option bytes :=
  match f with
  | 0 => None
  | S f =>
      if t =? top then Some (B ".")
      else
        match parent T t with
        | None => None
        | Some p => if p =? top then Some (name T t ++ B "/")
                    else option_map (fun x => x ++ name T t ++ B "/") (write_entry f p)
        end
  end.

(** updater.c:340-356: the first lines. *)
Definition header (verbose : bool) (args : list bytes) : bytes :=
  B "#! /bin/sh -e" ++ (if verbose then B "x" else []) ++ [newline] ++
  B "# This file is automatically generated with: tup generate" ++ concat (map (fun a => " "%char :: a) args) ++ [newline] ++
  B "export tup_vardict=" ++ B """$(cd $(dirname $0) && pwd)/tup-generate.vardict""" ++ [newline].

(** updater.c:446-449: with --builddir, for each directory with a Tupfile; the
    directories (get_rel_tent) are a parameter. *)
Fixpoint build_dirs (ds : list nat) : option bytes :=
  match ds with
  | [] => Some []
  | d :: r =>
      match write_entry fuel d, build_dirs r with
      | Some x, Some y => Some (B "mkdir -p " ++ x ++ [newline] ++ y)
      | _, _ => None
      end
  end.

(** updater.c:222-239 generate_script_mkdir: [seen] is the tree of ids. A
    generated directory always has a parent. *)
Fixpoint script_mkdir (f : nat) (d : nat) (seen : list nat) : option (bytes * list nat) :=
  match f with
  | 0 => None
  | S f =>
      if negb (gendir d) then Some ([], seen)
      else if inb d seen then Some ([], seen)
      else
        match parent T d with
        | None => None
        | Some p =>
            match script_mkdir f p (d :: seen), print_entry d with
            | Some (x, seen'), Some y => Some (x ++ B "mkdir -p """ ++ y ++ B """" ++ [newline], seen')
            | _, _ => None
            end
        end
  end.

(** updater.c:508-515: the loop over the nodes of the graph. *)
Fixpoint mkdirs (ns : list nat) (seen : list nat) : option bytes :=
  match ns with
  | [] => Some []
  | n :: r =>
      if is_generated (kind_of n) then
        match parent T n with
        | None => None
        | Some d =>
            match script_mkdir fuel d seen with
            | None => None
            | Some (x, seen') => option_map (app x) (mkdirs r seen')
            end
        end
      else mkdirs r seen
  end.

(** updater.c:2220-2258 generate_work. [None]: fuel. *)
Definition gen_node (n : nat) (s : script) : option (script * bool) :=
  if is_cmd (kind_of n) then
    match parent T n with
    | None => None
    | Some par =>
        let src := srcdir par in
        let s1 := if cwd s =? src then Some s
                  else option_map (fun p => {| cwd := src; text := text s ++ B "cd """ ++ p ++ B """" ++ [newline]; res_files := res_files s |})
                         (get_relative_dir T fuel (cwd s) src) in
        match s1 with
        | None => None
        | Some s1 =>
            match expand_command T fuel srcdir tmp_ok par (groups_of n) (name T n) (res_files s1) with
            | (Good (c, _), w) => Some ({| cwd := cwd s1; text := text s1 ++ B "(" ++ c ++ B ")" ++ [newline]; res_files := w |}, true)
            | (Fail, w) => Some ({| cwd := cwd s1; text := text s1; res_files := w |}, false)
            | (ExpandModel.NoFuel, _) => None
            end
        end
    end
  else Some (s, true).
(** As a worker of execute_graph. *)
Definition generate_work (_ : ExecModel.graph) (n : nat) (s s' : script) (ok : bool) : Prop := gen_node n s = Some (s', ok).

(** updater.c:340-518: what is in the script before execute_graph. *)
Definition preamble (verbose : bool) (args : list bytes) (bdirs : list nat) (g : ExecModel.graph) : option script :=
  match build_dirs bdirs, mkdirs (node_list g) [] with
  | Some x, Some y => Some {| cwd := top; text := header verbose args ++ x ++ y; res_files := {| resno := 0; files := [] |} |}
  | _, _ => None
  end.

(** updater.c:519: one job, no keep-going. [generated g s0 t]: it returned 0 and
    the script is [t]. *)
Definition generated (verbose : bool) (args : list bytes) (bdirs : list nat) (g : ExecModel.graph) (t : bytes) : Prop :=
  exists s0 s, preamble verbose args bdirs g = Some s0 /\
    steps generate_work false (start 1 g s0) s /\ at_ s = Returned 0 /\ t = text (ws s).
End Generate.

(** updater.c:3025-3032: how an update runs the expanded text of a command. *)
Inductive how := Link (args : bytes) | Shell (c : bytes).
Definition run_by_update (c : bytes) : how :=
  if prefixb (B "!tup_ln ") c then Link (skipn 8 c)
  else if prefixb (B "!tup_preserve ") c then Link (skipn 14 c)
  else Shell c.
