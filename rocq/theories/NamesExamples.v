(** Concrete projects for C65. *)
From Verif Require Import Base NamesModel NamesSpec.
From Coq Require Import Permutation.

(** A glob that knows patterns of the form *suffix. *)
Definition ends (p n : bytes) : bool :=
  match p with
  | c :: suf => (c =?c "*")%char && bytes_eqb (skipn (length n - length suf) n) suf
  | [] => false
  end.

Definition at0 (s : string) : loc := (0, B s).
Definition at1 (s : string) : loc := (1, B s).

Definition suffixed (s : string) (d : nat) (ins : list loc) : list loc :=
  map (fun l => (d, snd l ++ B s)) (firstn 1 ins).

(** : foreach *.c |> gcc |> %f.o *)
Definition compile : rule := Rule [at0 "*.c"] true false (suffixed ".o" 0).
(** : *.o ../sub/lib.h |> ld |> prog *)
Definition link : rule := Rule [at0 "*.o"; at1 "lib.h"; at0 "a.c.o"] false false (fun _ => [at0 "prog"]).
(** : |> gen |> b.c *)
Definition gen_b : rule := Rule [] false false (fun _ => [at0 "b.c"]).
(** : |> gen |> lib.h, in directory 1 *)
Definition gen_h : rule := Rule [] false false (fun _ => [at1 "lib.h"]).

(** Write a.c and c.c; build; remove c.c; write z.c, drop the rule for b.c
    and build; write b.c in its place; write prog, so that the build fails. *)
Definition project : list event :=
  [ Write (at0 "c.c"); Write (at0 "a.c");
    Update [(1, [gen_h]); (0, [gen_b; compile; link])];
    Remove (at0 "c.c"); Write (at0 "z.c");
    Update [(0, [compile; link])];
    Write (at0 "b.c");
    Update [(0, [gen_b; compile; link])];
    Update [(0, [compile])];
    Write (at0 "prog");
    Update [(0, [compile; link])] ].

Definition none (l : loc) : bool := false.
Definition all (l : loc) : bool := true.

Definition summary (o : list (option (list cmd))) : list (option (list (list (bool * bool * loc) * list loc))) :=
  map (option_map (map (fun c => (map (fun i => (i_source i, i_gen i, i_loc i)) (c_ins c), c_outs c)))) o.

Definition tree_outcomes := snd (history ends none false project empty).
Definition variant_outcomes := snd (history ends all true project empty).

(** : foreach *.txt |> !tup_preserve |> ; : *.txt |> cat |> all *)
Definition preserve : rule := Rule [at0 "*.txt"] true true (fun _ => []).
Definition cat_all : rule := Rule [at0 "*.txt"] false false (fun _ => [at0 "all"]).
Definition gen_txt : rule := Rule [] false false (fun _ => [at0 "g.txt"]).

(** : |> gen |> Tupfile *)
Definition gen_tupfile : rule := Rule [] false false (fun _ => [at0 "Tupfile"]).

(** : |> gen |> sub/x.txt ; : sub/STAR.txt |> cat |> all *)
Definition gen_far : rule := Rule [] false false (fun _ => [at1 "x.txt"]).
Definition cat_far : rule := Rule [at1 "*.txt"] false false (fun _ => [at0 "all"]).
