(** Model of src/tup/estring.c with its buffer. *)
From Verif Require Import Base.
Local Open Scope Z_scope.

(** Outcome of a C function: normal, error return, undefined behaviour. *)
Inductive res (A : Type) := Ok (a : A) | Err | UB.
Arguments Ok {A}. Arguments Err {A}. Arguments UB {A}.

Definition bind {A C} (r : res A) (f : A -> res C) : res C :=
  match r with Ok a => f a | Err => Err | UB => UB end.

(** [int] is 32 bits. *)
Definition INT_MAX : Z := 2147483647.

(** estring.h: the buffer [s] (a cell is [None] while uninitialised), [len]
    and [maxlen]. The allocation has exactly [length mem] bytes. *)
Record estring := { mem : list (option ascii); len : Z; maxlen : Z }.

Section Alloc.
(** Does malloc/realloc of this size succeed? *)
Variable alloc_ok : Z -> bool.

(** Write [bs] at offset [off] of an allocation; [UB] if any byte is outside. *)
Definition mem_write (m : list (option ascii)) (off : Z) (bs : bytes) : res (list (option ascii)) :=
  if (0 <=? off) && (off + Z.of_nat (length bs) <=? Z.of_nat (length m)) then
    Ok (firstn (Z.to_nat off) m ++ map Some bs ++ skipn (Z.to_nat off + length bs) m)
  else UB.

(** estring.c:26,28-39 [estring_init], ESTRING_DEFAULT_SIZE 4096. *)
Definition estring_init : res estring :=
  if alloc_ok 4096 then
    bind (mem_write (repeat None (Z.to_nat 4096)) 0 ["000"%char]) (fun m =>
    Ok {| mem := m; len := 0; maxlen := 4096 |})
  else Err.

(** estring.c:44-46: the doubling loop. A signed overflow is [UB]. 31
    doublings of a positive int overflow, so fuel 32 is never exhausted. *)
Fixpoint grow (fuel : nat) (need cur : Z) : res Z :=
  if need >? cur then
    match fuel with
    | O => UB
    | S f => if cur * 2 >? INT_MAX then UB else grow f need (cur * 2)
    end
  else Ok cur.

(** estring.c:41-57 [estring_append]; [src] has [len] bytes. *)
Definition estring_append (e : estring) (src : bytes) : res estring :=
  let n := Z.of_nat (length src) in
  if len e + n + 1 >? INT_MAX then UB else
  bind
    (if len e + n + 1 >? maxlen e then
       bind (grow 32 (len e + n + 1) (maxlen e)) (fun mx =>
       if alloc_ok mx then
         Ok {| mem := mem e ++ repeat None (Z.to_nat mx - length (mem e)); len := len e; maxlen := mx |}
       else Err)
     else Ok e)
    (fun e1 =>
       bind (mem_write (mem e1) (len e1) src) (fun m1 =>
       bind (mem_write m1 (len e1 + n) ["000"%char]) (fun m2 =>
       Ok {| mem := m2; len := len e1 + n; maxlen := maxlen e1 |}))).

(** memchr over the first [n] bytes: position of the first [c]. *)
Fixpoint memchr (p : bytes) (c : ascii) : option nat :=
  match p with
  | [] => None
  | x :: p' => if x =?c c then Some O else option_map S (memchr p' c)
  end.

(** estring.c:59-83 [estring_append_escape]; every round consumes at least one
    byte, so fuel [length src] is enough. The result of the inner appends is
    checked with [< 0] in the C code, which is [bind]. *)
Fixpoint append_escape_loop (fuel : nat) (e : estring) (p : bytes) (escape : ascii) : res estring :=
  match p with
  | [] => Ok e
  | _ =>
    match memchr p escape with
    | None => estring_append e p
    | Some k =>
      match fuel with
      | O => UB
      | S f =>
        bind (estring_append e (firstn k p)) (fun e1 =>
        bind (estring_append e1
                (if escape =?c "'"%char then B "'""'""'" else B "\""")) (fun e2 =>
        append_escape_loop f e2 (skipn (S k) p) escape))
      end
    end
  end.
Definition estring_append_escape (e : estring) (src : bytes) (escape : ascii) : res estring :=
  append_escape_loop (length src) e src escape.

(** A sequence of appends, as the parser performs them. *)
Fixpoint appends (e : estring) (l : list bytes) : res estring :=
  match l with [] => Ok e | x :: l' => bind (estring_append e x) (fun e1 => appends e1 l') end.
End Alloc.

(** The C string held in a buffer: the bytes up to the first NUL; [None] if
    an uninitialised byte or the end of the allocation comes first. *)
Fixpoint c_string (m : list (option ascii)) : option bytes :=
  match m with
  | [] => None
  | None :: _ => None
  | Some c :: m' => if c =?c "000"%char then Some [] else option_map (cons c) (c_string m')
  end.

(** Pure text inserted by [estring_append_escape], byte by byte. *)
Definition escape_text (escape : ascii) (src : bytes) : bytes :=
  flat_map (fun c => if c =?c escape then
                       (if escape =?c "'"%char then B "'""'""'" else B "\""")
                     else [c]) src.
