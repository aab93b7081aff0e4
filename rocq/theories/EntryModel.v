(** Model of the paths of entries (src/tup/entry.c:274-285, 702-795). *)
From Verif Require Import Base ConfigModel.

(** The entries in memory: parent (none for the top directory) and name. *)
Record tree := { parent : nat -> option nat; name : nat -> bytes }.

(** entry.c:702-714 get_full_path_tents: from the top down to the entry. The
    loop ends because parents do not form a circle; [None] is lack of fuel. *)
Fixpoint full_path (T : tree) (fuel : nat) (t : nat) : option (list nat) :=
  match fuel with
  | 0 => None
  | S fuel =>
      match parent T t with
      | None => Some [t]
      | Some p => option_map (fun l => l ++ [t]) (full_path T fuel p)
      end
  end.

(** 740-750: the common part is removed. *)
Fixpoint strip_common (a b : list nat) : list nat * list nat :=
  match a, b with
  | x :: a', y :: b' => if x =? y then strip_common a' b' else (a, b)
  | _, _ => (a, b)
  end.

(** 752-790: the text, with [first] as in the code. *)
Fixpoint append_parts (sep : ascii) (first : bool) (l : list bytes) : bytes :=
  match l with
  | [] => []
  | n :: t => (if first then n else sep :: n) ++ append_parts sep false t
  end.
Definition relative_text (T : tree) (sep : ascii) (a b : list nat) : bytes :=
  let '(ups, downs) := strip_common a b in
  match map (fun _ => B "..") ups ++ map (name T) downs with
  | [] => B "."
  | l => append_parts sep true l
  end.
(** 724-795 get_relative_dir_sep. *)
Definition get_relative_dir_sep (T : tree) (fuel start end_ : nat) (sep : ascii) : option bytes :=
  match full_path T fuel start, full_path T fuel end_ with
  | Some a, Some b => Some (relative_text T sep a b)
  | _, _ => None
  end.
(** 716-722 *)
Definition get_relative_dir (T : tree) (fuel start end_ : nat) : option bytes := get_relative_dir_sep T fuel start end_ "/"%char.

(** 274-285 snprint_tup_entry: [text] is what is in the buffer up to the NUL,
    the number is the return value. snprintf gets [len - rc] as its size: if rc
    is larger, this is a huge number and it writes behind the buffer ([Over]).
    With size 0 it writes nothing; the text then is what was there. *)
Fixpoint snprint (T : tree) (fuel : nat) (len : nat) (t : nat) : outcome (bytes * nat) :=
  match fuel with
  | 0 => NoFuel
  | S fuel =>
      match parent T t with
      | None => Ok ([], 0)
      | Some p =>
          match snprint T fuel len p with
          | Ok (text, rc) =>
              let part := "/"%char :: name T t in
              if len <? rc then Over
              else Ok (firstn (len - 1) (text ++ part), rc + length part)
          | o => o
          end
      end
  end.
