(** Reading JSON (RFC 8259): strings, arrays and objects. *)
From Verif Require Import Base ExpandModel.

Inductive json := JString (s : bytes) | JArray (l : list json) | JObject (l : list (bytes * json)).

(** White space. *)
Fixpoint blank (s : bytes) : bytes :=
  match s with
  | c :: r => if existsb (Ascii.eqb c) (newline :: B " 	" ++ ["013"%char]) then blank r else s
  | [] => []
  end.
(** Control characters must be escaped in strings. *)
Definition control (c : ascii) : bool := (nat_of_ascii c <? 32).
(** What follows an opening quote: the string, and the rest after the closing
    one. \u is left out. *)
Fixpoint string_rest (s : bytes) : option (bytes * bytes) :=
  match s with
  | [] => None
  | c :: r =>
      if c =?c """"%char then Some ([], r)
      else if c =?c "\"%char then
        match r with
        | [] => None
        | d :: r' =>
            let put x := option_map (fun p => (x :: fst p, snd p)) (string_rest r') in
            if (d =?c """"%char) || (d =?c "\"%char) || (d =?c "/"%char) then put d
            else if d =?c "n"%char then put newline
            else if d =?c "t"%char then put "009"%char
            else if d =?c "r"%char then put "013"%char
            else if d =?c "b"%char then put "008"%char
            else if d =?c "f"%char then put "012"%char
            else None
        end
      else if control c then None
      else option_map (fun p => (c :: fst p, snd p)) (string_rest r)
  end.
(** A value and what follows it. [f] bounds the number of parts. *)
Fixpoint value (f : nat) (s : bytes) : option (json * bytes) :=
  match f with
  | 0 => None
  | S f =>
      match blank s with
      | c :: r =>
          if c =?c """"%char then option_map (fun p => (JString (fst p), snd p)) (string_rest r)
          else if c =?c "["%char then
            match blank r with
            | d :: r' => if d =?c "]"%char then Some (JArray [], r') else option_map (fun p => (JArray (fst p), snd p)) (elements f r)
            | [] => None
            end
          else if c =?c "{"%char then
            match blank r with
            | d :: r' => if d =?c "}"%char then Some (JObject [], r') else option_map (fun p => (JObject (fst p), snd p)) (members f r)
            | [] => None
            end
          else None
      | [] => None
      end
  end
with elements (f : nat) (s : bytes) : option (list json * bytes) :=
  match f with
  | 0 => None
  | S f =>
      match value f s with
      | Some (v, r) =>
          match blank r with
          | c :: r' =>
              if c =?c ","%char then option_map (fun p => (v :: fst p, snd p)) (elements f r')
              else if c =?c "]"%char then Some ([v], r') else None
          | [] => None
          end
      | None => None
      end
  end
with members (f : nat) (s : bytes) : option (list (bytes * json) * bytes) :=
  match f with
  | 0 => None
  | S f =>
      match blank s with
      | q :: r =>
          if q =?c """"%char then
            match string_rest r with
            | Some (k, r1) =>
                match blank r1 with
                | c :: r2 =>
                    if c =?c ":"%char then
                      match value f r2 with
                      | Some (v, r3) =>
                          match blank r3 with
                          | d :: r4 =>
                              if d =?c ","%char then option_map (fun p => ((k, v) :: fst p, snd p)) (members f r4)
                              else if d =?c "}"%char then Some ([(k, v)], r4) else None
                          | [] => None
                          end
                      | None => None
                      end
                    else None
                | [] => None
                end
            | None => None
            end
          else None
      | [] => None
      end
  end.

(** The whole text is one value. *)
Definition document (f : nat) (s : bytes) : option json :=
  match value f s with Some (v, r) => match blank r with [] => Some v | _ => None end | None => None end.
Definition reads_as (s : bytes) (v : json) : Prop := exists n, forall f, n <= f -> document f s = Some v.
(** No reader accepts it. *)
Definition unreadable (s : bytes) : Prop := forall f, document f s = None.

(** Can stand in a string as it is. *)
Definition no_control (s : bytes) : Prop := existsb control s = false.
Definition no_escape (s : bytes) : Prop := existsb (fun c => (c =?c """"%char) || (c =?c "\"%char)) s = false.

(** An entry of a compilation database. *)
Definition compile_entry (directory command file : bytes) : json :=
  JObject [(B "directory", JString directory); (B "command", JString command); (B "file", JString file)].
