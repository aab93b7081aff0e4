(** Text handling of Tupfile rules (src/tup/parser.c): splitting a rule line,
    a command prefix and a path list, removing duplicate inputs, glob
    portions, %-flags and variable expansion.

    Strings are the bytes before the terminating NUL. Appending to an estring
    is list append (the buffer itself is EStringModel). *)
From Verif Require Import Base ConfigModel.
From Verif Require EStringModel.
From Coq Require Import ZArith.

Definition lbrace : ascii := "{"%char.
Definition rbrace : ascii := "}"%char.
Definition caret : ascii := "^"%char.
Definition space : ascii := " "%char.
Definition backslash : ascii := "\"%char.
Definition percent : ascii := "%"%char.
Definition star : ascii := "*"%char.
Definition quest : ascii := "?"%char.
Definition lbracket : ascii := "["%char.
Definition rbracket : ascii := "]"%char.
Definition dot : ascii := "."%char.
Definition slash : ascii := "/"%char.
Definition marker : bytes := B "|>".

(** strstr(3): the text before the first occurrence and the text after it. *)
Fixpoint strstr (m s : bytes) : option (bytes * bytes) :=
  if prefixb m s then Some ([], skipn (length m) s)
  else match s with
       | [] => None
       | c :: t => match strstr m t with Some (a, b) => Some (c :: a, b) | None => None end
       end.

(** parser.c:1990-2005: the loop that looks for a brace at the start of the
    output text ([first]) or after a space; the text before it and the text
    after it. *)
Fixpoint open_brace (first : bool) (s : bytes) : option (bytes * bytes) :=
  match s with
  | [] => None
  | c :: t =>
      if (c =?c lbrace) && first then Some ([], t)
      else match open_brace (isspace c) t with Some (a, b) => Some (c :: a, b) | None => None end
  end.

(** parser.c:1987-2018. Trimming stops at the start of the output text; that
    text starts with a non-space byte, so this is [rstrip]. *)
Definition split_bin (output : bytes) : option (bytes * option bytes) :=
  match open_brace true output with
  | None => Some (output, None)
  | Some (outs, t) =>
      match cut rbrace t with
      | None => None
      | Some (bin, rest) => match rest with [] => Some (rstrip outs, Some bin) | _ => None end
      end
  end.

(** parser.c:1937-2024 split_input_pattern: inputs (absent if blank), command,
    outputs and bin. The trimming loops stop at the first byte of the part,
    which is not a space, so they are [rstrip]. [None] is the error return. *)
Definition split_input_pattern (p : bytes) : option (option bytes * bytes * bytes * option bytes) :=
  match strstr marker p with
  | None => None
  | Some (i, p1) =>
      match strstr marker p1 with
      | None => None
      | Some (c, p2) =>
          match split_bin (lstrip p2) with
          | None => None
          | Some (outs, bin) =>
              Some (match lstrip i with [] => None | i' => Some (rstrip i') end, rstrip (lstrip c), outs, bin)
          end
      end
  end.

(** parser.c:3423-3471 split_command_string: flags, display text, command.
    [None] is the error for a missing caret. *)
Record command_split := { cs_flags : bytes; cs_display : option bytes; cs_cmd : bytes }.
Definition split_command_string (cmd : bytes) : option command_split :=
  match cmd with
  | c :: s =>
      if c =?c caret then
        let '(flags, s1) := span (fun c => negb ((c =?c space) || (c =?c caret))) s in
        match s1 with
        | [] => None
        | d :: s2 =>
            if d =?c caret then Some {| cs_flags := flags; cs_display := None; cs_cmd := lstrip s2 |}
            else match cut caret (lstrip s1) with
                 | None => None
                 | Some (disp, s3) => Some {| cs_flags := flags; cs_display := Some disp; cs_cmd := lstrip s3 |}
                 end
        end
      else Some {| cs_flags := []; cs_display := None; cs_cmd := lstrip cmd |}
  | [] => Some {| cs_flags := []; cs_display := None; cs_cmd := [] |}
  end.

(** parser.c:2365-2397 next_path: the text written to [dest] and the rest of
    the line, or nothing if a quote is not closed. *)
Fixpoint next_path (espace quoted : bool) (s : bytes) : option (bytes * bytes) :=
  match s with
  | [] => if quoted then None else Some ([], [])
  | c :: t =>
      if espace then match next_path false quoted t with Some (d, r) => Some (c :: d, r) | None => None end
      else if c =?c backslash then next_path true quoted t
      else if c =?c dquote then next_path false (negb quoted) t
      else if isspace c && negb quoted then Some ([], s)
      else match next_path false quoted t with Some (d, r) => Some (c :: d, r) | None => None end
  end.

(** Size of the buffer [dest] (get_path_list 2406; PATH_MAX on Linux). *)
Definition PATH_MAX : N := 4096.

(** parser.c:2399-2427 get_path_list: the paths with their order ids.
    [accepts] is whether new_pl (2289-2363: bin lookup, regular expression and
    group syntax) accepts a path. next_path does not know the size of [dest]:
    [Over] is the write past its end. *)
Section get_path_list.
Variable accepts : bytes -> bool.
Fixpoint path_list (fuel : nat) (orderid : nat) (s : bytes) : outcome (list (bytes * nat)) :=
  match fuel with
  | 0 => NoFuel
  | S fuel =>
      match s with
      | [] => Ok []
      | _ =>
          match next_path false false s with
          | None => Bad
          | Some (d, r) =>
              if (PATH_MAX <=? N.of_nat (length d))%N then Over
              else if accepts d then
                match path_list fuel (S orderid) (lstrip r) with
                | Ok l => Ok ((d, orderid) :: l)
                | o => o
                end
              else Bad
          end
      end
  end.
Definition get_path_list (p : bytes) : outcome (list (bytes * nat)) := path_list (S (length p)) 1 p.

(** parser.c:2026-2064 parse_input_pattern, the splitting part: the inputs and
    the order-only inputs, divided at the first '|'. The loop at 2042 that
    should drop blanks before the '|' tests a byte that is already NUL and
    does nothing. *)
Definition parse_input_pattern (p : bytes) : outcome (list (bytes * nat) * list (bytes * nat)) :=
  match cut "|"%char p with
  | Some (i, oo) =>
      match get_path_list (lstrip oo) with
      | Ok loo => match get_path_list i with
                    | Ok li => Ok (li, loo)
                    | Bad => Bad | Over => Over | NoFuel => NoFuel
                    end
      | Bad => Bad | Over => Over | NoFuel => NoFuel
      end
  | None =>
      match get_path_list p with
      | Ok li => Ok (li, [])
      | Bad => Bad | Over => Over | NoFuel => NoFuel
      end
  end.
End get_path_list.

(** parser.c:2982-3099 glob_parse: the positions and lengths of the parts of
    [match] found by the wildcard. The outer loop ends after the first
    wildcard; further stars directly after a star make entries whose length,
    like that of a suffix which is not found, is never written ([None]). *)
Fixpoint same_prefix (p m : bytes) : bytes * bytes :=
  match p, m with
  | a :: p', b :: m' => if a =?c b then same_prefix p' m' else (p, m)
  | _, _ => (p, m)
  end.
Definition special (c : ascii) : bool := (c =?c star) || (c =?c quest) || (c =?c lbracket).
(** The downward loop at 3086: the highest [i <= k] at which [lit] is found. *)
Fixpoint find_down (lit m : bytes) (k : nat) : option nat :=
  if prefixb lit (skipn k m) then Some k
  else match k with 0 => None | S k' => find_down lit m k' end.
Definition glob_parse (pattern m : bytes) : list (nat * option nat) :=
  match pattern with
  | [] => []
  | _ =>
      let '(p', m') := same_prefix pattern m in
      let at_ := length m - length m' in
      match p', m' with
      | [], [] => []
      | [], _ => [(at_, Some (length m'))]
      | c :: r, _ =>
          if (c =?c lbracket) || (c =?c quest) then [(at_, Some 1)]
          else
            let '(stars, r1) := span (fun c => c =?c star) r in
            let len :=
              if existsb (fun c => (c =?c quest) || (c =?c lbracket)) (tl r1) then Some 0
              else
                let '(lit, _) := span (fun c => negb (special c)) r1 in
                match lit with
                | [] => Some (length m')
                | _ => if length lit <=? length m' then find_down lit m' (length m' - length lit) else None
                end in
            repeat (at_, None) (length stars) ++ [(at_, len)]
      end
  end.

(** parser.c:70-84 struct name_list_entry; parser.c:86-95 struct name_list
    (without the length totals, which only size buffers). *)
Record nle := { n_path : bytes; n_extless : nat; n_base : nat; n_globs : list (nat * option nat); n_order : nat; n_tent : option nat }.
Record name_list := { nl_entries : list nle; nl_globcnt : nat }.

(** parser.c:3739-3758 set_nle_base: offset of the last path component. *)
Definition base_offset (path : bytes) : nat := length path - length (fst (span (fun c => negb (c =?c slash)) (rev path))).

(** The loops that look for the extension: the highest index from [k] down to
    1 that holds a dot, or 0. *)
Fixpoint last_dot (s : bytes) (k : nat) : nat :=
  match k with
  | 0 => 0
  | S k' => if nth k s nul =?c dot then k else last_dot s k'
  end.

(** parser.c:2897-2961 build_name_list_cb: an input that is a file of the
    project. [dir] is the relative directory with its slash (get_relative_dir),
    [name] the file's name. *)
Definition file_entry (dir name : bytes) (order : nat) (pattern : bytes) (tent : nat) : nle :=
  let path := dir ++ name in
  let k := last_dot name (length name) in
  {| n_path := path; n_extless := if k =? 0 then length path else length dir + k; n_base := base_offset path;
     n_globs := glob_parse pattern name; n_order := order; n_tent := Some tent |}.

(** parser.c:2809-2840 nl_add_external_path and 2842-2877 nl_add_bin: the
    extension is looked for in the whole path. *)
Definition path_entry (path : bytes) (order : nat) (tent : option nat) : nle :=
  let k := last_dot path (length path - 1) in
  {| n_path := path; n_extless := if k =? 0 then length path else k; n_base := base_offset path;
     n_globs := []; n_order := order; n_tent := tent |}.

(** parser.c:3371-3386: an output. No correction when there is no dot. *)
Definition output_entry (path : bytes) (order : nat) (tent : nat) : nle :=
  {| n_path := path; n_extless := last_dot path (length path - 1); n_base := base_offset path;
     n_globs := []; n_order := order; n_tent := Some tent |}.

(** parser.c:3725-3737 init_name_list, 3760-3774 add_name_list_entry. *)
Definition init_name_list : name_list := {| nl_entries := []; nl_globcnt := 0 |}.
Definition add_name_list_entry (nl : name_list) (e : nle) : name_list :=
  {| nl_entries := nl_entries nl ++ [e]; nl_globcnt := length (n_globs e) |}.
Definition add_all (l : list nle) : name_list := fold_left add_name_list_entry l init_name_list.

(** parser.c:2098-2124 make_name_list_unique with 3785-3802
    delete_name_list_entry (which leaves the glob count alone). The search
    tree is a list of ids here. *)
Fixpoint unique_entries (seen : list nat) (l : list nle) : list nle :=
  match l with
  | [] => []
  | e :: t =>
      match n_tent e with
      | None => e :: unique_entries seen t
      | Some i => if existsb (Nat.eqb i) seen then unique_entries seen t else e :: unique_entries (i :: seen) t
      end
  end.
Definition make_name_list_unique (nl : name_list) : name_list :=
  {| nl_entries := unique_entries [] (nl_entries nl); nl_globcnt := nl_globcnt nl |}.

(** parser.c:3844-4163 tup_printf. *)
Record penv := { p_in : name_list; p_out : option name_list; p_oo : option name_list; p_ext : option bytes; p_dir : bytes }.

Definition obind {A C} (o : outcome A) (f : A -> outcome C) : outcome C :=
  match o with Ok a => f a | Bad => Bad | Over => Over | NoFuel => NoFuel end.

(** nle->path, nle->base, and nle->base for extlessbaselen bytes. That length
    is computed with a subtraction (3755); a negative one makes
    estring_append copy out of bounds. *)
Definition path_text (e : nle) : outcome bytes := Ok (n_path e).
Definition base_text (e : nle) : outcome bytes := Ok (skipn (n_base e) (n_path e)).
Definition extless_text (e : nle) : outcome bytes :=
  let len := (Z.of_nat (length (n_path e) - n_base e) - (Z.of_nat (length (n_path e)) - Z.of_nat (n_extless e)))%Z in
  if (len <? 0)%Z then Over else Ok (firstn (Z.to_nat len) (skipn (n_base e) (n_path e))).
Definition quoted_text (q : ascii) (e : nle) : outcome bytes := Ok (q :: EStringModel.escape_text q (n_path e) ++ [q]).

(** The loops over a list with [first]. *)
Fixpoint joined (f : nle -> outcome bytes) (first : bool) (l : list nle) : outcome bytes :=
  match l with
  | [] => Ok []
  | e :: t => obind (f e) (fun a => obind (joined f false t) (fun r => Ok ((if first then [] else [space]) ++ a ++ r)))
  end.
Definition listed (f : nle -> outcome bytes) (nl : name_list) : outcome bytes :=
  match nl_entries nl with [] => Bad | l => joined f true l end.

(** 4107-4128: the entries with order id [num], up to the first larger one. *)
Fixpoint pick (num : Z) (l : list nle) : list nle :=
  match l with
  | [] => []
  | e :: t => if (Z.of_nat (n_order e) =? num)%Z then e :: pick num t
              else if (num <? Z.of_nat (n_order e))%Z then [] else pick num t
  end.

Definition isdigit (c : ascii) : bool := let n := nat_of_ascii c in (48 <=? n) && (n <=? 57).
Definition digit (c : ascii) : Z := Z.of_nat (nat_of_ascii c - 48).
Definition number (d : bytes) : Z := fold_left (fun n c => (10 * n + digit c)%Z) d 0%Z.
Definition LONG_MAX : Z := 9223372036854775807.
(** The conversion of strtol's result to int (4067). *)
Definition to_int (z : Z) : Z := let m := (z mod 4294967296)%Z in if (m <? 2147483648)%Z then m else (m - 4294967296)%Z.

(** One %-flag: the text after the percent sign, to the text appended and the
    rest. [percperc] is whether %% becomes % (EXPAND_PERCPERC). *)
Definition with_list (f : nle -> outcome bytes) (nl : option name_list) (rest : bytes) : outcome (bytes * bytes) :=
  match nl with None => Bad | Some nl => obind (listed f nl) (fun a => Ok (a, rest)) end.

Definition number_flag (E : penv) (s : bytes) : outcome (bytes * bytes) :=
  let '(d, r) := span isdigit s in
  if (LONG_MAX <? number d)%Z then Bad
  else
    let num := to_int (number d) in
    let is_t := match r with c :: _ => c =?c "t"%char | [] => false end in
    if ((num <=? 0) || (99 <=? num))%Z && negb is_t then Bad
    else match r with
         | [] => Bad
         | c :: rest =>
             let sel f nl := obind (joined f true (pick num (nl_entries nl))) (fun a => Ok (a, rest)) in
             if c =?c "f"%char then sel path_text (p_in E)
             else if c =?c "B"%char then sel extless_text (p_in E)
             else if c =?c "b"%char then sel base_text (p_in E)
             else if c =?c "o"%char then match p_out E with Some nl => sel path_text nl | None => Ok ([], rest) end
             else if c =?c "i"%char then match p_oo E with Some nl => sel path_text nl | None => Bad end
             else if c =?c "t"%char then Ok (percent :: d ++ [c], rest)
             else Bad
         end.

Definition flag (E : penv) (percperc : bool) (s : bytes) : outcome (bytes * bytes) :=
  match s with
  | [] => Bad
  | c :: rest =>
      if c =?c "f"%char then with_list path_text (Some (p_in E)) rest
      else if c =?c "b"%char then with_list base_text (Some (p_in E)) rest
      else if c =?c "B"%char then with_list extless_text (Some (p_in E)) rest
      else if c =?c "i"%char then with_list path_text (p_oo E) rest
      else if c =?c "e"%char then match p_ext E with Some x => Ok (x, rest) | None => Bad end
      else if c =?c "o"%char then with_list path_text (p_out E) rest
      else if c =?c "O"%char then
        match p_out E with
        | Some nl => match nl_entries nl with [e] => Ok (firstn (n_extless e) (n_path e), rest) | _ => Bad end
        | None => Bad
        end
      else if (c =?c "'"%char) || (c =?c dquote) then
        match rest with
        | x :: rest' =>
            if x =?c "f"%char then with_list (quoted_text c) (Some (p_in E)) rest'
            else if x =?c "o"%char then with_list (quoted_text c) (p_out E) rest'
            else Bad
        | [] => Bad
        end
      else if c =?c "d"%char then Ok (p_dir E, rest)
      else if c =?c "g"%char then
        match nl_entries (p_in E) with
        | [e] => if nl_globcnt (p_in E) =? 0 then Bad
                 else match n_globs e with
                      | (at_, Some len) :: _ => Ok (firstn len (skipn at_ (skipn (n_base e) (n_path e))), rest)
                      | _ => Over
                      end
        | _ => Bad
        end
      else if isdigit c then number_flag E s
      else if c =?c "<"%char then Ok (B "%<", rest)
      else if c =?c percent then Ok (if percperc then [percent] else [percent; percent], rest)
      else Bad
  end.

Fixpoint printf (fuel : nat) (E : penv) (percperc : bool) (s : bytes) : outcome bytes :=
  match fuel with
  | 0 => NoFuel
  | S fuel =>
      match s with
      | [] => Ok []
      | c :: t =>
          if c =?c percent then
            obind (flag E percperc t) (fun '(a, r) => obind (printf fuel E percperc r) (fun o => Ok (a ++ o)))
          else obind (printf fuel E percperc t) (fun o => Ok (c :: o))
      end
  end.
Definition printf_text (E : penv) (percperc : bool) (s : bytes) : outcome bytes := printf (S (length s)) E percperc s.
(** With [extra_command] (4152-4161). *)
Definition tup_printf (E : penv) (percperc : bool) (cmd : bytes) (extra : option bytes) : outcome bytes :=
  obind (printf_text E percperc cmd) (fun o =>
    match extra with
    | None => Ok o
    | Some x => obind (printf_text E true x) (fun p => Ok (o ++ space :: p))
    end).

(** parser.c:2181-2185: the extension passed for %e in a foreach rule. *)
Definition foreach_ext (e : nle) : option bytes :=
  let baselen := Z.of_nat (length (n_path e) - n_base e) in
  let extlessbaselen := (baselen - (Z.of_nat (length (n_path e)) - Z.of_nat (n_extless e)))%Z in
  if (extlessbaselen =? baselen)%Z then None
  else Some (firstn (Z.to_nat (baselen - extlessbaselen - 1)) (skipn (n_base e + Z.to_nat (extlessbaselen + 1)) (n_path e))).

(** parser.c:4211-4380 eval, up to the expansion of node references.
    [dollar], [atvar] and [amp] stand for the lookups of the three kinds of
    variable ($: 4243-4286 with the special names and luadb_copy; @:
    tup_db_get_var; &: vardb_copy); they append nothing for an undefined
    variable and [None] is their error. *)
Section eval.
Variables dollar atvar amp : bytes -> option bytes.
Variable node : Z -> option bytes.
Definition lookup (c : ascii) : bytes -> option bytes :=
  if c =?c "$"%char then dollar else if c =?c "@"%char then atvar else amp.
Fixpoint eval_vars (fuel : nat) (s : bytes) : outcome bytes :=
  match fuel with
  | 0 => NoFuel
  | S fuel =>
      match s with
      | [] => Ok []
      | c :: t =>
          let copy := obind (eval_vars fuel t) (fun o => Ok (c :: o)) in
          if c =?c backslash then
            match t with
            | d :: p :: r =>
                if ((d =?c "$"%char) || (d =?c "@"%char)) && (p =?c "("%char)
                then obind (eval_vars fuel (p :: r)) (fun o => Ok (d :: o))
                else copy
            | _ => copy
            end
          else if (c =?c "$"%char) || (c =?c "@"%char) || (c =?c "&"%char) then
            match t with
            | p :: r =>
                if p =?c "("%char then
                  match cut ")"%char r with
                  | None => Bad
                  | Some (name, rest) =>
                      match lookup c name with
                      | None => Bad
                      | Some v => obind (eval_vars fuel rest) (fun o => Ok (v ++ o))
                      end
                  end
                else copy
            | [] => copy
            end
          else copy
      end
  end.

(** parser.c:4165-4209 expand_node_strings; [node] is the path printed for a
    node id, or its error. *)
Definition LLONG_MAX : Z := 9223372036854775807.
Fixpoint expand_nodes (fuel : nat) (s : bytes) : outcome bytes :=
  match fuel with
  | 0 => NoFuel
  | S fuel =>
      match s with
      | [] => Ok []
      | c :: t =>
          let copy := obind (expand_nodes fuel t) (fun o => Ok (c :: o)) in
          if c =?c percent then
            match span isdigit t with
            | (d :: ds, x :: r) =>
                if (x =?c "t"%char) && (number (d :: ds) <=? LLONG_MAX)%Z then
                  match node (number (d :: ds)) with
                  | None => Bad
                  | Some p => obind (expand_nodes fuel r) (fun o => Ok (p ++ o))
                  end
                else copy
            | _ => copy
            end
          else copy
      end
  end.

Definition eval (keep_nodes : bool) (s : bytes) : outcome bytes :=
  obind (eval_vars (S (length s)) s) (fun o => if keep_nodes then Ok o else expand_nodes (S (length o)) o).
End eval.

(** parser.c:4243-4286: the names with a fixed meaning inside $(...). *)
Definition dollar_lookup (cwd variantdir outputdir : bytes) (config : bytes -> option bytes) (vars : bytes -> option bytes) (name : bytes) : option bytes :=
  if bytes_eqb name (B "TUP_CWD") then Some cwd
  else if bytes_eqb name (B "TUP_VARIANTDIR") then Some variantdir
  else if bytes_eqb name (B "TUP_VARIANT_OUTPUTDIR") then Some outputdir
  else if (7 <? length name) && prefixb (B "CONFIG_") name then config (skipn 7 name)
  else vars name.
