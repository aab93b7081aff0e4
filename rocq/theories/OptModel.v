(** Options: src/tup/option.c, src/inih/ini.c. *)
From Verif Require Import Base ConfigModel.

(** ini.c with INI_ALLOW_MULTILINE=0 (src/inih/Tupfile) and otherwise the settings of ini.h. *)

(** fgets with a buffer of n+1 bytes. *)
Fixpoint fgets (n : nat) (s : bytes) : bytes * bytes :=
  match n, s with
  | 0, _ => ([], s)
  | _, [] => ([], [])
  | S n, c :: t => if c =?c newline then ([c], t) else let '(a, b) := fgets n t in (c :: a, b)
  end.
Definition max_line : nat := 200.
Definition max_section : nat := 50.
(** What strlen and the rest see of a buffer. *)
Definition c_string (s : bytes) : bytes := match cut nul s with Some (a, _) => a | None => s end.

(** ini.c 65-81 find_chars_or_comment: the text before the place, and from there on. *)
Fixpoint find_chars (chars : bytes) (was_space : bool) (s : bytes) : bytes * bytes :=
  match s with
  | [] => ([], [])
  | c :: t =>
      if existsb (Ascii.eqb c) chars || (was_space && (c =?c ";"%char)) then ([], s)
      else let '(a, b) := find_chars chars (isspace c) t in (c :: a, b)
  end.

Section Ini.
  (** The handler; false is an error. *)
  Variable U : Type.
  Variable handler : U -> bytes -> bytes -> bytes -> U * bool.
  Record ini_st := { section : bytes; user : U; error : nat }.

  (** ini.c 157-236: one line; [error] keeps the number of the first line with an error. *)
  Definition fail_at (lineno : nat) (st : ini_st) : ini_st :=
    {| section := section st; user := user st; error := if error st =? 0 then lineno else error st |}.
  Definition ini_line (lineno : nat) (st : ini_st) (line : bytes) : ini_st :=
    let start := if (lineno =? 1) && prefixb bom line then skipn 3 line else line in
    let start := lstrip (rstrip start) in
    match start with
    | [] => st
    | c :: t =>
        if (c =?c ";"%char) || (c =?c "#"%char) then st
        else if c =?c "["%char then
          match find_chars (B "]") false t with
          | (name, e :: _) =>
              if e =?c "]"%char then {| section := firstn (max_section - 1) name; user := user st; error := error st |}
              else fail_at lineno st
          | (_, []) => fail_at lineno st
          end
        else
          match find_chars (B "=:") false start with
          | (name, e :: value) =>
              if (e =?c "="%char) || (e =?c ":"%char) then
                let name := rstrip name in
                let value := rstrip (lstrip (fst (find_chars [] false value))) in
                let '(u, ok) := handler (user st) (section st) name value in
                let st' := {| section := section st; user := u; error := error st |} in
                if ok then st' else fail_at lineno st'
              else fail_at lineno st
          | (_, []) => fail_at lineno st
          end
    end.

  (** ini.c 97-247 ini_parse_stream *)
  Fixpoint ini_lines (fuel : nat) (lineno : nat) (st : ini_st) (text : bytes) : ini_st :=
    match fuel with
    | 0 => st
    | S fuel =>
        match text with
        | [] => st
        | _ => let '(line, rest) := fgets (max_line - 1) text in ini_lines fuel (S lineno) (ini_line (S lineno) st (c_string line)) rest
        end
    end.
  Definition ini_parse (u : U) (text : bytes) : ini_st :=
    ini_lines (length text) 0 {| section := []; user := u; error := 0 |} text.
End Ini.

(** option.c 465-502: true if the value is fine. *)
Definition digit (c : ascii) : bool := let n := nat_of_ascii c in (48 <=? n) && (n <=? 57).
Definition is_number (v : bytes) : bool := forallb digit v.
Definition is_flag (v : bytes) : bool :=
  existsb (bytes_eqb v) [B "true"; B "yes"; B "false"; B "no"; B "1"; B "0"].
Definition is_color (v : bytes) : bool := existsb (bytes_eqb v) [B "never"; B "always"; B "auto"].

(** option.c 504-568: what the defaults are computed from. cpu_number (504-535), get_console_width
    (537-552), stdout_isatty (554-568) as the strings they return. *)
Record machine := { m_cpus : bytes; m_width : bytes; m_tty : bytes }.
(** option.c 85-104 *)
Definition options (m : machine) : list (bytes * bytes * (bytes -> bool)) := [
  (B "updater.num_jobs", m_cpus m, is_number);
  (B "updater.keep_going", B "0", is_flag);
  (B "updater.full_deps", B "0", is_flag);
  (B "updater.warnings", B "1", is_flag);
  (B "display.color", B "auto", is_color);
  (B "display.width", m_width m, is_number);
  (B "display.progress", m_tty m, is_flag);
  (B "display.job_numbers", B "1", is_flag);
  (B "display.job_time", B "1", is_flag);
  (B "display.quiet", B "0", is_flag);
  (B "monitor.autoupdate", B "0", is_flag);
  (B "monitor.autoparse", B "0", is_flag);
  (B "monitor.foreground", B "0", is_flag);
  (B "db.sync", B "1", is_flag);
  (B "graph.dirs", B "0", is_flag);
  (B "graph.ghosts", B "0", is_flag);
  (B "graph.environment", B "0", is_flag);
  (B "graph.combine", B "0", is_flag)].
Definition find_option (m : machine) (opt : bytes) : option (bytes * (bytes -> bool)) :=
  match find (fun o => bytes_eqb (fst (fst o)) opt) (options m) with Some (_, d, f) => Some (d, f) | None => None end.

(** option.c 410-439 parse_callback; opt has OPT_MAX = 256 bytes. *)
Definition parse_callback (m : machine) (v : vardb) (section name value : bytes) : vardb * bool :=
  let opt := section ++ "."%char :: name in
  if 256 <=? length opt then (v, false)
  else match find_option m opt with
       | Some (_, valid) => if valid value then (vardb_set v opt value, true) else (v, false)
       | None => (v, true)
       end.

(** option.c 232-275 parse_cmdline_options *)
Definition cmdline_arg (a : bytes) (v : vardb) : option vardb :=
  if bytes_eqb a (B "--keep-going") || bytes_eqb a (B "-k") then Some (vardb_set v (B "updater.keep_going") (B "1"))
  else if bytes_eqb a (B "--no-keep-going") then Some (vardb_set v (B "updater.keep_going") (B "0"))
  else if prefixb (B "-j") a then Some (vardb_set v (B "updater.num_jobs") (skipn 2 a))
  else if bytes_eqb a (B "--no-sync") then Some (vardb_set v (B "db.sync") (B "0"))
  else if prefixb (B "--display-color") a then
    match skipn 15 a with
    | c :: value => if c =?c "="%char then if is_color value then Some (vardb_set v (B "display.color") value) else None else None
    | [] => None
    end
  else Some v.
Fixpoint cmdline (argv : list bytes) (v : vardb) : option vardb :=
  match argv with [] => Some v | a :: r => match cmdline_arg a v with Some v' => cmdline r v' | None => None end end.

(** option.c 441-463 parse_option_file: None if the file cannot be opened. *)
Definition parse_option_file (m : machine) (file : option bytes) : option vardb :=
  match file with
  | None => Some []
  | Some text => let st := ini_parse vardb (parse_callback m) [] text in if error _ st =? 0 then Some (user _ st) else None
  end.
(** option.c 277-318 tup_option_init. The files are .tup/options, $HOME/.tupoptions and
    /etc/tup/options (55-66, 570-597); what they are is read by the caller. *)
Fixpoint option_files (m : machine) (files : list (option bytes)) : option (list vardb) :=
  match files with
  | [] => Some []
  | f :: r => match parse_option_file m f with
              | Some v => match option_files m r with Some l => Some (v :: l) | None => None end
              | None => None
              end
  end.
Definition option_init (m : machine) (argv : list bytes) (tup home etc : option bytes) : option (list vardb) :=
  match cmdline argv [] with
  | Some v => match option_files m [tup; home; etc] with Some l => Some (v :: l) | None => None end
  | None => None
  end.

Fixpoint vardb_get (v : vardb) (var : bytes) : option bytes :=
  match v with [] => None | (k, w) :: r => if bytes_eqb k var then Some w else vardb_get r var end.
(** option.c 348-375 tup_option_get_string; None is the exit for an option without default.
    A change of the window's size (366-369) replaces [m_width] and is not modelled. *)
Fixpoint get_string (m : machine) (locations : list vardb) (opt : bytes) : option bytes :=
  match locations with
  | v :: r => match vardb_get v opt with Some w => Some w | None => get_string m r opt end
  | [] => option_map fst (find_option m opt)
  end.

(** atoi: strtol, which stops at LONG_MIN and LONG_MAX, cast to int. *)
Fixpoint digits (acc : Z) (s : bytes) : Z :=
  match s with
  | c :: t => if digit c then digits (acc * 10 + (Z.of_nat (nat_of_ascii c) - 48))%Z t else acc
  | [] => acc
  end.
Definition clamp (z : Z) : Z := Z.max (- 2 ^ 63) (Z.min (2 ^ 63 - 1) z).
Definition to_int (z : Z) : Z := let u := (z mod 2 ^ 32)%Z in if (u <? 2 ^ 31)%Z then u else (u - 2 ^ 32)%Z.
Definition atoi (s : bytes) : Z :=
  match lstrip s with
  | c :: t => to_int (clamp (if c =?c "-"%char then - digits 0 t else if c =?c "+"%char then digits 0 t else digits 0 (c :: t))%Z)
  | [] => 0%Z
  end.
(** option.c 328-346 tup_option_get_flag *)
Definition flag_of (v : bytes) : Z :=
  if bytes_eqb v (B "true") || bytes_eqb v (B "yes") then 1%Z
  else if bytes_eqb v (B "false") || bytes_eqb v (B "no") then 0%Z
  else atoi v.
(** updater.c 148, 178-185: the number of jobs; MAX_JOBS is 65535 (53). *)
Definition num_jobs (v : bytes) : Z := Z.min 65535 (Z.max 1 (atoi v)).
