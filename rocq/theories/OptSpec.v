(** What option files and arguments say. *)
From Verif Require Import Base ConfigSpec OptModel.

(** The options, what their values may be, and their defaults. *)
Inductive kind := Number | Flag | Color.
Definition allowed (k : kind) (v : bytes) : Prop :=
  match k with
  | Number => forall c, In c v -> In c (B "0123456789")
  | Flag => In v [B "0"; B "false"; B "no"; B "1"; B "true"; B "yes"]
  | Color => In v [B "never"; B "always"; B "auto"]
  end.
Definition known (m : machine) : list (bytes * kind * bytes) := [
  (B "updater.num_jobs", Number, m_cpus m); (B "updater.keep_going", Flag, B "0");
  (B "updater.full_deps", Flag, B "0"); (B "updater.warnings", Flag, B "1");
  (B "display.color", Color, B "auto"); (B "display.width", Number, m_width m);
  (B "display.progress", Flag, m_tty m); (B "display.job_numbers", Flag, B "1");
  (B "display.job_time", Flag, B "1"); (B "display.quiet", Flag, B "0");
  (B "monitor.autoupdate", Flag, B "0"); (B "monitor.autoparse", Flag, B "0");
  (B "monitor.foreground", Flag, B "0"); (B "db.sync", Flag, B "1");
  (B "graph.dirs", Flag, B "0"); (B "graph.ghosts", Flag, B "0");
  (B "graph.environment", Flag, B "0"); (B "graph.combine", Flag, B "0")].
Definition is_option (m : machine) (o : bytes) (k : kind) (d : bytes) : Prop := In (o, k, d) (known m).

(** ** Lines of an option file *)
Inductive meaning := Nothing | Heading (s : bytes) | Setting (n v : bytes) | Broken.
Definition starts_white (s : bytes) : Prop := exists c t, s = c :: t /\ white c.
(** No comment begins in s: a semicolon after white space. *)
Definition no_comment (s : bytes) : Prop := forall a c b, s = a ++ c :: ";"%char :: b -> ~ white c.
Definition trimmed (s : bytes) : Prop := ~ starts_white s /\ ~ ends_white s.
(** What may come after a value: white space, or white space and a comment. *)
Definition trailer (s : bytes) : Prop :=
  Forall white s \/ exists a b, s = a ++ ";"%char :: b /\ Forall white a /\ a <> [].
Inductive line_says : bytes -> meaning -> Prop :=
| l_blank l : Forall white l -> line_says l Nothing
| l_note i c t : Forall white i -> In c (B ";#") -> line_says (i ++ c :: t) Nothing
| l_heading i n t : Forall white i -> ~ In "]"%char n -> no_comment n -> length n < 50 -> line_says (i ++ "["%char :: n ++ "]"%char :: t) (Heading n)
| l_setting i n sp e sp' v t : Forall white i -> Forall white sp -> In e (B "=:") -> Forall white sp' -> trailer t ->
    n <> [] -> trimmed n -> no_comment n -> ~ In "="%char n -> ~ In ":"%char n -> ~ In (hd "000"%char n) (B ";#[") ->
    trimmed v -> no_comment v -> hd "000"%char v <> ";"%char -> (* "= ;x" is a comment *)
    line_says (i ++ n ++ sp ++ e :: sp' ++ v ++ t) (Setting n v)
| l_open i n : Forall white i -> ~ In "]"%char n -> line_says (i ++ "["%char :: n) Broken
| l_word i c n : Forall white i -> ~ white c -> ~ In c (B ";#[") -> ~ In "="%char (c :: n) -> ~ In ":"%char (c :: n) -> line_says (i ++ c :: n) Broken.
Definition is_line (l : bytes) : Prop := ~ In "010"%char l /\ ~ In "000"%char l /\ length l <= 198.
Inductive text_says : bytes -> list meaning -> Prop :=
| t_nil : text_says [] []
| t_last l m : is_line l -> l <> [] -> line_says l m -> text_says l [m]
| t_line l m t ms : is_line l -> line_says l m -> text_says t ms -> text_says (l ++ "010"%char :: t) (m :: ms).
Definition bom : bytes := ["239"; "187"; "191"]%char.
Definition begins_bom (f : bytes) : Prop := exists t, f = bom ++ t.
(** A file may begin with a byte order mark, which counts for the length of its first line. *)
Inductive file_says : bytes -> list meaning -> Prop :=
| f_plain f ms : text_says f ms -> ~ begins_bom f -> file_says f ms
| f_bom l r ms : text_says (l ++ r) ms -> ~ begins_bom (l ++ r) -> ~ In "010"%char l -> hd "010"%char r = "010"%char -> length l <= 195 ->
    file_says (bom ++ l ++ r) ms.

(** The settings of a file, by full name, in their order. *)
Fixpoint settings (sec : bytes) (ms : list meaning) : list (bytes * bytes) :=
  match ms with
  | [] => []
  | Nothing :: r | Broken :: r => settings sec r
  | Heading s :: r => settings s r
  | Setting n v :: r => (sec ++ "."%char :: n, v) :: settings sec r
  end.
Definition acceptable (m : machine) (l : list (bytes * bytes)) : Prop :=
  forall o v k d, In (o, v) l -> is_option m o k d -> allowed k v.
Definition last_value (l : list (bytes * bytes)) (o : bytes) : option bytes := assoc (rev l) o.
(** The settings in a file that may be missing. *)
Definition broken (f : option bytes) : Prop := exists t ms, f = Some t /\ file_says t ms /\ In Broken ms.
Definition source (f : option bytes) (l : list (bytes * bytes)) : Prop :=
  match f with None => l = [] | Some t => exists ms, file_says t ms /\ ~ In Broken ms /\ l = settings [] ms end.

(** ** Arguments *)
Inductive arg_sets : bytes -> bytes -> bytes -> Prop :=
| a_keep : arg_sets (B "--keep-going") (B "updater.keep_going") (B "1")
| a_k : arg_sets (B "-k") (B "updater.keep_going") (B "1")
| a_nokeep : arg_sets (B "--no-keep-going") (B "updater.keep_going") (B "0")
| a_jobs n : arg_sets (B "-j" ++ n) (B "updater.num_jobs") n
| a_nosync : arg_sets (B "--no-sync") (B "db.sync") (B "0")
| a_color v : allowed Color v -> arg_sets (B "--display-color=" ++ v) (B "display.color") v.
Definition bad_arg (a : bytes) : Prop :=
  (exists t, a = B "--display-color" ++ t) /\ ~ exists v, a = B "--display-color=" ++ v /\ allowed Color v.
(** What the arguments say of an option. *)
Definition args_say (argv : list bytes) (o : bytes) (r : option bytes) : Prop :=
  match r with
  | Some v => exists l a t, argv = l ++ a :: t /\ arg_sets a o v /\ forall b w, In b t -> ~ arg_sets b o w
  | None => forall b w, In b argv -> ~ arg_sets b o w
  end.

(** The first of some settings that there is. *)
Fixpoint first_of (l : list (option bytes)) (d : bytes) : bytes :=
  match l with [] => d | Some v :: _ => v | None :: r => first_of r d end.

(** The number meant by decimal digits. *)
Fixpoint decimal (s : bytes) : Z :=
  match s with [] => 0%Z | c :: t => (Z.of_nat (nat_of_ascii c - 48) * 10 ^ Z.of_nat (length t) + decimal t)%Z end.
