(** What a generated script does when it is run: a small shell. *)
From Verif Require Import Base EntryModel EntrySpec ExpandModel.

(** How far the shell has read: between words, in a word, in quotes, after a
    backslash, in a comment; and how many parentheses are open. [None]: a line
    that is not used here (here-documents, backquotes, command substitution
    within double quotes, a closing parenthesis with none open, or a line
    end). *)
Inductive mode := Gap | Word | Single | Double | Escape | EscapeDouble | Comment.
Definition one_of (l : bytes) (c : ascii) : bool := existsb (Ascii.eqb c) l.
Definition quote : bytes := B """".
Definition hd_is (c : ascii) (l : bytes) : bool := match l with x :: _ => x =?c c | [] => false end.
Fixpoint read (m : mode) (depth : nat) (l : bytes) : option (mode * nat) :=
  match l with
  | [] => Some (m, depth)
  | c :: r =>
      if c =?c newline then None
      else
        match m with
        | Comment => read Comment depth r
        | Single => read (if c =?c "'"%char then Word else Single) depth r
        | Escape => read Word depth r
        | EscapeDouble => read Double depth r
        | Double =>
            if one_of quote c then read Word depth r
            else if c =?c "\"%char then read EscapeDouble depth r
            else if c =?c "`"%char then None
            else if (c =?c "$"%char) && hd_is "("%char r then None
            else read Double depth r
        | Gap | Word =>
            if c =?c "'"%char then read Single depth r
            else if one_of quote c then read Double depth r
            else if c =?c "\"%char then read Escape depth r
            else if c =?c "`"%char then None
            else if c =?c "("%char then read Gap (S depth) r
            else if c =?c ")"%char then match depth with 0 => None | S d => read Gap d r end
            else if (c =?c "<"%char) && hd_is "<"%char r then None
            else if (c =?c "#"%char) && (match m with Gap => true | _ => false end) then read Comment depth r
            else read (if one_of (B " ;&|<>	") c then Gap else Word) depth r
        end
  end.

(** [c] is complete: a following closing parenthesis is read as one. It is not
    empty, and after an opening parenthesis it does not make two of them. *)
Definition complete (c : bytes) : Prop :=
  (exists m, read Gap 0 c = Some (m, 0) /\ (m = Gap \/ m = Word)) /\
  hd_is "("%char c = false /\ existsb (fun x => negb (one_of (B " 	") x)) c = true.

(** Means itself within double quotes; is one word without quotes. A word
    that begins with a dash would be an option. *)
Definition quotable (w : bytes) : Prop :=
  ~ In newline w /\ existsb (one_of (quote ++ B "$\`")) w = false /\ hd_is "-"%char w = false.
Definition bare (w : bytes) : Prop :=
  ~ In newline w /\ existsb (one_of (quote ++ B "$\`'()<>|&;*?[]#~= 	")) w = false /\ hd_is "-"%char w = false.

(** [above T d x]: [x] is [d] or a directory [d] is in. *)
Inductive above (T : tree) : nat -> nat -> Prop :=
| ab_self d : above T d d
| ab_up d p x : parent T d = Some p -> above T p x -> above T d x.

(** What there is: what there was, and what mkdir -p made. *)
Definition present (T : tree) (there : nat -> Prop) (made : list nat) (x : nat) : Prop :=
  there x \/ exists d, In d made /\ above T d x.

(** A directory is made; the text [c] is run by a shell that is in [d]. *)
Inductive act := Made (d : nat) | Ran (d : nat) (c : bytes).

(** [run T there made d ls acts]: a shell in [d] that reads the lines [ls] does
    [acts], if all it runs succeeds. Entries of the tree stand for the places
    on the disk; CDPATH is not set. What the assignment and the commands do is left open. *)
Inductive run (T : tree) (there : nat -> Prop) : list nat -> nat -> list bytes -> list act -> Prop :=
| r_end made d : run T there made d [] []
| r_comment made d x ls acts : run T there made d ls acts -> run T there made d (("#"%char :: x) :: ls) acts
| r_export made d x ls acts : run T there made d ls acts -> run T there made d ((B "export tup_vardict=" ++ x) :: ls) acts
| r_cd made d w e ls acts : quotable w -> leads T d w e -> present T there made e ->
    run T there made e ls acts -> run T there made d ((B "cd """ ++ w ++ B """") :: ls) acts
| r_mkdir made d w e ls acts : quotable w -> leads T d w e ->
    run T there (e :: made) d ls acts -> run T there made d ((B "mkdir -p """ ++ w ++ B """") :: ls) (Made e :: acts)
| r_mkdir_bare made d w e ls acts : bare w -> leads T d w e ->
    run T there (e :: made) d ls acts -> run T there made d ((B "mkdir -p " ++ w ++ B "/") :: ls) (Made e :: acts)
| r_command made d c ls acts : complete c ->
    run T there made d ls acts -> run T there made d ((B "(" ++ c ++ B ")") :: ls) (Ran d c :: acts).

(** [a] is before [b] in [l]. *)
Definition earlier {A} (l : list A) (a b : A) : Prop := exists l1 l2 l3, l = l1 ++ a :: l2 ++ b :: l3.

(** The project a script is made for: [nodes] are the commands and files of the
    graph, the directories that are not generated exist, every command has a
    directory that exists, and the names of directories are harmless. *)
Record project (T : tree) (top : nat) (member : nat -> Prop) (is_command is_output gendir : nat -> Prop) (srcdir : nat -> nat)
    (there : nat -> Prop) (nodes : list nat) : Prop := {
  pr_tree : directory_tree T top member;
  pr_top : member top /\ ~ gendir top;
  pr_names : forall d, member d -> quotable (name T d);
  pr_there : forall d, member d -> ~ gendir d -> there d;
  pr_command : forall c, In c nodes -> is_command c -> exists p, parent T c = Some p /\ member (srcdir p) /\ ~ gendir (srcdir p);
  pr_output : forall f, In f nodes -> is_output f -> exists p, parent T f = Some p /\ member p }.
