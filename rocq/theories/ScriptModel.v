(** Model of what is done with the output of a run script: src/tup/parser.c:1000-1066
    exec_run_script and src/tup/server/fuse_server.c:599-653 server_run_script. What a rule does
    (parse_rule) is a parameter. The script itself, the directory list and the dependencies on the
    environment are not modelled. *)
From Verif Require Import Base ConfigModel.

(** strchr(p, '\n'): the text before the newline and that after it, or [None] if a NUL or the end
    comes first (fslurp_null puts a NUL at the end) *)
Fixpoint to_newline (r : bytes) : option (bytes * bytes) :=
  match r with
  | [] => None
  | c :: t => if c =?c newline then Some ([], t) else if c =?c nul then None else option_map (fun p => (c :: fst p, snd p)) (to_newline t)
  end.
Inductive outcome := Done | NoNewline | BadRule (n : nat) | NotRule (n : nat) | Failed | OutOfFuel.
(** How a script ends. *)
Inductive ending := Exited (status : nat) | Signalled | Abnormal.

Section Script.
Variable St : Type.
Variable parse_rule : St -> bytes -> St * bool.
(** parser.c:1032-1058: the loop; rslno is the number of the line. Each round takes a newline. *)
Fixpoint script_lines (fuel rslno : nat) (s : St) (r : bytes) : St * outcome :=
  match r with
  | [] => (s, Done)
  | c :: _ =>
      if c =?c nul then (s, Done) else
      match fuel with
      | 0 => (s, OutOfFuel)
      | S fuel =>
          match to_newline r with
          | None => (s, NoNewline)
          | Some (line, rest) =>
              match line with
              | [] => script_lines fuel (S rslno) s rest
              | c :: t =>
                  if c =?c ":"%char then
                    match parse_rule s t with
                    | (s, true) => script_lines fuel (S rslno) s rest
                    | (s, false) => (s, BadRule (S rslno))
                    end
                  else if c =?c "#"%char then script_lines fuel (S rslno) s rest
                  else (s, NotRule (S rslno))
              end
          end
      end
  end.
(** parser.c:1024-1066 with fuse_server.c:632-652: the output is only looked at if the script
    succeeds. *)
Definition exec_run_script (e : ending) (output : bytes) (s : St) : St * outcome :=
  match e with
  | Exited 0 => let r := slurp output in script_lines (S (length r)) 0 s r
  | _ => (s, Failed)
  end.
End Script.
