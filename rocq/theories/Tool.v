(** Model of the command-line tool as a whole (runner/src/main.rs, the parts of
    runner/src/data.rs that are not in Runner.v, the file reading in
    generator/src/lib.rs), and of the program it installs as main.rs
    (parser/src/sample_main.txt). *)
From Verif Require Export Runner Generator Render Publisher Expr.
Local Open Scope N_scope.

(** Path::join_path with a plain file name.
    Simplification: names that are absolute paths or contain .. are not
    considered. *)
Definition join_path (d n : list N) : list N := d ++ [47] ++ n.

(** generator/src/constructor.rs:88-91, sample_main_header: - becomes _ *)
Definition sample_main_header (name : list N) : list N :=
  bytes "use " ++ map (fun c => if c =? 45 then 95 else c) name ++ bytes "::*;" ++ [10].

(** What generator::generate_parser returned in this run for a file content:
    rules.rs and parser.rs, or None/panic.  [ho]: the iteration orders of the
    hash tables of this run, [dbg]: Debug formatting of characters.  Fuel is
    not part of the code: a run has an answer when some fuel gives it. *)
Definition generator_run (ho : hash_orders) (dbg : list N -> list N) (file : list N) (result : option (list N * list N)) : Prop :=
  match result with
  | Some (rules_rs, parser_rs) => exists fuel c, generate_parser fuel ho file = Ok (GCode c) /\
      rules_rs = rules_enum_file_content c /\ parser_rs = parser_file_content dbg c
  | None => forall fuel c, generate_parser fuel ho file <> Ok (GCode c)
  end.

Section tool.
  Context (gen : list N -> option (list N * list N)).
  (** Arguments (main.rs:8-23): the grammar file as directory and name, the
      target directory, the name of the parser, --offline; and the directories
      ./parser and ./parser/src (main.rs:51, data.rs:104).
      Simplification: canonicalize only checks existence, create_dir_all makes
      one directory, println! has no effect. *)
  Context (sd sn target name core_root core : list N) (offline : bool).
  Definition package : list N := join_path target name.
  Definition package_src : list N := join_path package (bytes "src").

  (** generator/src/lib.rs:25-26 (read_to_string panics when the file is not
      UTF-8) and runner/src/data.rs:42-121; clap's SetFalse makes the field
      [offline] the negation of the option (main.rs:22-23), which is what
      data.rs:63 tests before running cargo. *)
  Definition generate : prog :=
    Call (CRead sd sn) (fun r =>
      match r with
      | RData file =>
        if from_utf8 file then run_tool package package_src core (sample_main_header name) (negb offline) (gen file)
        else Stop Panicked
      | _ => Stop Panicked
      end).
  (** runner/src/data.rs:16-40: new, verify *)
  Definition verify_and_generate : prog :=
    Call (CIsDir core_root) (fun r => match r with RBool true => generate | _ => Stop Panicked end).
  (** runner/src/main.rs:29-62 *)
  Definition tool_main : prog :=
    Call (CExists sd sn) (fun r =>
      match r with
      | RBool true =>
        Call (CIsDir target) (fun r =>
          match r with
          | RBool true => verify_and_generate
          | _ => Call (CMkDir target) (fun r => match r with RErr => Stop Panicked | _ => verify_and_generate end)
          end)
      | _ => Stop Panicked
      end).
End tool.
(** Status of the process: main.rs:58-61 prints the error of a failed run and
    returns normally. *)
Definition exit_code (o : Runner.outcome) : N := match o with Finished | Failed => 0 | Exited => 1 | Panicked => 101 end.

(** ** The installed main.rs *)
(** What it prints, line by line. *)
Inductive out_line :=
  | OReadError | OUtf8Error
  | ONode (l : print_line)
  | OResult (b : bool) (q : N)
  | ONotToEnd (parsed total : N).
(** parser/src/sample_main.txt:14-51; [content] is what fs::read gives.  The
    result is the printed lines and the exit code. *)
Definition installed_main {U} (pr : program U) (u0 : U) (entry : expr) (fuel : nat) (content : option (list N)) : res (list out_line * N) :=
  match content with
  | None => Ok ([OReadError], 1)
  | Some s =>
    if from_utf8 s then
      let! (b, q, t) := parse_with pr u0 fuel entry s in
      let! ls := print fuel t 0 (Some true) in
      let n := N.of_nat (length s) in
      Ok (map ONode ls ++ [OResult b q] ++ (if n mod u32_modulus =? q then [] else [ONotToEnd q n]), 0)
    else Ok ([OUtf8Error], 2)
  end.
