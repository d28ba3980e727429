(** The generated crates of the repository as programs. *)
From Coq Require Export Ascii String.
From Verif Require Export Expr DslTable ExampleTables.
Global Open Scope N_scope.

(** Rust string literals as bytes. *)
Definition bytes (s : string) : list N := map N_of_ascii (list_ascii_of_string s).

(** A crate without hooks: function [f] is the f-th function of parser.rs. *)
Definition table_program {U} (table : list expr) (grammar : N) : program U :=
  Program (fun f => table !! N.to_nat f) (fun _ _ func => func) grammar.

(** parser/src/user_state.rs — unit struct for crates without hooks. *)
(** parser/src (the grammar DSL parser) and its entry point, parse.rs:18. *)
Definition dsl_program : program unit := table_program dsl_table dsl_R_Grammar.
Definition dsl_entry : expr := EVar dsl_R_Grammar dsl_f_grammar.
(** parser/src/parse.rs:10-23 *)
Definition dsl_parse (fuel : nat) (s : list N) := parse_with dsl_program tt fuel dsl_entry s.

(** examples/example_N_*_parser/src; each crate has the same parse.rs. *)
Definition ex1_program : program unit := table_program ex1_table ex1_R_Grammar.
Definition ex2_program : program unit := table_program ex2_table ex2_R_Grammar.
Definition ex3_program : program unit := table_program ex3_table ex3_R_Grammar.
Definition ex4_program : program unit := table_program ex4_table ex4_R_Grammar.
Definition ex5_program : program unit := table_program ex5_table ex5_R_Grammar.
Definition ex6_program : program unit := table_program ex6_table ex6_R_Grammar.
Definition ex7_program : program unit := table_program ex7_table ex7_R_Grammar.
Definition ex8_program : program unit := table_program ex8_table ex8_R_Grammar.
Definition ex9_program : program unit := table_program ex9_table ex9_R_Grammar.
Definition ex10_program : program unit := table_program ex10_table ex10_R_Grammar.

Definition ex1_entry : expr := EVar ex1_R_Grammar ex1_f_grammar.
Definition ex2_entry : expr := EVar ex2_R_Grammar ex2_f_grammar.
Definition ex3_entry : expr := EVar ex3_R_Grammar ex3_f_grammar.
Definition ex4_entry : expr := EVar ex4_R_Grammar ex4_f_grammar.
Definition ex5_entry : expr := EVar ex5_R_Grammar ex5_f_grammar.
Definition ex6_entry : expr := EVar ex6_R_Grammar ex6_f_grammar.
Definition ex7_entry : expr := EVar ex7_R_Grammar ex7_f_grammar.
Definition ex8_entry : expr := EVar ex8_R_Grammar ex8_f_grammar.
Definition ex9_entry : expr := EVar ex9_R_Grammar ex9_f_grammar.
Definition ex10_entry : expr := EVar ex10_R_Grammar ex10_f_grammar.

(** examples/example_11_external_rule_call_parser: UserState(HashSet<String>)
    (user_state.rs:11) is the list of lines in insertion order; the hook
    unique_line_cache (hooked_calls.rs:9-40). [expect] on None panics. *)
Definition unique_line_cache (src : source) (func : parser (list (list N))) : parser (list (list N)) :=
  fun parent position =>
    do result <- func parent position;
    if fst result then
      (fun st =>
        let! o := get_string src position (snd result) in
        match o with
        | None => Panic PExplicit
        | Some unique_line =>
          if bool_decide (unique_line ∈ st_user st)
          then Ok ((false, position), st)
          else Ok (result, PState (st_ctx st) (st_user st ++ [unique_line]))
        end)
    else mret result.

Definition ex11_program : program (list (list N)) :=
  Program (fun f => ex11_table !! N.to_nat f)
    (fun h src func => if h =? ex11_h_unique_line_cache then unique_line_cache src func else func)
    ex11_R_Grammar.
Definition ex11_entry : expr := EVar ex11_R_Grammar ex11_f_grammar.
