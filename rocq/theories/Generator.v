(** generator/src/lib.rs *)
From Verif Require Export Constructor.

(** lib.rs:14-23 — count_lines; slicing panics past the end. *)
Definition count_lines (src : list N) (start_position : N) : res N :=
  let! l := slice_bytes src 0 start_position in
  Ok (1 + N.of_nat (length (filter (fun c => c = 10) l))).

(** What generate_parser does: returns code, or prints a line number and
    returns None. *)
Inductive gen_outcome := GSyntaxError (line : N) | GCode (c : gen_code).

(** lib.rs:25-56 — generate_parser, from the file's content (reading the file
    is not modelled).  The success flag of [grammar] is ignored.  [fuel] bounds
    the parser, the tree walks and the fixpoint loops alike. *)
Definition generate_parser (fuel : nat) (ho : hash_orders) (s : list N) : res gen_outcome :=
  let! ((b, q), st) := run_entry dsl_program tt fuel (EInline dsl_f_grammar) s in
  if negb (q =? as_u32 (N.of_nat (length s))) then
    let! n := count_lines s q in Ok (GSyntaxError n)
  else
    let! p := clear_false fuel dsl_R_Grammar (cx_pub (st_ctx st)) in
    let! tree := read_tree fuel p 0 in
    let! sym := symbol_table_new s tree in
    let! lr := left_recursion_rules fuel ho s tree in
    let! code := generated_code_new fuel lr sym s tree in
    Ok (GCode code).
