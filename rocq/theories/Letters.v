(** Model of the evaluator of example 2: examples/example_2/src/lib.rs:3-34.
    println! is not modelled (it has no effect on the result). *)
From Verif Require Export Programs ExampleTables.
Local Open Scope N_scope.

Section evaluate.
  Context (p : publisher).
  (** lib.rs:11-34 - evaluate_tree_kernel.  [Rules] has no other variant than
      the three, so the last case is the compiler's. *)
  Fixpoint letters_kernel (fuel : nat) (n : node) : res (list N) :=
    match fuel with
    | O => NoFuel
    | S fuel =>
      (fix go (ks : list N) (results : list N) : res (list N) :=
        match ks with
        | [] => Ok results
        | k :: ks =>
          let! child := get_node p k in
          let! result :=
            if n_rule child =? ex2_R_Grammar then letters_kernel fuel child
            else if n_rule child =? ex2_R_A then let! result := letters_kernel fuel child in Ok (result ++ [97])
            else if n_rule child =? ex2_R_B then let! result := letters_kernel fuel child in Ok (result ++ [98])
            else Panic PExplicit in
          go ks (results ++ result)
        end) (n_children n) []
    end.
End evaluate.
(** lib.rs:3-7 - evaluate_tree on the publisher of a finished parse. *)
Definition ex2_evaluate (fuel : nat) (raw : publisher) : res (list N) :=
  let! p := clear_false fuel ex2_R_Grammar raw in
  let! n := get_node p 0 in
  letters_kernel p fuel n.
(** lib.rs:44-65 - what the tests do: parse from Rules::Grammar, take the
    publisher out of the context, evaluate. *)
Definition ex2_spell (fuel : nat) (s : list N) : res (bool * N * res (list N)) :=
  let! ((b, q), st) := run_entry ex2_program tt fuel ex2_entry s in
  Ok (b, q, ex2_evaluate fuel (cx_pub (st_ctx st))).
