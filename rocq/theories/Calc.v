(** Model of the evaluators of the example crates: example_1/src/lib.rs,
    example_3_basic_maths/src/lib.rs, example_4_full_maths/src/lib.rs.
    println! is not modelled (it has no effect on the result). *)
From Coq Require Import ZArith.
From Verif Require Export Programs ExampleTables.
Local Open Scope N_scope.

(** i64 arithmetic of a debug build: overflow panics. *)
Definition i64_ok (v : Z) : bool := ((- 2 ^ 63 <=? v) && (v <? 2 ^ 63))%Z.
Definition checked (v : Z) : res Z := if i64_ok v then Ok v else Panic POverflow.
(** [lhs / rhs]: division by zero and i64::MIN / -1 panic; truncation. *)
Definition i64_div (x y : Z) : res Z := if (y =? 0)%Z then Panic POverflow else checked (Z.quot x y).
(** [rhs as u32]: truncation of the two's complement representation. *)
Definition i64_as_u32 (x : Z) : N := Z.to_N (x mod 2 ^ 32)%Z.
(** i64::pow (core::num): square and multiply; structural on the bits of the
    exponent, acc and base as in the loop of the standard library. *)
Fixpoint pow_loop (base acc : Z) (e : positive) : res Z :=
  match e with
  | xH => checked (acc * base)
  | xO e => let! b := checked (base * base) in pow_loop b acc e
  | xI e => let! a := checked (acc * base) in let! b := checked (base * base) in pow_loop b a e
  end.
Definition i64_pow (x : Z) (e : N) : res Z := match e with N0 => Ok 1%Z | Npos p => pow_loop x 1 p end.

(** str::parse::<i64> (core::num::from_str_radix): an optional sign, then at
    least one digit, each step checked; [None] is Err. *)
Definition to_digit (c : N) : option Z := if (48 <=? c) && (c <=? 57) then Some (Z.of_N c - 48)%Z else None.
Fixpoint parse_digits (neg : bool) (acc : Z) (l : list N) : option Z :=
  match l with
  | [] => Some acc
  | c :: l =>
    match to_digit c with
    | Some d =>
      let m := (acc * 10)%Z in
      if i64_ok m then
        let v := (if neg then m - d else m + d)%Z in
        if i64_ok v then parse_digits neg v l else None
      else None
    | None => None
    end
  end.
Definition parse_i64 (l : list N) : option Z :=
  match l with
  | [] => None
  | [c] => parse_digits false 0 [c]
  | c :: l' => if c =? 43 then parse_digits false 0 l' else if c =? 45 then parse_digits true 0 l' else parse_digits false 0 l
  end.
Definition expect_i64 (l : list N) : res Z := match parse_i64 l with Some v => Ok v | None => Panic PExplicit end.

(** The arms of [match child.rule]. *)
Inductive action := APass | ABinary (o : Z -> Z -> res Z) | ANumber | AUnreachable.
Notation is_one_of r l := (existsb (N.eqb r) l) (only parsing).
(** example_3_basic_maths/src/lib.rs:47-83 *)
Definition ex3_action (rule : N) : action :=
  if is_one_of rule [ex3_R_Grammar; ex3_R_Term; ex3_R_Factor; ex3_R_Expr; ex3_R_Parentheses] then APass
  else if rule =? ex3_R_Addition then ABinary (fun l r => checked (l + r))
  else if rule =? ex3_R_Subtraction then ABinary (fun l r => checked (l - r))
  else if rule =? ex3_R_Multiplication then ABinary (fun l r => checked (l * r))
  else if rule =? ex3_R_Division then ABinary i64_div
  else if rule =? ex3_R_Number then ANumber
  else AUnreachable.
(** example_4_full_maths/src/lib.rs:46-94 *)
Definition ex4_action (rule : N) : action :=
  if is_one_of rule [ex4_R_Grammar; ex4_R_Parentheses; ex4_R_Term; ex4_R_Factor; ex4_R_Expr; ex4_R_Power_expr] then APass
  else if rule =? ex4_R_Power then ABinary (fun l r => i64_pow l (i64_as_u32 r))
  else if rule =? ex4_R_Addition then ABinary (fun l r => checked (l + r))
  else if rule =? ex4_R_Subtraction then ABinary (fun l r => checked (l - r))
  else if rule =? ex4_R_Multiplication then ABinary (fun l r => checked (l * r))
  else if rule =? ex4_R_Division then ABinary i64_div
  else if rule =? ex4_R_Number then ANumber
  else AUnreachable.

Section evaluate.
  Context (act : N -> action) (r_number r_integer : N) (p : publisher) (src : list N).
  (** example_3_basic_maths/src/lib.rs:21-40, example_4_full_maths/src/lib.rs:20-39 — evaluate_number *)
  Definition evaluate_number (n : node) : res Z :=
    if negb (n_rule n =? r_number) then Panic PDebugAssert else
    match n_children n with
    | [] => Panic PDebugAssert
    | [k] =>
      let! m := get_node p k in
      if negb (n_rule m =? r_integer) then Panic PDebugAssert else
      let! l := node_get_string m src in expect_i64 l
    | _ => Panic PExplicit
    end.
  (** example_3_basic_maths/src/lib.rs:42-91, example_4_full_maths/src/lib.rs:41-102 —
      evaluate_tree_kernel, with evaluate_binary_node (lines 10-20 / 9-19) in
      the binary arm. *)
  Fixpoint evaluate_tree_kernel (fuel : nat) (n : node) : res Z :=
    match fuel with
    | O => NoFuel
    | S fuel =>
      (fix go (ks : list N) (evaluation_result : option Z) : res Z :=
        match ks with
        | [] => match evaluation_result with Some res => Ok res | None => Panic PExplicit end
        | k :: ks =>
          let! child := get_node p k in
          let! v :=
            match act (n_rule child) with
            | APass => evaluate_tree_kernel fuel child
            | ABinary o =>
              match n_children child with
              | [a; b] =>
                let! lhs := get_node p a in
                let! x := evaluate_tree_kernel fuel lhs in
                let! rhs := get_node p b in
                let! y := evaluate_tree_kernel fuel rhs in
                o x y
              | _ => Panic PDebugAssert
              end
            | ANumber => evaluate_number child
            | AUnreachable => Panic PExplicit
            end in
          go ks (Some v)
        end) (n_children n) None
    end.

  (** example_1/src/lib.rs:10-47 — evaluate_tree_kernel: the results of the
      children are summed, in a Subtraction the second one negated. *)
  Definition ex1_sum (is_sub : bool) (results : list Z) : res Z :=
    let! results :=
      if is_sub then
        match results with
        | x :: y :: l => let! y := checked (- y) in Ok (x :: y :: l)
        | _ => Panic PIndex
        end
      else Ok results in
    foldl (fun acc x => let! a := acc in checked (a + x)) (Ok 0%Z) results.
  Fixpoint ex1_kernel (fuel : nat) (n : node) : res Z :=
    match fuel with
    | O => NoFuel
    | S fuel =>
      let! results :=
        (fix go (ks : list N) : res (list Z) :=
          match ks with
          | [] => Ok []
          | k :: ks =>
            let! child := get_node p k in
            let! v := if n_rule child =? ex1_R_Integer then let! l := node_get_string child src in expect_i64 l
                      else ex1_kernel fuel child in
            let! vs := go ks in Ok (v :: vs)
          end) (n_children n) in
      ex1_sum (n_rule n =? ex1_R_Subtraction) results
    end.
End evaluate.

(** evaluate_tree (lines 4-8) on the publisher [raw] of a finished parse:
    clear_false, then the kernel at Key(0). *)
Definition evaluate_tree (grammar_rule : N) (kernel : publisher -> list N -> nat -> node -> res Z) (fuel : nat) (raw : publisher) (src : list N) : res Z :=
  let! p := clear_false fuel grammar_rule raw in
  let! n := get_node p 0 in
  kernel p src fuel n.
Definition ex1_evaluate (fuel : nat) := evaluate_tree ex1_R_Grammar ex1_kernel fuel.
Definition ex3_evaluate (fuel : nat) := evaluate_tree ex3_R_Grammar (evaluate_tree_kernel ex3_action ex3_R_Number ex3_R_Integer) fuel.
Definition ex4_evaluate (fuel : nat) := evaluate_tree ex4_R_Grammar (evaluate_tree_kernel ex4_action ex4_R_Number ex4_R_Integer) fuel.

(** What the tests of the example crates do: parse from Rules::Grammar, take
    the publisher out of the context, evaluate. *)
Definition calculate (pr : program unit) (entry : expr) (evaluate : nat -> publisher -> list N -> res Z) (fuel : nat) (s : list N) : res (bool * N * res Z) :=
  let! ((b, q), st) := run_entry pr tt fuel entry s in
  Ok (b, q, evaluate fuel (cx_pub (st_ctx st)) s).
