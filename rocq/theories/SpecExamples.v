(** Specification: what the arithmetic example grammars mean, written by hand
    without left recursion.  Nonterminals are named by the rule functions of
    the generated crates; nothing of the implementation model is used. *)
From Verif Require Import SpecPeg ExampleTables.
From stdpp Require Import base list option numbers.
From Coq Require Import NArith.
Local Open Scope N_scope.
Local Notation "a ⋅ b" := (PSeq a b) (at level 40, left associativity).
Local Notation "a ∕ b" := (PAlt a b) (at level 45, left associativity).
Local Notation "e ⋆" := (PStar e) (at level 30).

Definition grammar_list (l : list (N * pexp)) : pgrammar := fun A =>
  match List.find (fun x => fst x =? A) l with Some (_, e) => Some e | None => None end.

(** Characters: '(' 40, ')' 41, '*' 42, '+' 43, '-' 45, '.' 46, '/' 47, '0' 48,
    '1' 49, '9' 57, 'E' 69, '^' 94, 'e' 101. *)

(** examples/example_1: expr <- integer ('+' integer / '-' integer)* *)
Definition s1_expr := PRef (Some ex1_R_Expr) ex1_f_expr.
Definition s1_integer := PRef (Some ex1_R_Integer) ex1_f_integer.
Definition s1_onenine := PRef None ex1_f_onenine.
Definition s1_digit := PRef None ex1_f_digit.
Definition s1_spec : pgrammar := grammar_list
  [(ex1_f_grammar, s1_expr);
   (ex1_f_expr, s1_integer ⋅ (PChar 43 ⋅ s1_integer ∕ PChar 45 ⋅ s1_integer)⋆);
   (ex1_f_integer, s1_onenine ⋅ s1_digit⋆);
   (ex1_f_onenine, PRange 49 57);
   (ex1_f_digit, PRange 48 57);
   (* the two alternatives, as rules of their own *)
   (ex1_f_addition, s1_expr ⋅ PChar 43 ⋅ s1_integer);
   (ex1_f_subtraction, s1_expr ⋅ PChar 45 ⋅ s1_integer)].

(** examples/example_3_basic_maths *)
Definition s3_expr := PRef (Some ex3_R_Expr) ex3_f_expr.
Definition s3_term := PRef (Some ex3_R_Term) ex3_f_term.
Definition s3_factor := PRef (Some ex3_R_Factor) ex3_f_factor.
Definition s3_parentheses := PRef (Some ex3_R_Parentheses) ex3_f_parentheses.
Definition s3_number := PRef (Some ex3_R_Number) ex3_f_number.
Definition s3_integer := PRef (Some ex3_R_Integer) ex3_f_integer.
Definition s3_fraction := PRef (Some ex3_R_Fraction) ex3_f_fraction.
Definition s3_exponent := PRef (Some ex3_R_Exponent) ex3_f_exponent.
Definition s3_sign := PRef (Some ex3_R_Sign) ex3_f_sign.
Definition s3_onenine := PRef None ex3_f_onenine.
Definition s3_digit := PRef None ex3_f_digit.
Definition s3_spec : pgrammar := grammar_list
  [(ex3_f_grammar, s3_expr);
   (ex3_f_expr, s3_term ⋅ (PChar 43 ⋅ s3_term ∕ PChar 45 ⋅ s3_term)⋆);
   (ex3_f_term, s3_factor ⋅ (PChar 42 ⋅ s3_factor ∕ PChar 47 ⋅ s3_factor)⋆);
   (ex3_f_factor, s3_parentheses ∕ s3_number);
   (ex3_f_parentheses, PChar 40 ⋅ s3_expr ⋅ PChar 41);
   (ex3_f_number, s3_integer ⋅ POpt s3_fraction ⋅ POpt s3_exponent);
   (ex3_f_integer, s3_sign ⋅ (s3_onenine ⋅ PPlus s3_digit ∕ s3_digit));
   (ex3_f_fraction, PChar 46 ⋅ PPlus s3_digit);
   (ex3_f_exponent, (PChar 69 ∕ PChar 101) ⋅ s3_sign ⋅ PPlus s3_digit);
   (ex3_f_sign, POpt (PChar 43 ∕ PChar 45));
   (ex3_f_onenine, PRange 49 57);
   (ex3_f_digit, PRange 48 57);
   (ex3_f_addition, s3_expr ⋅ PChar 43 ⋅ s3_term);
   (ex3_f_subtraction, s3_expr ⋅ PChar 45 ⋅ s3_term);
   (ex3_f_multiplication, s3_term ⋅ PChar 42 ⋅ s3_factor);
   (ex3_f_division, s3_term ⋅ PChar 47 ⋅ s3_factor)].

(** examples/example_4_full_maths *)
Definition s4_expr := PRef (Some ex4_R_Expr) ex4_f_expr.
Definition s4_term := PRef (Some ex4_R_Term) ex4_f_term.
Definition s4_power_expr := PRef (Some ex4_R_Power_expr) ex4_f_power_expr.
Definition s4_power := PRef (Some ex4_R_Power) ex4_f_power.
Definition s4_factor := PRef (Some ex4_R_Factor) ex4_f_factor.
Definition s4_parentheses := PRef (Some ex4_R_Parentheses) ex4_f_parentheses.
Definition s4_number := PRef (Some ex4_R_Number) ex4_f_number.
Definition s4_integer := PRef (Some ex4_R_Integer) ex4_f_integer.
Definition s4_fraction := PRef (Some ex4_R_Fraction) ex4_f_fraction.
Definition s4_exponent := PRef (Some ex4_R_Exponent) ex4_f_exponent.
Definition s4_sign := PRef (Some ex4_R_Sign) ex4_f_sign.
Definition s4_onenine := PRef None ex4_f_onenine.
Definition s4_digit := PRef None ex4_f_digit.
Definition s4_spec : pgrammar := grammar_list
  [(ex4_f_grammar, s4_expr);
   (ex4_f_expr, s4_term ⋅ (PChar 43 ⋅ s4_term ∕ PChar 45 ⋅ s4_term)⋆);
   (ex4_f_term, s4_power_expr ⋅ (PChar 42 ⋅ s4_power_expr ∕ PChar 47 ⋅ s4_power_expr)⋆);
   (ex4_f_power_expr, s4_power ∕ s4_factor);
   (ex4_f_power, s4_factor ⋅ PChar 94 ⋅ s4_power_expr);
   (ex4_f_factor, s4_parentheses ∕ s4_number);
   (ex4_f_parentheses, PChar 40 ⋅ s4_expr ⋅ PChar 41);
   (ex4_f_number, s4_integer ⋅ POpt s4_fraction ⋅ POpt s4_exponent);
   (ex4_f_integer, s4_sign ⋅ (s4_onenine ⋅ PPlus s4_digit ∕ s4_digit));
   (ex4_f_fraction, PChar 46 ⋅ PPlus s4_digit);
   (ex4_f_exponent, (PChar 69 ∕ PChar 101) ⋅ s4_sign ⋅ PPlus s4_digit);
   (ex4_f_sign, POpt (PChar 43 ∕ PChar 45));
   (ex4_f_onenine, PRange 49 57);
   (ex4_f_digit, PRange 48 57);
   (ex4_f_addition, s4_expr ⋅ PChar 43 ⋅ s4_term);
   (ex4_f_subtraction, s4_expr ⋅ PChar 45 ⋅ s4_term);
   (ex4_f_multiplication, s4_term ⋅ PChar 42 ⋅ s4_power_expr);
   (ex4_f_division, s4_term ⋅ PChar 47 ⋅ s4_power_expr)].

(** examples/example_5_lr_num: expr <- num ('-' num)* *)
Definition s5_expr := PRef (Some ex5_R_Expr) ex5_f_expr.
Definition s5_num := PRef (Some ex5_R_Num) ex5_f_num.
Definition s5_spec : pgrammar := grammar_list
  [(ex5_f_grammar, s5_expr); (ex5_f_expr, s5_num ⋅ (PChar 45 ⋅ s5_num)⋆); (ex5_f_num, PRange 48 57)].

(** examples/example_6_term_and_fact *)
Definition s6_term := PRef (Some ex6_R_Term) ex6_f_term.
Definition s6_fact := PRef (Some ex6_R_Fact) ex6_f_fact.
Definition s6_num := PRef (Some ex6_R_Num) ex6_f_num.
Definition s6_spec : pgrammar := grammar_list
  [(ex6_f_grammar, s6_term);
   (ex6_f_term, s6_fact ⋅ (PChar 43 ⋅ s6_fact ∕ PChar 45 ⋅ s6_fact)⋆);
   (ex6_f_fact, s6_num ⋅ (PChar 42 ⋅ s6_num ∕ PChar 47 ⋅ s6_num)⋆);
   (ex6_f_num, PRange 48 57)].

(** examples/example_10_basic_bench: rr <- '1' rr / '1', lr <- '1' '1'* *)
Definition s10_rr := PRef (Some ex10_R_Rr) ex10_f_rr.
Definition s10_spec : pgrammar := grammar_list
  [(ex10_f_grammar, s10_rr); (ex10_f_rr, PChar 49 ⋅ s10_rr ∕ PChar 49); (ex10_f_lr, PChar 49 ⋅ (PChar 49)⋆)].
