(** Generated by tools/transcribe.py from the generated parsers in /repo: each
    rule function's closures unfolded into one expression. *)
From Verif Require Export Expr.

(** ** examples/example_10_basic_bench_parser/src/parser.rs, examples/example_10_basic_bench_parser/src/rules.rs *)
(** examples/example_10_basic_bench_parser/src/rules.rs — enum Rules discriminants. *)
Definition ex10_R_Grammar : N := 0.
Definition ex10_R_Lr : N := 1.
Definition ex10_R_Rr : N := 2.
(** examples/example_10_basic_bench_parser/src/rules.rs — RULES_SIZE. *)
Definition ex10_RULES_SIZE : N := 3.
(** Numbering of the functions of examples/example_10_basic_bench_parser/src/parser.rs, in file order. *)
Definition ex10_f_rr : N := 0.
Definition ex10_f_lr : N := 1.
Definition ex10_f_grammar : N := 2.
(** examples/example_10_basic_bench_parser/src/parser.rs:7-23 *)
Definition ex10_body_rr : expr :=
  EChoice (ESub (ESeq (ETerminal 49) (EVar ex10_R_Rr ex10_f_rr))) (ETerminal 49).
(** examples/example_10_basic_bench_parser/src/parser.rs:25-43 *)
Definition ex10_body_lr : expr :=
  EChoice (ESub (ESeq (ELR [ex10_R_Lr] ex10_R_Lr ex10_f_lr) (ETerminal 49))) (ETerminal 49).
(** examples/example_10_basic_bench_parser/src/parser.rs:45-56 *)
Definition ex10_body_grammar : expr :=
  EVar ex10_R_Rr ex10_f_rr.
Definition ex10_table : list expr :=
  [ex10_body_rr;
   ex10_body_lr;
   ex10_body_grammar].

(** ** examples/example_11_external_rule_call_parser/src/parser.rs, examples/example_11_external_rule_call_parser/src/rules.rs *)
(** examples/example_11_external_rule_call_parser/src/rules.rs — enum Rules discriminants. *)
Definition ex11_R_Grammar : N := 0.
Definition ex11_R_Unique_line_matcher : N := 1.
(** examples/example_11_external_rule_call_parser/src/rules.rs — RULES_SIZE. *)
Definition ex11_RULES_SIZE : N := 2.
(** Numbering of the functions of examples/example_11_external_rule_call_parser/src/parser.rs, in file order. *)
Definition ex11_f_alphabet_lower : N := 0.
Definition ex11_f_unique_line_matcher : N := 1.
Definition ex11_f_grammar : N := 2.
Definition ex11_h_unique_line_cache : N := 0.
(** examples/example_11_external_rule_call_parser/src/parser.rs:8-17 *)
Definition ex11_body_alphabet_lower : expr :=
  ERange 97 122.
(** examples/example_11_external_rule_call_parser/src/parser.rs:19-40 *)
Definition ex11_body_unique_line_matcher : expr :=
  EHook ex11_h_unique_line_cache (ESub (ESeq (EPlus (ESub (EChoice (EInline ex11_f_alphabet_lower) (ETerminal 32)))) (ETerminal 10))).
(** examples/example_11_external_rule_call_parser/src/parser.rs:42-58 *)
Definition ex11_body_grammar : expr :=
  EPlus (ESub (EVar ex11_R_Unique_line_matcher ex11_f_unique_line_matcher)).
Definition ex11_table : list expr :=
  [ex11_body_alphabet_lower;
   ex11_body_unique_line_matcher;
   ex11_body_grammar].

(** ** examples/example_1_parser/src/parser.rs, examples/example_1_parser/src/rules.rs *)
(** examples/example_1_parser/src/rules.rs — enum Rules discriminants. *)
Definition ex1_R_Grammar : N := 0.
Definition ex1_R_Addition : N := 1.
Definition ex1_R_Expr : N := 2.
Definition ex1_R_Integer : N := 3.
Definition ex1_R_Subtraction : N := 4.
(** examples/example_1_parser/src/rules.rs — RULES_SIZE. *)
Definition ex1_RULES_SIZE : N := 5.
(** Numbering of the functions of examples/example_1_parser/src/parser.rs, in file order. *)
Definition ex1_f_expr : N := 0.
Definition ex1_f_addition : N := 1.
Definition ex1_f_subtraction : N := 2.
Definition ex1_f_onenine : N := 3.
Definition ex1_f_digit : N := 4.
Definition ex1_f_integer : N := 5.
Definition ex1_f_grammar : N := 6.
(** examples/example_1_parser/src/parser.rs:7-34 *)
Definition ex1_body_expr : expr :=
  EChoice (EChoice (ELR [ex1_R_Addition; ex1_R_Expr; ex1_R_Subtraction] ex1_R_Addition ex1_f_addition) (ELR [ex1_R_Addition; ex1_R_Expr; ex1_R_Subtraction] ex1_R_Subtraction ex1_f_subtraction)) (EVar ex1_R_Integer ex1_f_integer).
(** examples/example_1_parser/src/parser.rs:36-51 *)
Definition ex1_body_addition : expr :=
  ESeq (ESeq (ELR [ex1_R_Addition; ex1_R_Expr; ex1_R_Subtraction] ex1_R_Expr ex1_f_expr) (ETerminal 43)) (EVar ex1_R_Integer ex1_f_integer).
(** examples/example_1_parser/src/parser.rs:53-68 *)
Definition ex1_body_subtraction : expr :=
  ESeq (ESeq (ELR [ex1_R_Addition; ex1_R_Expr; ex1_R_Subtraction] ex1_R_Expr ex1_f_expr) (ETerminal 45)) (EVar ex1_R_Integer ex1_f_integer).
(** examples/example_1_parser/src/parser.rs:70-79 *)
Definition ex1_body_onenine : expr :=
  ERange 49 57.
(** examples/example_1_parser/src/parser.rs:81-90 *)
Definition ex1_body_digit : expr :=
  ERange 48 57.
(** examples/example_1_parser/src/parser.rs:92-108 *)
Definition ex1_body_integer : expr :=
  ESeq (EInline ex1_f_onenine) (EStar (EInline ex1_f_digit)).
(** examples/example_1_parser/src/parser.rs:110-125 *)
Definition ex1_body_grammar : expr :=
  ELR [ex1_R_Addition; ex1_R_Expr; ex1_R_Subtraction] ex1_R_Expr ex1_f_expr.
Definition ex1_table : list expr :=
  [ex1_body_expr;
   ex1_body_addition;
   ex1_body_subtraction;
   ex1_body_onenine;
   ex1_body_digit;
   ex1_body_integer;
   ex1_body_grammar].

(** ** examples/example_2_parser/src/parser.rs, examples/example_2_parser/src/rules.rs *)
(** examples/example_2_parser/src/rules.rs — enum Rules discriminants. *)
Definition ex2_R_A : N := 0.
Definition ex2_R_B : N := 1.
Definition ex2_R_Grammar : N := 2.
(** examples/example_2_parser/src/rules.rs — RULES_SIZE. *)
Definition ex2_RULES_SIZE : N := 3.
(** Numbering of the functions of examples/example_2_parser/src/parser.rs, in file order. *)
Definition ex2_f_a : N := 0.
Definition ex2_f_b : N := 1.
Definition ex2_f_grammar : N := 2.
(** examples/example_2_parser/src/parser.rs:7-23 *)
Definition ex2_body_a : expr :=
  EChoice (ESub (ESeq (ELR [ex2_R_A; ex2_R_B] ex2_R_B ex2_f_b) (ETerminal 97))) (ETerminal 97).
(** examples/example_2_parser/src/parser.rs:25-41 *)
Definition ex2_body_b : expr :=
  EChoice (ESub (ESeq (ELR [ex2_R_A; ex2_R_B] ex2_R_A ex2_f_a) (ETerminal 98))) (ETerminal 98).
(** examples/example_2_parser/src/parser.rs:43-54 *)
Definition ex2_body_grammar : expr :=
  ELR [ex2_R_A; ex2_R_B] ex2_R_A ex2_f_a.
Definition ex2_table : list expr :=
  [ex2_body_a;
   ex2_body_b;
   ex2_body_grammar].

(** ** examples/example_3_basic_maths_parser/src/parser.rs, examples/example_3_basic_maths_parser/src/rules.rs *)
(** examples/example_3_basic_maths_parser/src/rules.rs — enum Rules discriminants. *)
Definition ex3_R_Grammar : N := 0.
Definition ex3_R_Addition : N := 1.
Definition ex3_R_Division : N := 2.
Definition ex3_R_Exponent : N := 3.
Definition ex3_R_Expr : N := 4.
Definition ex3_R_Factor : N := 5.
Definition ex3_R_Fraction : N := 6.
Definition ex3_R_Integer : N := 7.
Definition ex3_R_Multiplication : N := 8.
Definition ex3_R_Number : N := 9.
Definition ex3_R_Parentheses : N := 10.
Definition ex3_R_Sign : N := 11.
Definition ex3_R_Subtraction : N := 12.
Definition ex3_R_Term : N := 13.
(** examples/example_3_basic_maths_parser/src/rules.rs — RULES_SIZE. *)
Definition ex3_RULES_SIZE : N := 14.
(** Numbering of the functions of examples/example_3_basic_maths_parser/src/parser.rs, in file order. *)
Definition ex3_f_onenine : N := 0.
Definition ex3_f_digit : N := 1.
Definition ex3_f_integer : N := 2.
Definition ex3_f_number : N := 3.
Definition ex3_f_fraction : N := 4.
Definition ex3_f_exponent : N := 5.
Definition ex3_f_sign : N := 6.
Definition ex3_f_addition : N := 7.
Definition ex3_f_subtraction : N := 8.
Definition ex3_f_multiplication : N := 9.
Definition ex3_f_division : N := 10.
Definition ex3_f_parentheses : N := 11.
Definition ex3_f_expr : N := 12.
Definition ex3_f_term : N := 13.
Definition ex3_f_factor : N := 14.
Definition ex3_f_grammar : N := 15.
(** examples/example_3_basic_maths_parser/src/parser.rs:7-16 *)
Definition ex3_body_onenine : expr :=
  ERange 49 57.
(** examples/example_3_basic_maths_parser/src/parser.rs:18-27 *)
Definition ex3_body_digit : expr :=
  ERange 48 57.
(** examples/example_3_basic_maths_parser/src/parser.rs:29-53 *)
Definition ex3_body_integer : expr :=
  ESeq (EVar ex3_R_Sign ex3_f_sign) (ESub (EChoice (ESub (ESeq (EInline ex3_f_onenine) (EPlus (EInline ex3_f_digit)))) (EInline ex3_f_digit))).
(** examples/example_3_basic_maths_parser/src/parser.rs:55-70 *)
Definition ex3_body_number : expr :=
  ESeq (ESeq (EVar ex3_R_Integer ex3_f_integer) (EOpt (EVar ex3_R_Fraction ex3_f_fraction))) (EOpt (EVar ex3_R_Exponent ex3_f_exponent)).
(** examples/example_3_basic_maths_parser/src/parser.rs:72-87 *)
Definition ex3_body_fraction : expr :=
  ESub (ESeq (ETerminal 46) (EPlus (EInline ex3_f_digit))).
(** examples/example_3_basic_maths_parser/src/parser.rs:89-109 *)
Definition ex3_body_exponent : expr :=
  ESub (ESeq (ESeq (ESub (EChoice (ETerminal 69) (ETerminal 101))) (EVar ex3_R_Sign ex3_f_sign)) (EPlus (EInline ex3_f_digit))).
(** examples/example_3_basic_maths_parser/src/parser.rs:111-124 *)
Definition ex3_body_sign : expr :=
  EOpt (ESub (EChoice (ETerminal 43) (ETerminal 45))).
(** examples/example_3_basic_maths_parser/src/parser.rs:126-143 *)
Definition ex3_body_addition : expr :=
  ESeq (ESeq (ELR [ex3_R_Addition; ex3_R_Expr; ex3_R_Subtraction] ex3_R_Expr ex3_f_expr) (ETerminal 43)) (ELR [ex3_R_Division; ex3_R_Multiplication; ex3_R_Term] ex3_R_Term ex3_f_term).
(** examples/example_3_basic_maths_parser/src/parser.rs:145-162 *)
Definition ex3_body_subtraction : expr :=
  ESeq (ESeq (ELR [ex3_R_Addition; ex3_R_Expr; ex3_R_Subtraction] ex3_R_Expr ex3_f_expr) (ETerminal 45)) (ELR [ex3_R_Division; ex3_R_Multiplication; ex3_R_Term] ex3_R_Term ex3_f_term).
(** examples/example_3_basic_maths_parser/src/parser.rs:164-179 *)
Definition ex3_body_multiplication : expr :=
  ESeq (ESeq (ELR [ex3_R_Division; ex3_R_Multiplication; ex3_R_Term] ex3_R_Term ex3_f_term) (ETerminal 42)) (EVar ex3_R_Factor ex3_f_factor).
(** examples/example_3_basic_maths_parser/src/parser.rs:181-196 *)
Definition ex3_body_division : expr :=
  ESeq (ESeq (ELR [ex3_R_Division; ex3_R_Multiplication; ex3_R_Term] ex3_R_Term ex3_f_term) (ETerminal 47)) (EVar ex3_R_Factor ex3_f_factor).
(** examples/example_3_basic_maths_parser/src/parser.rs:198-213 *)
Definition ex3_body_parentheses : expr :=
  ESeq (ESeq (ETerminal 40) (ELR [ex3_R_Addition; ex3_R_Expr; ex3_R_Subtraction] ex3_R_Expr ex3_f_expr)) (ETerminal 41).
(** examples/example_3_basic_maths_parser/src/parser.rs:215-244 *)
Definition ex3_body_expr : expr :=
  EChoice (EChoice (ELR [ex3_R_Addition; ex3_R_Expr; ex3_R_Subtraction] ex3_R_Addition ex3_f_addition) (ELR [ex3_R_Addition; ex3_R_Expr; ex3_R_Subtraction] ex3_R_Subtraction ex3_f_subtraction)) (ELR [ex3_R_Division; ex3_R_Multiplication; ex3_R_Term] ex3_R_Term ex3_f_term).
(** examples/example_3_basic_maths_parser/src/parser.rs:246-273 *)
Definition ex3_body_term : expr :=
  EChoice (EChoice (ELR [ex3_R_Division; ex3_R_Multiplication; ex3_R_Term] ex3_R_Multiplication ex3_f_multiplication) (ELR [ex3_R_Division; ex3_R_Multiplication; ex3_R_Term] ex3_R_Division ex3_f_division)) (EVar ex3_R_Factor ex3_f_factor).
(** examples/example_3_basic_maths_parser/src/parser.rs:275-286 *)
Definition ex3_body_factor : expr :=
  EChoice (EVar ex3_R_Parentheses ex3_f_parentheses) (EVar ex3_R_Number ex3_f_number).
(** examples/example_3_basic_maths_parser/src/parser.rs:288-299 *)
Definition ex3_body_grammar : expr :=
  ELR [ex3_R_Addition; ex3_R_Expr; ex3_R_Subtraction] ex3_R_Expr ex3_f_expr.
Definition ex3_table : list expr :=
  [ex3_body_onenine;
   ex3_body_digit;
   ex3_body_integer;
   ex3_body_number;
   ex3_body_fraction;
   ex3_body_exponent;
   ex3_body_sign;
   ex3_body_addition;
   ex3_body_subtraction;
   ex3_body_multiplication;
   ex3_body_division;
   ex3_body_parentheses;
   ex3_body_expr;
   ex3_body_term;
   ex3_body_factor;
   ex3_body_grammar].

(** ** examples/example_4_full_maths_parser/src/parser.rs, examples/example_4_full_maths_parser/src/rules.rs *)
(** examples/example_4_full_maths_parser/src/rules.rs — enum Rules discriminants. *)
Definition ex4_R_Grammar : N := 0.
Definition ex4_R_Addition : N := 1.
Definition ex4_R_Division : N := 2.
Definition ex4_R_Exponent : N := 3.
Definition ex4_R_Expr : N := 4.
Definition ex4_R_Factor : N := 5.
Definition ex4_R_Fraction : N := 6.
Definition ex4_R_Integer : N := 7.
Definition ex4_R_Multiplication : N := 8.
Definition ex4_R_Number : N := 9.
Definition ex4_R_Parentheses : N := 10.
Definition ex4_R_Power : N := 11.
Definition ex4_R_Power_expr : N := 12.
Definition ex4_R_Sign : N := 13.
Definition ex4_R_Subtraction : N := 14.
Definition ex4_R_Term : N := 15.
(** examples/example_4_full_maths_parser/src/rules.rs — RULES_SIZE. *)
Definition ex4_RULES_SIZE : N := 16.
(** Numbering of the functions of examples/example_4_full_maths_parser/src/parser.rs, in file order. *)
Definition ex4_f_onenine : N := 0.
Definition ex4_f_digit : N := 1.
Definition ex4_f_integer : N := 2.
Definition ex4_f_number : N := 3.
Definition ex4_f_fraction : N := 4.
Definition ex4_f_exponent : N := 5.
Definition ex4_f_sign : N := 6.
Definition ex4_f_addition : N := 7.
Definition ex4_f_subtraction : N := 8.
Definition ex4_f_multiplication : N := 9.
Definition ex4_f_division : N := 10.
Definition ex4_f_parentheses : N := 11.
Definition ex4_f_power : N := 12.
Definition ex4_f_expr : N := 13.
Definition ex4_f_term : N := 14.
Definition ex4_f_power_expr : N := 15.
Definition ex4_f_factor : N := 16.
Definition ex4_f_grammar : N := 17.
(** examples/example_4_full_maths_parser/src/parser.rs:7-16 *)
Definition ex4_body_onenine : expr :=
  ERange 49 57.
(** examples/example_4_full_maths_parser/src/parser.rs:18-27 *)
Definition ex4_body_digit : expr :=
  ERange 48 57.
(** examples/example_4_full_maths_parser/src/parser.rs:29-53 *)
Definition ex4_body_integer : expr :=
  ESeq (EVar ex4_R_Sign ex4_f_sign) (ESub (EChoice (ESub (ESeq (EInline ex4_f_onenine) (EPlus (EInline ex4_f_digit)))) (EInline ex4_f_digit))).
(** examples/example_4_full_maths_parser/src/parser.rs:55-70 *)
Definition ex4_body_number : expr :=
  ESeq (ESeq (EVar ex4_R_Integer ex4_f_integer) (EOpt (EVar ex4_R_Fraction ex4_f_fraction))) (EOpt (EVar ex4_R_Exponent ex4_f_exponent)).
(** examples/example_4_full_maths_parser/src/parser.rs:72-87 *)
Definition ex4_body_fraction : expr :=
  ESub (ESeq (ETerminal 46) (EPlus (EInline ex4_f_digit))).
(** examples/example_4_full_maths_parser/src/parser.rs:89-109 *)
Definition ex4_body_exponent : expr :=
  ESub (ESeq (ESeq (ESub (EChoice (ETerminal 69) (ETerminal 101))) (EVar ex4_R_Sign ex4_f_sign)) (EPlus (EInline ex4_f_digit))).
(** examples/example_4_full_maths_parser/src/parser.rs:111-124 *)
Definition ex4_body_sign : expr :=
  EOpt (ESub (EChoice (ETerminal 43) (ETerminal 45))).
(** examples/example_4_full_maths_parser/src/parser.rs:126-143 *)
Definition ex4_body_addition : expr :=
  ESeq (ESeq (ELR [ex4_R_Addition; ex4_R_Expr; ex4_R_Subtraction] ex4_R_Expr ex4_f_expr) (ETerminal 43)) (ELR [ex4_R_Division; ex4_R_Multiplication; ex4_R_Term] ex4_R_Term ex4_f_term).
(** examples/example_4_full_maths_parser/src/parser.rs:145-162 *)
Definition ex4_body_subtraction : expr :=
  ESeq (ESeq (ELR [ex4_R_Addition; ex4_R_Expr; ex4_R_Subtraction] ex4_R_Expr ex4_f_expr) (ETerminal 45)) (ELR [ex4_R_Division; ex4_R_Multiplication; ex4_R_Term] ex4_R_Term ex4_f_term).
(** examples/example_4_full_maths_parser/src/parser.rs:164-179 *)
Definition ex4_body_multiplication : expr :=
  ESeq (ESeq (ELR [ex4_R_Division; ex4_R_Multiplication; ex4_R_Term] ex4_R_Term ex4_f_term) (ETerminal 42)) (EVar ex4_R_Power_expr ex4_f_power_expr).
(** examples/example_4_full_maths_parser/src/parser.rs:181-196 *)
Definition ex4_body_division : expr :=
  ESeq (ESeq (ELR [ex4_R_Division; ex4_R_Multiplication; ex4_R_Term] ex4_R_Term ex4_f_term) (ETerminal 47)) (EVar ex4_R_Power_expr ex4_f_power_expr).
(** examples/example_4_full_maths_parser/src/parser.rs:198-213 *)
Definition ex4_body_parentheses : expr :=
  ESeq (ESeq (ETerminal 40) (ELR [ex4_R_Addition; ex4_R_Expr; ex4_R_Subtraction] ex4_R_Expr ex4_f_expr)) (ETerminal 41).
(** examples/example_4_full_maths_parser/src/parser.rs:215-228 *)
Definition ex4_body_power : expr :=
  ESeq (ESeq (EVar ex4_R_Factor ex4_f_factor) (ETerminal 94)) (EVar ex4_R_Power_expr ex4_f_power_expr).
(** examples/example_4_full_maths_parser/src/parser.rs:230-259 *)
Definition ex4_body_expr : expr :=
  EChoice (EChoice (ELR [ex4_R_Addition; ex4_R_Expr; ex4_R_Subtraction] ex4_R_Addition ex4_f_addition) (ELR [ex4_R_Addition; ex4_R_Expr; ex4_R_Subtraction] ex4_R_Subtraction ex4_f_subtraction)) (ELR [ex4_R_Division; ex4_R_Multiplication; ex4_R_Term] ex4_R_Term ex4_f_term).
(** examples/example_4_full_maths_parser/src/parser.rs:261-288 *)
Definition ex4_body_term : expr :=
  EChoice (EChoice (ELR [ex4_R_Division; ex4_R_Multiplication; ex4_R_Term] ex4_R_Multiplication ex4_f_multiplication) (ELR [ex4_R_Division; ex4_R_Multiplication; ex4_R_Term] ex4_R_Division ex4_f_division)) (EVar ex4_R_Power_expr ex4_f_power_expr).
(** examples/example_4_full_maths_parser/src/parser.rs:290-301 *)
Definition ex4_body_power_expr : expr :=
  EChoice (EVar ex4_R_Power ex4_f_power) (EVar ex4_R_Factor ex4_f_factor).
(** examples/example_4_full_maths_parser/src/parser.rs:303-314 *)
Definition ex4_body_factor : expr :=
  EChoice (EVar ex4_R_Parentheses ex4_f_parentheses) (EVar ex4_R_Number ex4_f_number).
(** examples/example_4_full_maths_parser/src/parser.rs:316-327 *)
Definition ex4_body_grammar : expr :=
  ELR [ex4_R_Addition; ex4_R_Expr; ex4_R_Subtraction] ex4_R_Expr ex4_f_expr.
Definition ex4_table : list expr :=
  [ex4_body_onenine;
   ex4_body_digit;
   ex4_body_integer;
   ex4_body_number;
   ex4_body_fraction;
   ex4_body_exponent;
   ex4_body_sign;
   ex4_body_addition;
   ex4_body_subtraction;
   ex4_body_multiplication;
   ex4_body_division;
   ex4_body_parentheses;
   ex4_body_power;
   ex4_body_expr;
   ex4_body_term;
   ex4_body_power_expr;
   ex4_body_factor;
   ex4_body_grammar].

(** ** examples/example_5_lr_num_parser/src/parser.rs, examples/example_5_lr_num_parser/src/rules.rs *)
(** examples/example_5_lr_num_parser/src/rules.rs — enum Rules discriminants. *)
Definition ex5_R_Grammar : N := 0.
Definition ex5_R_Expr : N := 1.
Definition ex5_R_Num : N := 2.
(** examples/example_5_lr_num_parser/src/rules.rs — RULES_SIZE. *)
Definition ex5_RULES_SIZE : N := 3.
(** Numbering of the functions of examples/example_5_lr_num_parser/src/parser.rs, in file order. *)
Definition ex5_f_num : N := 0.
Definition ex5_f_expr : N := 1.
Definition ex5_f_grammar : N := 2.
(** examples/example_5_lr_num_parser/src/parser.rs:7-16 *)
Definition ex5_body_num : expr :=
  ERange 48 57.
(** examples/example_5_lr_num_parser/src/parser.rs:18-38 *)
Definition ex5_body_expr : expr :=
  EChoice (ESub (ESeq (ESeq (ELR [ex5_R_Expr] ex5_R_Expr ex5_f_expr) (ETerminal 45)) (EVar ex5_R_Num ex5_f_num))) (EVar ex5_R_Num ex5_f_num).
(** examples/example_5_lr_num_parser/src/parser.rs:40-51 *)
Definition ex5_body_grammar : expr :=
  ELR [ex5_R_Expr] ex5_R_Expr ex5_f_expr.
Definition ex5_table : list expr :=
  [ex5_body_num;
   ex5_body_expr;
   ex5_body_grammar].

(** ** examples/example_6_term_and_fact_parser/src/parser.rs, examples/example_6_term_and_fact_parser/src/rules.rs *)
(** examples/example_6_term_and_fact_parser/src/rules.rs — enum Rules discriminants. *)
Definition ex6_R_Grammar : N := 0.
Definition ex6_R_Fact : N := 1.
Definition ex6_R_Num : N := 2.
Definition ex6_R_Term : N := 3.
(** examples/example_6_term_and_fact_parser/src/rules.rs — RULES_SIZE. *)
Definition ex6_RULES_SIZE : N := 4.
(** Numbering of the functions of examples/example_6_term_and_fact_parser/src/parser.rs, in file order. *)
Definition ex6_f_num : N := 0.
Definition ex6_f_term : N := 1.
Definition ex6_f_fact : N := 2.
Definition ex6_f_grammar : N := 3.
(** examples/example_6_term_and_fact_parser/src/parser.rs:7-16 *)
Definition ex6_body_num : expr :=
  ERange 48 57.
(** examples/example_6_term_and_fact_parser/src/parser.rs:18-51 *)
Definition ex6_body_term : expr :=
  EChoice (EChoice (ESub (ESeq (ESeq (ELR [ex6_R_Term] ex6_R_Term ex6_f_term) (ETerminal 43)) (ELR [ex6_R_Fact] ex6_R_Fact ex6_f_fact))) (ESub (ESeq (ESeq (ELR [ex6_R_Term] ex6_R_Term ex6_f_term) (ETerminal 45)) (ELR [ex6_R_Fact] ex6_R_Fact ex6_f_fact)))) (ELR [ex6_R_Fact] ex6_R_Fact ex6_f_fact).
(** examples/example_6_term_and_fact_parser/src/parser.rs:53-80 *)
Definition ex6_body_fact : expr :=
  EChoice (EChoice (ESub (ESeq (ESeq (ELR [ex6_R_Fact] ex6_R_Fact ex6_f_fact) (ETerminal 42)) (EVar ex6_R_Num ex6_f_num))) (ESub (ESeq (ESeq (ELR [ex6_R_Fact] ex6_R_Fact ex6_f_fact) (ETerminal 47)) (EVar ex6_R_Num ex6_f_num)))) (EVar ex6_R_Num ex6_f_num).
(** examples/example_6_term_and_fact_parser/src/parser.rs:82-93 *)
Definition ex6_body_grammar : expr :=
  ELR [ex6_R_Term] ex6_R_Term ex6_f_term.
Definition ex6_table : list expr :=
  [ex6_body_num;
   ex6_body_term;
   ex6_body_fact;
   ex6_body_grammar].

(** ** examples/example_7_indirect_lr_num_parser/src/parser.rs, examples/example_7_indirect_lr_num_parser/src/rules.rs *)
(** examples/example_7_indirect_lr_num_parser/src/rules.rs — enum Rules discriminants. *)
Definition ex7_R_Grammar : N := 0.
Definition ex7_R_Expr : N := 1.
Definition ex7_R_Intermediate : N := 2.
Definition ex7_R_Num : N := 3.
(** examples/example_7_indirect_lr_num_parser/src/rules.rs — RULES_SIZE. *)
Definition ex7_RULES_SIZE : N := 4.
(** Numbering of the functions of examples/example_7_indirect_lr_num_parser/src/parser.rs, in file order. *)
Definition ex7_f_num : N := 0.
Definition ex7_f_intermediate : N := 1.
Definition ex7_f_expr : N := 2.
Definition ex7_f_grammar : N := 3.
(** examples/example_7_indirect_lr_num_parser/src/parser.rs:7-16 *)
Definition ex7_body_num : expr :=
  ERange 48 57.
(** examples/example_7_indirect_lr_num_parser/src/parser.rs:18-29 *)
Definition ex7_body_intermediate : expr :=
  ELR [ex7_R_Expr; ex7_R_Intermediate] ex7_R_Expr ex7_f_expr.
(** examples/example_7_indirect_lr_num_parser/src/parser.rs:31-56 *)
Definition ex7_body_expr : expr :=
  EChoice (ESub (ESeq (ESeq (ELR [ex7_R_Expr; ex7_R_Intermediate] ex7_R_Intermediate ex7_f_intermediate) (ETerminal 45)) (EVar ex7_R_Num ex7_f_num))) (EVar ex7_R_Num ex7_f_num).
(** examples/example_7_indirect_lr_num_parser/src/parser.rs:58-69 *)
Definition ex7_body_grammar : expr :=
  ELR [ex7_R_Expr; ex7_R_Intermediate] ex7_R_Expr ex7_f_expr.
Definition ex7_table : list expr :=
  [ex7_body_num;
   ex7_body_intermediate;
   ex7_body_expr;
   ex7_body_grammar].

(** ** examples/example_8_indirect_lr_3_level_parser/src/parser.rs, examples/example_8_indirect_lr_3_level_parser/src/rules.rs *)
(** examples/example_8_indirect_lr_3_level_parser/src/rules.rs — enum Rules discriminants. *)
Definition ex8_R_Grammar : N := 0.
Definition ex8_R_Num : N := 1.
Definition ex8_R_Test_LR_num : N := 2.
Definition ex8_R_Test_indirect_three_level_A : N := 3.
Definition ex8_R_Test_indirect_three_level_B : N := 4.
Definition ex8_R_Test_indirect_three_level_C : N := 5.
(** examples/example_8_indirect_lr_3_level_parser/src/rules.rs — RULES_SIZE. *)
Definition ex8_RULES_SIZE : N := 6.
(** Numbering of the functions of examples/example_8_indirect_lr_3_level_parser/src/parser.rs, in file order. *)
Definition ex8_f_num : N := 0.
Definition ex8_f_test_lr_num : N := 1.
Definition ex8_f_test_indirect_three_level_a : N := 2.
Definition ex8_f_test_indirect_three_level_b : N := 3.
Definition ex8_f_test_indirect_three_level_c : N := 4.
Definition ex8_f_grammar : N := 5.
(** examples/example_8_indirect_lr_3_level_parser/src/parser.rs:7-16 *)
Definition ex8_body_num : expr :=
  ERange 48 57.
(** examples/example_8_indirect_lr_3_level_parser/src/parser.rs:18-27 *)
Definition ex8_body_test_lr_num : expr :=
  EVar ex8_R_Num ex8_f_num.
(** examples/example_8_indirect_lr_3_level_parser/src/parser.rs:29-57 *)
Definition ex8_body_test_indirect_three_level_a : expr :=
  EChoice (ESub (ESeq (ESeq (ELR [ex8_R_Test_indirect_three_level_A; ex8_R_Test_indirect_three_level_B; ex8_R_Test_indirect_three_level_C] ex8_R_Test_indirect_three_level_B ex8_f_test_indirect_three_level_b) (ETerminal 45)) (EVar ex8_R_Test_LR_num ex8_f_test_lr_num))) (EVar ex8_R_Test_LR_num ex8_f_test_lr_num).
(** examples/example_8_indirect_lr_3_level_parser/src/parser.rs:59-80 *)
Definition ex8_body_test_indirect_three_level_b : expr :=
  ELR [ex8_R_Test_indirect_three_level_A; ex8_R_Test_indirect_three_level_B; ex8_R_Test_indirect_three_level_C] ex8_R_Test_indirect_three_level_C ex8_f_test_indirect_three_level_c.
(** examples/example_8_indirect_lr_3_level_parser/src/parser.rs:82-103 *)
Definition ex8_body_test_indirect_three_level_c : expr :=
  ELR [ex8_R_Test_indirect_three_level_A; ex8_R_Test_indirect_three_level_B; ex8_R_Test_indirect_three_level_C] ex8_R_Test_indirect_three_level_A ex8_f_test_indirect_three_level_a.
(** examples/example_8_indirect_lr_3_level_parser/src/parser.rs:105-126 *)
Definition ex8_body_grammar : expr :=
  ELR [ex8_R_Test_indirect_three_level_A; ex8_R_Test_indirect_three_level_B; ex8_R_Test_indirect_three_level_C] ex8_R_Test_indirect_three_level_A ex8_f_test_indirect_three_level_a.
Definition ex8_table : list expr :=
  [ex8_body_num;
   ex8_body_test_lr_num;
   ex8_body_test_indirect_three_level_a;
   ex8_body_test_indirect_three_level_b;
   ex8_body_test_indirect_three_level_c;
   ex8_body_grammar].

(** ** examples/example_9_indirect_lr_5_level_parser/src/parser.rs, examples/example_9_indirect_lr_5_level_parser/src/rules.rs *)
(** examples/example_9_indirect_lr_5_level_parser/src/rules.rs — enum Rules discriminants. *)
Definition ex9_R_Grammar : N := 0.
Definition ex9_R_Num : N := 1.
Definition ex9_R_Test_LR_num : N := 2.
Definition ex9_R_Test_indirect_three_level_A : N := 3.
Definition ex9_R_Test_indirect_three_level_B : N := 4.
Definition ex9_R_Test_indirect_three_level_C : N := 5.
Definition ex9_R_Test_indirect_three_level_D : N := 6.
Definition ex9_R_Test_indirect_three_level_E : N := 7.
(** examples/example_9_indirect_lr_5_level_parser/src/rules.rs — RULES_SIZE. *)
Definition ex9_RULES_SIZE : N := 8.
(** Numbering of the functions of examples/example_9_indirect_lr_5_level_parser/src/parser.rs, in file order. *)
Definition ex9_f_num : N := 0.
Definition ex9_f_test_lr_num : N := 1.
Definition ex9_f_test_indirect_three_level_a : N := 2.
Definition ex9_f_test_indirect_three_level_b : N := 3.
Definition ex9_f_test_indirect_three_level_c : N := 4.
Definition ex9_f_test_indirect_three_level_d : N := 5.
Definition ex9_f_test_indirect_three_level_e : N := 6.
Definition ex9_f_grammar : N := 7.
(** examples/example_9_indirect_lr_5_level_parser/src/parser.rs:7-16 *)
Definition ex9_body_num : expr :=
  ERange 48 57.
(** examples/example_9_indirect_lr_5_level_parser/src/parser.rs:18-27 *)
Definition ex9_body_test_lr_num : expr :=
  EVar ex9_R_Num ex9_f_num.
(** examples/example_9_indirect_lr_5_level_parser/src/parser.rs:29-59 *)
Definition ex9_body_test_indirect_three_level_a : expr :=
  EChoice (ESub (ESeq (ESeq (ELR [ex9_R_Test_indirect_three_level_A; ex9_R_Test_indirect_three_level_B; ex9_R_Test_indirect_three_level_C; ex9_R_Test_indirect_three_level_D; ex9_R_Test_indirect_three_level_E] ex9_R_Test_indirect_three_level_B ex9_f_test_indirect_three_level_b) (ETerminal 45)) (EVar ex9_R_Test_LR_num ex9_f_test_lr_num))) (EVar ex9_R_Test_LR_num ex9_f_test_lr_num).
(** examples/example_9_indirect_lr_5_level_parser/src/parser.rs:61-84 *)
Definition ex9_body_test_indirect_three_level_b : expr :=
  ELR [ex9_R_Test_indirect_three_level_A; ex9_R_Test_indirect_three_level_B; ex9_R_Test_indirect_three_level_C; ex9_R_Test_indirect_three_level_D; ex9_R_Test_indirect_three_level_E] ex9_R_Test_indirect_three_level_C ex9_f_test_indirect_three_level_c.
(** examples/example_9_indirect_lr_5_level_parser/src/parser.rs:86-109 *)
Definition ex9_body_test_indirect_three_level_c : expr :=
  ELR [ex9_R_Test_indirect_three_level_A; ex9_R_Test_indirect_three_level_B; ex9_R_Test_indirect_three_level_C; ex9_R_Test_indirect_three_level_D; ex9_R_Test_indirect_three_level_E] ex9_R_Test_indirect_three_level_D ex9_f_test_indirect_three_level_d.
(** examples/example_9_indirect_lr_5_level_parser/src/parser.rs:111-134 *)
Definition ex9_body_test_indirect_three_level_d : expr :=
  ELR [ex9_R_Test_indirect_three_level_A; ex9_R_Test_indirect_three_level_B; ex9_R_Test_indirect_three_level_C; ex9_R_Test_indirect_three_level_D; ex9_R_Test_indirect_three_level_E] ex9_R_Test_indirect_three_level_E ex9_f_test_indirect_three_level_e.
(** examples/example_9_indirect_lr_5_level_parser/src/parser.rs:136-159 *)
Definition ex9_body_test_indirect_three_level_e : expr :=
  ELR [ex9_R_Test_indirect_three_level_A; ex9_R_Test_indirect_three_level_B; ex9_R_Test_indirect_three_level_C; ex9_R_Test_indirect_three_level_D; ex9_R_Test_indirect_three_level_E] ex9_R_Test_indirect_three_level_A ex9_f_test_indirect_three_level_a.
(** examples/example_9_indirect_lr_5_level_parser/src/parser.rs:161-184 *)
Definition ex9_body_grammar : expr :=
  ELR [ex9_R_Test_indirect_three_level_A; ex9_R_Test_indirect_three_level_B; ex9_R_Test_indirect_three_level_C; ex9_R_Test_indirect_three_level_D; ex9_R_Test_indirect_three_level_E] ex9_R_Test_indirect_three_level_A ex9_f_test_indirect_three_level_a.
Definition ex9_table : list expr :=
  [ex9_body_num;
   ex9_body_test_lr_num;
   ex9_body_test_indirect_three_level_a;
   ex9_body_test_indirect_three_level_b;
   ex9_body_test_indirect_three_level_c;
   ex9_body_test_indirect_three_level_d;
   ex9_body_test_indirect_three_level_e;
   ex9_body_grammar].
