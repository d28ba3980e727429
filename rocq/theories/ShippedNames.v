(** Generated by tools/shipped_names.py: the names in the generated crates of /repo. *)
From Verif Require Export Programs.
Local Open Scope string_scope.

(** parser/src/parser.rs, parser/src/rules.rs *)
Definition dsl_fns : list (list N) := [bytes "alphabet_upper"; bytes "alphabet_lower"; bytes "num"; bytes "numnozero"; bytes "hexval"; bytes "spaces"; bytes "specials"; bytes "ascii"; bytes "apostrophe"; bytes "quotationmark"; bytes "left_angle_bracket"; bytes "right_angle_bracket"; bytes "left_bracket"; bytes "right_bracket"; bytes "assignment"; bytes "end_rule"; bytes "ampersand"; bytes "exclamation_mark"; bytes "plus"; bytes "star"; bytes "question_mark"; bytes "comma"; bytes "newline"; bytes "backslash"; bytes "var_name"; bytes "var_name_decl"; bytes "var_name_ref"; bytes "hex"; bytes "integer"; bytes "orderedchoicematchrange"; bytes "subexpression"; bytes "hooked_call"; bytes "epsilon"; bytes "stringterminal"; bytes "terminal"; bytes "nucleus"; bytes "atom"; bytes "and_predicate"; bytes "not_predicate"; bytes "sequence"; bytes "ordered_choice"; bytes "one_or_more"; bytes "zero_or_more"; bytes "optional"; bytes "whitespace"; bytes "rhs"; bytes "lhs"; bytes "rule"; bytes "grammar"; bytes "comment"; bytes "semantic_instructions"; bytes "inline"].
Definition dsl_imports : list (list N) := [].
Definition dsl_enum : list (list N) := [bytes "ASCII"; bytes "And_Predicate"; bytes "Atom"; bytes "Comment"; bytes "Epsilon"; bytes "Grammar"; bytes "Hex"; bytes "HexVal"; bytes "Hooked_Call"; bytes "Inline"; bytes "Integer"; bytes "LHS"; bytes "Newline"; bytes "Not_Predicate"; bytes "Nucleus"; bytes "Num"; bytes "NumNoZero"; bytes "One_Or_More"; bytes "Optional"; bytes "OrderedChoiceMatchRange"; bytes "Ordered_Choice"; bytes "RHS"; bytes "Rule"; bytes "Semantic_Instructions"; bytes "Sequence"; bytes "StringTerminal"; bytes "Subexpression"; bytes "Terminal"; bytes "Var_Name_Decl"; bytes "Var_Name_Ref"; bytes "Zero_Or_More"].
Definition dsl_size : N := 31%N.
(** examples/example_1_parser/src/parser.rs, examples/example_1_parser/src/rules.rs *)
Definition ex1_fns : list (list N) := [bytes "expr"; bytes "addition"; bytes "subtraction"; bytes "onenine"; bytes "digit"; bytes "integer"; bytes "grammar"].
Definition ex1_imports : list (list N) := [].
Definition ex1_enum : list (list N) := [bytes "Grammar"; bytes "Addition"; bytes "Expr"; bytes "Integer"; bytes "Subtraction"].
Definition ex1_size : N := 5%N.
(** examples/example_2_parser/src/parser.rs, examples/example_2_parser/src/rules.rs *)
Definition ex2_fns : list (list N) := [bytes "a"; bytes "b"; bytes "grammar"].
Definition ex2_imports : list (list N) := [].
Definition ex2_enum : list (list N) := [bytes "A"; bytes "B"; bytes "Grammar"].
Definition ex2_size : N := 3%N.
(** examples/example_3_basic_maths_parser/src/parser.rs, examples/example_3_basic_maths_parser/src/rules.rs *)
Definition ex3_fns : list (list N) := [bytes "onenine"; bytes "digit"; bytes "integer"; bytes "number"; bytes "fraction"; bytes "exponent"; bytes "sign"; bytes "addition"; bytes "subtraction"; bytes "multiplication"; bytes "division"; bytes "parentheses"; bytes "expr"; bytes "term"; bytes "factor"; bytes "grammar"].
Definition ex3_imports : list (list N) := [].
Definition ex3_enum : list (list N) := [bytes "Grammar"; bytes "Addition"; bytes "Division"; bytes "Exponent"; bytes "Expr"; bytes "Factor"; bytes "Fraction"; bytes "Integer"; bytes "Multiplication"; bytes "Number"; bytes "Parentheses"; bytes "Sign"; bytes "Subtraction"; bytes "Term"].
Definition ex3_size : N := 14%N.
(** examples/example_4_full_maths_parser/src/parser.rs, examples/example_4_full_maths_parser/src/rules.rs *)
Definition ex4_fns : list (list N) := [bytes "onenine"; bytes "digit"; bytes "integer"; bytes "number"; bytes "fraction"; bytes "exponent"; bytes "sign"; bytes "addition"; bytes "subtraction"; bytes "multiplication"; bytes "division"; bytes "parentheses"; bytes "power"; bytes "expr"; bytes "term"; bytes "power_expr"; bytes "factor"; bytes "grammar"].
Definition ex4_imports : list (list N) := [].
Definition ex4_enum : list (list N) := [bytes "Grammar"; bytes "Addition"; bytes "Division"; bytes "Exponent"; bytes "Expr"; bytes "Factor"; bytes "Fraction"; bytes "Integer"; bytes "Multiplication"; bytes "Number"; bytes "Parentheses"; bytes "Power"; bytes "Power_expr"; bytes "Sign"; bytes "Subtraction"; bytes "Term"].
Definition ex4_size : N := 16%N.
(** examples/example_5_lr_num_parser/src/parser.rs, examples/example_5_lr_num_parser/src/rules.rs *)
Definition ex5_fns : list (list N) := [bytes "num"; bytes "expr"; bytes "grammar"].
Definition ex5_imports : list (list N) := [].
Definition ex5_enum : list (list N) := [bytes "Grammar"; bytes "Expr"; bytes "Num"].
Definition ex5_size : N := 3%N.
(** examples/example_6_term_and_fact_parser/src/parser.rs, examples/example_6_term_and_fact_parser/src/rules.rs *)
Definition ex6_fns : list (list N) := [bytes "num"; bytes "term"; bytes "fact"; bytes "grammar"].
Definition ex6_imports : list (list N) := [].
Definition ex6_enum : list (list N) := [bytes "Grammar"; bytes "Fact"; bytes "Num"; bytes "Term"].
Definition ex6_size : N := 4%N.
(** examples/example_7_indirect_lr_num_parser/src/parser.rs, examples/example_7_indirect_lr_num_parser/src/rules.rs *)
Definition ex7_fns : list (list N) := [bytes "num"; bytes "intermediate"; bytes "expr"; bytes "grammar"].
Definition ex7_imports : list (list N) := [].
Definition ex7_enum : list (list N) := [bytes "Grammar"; bytes "Expr"; bytes "Intermediate"; bytes "Num"].
Definition ex7_size : N := 4%N.
(** examples/example_8_indirect_lr_3_level_parser/src/parser.rs, examples/example_8_indirect_lr_3_level_parser/src/rules.rs *)
Definition ex8_fns : list (list N) := [bytes "num"; bytes "test_lr_num"; bytes "test_indirect_three_level_a"; bytes "test_indirect_three_level_b"; bytes "test_indirect_three_level_c"; bytes "grammar"].
Definition ex8_imports : list (list N) := [].
Definition ex8_enum : list (list N) := [bytes "Grammar"; bytes "Num"; bytes "Test_LR_num"; bytes "Test_indirect_three_level_A"; bytes "Test_indirect_three_level_B"; bytes "Test_indirect_three_level_C"].
Definition ex8_size : N := 6%N.
(** examples/example_9_indirect_lr_5_level_parser/src/parser.rs, examples/example_9_indirect_lr_5_level_parser/src/rules.rs *)
Definition ex9_fns : list (list N) := [bytes "num"; bytes "test_lr_num"; bytes "test_indirect_three_level_a"; bytes "test_indirect_three_level_b"; bytes "test_indirect_three_level_c"; bytes "test_indirect_three_level_d"; bytes "test_indirect_three_level_e"; bytes "grammar"].
Definition ex9_imports : list (list N) := [].
Definition ex9_enum : list (list N) := [bytes "Grammar"; bytes "Num"; bytes "Test_LR_num"; bytes "Test_indirect_three_level_A"; bytes "Test_indirect_three_level_B"; bytes "Test_indirect_three_level_C"; bytes "Test_indirect_three_level_D"; bytes "Test_indirect_three_level_E"].
Definition ex9_size : N := 8%N.
(** examples/example_10_basic_bench_parser/src/parser.rs, examples/example_10_basic_bench_parser/src/rules.rs *)
Definition ex10_fns : list (list N) := [bytes "rr"; bytes "lr"; bytes "grammar"].
Definition ex10_imports : list (list N) := [].
Definition ex10_enum : list (list N) := [bytes "Grammar"; bytes "Lr"; bytes "Rr"].
Definition ex10_size : N := 3%N.
(** examples/example_11_external_rule_call_parser/src/parser.rs, examples/example_11_external_rule_call_parser/src/rules.rs *)
Definition ex11_fns : list (list N) := [bytes "alphabet_lower"; bytes "unique_line_matcher"; bytes "grammar"].
Definition ex11_imports : list (list N) := [bytes "unique_line_cache"].
Definition ex11_enum : list (list N) := [bytes "Grammar"; bytes "Unique_line_matcher"].
Definition ex11_size : N := 2%N.
