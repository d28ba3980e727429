(** Generated by tools/transcribe.py from the generated parsers in /repo: each
    rule function's closures unfolded into one expression. *)
From Verif Require Export Expr.

(** ** parser/src/parser.rs, parser/src/rules.rs *)
(** parser/src/rules.rs — enum Rules discriminants. *)
Definition dsl_R_ASCII : N := 0.
Definition dsl_R_And_Predicate : N := 1.
Definition dsl_R_Atom : N := 2.
Definition dsl_R_Comment : N := 3.
Definition dsl_R_Epsilon : N := 4.
Definition dsl_R_Grammar : N := 5.
Definition dsl_R_Hex : N := 6.
Definition dsl_R_HexVal : N := 7.
Definition dsl_R_Hooked_Call : N := 8.
Definition dsl_R_Inline : N := 9.
Definition dsl_R_Integer : N := 10.
Definition dsl_R_LHS : N := 11.
Definition dsl_R_Newline : N := 12.
Definition dsl_R_Not_Predicate : N := 13.
Definition dsl_R_Nucleus : N := 14.
Definition dsl_R_Num : N := 15.
Definition dsl_R_NumNoZero : N := 16.
Definition dsl_R_One_Or_More : N := 17.
Definition dsl_R_Optional : N := 18.
Definition dsl_R_OrderedChoiceMatchRange : N := 19.
Definition dsl_R_Ordered_Choice : N := 20.
Definition dsl_R_RHS : N := 21.
Definition dsl_R_Rule : N := 22.
Definition dsl_R_Semantic_Instructions : N := 23.
Definition dsl_R_Sequence : N := 24.
Definition dsl_R_StringTerminal : N := 25.
Definition dsl_R_Subexpression : N := 26.
Definition dsl_R_Terminal : N := 27.
Definition dsl_R_Var_Name_Decl : N := 28.
Definition dsl_R_Var_Name_Ref : N := 29.
Definition dsl_R_Zero_Or_More : N := 30.
(** parser/src/rules.rs — RULES_SIZE. *)
Definition dsl_RULES_SIZE : N := 31.
(** Numbering of the functions of parser/src/parser.rs, in file order. *)
Definition dsl_f_alphabet_upper : N := 0.
Definition dsl_f_alphabet_lower : N := 1.
Definition dsl_f_num : N := 2.
Definition dsl_f_numnozero : N := 3.
Definition dsl_f_hexval : N := 4.
Definition dsl_f_spaces : N := 5.
Definition dsl_f_specials : N := 6.
Definition dsl_f_ascii : N := 7.
Definition dsl_f_apostrophe : N := 8.
Definition dsl_f_quotationmark : N := 9.
Definition dsl_f_left_angle_bracket : N := 10.
Definition dsl_f_right_angle_bracket : N := 11.
Definition dsl_f_left_bracket : N := 12.
Definition dsl_f_right_bracket : N := 13.
Definition dsl_f_assignment : N := 14.
Definition dsl_f_end_rule : N := 15.
Definition dsl_f_ampersand : N := 16.
Definition dsl_f_exclamation_mark : N := 17.
Definition dsl_f_plus : N := 18.
Definition dsl_f_star : N := 19.
Definition dsl_f_question_mark : N := 20.
Definition dsl_f_comma : N := 21.
Definition dsl_f_newline : N := 22.
Definition dsl_f_backslash : N := 23.
Definition dsl_f_var_name : N := 24.
Definition dsl_f_var_name_decl : N := 25.
Definition dsl_f_var_name_ref : N := 26.
Definition dsl_f_hex : N := 27.
Definition dsl_f_integer : N := 28.
Definition dsl_f_orderedchoicematchrange : N := 29.
Definition dsl_f_subexpression : N := 30.
Definition dsl_f_hooked_call : N := 31.
Definition dsl_f_epsilon : N := 32.
Definition dsl_f_stringterminal : N := 33.
Definition dsl_f_terminal : N := 34.
Definition dsl_f_nucleus : N := 35.
Definition dsl_f_atom : N := 36.
Definition dsl_f_and_predicate : N := 37.
Definition dsl_f_not_predicate : N := 38.
Definition dsl_f_sequence : N := 39.
Definition dsl_f_ordered_choice : N := 40.
Definition dsl_f_one_or_more : N := 41.
Definition dsl_f_zero_or_more : N := 42.
Definition dsl_f_optional : N := 43.
Definition dsl_f_whitespace : N := 44.
Definition dsl_f_rhs : N := 45.
Definition dsl_f_lhs : N := 46.
Definition dsl_f_rule : N := 47.
Definition dsl_f_grammar : N := 48.
Definition dsl_f_comment : N := 49.
Definition dsl_f_semantic_instructions : N := 50.
Definition dsl_f_inline : N := 51.
(** parser/src/parser.rs:7-17 *)
Definition dsl_body_alphabet_upper : expr :=
  ERange 65 90.
(** parser/src/parser.rs:19-28 *)
Definition dsl_body_alphabet_lower : expr :=
  ERange 97 122.
(** parser/src/parser.rs:30-39 *)
Definition dsl_body_num : expr :=
  ERange 48 57.
(** parser/src/parser.rs:41-50 *)
Definition dsl_body_numnozero : expr :=
  ERange 49 57.
(** parser/src/parser.rs:52-63 *)
Definition dsl_body_hexval : expr :=
  EChoice (ERange 48 57) (ERange 65 70).
(** parser/src/parser.rs:65-80 *)
Definition dsl_body_spaces : expr :=
  EChoice (EChoice (EChoice (ETerminal 10) (ETerminal 9)) (ETerminal 13)) (ETerminal 32).
(** parser/src/parser.rs:82-107 *)
Definition dsl_body_specials : expr :=
  ESeq (ENot (ESub (EChoice (EChoice (EChoice (EInline dsl_f_alphabet_upper) (EInline dsl_f_alphabet_lower)) (EVar dsl_R_Num dsl_f_num)) (EInline dsl_f_spaces)))) (ERange 0 255).
(** parser/src/parser.rs:109-118 *)
Definition dsl_body_ascii : expr :=
  ERange 0 255.
(** parser/src/parser.rs:120-129 *)
Definition dsl_body_apostrophe : expr :=
  ETerminal 34.
(** parser/src/parser.rs:131-140 *)
Definition dsl_body_quotationmark : expr :=
  ETerminal 39.
(** parser/src/parser.rs:142-151 *)
Definition dsl_body_left_angle_bracket : expr :=
  ETerminal 60.
(** parser/src/parser.rs:153-162 *)
Definition dsl_body_right_angle_bracket : expr :=
  ETerminal 62.
(** parser/src/parser.rs:164-173 *)
Definition dsl_body_left_bracket : expr :=
  ETerminal 40.
(** parser/src/parser.rs:175-184 *)
Definition dsl_body_right_bracket : expr :=
  ETerminal 41.
(** parser/src/parser.rs:186-195 *)
Definition dsl_body_assignment : expr :=
  ETerminal 61.
(** parser/src/parser.rs:197-206 *)
Definition dsl_body_end_rule : expr :=
  ETerminal 59.
(** parser/src/parser.rs:208-217 *)
Definition dsl_body_ampersand : expr :=
  ETerminal 38.
(** parser/src/parser.rs:219-228 *)
Definition dsl_body_exclamation_mark : expr :=
  ETerminal 33.
(** parser/src/parser.rs:230-239 *)
Definition dsl_body_plus : expr :=
  ETerminal 43.
(** parser/src/parser.rs:241-250 *)
Definition dsl_body_star : expr :=
  ETerminal 42.
(** parser/src/parser.rs:252-261 *)
Definition dsl_body_question_mark : expr :=
  ETerminal 63.
(** parser/src/parser.rs:263-272 *)
Definition dsl_body_comma : expr :=
  ETerminal 44.
(** parser/src/parser.rs:274-283 *)
Definition dsl_body_newline : expr :=
  ETerminal 10.
(** parser/src/parser.rs:285-294 *)
Definition dsl_body_backslash : expr :=
  ETerminal 47.
(** parser/src/parser.rs:296-324 *)
Definition dsl_body_var_name : expr :=
  ESeq (ESub (EChoice (EInline dsl_f_alphabet_lower) (EInline dsl_f_alphabet_upper))) (EStar (ESub (EChoice (EChoice (EInline dsl_f_alphabet_lower) (EInline dsl_f_alphabet_upper)) (ETerminal 95)))).
(** parser/src/parser.rs:326-345 *)
Definition dsl_body_var_name_decl : expr :=
  ESeq (ESeq (EInline dsl_f_left_angle_bracket) (EInline dsl_f_var_name)) (EInline dsl_f_right_angle_bracket).
(** parser/src/parser.rs:347-366 *)
Definition dsl_body_var_name_ref : expr :=
  ESeq (ESeq (EInline dsl_f_left_angle_bracket) (EInline dsl_f_var_name)) (EInline dsl_f_right_angle_bracket).
(** parser/src/parser.rs:368-383 *)
Definition dsl_body_hex : expr :=
  ESeq (ESeq (ETerminal 48) (ETerminal 120)) (EPlus (EVar dsl_R_HexVal dsl_f_hexval)).
(** parser/src/parser.rs:385-398 *)
Definition dsl_body_integer : expr :=
  ESeq (EVar dsl_R_NumNoZero dsl_f_numnozero) (EStar (EVar dsl_R_Num dsl_f_num)).
(** parser/src/parser.rs:400-445 *)
Definition dsl_body_orderedchoicematchrange : expr :=
  ESeq (ESeq (ESeq (ESeq (ESeq (ESeq (ESeq (ESeq (ESeq (EInline dsl_f_whitespace) (ETerminal 91)) (EInline dsl_f_whitespace)) (ESub (EChoice (EChoice (EVar dsl_R_Terminal dsl_f_terminal) (EVar dsl_R_Integer dsl_f_integer)) (EVar dsl_R_Hex dsl_f_hex)))) (ETerminal 46)) (ETerminal 46)) (ESub (EChoice (EChoice (EVar dsl_R_Terminal dsl_f_terminal) (EVar dsl_R_Integer dsl_f_integer)) (EVar dsl_R_Hex dsl_f_hex)))) (EInline dsl_f_whitespace)) (ETerminal 93)) (EInline dsl_f_whitespace).
(** parser/src/parser.rs:447-464 *)
Definition dsl_body_subexpression : expr :=
  ESeq (ESeq (EInline dsl_f_left_bracket) (EVar dsl_R_RHS dsl_f_rhs)) (EInline dsl_f_right_bracket).
(** parser/src/parser.rs:466-488 *)
Definition dsl_body_hooked_call : expr :=
  ESeq (ESeq (ESeq (EInline dsl_f_var_name) (EInline dsl_f_left_bracket)) (EVar dsl_R_RHS dsl_f_rhs)) (EInline dsl_f_right_bracket).
(** parser/src/parser.rs:490-505 *)
Definition dsl_body_epsilon : expr :=
  ESeq (EInline dsl_f_quotationmark) (EInline dsl_f_quotationmark).
(** parser/src/parser.rs:507-545 *)
Definition dsl_body_stringterminal : expr :=
  EChoice (EChoice (ESub (ESeq (ESeq (ESeq (EInline dsl_f_apostrophe) (ENot (EInline dsl_f_apostrophe))) (ESub (ESeq (EVar dsl_R_ASCII dsl_f_ascii) (EPlus (ESub (ESeq (ENot (EInline dsl_f_apostrophe)) (EVar dsl_R_ASCII dsl_f_ascii))))))) (EInline dsl_f_apostrophe))) (EVar dsl_R_Hex dsl_f_hex)) (EVar dsl_R_Integer dsl_f_integer).
(** parser/src/parser.rs:547-585 *)
Definition dsl_body_terminal : expr :=
  EChoice (EChoice (ESub (ESeq (ESeq (EInline dsl_f_quotationmark) (EVar dsl_R_ASCII dsl_f_ascii)) (EInline dsl_f_quotationmark))) (ESub (ESeq (ESeq (ESeq (EInline dsl_f_quotationmark) (ETerminal 92)) (ESub (EChoice (EChoice (ETerminal 110) (ETerminal 114)) (ETerminal 116)))) (EInline dsl_f_quotationmark)))) (EVar dsl_R_Epsilon dsl_f_epsilon).
(** parser/src/parser.rs:587-616 *)
Definition dsl_body_nucleus : expr :=
  ESeq (ESub (EChoice (EChoice (EChoice (EChoice (EChoice (EVar dsl_R_OrderedChoiceMatchRange dsl_f_orderedchoicematchrange) (EVar dsl_R_Hooked_Call dsl_f_hooked_call)) (EVar dsl_R_Subexpression dsl_f_subexpression)) (EVar dsl_R_Terminal dsl_f_terminal)) (EVar dsl_R_StringTerminal dsl_f_stringterminal)) (EVar dsl_R_Var_Name_Ref dsl_f_var_name_ref))) (EInline dsl_f_whitespace).
(** parser/src/parser.rs:618-642 *)
Definition dsl_body_atom : expr :=
  ESeq (ESub (EChoice (EChoice (EChoice (EChoice (EChoice (EVar dsl_R_And_Predicate dsl_f_and_predicate) (EVar dsl_R_Not_Predicate dsl_f_not_predicate)) (EVar dsl_R_One_Or_More dsl_f_one_or_more)) (EVar dsl_R_Zero_Or_More dsl_f_zero_or_more)) (EVar dsl_R_Optional dsl_f_optional)) (EVar dsl_R_Nucleus dsl_f_nucleus))) (EInline dsl_f_whitespace).
(** parser/src/parser.rs:644-657 *)
Definition dsl_body_and_predicate : expr :=
  ESeq (EInline dsl_f_ampersand) (EVar dsl_R_Nucleus dsl_f_nucleus).
(** parser/src/parser.rs:659-672 *)
Definition dsl_body_not_predicate : expr :=
  ESeq (EInline dsl_f_exclamation_mark) (EVar dsl_R_Nucleus dsl_f_nucleus).
(** parser/src/parser.rs:674-709 *)
Definition dsl_body_sequence : expr :=
  ESeq (ESeq (ESeq (ESeq (ESeq (EVar dsl_R_Atom dsl_f_atom) (EInline dsl_f_whitespace)) (EInline dsl_f_comma)) (EInline dsl_f_whitespace)) (EVar dsl_R_Atom dsl_f_atom)) (EStar (ESub (ESeq (ESeq (EInline dsl_f_comma) (EInline dsl_f_whitespace)) (EVar dsl_R_Atom dsl_f_atom)))).
(** parser/src/parser.rs:711-750 *)
Definition dsl_body_ordered_choice : expr :=
  ESeq (ESeq (ESeq (ESeq (ESeq (EVar dsl_R_Atom dsl_f_atom) (EInline dsl_f_whitespace)) (EInline dsl_f_backslash)) (EInline dsl_f_whitespace)) (EVar dsl_R_Atom dsl_f_atom)) (EStar (ESub (ESeq (ESeq (ESeq (EInline dsl_f_whitespace) (EInline dsl_f_backslash)) (EInline dsl_f_whitespace)) (EVar dsl_R_Atom dsl_f_atom)))).
(** parser/src/parser.rs:752-769 *)
Definition dsl_body_one_or_more : expr :=
  ESeq (ESeq (EVar dsl_R_Nucleus dsl_f_nucleus) (EInline dsl_f_whitespace)) (EInline dsl_f_plus).
(** parser/src/parser.rs:771-788 *)
Definition dsl_body_zero_or_more : expr :=
  ESeq (ESeq (EVar dsl_R_Nucleus dsl_f_nucleus) (EInline dsl_f_whitespace)) (EInline dsl_f_star).
(** parser/src/parser.rs:790-807 *)
Definition dsl_body_optional : expr :=
  ESeq (ESeq (EVar dsl_R_Nucleus dsl_f_nucleus) (EInline dsl_f_whitespace)) (EInline dsl_f_question_mark).
(** parser/src/parser.rs:809-826 *)
Definition dsl_body_whitespace : expr :=
  EStar (ESub (EChoice (EChoice (EChoice (ETerminal 32) (ETerminal 10)) (ETerminal 13)) (ETerminal 9))).
(** parser/src/parser.rs:828-846 *)
Definition dsl_body_rhs : expr :=
  ESeq (EInline dsl_f_whitespace) (ESub (EChoice (EChoice (EVar dsl_R_Sequence dsl_f_sequence) (EVar dsl_R_Ordered_Choice dsl_f_ordered_choice)) (EVar dsl_R_Atom dsl_f_atom))).
(** parser/src/parser.rs:848-874 *)
Definition dsl_body_lhs : expr :=
  ESeq (EVar dsl_R_Var_Name_Decl dsl_f_var_name_decl) (EOpt (ESub (ESeq (ESeq (EInline dsl_f_whitespace) (EVar dsl_R_Semantic_Instructions dsl_f_semantic_instructions)) (EInline dsl_f_whitespace)))).
(** parser/src/parser.rs:876-914 *)
Definition dsl_body_rule : expr :=
  ESeq (ESeq (ESeq (ESeq (ESeq (ESeq (ESeq (ESeq (EVar dsl_R_LHS dsl_f_lhs) (EInline dsl_f_whitespace)) (EInline dsl_f_assignment)) (EInline dsl_f_whitespace)) (EVar dsl_R_RHS dsl_f_rhs)) (EInline dsl_f_whitespace)) (EInline dsl_f_end_rule)) (EInline dsl_f_whitespace)) (EStar (EVar dsl_R_Comment dsl_f_comment)).
(** parser/src/parser.rs:916-932 *)
Definition dsl_body_grammar : expr :=
  ESeq (EPlus (EVar dsl_R_Rule dsl_f_rule)) (EOpt (EInline dsl_f_whitespace)).
(** parser/src/parser.rs:934-960 *)
Definition dsl_body_comment : expr :=
  ESeq (ESeq (ESeq (ESeq (EInline dsl_f_whitespace) (ETerminal 35)) (EStar (ESub (ESeq (ENot (ETerminal 35)) (EVar dsl_R_ASCII dsl_f_ascii))))) (ETerminal 35)) (EInline dsl_f_whitespace).
(** parser/src/parser.rs:962-971 *)
Definition dsl_body_semantic_instructions : expr :=
  EVar dsl_R_Inline dsl_f_inline.
(** parser/src/parser.rs:973-983 *)
Definition dsl_body_inline : expr :=
  EString [73; 110; 108; 105; 110; 101].
Definition dsl_table : list expr :=
  [dsl_body_alphabet_upper;
   dsl_body_alphabet_lower;
   dsl_body_num;
   dsl_body_numnozero;
   dsl_body_hexval;
   dsl_body_spaces;
   dsl_body_specials;
   dsl_body_ascii;
   dsl_body_apostrophe;
   dsl_body_quotationmark;
   dsl_body_left_angle_bracket;
   dsl_body_right_angle_bracket;
   dsl_body_left_bracket;
   dsl_body_right_bracket;
   dsl_body_assignment;
   dsl_body_end_rule;
   dsl_body_ampersand;
   dsl_body_exclamation_mark;
   dsl_body_plus;
   dsl_body_star;
   dsl_body_question_mark;
   dsl_body_comma;
   dsl_body_newline;
   dsl_body_backslash;
   dsl_body_var_name;
   dsl_body_var_name_decl;
   dsl_body_var_name_ref;
   dsl_body_hex;
   dsl_body_integer;
   dsl_body_orderedchoicematchrange;
   dsl_body_subexpression;
   dsl_body_hooked_call;
   dsl_body_epsilon;
   dsl_body_stringterminal;
   dsl_body_terminal;
   dsl_body_nucleus;
   dsl_body_atom;
   dsl_body_and_predicate;
   dsl_body_not_predicate;
   dsl_body_sequence;
   dsl_body_ordered_choice;
   dsl_body_one_or_more;
   dsl_body_zero_or_more;
   dsl_body_optional;
   dsl_body_whitespace;
   dsl_body_rhs;
   dsl_body_lhs;
   dsl_body_rule;
   dsl_body_grammar;
   dsl_body_comment;
   dsl_body_semantic_instructions;
   dsl_body_inline].
