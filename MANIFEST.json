{
 "claims": [
  {
   "property": "C01",
   "status": "proved",
   "theorems": [
    "C01_positions_gen",
    "C01_positions",
    "C01_positions_nested"
   ],
   "note": "any program of the modelled shape without left-recursive entries; nested form: every sub-expression, from any reachable state"
  },
  {
   "property": "C02",
   "status": "proved",
   "theorems": [
    "C02_and_predicate",
    "C02_not_predicate",
    "C02_predicates_panic"
   ],
   "note": ""
  },
  {
   "property": "C03",
   "status": "proved",
   "theorems": [
    "C03_zero_or_more",
    "C03_one_or_more",
    "C03_optional"
   ],
   "note": ""
  },
  {
   "property": "C04",
   "status": "proved",
   "theorems": [
    "C04_ordered_choice",
    "C04_second_not_run"
   ],
   "note": ""
  },
  {
   "property": "C05",
   "status": "proved",
   "theorems": [
    "C05_sequence",
    "C05_second_not_run"
   ],
   "note": ""
  },
  {
   "property": "C06",
   "status": "proved",
   "theorems": [
    "C06_string_literal"
   ],
   "note": ""
  },
  {
   "property": "C07",
   "status": "proved",
   "theorems": [
    "C07_terminal",
    "C07_range"
   ],
   "note": ""
  },
  {
   "property": "C08",
   "status": "proved",
   "theorems": [
    "C08_get_char",
    "C08_get_len",
    "C08_get_string",
    "C08_get_multiple_chars",
    "C08_get_multiple_chars_none"
   ],
   "note": ""
  },
  {
   "property": "C09",
   "status": "proved",
   "theorems": [
    "C09_fails_exactly_at_end",
    "C09_refuted"
   ],
   "note": "C09_refuted refutes the natural claim, C09_fails_exactly_at_end is the true one"
  },
  {
   "property": "C10",
   "status": "proved",
   "theorems": [
    "C10_packrat_sound",
    "C10_packrat_sound_session"
   ],
   "note": ""
  },
  {
   "property": "C11",
   "status": "proved",
   "theorems": [
    "C11_packrat_complete"
   ],
   "note": ""
  },
  {
   "property": "C12",
   "status": "proved",
   "theorems": [
    "C12_memo_transparent"
   ],
   "note": ""
  },
  {
   "property": "C13",
   "status": "proved",
   "theorems": [
    "C13_one_node_per_rule_and_position"
   ],
   "note": ""
  },
  {
   "property": "C14",
   "status": "proved",
   "theorems": [
    "C14_no_panic",
    "C14_only_key_exhaustion"
   ],
   "note": ""
  },
  {
   "property": "C15",
   "status": "proved",
   "theorems": [
    "C15_tree_is_trace",
    "C15_trace_deterministic"
   ],
   "note": ""
  },
  {
   "property": "C16",
   "status": "proved",
   "theorems": [
    "C16_finite_trees",
    "C16_clear_false_terminates",
    "C16_print_terminates"
   ],
   "note": ""
  },
  {
   "property": "C17",
   "status": "proved",
   "theorems": [
    "C17_clear_false_prunes",
    "C17_any_answer",
    "C17_parse_tree",
    "C17_prune_keeps"
   ],
   "note": ""
  },
  {
   "property": "C18",
   "status": "proved",
   "theorems": [
    "C18_clear_false_idempotent",
    "C18_second_pass_answers"
   ],
   "note": ""
  },
  {
   "property": "C19",
   "status": "proved",
   "theorems": [
    "C19_eq_structural",
    "C19_eq_refl",
    "C19_eq_sym",
    "C19_eq_trans"
   ],
   "note": ""
  },
  {
   "property": "C20",
   "status": "proved",
   "theorems": [
    "C20_nodes_justified"
   ],
   "note": ""
  },
  {
   "property": "C21",
   "status": "proved",
   "theorems": [
    "C21_raw_tree",
    "C21_clean_tree"
   ],
   "note": ""
  },
  {
   "property": "C22",
   "status": "proved",
   "theorems": [
    "C22_derivation_in_tree",
    "C22_derivation_unique",
    "C22_derivation_matches",
    "C22_refuted"
   ],
   "note": "the last sentence of the property (no nesting for abandoned nodes) is C22_refuted"
  },
  {
   "property": "C23",
   "status": "proved",
   "theorems": [
    "C23_node_text",
    "C23_only_inside_characters"
   ],
   "note": ""
  },
  {
   "property": "C24",
   "status": "proved",
   "theorems": [
    "C24_plain_total",
    "C24_dsl_total",
    "C24_dsl_parse_total"
   ],
   "note": ""
  },
  {
   "property": "C25",
   "status": "proved",
   "theorems": [
    "C25_grammar_files",
    "C25_answers",
    "C25_unambiguous"
   ],
   "note": ""
  },
  {
   "property": "C26",
   "status": "proved",
   "theorems": [
    "C26_only_key_exhaustion",
    "C26_unwound",
    "C26_balanced"
   ],
   "note": ""
  },
  {
   "property": "C27",
   "status": "proved",
   "theorems": [
    "C27_growth_bound",
    "C27_growth_lengthens",
    "C27_left_recursion_terminates",
    "C27_answers_or_key_exhaustion"
   ],
   "note": ""
  },
  {
   "property": "C28",
   "status": "proved",
   "theorems": [
    "C28_matches_derivable",
    "C28_memo_derivable"
   ],
   "note": ""
  },
  {
   "property": "C29",
   "status": "proved",
   "theorems": [
    "C29_left_recursion_meaning",
    "C29_direct_left_recursion"
   ],
   "note": ""
  },
  {
   "property": "C30",
   "status": "proved",
   "theorems": [
    "C30_tree",
    "C30_plain_parts",
    "C30_left_chain",
    "C30_left_unique",
    "C30_order_lost",
    "C30_stale_child"
   ],
   "note": "C30_order_lost and C30_stale_child are the two negative sentences of the property"
  },
  {
   "property": "C31",
   "status": "proved",
   "theorems": [
    "C31_hook",
    "C31_fresh_lines",
    "C31_unique",
    "C31_parse",
    "C31_hook_behaves"
   ],
   "note": ""
  },
  {
   "property": "C32",
   "status": "proved",
   "theorems": [
    "C32_symbol_table",
    "C36_code"
   ],
   "note": "C36_code gives the enum and its size"
  },
  {
   "property": "C33",
   "status": "proved",
   "theorems": [
    "C33_detector",
    "C33_hash_order",
    "C33_same_code",
    "C36_code"
   ],
   "note": "C36_code: references are compiled with the left-recursion entry exactly for detected rules"
  },
  {
   "property": "C34",
   "status": "proved",
   "theorems": [
    "C34_involved_sets",
    "C34_terminates",
    "C33_hash_order"
   ],
   "note": ""
  },
  {
   "property": "C35",
   "status": "proved",
   "theorems": [
    "C35_detected",
    "C35_answers",
    "C35_missed",
    "C35_undetected_diverges"
   ],
   "note": ""
  },
  {
   "property": "C36",
   "status": "proved",
   "theorems": [
    "C36_code",
    "C38_code"
   ],
   "note": ""
  },
  {
   "property": "C37",
   "status": "proved",
   "theorems": [
    "C37_count_lines",
    "C37_syntax_error",
    "C37_reported"
   ],
   "note": ""
  },
  {
   "property": "C38",
   "status": "proved",
   "theorems": [
    "C38_compiled",
    "C38_code",
    "C38_empty_file",
    "C25_unambiguous"
   ],
   "note": ""
  },
  {
   "property": "C39",
   "status": "proved",
   "theorems": [
    "C39_handwritten_survive",
    "C39_outside",
    "C39_other_files"
   ],
   "note": "any failures and any crash point; assumption about cargo stated in Runner.v"
  },
  {
   "property": "C40",
   "status": "proved",
   "theorems": [
    "C40_complete_run",
    "C40_finished",
    "C40_idempotent",
    "C40_crash_then_rerun",
    "C40_runs",
    "C40_generator_failure",
    "C40_in_place",
    "C40_disk0_ready",
    "C40_crash_truncates"
   ],
   "note": "C40_crash_truncates: the exception happens; C40_disk0_ready: hypotheses met"
  },
  {
   "property": "C41",
   "status": "proved",
   "theorems": [
    "C41_example_1",
    "C41_example_3",
    "C41_example_4",
    "C41_example_5",
    "C41_example_6",
    "C41_example_10"
   ],
   "note": ""
  },
  {
   "property": "C42",
   "status": "proved",
   "theorems": [
    "C42_reentry_fails",
    "C42_reentrant_refuted"
   ],
   "note": ""
  },
  {
   "property": "C43",
   "status": "proved",
   "theorems": [
    "C43_maximal_refuted"
   ],
   "note": ""
  },
  {
   "property": "C44",
   "status": "proved",
   "theorems": [
    "C44_empty_repetition_diverges"
   ],
   "note": ""
  },
  {
   "property": "C45",
   "status": "proved",
   "theorems": [
    "C45_comments_stay_comments"
   ],
   "note": ""
  },
  {
   "property": "C46",
   "status": "proved",
   "theorems": [
    "C46_answers"
   ],
   "note": ""
  },
  {
   "property": "C47",
   "status": "proved",
   "theorems": [
    "C47_sound",
    "C47_complete",
    "C47_nodes",
    "C47_derivable",
    "C47_functional",
    "C47_empty_literal_wrong",
    "C47_escaped_bound_wrong"
   ],
   "note": ""
  },
  {
   "property": "C48",
   "status": "proved",
   "theorems": [
    "C48_answers",
    "C48_total"
   ],
   "note": ""
  },
  {
   "property": "C49",
   "status": "proved",
   "theorems": [
    "C49_dsl",
    "C49_examples",
    "C49_dsl_means",
    "C49_dsl_total",
    "C49_self_description",
    "C49_examples_answer"
   ],
   "note": ""
  },
  {
   "property": "C50",
   "status": "proved",
   "theorems": [
    "C50_text",
    "C50_crate",
    "C50_comments",
    "C50_injection"
   ],
   "note": "Render.v models the text; SpecRust.v is the reader"
  },
  {
   "property": "C51",
   "status": "proved",
   "theorems": [
    "C51_dsl",
    "C51_examples"
   ],
   "note": "verbatim sources in CrateSources.v"
  },
  {
   "property": "C52",
   "status": "proved",
   "theorems": [
    "C52_tree_is_derivation",
    "C52_failure_is_empty",
    "C52_plain_tree",
    "C52_example_1",
    "C52_example_3",
    "C52_example_4"
   ],
   "note": "C52_not_tidy, C52_dsl_not_tidy show the hypothesis excludes the known junk cases; C52_instance, C52_plain_instance"
  },
  {
   "property": "C53",
   "status": "proved",
   "theorems": [
    "C53_unambiguous",
    "C53_value_is_meaning",
    "C53_meaning_is_value",
    "C53_example_1",
    "C53_example_3",
    "C53_example_4",
    "C53_example_1_complete",
    "C53_example_3_complete",
    "C53_example_4_complete"
   ],
   "note": "the only escape is running out of 2^32 tree keys; C53_instance, C53_instance_powers, C53_instance_fits, C53_exponent_wraps, C53_rejected"
  },
  {
   "property": "C54",
   "status": "proved",
   "theorems": [
    "C54_node_bound",
    "C54_answers",
    "C54_example_1",
    "C54_example_3",
    "C54_example_4",
    "C54_example_5",
    "C54_example_6",
    "C54_example_10",
    "C54_tree_size",
    "C54_parse_answers",
    "C54_parses_1",
    "C54_parses_3",
    "C54_parses_4",
    "C54_calculator_1",
    "C54_calculator_3",
    "C54_calculator_4"
   ],
   "note": "the bound is not tight: actual counts are linear on ordinary input"
  },
  {
   "property": "C55",
   "status": "proved",
   "theorems": [
    "C55_json_is_not_rust",
    "C55_json_repaired",
    "C55_json_strings"
   ],
   "note": ""
  },
  {
   "property": "C56",
   "status": "proved",
   "theorems": [
    "C56_answers",
    "C56_examples"
   ],
   "note": "the bound is not tight"
  },
  {
   "property": "C57",
   "status": "proved",
   "theorems": [
    "C57_cycle",
    "C57_entry",
    "C57_unique",
    "C57_seedless",
    "C57_seed_then_tails",
    "C57_example_2",
    "C57_example_7",
    "C57_example_8",
    "C57_example_9",
    "C57_intermediate_fails",
    "C57_intermediate_derives"
   ],
   "note": "cycles whose other code is not left-recursive"
  },
  {
   "property": "C58",
   "status": "proved",
   "theorems": [
    "C58_accepted",
    "C58_installs",
    "C58_rejects",
    "C58_installs_after_crash",
    "C58_offline_first",
    "C58_entry",
    "C58_main",
    "C58_main_answers",
    "C58_message",
    "C58_shipped",
    "C58_shipped_installed"
   ],
   "note": "the answer of the parser is stated in the record parses of SpecTool.v"
  },
  {
   "property": "C59",
   "status": "proved",
   "theorems": [
    "C59_print",
    "C59_returned_tree",
    "C59_faithful"
   ],
   "note": "keys and terminal colours in the output are not part of the statement"
  },
  {
   "property": "C60",
   "status": "proved",
   "theorems": [
    "C60_release",
    "C60_release_gen",
    "C60_parse",
    "C60_parse_gen",
    "C60_clear_false",
    "C60_hook",
    "C60_shipped",
    "C60_differs"
   ],
   "note": ""
  },
  {
   "property": "C61",
   "status": "proved",
   "theorems": [
    "C61_entry_tree",
    "C61_call_tree",
    "C61_matches",
    "C61_unique",
    "C61_left_nested",
    "C61_direct",
    "C61_example_2",
    "C61_example_5",
    "C61_example_7",
    "C61_example_8",
    "C61_example_9"
   ],
   "note": "parsers entered through a rule that only names the first rule of the cycle; the code beside the cycle is not left-recursive"
  },
  {
   "property": "C62",
   "status": "proved",
   "theorems": [
    "C62_entry_tree",
    "C62_call_tree",
    "C62_unique",
    "C62_answers",
    "C62_answers_instance",
    "C62_example_6"
   ],
   "note": "every level is one rule with direct left recursion or a cycle; tails and seeds are sequences, choices and groups of code without left recursion and of calls of the first rules of lower levels; trees with applications of rules to the empty string left out"
  },
  {
   "property": "C63",
   "status": "proved",
   "theorems": [
    "C63_borrows",
    "C63_parse",
    "C63_no_conflict",
    "C63_no_conflict_hooks",
    "C63_hook_no_conflict",
    "C63_shipped",
    "C63_context_held",
    "C63_user_held"
   ],
   "note": "hooks: any that satisfy hooks_ignore (TheoremsBorrow.v), ex11_hooks_ignore shows the shipped one does; C63_instance"
  },
  {
   "property": "C64",
   "status": "proved",
   "theorems": [
    "C64_last_alternative_works",
    "C64_order_refuted",
    "C64_involved_never_grows"
   ],
   "note": "the swap property itself is refuted; both crates are what the generator writes (crate_of)"
  }
 ]
}