(** Generated by tools/assumptions.py: what each theorem of MANIFEST.json rests on.
    One traversal for all of them: "Closed under the global context" means that
    no theorem uses any axiom. *)
From Verif Require TheoremsBootstrap TheoremsBorrow TheoremsCalc TheoremsCycle TheoremsCycleExamples TheoremsCycleTree TheoremsCycleTreeExamples TheoremsDeriv TheoremsExact TheoremsExamples TheoremsGenKeys TheoremsGenerator TheoremsHook TheoremsJson TheoremsKernel TheoremsKeys TheoremsLR TheoremsLRTree TheoremsLevels TheoremsLevelsExamples TheoremsLevelsOrder TheoremsLevelsTotal TheoremsLimits TheoremsMeaning TheoremsPackrat TheoremsPrint TheoremsRelease TheoremsRunner TheoremsSize TheoremsTermination TheoremsText TheoremsTool TheoremsToolExamples TheoremsTotal.
Definition theorems_0 := (@TheoremsKernel.C01_positions_gen, @TheoremsKernel.C01_positions, @TheoremsKernel.C01_positions_nested, @TheoremsKernel.C02_and_predicate, @TheoremsKernel.C02_not_predicate, @TheoremsKernel.C02_predicates_panic, @TheoremsKernel.C03_zero_or_more, @TheoremsKernel.C03_one_or_more, @TheoremsKernel.C03_optional, @TheoremsKernel.C04_ordered_choice).
Definition theorems_1 := (@TheoremsKernel.C04_second_not_run, @TheoremsKernel.C05_sequence, @TheoremsKernel.C05_second_not_run, @TheoremsKernel.C06_string_literal, @TheoremsKernel.C07_terminal, @TheoremsKernel.C07_range, @TheoremsKernel.C08_get_char, @TheoremsKernel.C08_get_len, @TheoremsKernel.C08_get_string, @TheoremsKernel.C08_get_multiple_chars).
Definition theorems_2 := (@TheoremsKernel.C08_get_multiple_chars_none, @TheoremsKernel.C09_fails_exactly_at_end, @TheoremsKernel.C09_refuted, @TheoremsPackrat.C10_packrat_sound, @TheoremsPackrat.C10_packrat_sound_session, @TheoremsPackrat.C11_packrat_complete, @TheoremsPackrat.C12_memo_transparent, @TheoremsPackrat.C13_one_node_per_rule_and_position, @TheoremsPackrat.C14_no_panic, @TheoremsPackrat.C14_only_key_exhaustion).
Definition theorems_3 := (@TheoremsPackrat.C15_tree_is_trace, @TheoremsPackrat.C15_trace_deterministic, @TheoremsPackrat.C16_finite_trees, @TheoremsPackrat.C16_clear_false_terminates, @TheoremsPackrat.C16_print_terminates, @TheoremsPackrat.C17_clear_false_prunes, @TheoremsPackrat.C17_any_answer, @TheoremsPackrat.C17_parse_tree, @TheoremsPackrat.C17_prune_keeps, @TheoremsPackrat.C18_clear_false_idempotent).
Definition theorems_4 := (@TheoremsPackrat.C18_second_pass_answers, @TheoremsPackrat.C19_eq_structural, @TheoremsPackrat.C19_eq_refl, @TheoremsPackrat.C19_eq_sym, @TheoremsPackrat.C19_eq_trans, @TheoremsPackrat.C20_nodes_justified, @TheoremsPackrat.C21_raw_tree, @TheoremsPackrat.C21_clean_tree, @TheoremsDeriv.C22_derivation_in_tree, @TheoremsDeriv.C22_derivation_unique).
Definition theorems_5 := (@TheoremsDeriv.C22_derivation_matches, @TheoremsPackrat.C22_refuted, @TheoremsPackrat.C23_node_text, @TheoremsPackrat.C23_only_inside_characters, @TheoremsTotal.C24_plain_total, @TheoremsTotal.C24_dsl_total, @TheoremsTotal.C24_dsl_parse_total, @TheoremsGenerator.C25_grammar_files, @TheoremsGenerator.C25_answers, @TheoremsGenerator.C25_unambiguous).
Definition theorems_6 := (@TheoremsLR.C26_only_key_exhaustion, @TheoremsLR.C26_unwound, @TheoremsLR.C26_balanced, @TheoremsLR.C27_growth_bound, @TheoremsLR.C27_growth_lengthens, @TheoremsLR.C27_left_recursion_terminates, @TheoremsLR.C27_answers_or_key_exhaustion, @TheoremsLR.C28_matches_derivable, @TheoremsLR.C28_memo_derivable, @TheoremsLR.C29_left_recursion_meaning).
Definition theorems_7 := (@TheoremsLR.C29_direct_left_recursion, @TheoremsLRTree.C30_tree, @TheoremsLRTree.C30_plain_parts, @TheoremsLRTree.C30_left_chain, @TheoremsLRTree.C30_left_unique, @TheoremsLRTree.C30_order_lost, @TheoremsLRTree.C30_stale_child, @TheoremsHook.C31_hook, @TheoremsHook.C31_fresh_lines, @TheoremsHook.C31_unique).
Definition theorems_8 := (@TheoremsHook.C31_parse, @TheoremsHook.C31_hook_behaves, @TheoremsGenerator.C32_symbol_table, @TheoremsGenerator.C36_code, @TheoremsGenerator.C33_detector, @TheoremsGenerator.C33_hash_order, @TheoremsGenerator.C33_same_code, @TheoremsGenerator.C34_involved_sets, @TheoremsGenerator.C34_terminates, @TheoremsTermination.C35_detected).
Definition theorems_9 := (@TheoremsTermination.C35_answers, @TheoremsBootstrap.C35_missed, @TheoremsLimits.C35_undetected_diverges, @TheoremsGenerator.C38_code, @TheoremsGenerator.C37_count_lines, @TheoremsGenerator.C37_syntax_error, @TheoremsGenerator.C37_reported, @TheoremsGenerator.C38_compiled, @TheoremsGenerator.C38_empty_file, @TheoremsRunner.C39_handwritten_survive).
Definition theorems_10 := (@TheoremsRunner.C39_outside, @TheoremsRunner.C39_other_files, @TheoremsRunner.C40_complete_run, @TheoremsRunner.C40_finished, @TheoremsRunner.C40_idempotent, @TheoremsRunner.C40_crash_then_rerun, @TheoremsRunner.C40_runs, @TheoremsRunner.C40_generator_failure, @TheoremsRunner.C40_in_place, @TheoremsRunner.C40_disk0_ready).
Definition theorems_11 := (@TheoremsRunner.C40_crash_truncates, @TheoremsExamples.C41_example_1, @TheoremsExamples.C41_example_3, @TheoremsExamples.C41_example_4, @TheoremsExamples.C41_example_5, @TheoremsExamples.C41_example_6, @TheoremsExamples.C41_example_10, @TheoremsLimits.C42_reentry_fails, @TheoremsLimits.C42_reentrant_refuted, @TheoremsLimits.C43_maximal_refuted).
Definition theorems_12 := (@TheoremsLimits.C44_empty_repetition_diverges, @TheoremsGenerator.C45_comments_stay_comments, @TheoremsGenerator.C46_answers, @TheoremsMeaning.C47_sound, @TheoremsMeaning.C47_complete, @TheoremsMeaning.C47_nodes, @TheoremsMeaning.C47_derivable, @TheoremsMeaning.C47_functional, @TheoremsBootstrap.C47_empty_literal_wrong, @TheoremsBootstrap.C47_escaped_bound_wrong).
Definition theorems_13 := (@TheoremsTermination.C48_answers, @TheoremsTermination.C48_total, @TheoremsBootstrap.C49_dsl, @TheoremsBootstrap.C49_examples, @TheoremsBootstrap.C49_dsl_means, @TheoremsBootstrap.C49_dsl_total, @TheoremsBootstrap.C49_self_description, @TheoremsBootstrap.C49_examples_answer, @TheoremsText.C50_text, @TheoremsText.C50_crate).
Definition theorems_14 := (@TheoremsText.C50_comments, @TheoremsText.C50_injection, @TheoremsText.C51_dsl, @TheoremsText.C51_examples, @TheoremsExact.C52_tree_is_derivation, @TheoremsExact.C52_failure_is_empty, @TheoremsExact.C52_plain_tree, @TheoremsExact.C52_example_1, @TheoremsExact.C52_example_3, @TheoremsExact.C52_example_4).
Definition theorems_15 := (@TheoremsCalc.C53_unambiguous, @TheoremsCalc.C53_value_is_meaning, @TheoremsCalc.C53_meaning_is_value, @TheoremsCalc.C53_example_1, @TheoremsCalc.C53_example_3, @TheoremsCalc.C53_example_4, @TheoremsCalc.C53_example_1_complete, @TheoremsCalc.C53_example_3_complete, @TheoremsCalc.C53_example_4_complete, @TheoremsKeys.C54_node_bound).
Definition theorems_16 := (@TheoremsKeys.C54_answers, @TheoremsKeys.C54_example_1, @TheoremsKeys.C54_example_3, @TheoremsKeys.C54_example_4, @TheoremsKeys.C54_example_5, @TheoremsKeys.C54_example_6, @TheoremsKeys.C54_example_10, @TheoremsSize.C54_tree_size, @TheoremsSize.C54_parse_answers, @TheoremsSize.C54_parses_1).
Definition theorems_17 := (@TheoremsSize.C54_parses_3, @TheoremsSize.C54_parses_4, @TheoremsSize.C54_calculator_1, @TheoremsSize.C54_calculator_3, @TheoremsSize.C54_calculator_4, @TheoremsJson.C55_json_is_not_rust, @TheoremsJson.C55_json_repaired, @TheoremsJson.C55_json_strings, @TheoremsGenKeys.C56_answers, @TheoremsGenKeys.C56_examples).
Definition theorems_18 := (@TheoremsCycle.C57_cycle, @TheoremsCycle.C57_entry, @TheoremsCycle.C57_unique, @TheoremsCycle.C57_seedless, @TheoremsCycle.C57_seed_then_tails, @TheoremsCycleExamples.C57_example_2, @TheoremsCycleExamples.C57_example_7, @TheoremsCycleExamples.C57_example_8, @TheoremsCycleExamples.C57_example_9, @TheoremsCycleExamples.C57_intermediate_fails).
Definition theorems_19 := (@TheoremsCycleExamples.C57_intermediate_derives, @TheoremsTool.C58_accepted, @TheoremsTool.C58_installs, @TheoremsTool.C58_rejects, @TheoremsTool.C58_installs_after_crash, @TheoremsTool.C58_offline_first, @TheoremsTool.C58_entry, @TheoremsTool.C58_main, @TheoremsTool.C58_main_answers, @TheoremsTool.C58_message).
Definition theorems_20 := (@TheoremsToolExamples.C58_shipped, @TheoremsToolExamples.C58_shipped_installed, @TheoremsPrint.C59_print, @TheoremsPrint.C59_returned_tree, @TheoremsPrint.C59_faithful, @TheoremsRelease.C60_release, @TheoremsRelease.C60_release_gen, @TheoremsRelease.C60_parse, @TheoremsRelease.C60_parse_gen, @TheoremsRelease.C60_clear_false).
Definition theorems_21 := (@TheoremsRelease.C60_hook, @TheoremsRelease.C60_shipped, @TheoremsRelease.C60_differs, @TheoremsCycleTree.C61_entry_tree, @TheoremsCycleTree.C61_call_tree, @TheoremsCycleTree.C61_matches, @TheoremsCycleTree.C61_unique, @TheoremsCycleTree.C61_left_nested, @TheoremsCycleTree.C61_direct, @TheoremsCycleTreeExamples.C61_example_2).
Definition theorems_22 := (@TheoremsCycleTreeExamples.C61_example_5, @TheoremsCycleTreeExamples.C61_example_7, @TheoremsCycleTreeExamples.C61_example_8, @TheoremsCycleTreeExamples.C61_example_9, @TheoremsLevels.C62_entry_tree, @TheoremsLevels.C62_call_tree, @TheoremsLevels.C62_unique, @TheoremsLevelsTotal.C62_answers, @TheoremsLevelsTotal.C62_answers_instance, @TheoremsLevelsExamples.C62_example_6).
Definition theorems_23 := (@TheoremsBorrow.C63_borrows, @TheoremsBorrow.C63_parse, @TheoremsBorrow.C63_no_conflict, @TheoremsBorrow.C63_no_conflict_hooks, @TheoremsBorrow.C63_hook_no_conflict, @TheoremsBorrow.C63_shipped, @TheoremsBorrow.C63_context_held, @TheoremsBorrow.C63_user_held, @TheoremsLevelsOrder.C64_last_alternative_works, @TheoremsLevelsOrder.C64_order_refuted).
Definition theorems_24 := (@TheoremsLevelsOrder.C64_involved_never_grows).
Definition all_theorems := (theorems_0, theorems_1, theorems_2, theorems_3, theorems_4, theorems_5, theorems_6, theorems_7, theorems_8, theorems_9, theorems_10, theorems_11, theorems_12, theorems_13, theorems_14, theorems_15, theorems_16, theorems_17, theorems_18, theorems_19, theorems_20, theorems_21, theorems_22, theorems_23, theorems_24).
Print Assumptions all_theorems.
