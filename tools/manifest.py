"""Writes /verif/MANIFEST.json. M: property -> (status, theorems, note)."""
import json,re,glob
M={
"C01":("proved","C01_positions_gen C01_positions C01_positions_nested","any program of the modelled shape without left-recursive entries; nested form: every sub-expression, from any reachable state"),
"C02":("proved","C02_and_predicate C02_not_predicate C02_predicates_panic",""),
"C03":("proved","C03_zero_or_more C03_one_or_more C03_optional",""),
"C04":("proved","C04_ordered_choice C04_second_not_run",""),
"C05":("proved","C05_sequence C05_second_not_run",""),
"C06":("proved","C06_string_literal",""),
"C07":("proved","C07_terminal C07_range",""),
"C08":("proved","C08_get_char C08_get_len C08_get_string C08_get_multiple_chars C08_get_multiple_chars_none",""),
"C09":("proved","C09_fails_exactly_at_end C09_refuted","C09_refuted refutes the natural claim, C09_fails_exactly_at_end is the true one"),
"C10":("proved","C10_packrat_sound C10_packrat_sound_session",""),
"C11":("proved","C11_packrat_complete",""),
"C12":("proved","C12_memo_transparent",""),
"C13":("proved","C13_one_node_per_rule_and_position",""),
"C14":("proved","C14_no_panic C14_only_key_exhaustion",""),
"C15":("proved","C15_tree_is_trace C15_trace_deterministic",""),
"C16":("proved","C16_finite_trees C16_clear_false_terminates C16_print_terminates",""),
"C17":("proved","C17_clear_false_prunes C17_any_answer C17_parse_tree C17_prune_keeps",""),
"C18":("proved","C18_clear_false_idempotent C18_second_pass_answers",""),
"C19":("proved","C19_eq_structural C19_eq_refl C19_eq_sym C19_eq_trans",""),
"C20":("proved","C20_nodes_justified",""),
"C21":("proved","C21_raw_tree C21_clean_tree",""),
"C22":("proved","C22_derivation_in_tree C22_derivation_unique C22_derivation_matches C22_refuted","the last sentence of the property (no nesting for abandoned nodes) is C22_refuted"),
"C23":("proved","C23_node_text C23_only_inside_characters",""),
"C24":("proved","C24_plain_total C24_dsl_total C24_dsl_parse_total",""),
"C25":("proved","C25_grammar_files C25_answers C25_unambiguous",""),
"C30":("proved","C30_tree C30_plain_parts C30_left_chain C30_left_unique C30_order_lost C30_stale_child","C30_order_lost and C30_stale_child are the two negative sentences of the property"),
"C31":("proved","C31_hook C31_fresh_lines C31_unique C31_parse C31_hook_behaves",""),
"C32":("proved","C32_symbol_table C36_code","C36_code gives the enum and its size"),
"C33":("proved","C33_detector C33_hash_order C33_same_code C36_code","C36_code: references are compiled with the left-recursion entry exactly for detected rules"),
"C34":("proved","C34_involved_sets C34_terminates C33_hash_order",""),
"C36":("proved","C36_code C38_code",""),
"C37":("proved","C37_count_lines C37_syntax_error C37_reported",""),
"C38":("proved","C38_compiled C38_code C38_empty_file C25_unambiguous",""),
"C45":("proved","C45_comments_stay_comments",""),
"C46":("proved","C46_answers",""),
"C35":("proved","C35_detected C35_answers C35_missed C35_undetected_diverges",""),
"C47":("proved","C47_sound C47_complete C47_nodes C47_derivable C47_functional C47_empty_literal_wrong C47_escaped_bound_wrong",""),
"C48":("proved","C48_answers C48_total",""),
"C49":("proved","C49_dsl C49_examples C49_dsl_means C49_dsl_total C49_self_description C49_examples_answer",""),
"C50":("proved","C50_text C50_crate C50_comments C50_injection","Render.v models the text; SpecRust.v is the reader"),
"C53":("proved","C53_unambiguous C53_value_is_meaning C53_meaning_is_value C53_example_1 C53_example_3 C53_example_4 C53_example_1_complete C53_example_3_complete C53_example_4_complete","the only escape is running out of 2^32 tree keys; C53_instance, C53_instance_powers, C53_instance_fits, C53_exponent_wraps, C53_rejected"),
"C52":("proved","C52_tree_is_derivation C52_failure_is_empty C52_plain_tree C52_example_1 C52_example_3 C52_example_4","C52_not_tidy, C52_dsl_not_tidy show the hypothesis excludes the known junk cases; C52_instance, C52_plain_instance"),
"C51":("proved","C51_dsl C51_examples","verbatim sources in CrateSources.v"),
"C26":("proved","C26_only_key_exhaustion C26_unwound C26_balanced",""),
"C27":("proved","C27_growth_bound C27_growth_lengthens C27_left_recursion_terminates C27_answers_or_key_exhaustion",""),
"C28":("proved","C28_matches_derivable C28_memo_derivable",""),
"C29":("proved","C29_left_recursion_meaning C29_direct_left_recursion",""),
"C39":("proved","C39_handwritten_survive C39_outside C39_other_files","any failures and any crash point; assumption about cargo stated in Runner.v"),
"C40":("proved","C40_complete_run C40_finished C40_idempotent C40_crash_then_rerun C40_runs C40_generator_failure C40_in_place C40_disk0_ready C40_crash_truncates","C40_crash_truncates: the exception happens; C40_disk0_ready: hypotheses met"),
"C41":("proved"," ".join("C41_example_%d"%i for i in (1,3,4,5,6,10)),""),
"C42":("proved","C42_reentry_fails C42_reentrant_refuted",""),
"C54":("proved","C54_node_bound C54_answers C54_example_1 C54_example_3 C54_example_4 C54_example_5 C54_example_6 C54_example_10 C54_tree_size C54_parse_answers C54_parses_1 C54_parses_3 C54_parses_4 C54_calculator_1 C54_calculator_3 C54_calculator_4","the bound is not tight: actual counts are linear on ordinary input"),
"C55":("proved","C55_json_is_not_rust C55_json_repaired C55_json_strings",""),
"C56":("proved","C56_answers C56_examples","the bound is not tight"),
"C57":("proved","C57_cycle C57_entry C57_unique C57_seedless C57_seed_then_tails C57_example_2 C57_example_7 C57_example_8 C57_example_9 C57_intermediate_fails C57_intermediate_derives","cycles whose other code is not left-recursive"),
"C58":("proved","C58_accepted C58_installs C58_rejects C58_installs_after_crash C58_offline_first C58_entry C58_main C58_main_answers C58_message C58_shipped C58_shipped_installed","the answer of the parser is stated in the record parses of SpecTool.v"),
"C59":("proved","C59_print C59_returned_tree C59_faithful","keys and terminal colours in the output are not part of the statement"),
"C60":("proved","C60_release C60_release_gen C60_parse C60_parse_gen C60_clear_false C60_hook C60_shipped C60_differs",""),
"C61":("proved","C61_entry_tree C61_call_tree C61_matches C61_unique C61_left_nested C61_direct C61_example_2 C61_example_5 C61_example_7 C61_example_8 C61_example_9","parsers entered through a rule that only names the first rule of the cycle; the code beside the cycle is not left-recursive"),
"C62":("proved","C62_entry_tree C62_call_tree C62_unique C62_answers C62_answers_instance C62_example_6","every level is one rule with direct left recursion or a cycle; tails and seeds are sequences, choices and groups of code without left recursion and of calls of the first rules of lower levels; trees with applications of rules to the empty string left out"),
"C63":("proved","C63_borrows C63_parse C63_no_conflict C63_no_conflict_hooks C63_hook_no_conflict C63_shipped C63_context_held C63_user_held","hooks: any that satisfy hooks_ignore (TheoremsBorrow.v), ex11_hooks_ignore shows the shipped one does; C63_instance"),
"C64":("proved","C64_last_alternative_works C64_order_refuted C64_involved_never_grows","the swap property itself is refuted; both crates are what the generator writes (crate_of)"),
"C43":("proved","C43_maximal_refuted",""),
"C44":("proved","C44_empty_repetition_diverges",""),
}
src="".join(open(f).read() for f in glob.glob('/verif/rocq/theories/Theorems*.v'))
props=[json.loads(l)["id"] for l in open('/verif/properties.jsonl')]
claims=[]
for i in sorted(M):
    st,th,note=M[i]; th=th.split()
    for t in th: assert re.search(r'^\s*(Theorem|Lemma|Corollary|Example) %s\b'%t,src,re.M),t
    assert i in props,i
    claims.append(dict(property=i,status=st,theorems=th,note=note))
print("missing:",[x for x in props if x not in M])
used=set(sum((c["theorems"] for c in claims),[]))
print("unused theorems:",[t for t in re.findall(r'^\s*(?:Theorem|Corollary) (\w+)',src,re.M) if t not in used])
json.dump({"claims":claims},open('/verif/MANIFEST.json','w'),indent=1)
