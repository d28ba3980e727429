{"id": "C01", "title": "Combinators never move backwards, restore on failure, stay inside the input", "statement": "Whatever expression is parsed at a position inside the input: if it fails the position handed back is the position it was called with; if it succeeds the position is not smaller than the start and not larger than the source length.", "quantifier": "all generated parsers without left recursion, all inputs, all positions, all reachable parser states (memo contents)", "why_tests_cant": "A test runs one grammar on one input; the claim is about every composition of combinators and every memo state.", "anchors": ["parser/src/parser_core.rs::_sequence_kernel", "parser/src/parser_core.rs::_ordered_choice_kernel", "parser/src/var_name.rs::_var_name_kernel"]}
{"id": "C02", "title": "Predicates consume nothing", "statement": "&e succeeds exactly when e succeeds and !e exactly when e fails; both hand back the position they were called with, whatever e consumed.", "quantifier": "all sub-parsers (arbitrary closures), positions and parser states", "why_tests_cant": "e is an arbitrary closure with arbitrary effects on the memo table and tree.", "anchors": ["parser/src/parser_core.rs::_and_predicate_kernel", "parser/src/parser_core.rs::_not_predicate_kernel"]}
{"id": "C03", "title": "Repetition is greedy and counts correctly", "statement": "e* always succeeds and stops at the first position at which e fails, after chaining the successes of e; e+ fails without consuming iff e fails at the start and otherwise behaves like e followed by e*; e? always succeeds and consumes what e consumes, or nothing.", "quantifier": "all sub-parsers, positions, parser states and iteration counts", "why_tests_cant": "The number of iterations is unbounded.", "anchors": ["parser/src/parser_core.rs::_zero_or_more_kernel", "parser/src/parser_core.rs::_one_or_more_kernel", "parser/src/parser_core.rs::_optional_kernel"]}
{"id": "C04", "title": "Ordered choice is prioritised and backtracks", "statement": "a / b gives a's result when a succeeds (b is never run); otherwise it runs b from the original position, and fails at the original position when both fail.", "quantifier": "all sub-parsers, positions and states", "why_tests_cant": "Quantifies over arbitrary alternatives and states.", "anchors": ["parser/src/parser_core.rs::_ordered_choice_kernel"]}
{"id": "C05", "title": "Sequence is all-or-nothing", "statement": "a , b succeeds iff a succeeds and b succeeds from where a stopped, ending where b ended; in every other case it fails and hands back the start position; b is never run if a fails.", "quantifier": "all sub-parsers, positions and states", "why_tests_cant": "Quantifies over arbitrary components and states.", "anchors": ["parser/src/parser_core.rs::_sequence_kernel"]}
{"id": "C06", "title": "String literals match exactly and atomically", "statement": "A string literal succeeds iff the source bytes starting at the position are exactly the literal's bytes; then it consumes exactly that many bytes, otherwise it consumes nothing. It never reads out of bounds and never panics.", "quantifier": "all byte strings, sources shorter than 2^32 bytes and positions (also past the end)", "why_tests_cant": "All literals, all positions including the last partial match at the end of input.", "anchors": ["parser/src/parser_core.rs::_string_terminal_opt_ascii_kernel", "parser/src/source.rs::Source::get_char"]}
{"id": "C07", "title": "Character and range terminals are exact and safe at the end of input", "statement": "'c' succeeds iff the byte at the position is c, [a..b] iff the byte is between a and b inclusive; success consumes exactly one byte, failure none; at or past the end both fail without panicking.", "quantifier": "all bytes/bounds, sources shorter than 2^32 bytes and positions", "why_tests_cant": "All 256 bytes at every position of every source.", "anchors": ["parser/src/parser_core.rs::_terminal_kernel", "parser/src/parser_core.rs::_ordered_choice_match_range_kernel"]}
{"id": "C08", "title": "Source accessors are exact", "statement": "get_char(i) is the i-th byte, None past the end; get_string(a,b) is exactly the bytes a..b or None when a bound exceeds the length, and panics exactly when a > b or a bound is not on a character boundary; get_multiple_chars(i,n), when it answers, answers the n bytes from i.", "quantifier": "all sources, positions and lengths", "why_tests_cant": "All positions and lengths, including the boundary ones.", "anchors": ["parser/src/source.rs::Source::get_char", "parser/src/source.rs::Source::get_multiple_chars", "parser/src/source.rs::Source::get_string"]}
{"id": "C09", "title": "get_multiple_chars refuses exactly the requests that reach the end of the source", "statement": "get_multiple_chars(i,n) answers None exactly when i+n >= length and otherwise the n bytes from i; so, contrary to what a caller expects, the last n bytes of a source can never be fetched with it (the natural claim 'answers whenever i+n <= length' is refuted by a concrete source).", "quantifier": "all sources, positions and lengths", "why_tests_cant": "Only the exact boundary exhibits the defect.", "anchors": ["parser/src/source.rs::Source::get_multiple_chars"]}
{"id": "C10", "title": "Packrat soundness: every answer is the PEG answer", "statement": "If a generated parser without left recursion and without hooks answers (success/failure, position) on an input then parsing-expression-grammar semantics (memo-free) derives exactly this outcome for the start rule.", "quantifier": "all such grammars, all inputs, unbounded recursion", "why_tests_cant": "The memo table may serve a wrong entry only for particular rule/position histories.", "anchors": ["parser/src/parser_core.rs", "parser/src/var_name.rs::_var_name_kernel", "parser/src/cache.rs::BasicCache::check", "parser/src/cache.rs::BasicCache::push"]}
{"id": "C11", "title": "Packrat completeness: whenever the PEG has an answer the parser gives it", "statement": "If PEG semantics derives an outcome for the start rule on an input then the generated parser terminates without panicking and returns exactly this outcome (provided the node store does not outgrow its 32-bit keys).", "quantifier": "all left-recursion-free, hook-free grammars, all inputs shorter than 2^32 bytes", "why_tests_cant": "Requires absence of panics and divergence over all inputs.", "anchors": ["parser/src/parser_core.rs", "parser/src/var_name.rs::_var_name_kernel", "parser/src/publisher.rs::BasicPublisher::add_node"]}
{"id": "C12", "title": "Memoisation is transparent", "statement": "A rule called at a position in any context reached by earlier rule calls gives the same success flag and end position as in a fresh context, no matter what was parsed before (backtracking, lookahead, other rules).", "quantifier": "all grammars without left recursion/hooks, all histories of earlier rule calls on the same context", "why_tests_cant": "Histories are unbounded.", "anchors": ["parser/src/var_name.rs::_var_name_kernel", "parser/src/context.rs::BasicContext::check"]}
{"id": "C13", "title": "Packrat bound: one tree node per rule and position", "statement": "After any parse the raw syntax-tree store holds at most 1 + (number of memoised rules)*(length+1) nodes, i.e. each rule body runs at most once per input position; keys therefore cannot overflow when this bound is below 2^32.", "quantifier": "all left-recursion-free, hook-free grammars and all inputs, including ones exponential for naive backtracking", "why_tests_cant": "A bound over all inputs.", "anchors": ["parser/src/var_name.rs::default_behaviour", "parser/src/var_name.rs::memoized_behaviour", "parser/src/publisher.rs::BasicPublisher::add_node"]}
{"id": "C14", "title": "Parsers never panic", "statement": "A generated parser without left recursion or hooks never panics (no index error, no arithmetic overflow, no self-connection assertion): whenever the grammar has an answer on the input and the node bound fits 32-bit keys the parser returns it, and in every other run the only panic that can occur is exhaustion of the 32-bit node keys.", "quantifier": "all such grammars and inputs", "why_tests_cant": "All execution paths of all inputs.", "anchors": ["parser/src/parser_core.rs", "parser/src/var_name.rs", "parser/src/publisher.rs::BasicPublisher::connect"]}
{"id": "C15", "title": "The syntax tree is the memo-free parse trace", "statement": "The raw tree reachable from the start node (rule, span, success flag and ordered children of every node) is exactly the call trace of a parser with no memo table: sharing memoised nodes never changes, drops or duplicates anything in the tree a user walks.", "quantifier": "all left-recursion-free, hook-free grammars, all inputs", "why_tests_cant": "Memo hits attach previously built nodes; errors show up only for certain backtracking histories.", "anchors": ["parser/src/var_name.rs::default_behaviour", "parser/src/var_name.rs::memoized_behaviour", "parser/src/publisher.rs::BasicPublisher::connect"]}
{"id": "C16", "title": "The raw tree is a finite acyclic structure with valid keys", "statement": "Every child key stored in the tree refers to an existing node and walking children from any node terminates (no cycles); so tree walks such as print, clear_false and == terminate without index panics.", "quantifier": "all left-recursion-free, hook-free grammars, all inputs", "why_tests_cant": "Acyclicity of an unboundedly large graph.", "anchors": ["parser/src/publisher.rs::BasicPublisher::print", "parser/src/publisher.rs::BasicPublisher::clear_false", "parser/src/var_name.rs"]}
{"id": "C17", "title": "clear_false keeps exactly the successful, non-empty nodes", "statement": "clear_false yields the tree in which every node that failed or matched the empty string is removed together with its subtree, and all other nodes keep rule, span, flag and order; its root is the start node.", "quantifier": "all node stores that are finite trees/DAGs with a successful root", "why_tests_cant": "All tree shapes.", "anchors": ["parser/src/publisher.rs::BasicPublisher::clear_false", "parser/src/publisher.rs::BasicPublisher::clear_false_kernel"]}
{"id": "C18", "title": "clear_false is idempotent", "statement": "Running clear_false on an already cleared tree gives a tree equal (==) to it.", "quantifier": "all node stores as above", "why_tests_cant": "All tree shapes.", "anchors": ["parser/src/publisher.rs::BasicPublisher::clear_false", "parser/src/publisher.rs::BasicPublisher::eq"]}
{"id": "C19", "title": "Tree equality is structural equality", "statement": "Two syntax trees compare equal (==) iff they have the same shape with the same rule, span and flag at each node, independent of the keys under which nodes are stored; hence == is reflexive, symmetric and transitive on finite trees.", "quantifier": "all pairs/triples of finite trees in any key layout", "why_tests_cant": "All tree shapes and layouts.", "anchors": ["parser/src/publisher.rs::BasicPublisher::partial_eq_kernel", "parser/src/publisher.rs::Node::eq"]}
{"id": "C20", "title": "Every node of the returned AST is justified by the input", "statement": "For every node of the tree returned by parse other than the artificial root: the rule named by the node matches, per PEG semantics, the input from the node's start to the node's end; and the span is non-empty and inside the input.", "quantifier": "all left-recursion-free, hook-free grammars, inputs and nodes", "why_tests_cant": "Every node of every tree.", "anchors": ["parser/src/parse.rs::parse", "parser/src/var_name.rs::_var_name_kernel", "parser/src/publisher.rs::BasicPublisher::clear_false"]}
{"id": "C21", "title": "AST children lie to the right of their parent's start", "statement": "In every raw or cleaned tree a child's start is never before its parent's start, and every span satisfies start <= end <= length.", "quantifier": "all left-recursion-free, hook-free grammars, inputs, nodes", "why_tests_cant": "Every node of every tree.", "anchors": ["parser/src/var_name.rs::default_behaviour", "parser/src/publisher.rs::Node"]}
{"id": "C22", "title": "The AST contains the successful derivation, and may contain more", "statement": "Every memoised rule application with a non-empty match that is part of the successful derivation appears in the returned tree, under its caller and in order; the tree can contain further nodes, left there by lookahead or abandoned alternatives, that end after their parent (the natural claim 'children end no later than their parent' is refuted by a concrete grammar and input).", "quantifier": "all left-recursion-free, hook-free grammars, inputs, nodes", "why_tests_cant": "Needs a grammar whose alternative fails after a rule call or uses lookahead over a rule.", "anchors": ["parser/src/var_name.rs::default_behaviour", "parser/src/parser_core.rs::_sequence_kernel", "parser/src/parser_core.rs::_and_predicate_kernel"]}
{"id": "C23", "title": "Node text extraction is total on ASCII input", "statement": "get_string of any node of an AST of an ASCII input never panics and is exactly the matched text; for arbitrary UTF-8 input it can panic only if a span boundary falls inside a multi-byte character.", "quantifier": "all left-recursion-free, hook-free grammars, ASCII inputs, nodes", "why_tests_cant": "All nodes of all trees.", "anchors": ["parser/src/publisher.rs::Node::get_string"]}
{"id": "C24", "title": "The grammar-DSL parser is total", "statement": "parse() of the grammar DSL crate terminates without panic on every input string (whose node bound fits 32-bit keys), i.e. arbitrary garbage can not hang or crash it.", "quantifier": "all byte strings as input", "why_tests_cant": "Infinitely many inputs; divergence of one repetition would be enough.", "anchors": ["parser/src/parser.rs", "parser/src/parse.rs::parse"]}
{"id": "C25", "title": "The grammar-DSL parser implements its published grammar", "statement": "The outcome of parse() of the grammar DSL crate on any input is the outcome of the PEG written in Grammar.dsl.", "quantifier": "all byte strings as input", "why_tests_cant": "Infinitely many inputs; the generated code and the grammar file could disagree in one alternative.", "anchors": ["parser/src/parser.rs", "parser/Grammar.dsl"]}
{"id": "C26", "title": "Left recursion never panics and is always unwound", "statement": "Rule calls through the left-recursive entry never panic for lack of an active recursion or recursion head, and after any top-level call the context is back to 'no left recursion active'.", "quantifier": "all generated parsers with arbitrary left-recursive rules and involved sets, all inputs", "why_tests_cant": "Nested and interleaved growth states are unbounded.", "anchors": ["parser/src/var_name.rs::_var_name_kernel_indirect_left_recursion", "parser/src/var_name.rs::should_go_into_growth_function", "parser/src/cache.rs"]}
{"id": "C27", "title": "Seed growing terminates and only ever lengthens the match", "statement": "Growing a left-recursive rule at a position takes at most length - position + 1 body evaluations, each accepted one consuming strictly more than the one before.", "quantifier": "all generated parsers, all inputs", "why_tests_cant": "Iteration counts are unbounded.", "anchors": ["parser/src/var_name.rs::growth_function"]}
{"id": "C28", "title": "Left-recursive matches are derivable", "statement": "Whatever span a parser (with left-recursive rules, predicates and hook-free) reports for a rule is derivable from that rule in the context-free reading of the grammar (choice unordered, predicates erased): left-recursion support never invents matches.", "quantifier": "all hook-free grammars with arbitrary left recursion, all inputs", "why_tests_cant": "All growth histories.", "anchors": ["parser/src/var_name.rs::growth_function", "parser/src/var_name.rs::_var_name_kernel_indirect_left_recursion"]}
{"id": "C29", "title": "A directly left-recursive rule parses like seed followed by repetition", "statement": "For a rule A = (A , t) / s whose t and s do not involve left recursion, calling A gives: s, then as many t as possible, greedily - the same outcome as the PEG s , t* (with at least the seed), for every input, provided s and t consume input whenever they succeed.", "quantifier": "all such rules, all inputs and positions", "why_tests_cant": "Unbounded growth.", "anchors": ["parser/src/var_name.rs::growth_function", "parser/src/var_name.rs::_var_name_kernel_indirect_left_recursion"]}
{"id": "C30", "title": "Left-recursive rules build left-associative trees", "statement": "Whenever parse of any hook-free program - left recursion of any kind included - succeeds, the match has a derivation from the grammar (ordered and greedy wherever no left recursion is involved) all of whose non-empty rule applications are in the returned tree, each below the node of the rule that called it; below rules that use left recursion only at the left end of alternatives they are also in order. In the derivation every node of a rule A = A t1 / .. / s1 / .. is a left spine: a seed, or an inner A node over the same start followed by what one of the t's derives from where that A ends; for A = A t / s the spine is the unique chain of a seed and consecutive t's. The tree may contain more: a second attempt at a left-recursive rule leaves the first result below the new seed (a child wider than its parent), and with left recursion in the middle of an alternative the order of children can be lost.", "quantifier": "all hook-free programs, all inputs", "why_tests_cant": "Unbounded nesting; the tree depends on the whole history of growth rounds and memo entries.", "anchors": ["parser/src/var_name.rs::growth_function", "parser/src/var_name.rs::_var_name_kernel_indirect_left_recursion", "parser/src/publisher.rs::BasicPublisher::connect", "parser/src/publisher.rs::BasicPublisher::connect_if_not_connected"]}
{"id": "C31", "title": "Hooked duplicate-line filter accepts exactly fresh lines", "statement": "In the external-call example the hooked rule succeeds on a line iff the rule itself matches and this text has not been accepted before in the same parse; so for every UTF-8 input the parser answers, without panic, with the end of the longest run of pairwise different lines (failing iff there is no line at the start), its user state holds exactly these lines, and the returned tree has one node per line.", "quantifier": "all inputs, all histories of accepted lines", "why_tests_cant": "Unbounded histories in user state.", "anchors": ["examples/example_11_external_rule_call_parser/src/hooked_calls.rs", "examples/example_11_external_rule_call_parser/src/user_state.rs", "examples/example_11_external_rule_call_parser/src/parser.rs"]}
{"id": "C32", "title": "Symbol table is exactly the set of declared rules", "statement": "The names of the symbol table are the declared rule names, each once, sorted; a name is reported inline iff some declaration of it carries the Inline instruction; the generated enum size equals the number of listed non-inline names.", "quantifier": "all cleaned grammar syntax trees", "why_tests_cant": "All grammars.", "anchors": ["generator/src/symbol_table.rs::SymbolTable", "generator/src/constructor.rs::GeneratedCode::rules_enum_file_content"]}
{"id": "C33", "title": "Left-recursion detection is exact for leftmost calls", "statement": "A rule is compiled with the left-recursion entry iff from it one can reach, by following leftmost rule references (as the detector defines them), a rule on a cycle of leftmost references (a leftmost reference to an undeclared rule makes the generator panic instead); neither the detected rules nor the generated code depend on hash-map iteration order.", "quantifier": "all grammars, all hash iteration orders", "why_tests_cant": "Hash iteration order is random per run; fixpoints over all graphs.", "anchors": ["generator/src/cycle_detector.rs::LeftRecursionDetector", "generator/src/cycle_detector.rs::RuleCallTree::cleanup_left_most_called_rules"]}
{"id": "C34", "title": "Involved sets are the reachable left-recursive rules", "statement": "The involved set computed for a left-recursive rule is the rule itself together with all left-recursive rules reachable from it via leftmost references; independent of iteration order; the computation terminates, and panics iff some rule has a leftmost reference to an undeclared rule.", "quantifier": "all grammars, all hash iteration orders", "why_tests_cant": "Fixpoint over all graphs and orders.", "anchors": ["generator/src/cycle_detector.rs::RuleCallTree::merge_dependent_sets", "generator/src/cycle_detector.rs::RuleCallTree::create_involved_sets"]}
{"id": "C35", "title": "Left-recursion detection: what is found and what is missed", "statement": "If, whenever a rule n may try a rule m before consuming anything and m may lead back to n in the same way, that reference is one the detector looks at (first element of a sequence, not the last alternative, not inside e* or e?), then every rule that can call itself without consuming input is compiled with the left-recursion entry and the generated parser answers on every input. Otherwise left recursion may be missed: for <B>='a'/(<B>,'b') the generator emits a plain call and the generated parser recurses for ever although the file is compiled without complaint.", "quantifier": "all grammar files, rules and inputs", "why_tests_cant": "All grammars and all inputs; divergence is not observable by a test.", "anchors": ["generator/src/cycle_detector.rs::LeftRecursionDetector", "generator/src/cycle_detector.rs::RuleCallTree::get_left_most_called_rules_of_rule"]}
{"id": "C36", "title": "Generated code is well-scoped and means what the grammar says", "statement": "The statement list emitted for a rule defines each closure before it is used, uses each closure variable consistently, and running the statements builds exactly the combinator expression described by the rule's right-hand side: n-ary sequences and choices keep all their items in order.", "quantifier": "all rule right-hand sides", "why_tests_cant": "All nesting shapes and arities.", "anchors": ["generator/src/binary_wo.rs::BinaryTreeWO", "generator/src/constructor.rs::GeneratedCode"]}
{"id": "C37", "title": "Syntax error line numbers are right", "statement": "count_lines(source, position) is one plus the number of newline bytes before the position; the generator reports a syntax error exactly when the file spells no list of rules (and is not empty), and the line it reports is that of the place where complete rules end and no further rule can be read.", "quantifier": "all sources and positions", "why_tests_cant": "All sources and positions.", "anchors": ["generator/src/lib.rs::count_lines", "generator/src/lib.rs::generate_parser"]}
{"id": "C38", "title": "Which files are compiled", "statement": "generate_parser produces code exactly when the file spells a list of rules in the concrete syntax of the DSL (or is empty: the success flag of the parse is ignored), every leftmost reference is declared, and no rule uses what the generator cannot emit (decimal literals, empty quotes as a range bound, hex numbers that are too large, empty comments); the code is that of these rules, which the file determines uniquely.", "quantifier": "all files", "why_tests_cant": "Only specific inputs exhibit it.", "anchors": ["generator/src/lib.rs::generate_parser"]}
{"id": "C39", "title": "Hand-written files survive regeneration and crashes", "statement": "Running the runner on an existing target never changes the contents of hooked_calls.rs and user_state.rs that exist there, no matter in which order directory entries are listed and no matter where the process is killed.", "quantifier": "all file-system states, listing orders and crash points", "why_tests_cant": "Crash points and directory orders.", "anchors": ["runner/src/data.rs::DataGenerator::copy_dir_contents_to_dir", "runner/src/data.rs::DataGenerator::generate_data"]}
{"id": "C40", "title": "Regeneration is complete and idempotent", "statement": "After a successful run every other file of the target equals the runtime's file, with rules.rs, parser.rs and main.rs the freshly generated ones and sample_main.txt removed; files of the target that the runtime does not have stay; running twice gives the same state as running once; a crashed or failed run followed by a complete run gives the same state as a complete run, except that a hand-written file that did not exist before may stay a cut-off copy of the template for good; a grammar the generator rejects leaves the disk untouched; regenerating the runtime directory in place empties its files.", "quantifier": "all file-system states, listing orders and crash points", "why_tests_cant": "Crash points and directory orders.", "anchors": ["runner/src/data.rs::DataGenerator::generate_data"]}
{"id": "C41", "title": "The shipped arithmetic examples parse their language", "statement": "For every input shorter than 2^32 bytes, the generated parsers of examples 1, 3, 4, 5, 6 and 10 (direct, indirect and mutual left recursion) give exactly the success flag and end position of a hand-written, iterative PEG of the same language (left recursion replaced by repetition), or stop because 2^32 tree nodes were used.", "quantifier": "all inputs, for each of six shipped parsers", "why_tests_cant": "The input is arbitrary; left recursion interacts with memoisation in input-dependent ways.", "anchors": ["examples/*/src/parser.rs", "parser/src/var_name.rs::_var_name_direct_left_recursion_kernel"]}
{"id": "C42", "title": "Re-entering a growing rule elsewhere", "statement": "While a left-recursive rule is being grown, calling a rule of its involved set at another position at which nothing is memoised for it fails at once; so a grammar like E = E '-' E / N does not re-enter E on the right.", "quantifier": "all programs, states and positions", "why_tests_cant": "Depends on the state of the whole recursion.", "anchors": ["parser/src/var_name.rs::_var_name_direct_left_recursion_kernel"]}
{"id": "C43", "title": "Left-recursive matches are not maximal", "statement": "The span matched by a left-recursive rule may be shorter than the longest derivable one: a concrete grammar and input where the parser stops after one character although the whole input is derivable.", "quantifier": "existence (refutes a universally quantified expectation)", "why_tests_cant": "A universally quantified expectation is refuted.", "anchors": ["parser/src/var_name.rs::_var_name_direct_left_recursion_kernel"]}
{"id": "C44", "title": "Repetition over something that succeeds without consuming never ends", "statement": "e* and e+ loop for ever when e succeeds without consuming input at some position they reach: no number of steps makes the parser answer.", "quantifier": "all sub-parsers, states and positions", "why_tests_cant": "Divergence is not observable by a test.", "anchors": ["parser/src/parser_core.rs::_zero_or_more_kernel"]}
{"id": "C45", "title": "Comments cannot inject code", "statement": "Whatever bytes a comment in a grammar file contains, no comment line written to parser.rs contains a line break: comment text never becomes code.", "quantifier": "all grammar files", "why_tests_cant": "All comment contents.", "anchors": ["generator/src/constructor.rs::GeneratedCode::comment"]}
{"id": "C46", "title": "The generator always comes to an end", "statement": "For every valid UTF-8 file of less than 143 MB and every hash iteration order, generate_parser returns: a syntax error, code, or a panic, and exactly one of the three as characterised by the rules the file spells; cleaning the syntax tree never runs out of keys.", "quantifier": "all grammar files, all hash iteration orders", "why_tests_cant": "Termination for all inputs.", "anchors": ["generator/src/lib.rs::generate_parser", "generator/src/cycle_detector.rs::RuleCallTree"]}
{"id": "C47", "title": "A generated parser means what its grammar file says", "statement": "Take any grammar file whose references are declared, without hooks, '' literals and escaped range bounds, which the generator compiles and rustc accepts. Started at any of its rules, the generated parser gives exactly the answer of the parsing-expression reading of the file (ordered choice, greedy repetition, predicates) when no rule is left-recursive; every node of the returned tree names a rule of the file that matches the span of the node; with left recursion every match is derivable from the rules of the file. The reading is unambiguous. The excluded literals really are compiled wrongly.", "quantifier": "all grammar files, rules, inputs and numbers of steps", "why_tests_cant": "Quantifies over all grammars and all inputs at once.", "anchors": ["generator/src/lib.rs::generate_parser", "generator/src/binary_wo.rs::BinaryTreeWO", "parser/src/parser_core.rs", "parser/src/var_name.rs"]}
{"id": "C48", "title": "A generated parser answers on every input", "statement": "If moreover no repetition in the file is over something that may match nothing, and every rule that can call itself without consuming input is one the left-recursion detector finds, then the generated parser answers on every input (or runs out of 2^32 node keys); without left recursion, and when (number of rules) * (length + 1) < 2^32, it answers, so the reading of the file is total.", "quantifier": "all grammar files, rules and inputs", "why_tests_cant": "Termination for all grammars and inputs.", "anchors": ["generator/src/lib.rs::generate_parser", "parser/src/parser_core.rs", "parser/src/var_name.rs"]}
{"id": "C49", "title": "The shipped crates are the generated ones", "statement": "For the DSL's own grammar and the eleven examples, whatever the hash iteration orders, the generator turns the .dsl file of the repository into exactly the functions, imports, enum and size of the checked-in crate; so the checked-in parser of grammar files means what Grammar.dsl says, Grammar.dsl describes the concrete syntax of grammar files (the bootstrap is closed), and the checked-in examples 1-10 answer on every input and match only what their .dsl file derives.", "quantifier": "all hash iteration orders; all inputs of the shipped parsers", "why_tests_cant": "All inputs and orders.", "anchors": ["generator/src/lib.rs::generate_parser", "parser/Grammar.dsl", "parser/src/parser.rs", "parser/src/rules.rs", "examples/*/src/parser.rs", "examples/*/src/rules.rs"]}
{"id": "C50", "title": "The text written to parser.rs and rules.rs means the rules", "statement": "Read as Rust (tokens, comments, attributes, items, let statements; an independent reader), the two files the generator writes for a grammar file declare exactly one function per rule in the order of the file, the hook imports, the enum variants and the size constant, and every function is the combinator expression of its rule - whenever names and literals are ones rustc accepts. Two files that differ only in comments, whatever the comments contain, give files that read the same. Literals are not as harmless: a backslash before a closing quote turns the next literal of the grammar into code (a concrete file).", "quantifier": "all grammar files, all hash iteration orders, all Debug renderings of characters", "why_tests_cant": "All names, literals, comments and nestings; text-level escapes only show on particular inputs.", "anchors": ["generator/src/constructor.rs::GeneratedCode::parser_file_content", "generator/src/constructor.rs::GeneratedCode::rules_enum_file_content", "generator/src/binary_wo.rs::BinaryTreeWO::to_string"]}
{"id": "C51", "title": "The checked-in sources are what the generator writes", "statement": "The verbatim bytes of parser.rs and rules.rs of the DSL crate and of the eleven examples, read as Rust, declare the functions, imports, variants, size and expressions the other theorems speak about; and whatever the generator writes for the .dsl file of the same crate (any hash order) reads the same.", "quantifier": "all hash iteration orders, twelve shipped crates", "why_tests_cant": "All iteration orders; equality of meaning of whole files.", "anchors": ["parser/src/parser.rs", "parser/src/rules.rs", "examples/*/src/parser.rs", "examples/*/src/rules.rs", "generator/src/lib.rs::generate_parser"]}
{"id": "C52", "title": "When nothing is given up after a success, the tree is the parse tree", "statement": "Call a grammar tidy when every alternative, optional part or repetition body that can be given up either makes no rule call or fails at its first failing rule call, and lookaheads make no rule call. For every tidy grammar without hooks, every input under 4 GiB and any number of steps: if parse succeeds, the tree returned is exactly a (left-recursive) derivation of the input, laid out left to right with no abandoned, repeated or missing node; without left recursion it is the derivation of the PEG match; and if parse fails, the tree is empty. The arithmetic examples 1, 3 and 4 are tidy; the DSL grammar is not.", "quantifier": "all tidy grammars, inputs and numbers of steps", "why_tests_cant": "Quantifies over all grammars and inputs; memo hits inside left-recursive growth can misplace children only on special inputs.", "anchors": ["parser/src/parser_core.rs", "parser/src/context.rs", "parser/src/publisher.rs", "parser/src/var_name.rs", "examples/example_3_basic_maths/src/parser.rs", "examples/example_4_full_maths/src/parser.rs"]}
{"id": "C53", "title": "The example calculators compute what is written", "statement": "evaluate_tree on the tree of examples 1, 3 and 4: whatever text the parser accepts is the text of exactly one arithmetic expression (usual precedence, + - * / associating to the left, ^ to the right, brackets), every such expression is accepted to its end, and the number returned is its value in 64-bit arithmetic - the mathematical value whenever all parts fit and exponents are below 2^32 - or a panic when a part overflows, divides by zero or has a fraction or exponent part. Input that is rejected is no expression, and then example 1 returns 0 and the others panic.", "quantifier": "all inputs (UTF-8, under 4 GiB), all expressions of any size and nesting", "why_tests_cant": "All expressions of any nesting; precedence and associativity come out of left-recursive seed growing, memoisation and tree pruning together.", "anchors": ["examples/example_1/src/lib.rs::evaluate_tree", "examples/example_3_basic_maths/src/lib.rs::evaluate_tree", "examples/example_4_full_maths/src/lib.rs::evaluate_tree", "parser/src/publisher.rs::BasicPublisher::clear_false", "parser/src/var_name.rs"]}
{"id": "C54", "title": "Left-recursive parsers do not run out of node keys on ordinary input", "statement": "The number of tree nodes a generated parser makes is bounded by an explicit quadratic function of the length of the input (rules through the memo table make one node per position, each growth of a left-recursive rule one per round and involved rule), provided no memoised rule needs itself again at the same position. When the bound is at most 2^32 the parser answers instead of panicking, and for tidy grammars the returned tree is linear in the length of the match, so that parse and evaluate_tree answer too: the checked-in examples 1, 3, 4, 5, 6 and 10 answer what their grammar says on every input of up to 12000, 5000, 5000, 26000, 13000 and 26000 bytes, and the calculators of examples 1, 3 and 4 compute on every such input.", "quantifier": "all programs meeting the stated conditions, all inputs up to the stated lengths", "why_tests_cant": "All inputs; key exhaustion needs 2^32 nodes, which no test creates.", "anchors": ["parser/src/publisher.rs::BasicPublisher::reserve_publisher_entry", "parser/src/var_name.rs", "parser/src/context.rs", "parser/src/parser_core.rs", "examples/*/src/parser.rs"]}
{"id": "C55", "title": "The JSON grammar of the examples directory", "statement": "examples/json_parser/json.dsl is a grammar file and the generator writes code for it, but under no hash order and no formatting of characters is what it writes Rust: the literal of the rule <wsc> contains a bare carriage return. Without that (unused) rule it is, and the generated parser then answers on every input of up to 2^32/19 bytes exactly what the file says; strings it matches never contain a backslash, so no JSON text with escapes is accepted.", "quantifier": "all hash iteration orders and Debug renderings; all inputs", "why_tests_cant": "All iteration orders and inputs.", "anchors": ["examples/json_parser/json.dsl", "generator/src/lib.rs::generate_parser", "generator/src/constructor.rs::GeneratedCode::parser_file_content"]}
{"id": "C56", "title": "A generated left-recursive parser answers on every ordinary input", "statement": "For every grammar file without repetitions of possibly empty bodies whose left recursion the generator detects, the generated parser answers on every input for which an explicit quadratic bound (from the number of rules, the size of the recursion sets and the number of left-recursive calls reachable without a memo entry) stays within 2^32; if it matches, the match is derivable from the rules; if it fails, the position is 0. The ten example parsers with a Grammar start rule therefore answer on every input of up to 12000, 21000, 5000, 5000, 26000, 13000, 18000, 13000, 9000 and 26000 bytes respectively.", "quantifier": "all grammar files meeting the conditions, all hash iteration orders, all inputs within the bound", "why_tests_cant": "All grammars and inputs; neither termination nor key exhaustion can be observed by a test.", "anchors": ["generator/src/lib.rs::generate_parser", "parser/src/publisher.rs::BasicPublisher::reserve_publisher_entry", "parser/src/var_name.rs", "parser/src/context.rs", "parser/src/parser_core.rs", "examples/*/src/parser.rs"]}
{"id": "C57", "title": "Left recursion through several rules", "statement": "When rules call each other as first element in a cycle (a = b x | .., b = c y | .., c = a z | ..), calling the first rule of the cycle means: take the first of its own alternatives that does not lead round the cycle as seed, then go round - every rule in turn puts its tail behind the match so far, or falls back on its own non-recursive alternatives - until a round does not make the match longer. This determines the answer, independently of earlier calls of code without left recursion; when only the first rule has seeds it is 'seed, then as many rounds of tails as fit'. Hence examples 7, 8 and 9 match exactly digit('-'digit)* and example 2 exactly a(ba)* on every input of up to 18000, 13000, 9000 and 21000 bytes. A rule of a cycle whose own non-recursive alternatives fail never matches when it is the one called first, though matches are derivable from it.", "quantifier": "all cycles of rules of any length and number of alternatives, all inputs and positions, all earlier non-left-recursive calls", "why_tests_cant": "All cycle lengths, alternatives and inputs; the order in which memo entries of involved rules are overwritten decides the result.", "anchors": ["parser/src/var_name.rs", "parser/src/context.rs", "examples/example_2_parser/src/parser.rs", "examples/example_7_indirect_lr_num_parser/src/parser.rs", "examples/example_8_indirect_lr_3_level_parser/src/parser.rs", "examples/example_9_indirect_lr_5_level_parser/src/parser.rs"]}
{"id": "C58", "title": "The tool as a whole: from the grammar file on disk to what the installed program prints", "statement": "Call a grammar file accepted when (by looking at its rules only) its references are declared, it uses no hooks, its literals are ASCII that survives pasting into Rust, no two names agree up to case or are Rust keywords, left-recursive rules are not Inline and no comment is empty. For every accepted file, whatever the iteration orders of the hash tables: the generator compiles it and rustc accepts the result; running the command-line tool in a workspace with the runtime next to it, to a package that need not exist yet, ends normally and leaves in the package's src the runtime (hand-written files as they were), a main.rs that imports the package under its Rust name, and a parser.rs and rules.rs whose every rule matches only what the file derives, answers on every input (or runs out of keys) when left recursion is visible, and without left recursion computes the parsing-expression meaning of the file; also after earlier runs killed anywhere. Files that do not compile change nothing on disk. The installed program prints the parse tree (without left recursion every line names a rule and a span it matches), the result of rule Grammar, and says that the input was not parsed to its end exactly when it was not (except that an empty input that fails is not reported), and exits with 0 either way. --offline before the package exists writes nothing and still exits with 0.", "quantifier": "all accepted grammar files, hash orders, disks, kill points of earlier runs, inputs", "why_tests_cant": "All grammar files, disk contents, kill points and inputs; the statement spans generator, emitted text, file handling and runtime.", "anchors": ["runner/src/main.rs", "runner/src/data.rs::DataGenerator::generate_data", "generator/src/lib.rs::generate_parser", "generator/src/constructor.rs::GeneratedCode::sample_main_header", "parser/src/sample_main.txt", "parser/src/parse.rs::parse", "generator/src/constructor.rs::GeneratedCode::parser_file_content"]}
{"id": "C59", "title": "print shows the tree", "statement": "print(key, mode), called with any key handed out so far, prints the tree below that node: parents before their children, children in the order they were connected and one level deeper, each line with rule, span, result and number of children; with Some(b) only nodes whose result is b and nothing below the others. It never meets a key 0 among children and always terminates. For the tree that parse returns, print(Key(0), Some(true)) leaves nothing out, and the printed lines determine the tree.", "quantifier": "all programs, inputs, sessions of any length, keys and modes", "why_tests_cant": "All node stores a parser can build, left recursion included; absence of cycles and of key 0 among children.", "anchors": ["parser/src/publisher.rs::BasicPublisher::print", "parser/src/publisher.rs::BasicPublisher::print_kernel_true", "parser/src/publisher.rs::BasicPublisher::print_kernel_false", "parser/src/publisher.rs::BasicPublisher::print_kernel_all", "parser/src/publisher.rs::Node::print"]}
{"id": "C60", "title": "The release build of a generated parser computes what the debug build computes", "statement": "For every generated parser, left-recursive rules included, every input of less than 2^32 bytes, every history of earlier calls and every start position within the input, the library built without overflow checks and debug assertions returns the same answer, leaves the same memo table and node store and delivers the same tree as the debug build (or runs out of node keys where it does). The same holds with hooks that keep to the contract of the kernels and do not depend on the profile. Outside that use the builds differ.", "quantifier": "all programs, inputs under 4 GiB, sessions, start positions", "why_tests_cant": "All inputs and histories; the differing behaviours (a position wrapping at 2^32, a node connected to itself) need inputs or histories no test has.", "anchors": ["parser/src/parser_core.rs", "parser/src/var_name.rs", "parser/src/publisher.rs::BasicPublisher::connect", "parser/src/publisher.rs::BasicPublisher::clear_false", "parser/src/parse.rs::parse"]}
{"id": "C61", "title": "The tree of left recursion, direct and through several rules", "statement": "For rules that call each other round a cycle (or one rule that calls itself), where nothing given up leaves a completed rule call behind: the tree that parse returns is the tree the rounds build - every node has the node of the next rule of the cycle, at the same position, as its first child, followed by what its tail matched - and nothing else; it is determined by the grammar and the input, its end is the end of the match, and a failed parse returns an empty tree. When the other rules' own alternatives do not match (always, for a rule that calls itself) the tree is left-nested: seed innermost, each round wrapped round the one before, growing at every round. Hence examples 5, 7, 8 and 9 return for d-d-..-d the tree of (((d-d)-d)-..-d) on every input of up to 26000, 18000, 13000 and 9000 bytes, and example 2's evaluate_tree gives back exactly the text that was matched on every input of up to 21000 bytes.", "quantifier": "all cycles of rules of any length, all inputs", "why_tests_cant": "All cycle lengths and inputs; nodes of abandoned rounds share the store, and the memo table decides which of them ends up in the tree.", "anchors": ["parser/src/var_name.rs", "parser/src/context.rs", "parser/src/publisher.rs::BasicPublisher::clear_false", "examples/example_2/src/lib.rs::evaluate_tree", "examples/example_2_parser/src/parser.rs", "examples/example_5_lr_num_parser/src/parser.rs", "examples/example_7_indirect_lr_num_parser/src/parser.rs", "examples/example_8_indirect_lr_3_level_parser/src/parser.rs", "examples/example_9_indirect_lr_5_level_parser/src/parser.rs"]}
{"id": "C62", "title": "Left recursion on several levels", "statement": "When left-recursive rules build on each other (term = term '+' fact | .. | fact; fact = fact '*' num | .. | num), each level one rule calling itself or a cycle of rules, and nothing given up leaves a completed rule call behind, then parse returns exactly the tree the levels prescribe: at each place the first rule of a level grows its match round by round, taking as operands what the levels below give there, whatever the interleaving of the recursions; a level is computed once per position and its node reused afterwards. The tree is determined by the grammar and the input; a failed parse returns an empty tree. Hence example 6 returns, on every input of up to 13000 bytes, the left-nested tree of the longest sum of longest left-nested products of digits, or failure with an empty tree when the input does not start with a digit; '*' binds tighter than '+', and an operator without operand is left unread.", "quantifier": "all grammars with any number of levels, all inputs", "why_tests_cant": "All stacks of levels and inputs: a recursion that starts while another is active suspends it, and heads and memo entries of both persist across rounds.", "anchors": ["parser/src/var_name.rs", "parser/src/context.rs", "examples/example_6_term_and_fact_parser/src/parser.rs", "parser/src/publisher.rs::BasicPublisher::clear_false"]}
{"id": "C63", "title": "The RefCells of a parse are never borrowed in conflict", "statement": "A parse keeps its tables in one RefCell (the context) and the user's data in another (the user state). No rule call, left-recursive or not, memoised or not, ever panics with 'already borrowed' or 'already mutably borrowed': every borrow has ended before another closure is called, and at the end of a call both cells are as free as they were before it. Hand-written hooks keep this up if they let go of both cells before they call the closure they wrap; the shipped one does. A hook that holds the context while the closure makes a rule call always panics; one that holds the user state panics as soon as another such hook runs below it.", "quantifier": "all programs, inputs, sessions and expressions; all hooks that neither hold a cell across the closure they wrap nor run into a conflict themselves; every state of the user state cell when there are no hooks", "why_tests_cant": "a borrow conflict shows only on the nesting of calls that meets it; tests exercise a few nestings", "anchors": ["parser/src/var_name.rs: memoized_behaviour, default_behaviour, _var_name_kernel, _var_name_kernel_growth_function, should_go_into_growth_function, _var_name_kernel_indirect_left_recursion", "parser/src/parse.rs: parse", "examples/example_11_external_rule_call_parser/src/hooked_calls.rs: unique_line_cache"]}
{"id": "C64", "title": "The order of alternatives that exclude each other matters in left-recursive grammars", "statement": "In a PEG, swapping two neighbouring alternatives of which at most one can match at any position changes nothing. Parsers generated from left-recursive grammars do not keep to this: with Term = Term + Fact / Neg / Fact, where Fact is left-recursive and Neg starts with a minus, every input is parsed as a sum of products; with the last two alternatives swapped, Fact becomes part of Term's involved set (the detector looks at all alternatives but the last) and is no longer grown inside Term, so that 1+2*3 is only taken up to 1+2. In general, while a recursion is active, a call of a rule in its involved set is never grown, at any position: it runs once, or takes what is memoised, or fails.", "quantifier": "all inputs for the first grammar; the swap property for all inputs, refuted for the second", "why_tests_cant": "a test of either grammar alone passes or fails without showing that the order is the cause; the positive half is about all inputs", "anchors": ["generator/src/cycle_detector.rs: LeftRecursionDetector", "parser/src/var_name.rs: should_go_into_growth_function, _var_name_kernel_indirect_left_recursion"]}
