import json
P=[]
def p(title, statement, quantifier, why, *anchors):
    P.append(dict(id="C%02d"%(len(P)+1), title=title, statement=statement, quantifier=quantifier, why_tests_cant=why, anchors=list(anchors)))

PC="parser/src/parser_core.rs"; VN="parser/src/var_name.rs"; PB="parser/src/publisher.rs"; SR="parser/src/source.rs"; PA="parser/src/parser.rs"; PS="parser/src/parse.rs"; CA="parser/src/cache.rs"; CX="parser/src/context.rs"
GL="generator/src/lib.rs"; ST="generator/src/symbol_table.rs"; CD="generator/src/cycle_detector.rs"; CO="generator/src/constructor.rs"; BW="generator/src/binary_wo.rs"; RD="runner/src/data.rs"

p("Combinators never move backwards, restore on failure, stay inside the input",
  "Whatever expression is parsed at a position inside the input: if it fails the position handed back is the position it was called with; if it succeeds the position is not smaller than the start and not larger than the source length.",
  "all generated parsers without left recursion, all inputs, all positions, all reachable parser states (memo contents)",
  "A test runs one grammar on one input; the claim is about every composition of combinators and every memo state.",
  PC+"::_sequence_kernel",PC+"::_ordered_choice_kernel",VN+"::_var_name_kernel")
p("Predicates consume nothing",
  "&e succeeds exactly when e succeeds and !e exactly when e fails; both hand back the position they were called with, whatever e consumed.",
  "all sub-parsers (arbitrary closures), positions and parser states",
  "e is an arbitrary closure with arbitrary effects on the memo table and tree.",
  PC+"::_and_predicate_kernel",PC+"::_not_predicate_kernel")
p("Repetition is greedy and counts correctly",
  "e* always succeeds and stops at the first position at which e fails, after chaining the successes of e; e+ fails without consuming iff e fails at the start and otherwise behaves like e followed by e*; e? always succeeds and consumes what e consumes, or nothing.",
  "all sub-parsers, positions, parser states and iteration counts",
  "The number of iterations is unbounded.",
  PC+"::_zero_or_more_kernel",PC+"::_one_or_more_kernel",PC+"::_optional_kernel")
p("Ordered choice is prioritised and backtracks",
  "a / b gives a's result when a succeeds (b is never run); otherwise it runs b from the original position, and fails at the original position when both fail.",
  "all sub-parsers, positions and states", "Quantifies over arbitrary alternatives and states.",
  PC+"::_ordered_choice_kernel")
p("Sequence is all-or-nothing",
  "a , b succeeds iff a succeeds and b succeeds from where a stopped, ending where b ended; in every other case it fails and hands back the start position; b is never run if a fails.",
  "all sub-parsers, positions and states", "Quantifies over arbitrary components and states.",
  PC+"::_sequence_kernel")
p("String literals match exactly and atomically",
  "A string literal succeeds iff the source bytes starting at the position are exactly the literal's bytes; then it consumes exactly that many bytes, otherwise it consumes nothing. It never reads out of bounds and never panics.",
  "all byte strings, sources shorter than 2^32 bytes and positions (also past the end)", "All literals, all positions including the last partial match at the end of input.",
  PC+"::_string_terminal_opt_ascii_kernel",SR+"::Source::get_char")
p("Character and range terminals are exact and safe at the end of input",
  "'c' succeeds iff the byte at the position is c, [a..b] iff the byte is between a and b inclusive; success consumes exactly one byte, failure none; at or past the end both fail without panicking.",
  "all bytes/bounds, sources shorter than 2^32 bytes and positions", "All 256 bytes at every position of every source.",
  PC+"::_terminal_kernel",PC+"::_ordered_choice_match_range_kernel")
p("Source accessors are exact",
  "get_char(i) is the i-th byte, None past the end; get_string(a,b) is exactly the bytes a..b or None when a bound exceeds the length, and panics exactly when a > b or a bound is not on a character boundary; get_multiple_chars(i,n), when it answers, answers the n bytes from i.",
  "all sources, positions and lengths", "All positions and lengths, including the boundary ones.",
  SR+"::Source::get_char",SR+"::Source::get_multiple_chars",SR+"::Source::get_string")
p("get_multiple_chars refuses exactly the requests that reach the end of the source",
  "get_multiple_chars(i,n) answers None exactly when i+n >= length and otherwise the n bytes from i; so, contrary to what a caller expects, the last n bytes of a source can never be fetched with it (the natural claim 'answers whenever i+n <= length' is refuted by a concrete source).",
  "all sources, positions and lengths", "Only the exact boundary exhibits the defect.",
  SR+"::Source::get_multiple_chars")
p("Packrat soundness: every answer is the PEG answer",
  "If a generated parser without left recursion and without hooks answers (success/failure, position) on an input then parsing-expression-grammar semantics (memo-free) derives exactly this outcome for the start rule.",
  "all such grammars, all inputs, unbounded recursion", "The memo table may serve a wrong entry only for particular rule/position histories.",
  PC,VN+"::_var_name_kernel",CA+"::BasicCache::check",CA+"::BasicCache::push")
p("Packrat completeness: whenever the PEG has an answer the parser gives it",
  "If PEG semantics derives an outcome for the start rule on an input then the generated parser terminates without panicking and returns exactly this outcome (provided the node store does not outgrow its 32-bit keys).",
  "all left-recursion-free, hook-free grammars, all inputs shorter than 2^32 bytes", "Requires absence of panics and divergence over all inputs.",
  PC,VN+"::_var_name_kernel",PB+"::BasicPublisher::add_node")
p("Memoisation is transparent",
  "A rule called at a position in any context reached by earlier rule calls gives the same success flag and end position as in a fresh context, no matter what was parsed before (backtracking, lookahead, other rules).",
  "all grammars without left recursion/hooks, all histories of earlier rule calls on the same context", "Histories are unbounded.",
  VN+"::_var_name_kernel",CX+"::BasicContext::check")
p("Packrat bound: one tree node per rule and position",
  "After any parse the raw syntax-tree store holds at most 1 + (number of memoised rules)*(length+1) nodes, i.e. each rule body runs at most once per input position; keys therefore cannot overflow when this bound is below 2^32.",
  "all left-recursion-free, hook-free grammars and all inputs, including ones exponential for naive backtracking", "A bound over all inputs.",
  VN+"::default_behaviour",VN+"::memoized_behaviour",PB+"::BasicPublisher::add_node")
p("Parsers never panic",
  "A generated parser without left recursion or hooks never panics (no index error, no arithmetic overflow, no self-connection assertion): whenever the grammar has an answer on the input and the node bound fits 32-bit keys the parser returns it, and in every other run the only panic that can occur is exhaustion of the 32-bit node keys.",
  "all such grammars and inputs", "All execution paths of all inputs.",
  PC,VN,PB+"::BasicPublisher::connect")
p("The syntax tree is the memo-free parse trace",
  "The raw tree reachable from the start node (rule, span, success flag and ordered children of every node) is exactly the call trace of a parser with no memo table: sharing memoised nodes never changes, drops or duplicates anything in the tree a user walks.",
  "all left-recursion-free, hook-free grammars, all inputs", "Memo hits attach previously built nodes; errors show up only for certain backtracking histories.",
  VN+"::default_behaviour",VN+"::memoized_behaviour",PB+"::BasicPublisher::connect")
p("The raw tree is a finite acyclic structure with valid keys",
  "Every child key stored in the tree refers to an existing node and walking children from any node terminates (no cycles); so tree walks such as print, clear_false and == terminate without index panics.",
  "all left-recursion-free, hook-free grammars, all inputs", "Acyclicity of an unboundedly large graph.",
  PB+"::BasicPublisher::print",PB+"::BasicPublisher::clear_false",VN)
p("clear_false keeps exactly the successful, non-empty nodes",
  "clear_false yields the tree in which every node that failed or matched the empty string is removed together with its subtree, and all other nodes keep rule, span, flag and order; its root is the start node.",
  "all node stores that are finite trees/DAGs with a successful root", "All tree shapes.",
  PB+"::BasicPublisher::clear_false",PB+"::BasicPublisher::clear_false_kernel")
p("clear_false is idempotent",
  "Running clear_false on an already cleared tree gives a tree equal (==) to it.",
  "all node stores as above", "All tree shapes.",
  PB+"::BasicPublisher::clear_false",PB+"::BasicPublisher::eq")
p("Tree equality is structural equality",
  "Two syntax trees compare equal (==) iff they have the same shape with the same rule, span and flag at each node, independent of the keys under which nodes are stored; hence == is reflexive, symmetric and transitive on finite trees.",
  "all pairs/triples of finite trees in any key layout", "All tree shapes and layouts.",
  PB+"::BasicPublisher::partial_eq_kernel",PB+"::Node::eq")
p("Every node of the returned AST is justified by the input",
  "For every node of the tree returned by parse other than the artificial root: the rule named by the node matches, per PEG semantics, the input from the node's start to the node's end; and the span is non-empty and inside the input.",
  "all left-recursion-free, hook-free grammars, inputs and nodes", "Every node of every tree.",
  PS+"::parse",VN+"::_var_name_kernel",PB+"::BasicPublisher::clear_false")
p("AST children lie to the right of their parent's start",
  "In every raw or cleaned tree a child's start is never before its parent's start, and every span satisfies start <= end <= length.",
  "all left-recursion-free, hook-free grammars, inputs, nodes", "Every node of every tree.",
  VN+"::default_behaviour",PB+"::Node")
p("The AST contains the successful derivation, and may contain more",
  "Every memoised rule application with a non-empty match that is part of the successful derivation appears in the returned tree, under its caller and in order; the tree can contain further nodes, left there by lookahead or abandoned alternatives, that end after their parent (the natural claim 'children end no later than their parent' is refuted by a concrete grammar and input).",
  "all left-recursion-free, hook-free grammars, inputs, nodes", "Needs a grammar whose alternative fails after a rule call or uses lookahead over a rule.",
  VN+"::default_behaviour",PC+"::_sequence_kernel",PC+"::_and_predicate_kernel")
p("Node text extraction is total on ASCII input",
  "get_string of any node of an AST of an ASCII input never panics and is exactly the matched text; for arbitrary UTF-8 input it can panic only if a span boundary falls inside a multi-byte character.",
  "all left-recursion-free, hook-free grammars, ASCII inputs, nodes", "All nodes of all trees.",
  PB+"::Node::get_string")
p("The grammar-DSL parser is total",
  "parse() of the grammar DSL crate terminates without panic on every input string (whose node bound fits 32-bit keys), i.e. arbitrary garbage can not hang or crash it.",
  "all byte strings as input", "Infinitely many inputs; divergence of one repetition would be enough.",
  PA,PS+"::parse")
p("The grammar-DSL parser implements its published grammar",
  "The outcome of parse() of the grammar DSL crate on any input is the outcome of the PEG written in Grammar.dsl.",
  "all byte strings as input", "Infinitely many inputs; the generated code and the grammar file could disagree in one alternative.",
  PA,"parser/Grammar.dsl")
p("Left recursion never panics and is always unwound",
  "Rule calls through the left-recursive entry never panic for lack of an active recursion or recursion head, and after any top-level call the context is back to 'no left recursion active'.",
  "all generated parsers with arbitrary left-recursive rules and involved sets, all inputs", "Nested and interleaved growth states are unbounded.",
  VN+"::_var_name_kernel_indirect_left_recursion",VN+"::should_go_into_growth_function",CA)
p("Seed growing terminates and only ever lengthens the match",
  "Growing a left-recursive rule at a position takes at most length - position + 1 body evaluations, each accepted one consuming strictly more than the one before.",
  "all generated parsers, all inputs", "Iteration counts are unbounded.",
  VN+"::growth_function")
p("Left-recursive matches are derivable",
  "Whatever span a parser (with left-recursive rules, predicates and hook-free) reports for a rule is derivable from that rule in the context-free reading of the grammar (choice unordered, predicates erased): left-recursion support never invents matches.",
  "all hook-free grammars with arbitrary left recursion, all inputs", "All growth histories.",
  VN+"::growth_function",VN+"::_var_name_kernel_indirect_left_recursion")
p("A directly left-recursive rule parses like seed followed by repetition",
  "For a rule A = (A , t) / s whose t and s do not involve left recursion, calling A gives: s, then as many t as possible, greedily - the same outcome as the PEG s , t* (with at least the seed), for every input, provided s and t consume input whenever they succeed.",
  "all such rules, all inputs and positions", "Unbounded growth.",
  VN+"::growth_function",VN+"::_var_name_kernel_indirect_left_recursion")
p("Left-recursive rules build left-associative trees",
  "Whenever parse of any hook-free program - left recursion of any kind included - succeeds, the match has a derivation from the grammar (ordered and greedy wherever no left recursion is involved) all of whose non-empty rule applications are in the returned tree, each below the node of the rule that called it; below rules that use left recursion only at the left end of alternatives they are also in order. In the derivation every node of a rule A = A t1 / .. / s1 / .. is a left spine: a seed, or an inner A node over the same start followed by what one of the t's derives from where that A ends; for A = A t / s the spine is the unique chain of a seed and consecutive t's. The tree may contain more: a second attempt at a left-recursive rule leaves the first result below the new seed (a child wider than its parent), and with left recursion in the middle of an alternative the order of children can be lost.",
  "all hook-free programs, all inputs", "Unbounded nesting; the tree depends on the whole history of growth rounds and memo entries.",
  VN+"::growth_function",VN+"::_var_name_kernel_indirect_left_recursion",PB+"::BasicPublisher::connect",PB+"::BasicPublisher::connect_if_not_connected")
p("Hooked duplicate-line filter accepts exactly fresh lines",
  "In the external-call example the hooked rule succeeds on a line iff the rule itself matches and this text has not been accepted before in the same parse; so for every UTF-8 input the parser answers, without panic, with the end of the longest run of pairwise different lines (failing iff there is no line at the start), its user state holds exactly these lines, and the returned tree has one node per line.",
  "all inputs, all histories of accepted lines", "Unbounded histories in user state.",
  "examples/example_11_external_rule_call_parser/src/hooked_calls.rs","examples/example_11_external_rule_call_parser/src/user_state.rs","examples/example_11_external_rule_call_parser/src/parser.rs")
p("Symbol table is exactly the set of declared rules",
  "The names of the symbol table are the declared rule names, each once, sorted; a name is reported inline iff some declaration of it carries the Inline instruction; the generated enum size equals the number of listed non-inline names.",
  "all cleaned grammar syntax trees", "All grammars.",
  ST+"::SymbolTable",CO+"::GeneratedCode::rules_enum_file_content")
p("Left-recursion detection is exact for leftmost calls",
  "A rule is compiled with the left-recursion entry iff from it one can reach, by following leftmost rule references (as the detector defines them), a rule on a cycle of leftmost references (a leftmost reference to an undeclared rule makes the generator panic instead); neither the detected rules nor the generated code depend on hash-map iteration order.",
  "all grammars, all hash iteration orders", "Hash iteration order is random per run; fixpoints over all graphs.",
  CD+"::LeftRecursionDetector",CD+"::RuleCallTree::cleanup_left_most_called_rules")
p("Involved sets are the reachable left-recursive rules",
  "The involved set computed for a left-recursive rule is the rule itself together with all left-recursive rules reachable from it via leftmost references; independent of iteration order; the computation terminates, and panics iff some rule has a leftmost reference to an undeclared rule.",
  "all grammars, all hash iteration orders", "Fixpoint over all graphs and orders.",
  CD+"::RuleCallTree::merge_dependent_sets",CD+"::RuleCallTree::create_involved_sets")
p("Left-recursion detection: what is found and what is missed",
  "If, whenever a rule n may try a rule m before consuming anything and m may lead back to n in the same way, that reference is one the detector looks at (first element of a sequence, not the last alternative, not inside e* or e?), then every rule that can call itself without consuming input is compiled with the left-recursion entry and the generated parser answers on every input. Otherwise left recursion may be missed: for <B>='a'/(<B>,'b') the generator emits a plain call and the generated parser recurses for ever although the file is compiled without complaint.",
  "all grammar files, rules and inputs", "All grammars and all inputs; divergence is not observable by a test.",
  CD+"::LeftRecursionDetector", CD+"::RuleCallTree::get_left_most_called_rules_of_rule")
p("Generated code is well-scoped and means what the grammar says",
  "The statement list emitted for a rule defines each closure before it is used, uses each closure variable consistently, and running the statements builds exactly the combinator expression described by the rule's right-hand side: n-ary sequences and choices keep all their items in order.",
  "all rule right-hand sides", "All nesting shapes and arities.",
  BW+"::BinaryTreeWO",CO+"::GeneratedCode")
p("Syntax error line numbers are right",
  "count_lines(source, position) is one plus the number of newline bytes before the position; the generator reports a syntax error exactly when the file spells no list of rules (and is not empty), and the line it reports is that of the place where complete rules end and no further rule can be read.",
  "all sources and positions", "All sources and positions.",
  GL+"::count_lines",GL+"::generate_parser")
p("Which files are compiled",
  "generate_parser produces code exactly when the file spells a list of rules in the concrete syntax of the DSL (or is empty: the success flag of the parse is ignored), every leftmost reference is declared, and no rule uses what the generator cannot emit (decimal literals, empty quotes as a range bound, hex numbers that are too large, empty comments); the code is that of these rules, which the file determines uniquely.",
  "all files", "Only specific inputs exhibit it.",
  GL+"::generate_parser")
p("Hand-written files survive regeneration and crashes",
  "Running the runner on an existing target never changes the contents of hooked_calls.rs and user_state.rs that exist there, no matter in which order directory entries are listed and no matter where the process is killed.",
  "all file-system states, listing orders and crash points", "Crash points and directory orders.",
  RD+"::DataGenerator::copy_dir_contents_to_dir",RD+"::DataGenerator::generate_data")
p("Regeneration is complete and idempotent",
  "After a successful run every other file of the target equals the runtime's file, with rules.rs, parser.rs and main.rs the freshly generated ones and sample_main.txt removed; files of the target that the runtime does not have stay; running twice gives the same state as running once; a crashed or failed run followed by a complete run gives the same state as a complete run, except that a hand-written file that did not exist before may stay a cut-off copy of the template for good; a grammar the generator rejects leaves the disk untouched; regenerating the runtime directory in place empties its files.",
  "all file-system states, listing orders and crash points", "Crash points and directory orders.",
  RD+"::DataGenerator::generate_data")
p("The shipped arithmetic examples parse their language",
  "For every input shorter than 2^32 bytes, the generated parsers of examples 1, 3, 4, 5, 6 and 10 (direct, indirect and mutual left recursion) give exactly the success flag and end position of a hand-written, iterative PEG of the same language (left recursion replaced by repetition), or stop because 2^32 tree nodes were used.",
  "all inputs, for each of six shipped parsers", "The input is arbitrary; left recursion interacts with memoisation in input-dependent ways.",
  "examples/*/src/parser.rs", VN+"::_var_name_direct_left_recursion_kernel")
p("Re-entering a growing rule elsewhere",
  "While a left-recursive rule is being grown, calling a rule of its involved set at another position at which nothing is memoised for it fails at once; so a grammar like E = E '-' E / N does not re-enter E on the right.",
  "all programs, states and positions", "Depends on the state of the whole recursion.",
  VN+"::_var_name_direct_left_recursion_kernel")
p("Left-recursive matches are not maximal",
  "The span matched by a left-recursive rule may be shorter than the longest derivable one: a concrete grammar and input where the parser stops after one character although the whole input is derivable.",
  "existence (refutes a universally quantified expectation)", "A universally quantified expectation is refuted.",
  VN+"::_var_name_direct_left_recursion_kernel")
p("Repetition over something that succeeds without consuming never ends",
  "e* and e+ loop for ever when e succeeds without consuming input at some position they reach: no number of steps makes the parser answer.",
  "all sub-parsers, states and positions", "Divergence is not observable by a test.",
  PC+"::_zero_or_more_kernel")
p("Comments cannot inject code",
  "Whatever bytes a comment in a grammar file contains, no comment line written to parser.rs contains a line break: comment text never becomes code.",
  "all grammar files", "All comment contents.",
  CO+"::GeneratedCode::comment")
p("The generator always comes to an end",
  "For every valid UTF-8 file of less than 143 MB and every hash iteration order, generate_parser returns: a syntax error, code, or a panic, and exactly one of the three as characterised by the rules the file spells; cleaning the syntax tree never runs out of keys.",
  "all grammar files, all hash iteration orders", "Termination for all inputs.",
  GL+"::generate_parser", CD+"::RuleCallTree")
p("A generated parser means what its grammar file says",
  "Take any grammar file whose references are declared, without hooks, '' literals and escaped range bounds, which the generator compiles and rustc accepts. Started at any of its rules, the generated parser gives exactly the answer of the parsing-expression reading of the file (ordered choice, greedy repetition, predicates) when no rule is left-recursive; every node of the returned tree names a rule of the file that matches the span of the node; with left recursion every match is derivable from the rules of the file. The reading is unambiguous. The excluded literals really are compiled wrongly.",
  "all grammar files, rules, inputs and numbers of steps", "Quantifies over all grammars and all inputs at once.",
  GL+"::generate_parser", BW+"::BinaryTreeWO", PC, VN)
p("A generated parser answers on every input",
  "If moreover no repetition in the file is over something that may match nothing, and every rule that can call itself without consuming input is one the left-recursion detector finds, then the generated parser answers on every input (or runs out of 2^32 node keys); without left recursion, and when (number of rules) * (length + 1) < 2^32, it answers, so the reading of the file is total.",
  "all grammar files, rules and inputs", "Termination for all grammars and inputs.",
  GL+"::generate_parser", PC, VN)
p("The shipped crates are the generated ones",
  "For the DSL's own grammar and the eleven examples, whatever the hash iteration orders, the generator turns the .dsl file of the repository into exactly the functions, imports, enum and size of the checked-in crate; so the checked-in parser of grammar files means what Grammar.dsl says, Grammar.dsl describes the concrete syntax of grammar files (the bootstrap is closed), and the checked-in examples 1-10 answer on every input and match only what their .dsl file derives.",
  "all hash iteration orders; all inputs of the shipped parsers", "All inputs and orders.",
  GL+"::generate_parser", "parser/Grammar.dsl", "parser/src/parser.rs", "parser/src/rules.rs", "examples/*/src/parser.rs", "examples/*/src/rules.rs")
p("The text written to parser.rs and rules.rs means the rules",
  "Read as Rust (tokens, comments, attributes, items, let statements; an independent reader), the two files the generator writes for a grammar file declare exactly one function per rule in the order of the file, the hook imports, the enum variants and the size constant, and every function is the combinator expression of its rule - whenever names and literals are ones rustc accepts. Two files that differ only in comments, whatever the comments contain, give files that read the same. Literals are not as harmless: a backslash before a closing quote turns the next literal of the grammar into code (a concrete file).",
  "all grammar files, all hash iteration orders, all Debug renderings of characters", "All names, literals, comments and nestings; text-level escapes only show on particular inputs.",
  CO+"::GeneratedCode::parser_file_content", CO+"::GeneratedCode::rules_enum_file_content", BW+"::BinaryTreeWO::to_string")
p("The checked-in sources are what the generator writes",
  "The verbatim bytes of parser.rs and rules.rs of the DSL crate and of the eleven examples, read as Rust, declare the functions, imports, variants, size and expressions the other theorems speak about; and whatever the generator writes for the .dsl file of the same crate (any hash order) reads the same.",
  "all hash iteration orders, twelve shipped crates", "All iteration orders; equality of meaning of whole files.",
  "parser/src/parser.rs", "parser/src/rules.rs", "examples/*/src/parser.rs", "examples/*/src/rules.rs", GL+"::generate_parser")
p("When nothing is given up after a success, the tree is the parse tree",
  "Call a grammar tidy when every alternative, optional part or repetition body that can be given up either makes no rule call or fails at its first failing rule call, and lookaheads make no rule call. For every tidy grammar without hooks, every input under 4 GiB and any number of steps: if parse succeeds, the tree returned is exactly a (left-recursive) derivation of the input, laid out left to right with no abandoned, repeated or missing node; without left recursion it is the derivation of the PEG match; and if parse fails, the tree is empty. The arithmetic examples 1, 3 and 4 are tidy; the DSL grammar is not.",
  "all tidy grammars, inputs and numbers of steps", "Quantifies over all grammars and inputs; memo hits inside left-recursive growth can misplace children only on special inputs.",
  PC, CX, PB, VN, "examples/example_3_basic_maths/src/parser.rs", "examples/example_4_full_maths/src/parser.rs")
p("The example calculators compute what is written",
  "evaluate_tree on the tree of examples 1, 3 and 4: whatever text the parser accepts is the text of exactly one arithmetic expression (usual precedence, + - * / associating to the left, ^ to the right, brackets), every such expression is accepted to its end, and the number returned is its value in 64-bit arithmetic - the mathematical value whenever all parts fit and exponents are below 2^32 - or a panic when a part overflows, divides by zero or has a fraction or exponent part. Input that is rejected is no expression, and then example 1 returns 0 and the others panic.",
  "all inputs (UTF-8, under 4 GiB), all expressions of any size and nesting", "All expressions of any nesting; precedence and associativity come out of left-recursive seed growing, memoisation and tree pruning together.",
  "examples/example_1/src/lib.rs::evaluate_tree", "examples/example_3_basic_maths/src/lib.rs::evaluate_tree", "examples/example_4_full_maths/src/lib.rs::evaluate_tree", PB+"::BasicPublisher::clear_false", VN)
p("Left-recursive parsers do not run out of node keys on ordinary input",
  "The number of tree nodes a generated parser makes is bounded by an explicit quadratic function of the length of the input (rules through the memo table make one node per position, each growth of a left-recursive rule one per round and involved rule), provided no memoised rule needs itself again at the same position. When the bound is at most 2^32 the parser answers instead of panicking, and for tidy grammars the returned tree is linear in the length of the match, so that parse and evaluate_tree answer too: the checked-in examples 1, 3, 4, 5, 6 and 10 answer what their grammar says on every input of up to 12000, 5000, 5000, 26000, 13000 and 26000 bytes, and the calculators of examples 1, 3 and 4 compute on every such input.",
  "all programs meeting the stated conditions, all inputs up to the stated lengths", "All inputs; key exhaustion needs 2^32 nodes, which no test creates.",
  PB+"::BasicPublisher::reserve_publisher_entry", VN, CX, PC, "examples/*/src/parser.rs")
p("The JSON grammar of the examples directory",
  "examples/json_parser/json.dsl is a grammar file and the generator writes code for it, but under no hash order and no formatting of characters is what it writes Rust: the literal of the rule <wsc> contains a bare carriage return. Without that (unused) rule it is, and the generated parser then answers on every input of up to 2^32/19 bytes exactly what the file says; strings it matches never contain a backslash, so no JSON text with escapes is accepted.",
  "all hash iteration orders and Debug renderings; all inputs", "All iteration orders and inputs.",
  "examples/json_parser/json.dsl", GL+"::generate_parser", CO+"::GeneratedCode::parser_file_content")
p("A generated left-recursive parser answers on every ordinary input",
  "For every grammar file without repetitions of possibly empty bodies whose left recursion the generator detects, the generated parser answers on every input for which an explicit quadratic bound (from the number of rules, the size of the recursion sets and the number of left-recursive calls reachable without a memo entry) stays within 2^32; if it matches, the match is derivable from the rules; if it fails, the position is 0. The ten example parsers with a Grammar start rule therefore answer on every input of up to 12000, 21000, 5000, 5000, 26000, 13000, 18000, 13000, 9000 and 26000 bytes respectively.",
  "all grammar files meeting the conditions, all hash iteration orders, all inputs within the bound", "All grammars and inputs; neither termination nor key exhaustion can be observed by a test.",
  GL+"::generate_parser", PB+"::BasicPublisher::reserve_publisher_entry", VN, CX, PC, "examples/*/src/parser.rs")
p("Left recursion through several rules",
  "When rules call each other as first element in a cycle (a = b x | .., b = c y | .., c = a z | ..), calling the first rule of the cycle means: take the first of its own alternatives that does not lead round the cycle as seed, then go round - every rule in turn puts its tail behind the match so far, or falls back on its own non-recursive alternatives - until a round does not make the match longer. This determines the answer, independently of earlier calls of code without left recursion; when only the first rule has seeds it is 'seed, then as many rounds of tails as fit'. Hence examples 7, 8 and 9 match exactly digit('-'digit)* and example 2 exactly a(ba)* on every input of up to 18000, 13000, 9000 and 21000 bytes. A rule of a cycle whose own non-recursive alternatives fail never matches when it is the one called first, though matches are derivable from it.",
  "all cycles of rules of any length and number of alternatives, all inputs and positions, all earlier non-left-recursive calls", "All cycle lengths, alternatives and inputs; the order in which memo entries of involved rules are overwritten decides the result.",
  VN, CX, "examples/example_2_parser/src/parser.rs", "examples/example_7_indirect_lr_num_parser/src/parser.rs", "examples/example_8_indirect_lr_3_level_parser/src/parser.rs", "examples/example_9_indirect_lr_5_level_parser/src/parser.rs")
p("The tool as a whole: from the grammar file on disk to what the installed program prints",
  "Call a grammar file accepted when (by looking at its rules only) its references are declared, it uses no hooks, its literals are ASCII that survives pasting into Rust, no two names agree up to case or are Rust keywords, left-recursive rules are not Inline and no comment is empty. For every accepted file, whatever the iteration orders of the hash tables: the generator compiles it and rustc accepts the result; running the command-line tool in a workspace with the runtime next to it, to a package that need not exist yet, ends normally and leaves in the package's src the runtime (hand-written files as they were), a main.rs that imports the package under its Rust name, and a parser.rs and rules.rs whose every rule matches only what the file derives, answers on every input (or runs out of keys) when left recursion is visible, and without left recursion computes the parsing-expression meaning of the file; also after earlier runs killed anywhere. Files that do not compile change nothing on disk. The installed program prints the parse tree (without left recursion every line names a rule and a span it matches), the result of rule Grammar, and says that the input was not parsed to its end exactly when it was not (except that an empty input that fails is not reported), and exits with 0 either way. --offline before the package exists writes nothing and still exits with 0.",
  "all accepted grammar files, hash orders, disks, kill points of earlier runs, inputs", "All grammar files, disk contents, kill points and inputs; the statement spans generator, emitted text, file handling and runtime.",
  "runner/src/main.rs", "runner/src/data.rs::DataGenerator::generate_data", GL+"::generate_parser", CO+"::GeneratedCode::sample_main_header", "parser/src/sample_main.txt", "parser/src/parse.rs::parse", CO+"::GeneratedCode::parser_file_content")
p("print shows the tree",
  "print(key, mode), called with any key handed out so far, prints the tree below that node: parents before their children, children in the order they were connected and one level deeper, each line with rule, span, result and number of children; with Some(b) only nodes whose result is b and nothing below the others. It never meets a key 0 among children and always terminates. For the tree that parse returns, print(Key(0), Some(true)) leaves nothing out, and the printed lines determine the tree.",
  "all programs, inputs, sessions of any length, keys and modes", "All node stores a parser can build, left recursion included; absence of cycles and of key 0 among children.",
  PB+"::BasicPublisher::print", PB+"::BasicPublisher::print_kernel_true", PB+"::BasicPublisher::print_kernel_false", PB+"::BasicPublisher::print_kernel_all", PB+"::Node::print")
p("The release build of a generated parser computes what the debug build computes",
  "For every generated parser, left-recursive rules included, every input of less than 2^32 bytes, every history of earlier calls and every start position within the input, the library built without overflow checks and debug assertions returns the same answer, leaves the same memo table and node store and delivers the same tree as the debug build (or runs out of node keys where it does). The same holds with hooks that keep to the contract of the kernels and do not depend on the profile. Outside that use the builds differ.",
  "all programs, inputs under 4 GiB, sessions, start positions", "All inputs and histories; the differing behaviours (a position wrapping at 2^32, a node connected to itself) need inputs or histories no test has.",
  PC, VN, PB+"::BasicPublisher::connect", PB+"::BasicPublisher::clear_false", "parser/src/parse.rs::parse")
p("The tree of left recursion, direct and through several rules",
  "For rules that call each other round a cycle (or one rule that calls itself), where nothing given up leaves a completed rule call behind: the tree that parse returns is the tree the rounds build - every node has the node of the next rule of the cycle, at the same position, as its first child, followed by what its tail matched - and nothing else; it is determined by the grammar and the input, its end is the end of the match, and a failed parse returns an empty tree. When the other rules' own alternatives do not match (always, for a rule that calls itself) the tree is left-nested: seed innermost, each round wrapped round the one before, growing at every round. Hence examples 5, 7, 8 and 9 return for d-d-..-d the tree of (((d-d)-d)-..-d) on every input of up to 26000, 18000, 13000 and 9000 bytes, and example 2's evaluate_tree gives back exactly the text that was matched on every input of up to 21000 bytes.",
  "all cycles of rules of any length, all inputs", "All cycle lengths and inputs; nodes of abandoned rounds share the store, and the memo table decides which of them ends up in the tree.",
  VN, CX, PB+"::BasicPublisher::clear_false", "examples/example_2/src/lib.rs::evaluate_tree", "examples/example_2_parser/src/parser.rs", "examples/example_5_lr_num_parser/src/parser.rs", "examples/example_7_indirect_lr_num_parser/src/parser.rs", "examples/example_8_indirect_lr_3_level_parser/src/parser.rs", "examples/example_9_indirect_lr_5_level_parser/src/parser.rs")
p("Left recursion on several levels",
  "When left-recursive rules build on each other (term = term '+' fact | .. | fact; fact = fact '*' num | .. | num), each level one rule calling itself or a cycle of rules, and nothing given up leaves a completed rule call behind, then parse returns exactly the tree the levels prescribe: at each place the first rule of a level grows its match round by round, taking as operands what the levels below give there, whatever the interleaving of the recursions; a level is computed once per position and its node reused afterwards. The tree is determined by the grammar and the input; a failed parse returns an empty tree. Hence example 6 returns, on every input of up to 13000 bytes, the left-nested tree of the longest sum of longest left-nested products of digits, or failure with an empty tree when the input does not start with a digit; '*' binds tighter than '+', and an operator without operand is left unread.",
  "all grammars with any number of levels, all inputs", "All stacks of levels and inputs: a recursion that starts while another is active suspends it, and heads and memo entries of both persist across rounds.",
  VN, CX, "examples/example_6_term_and_fact_parser/src/parser.rs", PB+"::BasicPublisher::clear_false")
p("The RefCells of a parse are never borrowed in conflict",
"A parse keeps its tables in one RefCell (the context) and the user's data in another (the user state). No rule call, left-recursive or not, memoised or not, ever panics with 'already borrowed' or 'already mutably borrowed': every borrow has ended before another closure is called, and at the end of a call both cells are as free as they were before it. Hand-written hooks keep this up if they let go of both cells before they call the closure they wrap; the shipped one does. A hook that holds the context while the closure makes a rule call always panics; one that holds the user state panics as soon as another such hook runs below it.",
"all programs, inputs, sessions and expressions; all hooks that neither hold a cell across the closure they wrap nor run into a conflict themselves; every state of the user state cell when there are no hooks",
"a borrow conflict shows only on the nesting of calls that meets it; tests exercise a few nestings",
"parser/src/var_name.rs: memoized_behaviour, default_behaviour, _var_name_kernel, _var_name_kernel_growth_function, should_go_into_growth_function, _var_name_kernel_indirect_left_recursion", "parser/src/parse.rs: parse", "examples/example_11_external_rule_call_parser/src/hooked_calls.rs: unique_line_cache")
p("The order of alternatives that exclude each other matters in left-recursive grammars",
"In a PEG, swapping two neighbouring alternatives of which at most one can match at any position changes nothing. Parsers generated from left-recursive grammars do not keep to this: with Term = Term + Fact / Neg / Fact, where Fact is left-recursive and Neg starts with a minus, every input is parsed as a sum of products; with the last two alternatives swapped, Fact becomes part of Term's involved set (the detector looks at all alternatives but the last) and is no longer grown inside Term, so that 1+2*3 is only taken up to 1+2. In general, while a recursion is active, a call of a rule in its involved set is never grown, at any position: it runs once, or takes what is memoised, or fails.",
"all inputs for the first grammar; the swap property for all inputs, refuted for the second",
"a test of either grammar alone passes or fails without showing that the order is the cause; the positive half is about all inputs",
"generator/src/cycle_detector.rs: LeftRecursionDetector", "parser/src/var_name.rs: should_go_into_growth_function, _var_name_kernel_indirect_left_recursion")
with open('/verif/properties.jsonl','w') as f:
    for x in P: f.write(json.dumps(x)+"\n")
print(len(P))
