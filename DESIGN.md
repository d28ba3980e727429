# Formal model of TimMeiwald/ppparser in Rocq (Coq 8.16.1)

ppparser is a packrat PEG parser generator with support for (indirect) left
recursion.  Crates: `parser` (runtime + the parser of the grammar DSL, itself
generated), `generator` (DSL syntax tree -> Rust source), `runner` (CLI that
copies the runtime and writes generated files), `examples/*_parser` (generated).

Everything is in `rocq/theories` (logical name `Verif`).  `properties.jsonl`
lists the properties, `MANIFEST.json` the theorems, `seeded/LOG.jsonl` the
wrong programs the theorems were tested against.

## 1. Trusted base

* Coq's kernel, including its `vm_compute` conversion.  No kernel check is
  switched off, there are no axioms, `Admitted`s, functors or module types.
* `Print Assumptions`: `Assumptions.v` bundles every theorem of MANIFEST.json
  into one term and prints its assumptions during the build: **"Closed under the
  global context"** - no theorem uses any axiom, not even one of the standard
  library.  (The global environment also contains the seven constants
  `Coq.ssr.ssrunder.Under_rel.*` of Coq's own ssreflect library, loaded by
  std++; no theorem depends on them.)
* Libraries: Coq's standard library and std++ (definitions and lemmas only).
* The transcription of Rust into Gallina (section 2) and the scripts
  `tools/dsl_sources.py`, `tools/crate_sources.py`, which copy the shipped .dsl,
  parser.rs and rules.rs files byte for byte into string constants.
  (`tools/transcribe.py` and `tools/shipped_names.py` wrote the tables
  `DslTable.v`, `ExampleTables.v`, `ShippedNames.v`; they need not be trusted:
  C51 proves that reading the verbatim parser.rs and rules.rs gives these
  tables, C49 that the generator model produces them from the verbatim .dsl.)
* The reading of Rust in `SpecRust.v` (text) and `SpecCode.v` (statements): the
  part rustc plays, see section 4.
* The specifications `Spec*.v`, which are meant to be read.

## 2. What is modelled

| model file | code | 
|---|---|
| Base.v | u32 arithmetic with overflow panics (debug profile), results `Ok / Panic / NoFuel`, state monad |
| Source.v | parser/src/source.rs |
| Publisher.v | parser/src/publisher.rs: node store, connect, clear_false, ==, print (traversal only) |
| Context.v | parser/src/cache.rs, parser/src/context.rs |
| ParserCore.v | parser/src/parser_core.rs: all combinator kernels |
| VarName.v | parser/src/var_name.rs: memoised calls, seed growing, involved sets |
| Expr.v | shape of generated functions; parser/src/parse.rs (`run_entry`, `parse`) |
| DslTable.v, ExampleTables.v, Programs.v | parser/src/parser.rs + rules.rs; examples/*_parser/src/parser.rs, rules.rs, hooked_calls.rs, user_state.rs |
| GenTree.v, SymbolTable.v, CycleDetector.v, BinaryWo.v, Constructor.v, Generator.v | generator/src/*.rs function by function, hash-map iteration orders as arbitrary permutations |
| Render.v | the format strings of generator/src/binary_wo.rs and constructor.rs: parser_file_content, rules_enum_file_content |
| CrateSources.v, DslSources.v | verbatim bytes of shipped parser.rs, rules.rs and .dsl files |
| Runner.v | runner/src/data.rs as a program of file-system calls; completed, failed and cut-short effects of each call |
| Tool.v | runner/src/main.rs, DataGenerator::new/verify, reading of the grammar file in generator/src/lib.rs, sample_main_header; parser/src/sample_main.txt (printed lines and exit code) |
| Release.v | the runtime without overflow checks and debug_assert! (`--release`): parser_core.rs increments, publisher.rs connect, and all callers |
| Borrow.v | the two RefCells of a parse with their borrow flags: var_name.rs, parse.rs and hooked_calls.rs of example 11 with every borrow and every end of a guard as a step |
| Letters.v | examples/example_2/src/lib.rs: evaluate_tree |
| Calc.v | examples/example_1, example_3_basic_maths, example_4_full_maths src/lib.rs: evaluate_tree and its helpers, with i64 arithmetic, i64::pow and str::parse::<i64> of the standard library |

The runtime files of the eleven example crates (cache, context, keys, lib, parse,
parser_core, publisher, source, var_name) are copies of those in `parser/src`: compared
byte by byte, they differ in the order of `use` lines only.

Every definition cites the file and lines it models.

### Simplifications

* A Rust `&str`/`String` is its list of bytes (`list N`, each < 256 where it
  matters).  Rule functions and `Rules` variants are numbers (index of the
  function / of the enum variant); C49 ties the numbers to names.
* `RefCell` state is threaded through the state monad.  Borrow flags are in
  Borrow.v only; C63 proves that they make no difference.
* Rust recursion and loops are recursion on fuel with a separate answer `NoFuel`
  that has no Rust counterpart.  More fuel never changes an answer (proved,
  ProofFuel.v), safety theorems speak about every run that answers, termination
  theorems exhibit fuel, divergence theorems say `NoFuel` for every fuel.
* Closures of a generated function are unfolded into one expression `expr`,
  evaluated by `eval` with the transcribed kernels.  For the generator the
  emitted *statement list* is modelled first (GenTree/BinaryWo/Constructor),
  with its meaning in SpecCode.v; Render.v turns it into text, and C50 proves
  that the text, read by SpecRust.v, has that meaning.
* Not modelled: stack depth, memory exhaustion, allocation capacity, console
  output (except the lines printed by `print` and by the installed main.rs),
  `cargo fmt` (assumed to keep the tokens), `benches`,
  test-only code, `test-grammar-proc-macro` (not used by the other crates),
  the release profile of the generator (of the runtime it is: Release.v).
* `str::trim` on comments is modelled for ASCII white space only.
* Runner: no symbolic links, permissions or concurrent writers; a directory is
  listed at once (in any order, or broken off when reading fails); `cargo
  init/add` may do anything in the package root and may create `src` and
  `src/main.rs`, but changes no existing file in `src`.
* User hooks are arbitrary closures in the safety theorems (`SpecSafe.v`: they
  must be well behaved, i.e. return honest positions and keep the store
  usable); the plain PEG theorems are about hook-free programs.

## 3. Specifications (independent of the model)

| file | says |
|---|---|
| SpecPeg.v | PEG big-step semantics (Ford 2004) and memo-free trace trees |
| SpecProgram.v | how a generated program is read as a grammar, a node store as trees |
| SpecCfg.v | context-free reading: unordered choice, predicates erased |
| SpecKernel.v | repetition over an arbitrary closure |
| SpecSafe.v, SpecSession.v | usable store, well-behaved closure; histories of calls a user can make |
| SpecLR.v | the stratified left-recursive class and its meaning: seed, then repetition |
| SpecTerm.v | nullability, first calls, when a recursive-descent parser is expected to terminate |
| SpecExamples.v | hand-written iterative grammars of the arithmetic examples |
| SpecDsl.v | concrete syntax of the grammar DSL: relation between text and abstract syntax |
| SpecCompile.v, SpecGenerator.v, SpecEmit.v | the expression a right-hand side stands for; what must be generated; what can be |
| SpecCode.v | what emitted statements mean |
| SpecRust.v | a reader of the Rust subset the generator writes: lexer, items, statements, name resolution |
| SpecAccepted.v | which grammar files can be used as they are, by looking at the rules |
| SpecPrint.v | a tree as indented lines |
| SpecTool.v | a package on disk that holds a crate; what it means that a crate parses a grammar; what the installed program reports |
| SpecLRTree.v, SpecDeriv.v | derivation trees and which node stores show them |
| SpecLeft.v | leftmost references, cycles, involved sets on abstract syntax |
| SpecMeaning.v | what a grammar *file* means, by rule names, and when it is well-founded |
| SpecUtf8.v | well-formed UTF-8 |
| SpecCycleTree.v | the tree that left recursion round a cycle builds; left-nested trees; the trees of differences |
| SpecLevels.v | what stacked levels of left recursion answer and build; sums of products of digits |
| SpecCalc.v | arithmetic expressions, their text, which are well-formed, their 64-bit and their mathematical value |
| SpecKeys.v | ranked rules, direct calls of left-recursive rules, the node bound; towers of rules over the same text, the size bound of cleaned trees |
| SpecCycle.v | rules in a left-recursive cycle: leading references, seeds, one round, rounds to the end |

## 4. Reading of emitted code (SpecCode.v, SpecRust.v)

SpecCode.v: a function body is a list of `let`s of closures, a later `let`
shadows an earlier one; the body's value is the last closure applied.  A crate
is accepted by the reading when every called function exists exactly once, enum
variants are distinct, and no function is named like a Rust keyword or like one
of the parameters `source/position/parent/context/user_state` or the local
`involved_set`; duplicate imports of hooks are rejected (rustc E0252).

SpecRust.v reads *text*: a lexer (identifiers, keywords, numbers, byte and byte
string literals with escapes, line comments, punctuation), then exactly the
item and statement forms the generator and rustfmt produce, then name
resolution: a closure variable must be bound before use, a called combinator,
rule function, hook or variant must be declared, number literals must fit u32,
no two items in scope may share a name.  Anything it does not know it rejects,
so "reads as" can only be weaker than rustc where both accept.  It knows nothing
of Render.v; C50 relates the two for all files, C51 applies it to the checked-in
(rustfmt-formatted) sources.

## 5. Properties: what is modelled, how it is proved

| id | how |
|----|------|
| C01 | invariant on memo entries (end in bounds, failure = start), induction on fuel, all programs incl. left recursion and hooks |
| C02-C05 | kernels for arbitrary closures; case analysis, induction on iterations |
| C06, C07 | loop induction against list prefix |
| C08, C09 | direct; panics characterised; natural claim refuted by a source |
| C10 | invariant: every memo entry is backed by a PEG derivation; fuel induction |
| C11, C14 | induction on the height of the derivation + node counting |
| C12 | C10 + C11 + determinism from any context reachable by a session |
| C13 | counting: nodes = 1 + memo entries + calls in progress, distinct pairs |
| C15, C16 | store refinement: `unfolds` (key -> tree) with open keys, frame lemmas |
| C17, C18 | clear_false refines `prune`; `prune` idempotent |
| C19 | == refines equality of unfoldings |
| C20, C21, C23 | on the memo-free trace via C15/C17 |
| C22 | `deriv` (SpecDeriv): the successful derivation, unique; every returned tree `contains` it, laid out in order (induction on `trace`); the unconditional nesting claim is refuted by a grammar |
| C24 | well-foundedness checker, sound for PEG totality |
| C25 | C10 for the DSL table + inversion of traces to the concrete syntax of SpecDsl, completeness, uniqueness |
| C26, C27 | invariant on heads/active recursion for all programs; measure on growth |
| C28 | invariant: memo entries derivable in the CFG reading |
| C29 | stratified programs: growth loop = seed + greedy repetition, by levels |
| C30 | `lderiv` (SpecLRTree); ProofLRTree: keyed containment invariant (memo entries, growth rounds, open nodes) for all hook-free programs; left spine by inversion of derivations; two refutations by computation |
| C31 | example 11: hook model, history invariant |
| C32-C34 | generator model; fixpoint loops on abstract graphs, permutation invariance |
| C35 | detected: first-call analysis vs. detector; missed: concrete file |
| C36 | statement interpreter = SpecCompile expression, induction on the tree |
| C37, C38, C46 | parser outcome + constructor totality, file by file |
| C39, C40 | invariants over all calls, failures and kill points; refutations by a concrete disk |
| C41 | stratification computed by vm_compute, then hand-written grammar equivalence |
| C42-C44 | direct and concrete runs of the model |
| C45 | list lemma on comment lines |
| C47 | C10/C11/C28 transported along the compilation to rule names |
| C48 | levels from acyclicity of first calls + C24/C27 |
| C49 | executable reader (sound) + C38 + vm_compute on the shipped files |
| C50 | Render.v, SpecRust.v; ProofRender: lexing of rendered text is compositional (each piece ends in a separator), then reader = statement interpreter by induction; ProofText: the generator only writes plain names, u32 bounds and one-line comments |
| C51 | C49 + C50 + vm_compute of the reader on the verbatim sources |
| C52 | SpecExact.v (tidy), SpecLRTree.v (lderiv); ProofExact: invariant giving the exact list of children the current node has, per open node and memo entry, by induction on fuel; a boolean checker applies it to examples 1, 3, 4 |
| C53 | Calc.v; SpecCalc.v; ProofUnambiguous: the text determines the expression; ProofCalcPeg: the grammar accepts all of it; ProofCalcSound: derivations of the tidy grammar stand for expressions and the evaluator folds them, combined with C41 and C52 |
| C54 | SpecKeys.v; ProofKeys: amortised argument over (memo entries, heads, active growth) for every evaluation step, so run_entry never makes more than key_bound nodes; with C27 (answers or key exhaustion) the parser answers; ProofSize: a derivation has at most 2(1+H) visible nodes per byte; TheoremsKeys and TheoremsSize: checkers and the shipped examples |
| C55 | DslSources.v (verbatim json.dsl); the generator model run on it, C33 for the other hash orders, SpecRust.v on the result; C48 for the repaired file; inversion of its meaning |
| C56 | ProofRanks: levels with a strict drop out of every left-recursive component exist for every grammar (strongly connected components of the first-calls relation); with C48's levels they are the hypotheses of C54_answers, so C54 and C47 give the theorem; the ten examples by evaluating the bound |
| C57 | SpecCycle.v; ProofCycle: invariant of one call of the first rule of a cycle - after the seed every growth round runs the bodies of the involved rules in reverse order with the memo entries of the round before, code without left recursion keeps answering its PEG meaning; TheoremsCycle: the rounds are deterministic and, with one seeding rule, are a PEG expression; TheoremsCycleExamples: checkers and examples 2, 7, 8, 9 |
| C58 | SpecAccepted.v, SpecTool.v, Tool.v (tool_main = runner/src/main.rs with Runner.v; installed_main = sample_main.txt); accepted rules emit expressions and resolve (ProofAccepted), so C46 gives code and C50 the crate on disk; C40/C39 for the files, C47/C48/C16 for the answers; checked for the eleven hook-free shipped grammar files on a concrete disk |
| C59 | SpecPrint.v (listing of a tree); print on a store that unfolds to a finite tree is its listing, by induction on height; below key 0 of a finite tree key 0 does not occur; arity-directed decoding gives injectivity; C16/C17 supply the trees |
| C60 | Release.v; both programs walked at once: they agree unless the debug build stops at one of its own checks, which C26 excludes; in clear_false the child key is always the larger one |
| C61 | SpecCycleTree.v; Letters.v; ProofCycleTree: invariant of C52 for the part without left recursion, plus, through every round, the subtree that the memo entry of each involved rule stands for; a program restricted to its non-recursive functions lets C52's lemma be reused; TheoremsCycleTree: the rounds determine the tree, and left-nestedness; TheoremsCycleTreeExamples: examples 2, 5, 7, 8, 9 |
| C62 | SpecLevels.v; ProofLevels: the proof of C61 redone with the code beside a cycle abstracted to what it answers and the rules it may touch; an invariant per level (the first rule's memo entry holds its tree or was never written); closure under sequence, choice and group gives the interface for the next level, and induction on the levels all of them; TheoremsLevels: determinism; TheoremsLevelsTotal: with C54, if the keys suffice the levels give an answer and the parser finds it; TheoremsLevelsExamples: example 6 |
| C63 | Borrow.v; every borrowing statement, run on free cells, is the statement of the flagless model with the flags unchanged; both programs walked at once, then fuel induction; conflicts excluded by C26 since the flagless model has none |
| C64 | the law: a rule in the involved set of the active recursion is never grown, by case analysis of its call; the first file's crate is an instance of C62; the second's involved set breaks its hypothesis lo_involved, and a run and a derivation show the difference |

## 6. Defects of the code found while proving

Each is part of a theorem or of a hypothesis that excludes it.

* a left-recursive rule that is the seed of another one is grown inside it only when it is the last
  alternative; anywhere else it lands in the involved set and is parsed without growing (C64).
* `get_multiple_chars` cannot fetch the last characters (strict bound, C09).
* The returned AST can contain nodes of abandoned alternatives and lookaheads
  (C22); `clear_false` copies shared subtrees (exponential in general, linear
  for the DSL, C46).  With left recursion a child can be wider than its parent,
  and siblings can be out of order (C30).
* Left recursion: no re-entry on the right (C42), not maximal (C43), detection
  misses the last alternative and hidden left recursion (C35).
* Generator: `''` becomes two `"`; escaped range bounds are misread; decimal
  literals and empty range bounds panic; non-ASCII literals emit a function that
  does not exist; hex 0x22/0x5C break the literal; `##` panics; names that
  differ only in case collide silently; an inline left-recursive rule is emitted
  with a missing enum variant; undefined leftmost references panic, others are
  not reported; a hook used twice is imported twice; an empty file is accepted
  (C38, C47 and their hypotheses); `"..\\"` leaves the Rust string literal open,
  so the next string of the grammar is compiled as Rust code (C50_injection).
* Calculators: a power's exponent is cut to 32 bits (`2^4294967296` is 1, `0^-1`
  is 0); rejected input evaluates to 0 in example 1; numbers with a fraction or
  exponent are accepted by the parser and panic in the evaluator (C53).
* examples/json_parser/json.dsl cannot be used: the code generated for its rule
  `<wsc> = 0x000D` has a bare carriage return in a byte string (C55); its
  strings accept no escapes and do accept control characters.
* Runner: a crash between creating and filling a template of a hand-written
  file leaves it cut off for good; regenerating the runtime in place empties it
  (C40).
* A rule of a left-recursive cycle none of whose own non-recursive alternatives
  matches fails when it is the rule of the cycle that is called first: in
  examples 7-9 `<intermediate>` refuses every input although it derives what
  `<expr>` does (C57_intermediate_fails, C57_intermediate_derives).
* Tool: a failed run prints its error and exits with 0; in particular
  `--offline` before the package exists writes nothing and exits with 0
  (C58_offline_first).  The installed program exits with 0 whether or not the
  input was parsed, and says nothing about an empty input that was rejected
  (C58_message).
