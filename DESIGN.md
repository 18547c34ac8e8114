# Formal model of cairo-m in Rocq — design

Source modelled: `/repo` (kkrt-labs/cairo-m, pinned commit). Prover: Coq 8.16.1.
Nothing in `/repo` is executed; each definition in the model cites the file and
lines it was read from.

## Layout

`rocq/theories/` (logical name `Verif`):

* `*Model` / definition files: executable Gallina only (no proofs).
* `*Facts` files: lemmas.
* `Prop_*` files: only the property theorems (`exact lemma`), each followed by
  `Print Assumptions`, and the non-vacuity `Example`s.

Naming: `Cnn_name` proves property `Cnn`. `_partial` = weaker than the English
statement (the missing part is stated next to it). `_refuted` = the unchanged
code violates the statement; the theorem exhibits a concrete witness.

## Trusted base

* Coq's kernel (including `vm_compute`); the axioms printed by
  `Print Assumptions` (target: "Closed under the global context" everywhere).
  `coqchk` also lists `Coq.ssr.ssrunder.Under_rel.*`: fields of a module type of the
  standard library that is loaded with `ssreflect`; no theorem here depends on them.
* Faithfulness of the reading of the Rust text.
* External crates that are absent from the sandbox, modelled from their
  documented behaviour:
  * `stwo` `M31`: elements are integers in `[0, P)`, `P = 2^31-1`; `+ - *` are
    arithmetic modulo `P`; `M31::from(u32)` reduces modulo `P`; `a / b` is
    `a * b^(P-2)`, panicking when `b = 0`; `Eq`/`Ord` compare representatives.
    `QM31` is a 4-tuple of `M31`; the code modelled uses only its coordinates.
  * the log-up argument: "the claimed sum of a relation is zero" is modelled as
    equality of multisets of tuples (with signed multiplicities, where needed
    modulo `P`). This is the standard random-evaluation reading; the soundness
    error of the random challenge is not modelled.
  * Poseidon2 is an abstract two-argument function (a section variable) except in C69;
    collision-freeness is an explicit hypothesis where used. `zkhash`'s permutation is the
    published one; its constant tables are arguments.
  * `HashMap` iteration order is either irrelevant (proved) or a parameter.
  * the STARK verifier accepts only if every constraint polynomial of every
    component vanishes on every row (`accepted` in `AirGlobal.v`). The range-check
    and bitwise tables hold the values of the preprocessed trace (generated as in C70); the
    verifier does not yet check the preprocessed commitment (a TODO in
    `verifier.rs`), so this is an assumption about the deployed verifier.
* 64-bit `usize`/allocation never overflow or fail.

## Properties: what is modelled, how it is proved

| id | model | method |
|----|-------|--------|
| C01–C02 | instruction table, encoder, decoder | case analysis on 38 opcodes |
| C03 | word packing, program loading, `get_instruction` | induction on the program |
| C04 | hex printing/parsing | induction on digits |
| C05 | metadata vs. execution | case analysis over `exec`; refuted for the print opcodes, proved for all others |
| C06 | two-vector memory | refinement to a total map, invariant on vector lengths |
| C07 | step + log | invariant over executions |
| C08–C10,C12 | every instruction handler | symbolic execution against an independent specification table |
| C11 | call/ret over arbitrary callee executions | induction on steps |
| C13–C14 | `execute`, segment loop | induction on fuel; `max_steps = 0` non-termination shown |
| C15 | little-endian (de)serialisers | induction on the list |
| C16–C17 | `m31_from_i64`, CLI parser | printing relation with arbitrary white space, induction on the value |
| C18–C20 | ABI encoder/decoder, slot computation, public ranges | nested induction on types; refutations where the code is wrong |
| C21–C23 | adapter iterator and `Memory::push` | simulation with the VM; multiset balance by induction; refutations for clock-update values and clock gaps |
| C24–C25 | partial Merkle tree | equality with a recursive full tree; injectivity up to a collision, and its refutation by counting |
| C45 | memories committed by consecutive segments | history of a run versus the adapter's maps; refutation by a concrete run |
| C26–C27,C44 | AIR rows of every opcode component over Z mod P | per-component soundness/completeness; refutations where a constraint is missing |
| C46 | the whole prover output for a run | composition of C21–C27: constraints row by row, every relation summed over the history of the run |
| C28–C29 | multiset balance | induction on clocks; composition with C26 |
| C30–C31 | constant evaluation and simplification | case analysis on operators; refutations |
| C32–C39 | MIR semantics and passes | simulation on CFG executions; refutations |
| C40–C43 | codegen passes, labels, layout, boolean sequences | simulation on the VM model |
| C47 | the whole back end: MIR module to runs of the linked program | translation validation: a decidable check of value lifetimes on the generated code, proved sufficient by a simulation from MIR to the VM model |
| C48 | unreachable-code analysis over a source semantics | induction on the number of steps: a statement judged to end its path is never passed |
| C49 | missing-return analysis | same; refuted for `loop`s left by `break` |
| C50 | type checker and source semantics of the scalar language | type soundness by induction on steps and call depth |
| C51 | lowering to MIR with on-the-fly SSA construction | simulation: invariant of the builder state, classes of ids merged by phi removal, induction on source steps and call depth; refuted without the output check |
| C52 | same | invariant of the builder state; use of removed ids refuted |
| C53 | both pass pipelines; composition of lowering, passes, code generation, VM | fuel monotonicity, a limit lemma that lifts function-level preservation to modules, boolean checks proved to imply the pass hypotheses; three source-level refutations |
| C54 | lexer: number literals, words, symbols, comments | correspondence of digit-by-digit reading with positional value, both directions; lexing of concatenations |
| C55 | parser combinators, expressions, types, statements, items | every parser consumes or fails, so the bounds suffice; trees built satisfy the level invariant; printed tokens are parsed back by induction on trees; refutations of the documented levels |
| C56 | formatter documents, layout, rendering, all rules | the text is a layout of the document's atoms up to indentation, neighbouring atoms never merge into one token, their tokens are the program's; one refutation per exclusion |
| C57 | comments in the formatter | indentation does not break a line; membership of comment atoms |
| C58 | the semantic index: scopes, name table, uses | independent walk with an environment; invariant relating the scope stack to the environment |
| C59 | type inference, the type checks and the type queries of lowering | reading of a checked program with typed literals; induction on expressions; counterexamples run on the VM |
| C60 | literal typing and range checks | case analysis of the checks; counterexamples |
| C61 | reading the syntax tree, with constants of the top level and inside functions, by the index and the types; the whole chain from text to VM | named semantics of files; simulation by induction on expressions and on the work bound; composition with C58, C53 |
| C62 | scalar replacement of aggregates, whole pass | simulation: states of dropped aggregates describe their values; families and cross-block uses by induction on the instruction list; composition with C47 and the pipeline |
| C63 | import graph, cycle search, topological sort, import checks, resolution of imported names and calls | loop invariants of the two depth-first searches; resolution by induction over the acyclic import relation; independence of hash-map order by permutation |
| C64 | language server as a state machine: open files, projects, revisions, diagnostics cache, timers, requests, database swap | invariant over all calm histories; concrete histories refute the rest |
| C65 | conversions between byte offsets and positions | induction over the text; specification by the protocol definition |
| C66 | the edit returned for formatting | specification of edits by the protocol; induction over the lines |
| C67 | entry point, source files, module names, loading of a project | names are injective: induction over components; loading by induction over the files |
| C68 | reading all modules of a project into one program; functions by their names in the machine | semantics of projects by names over `stands_for` of C63; per module the simulation of C61, joined over the module order; composition with C53; refutation by two functions of one name |
| C69 | columns, constraints and relation entries of the Poseidon2 component; the generated constants | readers of trace masks with two composable predicates (accepts, forces); the permutation as matrices and powers; refutations of the binding of digests to inputs |
| C70 | generation of the preprocessed columns, lookup counters and emitted rows of the range-check and bitwise tables | arithmetic of positions for tables of any width; counting argument; refutation for lookups outside the bitwise table |
| C71 | WASM front end: lowering of DAGs (operations, labels, branches, loops, phi nodes) to MIR | meaning of DAGs and modules written separately; simulation of whole functions and modules by the lowered MIR (induction on the steps of the DAG, over an invariant that the graph holds its code); correctness of each operation's code over any values and memory; refutations for the passes after the front end, conditions, unaligned addresses, comparisons as numbers and returns |
| C72 | extraction of tests from Markdown documents as a state machine over the events of the Markdown parser | invariant over all documents (tests finished so far, the one pending); concrete documents refute the rest |
| C73 | public data, what prover and verifier mix into an abstract channel, the order of their steps, the verifier's check of the sums | injectivity of the mixed numbers; prover and verifier step by step; the sum of the public data over any field against the relations of `AirGlobal`; concrete public data, for every channel, refutes the rest |
| C74 | scanning a text for comments, choice of the node for each comment, comments at the head of the file | induction over the lines of the text and over the list of nodes, against a description of comments by lines; concrete files refute the rest |
| C75 | checks for names declared twice over the syntax tree of the parser | induction over lists of names, patterns and statements, against "occurs at two places"; a concrete module refutes the rest |
| C76 | check of the names in struct literals; the optimizer's and the code generator's reading of the literal | lists of names against sets of fields; a concrete module, compiled and run both ways, refutes the rest |
| C77 | compatibility of types, the checks of calls and of `assert`, the arguments `assert` computes | induction on types against an inductive relation; exact sets of reports; concrete argument lists refute the rest |
| C78 | accepted targets, the decomposition of a target, the extractions and insertions that write a part back | induction on the path, run in the semantics of the intermediate representation, against a relation between the old and the new value; a concrete target refutes the rest |
| C79 | the check of tuple patterns and the code that takes the value apart | induction on patterns, run in the semantics of the intermediate representation, against relations for shapes and bindings; concrete patterns refute the rest |
| C80 | the check of index expressions; a store through an index, compiled and run | case analysis of the check against the value of the index; a concrete module, compiled and run, refutes the rest |
| C81 | the check for constant arrays in every place of use; a store through another name, compiled and run | induction on the expression against the relation "is the name of a constant array"; a concrete module, compiled and run, refutes the rest |
| C82 | the types and checks of array literals over any typing of the elements | induction on the elements; a call whose argument has the type with an error refutes the claim for expected types |
| C83 | the walk of the type checks over the statements of a module, over any typing of expressions | induction on statements against "is a statement within"; concrete modules refute the claims for constants of a file and for nested arrays |
| C84 | typing, check and lowering of members and tuple elements | induction on the access against a relation that says what it denotes, with the typed values of C78 |
| C85 | sorting, repetition and partition of reports, and the verdict of the two entry points | membership through sort, dedup and filters; sortedness of insertion; three reports refute "each once" |
| C86 | the check for names and types without a definition | characterisation of the loop by the first use of each name; the built-in name refutes "all used names are declared" |
| C87 | the types and checks of variables and calls in the model of C59 and C60 (`Typing`) | case analysis; induction on argument lists; declarations named `assert` refute each of the four statements |
| C88 | the state of the tutorial program, the file it is kept in, and the contents of this file at every point of a save | lines of the written file by induction; loop invariant of reading; stops between truncation and the end of writing refute safety |
| C89 | the scrolling list of the tutorial program and all sequences of inputs to it | invariant over sessions; linear arithmetic for the offset |
| C90 | the threads that check all exercises, their channel, and the pass over the results | transition system with any number of threads; invariant of all schedules; induction over the pass |

## Files by area

* Field, instructions, VM (`M31`, `Instr`, `VmMem`, `Vm`; specification `Isa`,
  `Machine`, `MemSpec`): C01–C14. `Isa.v` is an independent table of what each
  instruction reads, writes and jumps to; `Machine.v` is a machine over a flat
  memory whose steps are given by that table.
* Prover constraints (`Air`, `AirOpcodes`, `AirGlobal`; specification `AirSpec`):
  the `evaluate` functions of the 26 opcode components and of `memory`,
  `clock_update` and `merkle`, as lists of constraint values and relation entries
  computed from a row. In `AirGlobal` a row of `poseidon2` is an input state and its digest (C69 shows that
  its columns and constraints amount to that). There a table row is any
  tuple of the table with any multiplicity; C70 shows that the generated tables hold exactly these
  tuples. Not modelled: the polynomial commitment.
* Call interface (`TraceIo`, `Cli`, `Abi`; specification `CliSpec`, `AbiSpec`):
  C15–C20. `AbiSpec.v` gives the layout of a value as a relation between a type, a
  value, the slots it occupies and the memory behind its pointers; encoder and decoder
  are proved against it separately. Not modelled: file handling and segment file names,
  the JSON file around the program, lookup of the entry point by name.
* Adapter (`Adapter`; specification `AdapterSpec`): C21–C23. `AdapterSpec.v` describes
  the expected bundles, moves of a cell and memory tuples from the history of accesses of
  a run of the flat machine, without the adapter's maps. Not modelled: grouping of bundles
  by opcode, hash map iteration order (any order satisfies the statements), file input.
* Row generation (`Trace`; specification `TraceSpec`, `ProverSpec`): C27. The closures of
  `write_trace` and the log-up columns of `write_interaction_trace` of the 26 opcode
  components, from the adapter's bundles to rows. One lane at a time; the order of the
  bundles of a component is the order of execution instead of opcode by opcode.
* Prover output (`Prover`; specification `ProverSpec`, `AirGlobal`): C46. From the adapter's
  output to the rows of all components and the public data; `accepted` of `AirGlobal.v` is what
  the verifier establishes. Not modelled: interaction trace columns, commitment, the hash behind Fiat–Shamir (what is mixed in is: C73).
* Merkle trees (`Merkle`; specification `MerkleSpec`): C24, C25, C45. The hash of two
  digests is a parameter of every statement. `MerkleSpec.v` is the full tree of height 30.
  `SpaceFacts.v` shows that a run only touches addresses below 2^28.
* Code generation (`Cg`, `CgLink`, `CgRun`; specification `CgSpec`): C40–C43. `Cg.v` is the
  emission of instructions and labels for a MIR function, `CgLink.v` the rewriting passes,
  label resolution and assembly of a module, `CgRun.v` the runner's calling of a compiled
  function. `CgSpec.v` says what it means for a sequence to stand for one instruction and for
  emitted items to be placed in a program. Not modelled: debug information, the JSON form of
  the program, comments and offsets attached to instructions.
* Compiler middle end (`Mir`, `MirPasses`, `MirDce`, `MirCopy`, `MirCse`, `MirConst`, `MirPhi`, `MirLegal`; specification
  `MirSem`, `MirIsa`, `MirSsa`, `MirReach`): C30–C39.
  `MirSem.v` gives MIR functions a meaning of their own (values, blocks, phis, calls and
  memory through an arbitrary `world`); a pass is correct if the rewritten function behaves
  as the original whenever the original has a meaning. `MirIsa.v` places MIR values in
  machine cells, which links the operators to the instruction table `Isa.v`. `MirSim.v`
  is the simulation principle shared by the passes. `MirSsa.v` states single assignment over
  the paths of the control-flow graph; `MirSsaMap.v` shows that passes which rename operands
  and drop unused definitions keep it. Hash-map iteration order is a
  parameter where it can matter. Not modelled: source spans, diagnostics, pretty printing.
* Compiled programs (`CgCheck`: the check; `CgExec`, `CgArith`, `CgOps`, `CgCompute`, `CgInstr`,
  `CgCall`, `CgSim`, `CgModule`, `CgVm`, `CgWhole`: proofs): C47. The check replays the code
  generator, keeps the frame layout before and after each instruction, and accepts if every value
  needed later keeps its slots, no result is put on one of them, frames stay within `FS` slots,
  and no instruction reaches further below its frame than its function's own arguments. The sets of
  values needed at the start of each block are an input (`find_lives` computes them); the theorem
  holds for any that pass. The proof runs a function's blocks against its placed code
  (`func_step`), nests calls by induction on the depth (`module_sound`), and carries the machine with
  separate code over to the VM, whose code is in memory, because all writes land above the program
  (`step_follows`). `C47_factorial` is the theorem applied to a recursive function for all inputs.
* Source programs (`Src`: syntax after name resolution, scalar types; `SrcCheck`: the checks of
  semantic analysis; specification `SrcSem`): C48–C50. `SrcSem.v` is a big-step semantics with fuel,
  written from the language documentation. Not modelled here: name resolution,
  imports, constants, tuples, structs, arrays, pointers.
* Lowering (`Lower`; conditions `LowerSpec`; proofs `LowerFacts`, `LowerStep`, `LowerStmt`,
  `LowerSim`, `LowerFun`): C51, C52. `Lower.v` follows `lowering/{function,stmt,expr}.rs` and the SSA
  builder of `function.rs` (sealed blocks, incomplete phis, removal of trivial phis). The model's state
  carries two fields the program does not have, used only in proofs: `l_ent`, the value a variable has on
  entry to a block, and `l_cls`, the id that stands for an id after phi removals. The iteration order
  of the map of incomplete phis is an arbitrary rearrangement, chosen anew for each function. The
  recursion of `read_variable` is bounded by a multiple of the number of blocks. Not modelled: source spans, names,
  tuples, structs, arrays, pointers, constants.
* Pipelines (`Pipe`; checks `MirType`, `PipeCheck`; proofs `MirTypeFacts`, `PipeLift`, `PipeFacts`,
  `PipeSource`): C53. `Pipe.v` chains the pass models in the order of `passes.rs`, scalar
  replacement of aggregates (C62) first. The checks are
  executable and proved to imply the hypotheses of the pass theorems (single assignment, recorded
  types, phis naming predecessors, orderable copies, literals in range, ...); the compiler does not run them.
  `PipeLift.v` goes from functions to modules: what one call does depends on finitely many nested
  calls, so enough fuel for the callees exists.
* Text (`Lex`, `Syn`, `Parse`: crates/compiler/parser; `Fmt`: crates/cairo-m-formatter; specification
  `SynSpec`; proofs `ParseComb`, `ParseFacts`, `ParseStmt`, `ParseSound`, `LexFacts`, `FmtFacts`, `SynFacts`):
  C54–C57. Text is bytes. The two external libraries are modelled from their documentation and are trusted:
  logos (longest match) and chumsky 0.10 (ordered choice; `repeated`, `separated_by`, `foldl`). Recursion is
  bounded by the number of tokens and running out is a separate result, proved impossible (C55). The formatter's
  width measure, groups, soft lines and re-indentation are modelled as they are, so C56 covers all widths. Which
  comment belongs to which item or statement is an input. Not modelled: spans, error messages and recovery.
* Names (`Sema`: semantic_index.rs; specification `SemaSpec`; proofs `SemaFacts`): C58, on the full syntax.
  A use is known by its place in the order of the traversal, not by its span. Not modelled: the second, position-based
  resolver (`resolve_name_at_position`), imports from other modules beyond their local declaration.
* Types (`Typing`: type_resolution.rs, type_validator.rs, literal_validator.rs, lowering/expr.rs; specification `TypingSpec`): C59, C60,
  for scalar expressions in functions made of declarations and one return. Not modelled here: aggregates, assignments, conditions.
* Reading (`Elab`: lowering/expr.rs and lowering/stmt.rs as far as they ask the index for names and types; specification `Named`;
  proofs `ElabFacts`, `ElabFile`): C61. `Elab` joins the syntax tree of `Parse` to the programs of `Src`, so that C53 applies to texts.
  Files of functions and constants over felt, u32 and bool. Not modelled: aggregates; imports are in C68.
* Aggregates (`MirSroa`: passes/sroa.rs, the whole pass with its default configuration; specification `SroaSpec`; proofs `SroaFacts`,
  `SroaStep`, `SroaRun`, `SroaWhole`, `SroaFlat`, checks `SroaCheck`): C62. Hash maps are association lists, statistics are dropped, the
  assertion on array lengths is the explicit failure `None`. The recursion of `can_scalarize_aggregate` is bounded by the number of
  instructions. The pass is part of the pipeline `Pipe.standard`, so C53 covers it too.
* Imports (`Imports`: semantic/src/db.rs as far as it treats the import graph, scope_check.rs `validate_imports`, type_resolution.rs
  for `Use` definitions, lowering of callees; specification `ImportsSpec`; proofs `ImportsFacts`, `ImportsCrate`): C63. A project is an
  association list of modules with distinct names; hash maps are permutations of it. Not modelled: spans.
* Language server (`Server`: cairo-m-ls backend.rs, diagnostics/controller.rs, project/model.rs, db/swapper.rs and
  compiler/semantic delta_diagnostics.rs; `ServerChange` for the contents of one notification; specification `ServerSpec`; proofs `ServerFacts`, `ServerRun`): C64. The compiler is a
  parameter `check`. One event is atomic; events happen in any order. Salsa is trusted to keep inputs and to count revisions as the
  file says. Not modelled: cancellation, request versions, the queue's limits, hover, completion and other requests.
* Editor positions and edits (`Position`: cairo-m-ls backend.rs; specification `PositionSpec`, the protocol 3.17; proofs `PositionFacts`): C65,
  C66. Texts are lists of Unicode scalar values. Not modelled: truncation of positions to 32 bits.
* Project layout (`Project`: cairo-m-project model.rs and discovery.rs, crate_from_project; specification `ProjectSpec`; proofs
  `ProjectFacts`): C67. Paths are lists of components; the directory walk, the parser of manifests and reading files are parameters.
- Projects (`ElabCrate`, spec `NamedCrate`, proofs `ElabCrateFacts`): C68. The meaning of names in a project is the relation `stands_for` of C63; `knows` says that a table has exactly these meanings (it exists for every project without import cycles, C68_meanings). The module table's order is a parameter. Functions are lowered under their plain names; the back end rejects equal names (modelled in `CgLink.valid_module`).
- Constants inside functions (`Elab`, `Named`): read as their value expression at each use, as lowering does. In scope (`closedb`) if the expression mentions no variables; `elab_with` takes the restriction as a parameter, and C61_local_constants_refuted shows that without it a constant changes with the variables it mentions.
- Hash chip (`Poseidon`: components/poseidon2.rs, poseidon2.rs, build.rs; specification `PoseidonSpec`; proofs `PoseidonFacts`): C69. Rows are written one at a time instead of sixteen; the constant tables RC16 and MAT_DIAG16_M_1 are arguments of the right sizes; `evaluate` is a reader of masks that collects constraints. The log-up columns are represented by their fractions.
- Lookup tables (`Tables`: preprocessed/bitwise.rs, preprocessed/range_check/range_check_macro.rs; proofs `TablesFacts`): C70. Columns are in the order of the table (the bit-reversed circle order of stwo is a permutation of rows and is left out); atomic counters are counts modulo 2^32; the log-up columns are represented by their fractions. The specification of the tables is `in_table` of `Air`.
- WASM front end (`Wasm`: crates/wasm/src/lowering/{mod,context,ops,cfg}.rs; specification `WasmSpec`; proofs `WasmOps` for operations, `WasmFlow` for the simulation, `WasmFacts` for the code the lowering leaves in the graph): C71. The theorem about modules takes any `call` that answers as the lowered bodies do when they end. The input is the blockless DAG of the womir crate; womir and wasmparser are not part of the repository, so the meaning of DAGs (labels forward only, loops as sub-DAGs with their own values, i32 operators of the WebAssembly specification, memory of bytes in little-endian order) is trusted. Module loading, names, data segments and globals are not modelled. `careful` runs exclude what the refutations show to go wrong.
- Test documents (`MdTest`: test_utils/src/mdtest/parser.rs, name clean-up of runner.rs for ASCII names; specification `MdTestSpec`): C72. The Markdown parser (pulldown-cmark) is not part of the repository: which events a document gives is trusted. The parsers for annotations and TOML are parameters; line numbers are left out.
- Transcript (`Transcript`: prover/src/public_data.rs, the order of steps in prover.rs and verifier.rs): C73. Channel, commitments, proof of work and the STARK proof itself (stwo) are parameters; that different numbers give unrelated challenges is not expressed.
- Comments (`Comments`: formatter/src/{trivia,comment_attachment,simple_comment_preserver}.rs; specification `CommentsSpec`): C74. The spans of the nodes, in the order in which the formatter sorts them, are an input; blanks are the ASCII ones.
- Names declared twice (`Dups`: semantic/src/semantic_errors.rs, validation/structural_validator.rs without type cohesion, validation/shared.rs): C75. Spans, sorting and dropping of equal diagnostics are left out.
- Struct literals (`StructLit`: semantic/src/validation/type_validator.rs 1037-1181, names only): C76, with `MirSroa`, `Cg` and the machine for what becomes of them.
- Compatible types and calls (`Compat`: semantic/src/type_resolution.rs 983-1037, validation/type_validator.rs 159-191 and 547-653, mir/src/lowering/stmt.rs 396-420): C77. The types of the arguments are given; interned structs and signatures are numbers.
- Assignments to parts (`AssignPath`: mir/src/lowering/stmt.rs 83-122 and 196-356, semantic/src/validation/type_validator.rs 1717-1937): C78. Types of steps are given (`chain`); array elements and the memory places they use are left out.
- Tuple patterns (`Destruct`: mir/src/lowering/stmt.rs 762-874, semantic/src/validation/type_validator.rs 1555-1687): C79. The value is an operand; types are those of the intermediate representation in both.
- Index expressions (`IndexCheck`: semantic/src/validation/type_validator.rs 741-848): C80, with `Cg` and the machine for what becomes of them.
- Uses of constant arrays (`ConstArray`: semantic/src/validation/type_validator.rs 105-158, 369-391, 632-656, 1135-1160, 2055-2080): C81. The resolution of names is given as two functions; `Cg` and the machine show what becomes of a store to a constant array.
- Array literals (`ArrayLit`: semantic/src/type_resolution.rs 777-889, semantic/src/validation/type_validator.rs 851-983, mir/src/lowering/expr.rs 526-533): C82. The typing of the elements is any function of the expected type; `simple_typing` is the instance used in examples.
- Type checks of statements (`StmtCheck`: semantic/src/validation/type_validator.rs 51-97, 194-222, 1327-1599, 1974-2053, 2086-2145): C83. The typing of expressions and the resolution of type expressions are given as functions of the text.
- Accesses to parts (`Access`: semantic/src/type_resolution.rs 597-618, 760-770, semantic/src/validation/type_validator.rs 689-738, 986-1034, mir/src/lowering/expr.rs 317-353, 474-512): C84, for values that are not in memory.
- Reports and verdict (`Driver`: src/lib.rs 90-177, semantic/src/db.rs 64-99, semantic/src/validation/validator.rs 108-141): C85. The reports of the parser, the index builder and the validators, and the generated code, are given.
- Undeclared names (`Undeclared`: semantic/src/validation/scope_check.rs 140-214, builtins.rs 8-14): C86. The results of the lookups of a use are given (their rules are in C58 and C63).
- Progress of a learner (`Progress`: tutorials/cairomlings/src/app_state.rs 52-64, 130-186, 234-307, 369-386, 574): C88. A file is its bytes; the counter is unbounded; the terminal and the exercise files are left out.
- List of exercises (`Scroll`: tutorials/cairomlings/src/list/scroll_state.rs 1-104, list/state.rs 79, 95-118, list.rs 57-105): C89. Drawing is left out; filters and searches are their results (a number of rows, an existing row).
- Check of all exercises (`CheckAll`: tutorials/cairomlings/src/app_state.rs 412-513): C90. Running an exercise is given as its result or an error; the channel is first in, first out.
- Padding (`Padding`: prover/src/utils/enabler.rs 57-75, the beginning of `write_trace` in components/opcodes/store_imm.rs 121-146): C44_enabled_rows. Packing is a grouping of rows; the order in which threads write rows is left out.
