{"id": "C01", "title": "Instruction encoding round-trips", "statement": "Decoding the M31 sequence produced for any instruction gives back that same instruction.", "quantifier": "every instruction of every opcode, with arbitrary M31 operand values", "why_tests_cant": "33 opcodes times (2^31-1)^k operand values; tests sample a few operands per opcode", "anchors": ["crates/common/src/instruction.rs: Instruction::to_smallvec, TryFrom<SmallVec>"]}
{"id": "C02", "title": "Instruction decoding accepts only canonical encodings", "statement": "If a sequence of M31 values decodes to an instruction then re-encoding that instruction yields exactly the sequence that was decoded; empty sequences, unknown opcodes and wrong operand counts are rejected with the documented error.", "quantifier": "every finite sequence of M31 values", "why_tests_cant": "unbounded set of malformed inputs", "anchors": ["crates/common/src/instruction.rs: TryFrom<SmallVec>, InstructionError"]}
{"id": "C03", "title": "A loaded program is fetched back instruction by instruction", "statement": "After a program is loaded, fetching at the word address where an item starts returns exactly that instruction (padding removed), for one-word and two-word instructions alike; consecutive instructions are found at consecutive word offsets.", "quantifier": "every program (any list of instructions and data words) and every item in it", "why_tests_cant": "program length and instruction mix unbounded", "anchors": ["crates/common/src/instruction.rs: to_qm31_vec", "crates/runner/src/vm/mod.rs: TryFrom<&Program>", "crates/runner/src/memory/mod.rs: get_instruction"]}
{"id": "C04", "title": "JSON form of an instruction round-trips", "statement": "Serialising an instruction to its array of hexadecimal strings and parsing it back gives the same instruction.", "quantifier": "every instruction", "why_tests_cant": "all operand values", "anchors": ["crates/common/src/instruction.rs: Serialize/Deserialize for Instruction"]}
{"id": "C05", "title": "Declared memory-access counts match what execution logs", "statement": "For every instruction the number of operand accesses announced by the instruction metadata equals the number of operand entries a successful execution appends to the memory trace, so a consumer can cut the trace into instructions.", "quantifier": "every instruction, every machine state in which it succeeds", "why_tests_cant": "any state; the consumer desynchronises silently if one opcode disagrees", "anchors": ["crates/common/src/instruction.rs: memory_accesses", "crates/runner/src/vm/instructions/*", "crates/prover/src/adapter/memory.rs: ExecutionBundleIterator::next"]}
{"id": "C06", "title": "VM memory is one flat read/write map", "statement": "Reading an address returns the last value written to it (or the initial/zero value if never written), whatever the order and the addresses of the writes, although storage is split over two growing vectors; writes to one address never change another; addresses above 2^28-1 are rejected.", "quantifier": "every sequence of reads and writes at arbitrary addresses", "why_tests_cant": "unbounded histories interacting with vector growth", "anchors": ["crates/runner/src/memory/mod.rs: insert, insert_no_trace, get_data"]}
{"id": "C07", "title": "The memory trace is a faithful log", "statement": "After any number of successful steps, replaying the logged accesses in order on the initial memory explains every logged value: an access that is a read logs the current content and replay ends in the VM's final memory.", "quantifier": "every program, initial state and number of steps", "why_tests_cant": "unbounded executions", "anchors": ["crates/runner/src/memory/mod.rs: trace handling", "crates/runner/src/vm/mod.rs: step"]}
{"id": "C08", "title": "u32 instructions compute 32-bit arithmetic", "statement": "On operands stored as two 16-bit limbs every u32 instruction stores the limbs of the exact mathematical result (wrapping add/sub/mul, floor division and remainder, comparisons as 0/1, bitwise and/or/xor); out-of-range limbs and division by zero are errors, never wrong results.", "quantifier": "all pairs of 32-bit operands, all operand positions", "why_tests_cant": "2^64 operand pairs per opcode", "anchors": ["crates/runner/src/vm/instructions/store.rs"]}
{"id": "C09", "title": "Felt instructions compute in the prime field", "statement": "Felt add/sub/mul/div instructions store the field result; division by a non-zero divisor yields the q with q*divisor = dividend; the less-or-equal instruction compares canonical representatives.", "quantifier": "all pairs of M31 operands", "why_tests_cant": "2^62 operand pairs per opcode", "anchors": ["crates/runner/src/vm/instructions/store.rs", "stwo M31 (external)"]}
{"id": "C10", "title": "Every instruction has exactly its documented effect", "statement": "A successful step writes only the documented destination cells with the documented values, leaves every other cell unchanged, and moves pc/fp as documented (advance by the instruction's size in words, jump, branch, call, return).", "quantifier": "every instruction and every state", "why_tests_cant": "all states", "anchors": ["crates/runner/src/vm/instructions/*", "crates/runner/src/vm/state.rs"]}
{"id": "C11", "title": "Call/return discipline", "statement": "A call saves fp and the return pc just below the new frame; any execution of the callee that leaves those two cells alone and returns at the same frame resumes the caller right after the call with its own fp.", "quantifier": "every call site, every callee execution of any length", "why_tests_cant": "callee executions are unbounded", "anchors": ["crates/runner/src/vm/instructions/call.rs"]}
{"id": "C12", "title": "Failing instructions never corrupt the machine", "statement": "If an instruction fails the registers are unchanged, and memory differs from before at most in the instruction's own destination cells.", "quantifier": "every instruction and state", "why_tests_cant": "all failing states", "anchors": ["crates/runner/src/vm/mod.rs: step", "crates/runner/src/vm/instructions/*"]}
{"id": "C13", "title": "Segmented execution equals unsegmented execution", "statement": "Running with any positive step limit per segment gives the same final state and memory as one unlimited run; the concatenation of the segments' traces is the unlimited trace, and each segment starts with the memory and registers its predecessor ended with.", "quantifier": "every program, entry state and step limit >= 1", "why_tests_cant": "unbounded runs and all limits", "anchors": ["crates/runner/src/vm/mod.rs: execute, finalize_segment, run_from_entrypoint"]}
{"id": "C14", "title": "Execution stops exactly at the program's end", "statement": "A run is reported complete only when pc equals the designated final pc, the trace contains one entry per executed instruction plus the final registers, and no instruction is executed past that point.", "quantifier": "every program and limit", "why_tests_cant": "unbounded runs", "anchors": ["crates/runner/src/vm/mod.rs: execute"]}
{"id": "C15", "title": "Trace files round-trip to the prover", "statement": "The binary trace and memory-trace written by the runner are parsed by the prover's reader into exactly the logged entries.", "quantifier": "every trace", "why_tests_cant": "all values and lengths", "anchors": ["crates/common/src/execution.rs", "crates/runner/src/memory/mod.rs: serialize_trace", "crates/prover/src/adapter/io.rs"]}
{"id": "C16", "title": "Signed integers map to the field by reduction modulo P", "statement": "Any i64 command-line number becomes the canonical representative congruent to it modulo 2^31-1.", "quantifier": "all i64", "why_tests_cant": "2^64 inputs", "anchors": ["crates/common/src/abi_codec.rs: m31_from_i64"]}
{"id": "C17", "title": "Command-line argument syntax round-trips", "statement": "Every value printed in the documented grammar, with any white space between tokens, parses back to that value; text after the value is rejected.", "quantifier": "all values of any nesting, all white-space placements", "why_tests_cant": "unbounded grammar", "anchors": ["crates/common/src/abi_codec.rs: parse_cli_arg"]}
{"id": "C18", "title": "Arguments encoded for a call decode to the same values", "statement": "For every ABI type, encoding a well-typed value into call slots and array memory and decoding it from memory with the same type returns the value.", "quantifier": "all ABI types (nested) and well-typed values", "why_tests_cant": "unbounded types and values", "anchors": ["crates/runner/src/lib.rs: encode_value_for_call, decode_value_*"]}
{"id": "C19", "title": "Array arguments never overlap the argument slots", "statement": "The region reserved for array data is at least as large as what encoding writes, so array data, arguments, return slots and the saved frame are disjoint.", "quantifier": "all signatures and values", "why_tests_cant": "unbounded nesting", "anchors": ["crates/runner/src/lib.rs: calculate_array_materialization_size*, run_cairo_program"]}
{"id": "C20", "title": "Public ranges designate the program, the inputs and the outputs", "statement": "The program, input and output address ranges published for a run are exactly the cells holding the loaded program, the call arguments and the return values.", "quantifier": "all programs and signatures", "why_tests_cant": "all sizes", "anchors": ["crates/common/src/program.rs: PublicAddressRanges::new", "crates/runner/src/lib.rs: run_cairo_program"]}
{"id": "C21", "title": "The adapter reconstructs the execution", "statement": "From the logged trace and memory trace of any run the adapter produces exactly one bundle per executed instruction, with the executed instruction, its registers, and its operand accesses, and ends with the run's final registers.", "quantifier": "all runs of print-free programs", "why_tests_cant": "unbounded runs; depends on every opcode", "anchors": ["crates/prover/src/adapter/memory.rs: ExecutionBundleIterator"]}
{"id": "C22", "title": "The memory argument balances", "statement": "For any memory log the tuples consumed and emitted by the accesses together with the initial- and final-memory boundary tuples (with their multiplicities) and clock updates cancel exactly.", "quantifier": "all logs", "why_tests_cant": "unbounded logs", "anchors": ["crates/prover/src/adapter/memory.rs: Memory::push, update_multiplicities"]}
{"id": "C23", "title": "Every access proves a strictly positive, range-checkable clock gap", "statement": "For every access the adapter produces, clock - prev_clock - 1 lies in the 20-bit range-check table, so that an honest execution can be proved.", "quantifier": "all logs of any length, all gaps", "why_tests_cant": "needs executions longer than 2^20 steps, and all aliasing patterns", "anchors": ["crates/prover/src/adapter/memory.rs: push", "crates/prover/src/components/opcodes/*: range_check_20"]}
{"id": "C24", "title": "The partial Merkle tree has the root of the full tree", "statement": "The root computed from the sparse set of used cells equals the root of the full height-30 tree in which unused leaves hold the default value, and does not depend on insertion order.", "quantifier": "all sparse memories", "why_tests_cant": "2^(2^28) memories", "anchors": ["crates/prover/src/adapter/merkle.rs: build_partial_merkle_tree"]}
{"id": "C25", "title": "Equal roots mean equal memories", "statement": "If the node hash is injective, two memories with the same root agree on every cell (non-present cells being zero).", "quantifier": "all pairs of memories", "why_tests_cant": "all memories", "anchors": ["crates/prover/src/adapter/merkle.rs", "crates/prover/src/components/merkle.rs"]}
{"id": "C26", "title": "Each opcode's constraints admit only the VM's transition", "statement": "For every opcode component: any row satisfying the polynomial constraints and range-check/bitwise lookups, with the operand values it claims to have read, writes the values and moves the registers exactly as the VM instruction does.", "quantifier": "all assignments of field elements to the row's columns", "why_tests_cant": "(2^31)^k rows; soundness quantifies over malicious rows", "anchors": ["crates/prover/src/components/opcodes/*.rs: evaluate"]}
{"id": "C27", "title": "Each honest execution step satisfies its component's constraints", "statement": "The row generated from an executed instruction satisfies all constraints of the component, so that valid executions are provable.", "quantifier": "all steps of all executions", "why_tests_cant": "all operand values", "anchors": ["crates/prover/src/components/opcodes/*.rs: write_trace/evaluate"]}
{"id": "C28", "title": "Memory consistency follows from the memory argument", "statement": "If the memory tuples balance and every access advances the clock, then every access reads the value left by the latest earlier access to that cell.", "quantifier": "all multisets of accesses", "why_tests_cant": "global property over unbounded traces", "anchors": ["crates/prover/src/relations.rs", "crates/prover/src/components/memory.rs", "crates/prover/src/public_data.rs: initial_logup_sum"]}
{"id": "C29", "title": "A balanced set of sound rows is an execution", "statement": "If register and memory tuples balance, the clocks advance and every row is sound, then there is a genuine VM execution from the public initial to the public final state with the public program and inputs.", "quantifier": "all sets of rows", "why_tests_cant": "global property", "anchors": ["crates/prover/src/components/*", "crates/prover/src/verifier.rs"]}
{"id": "C30", "title": "Compile-time evaluation agrees with run time", "statement": "A constant expression folded by the compiler has the value the VM computes for the same operation at run time.", "quantifier": "all operators and all literal pairs", "why_tests_cant": "2^64 literal pairs per operator", "anchors": ["crates/compiler/mir/src/passes/const_eval.rs", "crates/compiler/mir/src/passes/constant_folding.rs"]}
{"id": "C31", "title": "Arithmetic simplification preserves meaning", "statement": "Replacing an instruction by its simplified form never changes the value it computes.", "quantifier": "all operators, operands and environments", "why_tests_cant": "all run-time values", "anchors": ["crates/compiler/mir/src/passes/arithmetic_simplify.rs"]}
{"id": "C32", "title": "Compare-and-branch fusion preserves control flow", "statement": "The fused terminator takes the same branch as the original comparison followed by the branch, for felts, bools and u32s.", "quantifier": "all blocks and environments", "why_tests_cant": "all run-time values", "anchors": ["crates/compiler/mir/src/passes/fuse_cmp.rs", "crates/compiler/codegen/src/generator.rs: generate_terminator", "crates/compiler/codegen/src/builder/ctrlflow.rs: jnz"]}
{"id": "C33", "title": "Branch simplification preserves control flow", "statement": "A branch on a constant is replaced by a jump to the target it would have taken.", "quantifier": "all functions", "why_tests_cant": "all programs", "anchors": ["crates/compiler/mir/src/passes/simplify_branches.rs"]}
{"id": "C34", "title": "Dead-code elimination preserves behaviour", "statement": "Removing unreachable blocks and unused pure instructions does not change the result of any function.", "quantifier": "all functions, all inputs, all execution lengths", "why_tests_cant": "all programs", "anchors": ["crates/compiler/mir/src/passes/dead_code_elimination.rs"]}
{"id": "C35", "title": "Copy propagation preserves behaviour", "statement": "Replacing a copied value by its source and deleting the copy does not change the result of any SSA function.", "quantifier": "all SSA functions and inputs", "why_tests_cant": "all programs", "anchors": ["crates/compiler/mir/src/passes/copy_propagation.rs"]}
{"id": "C36", "title": "Common-subexpression elimination preserves behaviour", "statement": "Sharing equal pure expressions inside a block does not change the observable behaviour.", "quantifier": "all functions", "why_tests_cant": "all programs", "anchors": ["crates/compiler/mir/src/passes/local_cse.rs"]}
{"id": "C37", "title": "Constant propagation is sound", "statement": "Whenever the analysis declares a value constant, every execution computes that constant for it.", "quantifier": "all functions and executions", "why_tests_cant": "fixed point over arbitrary CFGs", "anchors": ["crates/compiler/mir/src/passes/constant_propagation.rs"]}
{"id": "C38", "title": "Phi elimination implements parallel copies", "statement": "The sequence of copies inserted for the phis of a block has the same effect as assigning all phis simultaneously.", "quantifier": "all sets of phi copies", "why_tests_cant": "all dependency graphs, including cycles", "anchors": ["crates/compiler/mir/src/passes/phi_elimination.rs"]}
{"id": "C39", "title": "Legalisation of u32 comparisons preserves values", "statement": "The comparison sequences introduced for the VM compute the same boolean as the original operator.", "quantifier": "all operands", "why_tests_cant": "2^64 operand pairs", "anchors": ["crates/compiler/codegen/src/mir_passes/legalize.rs"]}
{"id": "C40", "title": "Instruction-level rewrites preserve VM behaviour", "statement": "Operand de-duplication and immediate canonicalisation produce instruction sequences with the same effect on every cell except reserved temporaries.", "quantifier": "all instructions and machine states", "why_tests_cant": "all states", "anchors": ["crates/compiler/codegen/src/passes/mod.rs"]}
{"id": "C41", "title": "Jumps land on their labels", "statement": "After label resolution every jump, branch and call transfers control to the first word of the instruction its label marks, although instructions occupy one or two words.", "quantifier": "all instruction lists and label sets", "why_tests_cant": "all program layouts", "anchors": ["crates/compiler/codegen/src/generator.rs: resolve_labels", "crates/compiler/codegen/src/builder.rs"]}
{"id": "C42", "title": "Stack slots of distinct values never overlap", "statement": "Frame layout assigns disjoint slot ranges to parameters, return values, locals and temporaries.", "quantifier": "all functions and allocation sequences", "why_tests_cant": "unbounded sequences", "anchors": ["crates/compiler/codegen/src/layout.rs"]}
{"id": "C43", "title": "Boolean short-circuit code computes the boolean", "statement": "The instruction sequences emitted for and/or/not leave 1 or 0 according to the operands' truth values.", "quantifier": "all operand values, constants and variables", "why_tests_cant": "all run-time values", "anchors": ["crates/compiler/codegen/src/builder/ctrlflow.rs: sc_and, sc_or, sc_not"]}
{"id": "C44", "title": "Trace padding is inert", "statement": "Padding rows added to reach a power of two contribute nothing to any relation and satisfy the constraints.", "quantifier": "all trace lengths", "why_tests_cant": "all lengths", "anchors": ["crates/prover/src/utils/enabler.rs", "crates/prover/src/components/opcodes/*.rs"]}
{"id": "C45", "title": "Consecutive segments commit to the same memory", "statement": "When a run is cut into segments and each is proved separately, the memory root at the end of a segment equals the memory root at the start of the next one.", "quantifier": "all programs, runs, segment lengths and hash functions", "why_tests_cant": "every way of cutting every run", "anchors": ["crates/prover/src/adapter/mod.rs: import_internal", "crates/prover/src/adapter/memory.rs: push", "crates/prover/src/adapter/merkle.rs: build_partial_merkle_tree", "crates/runner/src/vm/mod.rs: finalize_segment", "crates/prover/tests/prover.rs"]}
{"id": "C46", "title": "Honest runs can be proved", "statement": "For every run of the virtual machine, the statement and the trace the prover builds from it satisfy everything the verifier checks: constraints of every component, balance of every relation, the committed roots and the public data.", "quantifier": "all programs, runs, segments, public ranges and hash functions", "why_tests_cant": "every run that can be executed, including very long ones", "anchors": ["crates/prover/src/components/mod.rs: Claim::write_trace", "crates/prover/src/components/{memory,clock_update,merkle}.rs: write_trace", "crates/prover/src/public_data.rs: PublicData::new", "crates/prover/src/prover.rs: prove_cairo_m", "crates/prover/src/verifier.rs: verify_cairo_m"]}
{"id": "C47", "title": "Compiled programs compute what their source says", "statement": "Calling a function of a compiled program on the virtual machine returns exactly the results the semantics of the compiler's intermediate representation assigns to that call, and stops with an error exactly where that semantics fails.", "quantifier": "all modules, functions, arguments, call depths and segment lengths", "why_tests_cant": "every program and every input, with unbounded loops and recursion", "anchors": ["crates/compiler/codegen/src/generator.rs", "crates/compiler/codegen/src/builder.rs", "crates/compiler/codegen/src/backend.rs", "crates/runner/src/lib.rs: run_cairo_program"]}
{"id": "C48", "title": "Code reported as unreachable is never executed", "statement": "Statements for which the compiler warns that they are unreachable never run: deleting them changes no result, no failure and no loop of any program.", "quantifier": "all function bodies, inputs and callees", "why_tests_cant": "every program and every execution path", "anchors": ["crates/compiler/semantic/src/validation/control_flow_validator.rs: analyze_for_unreachable_code_in_sequence, contains_break"]}
{"id": "C49", "title": "Accepted functions return", "statement": "A function that passes the missing-return check cannot reach the end of its body without executing a return statement.", "quantifier": "all functions and inputs", "why_tests_cant": "all control-flow paths of all programs", "anchors": ["crates/compiler/semantic/src/validation/control_flow_validator.rs: body_returns_on_all_paths, statement_provides_return_value, statement_guarantees_hard_return"]}
{"id": "C50", "title": "Accepted programs have no undefined behaviour", "statement": "A module that passes semantic analysis never reads an unset variable, never applies an operator or calls a function with operands of the wrong type, and its functions return values of their declared types.", "quantifier": "all modules, functions, arguments, call depths", "why_tests_cant": "type soundness quantifies over all programs and executions", "anchors": ["crates/compiler/semantic/src/type_resolution.rs", "crates/compiler/semantic/src/validation/type_validator.rs", "crates/compiler/semantic/src/validation/control_flow_validator.rs"]}
{"id": "C51", "title": "Lowering to the intermediate representation preserves meaning", "statement": "The intermediate representation generated for a program that passes semantic analysis returns, for every call with arguments of the declared types, exactly the value the source program returns, and fails exactly where the source program fails.", "quantifier": "all modules, functions, arguments, loops, recursion depths and hash-map iteration orders", "why_tests_cant": "every program and every input; the SSA construction is a recursive algorithm over arbitrary nested loops", "anchors": ["crates/compiler/mir/src/lowering/function.rs", "crates/compiler/mir/src/lowering/stmt.rs", "crates/compiler/mir/src/lowering/expr.rs", "crates/compiler/mir/src/function.rs: read_variable, seal_block, try_remove_trivial_phi"]}
{"id": "C52", "title": "Lowering produces static single assignment form", "statement": "In every generated function each value has exactly one definition, and every use refers to a value that is defined.", "quantifier": "all accepted functions and hash-map iteration orders", "why_tests_cant": "every nesting of loops, branches, break and continue", "anchors": ["crates/compiler/mir/src/function.rs: read_variable, seal_block, try_remove_trivial_phi, replace_all_uses"]}
{"id": "C53", "title": "Running a compiled program gives the source program's result", "statement": "For a program that passes semantic analysis: calling one of its functions on the virtual machine, compiled with or without optimizations, returns exactly the value the source language assigns to that call; without optimizations it also stops with an error exactly where the source program fails.", "quantifier": "all modules, functions, arguments, loops, recursion depths, segment lengths and hash-map iteration orders", "why_tests_cant": "the whole compiler, for every program and every input", "anchors": ["crates/compiler/mir/src/passes.rs: no_opt_pipeline, standard_pipeline", "crates/compiler/mir/src/pipeline.rs: optimize_module", "crates/compiler/compiler/src/lib.rs: compile_from_db", "crates/runner/src/lib.rs: run_cairo_program"]}
{"id": "C54", "title": "Number literals mean what they say", "statement": "A literal in base 2, 8, 10 or 16, with or without the suffix felt or u32, is read as one token with the value its digits denote and that suffix; literals of 2^64 and more are rejected; nothing else is read as a number; a comment up to the end of its line is read as nothing.", "quantifier": "all digit strings, bases, suffixes and texts", "why_tests_cant": "all literals", "anchors": ["crates/compiler/parser/src/lexer.rs: parse_number_literal, TokenType"]}
{"id": "C55", "title": "The parser decides every text and groups operators as documented", "statement": "Every text is accepted or rejected; in an accepted program operators group to the left within a level and by level otherwise, with the levels of the documented grammar; conditions may be any expression.", "quantifier": "all texts", "why_tests_cant": "all programs and nesting depths", "anchors": ["crates/compiler/parser/src/parser.rs: parse_file, expression_parser, statement_parser, item parsers"]}
{"id": "C56", "title": "Formatting does not change the program", "statement": "Formatting an accepted file, with any line width, indentation and comments, gives a text that parses to the same program; formatting it again changes nothing.", "quantifier": "all accepted files, line widths, indentation widths and comments", "why_tests_cant": "all programs and layouts", "anchors": ["crates/cairo-m-formatter/src/api.rs: format_source_file", "crates/cairo-m-formatter/src/doc.rs", "crates/cairo-m-formatter/src/rules/{expressions,items,statements,types}.rs"]}
{"id": "C57", "title": "Formatting keeps comments", "statement": "Every comment attached to the file, to an item or to a statement of a function body appears unbroken in the formatted text.", "quantifier": "all accepted files, line widths, indentation widths and comments", "why_tests_cant": "all programs and layouts", "anchors": ["crates/cairo-m-formatter/src/comment_attachment.rs", "crates/cairo-m-formatter/src/rules/{items,statements}.rs", "crates/cairo-m-formatter/src/doc.rs"]}
{"id": "C58", "title": "Names refer to what lexical scoping says", "statement": "Every mentioned variable, constant, parameter, function and type is connected with the innermost most recent declaration of that name in force at that point, and exactly the declarations nobody refers to are reported as unused.", "quantifier": "all source files", "why_tests_cant": "all programs, nestings and shadowings", "anchors": ["crates/compiler/semantic/src/semantic_index.rs: SemanticIndexBuilder, latest_definition_index_by_name_in_chain", "crates/compiler/semantic/src/validation/scope_check.rs: check_unused_variables"]}
{"id": "C59", "title": "Operators are compiled for the types they were checked with", "statement": "For every accepted expression, each operator is compiled to the machine operator of the operand type that the type checker found for it.", "quantifier": "all expressions of literals, variables, operators, calls and casts in accepted programs", "why_tests_cant": "all expressions and typing contexts", "anchors": ["crates/compiler/semantic/src/type_resolution.rs: expression_semantic_type", "crates/compiler/semantic/src/validation/type_validator.rs", "crates/compiler/mir/src/lowering/expr.rs: lower_binary_op"]}
{"id": "C60", "title": "Literals take the expected type and fit it", "statement": "A literal without suffix has the type expected where it stands (declared variable, parameter, result), programs that are well typed under that rule are accepted, and an accepted literal fits its type and keeps its value.", "quantifier": "all literals in all programs", "why_tests_cant": "all positions and magnitudes of literals", "anchors": ["crates/compiler/semantic/src/type_resolution.rs: expression_semantic_type", "crates/compiler/semantic/src/validation/literal_validator.rs", "crates/compiler/semantic/src/validation/type_validator.rs: check_return_types"]}
{"id": "C61", "title": "A file means what it says, from its text to the machine", "statement": "Calling a function of a source file on the virtual machine returns what the text says when names stand for the innermost enclosing declaration, functions are called by name and numbers take the type of what they meet; and stops with an error where the text says so.", "quantifier": "all texts, functions, arguments, loops, recursion depths, segment lengths and hash-map iteration orders", "why_tests_cant": "the whole tool chain, for every text and every input", "anchors": ["crates/compiler/parser/src/parser.rs", "crates/compiler/semantic/src/semantic_index.rs", "crates/compiler/mir/src/lowering/expr.rs: lower_expression", "crates/compiler/mir/src/lowering/stmt.rs", "crates/compiler/mir/src/lowering/function.rs", "crates/compiler/compiler/src/lib.rs: compile_from_db", "crates/runner/src/lib.rs: run_cairo_program"]}
{"id": "C62", "title": "Taking aggregates apart preserves behaviour", "statement": "Replacing tuples, structs and small arrays by their members (the first optimization of the default pipeline) changes no result, no memory effect and no failure of any function.", "quantifier": "all functions with aggregates, inputs, worlds and step counts", "why_tests_cant": "every nesting and use of aggregates in every control flow", "anchors": ["crates/compiler/mir/src/passes/sroa.rs: ScalarReplacementOfAggregates::run, can_scalarize_aggregate, find_cross_block_aggregates, materialize, forward_projection_chain, try_forward_store_chain", "crates/compiler/mir/src/passes.rs: standard_pipeline"]}
{"id": "C63", "title": "Imports form no cycle and an imported name is one item", "statement": "A project whose modules import each other in a cycle is rejected with that cycle, every other project is analysed with imported modules first; in an accepted project every imported name is one item of the project, the type checker takes its type from that item, and a call compiles to a call of that function.", "quantifier": "all projects, import structures and hash-map iteration orders", "why_tests_cant": "all import graphs and orders of iteration", "anchors": ["crates/compiler/semantic/src/db.rs: detect_import_cycle, topological_sort, project_semantic_index", "crates/compiler/semantic/src/semantic_index.rs", "crates/compiler/semantic/src/type_resolution.rs: definition_semantic_type", "crates/compiler/mir/src/lowering/function.rs, expr.rs: resolve_callee_expression, resolve_imported_function"]}
{"id": "C64", "title": "The editor shows the diagnostics of the current texts", "statement": "After any sequence of openings, edits, project loads and background tasks, once no work is left the language server shows for every file of a loaded project what the compiler reports for the texts as they are.", "quantifier": "all histories of client events, timers, requests, project loads and database swaps; all compilers", "why_tests_cant": "all interleavings of tasks and edits", "anchors": ["crates/cairo-m-ls/src/backend.rs: did_open, did_change, schedule_debounced_diagnostics, project monitor", "crates/cairo-m-ls/src/diagnostics/controller.rs", "crates/cairo-m-ls/src/project/model.rs", "crates/cairo-m-ls/src/db/swapper.rs: perform_swap", "crates/compiler/semantic/src/delta_diagnostics.rs: get_project_diagnostics"]}
{"id": "C65", "title": "Positions mean the same place to the editor and to the server", "statement": "A place in a document that the server reports, and a place it is asked about, is the same place for the editor: lines and UTF-16 columns as the protocol defines them.", "quantifier": "all texts and places", "why_tests_cant": "all texts, including all Unicode characters and line ends", "anchors": ["crates/cairo-m-ls/src/backend.rs: offset_to_position, position_to_offset", "crates/cairo-m-ls/src/diagnostics/controller.rs: offset_to_position"]}
{"id": "C66", "title": "Formatting in the editor gives the formatted text", "statement": "Applying the edit that the server returns for a formatting request replaces the document by what the formatter produces.", "quantifier": "all documents and formatter results", "why_tests_cant": "all documents and line ends", "anchors": ["crates/cairo-m-ls/src/backend.rs: formatting"]}
{"id": "C67", "title": "The module a::b is the file src/a/b.cm", "statement": "In a project every module that an import can name is the file of that name below the source directory, with its text; no other module exists; distinct files are distinct modules.", "quantifier": "all project layouts, entry points and directory trees", "why_tests_cant": "all directory trees and names", "anchors": ["crates/compiler/cairo-m-project/src/model.rs: source_files, module_name_from_path", "crates/compiler/cairo-m-project/src/discovery.rs: load_project_from_manifest, find_project_manifest", "crates/compiler/semantic/src/db.rs: crate_from_project", "crates/cairo-m-ls/src/db/mod.rs: to_semantic_crate"]}
{"id": "C68", "title": "A project of several files means what its files say", "statement": "Calling a function of a project on the virtual machine returns what the files say when every name stands for the item of its own module or the one it is imported from, whatever names other modules use; the order in which the compiler visits the modules does not matter; and every project that passes the checks is compiled.", "quantifier": "all projects, import structures without cycles, orders of the module table, functions, arguments, loops and recursion depths", "why_tests_cant": "the number of modules, import chains and name clashes between modules is unbounded, and the order of the table changes from run to run", "anchors": ["crates/compiler/mir/src/lowering/function.rs: generate_mir", "crates/compiler/mir/src/lowering/builder.rs: resolve_callee_expression, resolve_imported_function", "crates/compiler/mir/src/module.rs: validate", "crates/compiler/codegen/src/generator.rs: generate_function, lower_call", "crates/compiler/semantic/src/db.rs: project_semantic_index"]}
{"id": "C69", "title": "The hash chip computes Poseidon2 and ties tree nodes to their children", "statement": "For every input state the rows the prover writes for the hash component satisfy its constraints and claim the first element of the Poseidon2 permutation of the input; no other row that satisfies the constraints claims anything else; the hash of the memory trees is this hash; and in an accepted proof every tree node's value is the hash of its children.", "quantifier": "all constant tables, input states, rows and sets of rows", "why_tests_cant": "2^496 input states and all rows a dishonest prover may write", "anchors": ["crates/prover/src/components/poseidon2.rs: write_trace, write_interaction_trace, evaluate", "crates/prover/src/poseidon2.rs: Poseidon2Hash", "crates/prover/build.rs: main", "crates/prover/src/components/merkle.rs: evaluate"]}
{"id": "C70", "title": "The lookup tables hold what the lookups check, and every lookup is counted", "statement": "The bitwise table holds exactly the operations AND, OR and XOR on bytes with their results and the range tables exactly the values of 8, 16 and 20 bits; each row is emitted as often as it was looked up; and a lookup that is not in its table is not counted for another row.", "quantifier": "all operand widths, rows and sequences of fewer than 2^32 lookups", "why_tests_cant": "the tables have up to 2^20 rows and the lookups are any sequence", "anchors": ["crates/prover/src/preprocessed/bitwise.rs: Bitwise, generate_column_values, write_trace, write_interaction_trace, evaluate", "crates/prover/src/preprocessed/range_check/range_check_macro.rs: range_check, write_trace"]}
{"id": "C71", "title": "WebAssembly functions compile to functions that do the same", "statement": "For every WebAssembly function the front end accepts, the compiled function returns the same results and leaves the same memory, for all arguments and memories, and stops where the WebAssembly function stops.", "quantifier": "all functions (operations, branches, loops, calls), arguments and memories", "why_tests_cant": "Tests run a handful of small programs on chosen arguments; loops whose variables are used after the loop, unaligned addresses, conditions above 16 bits and returns from inside loops do not occur in them.", "anchors": ["crates/wasm/src/lowering/mod.rs: function_to_mir", "crates/wasm/src/lowering/ops.rs", "crates/wasm/src/lowering/cfg.rs", "crates/wasm/src/lowering/context.rs"]}
{"id": "C72", "title": "Every code block of a test document is run as one test", "statement": "The tests taken from a Markdown document are its Cairo-M code blocks, in order, none lost, doubled or changed; each is compared with the Rust code that stands behind it, run with the configuration before it, and named after its section, with a name of its own.", "quantifier": "all documents", "why_tests_cant": "documents combine headings, code blocks, configurations and text in any order; a mix-up makes tests pass without checking what they claim", "anchors": ["crates/test_utils/src/mdtest/parser.rs: extract_tests, format_test_name", "crates/test_utils/src/mdtest/runner.rs: sanitize_test_name"]}
{"id": "C73", "title": "A proof is bound to the public data it comes with", "statement": "A proof made for one set of public data (registers, clock, memory roots, program, inputs, outputs) is bound to all of it: everything the caller reads from the public data goes into the challenges of the proof, prover and verifier derive the same challenges, and the same proof is not accepted with other public data.", "quantifier": "all public data, proofs, channels and relation sums", "why_tests_cant": "all pairs of public data, including missing cells and cells in another order", "anchors": ["crates/prover/src/public_data.rs: PublicEntries, PublicData, mix_into, initial_logup_sum", "crates/prover/src/prover.rs: prove_cairo_m", "crates/prover/src/verifier.rs: verify_cairo_m"]}
{"id": "C74", "title": "The formatter finds every comment and gives it one place", "statement": "Every comment of a file (on each line, what follows the first two slashes) is found, with its text and place, and printed exactly once: at the head of the file, or with the nearest piece of code (behind it on the same line, or before it).", "quantifier": "all texts and sets of code places", "why_tests_cant": "all layouts of comments, blank lines, line ends and code", "anchors": ["crates/compiler/formatter/src/trivia.rs: scan_comments, determine_comment_position", "crates/compiler/formatter/src/comment_attachment.rs: attach_comments_to_ast, find_best_attachment", "crates/compiler/formatter/src/simple_comment_preserver.rs: format_with_comments"]}
{"id": "C75", "title": "Names declared twice are reported", "statement": "The compiler reports exactly the names that are declared or imported twice in a module, twice among the parameters of a function or the fields of a struct, or bound twice by one pattern.", "quantifier": "all modules", "why_tests_cant": "all modules, nestings of statements and patterns", "anchors": ["crates/compiler/semantic/src/semantic_errors.rs: duplicate_top_level_items", "crates/compiler/semantic/src/validation/structural_validator.rs: StructuralValidator", "crates/compiler/semantic/src/validation/shared.rs"]}
{"id": "C76", "title": "A struct literal gives each field one value", "statement": "The compiler reports exactly the fields a struct literal leaves out and the names it gives that are no fields; an accepted literal gives each field exactly one value, the same with and without optimizations.", "quantifier": "all structs and literals", "why_tests_cant": "all structs and literals, in every order of fields", "anchors": ["crates/compiler/semantic/src/validation/type_validator.rs: check_struct_literal_types", "crates/compiler/mir/src/lowering/expr.rs: lower_struct_literal", "crates/compiler/mir/src/passes/sroa.rs: from_struct_fields", "crates/compiler/codegen/src/builder/aggregates.rs: make_struct"]}
{"id": "C77", "title": "Values go only where their type is expected", "statement": "A value is accepted as an argument only if its type is that of the parameter, however deep the types are nested; a call has as many arguments as its function has parameters, an assertion has one condition, and every argument of an accepted call is computed.", "quantifier": "all types, signatures and argument lists", "why_tests_cant": "types nest without bound", "anchors": ["crates/compiler/semantic/src/type_resolution.rs: are_types_compatible", "crates/compiler/semantic/src/validation/type_validator.rs: check_function_call_types, check_builtin_assert", "crates/compiler/mir/src/lowering/stmt.rs: lower_assert_call"]}
{"id": "C78", "title": "An assignment changes exactly the part it names, and no constant", "statement": "An assignment to a field or element of a variable, however deep, gives the variable its old value with the new one in that place and nothing else changed; assignments to constants or their parts are rejected; an accepted assignment writes to what its target names.", "quantifier": "all targets, values and depths", "why_tests_cant": "parts nest without bound", "anchors": ["crates/compiler/mir/src/lowering/stmt.rs: lower_assignment_statement, decompose_lhs_path", "crates/compiler/semantic/src/validation/type_validator.rs: check_assignment_types, lvalue_resolves_to_const"]}
{"id": "C79", "title": "A tuple pattern binds each name to its element", "statement": "A let statement with a tuple pattern binds every name to the part of the value in its place, however deep the pattern is nested, and an accepted pattern has the shape of its value's type.", "quantifier": "all patterns, types and values", "why_tests_cant": "patterns nest without bound", "anchors": ["crates/compiler/mir/src/lowering/stmt.rs: lower_pattern, lower_pattern_with_type", "crates/compiler/semantic/src/validation/type_validator.rs: check_let_statement_types"]}
{"id": "C80", "title": "Array accesses stay within the array", "statement": "An accepted access to an array with an index written as a number is an access to one of its elements, so that writing to one array never changes another variable; only arrays and pointers can be indexed, and only with felts.", "quantifier": "all arrays and index expressions", "why_tests_cant": "all sizes and indices", "anchors": ["crates/compiler/semantic/src/validation/type_validator.rs: check_index_access_types", "crates/compiler/codegen/src/builder: array load and store"]}
{"id": "C81", "title": "Constants keep their values", "statement": "An accepted program never changes the elements of a constant array: wherever a constant array would get another name through which it could be written, the program is rejected, and only there.", "quantifier": "all expressions, places of use and resolutions of names", "why_tests_cant": "every use of every constant, in every place an array can be passed", "anchors": ["crates/compiler/semantic/src/validation/type_validator.rs: expr_resolves_to_const_array", "crates/compiler/mir/src/lowering/builder.rs: make_fixed_array", "crates/compiler/codegen/src/generator.rs: read-only data"]}
{"id": "C82", "title": "Array literals are arrays of what they list", "statement": "An accepted array literal has the type of an array with as many elements as are written, all of one type, whatever type is expected where it stands, so that it can be compiled; arrays are neither empty nor nested.", "quantifier": "all lists of elements, typings of the elements and expected types", "why_tests_cant": "lists of every length and every expected type", "anchors": ["crates/compiler/semantic/src/type_resolution.rs: expression_semantic_type (ArrayLiteral, ArrayRepeat)", "crates/compiler/semantic/src/validation/type_validator.rs: check_array_literal_types, check_array_repeat_types", "crates/compiler/mir/src/lowering/expr.rs: lower_array_literal"]}
{"id": "C83", "title": "Conditions are booleans and functions return what they declare", "statement": "In an accepted file every condition, at any depth of nesting, is a boolean, every return statement has the declared type, every let statement and constant has its annotated type, and no nested arrays are declared.", "quantifier": "all files, statements, nestings and typings of expressions", "why_tests_cant": "statements nest without bound", "anchors": ["crates/compiler/semantic/src/validation/type_validator.rs: validate, check_statement_type, check_return_types, check_if_statement_types, check_for_nested_arrays"]}
{"id": "C84", "title": "Reading a part of a variable gives that part", "statement": "An access such as x.f.0 is accepted exactly if the part exists in the type of the variable; it is compiled to instructions that give that part of the variable's value, of the type of the access, and change nothing else.", "quantifier": "all accesses, types and values", "why_tests_cant": "accesses nest without bound", "anchors": ["crates/compiler/semantic/src/validation/type_validator.rs: check_member_access_types, check_tuple_index_types", "crates/compiler/semantic/src/type_resolution.rs: expression_semantic_type (MemberAccess, TupleIndex)", "crates/compiler/mir/src/lowering/expr.rs: lower_member_access, lower_tuple_index"]}
{"id": "C85", "title": "A project with errors gives no program, and no report is lost", "statement": "The compiler gives a program only if none of the reports of the parser, the index builder and all validators about any module is an error, and then returns all of them; a refused project is shown errors that were reported; the reports of a module come in the order of their places, each once.", "quantifier": "all projects, modules, validators and reports", "why_tests_cant": "every combination of reports of every validator", "anchors": ["crates/compiler/src/lib.rs: compile_from_file, compile_project", "crates/compiler/semantic/src/db.rs: project_validate_semantics", "crates/compiler/semantic/src/validation/validator.rs: validate_all"]}
{"id": "C86", "title": "Names without a definition are reported once, where they are first used", "statement": "Every use of a value for which no definition is found, neither by the index builder nor locally nor through imports, makes the compiler report its name, exactly once and at the first such use; every use of a type that is not found is reported; nothing else is; so in an accepted file every used name has a definition.", "quantifier": "All sequences of uses of values and types, with any results of the lookups", "why_tests_cant": "Tests have one or two missing names; which use is reported depends on all earlier uses in the file", "anchors": ["crates/compiler/semantic/src/validation/scope_check.rs: check_undeclared_variables_global", "crates/compiler/semantic/src/builtins.rs: is_builtin_function_name"]}
{"id": "C87", "title": "A declaration of the user decides what its name means", "statement": "A declared variable has its declared type wherever it is used; a call of a declared function has the type of its result and is accepted only with one argument of the right type for each parameter; only functions can be called. This holds for every name the user may choose.", "quantifier": "All scopes, names, argument lists and expected types", "why_tests_cant": "Tests use ordinary names; which names are treated specially shows only when all are considered", "anchors": ["crates/compiler/semantic/src/type_resolution.rs: expression_semantic_type", "crates/compiler/semantic/src/validation/type_validator.rs: check_function_call_types, check_builtin_assert", "crates/compiler/semantic/src/builtins.rs: is_builtin_function_name"]}
{"id": "C88", "title": "The progress of a learner is kept", "statement": "The tutorial program finds at every start the exercises done and the current exercise as they were saved, whichever they are; marking an exercise changes only this exercise and keeps the counter right; the next exercise is the first pending one in turn, and there is none only if all others are done; any contents of the state file give a usable state; stopping the program at any point of a save loses and invents nothing.", "quantifier": "All courses, states, sequences of marks, contents of the state file and crash points of a save", "why_tests_cant": "Tests cannot stop the program at every point of a save, nor try all sets of names and states", "anchors": ["tutorials/cairomlings/src/app_state.rs: AppState::new, write, set_status, next_pending_exercise_ind"]}
{"id": "C89", "title": "The selected exercise is on the screen", "statement": "Whatever keys the user of the list of exercises presses and however the screen is resized, the program does not fail, some row is selected if there are rows, it is among the rows shown, and no line stays empty while a row is hidden; every key selects the row it should.", "quantifier": "All numbers of rows, screen sizes and sequences of inputs", "why_tests_cant": "The offset depends on the whole history of selections, filters and sizes", "anchors": ["tutorials/cairomlings/src/list/scroll_state.rs: ScrollState", "tutorials/cairomlings/src/list.rs: handle_list"]}
{"id": "C90", "title": "The check of all exercises has the same outcome under every schedule", "statement": "However many threads check the exercises and however they are scheduled, every exercise is run by exactly one of them, the check does not get stuck, and at the end exactly the exercises that work are done and the first one that does not is the next one; an error while running in parallel changes nothing of this, since the exercise is run again.", "quantifier": "All numbers of exercises and threads, all schedules, all errors of runs", "why_tests_cant": "The outcome must not depend on the interleaving of the threads, which tests cannot enumerate", "anchors": ["tutorials/cairomlings/src/app_state.rs: check_all_exercises_impl"]}
