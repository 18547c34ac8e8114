{
 "claims": [
  {
   "property": "C01",
   "status": "proved",
   "theorems": [
    "C01_decode_encode"
   ],
   "note": ""
  },
  {
   "property": "C02",
   "status": "proved",
   "theorems": [
    "C02_decode_canonical",
    "C02_decode_outcome",
    "C02_documented_layout"
   ],
   "note": ""
  },
  {
   "property": "C03",
   "status": "proved",
   "theorems": [
    "C03_loaded_program_fetched",
    "C03_size_in_words",
    "C03_data_words"
   ],
   "note": ""
  },
  {
   "property": "C04",
   "status": "proved",
   "theorems": [
    "C04_json_roundtrip",
    "C04_json_sound"
   ],
   "note": ""
  },
  {
   "property": "C05",
   "status": "proved",
   "theorems": [
    "C05_access_counts",
    "C05_print_refuted"
   ],
   "note": "Holds for every instruction except the two print instructions; C05_print_refuted shows that PrintM31 announces an access the VM does not log."
  },
  {
   "property": "C06",
   "status": "proved",
   "theorems": [
    "C06_memory_is_a_map",
    "C06_invariant"
   ],
   "note": ""
  },
  {
   "property": "C07",
   "status": "proved",
   "theorems": [
    "C07_trace_faithful",
    "C07_reads_show_replayed_content"
   ],
   "note": ""
  },
  {
   "property": "C08",
   "status": "proved",
   "theorems": [
    "C08_u32_memory_operands",
    "C08_u32_immediate_operand",
    "C08_u32_comparison",
    "C08_u32_comparison_immediate",
    "C08_u32_division",
    "C08_u32_division_immediate",
    "C08_u32_constant",
    "C08_limb_errors",
    "C08_immediate_limb_errors",
    "C08_division_by_zero",
    "C08_division_by_zero_immediate",
    "C08_division_overlap_refuted"
   ],
   "note": "Quotient and remainder destinations must not overlap; C08_division_overlap_refuted shows the overlapping case loses the quotient."
  },
  {
   "property": "C09",
   "status": "proved",
   "theorems": [
    "C09_felt_operations",
    "C09_felt_immediate_operations",
    "C09_quotient_unique",
    "C09_division_by_zero",
    "C09_division_by_zero_panics"
   ],
   "note": "Division by zero stops execution by a panic (C09_division_by_zero_panics), never with a wrong result."
  },
  {
   "property": "C10",
   "status": "proved",
   "theorems": [
    "C10_step_effect",
    "C10_step_complete",
    "C10_deterministic"
   ],
   "note": ""
  },
  {
   "property": "C11",
   "status": "proved",
   "theorems": [
    "C11_call_return",
    "C11_untouched_cells_keep"
   ],
   "note": ""
  },
  {
   "property": "C12",
   "status": "proved",
   "theorems": [
    "C12_failure_keeps_registers",
    "C12_other_cells_kept"
   ],
   "note": ""
  },
  {
   "property": "C13",
   "status": "proved",
   "theorems": [
    "C13_segmented_is_unsegmented",
    "C13_unsegmented_is_segmented",
    "C13_zero_limit_diverges"
   ],
   "note": "For every positive step limit; C13_zero_limit_diverges shows the limit 0 never terminates."
  },
  {
   "property": "C14",
   "status": "proved",
   "theorems": [
    "C14_stops_at_end",
    "C14_ongoing",
    "C14_empty_program"
   ],
   "note": ""
  },
  {
   "property": "C15",
   "status": "proved",
   "theorems": [
    "C15_trace_roundtrip",
    "C15_memory_roundtrip",
    "C15_truncated_trace",
    "C15_truncated_memory"
   ],
   "note": "Round trip for every trace and memory log of canonical values, and the exact result for a file cut at any byte. The file-name scheme for segments is not modelled."
  },
  {
   "property": "C16",
   "status": "proved",
   "theorems": [
    "C16_m31_from_i64"
   ],
   "note": "All integers, hence all i64."
  },
  {
   "property": "C17",
   "status": "proved",
   "theorems": [
    "C17_parse_iff_grammar",
    "C17_parse_total"
   ],
   "note": "The parser accepts a string exactly when the grammar (CliSpec) spells the value, and rejects everything else."
  },
  {
   "property": "C18",
   "status": "proved",
   "theorems": [
    "C18_roundtrip",
    "C18_refused",
    "C18_call_frame",
    "C18_returned_values"
   ],
   "note": "Every nesting of types whose pointers have a length; the encoder refuses only ill-typed values or address overflow; the frame seen by the function and the values reported to the caller."
  },
  {
   "property": "C19",
   "status": "partial",
   "theorems": [
    "C19_no_overlap_partial",
    "C19_reserved_space_partial",
    "C19_nested_pointer_refuted",
    "C19_wrong_length_panics_refuted"
   ],
   "note": "Proved when pointers occur only outside arrays and other pointers; C19_nested_pointer_refuted shows the code reserves too little space otherwise, and C19_wrong_length_panics_refuted that a wrong array length aborts."
  },
  {
   "property": "C20",
   "status": "partial",
   "theorems": [
    "C20_public_ranges_partial",
    "C20_array_argument_refuted"
   ],
   "note": "Proved for calls without array data; C20_array_argument_refuted shows the published input and output ranges are wrong when an argument is an array."
  },
  {
   "property": "C21",
   "status": "proved",
   "theorems": [
    "C21_adapter_reconstructs",
    "C21_bundles",
    "C21_one_bundle_each",
    "C21_memories",
    "C21_reads",
    "C21_vm_segments",
    "C21_print_refuted"
   ],
   "note": "For all print-free runs, and for every segment of every run of the virtual machine. C21_print_refuted: a program with a print instruction cannot be imported, because the machine does not log the printed cell."
  },
  {
   "property": "C22",
   "status": "partial",
   "theorems": [
    "C22_balanced_partial",
    "C22_short_runs",
    "C22_unbalanced",
    "C22_balance_refuted"
   ],
   "note": "Exact characterisation: the argument balances if, and only if, no cell that has changed since its first content is left alone for more than 2^20-1 instructions (C22_balanced_partial, C22_unbalanced); always for runs of at most 2^20-1 instructions. C22_balance_refuted exhibits an unbalanced run: clock updates carry the cell's first content instead of the current one. Missing: nothing that the code satisfies."
  },
  {
   "property": "C23",
   "status": "partial",
   "theorems": [
    "C23_gaps_in_range_partial",
    "C23_same_cell_twice_refuted",
    "C23_exact_gap_refuted"
   ],
   "note": "For runs in which no instruction touches one cell twice and no long gap is a multiple of 2^20-1. Both exceptions are refuted (C23_same_cell_twice_refuted, C23_exact_gap_refuted): such honest runs get the gap -1, which the 20-bit table does not hold."
  },
  {
   "property": "C24",
   "status": "proved",
   "theorems": [
    "C24_partial_tree_root",
    "C24_same_cells_same_root",
    "C24_empty",
    "C24_full_memory_refused",
    "C24_nodes_link_cells_to_root"
   ],
   "note": "For every hash function and every non-empty set of fewer than 2^28 cells; the 2^28-cell memory is refused (C24_full_memory_refused)."
  },
  {
   "property": "C25",
   "status": "partial",
   "theorems": [
    "C25_equal_roots_or_collision",
    "C25_collision_is_found",
    "C25_equal_memories_equal_roots",
    "C25_roots_determine_memory_refuted"
   ],
   "note": "Equal roots give equal memories or a pair of different hash inputs with the same digest inside the two trees. The unconditional statement is false for every hash: a digest is one field element (C25_roots_determine_memory_refuted)."
  },
  {
   "property": "C26",
   "status": "partial",
   "theorems": [
    "C26_rows_are_instructions_partial",
    "C26_rows_are_steps_partial",
    "C26_division_by_zero_refuted",
    "C26_unknown_opcode_refuted",
    "C26_less_or_equal_refuted",
    "C26_mul_clock_refuted",
    "C26_div_clock_refuted",
    "C26_eq_imm_refuted"
   ],
   "note": "Proved for every component except where a constraint is missing; the six missing constraints are shown by the _refuted theorems (u32_store_eq_fp_imm is excluded altogether). Missing: a sound statement for those rows, which the code does not satisfy."
  },
  {
   "property": "C27",
   "status": "partial",
   "theorems": [
    "C27_row_complete_partial",
    "C27_component_exists",
    "C27_eq_destination_refuted",
    "C27_eq_immediate_refuted",
    "C27_padding",
    "C27_run_rows_partial",
    "C27_traces_partial",
    "C27_trace_size"
   ],
   "note": "Proved for every instruction with a component except u32 equality, for every run that is `plain` (no instruction touches a cell twice, no long gap that is a multiple of the bridging step, code words padded with zeros and apart from data, operands in cells that hold field elements). The two u32 equality rows come out wrong (refuted); the other conditions are needed (C23)."
  },
  {
   "property": "C28",
   "status": "proved",
   "theorems": [
    "C28_memory_consistent",
    "C28_too_many_updates_refuted"
   ],
   "note": "For proofs with too few clock updates for clocks to wrap around the field; C28_too_many_updates_refuted shows 2048 of them suffice to read a value before it is written."
  },
  {
   "property": "C29",
   "status": "partial",
   "theorems": [
    "C29_accepted_proof_is_execution_partial",
    "C29_accepted_proof_is_vm_run_partial",
    "C29_unbound_memory_refuted"
   ],
   "note": "Given that the memory rows emit and consume one initial and one final content per cell (honest_boundary) and no row uses a gap of C26. C29_unbound_memory_refuted: the constraints do not enforce honest_boundary, an accepted proof can claim a wrong output."
  },
  {
   "property": "C30",
   "status": "partial",
   "theorems": [
    "C30_machine_operators",
    "C30_folded_constant_partial",
    "C30_folded_constant_is_machine_value",
    "C30_folded_unary",
    "C30_folding_panics",
    "C30_felt_equality_refuted"
   ],
   "note": "Folded constants equal the run-time value for all operators and literals, and the machine instruction stores exactly its cells; excluded and refuted: felt ==/!= on literals at or above the modulus (2147483647 is accepted as a felt, denotes 0, and is folded as different from 0). The compiler panics exactly on felt division by a non-zero literal divisible by the modulus."
  },
  {
   "property": "C31",
   "status": "partial",
   "theorems": [
    "C31_simplified_value_partial",
    "C31_arithmetic_simplify_partial",
    "C31_constant_folding_partial",
    "C31_zero_minus_refuted",
    "C31_zero_minus_u32_refuted",
    "C31_one_over_refuted",
    "C31_one_over_zero_refuted"
   ],
   "note": "The pass preserves every function except `0 - x` and `1 / x`, which it rewrites to x (refuted, with witnesses, on felts and u32s), and felt equality on literals >= P (see C30)."
  },
  {
   "property": "C32",
   "status": "partial",
   "theorems": [
    "C32_fused_terminator_partial",
    "C32_fuse_cmp_partial",
    "C32_u32_zero_refuted",
    "C32_u32_branch_reads_low_half"
   ],
   "note": "The fused function behaves identically except when a u32 is compared with the literal 0 (refuted: 65536 takes the zero branch, as the branch tests the low limb) or when two literals one of which is zero are compared (rejected later by the code generator)."
  },
  {
   "property": "C33",
   "status": "proved",
   "theorems": [
    "C33_simplified_branch",
    "C33_simplify_branches",
    "C33_felt_equality_refuted"
   ],
   "note": "For functions whose constant felt comparisons use literals below the modulus; without that the property is refuted (2147483647 == 0), as in C30."
  },
  {
   "property": "C34",
   "status": "partial",
   "theorems": [
    "C34_kept_blocks",
    "C34_no_panic",
    "C34_blocks_partial",
    "C34_results_partial",
    "C34_nothing_dead_left",
    "C34_phi_sources_refuted",
    "C34_failure_removed_refuted"
   ],
   "note": "Every returned result is preserved when no phi of a reachable block names a block whose number changes. Without that the property is refuted: compaction renumbers blocks but not phi sources, and the function returns the other branch's value. A failing unused division is removed, so failures are not preserved (refuted with a witness)."
  },
  {
   "property": "C35",
   "status": "proved",
   "theorems": [
    "C35_total",
    "C35_same",
    "C35_keeps_form",
    "C35_copies_gone",
    "C35_single_assignment_needed_refuted"
   ],
   "note": "For every function in single assignment form (stated over control-flow paths in MirSsa.v), every iteration order of the copy table and every world: same results, effects, failures and running time; the pass terminates, leaves no copies and keeps the form. A refutation shows the single-assignment hypothesis is needed."
  },
  {
   "property": "C36",
   "status": "partial",
   "theorems": [
    "C36_results_partial",
    "C36_keeps_form",
    "C36_call_dropped_refuted",
    "C36_arrays_merged_refuted",
    "C36_tuple_array_refuted"
   ],
   "note": "Proved for functions in single assignment form, typed, with no arrays built from operands only, when the pass removed no call/allocation/array: returned results and effects are preserved. The unrestricted statement is false: C36_call_dropped_refuted (unused-result calls vanish with their effects), C36_arrays_merged_refuted (equal arrays become one object), C36_tuple_array_refuted (tuple and array share a key)."
  },
  {
   "property": "C37",
   "status": "proved",
   "theorems": [
    "C37_constant",
    "C37_same",
    "C37_terminates",
    "C37_keeps_form",
    "C37_multi_result_call_refuted",
    "C37_felt_literal_refuted"
   ],
   "note": "For every function, world, input and reachable state (MirReach.v), with in-range literals and calls of at most one result: a value declared constant has that constant. Substituting the constants changes no result, effect, failure or running time; the analysis ends; single assignment form is kept. Both hypotheses are needed: C37_multi_result_call_refuted (phi of a two-result call and 5 is taken to be 5), C37_felt_literal_refuted (literal equal to the modulus)."
  },
  {
   "property": "C38",
   "status": "partial",
   "theorems": [
    "C38_sequence_partial",
    "C38_function_partial",
    "C38_no_phi",
    "C38_swap_refuted",
    "C38_literal_refuted",
    "C38_self_copy_refuted",
    "C38_lost_copy_refuted",
    "C38_swap_function_refuted"
   ],
   "note": "Proved for every set of copies with distinct destinations that can be ordered (no cycle, no copy reading a literal copy's destination), or that contains a self copy and is already in order, and every hash iteration order: the emitted sequence is the simultaneous assignment. Proved for whole functions with split edges (C38_function_partial): same results and failures. Missing because false: cycles (C38_swap_refuted, a swap is a no-op for all values and orders; C38_swap_function_refuted), literal copies (C38_literal_refuted), self copies next to copies out of order (C38_self_copy_refuted, for all orders and values), backward branches into blocks with phis (C38_lost_copy_refuted)."
  },
  {
   "property": "C39",
   "status": "proved",
   "theorems": [
    "C39_same",
    "C39_legal",
    "C39_each",
    "C39_single_assignment"
   ],
   "note": "mir_passes/legalize.rs on MirSem: the rewritten function behaves like the original in every world, only U32Eq/U32Less remain as comparison instructions, and each rewritten comparison leaves the right boolean."
  },
  {
   "property": "C40",
   "status": "proved",
   "theorems": [
    "C40_same_effect",
    "C40_same_failures",
    "C40_mul_zero_refuted",
    "C40_temporaries"
   ],
   "note": "passes/mod.rs: for every instruction and machine state the rewritten sequence (de-duplication, then canonicalisation) has the same effect on every cell outside the temporaries and continues at the same place; failures are kept except that a u32 multiplication by zero no longer inspects its operand (C40_mul_zero_refuted). Temporaries of different instructions are distinct (C40_temporaries)."
  },
  {
   "property": "C41",
   "status": "proved",
   "theorems": [
    "C41_transfers",
    "C41_module",
    "C41_name_clash_refuted",
    "C41_counter_refuted"
   ],
   "note": "generator.rs label resolution for every instruction list and every label that marks one place (C41_transfers); whole modules: every emitted item and label is where program and table have it (C41_module), given distinct label names. Label names need not be distinct: C41_name_clash_refuted (block label f_1 against function f_1), C41_counter_refuted (label counter wraps after 64 functions in release builds)."
  },
  {
   "property": "C42",
   "status": "partial",
   "theorems": [
    "C42_disjoint_partial",
    "C42_in_place_refuted",
    "C42_block_order_refuted"
   ],
   "note": "layout.rs: the layout a function starts with assigns disjoint ranges (all functions). Missing because false: the slots assigned while code is generated. C42_in_place_refuted (arguments passed in place overwrite live values), C42_block_order_refuted (blocks generated out of order read the slot a value had before a call moved it); both shown by running the compiled program on the VM model."
  },
  {
   "property": "C43",
   "status": "proved",
   "theorems": [
    "C43_or",
    "C43_and",
    "C43_not"
   ],
   "note": "sc_or, sc_and, sc_not for every operand, constant or slot, wherever the sequence is placed; and/or clear the destination first, so the operands must be in other slots."
  },
  {
   "property": "C44",
   "status": "proved",
   "theorems": [
    "C44_enabled_rows",
    "C44_padding_is_inert"
   ],
   "note": "Disabled rows contribute nothing (C44_padding_is_inert); exactly the rows of the inputs are enabled (C44_enabled_rows). Disabled rows still look up the range-check and bitwise tables, which count them."
  },
  {
   "property": "C45",
   "status": "partial",
   "theorems": [
    "C45_committed_memories_partial",
    "C45_roots_chain_partial",
    "C45_roots_chain_refuted"
   ],
   "note": "Proved when every cell that is new to the later segment is first seen as zero. C45_roots_chain_refuted: a segment that grows the stack commits, as its initial memory, the first value written to the new cells, so its initial root is not the previous final root."
  },
  {
   "property": "C46",
   "status": "partial",
   "theorems": [
    "C46_accepted_iff_calm_partial",
    "C46_short_runs_accepted_partial",
    "C46_vm_segments_accepted_partial"
   ],
   "note": "For runs of instructions with a correct component, code words padded with zeros, code apart from data, operands in cells that hold field elements, no gap that is a multiple of 2^20 - 1, and one word never touched, the proof is accepted exactly if no written cell is left alone for more than 2^20 - 1 instructions. Missing: u32 equality, whose rows are wrong (see C27), and runs outside these conditions, some of which are refuted in C22 and C27."
  },
  {
   "property": "C47",
   "status": "partial",
   "theorems": [
    "C47_results_partial",
    "C47_failures_partial",
    "C47_factorial"
   ],
   "note": "Whole back end: legalisation, layout, instruction selection, de-duplication, linking, loading, execution in segments. For every module whose generated code passes a decidable check (values are felts, bools and u32s; no value needed later is overwritten; labels distinct), all arguments, any recursion depth that fits in memory: same results, and an error where the source fails. C47_factorial applies it to a recursive function for all inputs. Missing: aggregates, arrays, pointers, debug output; modules that fail the check, some of which are compiled wrongly (C42 refutations)."
  },
  {
   "property": "C48",
   "status": "proved",
   "theorems": [
    "C48_unreachable_code_never_runs",
    "C48_terminating_statement_is_never_passed"
   ],
   "note": "Source semantics (SrcSem.v) of the scalar language: felt, u32, bool, calls, if, while, loop, for, break, continue, return. Removing every reported statement leaves the result and the number of steps of every execution unchanged."
  },
  {
   "property": "C49",
   "status": "partial",
   "theorems": [
    "C49_accepted_functions_return_refuted",
    "C49_accepted_functions_return_partial"
   ],
   "note": "Refuted: the check ignores that break leaves a loop (witness: loop { if c { break; } return 1; }). Proved for functions none of whose `loop`s has a break of its own."
  },
  {
   "property": "C50",
   "status": "partial",
   "theorems": [
    "C50_checked_modules_are_defined_partial",
    "C50_checked_modules_are_defined_refuted"
   ],
   "note": "Type soundness for the scalar fragment, for modules whose `loop`s have no break of their own; refuted without that condition by the witness of C49. Missing: tuples, structs, arrays, pointers, constants, imports."
  },
  {
   "property": "C51",
   "status": "partial",
   "theorems": [
    "C51_results_partial",
    "C51_failures_partial",
    "C51_removed_phi_refuted",
    "C51_negation_refuted"
   ],
   "note": "Lowering with on-the-fly SSA construction (Braun et al.) of the scalar language: felt, u32, bool, calls, if, while, loop, for, break, continue, return, assert. Proved for all modules, inputs, recursion depths and hash orders, provided no u32 is negated and the generated functions use only ids that are defined and have no phi in the entry block (a check on the output). Both conditions are needed: C51_removed_phi_refuted (an accepted loop with break lowers to a phi reading a removed id) and C51_negation_refuted. Missing: tuples, structs, arrays, pointers, constants."
  },
  {
   "property": "C52",
   "status": "partial",
   "theorems": [
    "C52_single_definition_partial",
    "C52_every_use_defined_refuted"
   ],
   "note": "At most one definition per id is proved for every accepted function. That every used id is defined is refuted (C52_every_use_defined_refuted): ids of removed trivial phis stay in the tables of current definitions and reach later phis."
  },
  {
   "property": "C53",
   "status": "partial",
   "theorems": [
    "C53_no_opt_results_partial",
    "C53_no_opt_failures_partial",
    "C53_standard_results_partial",
    "C53_standard_refuted",
    "C53_no_opt_refuted",
    "C53_swap_refuted"
   ],
   "note": "End to end, scalar language: source semantics to VM cells, through lowering, the pass pipeline, code generation and linking, for all modules, inputs, depths, segment lengths and hash orders, under decidable conditions on the compiler's intermediate results (b_no_neg, b_clean, b_ready, b_checked of the record built). Each condition stands for a miscompilation: C53_standard_refuted (is_zero(65536) is 1), C53_no_opt_refuted (a Fibonacci loop with continue returns 10 for 9), C53_swap_refuted (a loop swapping two variables does not compile). Missing: aggregates, pointers, and failures under the standard pipeline (it removes them, C34)."
  },
  {
   "property": "C54",
   "status": "proved",
   "theorems": [
    "C54_literal_read",
    "C54_literal_only",
    "C54_comment_is_blank",
    "C54_white_space"
   ],
   "note": "Both directions, for all digit strings in all bases. The logos automaton (longest match) is written out by hand: trusted."
  },
  {
   "property": "C55",
   "status": "partial",
   "theorems": [
    "C55_parse_total",
    "C55_grouping_partial",
    "C55_read_back_partial",
    "C55_documented_precedence_refuted",
    "C55_condition_refuted",
    "C55_empty_block_refuted"
   ],
   "note": "Totality, grouping by the levels of the code, and reading back the printed tokens are proved for every text. The documented levels are refuted (&& and || share one: C55_documented_precedence_refuted), so is that any expression can be a condition (C55_condition_refuted, C55_empty_block_refuted)."
  },
  {
   "property": "C56",
   "status": "partial",
   "theorems": [
    "C56_format_preserves_partial",
    "C56_format_idempotent_partial",
    "C56_constant_type_refuted",
    "C56_one_tuple_refuted",
    "C56_bare_import_refuted",
    "C56_condition_refuted",
    "C56_empty_block_refuted",
    "C56_branch_refuted",
    "C56_idempotent_refuted"
   ],
   "note": "Proved for every accepted file that is printable (no one-element tuple, no typed constant, no bare import, no condition that needs its parentheses). Each exclusion is shown necessary by a theorem C56_*_refuted: the formatter changes or breaks those programs."
  },
  {
   "property": "C57",
   "status": "partial",
   "theorems": [
    "C57_comments_kept_partial",
    "C57_second_comment_refuted"
   ],
   "note": "Proved for head comments, comments of items, leading comments and the first trailing comment of statements of function bodies. Refuted for further trailing comments (C57_second_comment_refuted). Which comment is attached where is an input of the model; comments of statements in nested blocks are not printed by the code (rules/statements.rs), so the model has no place for them."
  },
  {
   "property": "C58",
   "status": "partial",
   "theorems": [
    "C58_names_are_lexical",
    "C58_types_are_lexical",
    "C58_declarations",
    "C58_unused_exactly",
    "C58_same_name",
    "C58_mentioned_is_used_refuted",
    "C58_struct_literals_are_lexical_refuted",
    "C58_struct_literals_partial"
   ],
   "note": "Proved for all files for names in expressions and types and for the unused-name report. Refuted for the names of struct literals, which are looked up in the innermost scope only and not counted as uses (C58_mentioned_is_used_refuted). The fallback look-up by position (resolve_name_at_position) is not modelled."
  },
  {
   "property": "C59",
   "status": "partial",
   "theorems": [
    "C59_settled_type",
    "C59_operators_match_partial",
    "C59_operators_match_refuted"
   ],
   "note": "Proved for expressions whose left operands settle their types. Refuted in general: when the left operand is a literal without suffix the checker gives it the type of the right operand, but lowering asks for its type without that context and compiles the felt operator (0 == x is true for the u32 65536; 1 + x gives 65536, 0 as halves for 65535)."
  },
  {
   "property": "C60",
   "status": "partial",
   "theorems": [
    "C60_annotated_literal_partial",
    "C60_returned_literal_refuted",
    "C60_range_refuted",
    "C60_annotation_of_result_refuted"
   ],
   "note": "Proved for literals that initialise a variable with a declared type. Refuted for returned literals (the first function of the file decides the expected type; range not checked), for the felt literal 2^31-1, which is 0, and for literals in the arguments of a call under an annotation."
  },
  {
   "property": "C61",
   "status": "partial",
   "theorems": [
    "C61_reading_partial",
    "C61_result_type_partial",
    "C61_text_to_machine_partial",
    "C61_text_failures_partial",
    "C61_text_optimized_partial",
    "C61_local_constants_refuted"
   ],
   "note": "A semantics of files by names and blocks (Named.v), written independently of the compiler, agrees with the program that the compiler's index of names and its types produce (C61_reading_partial, all files, functions, inputs and depths), and composed with C53 with what the machine computes, with and without optimizations. Constants of the top level, and those inside functions whose values mention no variables, are covered; for the others the claim is false (C61_local_constants_refuted: the value is read again where the constant is used). Missing: structs, tuples, arrays (projects with imports are in C68); literals on which checker and lowering disagree (C59, C60); and the conditions of C53."
  },
  {
   "property": "C62",
   "status": "partial",
   "theorems": [
    "C62_closed_partial",
    "C62_flat_partial",
    "C62_machine_partial",
    "C62_nested_return_refuted",
    "C62_nested_cross_refuted",
    "C62_tuple_in_struct_refuted",
    "C62_shared_members_refuted",
    "C62_shared_source_refuted",
    "C62_array_of_param_refuted",
    "C62_array_twice_refuted",
    "C62_copied_array_refuted"
   ],
   "note": "Proved for every function whose arrays stay and whose result defines what it uses (C62_closed_partial, a decidable condition on the result), in particular for every function that puts no tuple or struct into another aggregate (C62_flat_partial); composed with the rest of the pipeline and the machine in C62_machine_partial. Without these conditions the property is false: the _refuted theorems give returned nested tuples, nested members used in another block, tuples in structs that are passed, structs in arrays (two of them silently return wrong values) and copied arrays. Missing: arrays that are taken apart."
  },
  {
   "property": "C63",
   "status": "partial",
   "theorems": [
    "C63_cycles",
    "C63_cycles_order_independent",
    "C63_imports_first",
    "C63_imports_resolve",
    "C63_one_meaning",
    "C63_calls",
    "C63_calls_lowered_partial",
    "C63_calls_lowered_refuted",
    "C63_constants_lowered_partial",
    "C63_constants_lowered_refuted",
    "C63_imported_constants_panic"
   ],
   "note": "Cycle detection is exact and independent of hash-map order (C63_cycles, C63_cycles_order_independent), sorting puts imports first (C63_imports_first), imports resolve to one item (C63_imports_resolve, C63_one_meaning), a lowered call calls the function the name stands for (C63_calls). That every accepted call can be lowered is false (C63_calls_lowered_refuted: a function imported through a third module) and proved for direct imports (C63_calls_lowered_partial). Constants of a module are lowered to their values (C63_constants_lowered_partial); imported constants pass all checks and make the compiler panic when used (C63_constants_lowered_refuted, C63_imported_constants_panic)."
  },
  {
   "property": "C64",
   "status": "partial",
   "theorems": [
    "C64_shown_partial",
    "C64_second_project_refuted",
    "C64_reopened_refuted",
    "C64_early_change_refuted",
    "C64_swap_refuted",
    "C64_swap_other_file_refuted",
    "C64_swap_lost_edit_refuted",
    "C64_notified_partial",
    "C64_several_contents_refuted"
   ],
   "note": "Proved for calm histories: one project, reopened files keep their text, changed only when the project refers to their latest opening, no database swap; any interleaving of edits, timers, requests and loads (C64_shown_partial, which also shows that nothing panics). Outside these conditions the property is false: the _refuted theorems give a second project, a file reopened with another text, an edit before the project is loaded again, and three ways in which a database swap shows stale diagnostics or edits the wrong file. A notification with at most one content gives the server the editor's text (C64_notified_partial); with several contents the server keeps the first (C64_several_contents_refuted)."
  },
  {
   "property": "C65",
   "status": "partial",
   "theorems": [
    "C65_round_trip",
    "C65_sent_partial",
    "C65_received_partial",
    "C65_wide_refuted",
    "C65_bare_cr_refuted",
    "C65_beyond_refuted"
   ],
   "note": "The two conversions are inverse for every text (C65_round_trip). They agree with the protocol where every CR is followed by LF and the line has no character beyond the basic plane before the place (C65_sent_partial, C65_received_partial); elsewhere they do not (C65_wide_refuted, C65_bare_cr_refuted, C65_beyond_refuted)."
  },
  {
   "property": "C66",
   "status": "partial",
   "theorems": [
    "C66_formatted_partial",
    "C66_line_end_kept",
    "C66_formatted_refuted",
    "C66_settles_refuted"
   ],
   "note": "True for every document that does not end with a line feed (C66_formatted_partial); false for every other document: the line end is kept behind the formatted text (C66_line_end_kept, C66_formatted_refuted, C66_settles_refuted)."
  },
  {
   "property": "C67",
   "status": "partial",
   "theorems": [
    "C67_modules_partial",
    "C67_names_differ_partial",
    "C67_nested_entry_refuted",
    "C67_colon_refuted"
   ],
   "note": "Proved for projects whose entry point is directly in src and whose file names have no colon (C67_modules_partial, C67_names_differ_partial). False for nested entry points and names with colons (C67_nested_entry_refuted, C67_colon_refuted)."
  },
  {
   "property": "C68",
   "status": "partial",
   "theorems": [
    "C68_meanings",
    "C68_reading_partial",
    "C68_result_type_partial",
    "C68_order_independent_partial",
    "C68_texts_to_machine_partial",
    "C68_texts_failures_partial",
    "C68_texts_optimized_partial",
    "C68_same_name_rejected",
    "C68_projects_compile_refuted"
   ],
   "note": "The semantics by names of C61 extended to projects (NamedCrate.v): a call means the function the name stands for in the module of the call. For all projects, orders of the module table, functions, inputs and depths the lowered program agrees with it (C68_reading_partial), does not depend on the order (C68_order_independent_partial), and composed with C53 agrees with the machine. C68_projects_compile_refuted: two modules may not have functions of the same name although nothing in the checks forbids it (C68_same_name_rejected says no such project is ever compiled). Missing as in C61: structs, tuples, arrays, constants inside functions that mention variables, imported constants."
  },
  {
   "property": "C69",
   "status": "partial",
   "theorems": [
    "C69_written_rows_accepted",
    "C69_rows_are_hashes",
    "C69_tree_hash",
    "C69_trace_complete",
    "C69_trace_sound",
    "C69_hash_bags_partial",
    "C69_unhashed_parent_refuted",
    "C69_swapped_parents_refuted",
    "C69_boolean_enabler_refuted"
   ],
   "note": "For all constant tables (zkhash is not in the repository), all input states, rows and sets of rows: written rows satisfy the constraints and claim the published permutation (PoseidonSpec.v, matrices and fifth powers), any row with a non-zero enabler that satisfies the constraints is the written row of its input, and any accepted set of rows adds to the relation what true hashes add, whatever the enablers. The last part of the property is false of the code: C69_unhashed_parent_refuted (a node with left child x, right child 0 and value x needs no hash) and C69_swapped_parents_refuted (two nodes can exchange their values), because the relation does not tie a digest to its input; C69_hash_bags_partial is what does hold. C69_boolean_enabler_refuted: the documented constraint on the enabler is missing (harmless)."
  },
  {
   "property": "C70",
   "status": "partial",
   "theorems": [
    "C70_bitwise_table",
    "C70_tables_are_what_rows_rely_on",
    "C70_emitted_rows_are_rows",
    "C70_bitwise_counts",
    "C70_range_counts",
    "C70_kept_rows_suffice",
    "C70_outside_lookups_refuted"
   ],
   "note": "For operands of any width: the generated bitwise table holds exactly the rows (operation, x, y, result), the range tables exactly the values below their bound; at the sizes used they are the tables the constraints are read against; with fewer than 2^32 lookups inside the table every row is emitted as often as it was looked up, and the rows kept by the proving model (C46) add up to the same. A range lookup outside the table stops the prover; a bitwise lookup outside the table does not, it is counted for another row: C70_outside_lookups_refuted."
  },
  {
   "property": "C71",
   "status": "partial",
   "theorems": [
    "C71_operations",
    "C71_functions_partial",
    "C71_modules_partial",
    "C71_passes_refuted",
    "C71_conditions_refuted",
    "C71_unaligned_refuted",
    "C71_comparisons_refuted",
    "C71_conditional_return_refuted",
    "C71_return_in_loop_refuted"
   ],
   "note": "Proved for the front end: whole modules (branches, loops, labels, calls, recursion) lower to MIR that computes the same results and memory, or fails where the DAG fails, for every careful run; and the code of every supported operation on its own. Careful runs exclude, and the _refuted theorems show, what goes wrong: the passes after the front end make a do-while loop return the wrong value because the predecessors of blocks are left empty (C71_passes_refuted); number conditions are tested by their low half only, unaligned loads read the wrong word, comparison results cannot be used as numbers, conditional returns hand over the condition, returns inside loops cannot be compiled."
  },
  {
   "property": "C72",
   "status": "partial",
   "theorems": [
    "C72_tests_partial",
    "C72_code",
    "C72_rust_refuted",
    "C72_config_refuted",
    "C72_indented_refuted",
    "C72_title_refuted",
    "C72_names_refuted"
   ],
   "note": "One test per code block with its name, source and annotations, for every document of headings, fenced blocks and paragraphs; Rust code and configuration as well if Rust code stands behind a test of its section and configurations before the tests. Refuted otherwise: Rust code of a section without a test moves to the next test, a configuration behind a test changes it, an indented block behind a test becomes an empty test, a title keeps only its last piece of text, names and snapshot names are not unique. Missing: the annotation and TOML parsers, which are taken as they are."
  },
  {
   "property": "C73",
   "status": "partial",
   "theorems": [
    "C73_public_sum",
    "C73_bound_partial",
    "C73_made_data_bound",
    "C73_same_challenges",
    "C73_one_statement_partial",
    "C73_moved_output_refuted",
    "C73_exchanged_outputs_refuted"
   ],
   "note": "The numbers mixed into the channel determine registers, clock, roots, number of cells and all contents that are present in order, hence all public data if no content is missing, or if the ranges are known and the data was made by the prover. If the channel is free of collisions, proofs with the same challenges have the same public data in this sense. The sum the verifier starts from consists of exactly the public contributions to the relations of C45/C46. Prover and verifier derive the same challenges, so honest proofs are accepted. Refuted: an output that is missing may be moved (the same proofs are accepted), and exchanged outputs pass the check of the sums for the same challenges, as nothing ties a content to its place. Missing: that the channel is a random oracle (stwo)."
  },
  {
   "property": "C74",
   "status": "partial",
   "theorems": [
    "C74_found",
    "C74_attached_partial",
    "C74_nearest",
    "C74_head_partial",
    "C74_empty_function_refuted",
    "C74_end_of_block_refuted",
    "C74_expression_refuted",
    "C74_twice_refuted"
   ],
   "note": "For all texts and code spans: the comments found are exactly those of the lines; those with a place at some node are attached once each, in order, leading or trailing as they stand, to the nearest node; without carriage returns a comment is printed at the head exactly if it is not considered for attachment. Refuted: a comment in an empty function and one behind an empty line at the end of a block are dropped, a comment inside an expression goes to a part of the expression and is not printed, with carriage returns a comment is printed twice. Spans of nodes are an input (the parser model has none)."
  },
  {
   "property": "C75",
   "status": "partial",
   "theorems": [
    "C75_items",
    "C75_parts_partial",
    "C75_accepted",
    "C75_for_refuted"
   ],
   "note": "Exact for items of every module; exact for parameters and fields when items have different names (otherwise the module is rejected for that); exact for patterns in functions without a for statement. Refuted for patterns in the body of a for statement, which the check does not visit (C75_for_refuted)."
  },
  {
   "property": "C76",
   "status": "partial",
   "theorems": [
    "C76_reported",
    "C76_one_value_partial",
    "C76_given_twice_refuted"
   ],
   "note": "The reports are exact for all structs and literals. An accepted literal that names no field twice gives each field its one value. Refuted otherwise (C76_given_twice_refuted): P { x: 1, x: 2 } is accepted, and on the machine p.x is 2 without and 1 with optimizations. Types of the values are not part of this model."
  },
  {
   "property": "C77",
   "status": "partial",
   "theorems": [
    "C77_compatible",
    "C77_known",
    "C77_call",
    "C77_accepted",
    "C77_assert_partial",
    "C77_no_condition_refuted",
    "C77_more_arguments_refuted"
   ],
   "note": "Compatibility is agreement up to unknown and erroneous parts, and equality between known types; reports for calls are exact. For assert only with one argument: assert() is accepted and fails in lowering (C77_no_condition_refuted); further arguments are accepted and dropped (C77_more_arguments_refuted). How expressions get their types is C59/C60; the rule on constant arrays is left out."
  },
  {
   "property": "C78",
   "status": "partial",
   "theorems": [
    "C78_decomposed",
    "C78_constants",
    "C78_written",
    "C78_typed",
    "C78_temporary_refuted"
   ],
   "note": "Proved for variables and their fields and tuple elements, at every depth, in the semantics of the intermediate representation (C78_written), with the accepted targets (C78_decomposed, C78_constants). Refuted for temporaries: f().x = 1 is accepted and writes nothing (C78_temporary_refuted). Array elements, which are stored to memory, are not part of this model."
  },
  {
   "property": "C79",
   "status": "partial",
   "theorems": [
    "C79_bound",
    "C79_accepted_partial",
    "C79_third_level_refuted"
   ],
   "note": "Patterns with the shape of the type bind each name to its part, at every depth, in the semantics of the intermediate representation (C79_bound). Acceptance is exact for patterns nested at most twice (C79_accepted_partial); the third level is not checked (C79_third_level_refuted): too few names compile, too many fail in lowering. Values are operands; annotations are C77."
  },
  {
   "property": "C80",
   "status": "partial",
   "theorems": [
    "C80_literals",
    "C80_inside_partial",
    "C80_indexable",
    "C80_other_array_refuted"
   ],
   "note": "Exact for indices that are literals (C80_literals, C80_inside_partial) and for the types that can be indexed. Refuted otherwise: a[(2)] = 9 on an array of two elements is accepted and, on the machine, changes the array after it (C80_other_array_refuted). Indices computed at run time are not checked by the code either."
  },
  {
   "property": "C81",
   "status": "partial",
   "theorems": [
    "C81_reported",
    "C81_guarded_partial",
    "C81_changed_constant_refuted"
   ],
   "note": "Constant arrays by name, also in parentheses, are reported as arguments, struct fields, returned expressions and tuple elements (C81_guarded_partial), and nothing else is reported (C81_reported). Refuted for let: with const A = [1, 2], let a = A; a[i] = 9 is accepted and A[i] is 9 afterwards on the machine, with and without optimizations (C81_changed_constant_refuted). Parts of constants that are arrays are not covered."
  },
  {
   "property": "C82",
   "status": "partial",
   "theorems": [
    "C82_accepted",
    "C82_positions",
    "C82_typed_partial",
    "C82_lowered",
    "C82_repeated",
    "C82_expected_refuted",
    "C82_forms_refuted"
   ],
   "note": "What is accepted and which positions are reported is exact (C82_accepted, C82_positions, C82_repeated); a literal with the type of an array has that many elements of that type (C82_lowered); accepted literals have such a type where the expected type does not change the type of the first element (C82_typed_partial). Refuted: g([1, x]) with x: felt and a parameter [u32; 2] is accepted and cannot be lowered (C82_expected_refuted); [x; 0] and [([x])] are accepted (C82_forms_refuted). The typing of elements is given as a function."
  },
  {
   "property": "C83",
   "status": "partial",
   "theorems": [
    "C83_everywhere",
    "C83_functions",
    "C83_nested_partial",
    "C83_nested_refuted",
    "C83_constants_refuted"
   ],
   "note": "Exact for statements at any depth (C83_everywhere) and for the functions of a module with different function names (C83_functions). Nested arrays are found in types with simple elements (C83_nested_partial), not behind pointers (C83_nested_refuted). Refuted for constants of a file: const C: felt = 5u32 is accepted (C83_constants_refuted). The typing of expressions is given as a function of their text."
  },
  {
   "property": "C84",
   "status": "proved",
   "theorems": [
    "C84_accepted",
    "C84_value",
    "C84_one"
   ],
   "note": "For accesses to members and elements of variables that are not in memory: C84_accepted (accepted exactly if typed, and then lowered), C84_value (the instructions give the part), C84_one (the part is one value). Elements of arrays are C80."
  },
  {
   "property": "C85",
   "status": "partial",
   "theorems": [
    "C85_all_reports",
    "C85_ordered",
    "C85_once_partial",
    "C85_compiled",
    "C85_refused",
    "C85_entry_points",
    "C85_file",
    "C85_once_refuted"
   ],
   "note": "The verdict (C85_compiled, C85_refused, C85_file, C85_entry_points), completeness (C85_all_reports) and order (C85_ordered) are proved. Each once: proved where reports starting at one place are the same (C85_once_partial); refuted in general, since only neighbours are compared and the order ignores codes (C85_once_refuted). Assumed: the parser and a failing index builder report errors."
  },
  {
   "property": "C86",
   "status": "partial",
   "theorems": [
    "C86_values",
    "C86_once",
    "C86_types",
    "C86_declared_partial",
    "C86_types_declared",
    "C86_builtin_refuted"
   ],
   "note": "Which names and types are reported, where and how often, is proved (C86_values, C86_once, C86_types, C86_types_declared). Accepted files use declared names only: proved for all names but assert (C86_declared_partial); refuted in general, since the built-in name is allowed everywhere, not only in calls (C86_builtin_refuted). The results of the lookups are given."
  },
  {
   "property": "C87",
   "status": "partial",
   "theorems": [
    "C87_variables_partial",
    "C87_results_partial",
    "C87_calls_partial",
    "C87_functions_partial",
    "C87_variables_refuted",
    "C87_results_refuted",
    "C87_calls_refuted",
    "C87_functions_refuted"
   ],
   "note": "Proved for all names but assert (C87_variables_partial, C87_results_partial, C87_calls_partial, C87_functions_partial). Refuted for that name, which is no keyword and can be declared: the built-in meaning always wins (C87_variables_refuted, C87_results_refuted, C87_calls_refuted, C87_functions_refuted). Types are felt, u32, bool and unit, as in Typing.v."
  },
  {
   "property": "C88",
   "status": "partial",
   "theorems": [
    "C88_restored",
    "C88_any_file",
    "C88_marked",
    "C88_next",
    "C88_stops_refuted",
    "C88_invented_refuted"
   ],
   "note": "Restart (C88_restored), any contents of the file (C88_any_file), marking (C88_marked) and the next exercise (C88_next) are proved. Stops during a save: refuted, since the file is emptied before it is written (C88_stops_refuted), and a name cut off can be the name of another exercise (C88_invented_refuted)."
  },
  {
   "property": "C89",
   "status": "proved",
   "theorems": [
    "C89_in_view",
    "C89_moves"
   ],
   "note": "For all sessions from an opened list (C89_in_view, C89_moves). Filters and searches are represented by the number of rows and the row they give."
  },
  {
   "property": "C90",
   "status": "proved",
   "theorems": [
    "C90_each_once",
    "C90_goes_on",
    "C90_outcome"
   ],
   "note": "For all schedules and numbers of threads (C90_each_once, C90_goes_on, C90_outcome). Running an exercise is given as its result or an error."
  }
 ]
}