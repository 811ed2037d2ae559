{
 "claims": [
  {
   "property": "C01",
   "status": "partial",
   "theorems": [
    "C01_round_trip_partial",
    "C01_parsed_round_trip_partial",
    "C01_result_stable",
    "C01_text_determines_tree",
    "C01_shift_refuted",
    "C01_bound_refuted",
    "C01_escaped_bound_refuted",
    "C01_signed_refuted",
    "C01_uplus_refuted"
   ],
   "note": "False of the code for <<<, $signed(), unary plus and bounds that change when blanks are removed (refuted, each with a text the parser accepts). Proved for every other expression tree of any size, through the lexer and the shift/reduce parser, and for every text the parser accepts. Floats, strings and scoped identifiers are not modelled."
  },
  {
   "property": "C02",
   "status": "partial",
   "theorems": [
    "C02_blanks_partial",
    "C02_bound_meaning_partial",
    "C02_blanks_refuted"
   ],
   "note": "False of the code for \"a & &b\", \"a | |b\" and escaped identifiers (refuted). Proved for all other bounds: same tokens and same tree."
  },
  {
   "property": "C03",
   "status": "partial",
   "theorems": [
    "C03_binary_mark_partial",
    "C03_unary_mark_partial",
    "C03_marks_refuted"
   ],
   "note": "False of the code for unary plus (prints None) and <<< (prints nothing), refuted. Proved for all other operators and all operands."
  },
  {
   "property": "C04",
   "status": "proved",
   "theorems": [
    "C04_literal_value",
    "C04_question_mark_refuted",
    "C04_printed_value_read_back"
   ],
   "note": "all literals of the grammar without x, z or ? digits; printed values read back. A ? digit raises ValueError (C04_question_mark_refuted)."
  },
  {
   "property": "C05",
   "status": "partial",
   "theorems": [
    "C05_literal_width_partial",
    "C05_signed_width_refuted"
   ],
   "note": "False of the code for literals with the signed marker, whose width is always 32 (refuted, with the exact result). Proved for all others."
  },
  {
   "property": "C06",
   "status": "proved",
   "theorems": [
    "C06_name_eq_spec",
    "C06_name_eq_plain",
    "C06_user_name_finds",
    "C06_transitivity_refuted"
   ],
   "note": "reflexive, symmetric, hash-compatible, user names find by path, plain equality without wildcards. Also shown: with wildcards it is not transitive (C06_transitivity_refuted)."
  },
  {
   "property": "C07",
   "status": "partial",
   "theorems": [
    "C07_flat_names_unique_refuted",
    "C07_flat_names_unique_partial",
    "C07_flat_names_iterations_partial"
   ],
   "note": "False of the code: the flat name of top.a_b and top.a.b coincide (C07_flat_names_unique_refuted). Proved: unique when components are printable, non-empty and contain no underscore, and different iterations of the same loop get different flat names (loop indices are written out)."
  },
  {
   "property": "C08",
   "status": "proved",
   "theorems": [
    "C08_dotted_roundtrip",
    "C08_dotted_injective"
   ],
   "note": "round trip and injectivity for every string."
  },
  {
   "property": "C09",
   "status": "proved",
   "theorems": [
    "C09_equality_structural",
    "C09_equality_reflexive",
    "C09_equality_symmetric",
    "C09_equal_trees_hash_equal",
    "C09_equality_is_identity",
    "C09_delay_refuted"
   ],
   "note": "delay-free trees: total, reflexive, symmetric, hash-compatible, decides sameness node by node. Delay nodes raise AttributeError (C09_delay_refuted)."
  },
  {
   "property": "C10",
   "status": "partial",
   "theorems": [
    "C10_folding_preserves_partial",
    "C10_folding_preserves_refuted"
   ],
   "note": "False of the code as worded (six refutations with literal trees, e.g. a comparison inside a concatenation). Proved: every defined value is preserved, and the width where keeps_width holds, for all trees satisfying fold_safe (exact constant operators; operands of width-sensitive operators keep their width; constant concatenation parts in range)."
  },
  {
   "property": "C11",
   "status": "partial",
   "theorems": [
    "C11_folds_to_one_node",
    "C11_folds_to_value",
    "C11_parameter_bit_refuted"
   ],
   "note": "False for a constant bit select of a parameter (TypeError, refuted). Proved: constant expressions of every other shape fold to one node whenever folding returns, and it returns the right value and width for supported exact operators."
  },
  {
   "property": "C12",
   "status": "partial",
   "theorems": [
    "C12_division_partial",
    "C12_division_refuted"
   ],
   "note": "False beyond 2^53 because the code divides floats (refuted at 2^53+1). Proved for all dividends up to 2^53 in magnitude and every non-zero divisor."
  },
  {
   "property": "C13",
   "status": "partial",
   "theorems": [
    "C13_simplification_preserves_value_partial",
    "C13_preserves_value_refuted"
   ],
   "note": "False of the code as worded (refuted: a && a becomes a, 1 && a becomes a, 0 || a becomes a, signed division becomes a shift that rounds down, x | ~x takes a wrong width). Proved for all trees satisfying safe at CValue, any depth, every valuation. The power-of-two test (a float logarithm) is a parameter assumed exact; slices of concatenations are C16."
  },
  {
   "property": "C14",
   "status": "partial",
   "theorems": [
    "C14_simplification_preserves_truth_partial",
    "C14_preserves_truth_refuted"
   ],
   "note": "False of the code for ~a && a with a wider than a bit (refuted). Proved for all conditions satisfying safe at CTruth: && and || without multi-bit ~ operands."
  },
  {
   "property": "C15",
   "status": "proved",
   "theorems": [
    "C15_and_chains",
    "C15_or_chains"
   ],
   "note": "chains of any length and shape; names that match are assumed to be one signal (respects)."
  },
  {
   "property": "C16",
   "status": "partial",
   "theorems": [
    "C16_slice_of_concatenation_partial",
    "C16_folded_trees_stay",
    "C16_slices_right_refuted",
    "C16_simplified_slice_partial",
    "C16_simplified_bit_partial"
   ],
   "note": "False of the code for slices that start inside a part above the last one or cross parts from a non-zero bit (refuted). Proved for slices between part boundaries, from bit 0, and inside the last part; also for the simplifier on c[m:l] and c[i] of such concatenations."
  },
  {
   "property": "C17",
   "status": "partial",
   "theorems": [
    "C17_merging_preserves_partial",
    "C17_merging_refuted"
   ],
   "note": "False of the code for constants that do not fit, branch arms of different widths and out-of-range slices (refuted). Proved, value and width, when every part is an element: fits its width, slices in range, arms equally wide."
  },
  {
   "property": "C18",
   "status": "proved",
   "theorems": [
    "C18_reorder_preserves_value",
    "C18_reorder_terminates",
    "C18_reorder_succeeds"
   ],
   "note": "for every interpretation; also termination and a success condition."
  },
  {
   "property": "C19",
   "status": "proved",
   "theorems": [
    "C19_reorder_branch_first",
    "C19_reorder_idempotent"
   ],
   "note": "branch-first form (the inside of a delay node is its own tree) and idempotence."
  },
  {
   "property": "C20",
   "status": "proved",
   "theorems": [
    "C20_replace_undefined",
    "C20_replace_succeeds"
   ],
   "note": "exact result, nothing undefined left, idempotent, meaning; success characterised."
  },
  {
   "property": "C21",
   "status": "proved",
   "theorems": [
    "C21_split_paths",
    "C21_paths_listed_once"
   ],
   "note": "exclusive, exhaustive, right leaf, keys distinct."
  },
  {
   "property": "C22",
   "status": "proved",
   "theorems": [
    "C22_and_ranges_exact",
    "C22_any_ranges_exact",
    "C22_empty_input_raises"
   ],
   "note": "any non-empty lists: terminates and is exact; proper lists give a proper list. An empty list raises IndexError (shown; callers avoid it)."
  },
  {
   "property": "C23",
   "status": "proved",
   "theorems": [
    "C23_not_ranges_exact",
    "C23_not_ranges_in_bounds",
    "C23_not_ranges_proper",
    "C23_beyond_maximum_refuted"
   ],
   "note": "exact on 0..max for every list; exact as a set when no range starts beyond max+1; otherwise the result leaves [0,max] (C23_beyond_maximum_refuted)."
  },
  {
   "property": "C24",
   "status": "partial",
   "theorems": [
    "C24_conditions_exact_partial",
    "C24_bitwise_and_refuted",
    "C24_reduction_and_refuted",
    "C24_contradiction_refuted",
    "C24_comparison_refuted"
   ],
   "note": "False of the code as worded (four refutations: bitwise and, reduction and, forgotten contradictions, unsupported comparisons). Proved exact for supported, contradiction-free condition lists."
  },
  {
   "property": "C25",
   "status": "partial",
   "theorems": [
    "C25_loops_are_simple_refuted",
    "C25_loops_are_real",
    "C25_loops_simple_without_self_transitions"
   ],
   "note": "False of the code as worded: a state with a self-transition is listed twice in loops through it (refuted). Proved: every reported loop is a real closed walk from its least state, a simple cycle up to immediate repetition of self-transition states, and simple when no state on it has a self-transition."
  },
  {
   "property": "C26",
   "status": "partial",
   "theorems": [
    "C26_search_finds_cycles",
    "C26_loops_reported_partial",
    "C26_all_loops_reported_refuted",
    "C26_long_loops_refuted"
   ],
   "note": "False of the code (two refutations: states are pruned once they occur often enough; loops of 52 or more states are cut off). Proved: per-state search finds all simple cycles of at most 51 states; each such cycle is reported unless all its states were saturated."
  },
  {
   "property": "C27",
   "status": "partial",
   "theorems": [
    "C27_resolve_keeps_transitions_partial",
    "C27_resolve_keeps_all_transitions_refuted",
    "C27_construct_exact"
   ],
   "note": "False of the code when two targets are both unconditional (refuted). Proved: resolution adds no transition, keeps one entry per target, and keeps all when targets are distinguishable; machine construction exact. The condition simplifier is a parameter that keeps truth of disjunctions."
  },
  {
   "property": "C28",
   "status": "partial",
   "theorems": [
    "C28_later_wins_partial",
    "C28_nothing_lost_or_invented",
    "C28_later_wins_refuted",
    "C28_list_merged_in_order"
   ],
   "note": "False of the code when an unconditional assignment follows a conditional one (refuted: the earlier one wins). Proved: the later assignment wins whenever that does not occur; for all trees, what only one tree assigns is kept and the result is always one of the two. The simplifier is a parameter that keeps truth of the conditions. For lists: all assignments to the same bits of the same element are merged in the order given, and the results are ordered by element and bit."
  },
  {
   "property": "C29",
   "status": "partial",
   "theorems": [
    "C29_slices_placed_partial",
    "C29_tree_of_signal_partial",
    "C29_placed_refuted"
   ],
   "note": "False of the code as worded (refuted: gaps get a negative width, trees wider than their slice shift the others, single bits given by an index are dropped). Proved for disjoint slices covering the signal whose trees have the slice width, for the merged tree and for the final tree of the signal."
  },
  {
   "property": "C30",
   "status": "partial",
   "theorems": [
    "C30_matched_are_overlaps",
    "C30_ranges_cover_partial",
    "C30_ranges_cover_refuted",
    "C30_overlap_missed_refuted",
    "C30_unmatched_apart",
    "C30_overlaps_separated_partial",
    "C30_overlaps_separated_refuted"
   ],
   "note": "False of the code (refuted: earlier slices strictly inside, gaps between two earlier slices, swapped ends). Proved: matched ranges are exactly overlaps with earlier slices; full coverage when no earlier slice is strictly inside and the two reaching in are adjacent; unmatched ranges never touch matched ones; after cutting, any two pieces have the same bits or none in common when slices nest (at most two deep) and the last does not strictly contain another (false in general: refuted)."
  },
  {
   "property": "C31",
   "status": "partial",
   "theorems": [
    "C31_ranges_adjacent",
    "C31_bits_preserved_partial",
    "C31_bits_preserved_refuted",
    "C31_index_overlap_refuted",
    "C31_cut_everywhere"
   ],
   "note": "False of the code for slices not starting at bit 0 (refuted); overlapping indexed assignments raise NameError (refuted). Proved: ranges adjacent for every slice; values right when the slice starts at bit 0; cutting a list at the computed positions replaces each assignment by pieces that make it up and leaves no position inside a piece."
  },
  {
   "property": "C32",
   "status": "proved",
   "theorems": [
    "C32_expansion_terminates",
    "C32_walkBind_terminates"
   ],
   "note": "The number of nested expansions is bounded by the number of declared names (times scope kinds), for every system of definitions. The simplifier is a parameter, assumed to return."
  },
  {
   "property": "C33",
   "status": "partial",
   "theorems": [
    "C33_values_preserved_partial",
    "C33_signal_preserved_partial",
    "C33_only_sources_left",
    "C33_nested_hold_refuted",
    "C33_undriven_refuted",
    "C33_offset_refuted",
    "C33_width_refuted",
    "C33_array_slices_refuted",
    "C33_select_of_slice",
    "C33_variable_index",
    "C33_sparse_array_refuted"
   ],
   "note": "False of the code for signals without driver, latches below the expanded signal, vectors not numbered from 0, definitions of another width and array elements assigned in slices (refuted). Proved: value and width are kept otherwise; only top inputs, clocked registers, arrays and signals on loops remain; a slice of a slice is right for vectors numbered from any bit; reading an array with a variable index agrees with reading each constant index (unassigned elements in between raise KeyError: refuted)."
  },
  {
   "property": "C34",
   "status": "proved",
   "theorems": [
    "C34_subset_is_fan_in",
    "C34_each_once_refuted"
   ],
   "note": "names compared by path in a consistent design; as sets. Lists can contain an assignment twice (C34_each_once_refuted)."
  },
  {
   "property": "C35",
   "status": "partial",
   "theorems": [
    "C35_subset_succeeds_partial",
    "C35_subset_terminates_partial",
    "C35_subset_terminates_refuted"
   ],
   "note": "False of the code for a register clocked by itself (refuted). Proved: terminates, and succeeds on complete designs, when the clocked-by relation is well-founded; combinational and data cycles allowed."
  },
  {
   "property": "C36",
   "status": "proved",
   "theorems": [
    "C36_one_entry_per_slice",
    "C36_declarations_accumulate"
   ],
   "note": "wildcard-free names and bounds; all histories of addTerm/addBind. Aliasing of added objects is not modelled."
  },
  {
   "property": "C37",
   "status": "partial",
   "theorems": [
    "C37_parameters_resolved_partial",
    "C37_never_wrong_partial",
    "C37_ranges_resolved_partial",
    "C37_parameters_resolved_refuted",
    "C37_dimensions_resolved_partial"
   ],
   "note": "False of the code when parameters are used before they are declared (two passes only: a chain of three reversed uses stays unresolved, and a stale width gives a wrong value), and values are not truncated to the declared range (refuted). Proved for every dependency graph in declaration order: all values are found, no wrong value, ranges, array dimensions and assignments are resolved."
  },
  {
   "property": "C38",
   "status": "proved",
   "theorems": [
    "C38_constant_lookup",
    "C38_signal_lookup",
    "C38_lookup_returns",
    "C38_answer_unique"
   ],
   "note": "For all histories of scope openings, moves and declarations; the answer is characterised uniquely. Constants and signals."
  },
  {
   "property": "C39",
   "status": "partial",
   "theorems": [
    "C39_labels_fresh_partial",
    "C39_visitor_labels_fresh",
    "C39_labels_fresh_refuted"
   ],
   "note": "False of the API for requested names that end with a digit (refuted: a1+1 = a+11). Proved for every request sequence of names not ending with a digit, which covers every label the visitors ask for (C39_visitor_labels_fresh)."
  },
  {
   "property": "C40",
   "status": "partial",
   "theorems": [
    "C40_nonblocking_recorded_partial",
    "C40_assignments_recorded_partial",
    "C40_assignments_recorded_refuted"
   ],
   "note": "False of the code: lsb is never compared (msb twice), so q[7:4] replaces q[7:0]; and blocking entries are shared between blocks, so an assignment changes what an inner block recorded (both refuted). Proved: last assignment to each slice for histories without such slices (nonblocking: with block ends too)."
  },
  {
   "property": "C41",
   "status": "partial",
   "theorems": [
    "C41_inputs",
    "C41_cleanup",
    "C41_output_read",
    "C41_order_partial",
    "C41_order_refuted"
   ],
   "note": "Proved: the command given to the external tool (options, every -I and -D, all files in order, then one fresh temporary file per text, in order), removal of every temporary file when the tool returns and leaves them, reading and deletion of the output. Order is proved only when all files come before all texts (C41_order_partial); the general order, clean-up when the tool cannot be started, and a single string as filelist are refuted (C41_order_refuted)."
  },
  {
   "property": "C42",
   "status": "partial",
   "theorems": [
    "C42_reflexive",
    "C42_meaning",
    "C42_transitive",
    "C42_both_ways",
    "C42_symmetric_partial",
    "C42_hash_partial",
    "C42_children_partial",
    "C42_refuted"
   ],
   "note": "False of the code: == looks only at as many children as the left side has, so it is neither symmetric nor compatible with hash, and equal nodes may have more children or the same child in another field (refuted, with a == top.a and an if without else). Proved for all trees over the whole class table: reflexive, transitive, exactly what == decides, and for trees equal both ways or equally large: same tree, symmetric and same hash."
  },
  {
   "property": "C43",
   "status": "partial",
   "theorems": [
    "C43_listing",
    "C43_nothing_else_partial",
    "C43_tree_reads",
    "C43_refuted"
   ],
   "note": "False of the code when a node has two parents (the parser shares the parameter list of an instance: a swap leaves the name as it was) and for identifiers with a scope (the scope is dropped); both refuted. Proved on a heap of objects for every tree without shared nodes and every renaming: the listing law; and, for trees without scoped identifiers, that only names change and no other object is touched."
  },
  {
   "property": "C44",
   "status": "partial",
   "theorems": [
    "C44_own_distinct",
    "C44_never_used_partial",
    "C44_edges",
    "C44_one_each",
    "C44_refuted"
   ],
   "note": "False of the code: a shared node (terminal) may be spelled like a renamed node, e.g. signal graphrename_2 of module Branch (refuted). Proved for all histories of calls, failing ones included: nodes of their own have pairwise different names; in trees whose terminals are not spelled like renamed nodes the name was never used by any node or edge before; every edge leads from an existing node to the node just added; one own node per tree node."
  },
  {
   "property": "C45",
   "status": "partial",
   "theorems": [
    "C45_round_trip_partial",
    "C45_text_determines_expression_partial",
    "C45_values_are_numbers",
    "C45_call_refuted",
    "C45_concat_refuted",
    "C45_no_text_refuted",
    "C45_escaped_refuted",
    "C45_names_refuted"
   ],
   "note": "False of the code for system calls without arguments, escaped names and unary plus (refuted). Proved for every other tree of terms, constants, values, operators, selects, concatenations, branches and calls: the text parses to the expression the tree stands for. Floats and strings are not covered."
  },
  {
   "property": "C46",
   "status": "partial",
   "theorems": [
    "C46_infer_exact_partial",
    "C46_infer_exact_refuted"
   ],
   "note": "False of the code for < 0 and <= (C46_infer_exact_refuted); exact for every other comparison."
  },
  {
   "property": "C47",
   "status": "partial",
   "theorems": [
    "C47_and_is_intersection",
    "C47_not_is_complement",
    "C47_conditions_exact_partial",
    "C47_resolve_refuted",
    "C47_not_equal_refuted",
    "C47_not_or_refuted",
    "C47_shared_term_refuted",
    "C47_unknown_forgets_refuted",
    "C47_equal_conditions_refuted",
    "C47_raises_refuted",
    "C47_not_empty_refuted",
    "C47_tree_refuted"
   ],
   "note": "and = intersection (whenever it does not raise), not = complement within the signal values, and the whole inference exact for the class [exact] (comparisons of a signal with a constant that can be true and false, negation, conjunction, disjunction; a disjunction shares no signal with what it is conjoined with). Refuted beyond it: empty terms are dropped (contradiction becomes no constraint), != is taken for ==, negated disjunctions are lost, shared terms are narrowed in place, unknown conditions forget earlier ones, (x==y) of conditions is a conjunction, a>1&&a<5 raises, toTree writes the upper bound with >=."
  },
  {
   "property": "C48",
   "status": "proved",
   "theorems": [
    "C48_merge_of_lists"
   ],
   "note": "values; the in-place extension of the first dictionary's lists is not modelled."
  },
  {
   "property": "C49",
   "status": "proved",
   "theorems": [
    "C49_token_lines",
    "C49_directive_lines",
    "C49_nothing_lost",
    "C49_lexing_ends",
    "C49_second_text_refuted"
   ],
   "note": "a new lexer, every text over characters below 256: lines and positions of tokens and directives, nothing but blanks, comments and directives skipped, termination. A parser object used for a second text goes on counting lines (C49_second_text_refuted)."
  },
  {
   "property": "C50",
   "status": "proved",
   "theorems": [
    "C50_sources_exact",
    "C50_sources_succeed",
    "C50_definition_sources_exact"
   ],
   "note": "wildcard-free trees; also success condition and sources of whole definitions."
  },
  {
   "property": "C51",
   "status": "partial",
   "theorems": [
    "C51_always_tree_exact_partial",
    "C51_later_if_refuted",
    "C51_nested_override_refuted",
    "C51_nested_default_refuted",
    "C51_concatenation_refuted"
   ],
   "note": "False of the code in four ways, each refuted with a run of the model: a later if copies a remembered assignment over newer ones; a nested override loses the earlier value when the outer condition is false; a default value is lost two levels down; a second assignment to a concatenation slices the earlier tree again. Proved: for every statement accepted by a syntactic analysis (flow: resets, defaults followed by one overriding if/case, successive unnested overrides, else-if chains, cases with label lists and default), every target and every valuation, the tree means what the block schedules. That the analysis succeeds is C76."
  },
  {
   "property": "C52",
   "status": "proved",
   "theorems": [
    "C52_clock_of_innermost_always",
    "C52_answer_unique"
   ],
   "note": "For every history of scopes (names without wildcards, outermost scopes not always blocks); the answer is also proved unique."
  },
  {
   "property": "C53",
   "status": "partial",
   "theorems": [
    "C53_width_partial",
    "C53_width_refuted"
   ],
   "note": "False of the code for <= ('LassEq' is misspelt in compare_ops), reductions and ! (as wide as the operand), shifts and powers (as wide as the wider operand), conditionals with a missing arm (at least 32) and system functions (NameError): refuted. Proved for all other trees over declared signals: the width is computed with enough recursion depth and no other answer is ever given."
  },
  {
   "property": "C54",
   "status": "partial",
   "theorems": [
    "C54_tree_means_expression_partial",
    "C54_tree_is_made_partial",
    "C54_tree_means_expression_refuted"
   ],
   "note": "False of the code for conditions that are conditional themselves ((a?b:c)?d:e calls reorder.insertCond, which does not exist: AttributeError) and for system functions other than $signed/$unsigned, which become 0: refuted. Proved for every other expression without function calls, strings and hierarchical names: a tree is made with enough recursion depth, and it has the value of the expression under every interpretation."
  },
  {
   "property": "C55",
   "status": "partial",
   "theorems": [
    "C55_blocking_values_partial",
    "C55_added_signals_determined",
    "C55_nested_default_refuted",
    "C55_changed_condition_refuted",
    "C55_blocking_values_refuted"
   ],
   "note": "False of the code (refuted): x = 0; if (c) if (d) x = 1; loses the default when c is false, and x = 1; if (x) begin x = 0; y = 1; end takes the condition again from the changed x. Proved for every block accepted by a syntactic analysis (bflow: defaults overridden one level down, else-if chains and cases whose arms all override, conditions over signals the arms do not change) and every valuation; that the added signals have exactly one fitting value is proved for all blocks. That the analysis of the block succeeds is C75. Missing: part selects, arrays, nonblocking assignments mixed in."
  },
  {
   "property": "C56",
   "status": "partial",
   "theorems": [
    "C56_statement_round_trip_partial",
    "C56_item_round_trip_partial",
    "C56_parsed_statement_partial",
    "C56_parsed_item_partial",
    "C56_text_determines_statement_partial",
    "C56_casez_refuted",
    "C56_unique_case_refuted",
    "C56_last_line_refuted",
    "C56_always_refuted",
    "C56_disable_refuted",
    "C56_for_refuted",
    "C56_for_step_refuted",
    "C56_delay_refuted",
    "C56_reading_refuted",
    "C56_built_tree_refuted",
    "C56_fuel"
   ],
   "note": "False of the code (each refuted): casez, always_ff/comb/latch and disable are printed as unreadable text, unique case loses its contents in the parser and cannot be printed, a for without initialisation loses a semicolon and one whose head needs blanks is read differently, a delay loses needed parentheses; a for, while, event, wait, forever or fork as last statement of an if or always makes the parser raise AttributeError. Proved for every other statement over every printable expression; also that all parsed statements are in the described set and that the answer does not depend on the fuel. Strings, floats, hierarchical names and declarations in named blocks are not covered."
  },
  {
   "property": "C57",
   "status": "partial",
   "theorems": [
    "C57_instances_partial",
    "C57_modules_partial",
    "C57_constants_partial",
    "C57_ascending_array_refuted",
    "C57_ranged_parameter_refuted",
    "C57_localparam_default_refuted",
    "C57_unknown_parameter_refuted",
    "C57_negative_condition_refuted",
    "C57_loop_variable_refuted"
   ],
   "note": "False of the code (each refuted): an array u[0:3] has no instances, a parameter with a range in a submodule raises FormatError, a default that uses a localparam is unknown in a submodule, a parameter with an x literal makes the analysis go on for ever, a negative generate condition counts as false, and the variable of a procedural loop overwrites a parameter of the same name. Proved for every legal design that has an elaboration (ranges descending, conditions 0 or positive, constant expressions within 32 bits): if the analysis returns, it lists exactly those instances, in order and without repetition. Missing: that it returns; generate-case, functions, loops in procedural blocks, shadowed names that are used by their own definition."
  },
  {
   "property": "C58",
   "status": "partial",
   "theorems": [
    "C58_precedence",
    "C58_accepted_partial",
    "C58_one_tree",
    "C58_text_partial",
    "C58_indexed_slice_refuted",
    "C58_reduction_xnor_refuted",
    "C58_empty_argument_refuted"
   ],
   "note": "False of the code (each refuted): a[4 +: 2] becomes a[4:6] and a[4 -: 2] becomes a[4:2], one bit too many; ^~a is read as ^(~a), which is not the reduction xnor; f(, a) is accepted as f(a). Proved: every token sequence of the stratified grammar (one level per row of the precedence table) is parsed to its tree with enough steps, every accepted sequence without +:, -: and empty first arguments is in the grammar with exactly the tree delivered, and the grammar gives a sequence one tree. Strings, floats and hierarchical names are not covered."
  },
  {
   "property": "C59",
   "status": "partial",
   "theorems": [
    "C59_assign_partial",
    "C59_connections_partial",
    "C59_gates_partial",
    "C59_connections_refuted",
    "C59_gates_refuted",
    "C59_ascending_range_refuted"
   ],
   "note": "False of the code (each refuted): an output port connected to a concatenation is rejected; an undeclared net is rejected as the argument of an input; element i of an array of instances always takes bit i of every argument, also of one-bit ones and for wider ports; a buf or not with two outputs takes the second one for its input; members declared with ascending ranges get negative widths; a wrong port name raises AttributeError unless the argument is an identifier. Proved for all other left sides, connections and gates without function calls and hierarchical names, for all pairwise different targets: whenever the analysis of the item succeeds, the store is as stated. The optimizer is a parameter that keeps values (C13-C16)."
  },
  {
   "property": "C60",
   "status": "partial",
   "theorems": [
    "C60_transitions_real_partial",
    "C60_transitions_found_partial",
    "C60_reset_conditions_removed",
    "C60_transitions_refuted",
    "C60_ends_refuted",
    "C60_reported_refuted"
   ],
   "note": "False of the code (each refuted): a condition on a signal whose name contains rst, such as first or burst, is removed as if it were reset, so a transition is lost and a wrong one reported; a register assigned only in reset makes the analysis go on for ever; a machine whose transitions all apply to every state is not reported. Proved: which conditions are removed (exactly those in whose names or texts reset or rst occurs), that every enabled transition of a reported machine comes from a route of the register's tree to that constant whose remaining conditions hold, and, before conditions are merged by target (C27), that such routes are found unless the removal confuses them with another. The trees must lie in the fragment of C24 (conditions satisfiable, compared with constants). The making of the register's tree (C17-C20) and the regular expression for names are parameters."
  },
  {
   "property": "C61",
   "status": "partial",
   "theorems": [
    "C61_source_round_trip_partial",
    "C61_text_determines_source_partial",
    "C61_parsed_source_partial",
    "C61_fuel",
    "C61_split_once",
    "C61_second_round_partial",
    "C61_parameters_refuted",
    "C61_parameter_name_refuted",
    "C61_generate_for_refuted",
    "C61_generate_if_refuted",
    "C61_integer_value_refuted",
    "C61_assign_delay_refuted",
    "C61_declarations_refuted",
    "C61_logic_refuted",
    "C61_dropped_refuted",
    "C61_integer_signed_refuted",
    "C61_port_sign_refuted",
    "C61_output_wire_refuted"
   ],
   "note": "False of the code (each refuted): two parameters after one keyword in a module head lose their comma, semicolons in escaped parameter names are removed there, two generate loops run together, of a declaration of several names only the first stays below a generate-if (and with none the next item moves there), values of integers and delays of assignments are not printed, supplies, reals and bounds that need blanks are unreadable; in reading, logic variables, names of reals, types of parameters, blank first arguments and signs of ports are dropped, integer signed raises ValueError, output wire a, b loses port b and cannot be printed. Proved for every other tree the parser can deliver, and that every parsed tree is in the described set, that splitting and printing settle after one round, and that the answer does not depend on the fuel. Strings, floats, hierarchical names, values of pragmas other than names and numbers, localparams and parameters with strings, declarations with a delay are not covered."
  },
  {
   "property": "C62",
   "status": "partial",
   "theorems": [
    "C62_unnamed_clock_refuted",
    "C62_legal_list_refuted",
    "C62_level_clock_refuted",
    "C62_undeclared_clock_refuted",
    "C62_two_clocks_refuted",
    "C62_index_refuted"
   ],
   "note": "False of the code (each refuted): a block at an edge of a signal whose name contains neither clk nor clock counts as combinational; legal lists such as @(burst_en or a), @(clk_en or a) and @(posedge clk or posedge start) are refused; @(clk) is neither clocked nor combinational, an undeclared clock makes it both, of two clocks the last is taken, and an index that is not a plain decimal literal raises AttributeError, ValueError or TypeError. Proved for every list: exactly when it is accepted and what is recorded (last clock and reset with the visible signal, edge and bit; other items in order), and when the block counts as clocked, combinational or reset by an edge; for every always block the parser delivers, that edges of signals named like clocks and resets give a clocked block with that clock and reset, and changes of others a combinational one. always_ff, always_comb and always_latch are not analysed by the code at all."
  },
  {
   "property": "C63",
   "status": "partial",
   "theorems": [
    "C63_bind_text_partial",
    "C63_declaration_text_partial",
    "C63_texts_partial",
    "C63_text_determines_item_partial",
    "C63_text_determines_declaration_partial",
    "C63_entire_partial",
    "C63_only_wires",
    "C63_registers_refuted",
    "C63_no_ports_refuted",
    "C63_event_bits_refuted",
    "C63_level_refuted",
    "C63_unnamed_clock_refuted",
    "C63_condition_refuted",
    "C63_genvar_refuted",
    "C63_names_refuted",
    "C63_integer_array_refuted"
   ],
   "note": "False of the code (each refuted): getAssignType calls signaltype.isWireArray, which does not exist, so every design in which a register, a plain output or a parameter is bound raises AttributeError; a design without ports besides clock and reset gets a port list that ends with a comma; bits of clocks and resets are not printed, a clock without an edge is printed with the word level, a block at an edge of a signal not named like a clock becomes combinational, a branch without condition, a genvar and an array of integers are unreadable, and signals with the same flat name are merged. Proved: the text of every binding and declaration that stands for an item (EmitSpec) is read as that item, equal texts stand for equal items, the text of every design in which only wires are bound is read as the module with the stated ports, declarations and items for every order of the sets, and no code is delivered for any other design (whole or subset). For subsets only the last is proved, not the contents of the module. Strings, floats and escaped names are not covered."
  },
  {
   "property": "C64",
   "status": "partial",
   "theorems": [
    "C64_reports_real_partial",
    "C64_reports_complete_partial",
    "C64_active_ranges_exact_partial",
    "C64_changed_ranges_exact_partial",
    "C64_unchanged_ranges_exact_partial",
    "C64_assignments_exact_partial",
    "C64_always_active_refuted",
    "C64_constant_refuted",
    "C64_full_refuted",
    "C64_no_condition_refuted"
   ],
   "note": "False of the code (each refuted): a signal that is active outside reset whatever the state makes the analysis raise TypeError, one assigned a constant without any condition and one active under a condition on inputs only are not reported, and the range reports leave out values assigned outside reset without other conditions. Proved: every entry that holds means that the signal comes to an active value, every active value on a route with a condition on the state of the register is listed, and the ranges (active, changed, unchanged, with the values assigned) hold exactly when they should for conditions of the class of C47. The conditions must lie in the fragments of C24 and C47; making the tree, widths and the simplifier are parameters."
  },
  {
   "property": "C65",
   "status": "partial",
   "theorems": [
    "C65_loops_unrolled",
    "C65_execution_deterministic",
    "C65_loop_values_partial",
    "C65_negative_condition_refuted",
    "C65_constant_of_other_branch_refuted",
    "C65_loop_values_refuted",
    "C65_unknown_while_rejected",
    "C65_unknown_for_rejected",
    "C65_unknown_start_rejected"
   ],
   "note": "False of the code (refuted): for (i = -2; i; ...) makes no round, since only positive conditions count as true, and if (c) x = 3; else while (x < 5) ... decides its rounds by the constant of the other branch. Proved for all statements: the analysis is that of an unrolled form, and execution has at most one outcome. Proved for all blocks whose loop headers are integer arithmetic over signals assigned unconditionally (or parameters whose constants are known), with a comparison as condition, and whose unrolled forms are in the scope of C55: the loops make exactly the rounds of the execution and the trees have its values. Loops whose condition or first value is not known are rejected. Missing: loop headers with widths (unary reductions, shifts right), that the analysis succeeds."
  },
  {
   "property": "C66",
   "status": "partial",
   "theorems": [
    "C66_name_sound",
    "C66_name_found",
    "C66_no_such_scope",
    "C66_names_refuted"
   ],
   "note": "False of the code (each refuted): names are only looked for inside the instance they are written in, so names from the top or from an enclosing scope raise NameError; an element u[0] of an array of instances is not found, since its scope is called u_0; a hierarchical name on a left side always raises TypeError. Proved for all scope trees: what is found is a signal of a denoted scope, a signal declared in the only denoted scope is found, and a name that denotes no scope raises an exception. Of several scopes (an unindexed loop) the first with that name is taken, and if it does not declare the signal DefinitionError is raised. The value of an index is a parameter (C13-C16); hierarchical names in constant expressions are not modelled: signalvisitor.searchScopeConstantValue calls getCurrentModuleScopeChain, which no class defines, so each raises AttributeError."
  },
  {
   "property": "C67",
   "status": "partial",
   "theorems": [
    "C67_call_values_partial",
    "C67_read_before_change_refuted",
    "C67_assigned_input_refuted",
    "C67_callers_local_refuted",
    "C67_else_block_refuted",
    "C67_call_values_refuted",
    "C67_stepwise_refuted",
    "C67_wrong_arguments",
    "C67_unknown_function"
   ],
   "note": "False of the code (each refuted): a variable assigned again after it was read, and an input assigned in the body, give the reader the new value; a function that computes in steps (f = a; f = f + 1;) gets a tree that mentions itself and no values fit; a function called from another reads the caller's local variable instead of the module's signal of that name; begin f = 2; if (a) f = 1; else begin f = 0; end end loses the inner assignment; a wrong number of arguments ends in AttributeError instead of FormatError. Proved for all calls of functions that avoid these (func_ok in FunSpec): any nesting of calls, blocks, ifs and cases, with the signals' values read off their trees. Missing: calls in conditions and in assignments under conditions, calls in always blocks, functions of enclosing scopes, loops and tasks in functions, and widths."
  },
  {
   "property": "C68",
   "status": "partial",
   "theorems": [
    "C68_term_satisfy_partial",
    "C68_satisfy_partial",
    "C68_satisfy_all_partial",
    "C68_split",
    "C68_list_include",
    "C68_code_partial",
    "C68_reported_code_partial",
    "C68_open_range_refuted",
    "C68_no_bounds_refuted",
    "C68_empty_text_refuted",
    "C68_flat_names_refuted"
   ],
   "note": "False of the code (each refuted): a plain signal as a condition is reported as 1 or more without an upper bound, and asking about a value that satisfies it raises TypeError; a < 0 is reported without any bound, and its text compares with a signal named None; !(a >= 0) has no range left and its text is '())', which does not parse; two signals with the same flat name cannot be told apart in the text. Proved for all conditions: split and include exactly; satisfy exactly if all ranges have both bounds; the text parses (lexer and precedence rules of C45/C58) to an expression that is true exactly when the condition holds, if every term has a range, lower bounds are numbers and the flat names are identifiers. toTree is refuted in C47."
  },
  {
   "property": "C69",
   "status": "partial",
   "theorems": [
    "C69_defined_twice",
    "C69_expression_value",
    "C69_condition_decided",
    "C69_scope_constants",
    "C69_constants_used",
    "C69_constants_partial",
    "C69_derived_constant_refuted",
    "C69_unknown_default_refuted",
    "C69_index_error_refuted"
   ],
   "note": "False of the code (each refuted): constants are computed from the defaults before the parameters of the instance are set, so a constant that depends on a given parameter keeps the value for the default (parameter P = 1; localparam Q = P + 1; with P given as 5: Q is 2, and the branch of if (Q == 6) that the first pass takes is not taken); a default that is not a number makes the analysis go on for ever, also if the instance gives another value; more named values than parameters end in IndexError. Proved, including termination: what is computed exactly (given values, else values from the defaults), the constants of scopes without given parameters, that the values and decisions are right if no constant depends on a given parameter, and the values of expressions and decisions for all names seen. Constants are declared before use and without ranges, overflow and conditionals as operands or conditions are left out."
  },
  {
   "property": "C70",
   "status": "partial",
   "theorems": [
    "C70_range",
    "C70_range_refuted",
    "C70_view",
    "C70_view_succeeds",
    "C70_lines_are_read_uniquely",
    "C70_view_determines",
    "C70_view_refuted",
    "C70_graph",
    "C70_graph_succeeds",
    "C70_graph_resolved",
    "C70_graph_refuted"
   ],
   "note": "False of the code (each refuted): the range of states leaves out the targets of transitions from any state; listing a condition with a unary plus (or a delay) ends in an exception after the lines before; in the drawing a transition from any state replaces the label of another edge between the same states, and labels are the names of operators, so that machines with different conditions are drawn the same. Proved for all machines: the range of all known states, one line per transition, lines and listings that determine the transitions and their conditions, the nodes, edges and labels of the drawing, and the labels of machines without transitions from any state. Trusted: pygraphviz keeps nodes and edges once and replaces attributes (AGraph is strict); layout and files are left out."
  },
  {
   "property": "C71",
   "status": "partial",
   "theorems": [
    "C71_tree_partial",
    "C71_open_ranges_partial",
    "C71_no_lower_bound",
    "C71_upper_bound_refuted",
    "C71_no_range_refuted"
   ],
   "note": "False of the code (each refuted): upper bounds are written with >= instead of <=, so the tree for a < 5 is false for 0 and true for 9; a signal without ranges, which no value satisfies, is dropped if it comes first (alone: None) and ends in DefinitionError otherwise. Proved: the tree says exactly that every signal has reached the lower and the upper bound of one of its ranges, and so is the condition if no range has an upper bound."
  },
  {
   "property": "C72",
   "status": "partial",
   "theorems": [
    "C72_instance_partial",
    "C72_scope_partial",
    "C72_ranges_partial",
    "C72_value_fits_range_refuted",
    "C72_wrong_name_refuted",
    "C72_kinds"
   ],
   "note": "False of the code (each refuted): values are not cut to the declared range (parameter [1:0] P = 7 is worth 7); a wrong parameter name ends in IndexError if the module has no parameters. Proved for expressions without calls of functions, whenever the analysis ends without an exception: every parameter, localparam and supply net of an instance has exactly the given or the declared value, evaluated in the right scope, under every interpretation; declarations get their range and kind; nothing else changes; only parameters of the module are given. The constants table filled by the same functions is C69."
  },
  {
   "property": "C73",
   "status": "partial",
   "theorems": [
    "C73_declarations_once_refuted",
    "C73_locals_hidden_refuted"
   ],
   "note": "False of the code (each refuted): ports are listed twice, once from the module table and once from the visit of the module; local variables of functions and tasks (and outputs of tasks) are listed as signals of the module. Proved for all visits that end without an exception: the listings exactly, with their order and with each name once, one scope at a time, the instances, the functions and tasks with their inputs, and the terms the dataflow starts with. A localparam enters when it is visited (visit_Locaparam in modulevisitor.py is misspelt and never called); genvars are constants."
  },
  {
   "property": "C74",
   "status": "partial",
   "theorems": [
    "C74_expressions_partial",
    "C74_assign_partial",
    "C74_module_partial",
    "C74_connections_partial",
    "C74_gates_partial",
    "C74_parameters_partial",
    "C74_conditional_bound_refuted",
    "C74_nested_condition_refuted"
   ],
   "note": "False of the code (each refuted): a conditional operator in the bounds of a part select or in the index of a bit select raises NameError; an operator over a conditional whose condition is conditional raises AttributeError. Proved: with enough recursion depth the analysis ends with one result, which is the same for every larger depth, has the writes of C59 and C72 under every interpretation, and is again a store that further statements are accepted on, for right sides of any nesting whose bounds and bit indices are free of conditionals (indices of memories may have them), whose conditions are not conditional, without function calls, over declared identifiers; for left sides whose bounds the optimizer accepts (a parameter of the model) and, in concatenations, declared ranges that are names and constants under operators; nets that an earlier left side declares implicitly may be assigned again, but right sides that read them are not covered."
  },
  {
   "property": "C75",
   "status": "partial",
   "theorems": [
    "C75_blocks_accepted_partial",
    "C75_blocks_right_partial",
    "C75_empty_then_refuted",
    "C75_assigned_bound_refuted",
    "C75_system_call_refuted"
   ],
   "note": "False of the code (each refuted): if (c) ; else x = 1; raises TypeError; a bound of a part select that reads a signal assigned conditionally in the block raises NameError; a system call such as $random is rejected with FormatError. Proved: with enough recursion depth the analysis ends with one result, the same for every larger depth, for blocks of any nesting, conditional operators and signals assigned in the block anywhere except in bounds of part selects (also in conditions, labels and indices of memories), any number of renamings and whatever names are taken; in the blocks that C55 covers the result has the values after execution. Missing: part selects and words of memories as targets, loops, and the values where C55 does not give them."
  },
  {
   "property": "C76",
   "status": "partial",
   "theorems": [
    "C76_blocks_accepted_partial",
    "C76_expressions_sorted",
    "C76_all_blocks_accepted_partial",
    "C76_blocks_right_partial",
    "C76_empty_then_refuted",
    "C76_conditional_bound_refuted"
   ],
   "note": "False of the code (each refuted): if (c) ; else q <= 1; raises TypeError; a conditional operator in a bound of a part select raises NameError. Proved: with enough recursion depth the analysis of any list of legal blocks ends with one result, the same for every larger depth, with conditional operators everywhere but in bounds and indices of targets and bounds of part selects, with concatenations, parts and words on the left, and case items with any labels; no signal is added; in the blocks that C51 covers every assigned target has a tree with the scheduled value. Missing: loops, and the values where C51 does not give them."
  },
  {
   "property": "C77",
   "status": "partial",
   "theorems": [
    "C77_parts_read_partial",
    "C77_unassigned_read",
    "C77_overlap_refuted",
    "C77_gap_refuted",
    "C77_top_missing_refuted",
    "C77_range_refuted",
    "C77_same_msb_refuted",
    "C77_sized_bound_refuted"
   ],
   "note": "False of the code in six ways, each refuted with the tree that is read: a part assigned after the whole signal is lost; in a gap between parts the whole signal is inserted; bits above the highest part are missing; the bits below the declared lower bound are taken for a gap; an assignment with the same upper and another lower bound is recorded for the first one's bounds; bounds of different widths count as different parts. Proved: for every sequence of assignments to parts that meet each other nowhere or everywhere and together assign every bit of a signal [W-1:0], in any order, the tree read has W bits, each the one assigned last. Missing: reads under conditions other than those of the assignments, bounds that are no constants, words of arrays."
  },
  {
   "property": "C78",
   "status": "partial",
   "theorems": [
    "C78_conditional_words_read_partial",
    "C78_conditional_words_found",
    "C78_words_read_partial",
    "C78_different_words_read",
    "C78_reused_index_refuted",
    "C78_conditional_refuted",
    "C78_part_of_word_refuted",
    "C78_changed_index_refuted",
    "C78_statements_read_partial",
    "C78_loop_fills"
   ],
   "note": "False of the code in four ways, each refuted with the tree that is read: an index expression that is used again keeps its old place, so another index that names the same word wins; an assignment under a condition hides the earlier word when the condition is false; an assignment to a part of a word is read as the whole word; the index of an assigned word is taken before, that of a read word after the blocking assignments to its signals. Proved: for every sequence of unconditional assignments to whole words, every read and every valuation in which no index expression that is used again shares the word that is read with another one, the tree read has the value assigned last; with different index expressions, for every valuation; and for assignments under any conditions with different index expressions, in every valuation in which the last assignment in the text that names the word is executed (and in no other, unless the tree's missing value happens to be right: C78_conditional_words_found gives the value in all valuations); the same for a read after any statement of such assignments, blocks, if, else and case in any nesting, whose value is what executing the statement leaves (so a memory filled by a loop of any length is read back). Missing: words assigned again under conditions, conditions over signals that the statement assigns, loops other than as their iterations (C65), delays in indices."
  },
  {
   "property": "C79",
   "status": "partial",
   "theorems": [
    "C79_nested_reads_partial",
    "C79_different_words_read_partial",
    "C79_reads_answered",
    "C79_outer_words_lost_refuted",
    "C79_outer_parts_lost_refuted"
   ],
   "note": "False of the code (refuted): a block that assigns one word hides, until its end, the words assigned before it began, and likewise for parts of a signal. Proved: in every nesting in which only one of the open blocks has assigned the memory where a word is read, all reads have the right values, in every valuation in which no index expression that is used again shares a word that is read with another one (C78); with different index expressions, in all valuations; and every read of every nesting gets one tree. Missing: conditions, parts of signals in nested blocks."
  }
 ]
}