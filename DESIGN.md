# Formal model of PyHDI/Pyverilog in Rocq (Coq 8.16.1)

## Layout

Every area `X` has these files in `rocq/theories/`:

* `XModel.v`  – the model: total computable Gallina functions, one per Python function,
  each with a comment citing file and lines in /repo and every simplification;
* `XSpec.v`   – a small specification, written without the model's helpers;
* `XProofs*.v` – lemmas;
* `XProps*.v`  – the property theorems, each followed by `Print Assumptions` and accompanied by an
  `Example` that meets its hypotheses with a concrete, non-trivial case.

`Base.v` holds the exception monad (`res A := Ok a | Err e`) and generic list/string facts.

Conventions: Python `int` is `Z`; strings are `string` (characters with codes below 256);
exceptions are values of `exn`; a loop or general recursion uses structural recursion or fuel
(standing for Python's recursion depth), exhaustion being a separate error that theorems exclude,
or that is proved not to happen with enough fuel. Objects that Python mutates in place live on an
explicit heap where sharing matters (`Active*`, `Ren*`); elsewhere the comment says why values
suffice.

A theorem named `..._refuted` is a machine-checked counterexample to the full property: the
unchanged code violates it (the witness is a run of the model). `..._partial` marks a theorem that
is weaker than the property; the full statement is kept in view as a `Definition` beside it, and
what is missing is in the note of `MANIFEST.json`. Theorems of a property are found by name:
`grep -n 'Theorem C28_' rocq/theories/*.v`.

## What is modelled, and where

| Area | Code in /repo/pyverilog | Model |
|---|---|---|
| names | utils/scope.py (ScopeLabel, ScopeChain), name helpers of utils/util.py | ScopeModel |
| dataflow trees | dataflow/dataflow.py: classes, `==`, hash, constructors, DFIntConst.eval/width, DFEvalValue printing, tocode; Term, Bind, DataFlow store | DfModel, LitModel, CodeModel, BindModel |
| constant folding and widths | dataflow/optimizer.py:20-374 | OptModel |
| simplification | dataflow/optimizer.py:55-64, 376-992 (optimizeHierarchy, mergeConcat, takePart, replaceConstant...) | HierModel |
| parameters | dataflow/optimizer.py:992-1032 | ResolveModel |
| reordering, replacing | dataflow/reorder.py, dataflow/replace.py | ReorderModel |
| merging of assignments | dataflow/merge.py | MergeModel, WalkModel (arrays), BindModel (sources) |
| expansion of signals | dataflow/walker.py | WalkModel |
| subsets | dataflow/subset.py, utils/util.py dictlistmerge | SubsetModel |
| scopes while visiting | dataflow/visit.py: labels, FrameTable, searches, blocking/nonblocking records, always status | VisitModel |
| always blocks | dataflow/bindvisitor.py: if/case/block, nonblocking assignments, makeBind, branch trees | AsgModel |
| blocking assignments | dataflow/bindvisitor.py: addBind for blocking assignments, resolveBlockingAssign, getRenamedDst, copyBlockingAssigns; visit.py: blockingassign of frames | BlkModel |
| trees of expressions | dataflow/bindvisitor.py: makeDFTree without calls | MkModel |
| elaboration | dataflow/modulevisitor.py, signalvisitor.py without functions, tasks and connections; dataflow_analyzer.py: getInstances | ElabModel |
| connections | dataflow/bindvisitor.py: getDestinations, getDst(s), searchTerminal, addBind for continuous assignments, addInstancePortBind, gates; visit.py: primitives | ConModel |
| graph | dataflow/graphgen.py: nodes and edges | GraphModel |
| controlflow | controlflow/splitter.py, transition.py, active_range.py, class FiniteStateMachine and getFiniteStateMachines/getFuncdict of controlflow_analyzer.py; utils/inference.py; isReset of utils/signaltype.py; tostr of dataflow.py | SplitModel, TransModel, ActiveModel, FsmModel, MachModel |
| syntax trees | vparser/ast.py: all classes (table generated by scripts/asttable.py), children, `==`, hash | AstTable, AstModel |
| renaming | utils/identifierreplace.py, identifiervisitor.py | RenModel |
| lexer | vparser/lexer.py: all rules, PLY's matching order, line numbers, directives | LexModel |
| parser | vparser/parser.py: the expression rules as PLY's shift/reduce machine | ParseModel |
| printing | ast_code_generator/codegen.py: expressions with their templates | ExprModel |
| statements | vparser/parser.py: statements, sensitivity lists, always and initial, with the failing end_lineno accesses (recursive descent; dangling else shifted); ast_code_generator/codegen.py: statements with their templates | StmModel |
| source files | vparser/parser.py: modules, parameters, ports, declarations, assignments, instances, generate, functions, tasks, pragmas (recursive descent); codegen.py with the remaining templates | SrcModel |
| sensitivity lists | dataflow/bindvisitor.py:218-280 (_createAlwaysinfo, _get_signal_name), utils/signaltype.py isClock/isReset, visit.py AlwaysInfo | SensModel |
| generated code | dataflow/dataflow.py: tocode of Bind and Term, _tocode_always; dataflow/dataflow_codegen.py; subset.py: getEntire, getSubset; merge.py:56-72 | EmitModel |
| procedural loops | dataflow/bindvisitor.py:218-232, 282-515, 525-549, 941-958, 1436-1452; dataflow/optimizer.py:30-35, 48-49 | LoopModel |
| hierarchical names | dataflow/visit.py:836-868; dataflow/bindvisitor.py:715-742, 1353-1386; utils/scope.py:58-76 | NameModel |
| function calls in continuous assignments | dataflow/bindvisitor.py:282-427, 525-549, 791-810, 936-976, 1081-1122, 1412-1468 | FunModel |
| queries and texts of range conditions | controlflow/active_range.py:492-565, 631-685 | RngModel |
| constants of scopes and instances in the dataflow pass | dataflow/bindvisitor.py:153-177, 292-298, 562-569, 593-625, 791-800, 842-847, 993-999, 1006-1016 | ParModel |
| listing and drawing of state machines | controlflow/controlflow_analyzer.py:139-158, 205-248 | ShowModel |
| range conditions as trees | controlflow/active_range.py:504-520, 567-577 | RngTreeModel |
| parameters in the dataflow graph | dataflow/bindvisitor.py:86-111, 153-189 (without ports), 849-902, 942-945, 1336-1339 | PbModel |
| listings of declarations | dataflow/visit.py:24, 150-151, 205-209, 218-276, 357-390, 456-460, 610-620, 670-746; dataflow/signalvisitor.py:41-96, 357-362; dataflow/modulevisitor.py:34-50; dataflow/bindvisitor.py:627-640 | LstModel |
| acceptance of legal text | no further code: success of the functions of ConModel, PbModel, AsgModel, MkModel and ReorderModel (AccSpec says which text is legal) | - |
| acceptance of always blocks | no further code: success of the functions of BlkModel, AsgModel and ReorderModel (BacSpec and NacSpec say which blocks are legal) | - |
| reading signals assigned in parts | dataflow/bindvisitor.py:1184-1193, 1205-1213, 1269-1302; dataflow/visit.py:488-497 | PartsModel |
| reading words of memories | dataflow/bindvisitor.py 313-318, 361-425, 525-543, 668-672, 1239-1253, 1386 (index of an assigned word), dataflow/visit.py 488-497 | words assigned again under conditions, conditions that the statement changes, loops other than unrolled; the index of an assigned word is a single name in the model of getDst |
| words of memories in nested blocks | dataflow/bindvisitor.py 525-543, 668-672, 1239-1253, 1458-1468, dataflow/visit.py 785-795 | one memory; the frames of one always block; no conditions |
| activity reports | controlflow/active_analyzer.py:27-76; controlflow/active_range.py:28-112, 135-154 | WhenModel |
| preprocessor | vparser/preprocessor.py: inputs, command line, files | PreModel |

Not modelled: strings, floats and hierarchical names in the grammar, the
command-line mains and examples, `show` methods, graph drawing of `Graphviz`,
dataflow_analyzer.py/controlflow_analyzer.py drivers (option handling and file output), defparam,
functions and tasks inlined in bindvisitor.py. PLY itself is represented by
its documented algorithm (order of rules in the lexer; conflict resolution by precedence in the
parser); the LALR table construction is not.

## Trusted base

* Coq's kernel (8.16.1). Nothing is extracted; the models are evaluated only inside Coq.
* `Print Assumptions` for every property theorem prints `Closed under the global context`: no axiom is
  used, neither of ours nor of the standard library. (`coqchk` additionally lists seven parameters
  `Coq.ssr.ssrunder.Under_rel.*`, which belong to a sealed module of the standard library that
  tactics such as `lia` load; no theorem depends on them.)
* The reading of /repo into the models: each definition cites the lines it models. Nothing checks this
  mechanically (the code cannot be run here), except that the seeded bugs of `seeded/LOG.jsonl` show
  that the theorems depend on the modelled details.
* Parts of the runtime that the models take as given, each stated where used: Python's `dict`
  keeps insertion order; iteration over a `set` is an arbitrary order (a section variable that theorems
  quantify over); `int(x)`, `re`, string methods as modelled in LitModel/LexModel; floating point
  (`math.log`, `/`) is exact only where a theorem assumes it or in the range where doubles are exact;
  `copy.deepcopy` yields equal, unshared objects; the file system and the external tool of
  preprocessor.py are a step of an abstract machine.

## How properties are proved

Structural induction on trees, statements and lists (printing, folding, reordering, splitting, merging);
induction on fuel with monotonicity lemmas (walker, optimizer, reorder); invariants over arbitrary
histories of API calls (scope table, labels, graph, store, FSM); simulation between the shift/reduce
machine and the grammar (parser), and between always-block statements and the trees grown for them.
The specifications give independent semantics: values and widths of trees over integers (`OptSpec`),
truth of conditions (`SplitSpec`, `ActiveSpec`), positional value of literals (`LitSpec`), execution of
statements (`AsgSpec`), longest-match token reading (`LexSpec`), etc.

No property of the list is outside what an executable model can express.

## Seeded bugs

`seeded/LOG.jsonl` has one line per edited model: the definition, the edit, the claim it breaks, which
theorems stopped proving, and which theorems were added or tightened because an edit survived.
Survivors that are left are edits under which the English claim stays true; the note says why.

## Status per property

(generated by scripts/design.py from properties.jsonl and MANIFEST.json)

### C01 Printed expressions parse back to the same expression – partial

For every expression AST built from identifiers, unsigned constants, unary, binary and ternary operators, concatenation, replication, bit-select and part-select, generating Verilog text and parsing that text again yields an equal AST.

*Proved:* `C01_round_trip_partial`, `C01_parsed_round_trip_partial`, `C01_result_stable`, `C01_text_determines_tree`, `C01_shift_refuted`, `C01_bound_refuted`, `C01_escaped_bound_refuted`, `C01_signed_refuted`, `C01_uplus_refuted`. False of the code for <<<, $signed(), unary plus and bounds that change when blanks are removed (refuted, each with a text the parser accepts). Proved for every other expression tree of any size, through the lexer and the shift/reduce parser, and for every text the parser accepts. Floats, strings and scoped identifiers are not modelled.

### C02 Blank removal inside ranges does not change the expression – partial

Removing blanks from the printed bounds of a part-select or a vector width leaves the token sequence, and so the bound's meaning, unchanged.

*Proved:* `C02_blanks_partial`, `C02_bound_meaning_partial`, `C02_blanks_refuted`. False of the code for "a & &b", "a | |b" and escaped identifiers (refuted). Proved for all other bounds: same tokens and same tree.

### C03 Every operator is printed with its Verilog mark – partial

Code generation of any unary or binary operator node emits that operator's Verilog symbol between or before its operands.

*Proved:* `C03_binary_mark_partial`, `C03_unary_mark_partial`, `C03_marks_refuted`. False of the code for unary plus (prints None) and <<< (prints nothing), refuted. Proved for all other operators and all operands.

### C04 Integer literals evaluate to their numeric value – proved

Evaluating an integer literal (plain decimal, or sized/unsized/signed with base b, o, d or h, in either letter case, with underscores) yields the number its digits denote in that base.

*Proved:* `C04_literal_value`, `C04_question_mark_refuted`, `C04_printed_value_read_back`. all literals of the grammar without x, z or ? digits; printed values read back. A ? digit raises ValueError (C04_question_mark_refuted).

### C05 Width of an integer literal – partial

The width of a sized literal is its declared size, whether or not it carries the signed marker, and 32 otherwise.

*Proved:* `C05_literal_width_partial`, `C05_signed_width_refuted`. False of the code for literals with the signed marker, whose width is always 32 (refuted, with the exact result). Proved for all others.

### C06 Signal-name comparison is safe for dictionary use – proved

Comparing hierarchical signal names is reflexive, symmetric and agrees with hashing (equal names hash equal); a user-written dotted name finds the signal with those component names whatever its scope kinds; on names without wildcard components comparison is plain equality.

*Proved:* `C06_name_eq_spec`, `C06_name_eq_plain`, `C06_user_name_finds`, `C06_transitivity_refuted`. reflexive, symmetric, hash-compatible, user names find by path, plain equality without wildcards. Also shown: with wildcards it is not transitive (C06_transitivity_refuted).

### C07 Flattened names are unique – partial

Two different signals are given different flat names in generated code.

*Proved:* `C07_flat_names_unique_refuted`, `C07_flat_names_unique_partial`, `C07_flat_names_iterations_partial`. False of the code: the flat name of top.a_b and top.a.b coincide (C07_flat_names_unique_refuted). Proved: unique when components are printable, non-empty and contain no underscore, and different iterations of the same loop get different flat names (loop indices are written out).

### C08 Dotted names convert to hierarchical names and back – proved

Converting a dotted string to a hierarchical name and printing it gives the string back, and distinct strings give different names.

*Proved:* `C08_dotted_roundtrip`, `C08_dotted_injective`. round trip and injectivity for every string.

### C09 Dataflow tree equality – proved

Equality of dataflow trees is reflexive, symmetric and compatible with hashing for every tree without delay nodes, and is structural: it never equates trees with different shape, operator, constant or width.

*Proved:* `C09_equality_structural`, `C09_equality_reflexive`, `C09_equality_symmetric`, `C09_equal_trees_hash_equal`, `C09_equality_is_identity`, `C09_delay_refuted`. delay-free trees: total, reflexive, symmetric, hash-compatible, decides sameness node by node. Delay nodes raise AttributeError (C09_delay_refuted).

### C10 Constant folding preserves value and width – partial

Replacing parameters by their values and folding constant sub-expressions yields a tree with the same value and width as the original under every assignment of values to the remaining signals.

*Proved:* `C10_folding_preserves_partial`, `C10_folding_preserves_refuted`. False of the code as worded (six refutations with literal trees, e.g. a comparison inside a concatenation). Proved: every defined value is preserved, and the width where keeps_width holds, for all trees satisfying fold_safe (exact constant operators; operands of width-sensitive operators keep their width; constant concatenation parts in range).

### C11 Constant expressions fold completely – partial

A tree whose leaves are all defined integer constants or known parameters and whose operators are supported folds to a single value node.

*Proved:* `C11_folds_to_one_node`, `C11_folds_to_value`, `C11_parameter_bit_refuted`. False for a constant bit select of a parameter (TypeError, refuted). Proved: constant expressions of every other shape fold to one node whenever folding returns, and it returns the right value and width for supported exact operators.

### C12 Constant division is exact – partial

Folding a division of two integer constants yields the integer quotient truncated toward zero.

*Proved:* `C12_division_partial`, `C12_division_refuted`. False beyond 2^53 because the code divides floats (refuted at 2^53+1). Proved for all dividends up to 2^53 in magnitude and every non-zero divisor.

### C13 Hierarchy optimisation preserves values – partial

Simplifying a tree (identical operands, operations with zero, constant branches, equal branch arms, power-of-two strength reduction) does not change its value under any valuation.

*Proved:* `C13_simplification_preserves_value_partial`, `C13_preserves_value_refuted`. False of the code as worded (refuted: a && a becomes a, 1 && a becomes a, 0 || a becomes a, signed division becomes a shift that rounds down, x | ~x takes a wrong width). Proved for all trees satisfying safe at CValue, any depth, every valuation. The power-of-two test (a float logarithm) is a parameter assumed exact; slices of concatenations are C16.

### C14 Hierarchy optimisation preserves truth of conditions – partial

Simplifying a condition does not change whether it is true (non-zero), under any valuation of the signals.

*Proved:* `C14_simplification_preserves_truth_partial`, `C14_preserves_truth_refuted`. False of the code for ~a && a with a wider than a bit (refuted). Proved for all conditions satisfying safe at CTruth: && and || without multi-bit ~ operands.

### C15 Logical and/or chains are merged soundly – proved

Flattening, de-duplicating, contradiction-detecting and sorting a chain of logical ands (ors) leaves its truth value unchanged.

*Proved:* `C15_and_chains`, `C15_or_chains`. chains of any length and shape; names that match are assumed to be one signal (respects).

### C16 Slicing a concatenation selects those bits – partial

Taking bits msb..lsb of a concatenation yields a tree whose value is exactly those bits of the concatenation's value.

*Proved:* `C16_slice_of_concatenation_partial`, `C16_folded_trees_stay`, `C16_slices_right_refuted`, `C16_simplified_slice_partial`, `C16_simplified_bit_partial`. False of the code for slices that start inside a part above the last one or cross parts from a non-zero bit (refuted). Proved for slices between part boundaries, from bit 0, and inside the last part; also for the simplifier on c[m:l] and c[i] of such concatenations.

### C17 Concatenation merging preserves bits – partial

Merging adjacent constants, undefined parts, adjacent slices of one signal and branches with a common condition inside a concatenation leaves its value and width unchanged.

*Proved:* `C17_merging_preserves_partial`, `C17_merging_refuted`. False of the code for constants that do not fit, branch arms of different widths and out-of-range slices (refuted). Proved, value and width, when every part is an element: fits its width, slices in range, arms equally wide.

### C18 Reordering preserves meaning – proved

Moving conditional branches to the top of a tree leaves its value unchanged under every valuation.

*Proved:* `C18_reorder_preserves_value`, `C18_reorder_terminates`, `C18_reorder_succeeds`. for every interpretation; also termination and a success condition.

### C19 Reordering reaches branch-first normal form – proved

After reordering, no branch occurs below an operator, concatenation, slice or index, nor in a branch condition; reordering again changes nothing.

*Proved:* `C19_reorder_branch_first`, `C19_reorder_idempotent`. branch-first form (the inside of a delay node is its own tree) and idempotence.

### C20 Undefined parts are replaced by the signal itself – proved

After undefined-replacement no undefined or missing part remains, every defined part is untouched, replacement is idempotent, and the value equals the original's with the named signal's old value in place of each undefined part.

*Proved:* `C20_replace_undefined`, `C20_replace_succeeds`. exact result, nothing undefined left, idempotent, meaning; success characterised.

### C21 Path splitting is exhaustive and exclusive – proved

Splitting a branch tree lists every path once: under each valuation at most one listed condition list holds, it holds exactly when the tree selects a present leaf, and its leaf is the one the tree selects.

*Proved:* `C21_split_paths`, `C21_paths_listed_once`. exclusive, exhaustive, right leaf, keys distinct.

### C22 State-range intersection is exact – proved

Intersecting two lists of disjoint inclusive ranges yields ranges containing exactly the common integers, and the procedure terminates.

*Proved:* `C22_and_ranges_exact`, `C22_any_ranges_exact`, `C22_empty_input_raises`. any non-empty lists: terminates and is exact; proper lists give a proper list. An empty list raises IndexError (shown; callers avoid it).

### C23 State-range complement is exact – proved

Complementing a list of ranges within [0,max] yields ranges containing exactly the remaining integers of [0,max].

*Proved:* `C23_not_ranges_exact`, `C23_not_ranges_in_bounds`, `C23_not_ranges_proper`, `C23_beyond_maximum_refuted`. exact on 0..max for every list; exact as a set when no range starts beyond max+1; otherwise the result leaves [0,max] (C23_beyond_maximum_refuted).

### C24 Transition conditions are inferred exactly – partial

The states and residual condition inferred from a list of conditions on a state register hold for a state and input valuation exactly when all the conditions hold.

*Proved:* `C24_conditions_exact_partial`, `C24_bitwise_and_refuted`, `C24_reduction_and_refuted`, `C24_contradiction_refuted`, `C24_comparison_refuted`. False of the code as worded (four refutations: bitwise and, reduction and, forgotten contradictions, unsupported comparisons). Proved exact for supported, contradiction-free condition lists.

### C25 Reported FSM loops are real – partial

Every loop reported for a state machine is a simple cycle of its transition graph, listed from its least state.

*Proved:* `C25_loops_are_simple_refuted`, `C25_loops_are_real`, `C25_loops_simple_without_self_transitions`. False of the code as worded: a state with a self-transition is listed twice in loops through it (refuted). Proved: every reported loop is a real closed walk from its least state, a simple cycle up to immediate repetition of self-transition states, and simple when no state on it has a self-transition.

### C26 All FSM loops are reported – partial

Every simple cycle of the state machine is reported; in particular the per-state search finds every simple cycle through that state of up to 51 states.

*Proved:* `C26_search_finds_cycles`, `C26_loops_reported_partial`, `C26_all_loops_reported_refuted`, `C26_long_loops_refuted`. False of the code (two refutations: states are pruned once they occur often enough; loops of 52 or more states are cut off). Proved: per-state search finds all simple cycles of at most 51 states; each such cycle is reported unless all its states were saturated.

### C27 FSM resolution preserves transitions – partial

Merging the conditions of parallel transitions keeps, for every state, target and valuation, whether a transition to that target is enabled, and leaves at most one entry per source and target.

*Proved:* `C27_resolve_keeps_transitions_partial`, `C27_resolve_keeps_all_transitions_refuted`, `C27_construct_exact`. False of the code when two targets are both unconditional (refuted). Proved: resolution adds no transition, keeps one entry per target, and keeps all when targets are distinguishable; machine construction exact. The condition simplifier is a parameter that keeps truth of disjunctions.

### C28 Merged assignments: the later assignment wins – partial

Merging two assignment trees for one bit range gives, for every valuation, the later tree's value where it assigns and the earlier tree's value otherwise.

*Proved:* `C28_later_wins_partial`, `C28_nothing_lost_or_invented`, `C28_later_wins_refuted`, `C28_list_merged_in_order`. False of the code when an unconditional assignment follows a conditional one (refuted: the earlier one wins). Proved: the later assignment wins whenever that does not occur; for all trees, what only one tree assigns is kept and the result is always one of the two. The simplifier is a parameter that keeps truth of the conditions. For lists: all assignments to the same bits of the same element are merged in the order given, and the results are ordered by element and bit.

### C29 Partial assignments are placed at their bit positions – partial

The merged tree of assignments to disjoint slices has each slice's value at its position, and gaps have the gap's width.

*Proved:* `C29_slices_placed_partial`, `C29_tree_of_signal_partial`, `C29_placed_refuted`. False of the code as worded (refuted: gaps get a negative width, trees wider than their slice shift the others, single bits given by an index are dropped). Proved for disjoint slices covering the signal whose trees have the slice width, for the merged tree and for the final tree of the signal.

### C30 Overlap analysis of slices – partial

The matched and unmatched sub-ranges computed for a new slice against earlier slices together cover exactly the new slice.

*Proved:* `C30_matched_are_overlaps`, `C30_ranges_cover_partial`, `C30_ranges_cover_refuted`, `C30_overlap_missed_refuted`, `C30_unmatched_apart`, `C30_overlaps_separated_partial`, `C30_overlaps_separated_refuted`. False of the code (refuted: earlier slices strictly inside, gaps between two earlier slices, swapped ends). Proved: matched ranges are exactly overlaps with earlier slices; full coverage when no earlier slice is strictly inside and the two reaching in are adjacent; unmatched ranges never touch matched ones; after cutting, any two pieces have the same bits or none in common when slices nest (at most two deep) and the last does not strictly contain another (false in general: refuted).

### C31 Splitting an assignment preserves bits – partial

Splitting an assignment at a bit position yields two assignments to adjacent ranges whose values are the corresponding bits of the original value.

*Proved:* `C31_ranges_adjacent`, `C31_bits_preserved_partial`, `C31_bits_preserved_refuted`, `C31_index_overlap_refuted`, `C31_cut_everywhere`. False of the code for slices not starting at bit 0 (refuted); overlapping indexed assignments raise NameError (refuted). Proved: ranges adjacent for every slice; values right when the slice starts at bit 0; cutting a list at the computed positions replaces each assignment by pieces that make it up and leaves no position inside a piece.

### C32 Signal expansion terminates – proved

Following definitions of signals backwards terminates on every design, including combinational and sequential cycles.

*Proved:* `C32_expansion_terminates`, `C32_walkBind_terminates`. The number of nested expansions is bounded by the number of declared names (times scope kinds), for every system of definitions. The simplifier is a parameter, assumed to return.

### C33 Signal expansion preserves meaning – partial

The expanded tree has the same value as the original under every valuation that satisfies the design's combinational definitions.

*Proved:* `C33_values_preserved_partial`, `C33_signal_preserved_partial`, `C33_only_sources_left`, `C33_nested_hold_refuted`, `C33_undriven_refuted`, `C33_offset_refuted`, `C33_width_refuted`, `C33_array_slices_refuted`, `C33_select_of_slice`, `C33_variable_index`, `C33_sparse_array_refuted`. False of the code for signals without driver, latches below the expanded signal, vectors not numbered from 0, definitions of another width and array elements assigned in slices (refuted). Proved: value and width are kept otherwise; only top inputs, clocked registers, arrays and signals on loops remain; a slice of a slice is right for vectors numbered from any bit; reading an array with a variable index agrees with reading each constant index (unassigned elements in between raise KeyError: refuted).

### C34 Subset extraction is exactly the fan-in – proved

The signals and assignments extracted for a set of targets are exactly those reachable backwards from the targets.

*Proved:* `C34_subset_is_fan_in`, `C34_each_once_refuted`. names compared by path in a consistent design; as sets. Lists can contain an assignment twice (C34_each_once_refuted).

### C35 Subset extraction terminates – partial

Extracting the subset for targets terminates on every design.

*Proved:* `C35_subset_succeeds_partial`, `C35_subset_terminates_partial`, `C35_subset_terminates_refuted`. False of the code for a register clocked by itself (refuted). Proved: terminates, and succeeds on complete designs, when the clocked-by relation is well-founded; combinational and data cycles allowed.

### C36 Dataflow store keeps one entry per slice – proved

After any sequence of additions, each signal has at most one assignment per (msb, lsb, index) slice holding the last tree added for it, in order of first addition; declarations accumulate types and keep the first range given.

*Proved:* `C36_one_entry_per_slice`, `C36_declarations_accumulate`. wildcard-free names and bounds; all histories of addTerm/addBind. Aliasing of added objects is not modelled.

### C37 Parameters are resolved – partial

Every parameter whose definition is constant, given constant values for the parameters it uses, is resolved to its value; parameters are never resolved to a wrong value.

*Proved:* `C37_parameters_resolved_partial`, `C37_never_wrong_partial`, `C37_ranges_resolved_partial`, `C37_parameters_resolved_refuted`, `C37_dimensions_resolved_partial`. False of the code when parameters are used before they are declared (two passes only: a chain of three reversed uses stays unresolved, and a stale width gives a wrong value), and values are not truncated to the declared range (refuted). Proved for every dependency graph in declaration order: all values are found, no wrong value, ranges, array dimensions and assignments are resolved.

### C38 Scope lookup finds the nearest enclosing definition – proved

Looking a constant or signal up from a scope returns the definition in the nearest enclosing scope that has one, not crossing the enclosing module instance.

*Proved:* `C38_constant_lookup`, `C38_signal_lookup`, `C38_lookup_returns`, `C38_answer_unique`. For all histories of scope openings, moves and declarations; the answer is characterised uniquely. Constants and signals.

### C39 Generated scope labels are fresh – partial

Successive labels requested for anonymous blocks are pairwise different.

*Proved:* `C39_labels_fresh_partial`, `C39_visitor_labels_fresh`, `C39_labels_fresh_refuted`. False of the API for requested names that end with a digit (refuted: a1+1 = a+11). Proved for every request sequence of names not ending with a digit, which covers every label the visitors ask for (C39_visitor_labels_fresh).

### C40 Assignments in a block replace only the same slice – partial

Recording an assignment to a slice in a procedural block replaces an earlier assignment to the same slice only.

*Proved:* `C40_nonblocking_recorded_partial`, `C40_assignments_recorded_partial`, `C40_assignments_recorded_refuted`. False of the code: lsb is never compared (msb twice), so q[7:4] replaces q[7:0]; and blocking entries are shared between blocks, so an assignment changes what an inner block recorded (both refuted). Proved: last assignment to each slice for histories without such slices (nonblocking: with block ends too).

### C41 Preprocessor inputs and clean-up – partial

All sources are handed to the preprocessor, in the given order, each -I/-D option is passed, and every temporary file is deleted afterwards.

*Proved:* `C41_inputs`, `C41_cleanup`, `C41_output_read`, `C41_order_partial`, `C41_order_refuted`. Proved: the command given to the external tool (options, every -I and -D, all files in order, then one fresh temporary file per text, in order), removal of every temporary file when the tool returns and leaves them, reading and deletion of the output. Order is proved only when all files come before all texts (C41_order_partial); the general order, clean-up when the tool cannot be started, and a single string as filelist are refuted (C41_order_refuted).

### C42 AST equality – partial

AST equality is reflexive, symmetric and compatible with hashing, and equal nodes have equal children.

*Proved:* `C42_reflexive`, `C42_meaning`, `C42_transitive`, `C42_both_ways`, `C42_symmetric_partial`, `C42_hash_partial`, `C42_children_partial`, `C42_refuted`. False of the code: == looks only at as many children as the left side has, so it is neither symmetric nor compatible with hash, and equal nodes may have more children or the same child in another field (refuted, with a == top.a and an if without else). Proved for all trees over the whole class table: reflexive, transitive, exactly what == decides, and for trees equal both ways or equally large: same tree, symmetric and same hash.

### C43 Identifier listing and replacement – partial

Listing the identifiers of a tree after renaming gives the renamed list of the identifiers of the original; nothing else changes.

*Proved:* `C43_listing`, `C43_nothing_else_partial`, `C43_tree_reads`, `C43_refuted`. False of the code when a node has two parents (the parser shares the parameter list of an instance: a swap leaves the name as it was) and for identifiers with a scope (the scope is dropped); both refuted. Proved on a heap of objects for every tree without shared nodes and every renaming: the listing law; and, for trees without scoped identifiers, that only names change and no other object is touched.

### C44 Graph node names are unique – partial

Every non-shared node added to a generated graph gets a name never used before in that graph.

*Proved:* `C44_own_distinct`, `C44_never_used_partial`, `C44_edges`, `C44_one_each`, `C44_refuted`. False of the code: a shared node (terminal) may be spelled like a renamed node, e.g. signal graphrename_2 of module Branch (refuted). Proved for all histories of calls, failing ones included: nodes of their own have pairwise different names; in trees whose terminals are not spelled like renamed nodes the name was never used by any node or edge before; every edge leads from an existing node to the node just added; one own node per tree node.

### C45 Dataflow trees print to parseable, equivalent code – partial

The text printed for a dataflow tree parses back to an expression with the same structure.

*Proved:* `C45_round_trip_partial`, `C45_text_determines_expression_partial`, `C45_values_are_numbers`, `C45_call_refuted`, `C45_concat_refuted`, `C45_no_text_refuted`, `C45_escaped_refuted`, `C45_names_refuted`. False of the code for system calls without arguments, escaped names and unary plus (refuted). Proved for every other tree of terms, constants, values, operators, selects, concatenations, branches and calls: the text parses to the expression the tree stands for. Floats and strings are not covered.

### C46 Comparison inference is exact – partial

The value interval inferred from a comparison with a constant contains exactly the unsigned values satisfying it.

*Proved:* `C46_infer_exact_partial`, `C46_infer_exact_refuted`. False of the code for < 0 and <= (C46_infer_exact_refuted); exact for every other comparison.

### C47 Active-condition ranges are exact – partial

Conjunction and negation of active-range terms denote intersection and complement, and dropping resolved terms does not change the condition.

*Proved:* `C47_and_is_intersection`, `C47_not_is_complement`, `C47_conditions_exact_partial`, `C47_resolve_refuted`, `C47_not_equal_refuted`, `C47_not_or_refuted`, `C47_shared_term_refuted`, `C47_unknown_forgets_refuted`, `C47_equal_conditions_refuted`, `C47_raises_refuted`, `C47_not_empty_refuted`, `C47_tree_refuted`. and = intersection (whenever it does not raise), not = complement within the signal values, and the whole inference exact for the class [exact] (comparisons of a signal with a constant that can be true and false, negation, conjunction, disjunction; a disjunction shares no signal with what it is conjoined with). Refuted beyond it: empty terms are dropped (contradiction becomes no constraint), != is taken for ==, negated disjunctions are lost, shared terms are narrowed in place, unknown conditions forget earlier ones, (x==y) of conditions is a conjunction, a>1&&a<5 raises, toTree writes the upper bound with >=.

### C48 Merging dictionaries of lists – proved

Merging two dictionaries of lists yields for each key the first list followed by the new elements of the second, without duplicates being introduced.

*Proved:* `C48_merge_of_lists`. values; the in-place extension of the first dictionary's lists is not modelled.

### C49 Line numbers and directives – proved

The line number attached to every token is one plus the number of newlines before it, through comments, directives and blank lines.

*Proved:* `C49_token_lines`, `C49_directive_lines`, `C49_nothing_lost`, `C49_lexing_ends`, `C49_second_text_refuted`. a new lexer, every text over characters below 256: lines and positions of tokens and directives, nothing but blanks, comments and directives skipped, termination. A parser object used for a second text goes on counting lines (C49_second_text_refuted).

### C50 Signal sources are complete – proved

The set of source signals of a tree contains exactly the signals occurring in it, and the tree's value depends on no other signal.

*Proved:* `C50_sources_exact`, `C50_sources_succeed`, `C50_definition_sources_exact`. wildcard-free trees; also success condition and sources of whole definitions.

### C51 Dataflow of nonblocking assignments in an always block – partial

The tree the analyzer builds for a target assigned by nonblocking assignments under any nesting of begin/end, if and case in an always block means, under every valuation, the value the block schedules for it (last assignment on the executed path wins, nothing if none is executed).

*Proved:* `C51_always_tree_exact_partial`, `C51_later_if_refuted`, `C51_nested_override_refuted`, `C51_nested_default_refuted`, `C51_concatenation_refuted`. False of the code in four ways, each refuted with a run of the model: a later if copies a remembered assignment over newer ones; a nested override loses the earlier value when the outer condition is false; a default value is lost two levels down; a second assignment to a concatenation slices the earlier tree again. Proved: for every statement accepted by a syntactic analysis (flow: resets, defaults followed by one overriding if/case, successive unnested overrides, else-if chains, cases with label lists and default), every target and every valuation, the tree means what the block schedules. That the analysis succeeds is C76.

### C52 An assignment gets the clock and reset of the always block around it – proved

The clock and reset recorded with an assignment are those of the innermost enclosing always block; inside a function or task call, or outside always blocks, there is none.

*Proved:* `C52_clock_of_innermost_always`, `C52_answer_unique`. For every history of scopes (names without wildcards, outermost scopes not always blocks); the answer is also proved unique.

### C53 The width computed for an expression is its width – partial

Optimizer.getWidth(tree) returns the bit width the tree has by its declarations and operators: the declared width of a signal or array element, 1 for bit selects, comparisons, reductions and logical operators, the sum for concatenations, the wider arm of a conditional, the left operand for shifts, the widest operand otherwise.

*Proved:* `C53_width_partial`, `C53_width_refuted`. False of the code for <= ('LassEq' is misspelt in compare_ops), reductions and ! (as wide as the operand), shifts and powers (as wide as the wider operand), conditionals with a missing arm (at least 32) and system functions (NameError): refuted. Proved for all other trees over declared signals: the width is computed with enough recursion depth and no other answer is ever given.

### C54 The dataflow tree of an expression means the expression – partial

The tree the dataflow analyzer makes for a right-hand side or condition has, for every value of the signals and every meaning of the operators, the value of the Verilog expression it was made from: conditional operators below other operators are moved up without changing the value, v[p] is an element of an array and a one-bit slice of anything else, {n{v}} repeats v n times, $signed and $unsigned keep the value; and such a tree is made for every expression over declared names.

*Proved:* `C54_tree_means_expression_partial`, `C54_tree_is_made_partial`, `C54_tree_means_expression_refuted`. False of the code for conditions that are conditional themselves ((a?b:c)?d:e calls reorder.insertCond, which does not exist: AttributeError) and for system functions other than $signed/$unsigned, which become 0: refuted. Proved for every other expression without function calls, strings and hierarchical names: a tree is made with enough recursion depth, and it has the value of the expression under every interpretation.

### C55 Blocking assignments in an always block take effect in order – partial

After the dataflow analysis of an always block with blocking assignments, the tree bound to every signal the block assigns has, for every value of the signals, the value the signal has after the block is executed: statements take effect one after the other, a read of an assigned signal gives its newest value, of if and case only the chosen arm is executed, and a signal not assigned on the chosen way keeps its old value. The renamed signals (_rn0_x, ...) added for this have exactly one value that fits their trees. Trees of other signals are kept.

*Proved:* `C55_blocking_values_partial`, `C55_added_signals_determined`, `C55_nested_default_refuted`, `C55_changed_condition_refuted`, `C55_blocking_values_refuted`. False of the code (refuted): x = 0; if (c) if (d) x = 1; loses the default when c is false, and x = 1; if (x) begin x = 0; y = 1; end takes the condition again from the changed x. Proved for every block accepted by a syntactic analysis (bflow: defaults overridden one level down, else-if chains and cases whose arms all override, conditions over signals the arms do not change) and every valuation; that the added signals have exactly one fitting value is proved for all blocks. That the analysis of the block succeeds is C75. Missing: part selects, arrays, nonblocking assignments mixed in.

### C56 Printed statements, always and initial blocks read back as the same tree – partial

Every statement, always block and initial block the parser delivers is printed by the code generator as a text that the parser reads as the same tree again (indentation, line breaks, delays, event controls, else branches, for heads and case labels included), and two different statements are never printed the same.

*Proved:* `C56_statement_round_trip_partial`, `C56_item_round_trip_partial`, `C56_parsed_statement_partial`, `C56_parsed_item_partial`, `C56_text_determines_statement_partial`, `C56_casez_refuted`, `C56_unique_case_refuted`, `C56_last_line_refuted`, `C56_always_refuted`, `C56_disable_refuted`, `C56_for_refuted`, `C56_for_step_refuted`, `C56_delay_refuted`, `C56_reading_refuted`, `C56_built_tree_refuted`, `C56_fuel`. False of the code (each refuted): casez, always_ff/comb/latch and disable are printed as unreadable text, unique case loses its contents in the parser and cannot be printed, a for without initialisation loses a semicolon and one whose head needs blanks is read differently, a delay loses needed parentheses; a for, while, event, wait, forever or fork as last statement of an if or always makes the parser raise AttributeError. Proved for every other statement over every printable expression; also that all parsed statements are in the described set and that the answer does not depend on the fuel. Strings, floats, hierarchical names and declarations in named blocks are not covered.

### C57 The instances listed for a design are the instances it has – partial

For a design of modules with parameters, localparams, instances (with parameters by name or by position, and arrays of instances) and generate constructs (regions, named and unnamed blocks, if, for), the analyser's list of instances holds exactly the instances the elaborated design has: every instance in the chosen branch and in each iteration of each loop, with the parameters it was given, once each, in order, under its own path, with its module.

*Proved:* `C57_instances_partial`, `C57_modules_partial`, `C57_constants_partial`, `C57_ascending_array_refuted`, `C57_ranged_parameter_refuted`, `C57_localparam_default_refuted`, `C57_unknown_parameter_refuted`, `C57_negative_condition_refuted`, `C57_loop_variable_refuted`. False of the code (each refuted): an array u[0:3] has no instances, a parameter with a range in a submodule raises FormatError, a default that uses a localparam is unknown in a submodule, a parameter with an x literal makes the analysis go on for ever, a negative generate condition counts as false, and the variable of a procedural loop overwrites a parameter of the same name. Proved for every legal design that has an elaboration (ranges descending, conditions 0 or positive, constant expressions within 32 bits): if the analysis returns, it lists exactly those instances, in order and without repetition. Missing: that it returns; generate-case, functions, loops in procedural blocks, shadowed names that are used by their own definition.

### C58 Expressions are read with Verilog's precedence and associativity – partial

The tree the parser delivers for an expression is the one the Verilog grammar gives it: unary operators bind most strongly, then **, then * / %, + -, shifts, comparisons, equalities, &, ^ and ~^, |, &&, ||, and ?: least; binary operators group to the left, ?: to the right; parentheses, selects, slices (also +: and -:), concatenations, repetitions and calls take what their brackets enclose. Texts outside the grammar are not accepted.

*Proved:* `C58_precedence`, `C58_accepted_partial`, `C58_one_tree`, `C58_text_partial`, `C58_indexed_slice_refuted`, `C58_reduction_xnor_refuted`, `C58_empty_argument_refuted`. False of the code (each refuted): a[4 +: 2] becomes a[4:6] and a[4 -: 2] becomes a[4:2], one bit too many; ^~a is read as ^(~a), which is not the reduction xnor; f(, a) is accepted as f(a). Proved: every token sequence of the stratified grammar (one level per row of the precedence table) is parsed to its tree with enough steps, every accepted sequence without +:, -: and empty first arguments is in the grammar with exactly the tree delivered, and the grammar gives a sequence one tree. Strings, floats and hierarchical names are not covered.

### C59 Assignments, port connections and gates drive what they say – partial

In the dataflow, a continuous assignment gives its left side the value of its right side: a signal, a slice, a word of a memory or a slice of such; the members of a concatenation (nested or not) take the value apart, the last one taking the lowest bits, each as many as its range or declaration has. Every input port of an instance takes the value of its argument in the scope of the parent, every argument of an output port takes the value of the port, inout ports both, matched by name or by position; open ports take nothing. A gate's output takes the logic function of its inputs. Undeclared identifiers on left sides become one-bit nets of the default net type. Nothing else changes.

*Proved:* `C59_assign_partial`, `C59_connections_partial`, `C59_gates_partial`, `C59_connections_refuted`, `C59_gates_refuted`, `C59_ascending_range_refuted`. False of the code (each refuted): an output port connected to a concatenation is rejected; an undeclared net is rejected as the argument of an input; element i of an array of instances always takes bit i of every argument, also of one-bit ones and for wider ports; a buf or not with two outputs takes the second one for its input; members declared with ascending ranges get negative widths; a wrong port name raises AttributeError unless the argument is an identifier. Proved for all other left sides, connections and gates without function calls and hierarchical names, for all pairwise different targets: whenever the analysis of the item succeeds, the store is as stated. The optimizer is a parameter that keeps values (C13-C16).

### C60 Extracted state machines are the register's transitions – partial

For every machine getFiniteStateMachines() reports for a register, whenever the conditions on reset allow it: if the machine has a transition from state s to state d whose condition holds of the current inputs, the register holding s takes the value d at the next clock, or so does the register that feeds it through the reported number of copies; and whenever the register's next value is the constant d, the machine has such a transition. Exactly the conditions on reset signals are left out.

*Proved:* `C60_transitions_real_partial`, `C60_transitions_found_partial`, `C60_reset_conditions_removed`, `C60_transitions_refuted`, `C60_ends_refuted`, `C60_reported_refuted`. False of the code (each refuted): a condition on a signal whose name contains rst, such as first or burst, is removed as if it were reset, so a transition is lost and a wrong one reported; a register assigned only in reset makes the analysis go on for ever; a machine whose transitions all apply to every state is not reported. Proved: which conditions are removed (exactly those in whose names or texts reset or rst occurs), that every enabled transition of a reported machine comes from a route of the register's tree to that constant whose remaining conditions hold, and, before conditions are merged by target (C27), that such routes are found unless the removal confuses them with another. The trees must lie in the fragment of C24 (conditions satisfiable, compared with constants). The making of the register's tree (C17-C20) and the regular expression for names are parameters.

### C61 A whole source file printed by the generator is read back – partial

The text the code generator prints for a source file (modules with parameters, ports, declarations, assignments, always and initial blocks, instances, generate constructs, functions, tasks, pragmas) is accepted by the parser and gives the same tree, up to declarations of several names becoming one declaration each (and a declaration with a value a declaration and an assignment). Printing and reading a second time changes nothing any more, so files with different trees have different texts.

*Proved:* `C61_source_round_trip_partial`, `C61_text_determines_source_partial`, `C61_parsed_source_partial`, `C61_fuel`, `C61_split_once`, `C61_second_round_partial`, `C61_parameters_refuted`, `C61_parameter_name_refuted`, `C61_generate_for_refuted`, `C61_generate_if_refuted`, `C61_integer_value_refuted`, `C61_assign_delay_refuted`, `C61_declarations_refuted`, `C61_logic_refuted`, `C61_dropped_refuted`, `C61_integer_signed_refuted`, `C61_port_sign_refuted`, `C61_output_wire_refuted`. False of the code (each refuted): two parameters after one keyword in a module head lose their comma, semicolons in escaped parameter names are removed there, two generate loops run together, of a declaration of several names only the first stays below a generate-if (and with none the next item moves there), values of integers and delays of assignments are not printed, supplies, reals and bounds that need blanks are unreadable; in reading, logic variables, names of reals, types of parameters, blank first arguments and signs of ports are dropped, integer signed raises ValueError, output wire a, b loses port b and cannot be printed. Proved for every other tree the parser can deliver, and that every parsed tree is in the described set, that splitting and printing settle after one round, and that the answer does not depend on the fuel. Strings, floats, hierarchical names, values of pragmas other than names and numbers, localparams and parameters with strings, declarations with a delay are not covered.

### C62 An always block is clocked by the clock of its sensitivity list – partial

For always blocks, the dataflow analysis tells clocked from combinational blocks by the sensitivity list: an edge list gives a clocked block with the clock's signal, edge and bit and the reset's, a list of changes or * gives a combinational block; a list that names a clock or reset together with other signals is refused with FormatError, and no other list is.

*Proved:* `C62_unnamed_clock_refuted`, `C62_legal_list_refuted`, `C62_level_clock_refuted`, `C62_undeclared_clock_refuted`, `C62_two_clocks_refuted`, `C62_index_refuted`. False of the code (each refuted): a block at an edge of a signal whose name contains neither clk nor clock counts as combinational; legal lists such as @(burst_en or a), @(clk_en or a) and @(posedge clk or posedge start) are refused; @(clk) is neither clocked nor combinational, an undeclared clock makes it both, of two clocks the last is taken, and an index that is not a plain decimal literal raises AttributeError, ValueError or TypeError. Proved for every list: exactly when it is accepted and what is recorded (last clock and reset with the visible signal, edge and bit; other items in order), and when the block counts as clocked, combinational or reset by an edge; for every always block the parser delivers, that edges of signals named like clocks and resets give a clocked block with that clock and reset, and changes of others a combinational one. always_ff, always_comb and always_latch are not analysed by the code at all.

### C63 Generated code is the Verilog of the dataflow graph – partial

The code generator (generateCode, Bind.tocode, Term.tocode) produces text that the project's own parser reads back as what the dataflow graph says: each parameter, assignment, clocked block (with its clock, reset and edges) and combinational block as that item with the same target and the same expressions and conditions, a missing arm meaning that the target keeps its value; each signal as a declaration with its direction, kind, width and dimensions, a port only in the top module; and a whole design as one module with the clock, reset and enable inputs, the ports of the top module and exactly these declarations and items. Different meanings give different texts.

*Proved:* `C63_bind_text_partial`, `C63_declaration_text_partial`, `C63_texts_partial`, `C63_text_determines_item_partial`, `C63_text_determines_declaration_partial`, `C63_entire_partial`, `C63_only_wires`, `C63_registers_refuted`, `C63_no_ports_refuted`, `C63_event_bits_refuted`, `C63_level_refuted`, `C63_unnamed_clock_refuted`, `C63_condition_refuted`, `C63_genvar_refuted`, `C63_names_refuted`, `C63_integer_array_refuted`. False of the code (each refuted): getAssignType calls signaltype.isWireArray, which does not exist, so every design in which a register, a plain output or a parameter is bound raises AttributeError; a design without ports besides clock and reset gets a port list that ends with a comma; bits of clocks and resets are not printed, a clock without an edge is printed with the word level, a block at an edge of a signal not named like a clock becomes combinational, a branch without condition, a genvar and an array of integers are unreadable, and signals with the same flat name are merged. Proved: the text of every binding and declaration that stands for an item (EmitSpec) is read as that item, equal texts stand for equal items, the text of every design in which only wires are bound is read as the module with the stated ports, declarations and items for every order of the sets, and no code is delivered for any other design (whole or subset). For subsets only the last is proved, not the contents of the module. Strings, floats and escaped names are not covered.

### C64 Activity reports say when a signal is active, changes or keeps its value – partial

The active-condition analysis of a signal reports, for each register of a state machine, exactly the states and input conditions under which - reset aside - the signal takes an active value; and the range analysis reports exactly the values of the inputs and registers for which the signal takes a constant that compares as asked, is assigned something else than itself (with the value assigned), or keeps its value.

*Proved:* `C64_reports_real_partial`, `C64_reports_complete_partial`, `C64_active_ranges_exact_partial`, `C64_changed_ranges_exact_partial`, `C64_unchanged_ranges_exact_partial`, `C64_assignments_exact_partial`, `C64_always_active_refuted`, `C64_constant_refuted`, `C64_full_refuted`, `C64_no_condition_refuted`. False of the code (each refuted): a signal that is active outside reset whatever the state makes the analysis raise TypeError, one assigned a constant without any condition and one active under a condition on inputs only are not reported, and the range reports leave out values assigned outside reset without other conditions. Proved: every entry that holds means that the signal comes to an active value, every active value on a route with a condition on the state of the register is listed, and the ranges (active, changed, unchanged, with the values assigned) hold exactly when they should for conditions of the class of C47. The conditions must lie in the fragments of C24 and C47; making the tree, widths and the simplifier are parameters.

### C65 For and while loops in always blocks are unrolled as they run – partial

Analysing an always block with for and while loops gives exactly the trees, added signals and numbering that analysing some unrolled form of the block (each loop written out for a number of rounds) gives; if the analysis succeeds, executing the block ends, and every signal's tree has the value the signal has after executing the block once, for all values of the signals.

*Proved:* `C65_loops_unrolled`, `C65_execution_deterministic`, `C65_loop_values_partial`, `C65_negative_condition_refuted`, `C65_constant_of_other_branch_refuted`, `C65_loop_values_refuted`, `C65_unknown_while_rejected`, `C65_unknown_for_rejected`, `C65_unknown_start_rejected`. False of the code (refuted): for (i = -2; i; ...) makes no round, since only positive conditions count as true, and if (c) x = 3; else while (x < 5) ... decides its rounds by the constant of the other branch. Proved for all statements: the analysis is that of an unrolled form, and execution has at most one outcome. Proved for all blocks whose loop headers are integer arithmetic over signals assigned unconditionally (or parameters whose constants are known), with a comparison as condition, and whose unrolled forms are in the scope of C55: the loops make exactly the rounds of the execution and the trees have its values. Loops whose condition or first value is not known are rejected. Missing: loop headers with widths (unary reductions, shifts right), that the analysis succeeds.

### C66 Hierarchical names denote the signals of the scopes they name – partial

A hierarchical name a.b[i].x read in a module instance is resolved to the signal x of a scope inside that instance whose named scopes (instances, named blocks) are a, b and whose enclosing loop round has index i, with any unnamed layers in between; if exactly one such scope exists and declares x it is found, and if there is none an exception is raised and no signal is taken.

*Proved:* `C66_name_sound`, `C66_name_found`, `C66_no_such_scope`, `C66_names_refuted`. False of the code (each refuted): names are only looked for inside the instance they are written in, so names from the top or from an enclosing scope raise NameError; an element u[0] of an array of instances is not found, since its scope is called u_0; a hierarchical name on a left side always raises TypeError. Proved for all scope trees: what is found is a signal of a denoted scope, a signal declared in the only denoted scope is found, and a name that denotes no scope raises an exception. Of several scopes (an unindexed loop) the first with that name is taken, and if it does not declare the signal DefinitionError is raised. The value of an index is a parameter (C13-C16); hierarchical names in constant expressions are not modelled: signalvisitor.searchScopeConstantValue calls getCurrentModuleScopeChain, which no class defines, so each raises AttributeError.

### C67 Function calls in continuous assignments have the values the functions return – partial

After the analysis of assign y = e, where e contains calls of the module's functions nested in any way, the tree of y evaluates to a value of e in which each call has the value the function's body leaves in the function's name when it runs with the argument values in its inputs and the module's signals around it, provided the signals added for the call have the values of their trees; the trees of all other signals stay as they were, calls of unknown functions and calls with a wrong number of arguments are rejected.

*Proved:* `C67_call_values_partial`, `C67_read_before_change_refuted`, `C67_assigned_input_refuted`, `C67_callers_local_refuted`, `C67_else_block_refuted`, `C67_call_values_refuted`, `C67_stepwise_refuted`, `C67_wrong_arguments`, `C67_unknown_function`. False of the code (each refuted): a variable assigned again after it was read, and an input assigned in the body, give the reader the new value; a function that computes in steps (f = a; f = f + 1;) gets a tree that mentions itself and no values fit; a function called from another reads the caller's local variable instead of the module's signal of that name; begin f = 2; if (a) f = 1; else begin f = 0; end end loses the inner assignment; a wrong number of arguments ends in AttributeError instead of FormatError. Proved for all calls of functions that avoid these (func_ok in FunSpec): any nesting of calls, blocks, ifs and cases, with the signals' values read off their trees. Missing: calls in conditions and in assignments under conditions, calls in always blocks, functions of enclosing scopes, loops and tasks in functions, and widths.

### C68 Querying, splitting and printing the range conditions the control-flow analysis reports – partial

For a condition reported by the range analysis (for each of some signals, a list of value ranges): satisfy(values) answers, without exceptions, whether each signal that is given a value and restricted by the condition has a value in its ranges, hence, with values for all signals, whether the condition holds; split(signal) gives exactly the restrictions of that signal and exactly the others, which together say what the condition says; include(signal) tells whether there is any; and tocode() is a Verilog expression that is true exactly when the condition holds.

*Proved:* `C68_term_satisfy_partial`, `C68_satisfy_partial`, `C68_satisfy_all_partial`, `C68_split`, `C68_list_include`, `C68_code_partial`, `C68_reported_code_partial`, `C68_open_range_refuted`, `C68_no_bounds_refuted`, `C68_empty_text_refuted`, `C68_flat_names_refuted`. False of the code (each refuted): a plain signal as a condition is reported as 1 or more without an upper bound, and asking about a value that satisfies it raises TypeError; a < 0 is reported without any bound, and its text compares with a signal named None; !(a >= 0) has no range left and its text is '())', which does not parse; two signals with the same flat name cannot be told apart in the text. Proved for all conditions: split and include exactly; satisfy exactly if all ranges have both bounds; the text parses (lexer and precedence rules of C45/C58) to an expression that is true exactly when the condition holds, if every term has a range, lower bounds are numbers and the flat names are identifiers. toTree is refuted in C47.

### C69 Constants of modules and instances in the dataflow pass – partial

When the analysis that builds the dataflow enters a scope, each parameter and localparam declared there has the value of its expression, in which names from the scopes around and constants declared before can be used; when it enters an instance, parameters given by name or position have the given values, all other constants the values that follow from these, and no constant of another scope changes; generate-if conditions in the scope are decided by these values.

*Proved:* `C69_defined_twice`, `C69_expression_value`, `C69_condition_decided`, `C69_scope_constants`, `C69_constants_used`, `C69_constants_partial`, `C69_derived_constant_refuted`, `C69_unknown_default_refuted`, `C69_index_error_refuted`. False of the code (each refuted): constants are computed from the defaults before the parameters of the instance are set, so a constant that depends on a given parameter keeps the value for the default (parameter P = 1; localparam Q = P + 1; with P given as 5: Q is 2, and the branch of if (Q == 6) that the first pass takes is not taken); a default that is not a number makes the analysis go on for ever, also if the instance gives another value; more named values than parameters end in IndexError. Proved, including termination: what is computed exactly (given values, else values from the defaults), the constants of scopes without given parameters, that the values and decisions are right if no constant depends on a given parameter, and the values of expressions and decisions for all names seen. Constants are declared before use and without ranges, overflow and conditionals as operands or conditions are left out.

### C70 Listing and drawing finite state machines – partial

For a state machine found by the control-flow analysis: label_range() is the smallest and largest state; view() prints one line per transition with the state it starts in (or any), its condition as Verilog text and its target, from which the transition can be read back, and machines with the same listing have the same transitions with the same conditions; tograph() draws exactly the states as nodes and one edge between two states exactly if a transition leads from one to the other, labelled with the condition.

*Proved:* `C70_range`, `C70_range_refuted`, `C70_view`, `C70_view_succeeds`, `C70_lines_are_read_uniquely`, `C70_view_determines`, `C70_view_refuted`, `C70_graph`, `C70_graph_succeeds`, `C70_graph_resolved`, `C70_graph_refuted`. False of the code (each refuted): the range of states leaves out the targets of transitions from any state; listing a condition with a unary plus (or a delay) ends in an exception after the lines before; in the drawing a transition from any state replaces the label of another edge between the same states, and labels are the names of operators, so that machines with different conditions are drawn the same. Proved for all machines: the range of all known states, one line per transition, lines and listings that determine the transitions and their conditions, the nodes, edges and labels of the drawing, and the labels of machines without transitions from any state. Trusted: pygraphviz keeps nodes and edges once and replaces attributes (AGraph is strict); layout and files are left out.

### C71 Range conditions as dataflow trees – partial

toTree() of a condition reported by the range analysis is a dataflow tree that is true of the values of the signals exactly when the condition holds.

*Proved:* `C71_tree_partial`, `C71_open_ranges_partial`, `C71_no_lower_bound`, `C71_upper_bound_refuted`, `C71_no_range_refuted`. False of the code (each refuted): upper bounds are written with >= instead of <=, so the tree for a < 5 is false for 0 and true for 9; a signal without ranges, which no value satisfies, is dropped if it comes first (alone: None) and ends in DefinitionError otherwise. Proved: the tree says exactly that every signal has reached the lower and the upper bound of one of its ranges, and so is the condition if no range has an upper bound.

### C72 Parameters of instances in the dataflow graph – partial

In the dataflow graph every parameter, localparam and supply net of every instance has exactly one value: a parameter given by name or by position has the value of the argument where the instance is, every other name the value of its declaration in the module, and both fit the declared range ([31:0] for parameters without one). Values and declarations of all other signals stay as they are. Only parameters of the module can be given, and a wrong name is reported as such.

*Proved:* `C72_instance_partial`, `C72_scope_partial`, `C72_ranges_partial`, `C72_value_fits_range_refuted`, `C72_wrong_name_refuted`, `C72_kinds`. False of the code (each refuted): values are not cut to the declared range (parameter [1:0] P = 7 is worth 7); a wrong parameter name ends in IndexError if the module has no parameters. Proved for expressions without calls of functions, whenever the analysis ends without an exception: every parameter, localparam and supply net of an instance has exactly the given or the declared value, evaluated in the right scope, under every interpretation; declarations get their range and kind; nothing else changes; only parameters of the module are given. The constants table filled by the same functions is C69.

### C73 The listings of a design are what it declares – partial

getInstances, getSignals and getConsts list every instance with its module and every declared signal and constant of every scope, each name once, scopes and names in the order of the source, each with exactly its declarations; functions and tasks are listed with their inputs; asking for one scope gives the part of that scope and an unknown scope is an error. The terms the dataflow starts with are these names, with the classes of their declarations as types, and no constant ever has two definitions.

*Proved:* `C73_declarations_once_refuted`, `C73_locals_hidden_refuted`. False of the code (each refuted): ports are listed twice, once from the module table and once from the visit of the module; local variables of functions and tasks (and outputs of tasks) are listed as signals of the module. Proved for all visits that end without an exception: the listings exactly, with their order and with each name once, one scope at a time, the instances, the functions and tasks with their inputs, and the terms the dataflow starts with. A localparam enters when it is visited (visit_Locaparam in modulevisitor.py is misspelt and never called); genvars are constants.

### C74 Legal assignments, connections, gates and parameters are accepted – partial

Analysis of an assignment to signals, slices, words of memories or concatenations of them, of a whole sequence of such assignments, of the connections of an instance, of a gate and of the parameters of an instance and the declarations of its module ends without an exception whenever the text is legal: declared identifiers, constant bounds and indices on the left, ports and parameters that exist. The result has exactly the writes the text says, and can be worked on by the next statement.

*Proved:* `C74_expressions_partial`, `C74_assign_partial`, `C74_module_partial`, `C74_connections_partial`, `C74_gates_partial`, `C74_parameters_partial`, `C74_conditional_bound_refuted`, `C74_nested_condition_refuted`. False of the code (each refuted): a conditional operator in the bounds of a part select or in the index of a bit select raises NameError; an operator over a conditional whose condition is conditional raises AttributeError. Proved: with enough recursion depth the analysis ends with one result, which is the same for every larger depth, has the writes of C59 and C72 under every interpretation, and is again a store that further statements are accepted on, for right sides of any nesting whose bounds and bit indices are free of conditionals (indices of memories may have them), whose conditions are not conditional, without function calls, over declared identifiers; for left sides whose bounds the optimizer accepts (a parameter of the model) and, in concatenations, declared ranges that are names and constants under operators; nets that an earlier left side declares implicitly may be assigned again, but right sides that read them are not covered.

### C75 Legal always blocks with blocking assignments are accepted – partial

The dataflow analysis of an always block of blocking assignments, blocks, ifs and cases over declared signals ends without an exception whenever the block is legal, however often signals are assigned and read again under whatever conditions; a name that no signal has is found for every added signal; and the trees that result have the values the signals have after the block is executed.

*Proved:* `C75_blocks_accepted_partial`, `C75_blocks_right_partial`, `C75_empty_then_refuted`, `C75_assigned_bound_refuted`, `C75_system_call_refuted`. False of the code (each refuted): if (c) ; else x = 1; raises TypeError; a bound of a part select that reads a signal assigned conditionally in the block raises NameError; a system call such as $random is rejected with FormatError. Proved: with enough recursion depth the analysis ends with one result, the same for every larger depth, for blocks of any nesting, conditional operators and signals assigned in the block anywhere except in bounds of part selects (also in conditions, labels and indices of memories), any number of renamings and whatever names are taken; in the blocks that C55 covers the result has the values after execution. Missing: part selects and words of memories as targets, loops, and the values where C55 does not give them.

### C76 Legal always blocks with nonblocking assignments are accepted – partial

The dataflow analysis of the always blocks of a module that consist of nonblocking assignments, blocks, ifs and cases ends without an exception whenever the blocks are legal, however assignments, conditions, concatenations on the left and earlier assignments are combined, and for any number of blocks one after the other; and the tree of every assigned target has the value that executing the block schedules for it.

*Proved:* `C76_blocks_accepted_partial`, `C76_expressions_sorted`, `C76_all_blocks_accepted_partial`, `C76_blocks_right_partial`, `C76_empty_then_refuted`, `C76_conditional_bound_refuted`. False of the code (each refuted): if (c) ; else q <= 1; raises TypeError; a conditional operator in a bound of a part select raises NameError. Proved: with enough recursion depth the analysis of any list of legal blocks ends with one result, the same for every larger depth, with conditional operators everywhere but in bounds and indices of targets and bounds of part selects, with concatenations, parts and words on the left, and case items with any labels; no signal is added; in the blocks that C51 covers every assigned target has a tree with the scheduled value. Missing: loops, and the values where C51 does not give them.

### C77 A signal assigned in parts is read as its parts – partial

In an always block with blocking assignments to bits and parts of a signal, a later read of the signal gets, in the dataflow, a tree whose bits are, for every bit, the value assigned to it last, or the earlier value of the signal where nothing was assigned.

*Proved:* `C77_parts_read_partial`, `C77_unassigned_read`, `C77_overlap_refuted`, `C77_gap_refuted`, `C77_top_missing_refuted`, `C77_range_refuted`, `C77_same_msb_refuted`, `C77_sized_bound_refuted`. False of the code in six ways, each refuted with the tree that is read: a part assigned after the whole signal is lost; in a gap between parts the whole signal is inserted; bits above the highest part are missing; the bits below the declared lower bound are taken for a gap; an assignment with the same upper and another lower bound is recorded for the first one's bounds; bounds of different widths count as different parts. Proved: for every sequence of assignments to parts that meet each other nowhere or everywhere and together assign every bit of a signal [W-1:0], in any order, the tree read has W bits, each the one assigned last. Missing: reads under conditions other than those of the assignments, bounds that are no constants, words of arrays.

### C78 Words of memories assigned in a block are read back – partial

In an always block with blocking assignments to words of a memory, a later read of a word gets, in the dataflow, a tree whose value is the value assigned last to that word, or the earlier word where none was assigned to it, whatever values the index expressions have.

*Proved:* `C78_conditional_words_read_partial`, `C78_conditional_words_found`, `C78_words_read_partial`, `C78_different_words_read`, `C78_reused_index_refuted`, `C78_conditional_refuted`, `C78_part_of_word_refuted`, `C78_changed_index_refuted`, `C78_statements_read_partial`, `C78_loop_fills`. False of the code in four ways, each refuted with the tree that is read: an index expression that is used again keeps its old place, so another index that names the same word wins; an assignment under a condition hides the earlier word when the condition is false; an assignment to a part of a word is read as the whole word; the index of an assigned word is taken before, that of a read word after the blocking assignments to its signals. Proved: for every sequence of unconditional assignments to whole words, every read and every valuation in which no index expression that is used again shares the word that is read with another one, the tree read has the value assigned last; with different index expressions, for every valuation; and for assignments under any conditions with different index expressions, in every valuation in which the last assignment in the text that names the word is executed (and in no other, unless the tree's missing value happens to be right: C78_conditional_words_found gives the value in all valuations); the same for a read after any statement of such assignments, blocks, if, else and case in any nesting, whose value is what executing the statement leaves (so a memory filled by a loop of any length is read back). Missing: words assigned again under conditions, conditions over signals that the statement assigns, loops other than as their iterations (C65), delays in indices.

### C79 begin-end blocks do not change what a word of a memory or a part of a signal holds – partial

In an always block with blocking assignments to words of a memory or to parts of a signal, a read gets the same value in the dataflow however the statements are grouped in begin-end blocks: inside a block the assignments before it are seen, after a block those in it.

*Proved:* `C79_nested_reads_partial`, `C79_different_words_read_partial`, `C79_reads_answered`, `C79_outer_words_lost_refuted`, `C79_outer_parts_lost_refuted`. False of the code (refuted): a block that assigns one word hides, until its end, the words assigned before it began, and likewise for parts of a signal. Proved: in every nesting in which only one of the open blocks has assigned the memory where a word is read, all reads have the right values, in every valuation in which no index expression that is used again shares a word that is read with another one (C78); with different index expressions, in all valuations; and every read of every nesting gets one tree. Missing: conditions, parts of signals in nested blocks.
