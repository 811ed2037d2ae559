{"id": "C01", "title": "Printed expressions parse back to the same expression", "statement": "For every expression AST built from identifiers, unsigned constants, unary, binary and ternary operators, concatenation, replication, bit-select and part-select, generating Verilog text and parsing that text again yields an equal AST.", "quantifier": "all expression trees of any depth and shape", "why_tests_cant": "trees are unbounded; parenthesis elision depends on every parent/child operator pair at every depth", "anchors": ["pyverilog/ast_code_generator/codegen.py:visit_Operator,visit_UnaryOperator,visit_Cond,visit_Concat,del_paren", "pyverilog/vparser/parser.py:precedence,p_expression_*", "pyverilog/utils/op2mark.py"]}
{"id": "C02", "title": "Blank removal inside ranges does not change the expression", "statement": "Removing blanks from the printed bounds of a part-select or a vector width leaves the token sequence, and so the bound's meaning, unchanged.", "quantifier": "all bound expressions", "why_tests_cant": "any operator adjacency anywhere in an unbounded expression matters", "anchors": ["pyverilog/ast_code_generator/codegen.py:del_space,visit_Partselect,visit_Width"]}
{"id": "C03", "title": "Every operator is printed with its Verilog mark", "statement": "Code generation of any unary or binary operator node emits that operator's Verilog symbol between or before its operands.", "quantifier": "all operator classes and all operand trees", "why_tests_cant": "a test per operator does not cover operands; the table can be incomplete", "anchors": ["pyverilog/ast_code_generator/codegen.py:visit_Operator,visit_UnaryOperator,generic_visit", "pyverilog/utils/op2mark.py:operator_mark"]}
{"id": "C04", "title": "Integer literals evaluate to their numeric value", "statement": "Evaluating an integer literal (plain decimal, or sized/unsized/signed with base b, o, d or h, in either letter case, with underscores) yields the number its digits denote in that base.", "quantifier": "all literals of any length, base and size", "why_tests_cant": "unbounded digit strings; the code recovers the base by regular-expression search in a fixed order, so digits may be confused with base letters", "anchors": ["pyverilog/dataflow/dataflow.py:DFIntConst.eval"]}
{"id": "C05", "title": "Width of an integer literal", "statement": "The width of a sized literal is its declared size, whether or not it carries the signed marker, and 32 otherwise.", "quantifier": "all literals", "why_tests_cant": "unbounded strings", "anchors": ["pyverilog/dataflow/dataflow.py:DFIntConst.width"]}
{"id": "C06", "title": "Signal-name comparison is safe for dictionary use", "statement": "Comparing hierarchical signal names is reflexive, symmetric and agrees with hashing (equal names hash equal); a user-written dotted name finds the signal with those component names whatever its scope kinds; on names without wildcard components comparison is plain equality.", "quantifier": "all scope chains", "why_tests_cant": "all pairs and triples of names of any length", "anchors": ["pyverilog/utils/scope.py:ScopeLabel.__eq__,__hash__,ScopeChain.__eq__", "pyverilog/utils/util.py:toTermname"]}
{"id": "C07", "title": "Flattened names are unique", "statement": "Two different signals are given different flat names in generated code.", "quantifier": "all pairs of hierarchical names", "why_tests_cant": "pairs of unbounded strings", "anchors": ["pyverilog/utils/scope.py:ScopeChain.tocode", "pyverilog/utils/util.py:toFlatname"]}
{"id": "C08", "title": "Dotted names convert to hierarchical names and back", "statement": "Converting a dotted string to a hierarchical name and printing it gives the string back, and distinct strings give different names.", "quantifier": "all strings", "why_tests_cant": "unbounded strings", "anchors": ["pyverilog/utils/util.py:toTermname_str", "pyverilog/utils/scope.py:ScopeChain.__repr__"]}
{"id": "C09", "title": "Dataflow tree equality", "statement": "Equality of dataflow trees is reflexive, symmetric and compatible with hashing for every tree without delay nodes, and is structural: it never equates trees with different shape, operator, constant or width.", "quantifier": "all pairs of dataflow trees", "why_tests_cant": "unbounded trees", "anchors": ["pyverilog/dataflow/dataflow.py:__eq__ and __hash__ of the DF classes"]}
{"id": "C10", "title": "Constant folding preserves value and width", "statement": "Replacing parameters by their values and folding constant sub-expressions yields a tree with the same value and width as the original under every assignment of values to the remaining signals.", "quantifier": "all trees, all parameter tables, all signal valuations", "why_tests_cant": "unbounded trees and integers", "anchors": ["pyverilog/dataflow/optimizer.py:optimizeConstant,evalOperator,_evalOperator,evalConcat,evalPartselect"]}
{"id": "C11", "title": "Constant expressions fold completely", "statement": "A tree whose leaves are all defined integer constants or known parameters and whose operators are supported folds to a single value node.", "quantifier": "all constant trees", "why_tests_cant": "unbounded trees", "anchors": ["pyverilog/dataflow/optimizer.py:optimizeConstant"]}
{"id": "C12", "title": "Constant division is exact", "statement": "Folding a division of two integer constants yields the integer quotient truncated toward zero.", "quantifier": "all pairs of integers with non-zero divisor", "why_tests_cant": "all integers: the code divides through binary floating point", "anchors": ["pyverilog/dataflow/optimizer.py:_evalOperator 'Divide'"]}
{"id": "C13", "title": "Hierarchy optimisation preserves values", "statement": "Simplifying a tree (identical operands, operations with zero, constant branches, equal branch arms, power-of-two strength reduction) does not change its value under any valuation.", "quantifier": "all trees and valuations", "why_tests_cant": "unbounded trees; dozens of rewrite rules interact", "anchors": ["pyverilog/dataflow/optimizer.py:optimizeHierarchy,mergeIdenticalNodes,mergeStaticNodes,replaceOperator"]}
{"id": "C14", "title": "Hierarchy optimisation preserves truth of conditions", "statement": "Simplifying a condition does not change whether it is true (non-zero), under any valuation of the signals.", "quantifier": "all condition trees and valuations", "why_tests_cant": "unbounded trees", "anchors": ["pyverilog/dataflow/optimizer.py:optimizeHierarchy,mergeStaticNodes,mergeLand,mergeLor"]}
{"id": "C15", "title": "Logical and/or chains are merged soundly", "statement": "Flattening, de-duplicating, contradiction-detecting and sorting a chain of logical ands (ors) leaves its truth value unchanged.", "quantifier": "all chains of any length and valuations", "why_tests_cant": "unbounded chains", "anchors": ["pyverilog/dataflow/optimizer.py:mergeLand,_mergeLand,mergeLor,_mergeLor"]}
{"id": "C16", "title": "Slicing a concatenation selects those bits", "statement": "Taking bits msb..lsb of a concatenation yields a tree whose value is exactly those bits of the concatenation's value.", "quantifier": "all concatenations, all bit ranges", "why_tests_cant": "unbounded lists and widths, all alignments", "anchors": ["pyverilog/dataflow/optimizer.py:takePart,takePoint"]}
{"id": "C17", "title": "Concatenation merging preserves bits", "statement": "Merging adjacent constants, undefined parts, adjacent slices of one signal and branches with a common condition inside a concatenation leaves its value and width unchanged.", "quantifier": "all concatenations", "why_tests_cant": "unbounded lists", "anchors": ["pyverilog/dataflow/optimizer.py:mergeConcat,mergeConcat_constant,mergeConcat_undefined,mergeConcat_partselect,mergeConcat_branch"]}
{"id": "C18", "title": "Reordering preserves meaning", "statement": "Moving conditional branches to the top of a tree leaves its value unchanged under every valuation.", "quantifier": "all trees and valuations", "why_tests_cant": "unbounded nesting", "anchors": ["pyverilog/dataflow/reorder.py:reorder,insert*"]}
{"id": "C19", "title": "Reordering reaches branch-first normal form", "statement": "After reordering, no branch occurs below an operator, concatenation, slice or index, nor in a branch condition; reordering again changes nothing.", "quantifier": "all trees", "why_tests_cant": "unbounded nesting", "anchors": ["pyverilog/dataflow/reorder.py"]}
{"id": "C20", "title": "Undefined parts are replaced by the signal itself", "statement": "After undefined-replacement no undefined or missing part remains, every defined part is untouched, replacement is idempotent, and the value equals the original's with the named signal's old value in place of each undefined part.", "quantifier": "all trees", "why_tests_cant": "unbounded trees", "anchors": ["pyverilog/dataflow/replace.py:replaceUndefined"]}
{"id": "C21", "title": "Path splitting is exhaustive and exclusive", "statement": "Splitting a branch tree lists every path once: under each valuation at most one listed condition list holds, it holds exactly when the tree selects a present leaf, and its leaf is the one the tree selects.", "quantifier": "all branch trees and valuations", "why_tests_cant": "unbounded trees; the result is a dictionary keyed by condition lists, where collisions could lose paths", "anchors": ["pyverilog/controlflow/splitter.py:split"]}
{"id": "C22", "title": "State-range intersection is exact", "statement": "Intersecting two lists of disjoint inclusive ranges yields ranges containing exactly the common integers, and the procedure terminates.", "quantifier": "all range lists and integers", "why_tests_cant": "unbounded lists and integers", "anchors": ["pyverilog/controlflow/transition.py:_and_range_pairs", "pyverilog/controlflow/active_range.py:ActiveCondition._and_range_pairs"]}
{"id": "C23", "title": "State-range complement is exact", "statement": "Complementing a list of ranges within [0,max] yields ranges containing exactly the remaining integers of [0,max].", "quantifier": "all range lists and bounds", "why_tests_cant": "unbounded lists and integers", "anchors": ["pyverilog/controlflow/transition.py:_not_range_pairs", "pyverilog/controlflow/active_range.py:ActiveTerm._inv_range_pairs"]}
{"id": "C24", "title": "Transition conditions are inferred exactly", "statement": "The states and residual condition inferred from a list of conditions on a state register hold for a state and input valuation exactly when all the conditions hold.", "quantifier": "all condition lists, register widths, states and valuations", "why_tests_cant": "unbounded condition trees", "anchors": ["pyverilog/controlflow/transition.py:walkCondlist,walkCond,andStateNode,notStateNode"]}
{"id": "C25", "title": "Reported FSM loops are real", "statement": "Every loop reported for a state machine is a simple cycle of its transition graph, listed from its least state.", "quantifier": "all state machines", "why_tests_cant": "unbounded graphs", "anchors": ["pyverilog/controlflow/controlflow_analyzer.py:FiniteStateMachine.get_loop,get_looppath,_looppath,rotate"]}
{"id": "C26", "title": "All FSM loops are reported", "statement": "Every simple cycle of the state machine is reported; in particular the per-state search finds every simple cycle through that state of up to 51 states.", "quantifier": "all state machines", "why_tests_cant": "unbounded graphs", "anchors": ["pyverilog/controlflow/controlflow_analyzer.py:get_loop,_looppath"]}
{"id": "C27", "title": "FSM resolution preserves transitions", "statement": "Merging the conditions of parallel transitions keeps, for every state, target and valuation, whether a transition to that target is enabled, and leaves at most one entry per source and target.", "quantifier": "all machines and valuations", "why_tests_cant": "unbounded tables", "anchors": ["pyverilog/controlflow/controlflow_analyzer.py:FiniteStateMachine.add,construct,resolve"]}
{"id": "C28", "title": "Merged assignments: the later assignment wins", "statement": "Merging two assignment trees for one bit range gives, for every valuation, the later tree's value where it assigns and the earlier tree's value otherwise.", "quantifier": "all pairs of trees and valuations", "why_tests_cant": "unbounded trees", "anchors": ["pyverilog/dataflow/merge.py:mergeTree,appendTail"]}
{"id": "C29", "title": "Partial assignments are placed at their bit positions", "statement": "The merged tree of assignments to disjoint slices has each slice's value at its position, and gaps have the gap's width.", "quantifier": "all sets of slices", "why_tests_cant": "unbounded sets and widths", "anchors": ["pyverilog/dataflow/merge.py:getMergedTree"]}
{"id": "C30", "title": "Overlap analysis of slices", "statement": "The matched and unmatched sub-ranges computed for a new slice against earlier slices together cover exactly the new slice.", "quantifier": "all slice histories", "why_tests_cant": "unbounded histories", "anchors": ["pyverilog/dataflow/merge.py:matchedRange,unmatchedRange,splitPositions"]}
{"id": "C31", "title": "Splitting an assignment preserves bits", "statement": "Splitting an assignment at a bit position yields two assignments to adjacent ranges whose values are the corresponding bits of the original value.", "quantifier": "all assignments and positions", "why_tests_cant": "all integers", "anchors": ["pyverilog/dataflow/merge.py:splitBind"]}
{"id": "C32", "title": "Signal expansion terminates", "statement": "Following definitions of signals backwards terminates on every design, including combinational and sequential cycles.", "quantifier": "all designs", "why_tests_cant": "unbounded graphs with cycles", "anchors": ["pyverilog/dataflow/walker.py:walkTree"]}
{"id": "C33", "title": "Signal expansion preserves meaning", "statement": "The expanded tree has the same value as the original under every valuation that satisfies the design's combinational definitions.", "quantifier": "all designs and consistent valuations", "why_tests_cant": "unbounded designs", "anchors": ["pyverilog/dataflow/walker.py:walkTree"]}
{"id": "C34", "title": "Subset extraction is exactly the fan-in", "statement": "The signals and assignments extracted for a set of targets are exactly those reachable backwards from the targets.", "quantifier": "all designs and targets", "why_tests_cant": "unbounded cyclic graphs", "anchors": ["pyverilog/dataflow/subset.py:getBindSubset,getBindSourceSubset", "pyverilog/dataflow/merge.py:getTreeSources"]}
{"id": "C35", "title": "Subset extraction terminates", "statement": "Extracting the subset for targets terminates on every design.", "quantifier": "all designs", "why_tests_cant": "unbounded cyclic graphs", "anchors": ["pyverilog/dataflow/subset.py:getBindSubset"]}
{"id": "C36", "title": "Dataflow store keeps one entry per slice", "statement": "After any sequence of additions, each signal has at most one assignment per (msb, lsb, index) slice holding the last tree added for it, in order of first addition; declarations accumulate types and keep the first range given.", "quantifier": "all histories of operations", "why_tests_cant": "all operation sequences", "anchors": ["pyverilog/dataflow/dataflow.py:DataFlow.addTerm,setTerm,addBind,setBind"]}
{"id": "C37", "title": "Parameters are resolved", "statement": "Every parameter whose definition is constant, given constant values for the parameters it uses, is resolved to its value; parameters are never resolved to a wrong value.", "quantifier": "all parameter dependency graphs", "why_tests_cant": "unbounded dependency chains", "anchors": ["pyverilog/dataflow/optimizer.py:VerilogDataflowOptimizer.resolveConstant"]}
{"id": "C38", "title": "Scope lookup finds the nearest enclosing definition", "statement": "Looking a constant or signal up from a scope returns the definition in the nearest enclosing scope that has one, not crossing the enclosing module instance.", "quantifier": "all scope tables built by any sequence of scope openings", "why_tests_cant": "all histories", "anchors": ["pyverilog/dataflow/visit.py:FrameTable.searchConstantDefinition,searchSignalDefinition,addFrame"]}
{"id": "C39", "title": "Generated scope labels are fresh", "statement": "Successive labels requested for anonymous blocks are pairwise different.", "quantifier": "all request sequences", "why_tests_cant": "all histories", "anchors": ["pyverilog/dataflow/visit.py:Labels.get,Label.get"]}
{"id": "C40", "title": "Assignments in a block replace only the same slice", "statement": "Recording an assignment to a slice in a procedural block replaces an earlier assignment to the same slice only.", "quantifier": "all assignment sequences", "why_tests_cant": "all histories", "anchors": ["pyverilog/dataflow/visit.py:Frame.setBlockingAssign,addNonblockingAssign"]}
{"id": "C41", "title": "Preprocessor inputs and clean-up", "statement": "All sources are handed to the preprocessor, in the given order, each -I/-D option is passed, and every temporary file is deleted afterwards.", "quantifier": "all source lists", "why_tests_cant": "all lists; crash points between creation and deletion", "anchors": ["pyverilog/vparser/preprocessor.py:VerilogPreprocessor,preprocess"]}
{"id": "C42", "title": "AST equality", "statement": "AST equality is reflexive, symmetric and compatible with hashing, and equal nodes have equal children.", "quantifier": "all pairs of AST nodes", "why_tests_cant": "unbounded trees", "anchors": ["pyverilog/vparser/ast.py:Node.__eq__,__hash__"]}
{"id": "C43", "title": "Identifier listing and replacement", "statement": "Listing the identifiers of a tree after renaming gives the renamed list of the identifiers of the original; nothing else changes.", "quantifier": "all trees and renamings", "why_tests_cant": "unbounded trees", "anchors": ["pyverilog/utils/identifierreplace.py", "pyverilog/utils/identifiervisitor.py"]}
{"id": "C44", "title": "Graph node names are unique", "statement": "Every non-shared node added to a generated graph gets a name never used before in that graph.", "quantifier": "all generation histories", "why_tests_cant": "all histories and labels", "anchors": ["pyverilog/dataflow/graphgen.py:rename,add_RenamedDF"]}
{"id": "C45", "title": "Dataflow trees print to parseable, equivalent code", "statement": "The text printed for a dataflow tree parses back to an expression with the same structure.", "quantifier": "all dataflow trees", "why_tests_cant": "unbounded trees", "anchors": ["pyverilog/dataflow/dataflow.py:tocode"]}
{"id": "C46", "title": "Comparison inference is exact", "statement": "The value interval inferred from a comparison with a constant contains exactly the unsigned values satisfying it.", "quantifier": "all operators, constants and values", "why_tests_cant": "all integers", "anchors": ["pyverilog/utils/inference.py:infer"]}
{"id": "C47", "title": "Active-condition ranges are exact", "statement": "Conjunction and negation of active-range terms denote intersection and complement, and dropping resolved terms does not change the condition.", "quantifier": "all terms and values", "why_tests_cant": "all integers", "anchors": ["pyverilog/controlflow/active_range.py"]}
{"id": "C48", "title": "Merging dictionaries of lists", "statement": "Merging two dictionaries of lists yields for each key the first list followed by the new elements of the second, without duplicates being introduced.", "quantifier": "all dictionaries", "why_tests_cant": "unbounded dictionaries", "anchors": ["pyverilog/utils/util.py:dictlistmerge"]}
{"id": "C49", "title": "Line numbers and directives", "statement": "The line number attached to every token is one plus the number of newlines before it, through comments, directives and blank lines.", "quantifier": "all source texts", "why_tests_cant": "unbounded texts", "anchors": ["pyverilog/vparser/lexer.py"]}
{"id": "C50", "title": "Signal sources are complete", "statement": "The set of source signals of a tree contains exactly the signals occurring in it, and the tree's value depends on no other signal.", "quantifier": "all trees and valuations", "why_tests_cant": "unbounded trees", "anchors": ["pyverilog/dataflow/merge.py:getSources,getTreeSources"]}
{"id": "C51", "title": "Dataflow of nonblocking assignments in an always block", "statement": "The tree the analyzer builds for a target assigned by nonblocking assignments under any nesting of begin/end, if and case in an always block means, under every valuation, the value the block schedules for it (last assignment on the executed path wins, nothing if none is executed).", "quantifier": "all statements, targets and valuations", "why_tests_cant": "unbounded nesting and statement lists; the tree is grown by successive insertions", "anchors": ["pyverilog/dataflow/bindvisitor.py:BindVisitor.makeBind,diffBranchTree,makeBranchTree,appendBranchTree,copyPreviousNonblockingAssign,visit_IfStatement,_case,visit_Block", "pyverilog/dataflow/visit.py:Frame.addNonblockingAssign"]}
{"id": "C52", "title": "An assignment gets the clock and reset of the always block around it", "statement": "The clock and reset recorded with an assignment are those of the innermost enclosing always block; inside a function or task call, or outside always blocks, there is none.", "quantifier": "all histories of opened, entered and left scopes", "why_tests_cant": "unbounded nesting and histories", "anchors": ["pyverilog/dataflow/visit.py:FrameTable.getAlwaysStatus", "pyverilog/dataflow/bindvisitor.py:visit_NonblockingSubstitution"]}
{"id": "C53", "title": "The width computed for an expression is its width", "statement": "Optimizer.getWidth(tree) returns the bit width the tree has by its declarations and operators: the declared width of a signal or array element, 1 for bit selects, comparisons, reductions and logical operators, the sum for concatenations, the wider arm of a conditional, the left operand for shifts, the widest operand otherwise.", "quantifier": "all dataflow trees and declarations", "why_tests_cant": "trees are unbounded", "anchors": ["pyverilog/dataflow/optimizer.py:VerilogOptimizer.getWidth"]}
{"id": "C54", "title": "The dataflow tree of an expression means the expression", "statement": "The tree the dataflow analyzer makes for a right-hand side or condition has, for every value of the signals and every meaning of the operators, the value of the Verilog expression it was made from: conditional operators below other operators are moved up without changing the value, v[p] is an element of an array and a one-bit slice of anything else, {n{v}} repeats v n times, $signed and $unsigned keep the value; and such a tree is made for every expression over declared names.", "quantifier": "all expressions, scopes, interpretations of signals and operators", "why_tests_cant": "expressions nest without bound", "anchors": ["pyverilog/dataflow/bindvisitor.py:BindVisitor.makeDFTree", "pyverilog/dataflow/reorder.py:insertOp", "pyverilog/dataflow/reorder.py:insertUnaryOp", "pyverilog/dataflow/reorder.py:insertConcat", "pyverilog/dataflow/reorder.py:insertPartselect"]}
{"id": "C55", "title": "Blocking assignments in an always block take effect in order", "statement": "After the dataflow analysis of an always block with blocking assignments, the tree bound to every signal the block assigns has, for every value of the signals, the value the signal has after the block is executed: statements take effect one after the other, a read of an assigned signal gives its newest value, of if and case only the chosen arm is executed, and a signal not assigned on the chosen way keeps its old value. The renamed signals (_rn0_x, ...) added for this have exactly one value that fits their trees. Trees of other signals are kept.", "quantifier": "all always blocks of blocking assignments to whole signals, blocks, ifs and cases; all values of signals and meanings of operators", "why_tests_cant": "blocks nest without bound and the claim is about every valuation", "anchors": ["pyverilog/dataflow/bindvisitor.py:BindVisitor.addBind", "pyverilog/dataflow/bindvisitor.py:BindVisitor.resolveBlockingAssign", "pyverilog/dataflow/bindvisitor.py:BindVisitor.getRenamedDst", "pyverilog/dataflow/bindvisitor.py:BindVisitor.copyBlockingAssigns", "pyverilog/dataflow/visit.py:Frame.setBlockingAssign", "pyverilog/dataflow/visit.py:FrameTable.getBlockingAssign"]}
{"id": "C56", "title": "Printed statements, always and initial blocks read back as the same tree", "statement": "Every statement, always block and initial block the parser delivers is printed by the code generator as a text that the parser reads as the same tree again (indentation, line breaks, delays, event controls, else branches, for heads and case labels included), and two different statements are never printed the same.", "quantifier": "all statement trees, nested without bound, over all expressions", "why_tests_cant": "statements and expressions nest without bound; printing decides about parentheses, blanks and line breaks from the text of the parts", "anchors": ["pyverilog/ast_code_generator/codegen.py:ASTCodeGenerator", "pyverilog/ast_code_generator/template/*.txt", "pyverilog/vparser/parser.py:VerilogParser (p_basic_statement and below, p_senslist, p_always, p_initial)"]}
{"id": "C57", "title": "The instances listed for a design are the instances it has", "statement": "For a design of modules with parameters, localparams, instances (with parameters by name or by position, and arrays of instances) and generate constructs (regions, named and unnamed blocks, if, for), the analyser's list of instances holds exactly the instances the elaborated design has: every instance in the chosen branch and in each iteration of each loop, with the parameters it was given, once each, in order, under its own path, with its module.", "quantifier": "all designs: any number of modules and instances, any nesting of instances and generate constructs, any number of iterations, all constant expressions", "why_tests_cant": "hierarchies, loops and parameter values are unbounded, and what an instance contains depends on values handed down through every level above it", "anchors": ["pyverilog/dataflow/modulevisitor.py:ModuleVisitor", "pyverilog/dataflow/signalvisitor.py:SignalVisitor", "pyverilog/dataflow/visit.py:FrameTable", "pyverilog/dataflow/dataflow_analyzer.py:getInstances"]}
{"id": "C58", "title": "Expressions are read with Verilog's precedence and associativity", "statement": "The tree the parser delivers for an expression is the one the Verilog grammar gives it: unary operators bind most strongly, then **, then * / %, + -, shifts, comparisons, equalities, &, ^ and ~^, |, &&, ||, and ?: least; binary operators group to the left, ?: to the right; parentheses, selects, slices (also +: and -:), concatenations, repetitions and calls take what their brackets enclose. Texts outside the grammar are not accepted.", "quantifier": "all token sequences and texts, of any length and nesting depth", "why_tests_cant": "operators combine in unboundedly many ways, and a wrong row of the precedence table or a wrong conflict resolution shows only for particular neighbouring operators at particular depths", "anchors": ["pyverilog/vparser/parser.py:VerilogParser.precedence", "pyverilog/vparser/parser.py:p_expression_*", "pyverilog/vparser/parser.py:p_partselect_plus", "pyverilog/vparser/lexer.py:VerilogLexer"]}
{"id": "C59", "title": "Assignments, port connections and gates drive what they say", "statement": "In the dataflow, a continuous assignment gives its left side the value of its right side: a signal, a slice, a word of a memory or a slice of such; the members of a concatenation (nested or not) take the value apart, the last one taking the lowest bits, each as many as its range or declaration has. Every input port of an instance takes the value of its argument in the scope of the parent, every argument of an output port takes the value of the port, inout ports both, matched by name or by position; open ports take nothing. A gate's output takes the logic function of its inputs. Undeclared identifiers on left sides become one-bit nets of the default net type. Nothing else changes.", "quantifier": "all dataflows built so far, all scopes, left sides and expressions of any nesting, any number of ports, every valuation of the signals", "why_tests_cant": "offsets in a concatenation depend on all members to the right, names on all enclosing scopes, and what must stay unchanged is everything else in the store", "anchors": ["pyverilog/dataflow/bindvisitor.py:BindVisitor.getDestinations", "pyverilog/dataflow/bindvisitor.py:BindVisitor.addInstancePortBind", "pyverilog/dataflow/bindvisitor.py:BindVisitor._visit_Instance_primitive", "pyverilog/dataflow/bindvisitor.py:BindVisitor.addDataflow", "pyverilog/dataflow/visit.py:primitives"]}
{"id": "C60", "title": "Extracted state machines are the register's transitions", "statement": "For every machine getFiniteStateMachines() reports for a register, whenever the conditions on reset allow it: if the machine has a transition from state s to state d whose condition holds of the current inputs, the register holding s takes the value d at the next clock, or so does the register that feeds it through the reported number of copies; and whenever the register's next value is the constant d, the machine has such a transition. Exactly the conditions on reset signals are left out.", "quantifier": "all decision trees of any depth, all states of any width, all inputs, all names", "why_tests_cant": "each transition combines the conditions of a whole route of the tree, and two routes can only be confused, or a state range miscounted, for particular combinations of conditions", "anchors": ["pyverilog/controlflow/controlflow_analyzer.py:VerilogControlflowAnalyzer.getFiniteStateMachines", "pyverilog/controlflow/controlflow_analyzer.py:VerilogControlflowAnalyzer.getFuncdict", "pyverilog/controlflow/splitter.py:remove_reset_condition", "pyverilog/utils/signaltype.py:isReset", "pyverilog/dataflow/dataflow.py:tostr"]}
{"id": "C61", "title": "A whole source file printed by the generator is read back", "statement": "The text the code generator prints for a source file (modules with parameters, ports, declarations, assignments, always and initial blocks, instances, generate constructs, functions, tasks, pragmas) is accepted by the parser and gives the same tree, up to declarations of several names becoming one declaration each (and a declaration with a value a declaration and an assignment). Printing and reading a second time changes nothing any more, so files with different trees have different texts.", "quantifier": "all source trees the parser can deliver: any number of modules and items, any nesting of generate constructs, statements and expressions, all identifiers (also escaped ones) and numbers", "why_tests_cant": "whether two neighbouring pieces of text stay apart, or which if an else belongs to, depends on every combination of neighbours at every depth", "anchors": ["pyverilog/ast_code_generator/codegen.py:ASTCodeGenerator", "pyverilog/ast_code_generator/template", "pyverilog/vparser/parser.py:VerilogParser.p_source_text", "pyverilog/vparser/parser.py:VerilogParser.p_standard_item", "pyverilog/vparser/parser.py:VerilogParser.p_generate_items", "pyverilog/vparser/parser.py:VerilogParser.create_decl"]}
{"id": "C62", "title": "An always block is clocked by the clock of its sensitivity list", "statement": "For always blocks, the dataflow analysis tells clocked from combinational blocks by the sensitivity list: an edge list gives a clocked block with the clock's signal, edge and bit and the reset's, a list of changes or * gives a combinational block; a list that names a clock or reset together with other signals is refused with FormatError, and no other list is.", "quantifier": "all sensitivity lists of any length, with any names, selects and indices, in any scope of any declared signals, and all texts of always blocks", "why_tests_cant": "clocks and resets are recognised by words inside names, in any case and at any place, the last of several wins, and the visible signal depends on the whole nesting of scopes", "anchors": ["pyverilog/dataflow/bindvisitor.py:BindVisitor._createAlwaysinfo", "pyverilog/dataflow/bindvisitor.py:BindVisitor._get_signal_name", "pyverilog/dataflow/bindvisitor.py:BindVisitor.searchTerminal", "pyverilog/utils/signaltype.py:isClock", "pyverilog/utils/signaltype.py:isReset", "pyverilog/dataflow/visit.py:AlwaysInfo"]}
{"id": "C63", "title": "Generated code is the Verilog of the dataflow graph", "statement": "The code generator (generateCode, Bind.tocode, Term.tocode) produces text that the project's own parser reads back as what the dataflow graph says: each parameter, assignment, clocked block (with its clock, reset and edges) and combinational block as that item with the same target and the same expressions and conditions, a missing arm meaning that the target keeps its value; each signal as a declaration with its direction, kind, width and dimensions, a port only in the top module; and a whole design as one module with the clock, reset and enable inputs, the ports of the top module and exactly these declarations and items. Different meanings give different texts.", "quantifier": "all dataflow trees of any depth, all bindings with any slices, all signal tables and binding tables, all orders in which sets are visited, all names and indentations", "why_tests_cant": "the text is assembled by string concatenation in several places, so readability depends on every combination of neighbouring pieces, and the order of the items is the arbitrary order of sets", "anchors": ["pyverilog/dataflow/dataflow.py:Bind.tocode", "pyverilog/dataflow/dataflow.py:Term.tocode", "pyverilog/dataflow/dataflow.py:DFBranch._tocode_always", "pyverilog/dataflow/dataflow_codegen.py:VerilogCodeGenerator", "pyverilog/dataflow/subset.py:VerilogSubset.getEntire", "pyverilog/dataflow/merge.py:VerilogDataflowMerge.getAssignType"]}
{"id": "C64", "title": "Activity reports say when a signal is active, changes or keeps its value", "statement": "The active-condition analysis of a signal reports, for each register of a state machine, exactly the states and input conditions under which - reset aside - the signal takes an active value; and the range analysis reports exactly the values of the inputs and registers for which the signal takes a constant that compares as asked, is assigned something else than itself (with the value assigned), or keeps its value.", "quantifier": "all dataflow trees of any depth, all sets of registers and widths, all comparisons, all states, inputs and interpretations of the operators, all sound simplifiers", "why_tests_cant": "a report is a condition that must agree with the signal's behaviour in every state and for all values of all inputs, over all nestings of conditions", "anchors": ["pyverilog/controlflow/active_analyzer.py:VerilogActiveAnalyzer.getActiveConditions", "pyverilog/controlflow/active_analyzer.py:VerilogActiveAnalyzer.getActiveConditions_fsm", "pyverilog/controlflow/active_range.py:VerilogActiveAnalyzer.getActiveConditions", "pyverilog/controlflow/active_range.py:VerilogActiveAnalyzer.getChangedConditions", "pyverilog/controlflow/active_range.py:VerilogActiveAnalyzer.getUnchangedConditions", "pyverilog/controlflow/active_range.py:VerilogActiveAnalyzer.getChangedConditionsWithAssignments"]}
{"id": "C65", "title": "For and while loops in always blocks are unrolled as they run", "statement": "Analysing an always block with for and while loops gives exactly the trees, added signals and numbering that analysing some unrolled form of the block (each loop written out for a number of rounds) gives; if the analysis succeeds, executing the block ends, and every signal's tree has the value the signal has after executing the block once, for all values of the signals.", "quantifier": "all statements of any nesting of blocks, ifs, cases, for and while loops with blocking assignments, all values of signals, all interpretations in which constant arithmetic is that of the integers, all parameter tables, all bounds on the number of rounds", "why_tests_cant": "the number of rounds is decided by a table of constants that is updated along the analysis and not along the execution, so the agreement depends on every combination of branches, loops and earlier assignments", "anchors": ["pyverilog/dataflow/bindvisitor.py:BindVisitor.visit_ForStatement", "pyverilog/dataflow/bindvisitor.py:BindVisitor.visit_WhileStatement", "pyverilog/dataflow/bindvisitor.py:BindVisitor.addDataflow_blocking", "pyverilog/dataflow/bindvisitor.py:BindVisitor.setRenamedTree", "pyverilog/dataflow/optimizer.py:VerilogOptimizer.setConstant"]}
{"id": "C66", "title": "Hierarchical names denote the signals of the scopes they name", "statement": "A hierarchical name a.b[i].x read in a module instance is resolved to the signal x of a scope inside that instance whose named scopes (instances, named blocks) are a, b and whose enclosing loop round has index i, with any unnamed layers in between; if exactly one such scope exists and declares x it is found, and if there is none an exception is raised and no signal is taken.", "quantifier": "all histories of opening scopes and adding declarations, all tables of signals, all names of any length with any indices, all places the name may be written", "why_tests_cant": "the search goes through a tree of scopes of any depth with hidden layers in between, tries the branches in order and rebuilds the found name from pieces with wildcard labels, so soundness and completeness depend on the whole shape of the scope tree", "anchors": ["pyverilog/dataflow/visit.py:FrameTable.searchMatchedScopeChain", "pyverilog/dataflow/bindvisitor.py:BindVisitor.searchScopeTerminal", "pyverilog/dataflow/bindvisitor.py:BindVisitor.toScopeChain", "pyverilog/dataflow/bindvisitor.py:BindVisitor.getModuleScopeChain"]}
{"id": "C67", "title": "Function calls in continuous assignments have the values the functions return", "statement": "After the analysis of assign y = e, where e contains calls of the module's functions nested in any way, the tree of y evaluates to a value of e in which each call has the value the function's body leaves in the function's name when it runs with the argument values in its inputs and the module's signals around it, provided the signals added for the call have the values of their trees; the trees of all other signals stay as they were, calls of unknown functions and calls with a wrong number of arguments are rejected.", "quantifier": "all sets of functions with bodies of blocks, if and case statements and blocking assignments, all expressions, all depths of nested calls, all states of the analysis before, all interpretations of operators and signal values", "why_tests_cant": "each call gets fresh signals in a scope inside the caller's, the body is turned into conditional trees with renamed signals and merged at the end of each branch, and names are looked up through the scopes of the callers: whether the right values come out depends on the order of reads and writes in bodies of any shape and on which names callers own", "anchors": ["pyverilog/dataflow/bindvisitor.py:BindVisitor.makeDFTree", "pyverilog/dataflow/bindvisitor.py:BindVisitor.addDataflow", "pyverilog/dataflow/bindvisitor.py:BindVisitor.addDataflow_blocking", "pyverilog/dataflow/bindvisitor.py:BindVisitor.searchTerminal", "pyverilog/dataflow/bindvisitor.py:BindVisitor.searchFunction", "pyverilog/dataflow/bindvisitor.py:BindVisitor.setDataflow_rename", "pyverilog/dataflow/bindvisitor.py:BindVisitor.visit_IfStatement", "pyverilog/dataflow/bindvisitor.py:BindVisitor.visit_CaseStatement"]}
{"id": "C68", "title": "Querying, splitting and printing the range conditions the control-flow analysis reports", "statement": "For a condition reported by the range analysis (for each of some signals, a list of value ranges): satisfy(values) answers, without exceptions, whether each signal that is given a value and restricted by the condition has a value in its ranges, hence, with values for all signals, whether the condition holds; split(signal) gives exactly the restrictions of that signal and exactly the others, which together say what the condition says; include(signal) tells whether there is any; and tocode() is a Verilog expression that is true exactly when the condition holds.", "quantifier": "all conditions with any number of signals and ranges, all values, all signals", "why_tests_cant": "ranges may be unsorted, overlap or touch, have no upper bound or none at all, and the text is built by concatenation and cutting off characters: that the text parses, groups as intended and has the right truth value must hold for every condition and every valuation", "anchors": ["pyverilog/controlflow/active_range.py:ActiveTerm.satisfy", "pyverilog/controlflow/active_range.py:ActiveTerm.tocode", "pyverilog/controlflow/active_range.py:ActiveTerm.include", "pyverilog/controlflow/active_range.py:ActiveCondition.satisfy", "pyverilog/controlflow/active_range.py:ActiveCondition.split", "pyverilog/controlflow/active_range.py:ActiveCondition.include", "pyverilog/controlflow/active_range.py:ActiveCondition.tocode", "pyverilog/controlflow/active_range.py:ActiveConditionList.include"]}
{"id": "C69", "title": "Constants of modules and instances in the dataflow pass", "statement": "When the analysis that builds the dataflow enters a scope, each parameter and localparam declared there has the value of its expression, in which names from the scopes around and constants declared before can be used; when it enters an instance, parameters given by name or position have the given values, all other constants the values that follow from these, and no constant of another scope changes; generate-if conditions in the scope are decided by these values.", "quantifier": "all constant declarations of any number, all constant expressions, all parameter lists of instances, all scopes, all states of the tables before", "why_tests_cant": "constants are computed in repeated passes over a table, before and after the parameters of the instance are set, and looked up through enclosing scopes: whether the right values come out depends on the order of declarations and on which constants depend on which, in declarations and expressions of any size", "anchors": ["pyverilog/dataflow/bindvisitor.py:BindVisitor.copyFrameInfo", "pyverilog/dataflow/bindvisitor.py:BindVisitor._visit_Instance_body", "pyverilog/dataflow/bindvisitor.py:BindVisitor.stackInstanceFrame", "pyverilog/dataflow/bindvisitor.py:BindVisitor.makeConstantTerm", "pyverilog/dataflow/bindvisitor.py:BindVisitor.searchTerminal", "pyverilog/dataflow/bindvisitor.py:BindVisitor.visit_IfStatement"]}
{"id": "C70", "title": "Listing and drawing finite state machines", "statement": "For a state machine found by the control-flow analysis: label_range() is the smallest and largest state; view() prints one line per transition with the state it starts in (or any), its condition as Verilog text and its target, from which the transition can be read back, and machines with the same listing have the same transitions with the same conditions; tograph() draws exactly the states as nodes and one edge between two states exactly if a transition leads from one to the other, labelled with the condition.", "quantifier": "all machines with any number of states, transitions and transitions from any state, all conditions", "why_tests_cant": "lines are concatenated from texts of arbitrary conditions without separators that cannot occur in them, edges between the same states fall together in the graph and labels are overwritten: that nothing is lost or ambiguous must hold for every machine", "anchors": ["pyverilog/controlflow/controlflow_analyzer.py:FiniteStateMachine.label_range", "pyverilog/controlflow/controlflow_analyzer.py:FiniteStateMachine.view", "pyverilog/controlflow/controlflow_analyzer.py:FiniteStateMachine.tograph"]}
{"id": "C71", "title": "Range conditions as dataflow trees", "statement": "toTree() of a condition reported by the range analysis is a dataflow tree that is true of the values of the signals exactly when the condition holds.", "quantifier": "all conditions with any number of signals and ranges, with and without bounds, all values", "why_tests_cant": "the tree is put together range by range and signal by signal with special cases for the first one and for missing bounds; that it has the right truth value must hold for all conditions and valuations", "anchors": ["pyverilog/controlflow/active_range.py:ActiveTerm.toTree", "pyverilog/controlflow/active_range.py:ActiveCondition.toTree"]}
{"id": "C72", "title": "Parameters of instances in the dataflow graph", "statement": "In the dataflow graph every parameter, localparam and supply net of every instance has exactly one value: a parameter given by name or by position has the value of the argument where the instance is, every other name the value of its declaration in the module, and both fit the declared range ([31:0] for parameters without one). Values and declarations of all other signals stay as they are. Only parameters of the module can be given, and a wrong name is reported as such.", "quantifier": "all modules with any number of declarations, all parameter lists by name and by position, all expressions for values and ranges, all graphs built so far, all interpretations of signals and operators", "why_tests_cant": "the value given is entered before the module is visited, and the visit must find and respect it; names are looked up in two different scopes; that no other signal changes concerns the whole graph", "anchors": ["pyverilog/dataflow/bindvisitor.py:BindVisitor.visit_Parameter", "pyverilog/dataflow/bindvisitor.py:BindVisitor.visit_Localparam", "pyverilog/dataflow/bindvisitor.py:BindVisitor.visit_Supply", "pyverilog/dataflow/bindvisitor.py:BindVisitor.addTerm", "pyverilog/dataflow/bindvisitor.py:BindVisitor.addInstanceParameterBind", "pyverilog/dataflow/bindvisitor.py:BindVisitor._visit_Instance_body"]}
{"id": "C73", "title": "The listings of a design are what it declares", "statement": "getInstances, getSignals and getConsts list every instance with its module and every declared signal and constant of every scope, each name once, scopes and names in the order of the source, each with exactly its declarations; functions and tasks are listed with their inputs; asking for one scope gives the part of that scope and an unknown scope is an error. The terms the dataflow starts with are these names, with the classes of their declarations as types, and no constant ever has two definitions.", "quantifier": "all visits of designs: any sequence of scopes opened and left, declarations, functions, tasks and instances of modules with any ports and parameters", "why_tests_cant": "the tables are built by thousands of interleaved calls, from two visitors, and an order or a declaration lost for one interleaving shows only there", "anchors": ["pyverilog/dataflow/visit.py:FrameTable.getAllSignals", "pyverilog/dataflow/visit.py:FrameTable.getAllConsts", "pyverilog/dataflow/visit.py:FrameTable.getAllFunctions", "pyverilog/dataflow/visit.py:FrameTable.getAllTasks", "pyverilog/dataflow/visit.py:FrameTable.getAllInstances", "pyverilog/dataflow/visit.py:FrameTable.getSignals", "pyverilog/dataflow/visit.py:FrameTable.getConsts", "pyverilog/dataflow/visit.py:DefinitionInfoTable", "pyverilog/dataflow/signalvisitor.py:SignalVisitor.stackInstanceFrame", "pyverilog/dataflow/bindvisitor.py:BindVisitor.copyAllFrameInfo"]}
{"id": "C74", "title": "Legal assignments, connections, gates and parameters are accepted", "statement": "Analysis of an assignment to signals, slices, words of memories or concatenations of them, of a whole sequence of such assignments, of the connections of an instance, of a gate and of the parameters of an instance and the declarations of its module ends without an exception whenever the text is legal: declared identifiers, constant bounds and indices on the left, ports and parameters that exist. The result has exactly the writes the text says, and can be worked on by the next statement.", "quantifier": "all designs, scopes, left and right sides of any nesting, connection lists, parameter lists and stores reached by earlier statements", "why_tests_cant": "an exception can hide behind any combination of operators, selections and earlier assignments; a test shows only that particular texts are accepted", "anchors": ["pyverilog/dataflow/bindvisitor.py:BindVisitor.visit_Assign", "pyverilog/dataflow/bindvisitor.py:BindVisitor.getDestinations", "pyverilog/dataflow/bindvisitor.py:BindVisitor.addInstancePortBind", "pyverilog/dataflow/bindvisitor.py:BindVisitor._visit_Instance_primitive", "pyverilog/dataflow/bindvisitor.py:BindVisitor.addInstanceParameterBind", "pyverilog/dataflow/bindvisitor.py:BindVisitor.makeDFTree", "pyverilog/dataflow/reorder.py:reorder", "pyverilog/dataflow/dataflow.py:DataFlow.addBind"]}
{"id": "C75", "title": "Legal always blocks with blocking assignments are accepted", "statement": "The dataflow analysis of an always block of blocking assignments, blocks, ifs and cases over declared signals ends without an exception whenever the block is legal, however often signals are assigned and read again under whatever conditions; a name that no signal has is found for every added signal; and the trees that result have the values the signals have after the block is executed.", "quantifier": "all always blocks of blocking assignments to whole signals, blocks, ifs and cases, all expressions, all stores of earlier trees, all values of signals", "why_tests_cant": "every read puts the whole tree of the signal so far into the next tree, and an exception can hide behind any combination of conditions, operators and earlier assignments", "anchors": ["pyverilog/dataflow/bindvisitor.py:BindVisitor.addDataflow_blocking", "pyverilog/dataflow/bindvisitor.py:BindVisitor.resolveBlockingAssign", "pyverilog/dataflow/bindvisitor.py:BindVisitor.getRenamedDst", "pyverilog/dataflow/bindvisitor.py:BindVisitor.visit_IfStatement", "pyverilog/dataflow/reorder.py:reorder", "pyverilog/dataflow/replace.py:replaceUndefined"]}
{"id": "C76", "title": "Legal always blocks with nonblocking assignments are accepted", "statement": "The dataflow analysis of the always blocks of a module that consist of nonblocking assignments, blocks, ifs and cases ends without an exception whenever the blocks are legal, however assignments, conditions, concatenations on the left and earlier assignments are combined, and for any number of blocks one after the other; and the tree of every assigned target has the value that executing the block schedules for it.", "quantifier": "all lists of always blocks of nonblocking assignments (whole signals, parts, words of memories and concatenations on the left), blocks, ifs and cases, all expressions, all stores of earlier trees, all values of signals", "why_tests_cant": "every assignment is merged into the trees that all earlier ones left, and is repeated in every arm that follows; an exception can hide behind any combination", "anchors": ["pyverilog/dataflow/bindvisitor.py:BindVisitor.visit_Always", "pyverilog/dataflow/bindvisitor.py:BindVisitor.visit_IfStatement", "pyverilog/dataflow/bindvisitor.py:BindVisitor.visit_CaseStatement", "pyverilog/dataflow/bindvisitor.py:BindVisitor.copyPreviousNonblockingAssign", "pyverilog/dataflow/bindvisitor.py:BindVisitor.makeBind", "pyverilog/dataflow/reorder.py:reorder"]}
{"id": "C77", "title": "A signal assigned in parts is read as its parts", "statement": "In an always block with blocking assignments to bits and parts of a signal, a later read of the signal gets, in the dataflow, a tree whose bits are, for every bit, the value assigned to it last, or the earlier value of the signal where nothing was assigned.", "quantifier": "all sequences of assignments to parts with constant bounds, in any order and number, all widths, all values", "why_tests_cant": "the tree is put together from the recorded parts by sorting and gap filling; the number, order and position of parts are unbounded", "anchors": ["pyverilog/dataflow/bindvisitor.py:BindVisitor.getFitTree", "pyverilog/dataflow/bindvisitor.py:BindVisitor.getMergedTree", "pyverilog/dataflow/bindvisitor.py:BindVisitor.removeOverwrappedCondition", "pyverilog/dataflow/visit.py:Frame.setBlockingAssign"]}
{"id": "C78", "title": "Words of memories assigned in a block are read back", "statement": "In an always block with blocking assignments to words of a memory, a later read of a word gets, in the dataflow, a tree whose value is the value assigned last to that word, or the earlier word where none was assigned to it, whatever values the index expressions have.", "quantifier": "all sequences of assignments, all index expressions of the assignments and of the read, all values of the signals in them", "why_tests_cant": "which assignment a read meets depends on the values of the index expressions at run time; the number of assignments and the expressions are unbounded", "anchors": ["pyverilog/dataflow/bindvisitor.py:BindVisitor.resolveBlockingAssign", "pyverilog/dataflow/bindvisitor.py:BindVisitor.getDst", "pyverilog/dataflow/visit.py:Frame.setBlockingAssign"]}
{"id": "C79", "title": "begin-end blocks do not change what a word of a memory or a part of a signal holds", "statement": "In an always block with blocking assignments to words of a memory or to parts of a signal, a read gets the same value in the dataflow however the statements are grouped in begin-end blocks: inside a block the assignments before it are seen, after a block those in it.", "quantifier": "all nestings of blocks, all sequences of assignments and reads in them, all index expressions and values", "why_tests_cant": "which assignments a read sees depends on the frames that are open and on what was copied when earlier ones ended; nesting and number are unbounded", "anchors": ["pyverilog/dataflow/visit.py:FrameTable.getBlockingAssign", "pyverilog/dataflow/bindvisitor.py:BindVisitor.visit_Block", "pyverilog/dataflow/bindvisitor.py:BindVisitor.copyBlockingAssigns"]}
