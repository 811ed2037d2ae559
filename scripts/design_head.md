# Formal model of PyHDI/Pyverilog in Rocq (Coq 8.16.1)

## Layout

Every area `X` has these files in `rocq/theories/`:

* `XModel.v`  – the model: total computable Gallina functions, one per Python function,
  each with a comment citing file and lines in /repo and every simplification;
* `XSpec.v`   – a small specification, written without the model's helpers;
* `XProofs*.v` – lemmas;
* `XProps*.v`  – the property theorems, each followed by `Print Assumptions` and accompanied by an
  `Example` that meets its hypotheses with a concrete, non-trivial case.

`Base.v` holds the exception monad (`res A := Ok a | Err e`) and generic list/string facts.

Conventions: Python `int` is `Z`; strings are `string` (characters with codes below 256);
exceptions are values of `exn`; a loop or general recursion uses structural recursion or fuel
(standing for Python's recursion depth), exhaustion being a separate error that theorems exclude,
or that is proved not to happen with enough fuel. Objects that Python mutates in place live on an
explicit heap where sharing matters (`Active*`, `Ren*`); elsewhere the comment says why values
suffice.

A theorem named `..._refuted` is a machine-checked counterexample to the full property: the
unchanged code violates it (the witness is a run of the model). `..._partial` marks a theorem that
is weaker than the property; the full statement is kept in view as a `Definition` beside it, and
what is missing is in the note of `MANIFEST.json`. Theorems of a property are found by name:
`grep -n 'Theorem C28_' rocq/theories/*.v`.

## What is modelled, and where

| Area | Code in /repo/pyverilog | Model |
|---|---|---|
| names | utils/scope.py (ScopeLabel, ScopeChain), name helpers of utils/util.py | ScopeModel |
| dataflow trees | dataflow/dataflow.py: classes, `==`, hash, constructors, DFIntConst.eval/width, DFEvalValue printing, tocode; Term, Bind, DataFlow store | DfModel, LitModel, CodeModel, BindModel |
| constant folding and widths | dataflow/optimizer.py:20-374 | OptModel |
| simplification | dataflow/optimizer.py:55-64, 376-992 (optimizeHierarchy, mergeConcat, takePart, replaceConstant...) | HierModel |
| parameters | dataflow/optimizer.py:992-1032 | ResolveModel |
| reordering, replacing | dataflow/reorder.py, dataflow/replace.py | ReorderModel |
| merging of assignments | dataflow/merge.py | MergeModel, WalkModel (arrays), BindModel (sources) |
| expansion of signals | dataflow/walker.py | WalkModel |
| subsets | dataflow/subset.py, utils/util.py dictlistmerge | SubsetModel |
| scopes while visiting | dataflow/visit.py: labels, FrameTable, searches, blocking/nonblocking records, always status | VisitModel |
| always blocks | dataflow/bindvisitor.py: if/case/block, nonblocking assignments, makeBind, branch trees | AsgModel |
| blocking assignments | dataflow/bindvisitor.py: addBind for blocking assignments, resolveBlockingAssign, getRenamedDst, copyBlockingAssigns; visit.py: blockingassign of frames | BlkModel |
| trees of expressions | dataflow/bindvisitor.py: makeDFTree without calls | MkModel |
| elaboration | dataflow/modulevisitor.py, signalvisitor.py without functions, tasks and connections; dataflow_analyzer.py: getInstances | ElabModel |
| connections | dataflow/bindvisitor.py: getDestinations, getDst(s), searchTerminal, addBind for continuous assignments, addInstancePortBind, gates; visit.py: primitives | ConModel |
| graph | dataflow/graphgen.py: nodes and edges | GraphModel |
| controlflow | controlflow/splitter.py, transition.py, active_range.py, class FiniteStateMachine and getFiniteStateMachines/getFuncdict of controlflow_analyzer.py; utils/inference.py; isReset of utils/signaltype.py; tostr of dataflow.py | SplitModel, TransModel, ActiveModel, FsmModel, MachModel |
| syntax trees | vparser/ast.py: all classes (table generated by scripts/asttable.py), children, `==`, hash | AstTable, AstModel |
| renaming | utils/identifierreplace.py, identifiervisitor.py | RenModel |
| lexer | vparser/lexer.py: all rules, PLY's matching order, line numbers, directives | LexModel |
| parser | vparser/parser.py: the expression rules as PLY's shift/reduce machine | ParseModel |
| printing | ast_code_generator/codegen.py: expressions with their templates | ExprModel |
| statements | vparser/parser.py: statements, sensitivity lists, always and initial, with the failing end_lineno accesses (recursive descent; dangling else shifted); ast_code_generator/codegen.py: statements with their templates | StmModel |
| source files | vparser/parser.py: modules, parameters, ports, declarations, assignments, instances, generate, functions, tasks, pragmas (recursive descent); codegen.py with the remaining templates | SrcModel |
| sensitivity lists | dataflow/bindvisitor.py:218-280 (_createAlwaysinfo, _get_signal_name), utils/signaltype.py isClock/isReset, visit.py AlwaysInfo | SensModel |
| generated code | dataflow/dataflow.py: tocode of Bind and Term, _tocode_always; dataflow/dataflow_codegen.py; subset.py: getEntire, getSubset; merge.py:56-72 | EmitModel |
| procedural loops | dataflow/bindvisitor.py:218-232, 282-515, 525-549, 941-958, 1436-1452; dataflow/optimizer.py:30-35, 48-49 | LoopModel |
| hierarchical names | dataflow/visit.py:836-868; dataflow/bindvisitor.py:715-742, 1353-1386; utils/scope.py:58-76 | NameModel |
| function calls in continuous assignments | dataflow/bindvisitor.py:282-427, 525-549, 791-810, 936-976, 1081-1122, 1412-1468 | FunModel |
| queries and texts of range conditions | controlflow/active_range.py:492-565, 631-685 | RngModel |
| constants of scopes and instances in the dataflow pass | dataflow/bindvisitor.py:153-177, 292-298, 562-569, 593-625, 791-800, 842-847, 993-999, 1006-1016 | ParModel |
| listing and drawing of state machines | controlflow/controlflow_analyzer.py:139-158, 205-248 | ShowModel |
| range conditions as trees | controlflow/active_range.py:504-520, 567-577 | RngTreeModel |
| parameters in the dataflow graph | dataflow/bindvisitor.py:86-111, 153-189 (without ports), 849-902, 942-945, 1336-1339 | PbModel |
| listings of declarations | dataflow/visit.py:24, 150-151, 205-209, 218-276, 357-390, 456-460, 610-620, 670-746; dataflow/signalvisitor.py:41-96, 357-362; dataflow/modulevisitor.py:34-50; dataflow/bindvisitor.py:627-640 | LstModel |
| acceptance of legal text | no further code: success of the functions of ConModel, PbModel, AsgModel, MkModel and ReorderModel (AccSpec says which text is legal) | - |
| acceptance of always blocks | no further code: success of the functions of BlkModel, AsgModel and ReorderModel (BacSpec and NacSpec say which blocks are legal) | - |
| reading signals assigned in parts | dataflow/bindvisitor.py:1184-1193, 1205-1213, 1269-1302; dataflow/visit.py:488-497 | PartsModel |
| reading words of memories | dataflow/bindvisitor.py 313-318, 361-425, 525-543, 668-672, 1239-1253, 1386 (index of an assigned word), dataflow/visit.py 488-497 | words assigned again under conditions, conditions that the statement changes, loops other than unrolled; the index of an assigned word is a single name in the model of getDst |
| words of memories in nested blocks | dataflow/bindvisitor.py 525-543, 668-672, 1239-1253, 1458-1468, dataflow/visit.py 785-795 | one memory; the frames of one always block; no conditions |
| activity reports | controlflow/active_analyzer.py:27-76; controlflow/active_range.py:28-112, 135-154 | WhenModel |
| preprocessor | vparser/preprocessor.py: inputs, command line, files | PreModel |
@@MORE@@

Not modelled: strings, floats and hierarchical names in the grammar, the
command-line mains and examples, `show` methods, graph drawing of `Graphviz`,
dataflow_analyzer.py/controlflow_analyzer.py drivers (option handling and file output), defparam,
functions and tasks inlined in bindvisitor.py. PLY itself is represented by
its documented algorithm (order of rules in the lexer; conflict resolution by precedence in the
parser); the LALR table construction is not.

## Trusted base

* Coq's kernel (8.16.1). Nothing is extracted; the models are evaluated only inside Coq.
* `Print Assumptions` for every property theorem prints `Closed under the global context`: no axiom is
  used, neither of ours nor of the standard library. (`coqchk` additionally lists seven parameters
  `Coq.ssr.ssrunder.Under_rel.*`, which belong to a sealed module of the standard library that
  tactics such as `lia` load; no theorem depends on them.)
* The reading of /repo into the models: each definition cites the lines it models. Nothing checks this
  mechanically (the code cannot be run here), except that the seeded bugs of `seeded/LOG.jsonl` show
  that the theorems depend on the modelled details.
* Parts of the runtime that the models take as given, each stated where used: Python's `dict`
  keeps insertion order; iteration over a `set` is an arbitrary order (a section variable that theorems
  quantify over); `int(x)`, `re`, string methods as modelled in LitModel/LexModel; floating point
  (`math.log`, `/`) is exact only where a theorem assumes it or in the range where doubles are exact;
  `copy.deepcopy` yields equal, unshared objects; the file system and the external tool of
  preprocessor.py are a step of an abstract machine.

## How properties are proved

Structural induction on trees, statements and lists (printing, folding, reordering, splitting, merging);
induction on fuel with monotonicity lemmas (walker, optimizer, reorder); invariants over arbitrary
histories of API calls (scope table, labels, graph, store, FSM); simulation between the shift/reduce
machine and the grammar (parser), and between always-block statements and the trees grown for them.
The specifications give independent semantics: values and widths of trees over integers (`OptSpec`),
truth of conditions (`SplitSpec`, `ActiveSpec`), positional value of literals (`LitSpec`), execution of
statements (`AsgSpec`), longest-match token reading (`LexSpec`), etc.

No property of the list is outside what an executable model can express.

## Seeded bugs

`seeded/LOG.jsonl` has one line per edited model: the definition, the edit, the claim it breaks, which
theorems stopped proving, and which theorems were added or tightened because an edit survived.
Survivors that are left are edits under which the English claim stays true; the note says why.

## Status per property

(generated by scripts/design.py from properties.jsonl and MANIFEST.json)

