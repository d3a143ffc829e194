# Formal model of Prolog_BFS

Source modelled: the C++ project LhKipp/Prolog_BFS in `/repo` (read as text, never built or run).
Prover: Rocq / Coq 8.16.1, standard library only. All files are in `rocq/theories` (logical name `Verif`).
The properties are in `properties.jsonl`; `MANIFEST.json` says which theorems belong to which property and
what is missing where a property is only partly proved.

## 1. What is modelled

| Part of the code | Model file | Remarks |
|---|---|---|
| `heap_reg`, `storage`, `functor_view` | `Base.v` | cells are a sum type; functor and variable indices are `Z` wrapped to 16 bits as in `short` |
| executor heap (own segment, copy-on-write changes, parent chain) | `Heap.v`, `Organizer.v` | executors live in an arena, parents are arena ids, reads go up the chain |
| `instructions.cpp`, `deref`, `unify` | `Machine.v` | one Gallina function per instruction, over an abstract heap interface (layered or flat) |
| `equals`, `not_equals`, `is`, `expr_evaluator`, `arith_functor.cpp` | `Machine.v` | + - * // are computed with integers; `Double.v` proves that doubles rounded to nearest and truncated give the same; `powf` is an oracle |
| `bfs_organizer` (constructor, `load_program`, `load_query`, `get_answer`, `set_time_limit`, `validate_*`, statistics) | `Organizer.v`, `Parser.v` | queue of arena ids; clock and memory exhaustion are oracles |
| `compiler.cpp`, `node.*`, `node_iteration.h`, built-in predicates | `Compiler.v` | iteration order of hash maps is an oracle |
| Boost.Spirit grammars, `append_dot_if_not_present` | `Parser.v` | parsing functions with expectation points on character lists |
| `iter_pos`, `line_pos_iterator`, `parser_util.*`, `code_info` of atoms, rules and errors | `Positions.v`, `CompAt.v` | the two Boost classes are described as their documentation says |
| `source_code_info` reached through the code pointers of executors; `err_handling.cpp`, `arithmetic_checks.cpp` | `OrgAt.v` | the machine once more, with a position beside every compiled atom |
| `error_handler.h`: line and column of a syntax error | `ErrPos.v`, `Column.v` | parsing functions that also give the position at which an expectation fails; Boost's `get_column` in its older and newer form; the words of the message are arbitrary |
| `substitution_util.cpp`, `result.cpp` | `Print.v` | |
| `unification_tree.cpp`, `query_node.h`, `var_binding_node.*`, `node.cpp` to_string, `node_representation_of` | `Tree.v` | whole tree with labels and bindings |
| `app_runner/normal_mode.cpp` (terminal) | `Terminal.v` | `std::cin` is a string; option parsing by Boost left out; the files named are never read by the code |
| `wasm.cpp`; `InterpreterHandler.js`, `Result.js`, `main.js` onRunClicked (web page) | `Web.v` | one result box: its object, paragraphs, buttons and timers; events in any order |
| `SyntaxError.js`, `Alert.js`, rest of `InterpreterHandler.js` tryExecute | `Alert.v`, `Editors.v` | the alert of a rejected text; marks, registered functions and alert over all sequences of events; of the editor Ace only addMarker, removeMarker, on("change") and gotoLine as documented |
| `main.js` autosave, `ace_editor_setup.js` | `Startup.v` | the texts in cookies; encoding as js-cookie does it, 4096 bytes as limit of a cookie |
| `main.js` 1-77, constructor of `InterpreterHandler` | `Early.v` | clicks on Run before the runtime is there; the global name `alert` |
| `TreeView.js` | `Draw.v`, `Page.v`, `TipAt.v` | the nodes and edges handed to vis.js; when the window is drawn again; the positions shown as tool tips; the numbers of boxes (`Date.now()`) are taken to differ here |
| `main.js` instances, `Result.js`, `InterpreterHandler.js` kill | `Clock.v` | the boxes as elements of the document, looked up by the number `Date.now()` gave; which of them a button acts on |

Undefined behaviour (failed `assert`, wrong tag in `get_heap_i`, index out of range, dangling code pointer, conversion of
a double that does not fit) is a separate outcome `Ub`. A loop that does not end (unification or printing of cyclic terms,
an endless search) is the outcome `Fuel`: it is what every amount of fuel gives. Statements never count `Fuel` as success.

### Simplifications

* Memory: only dangling pointers into program and query code are tracked (generation numbers); other object lifetimes are
  not. An allocation may fail between two turns of the scheduler only. Heaps and trees may be arbitrarily large
  (`size_t`/`int` counters there do not wrap); the resolve counter is 32 bits wide.
* Clock: one reading per turn, arbitrary.
* Source positions are kept apart: `Positions.v` and `CompAt.v` repeat the grammar and the compiler with the lines and texts
  recorded, `OrgAt.v` the organizer with the positions that code pointers lead to, and prove that nothing else changes. The texts of compile errors are in `Alert.v` only.
* `powf`: any function from two doubles to a double.
* Hash maps: any order, the same for the same keys inside one run (`c_ord`, assumed to be a permutation by `ord_ok`).
* Unification tree: `std::transform` goes in order; the copy of the indeterminate `first_fact_binding` of unresolved nodes
  is not counted as undefined; the node with a message that replaces the tree when memory is exhausted is left out.

Not modelled: of the web front end the editors (beyond texts, marks and where the cursor is sent), the words in syntax errors, what vis.js makes of nodes and edges, and what JavaScript does when the module aborts; `reserve` heuristics, debug printing.

## 2. How the proof is built

1. *Layers.* `HeapSim.v` shows that layered copy-on-write heaps behave like flat ones; `Refine.v`, `Turn.v` that the arena
   with its queue implements a queue of independent processes (`Process.v`). `Session.v` describes all histories of calls,
   `Search.v`, `Order.v`, `Runs.v` the search tree and the order in which it is visited.
2. *Meaning of heaps.* `Valuation.v`: valuations of addresses by finite ground terms; `UnifyTop.v`: unification computes
   exactly the common solutions and ends if they exist.
3. *Compiled code.* `Code.v`, `Put.v`, `PutRun.v`, `Get.v`, `Alloc.v`, `Atoms.v`, `Clause.v`: the generated code as a
   relation, a symbolic check of its registers, and what code that passes it does. `Faithful.v`, `Clash.v`: which clauses
   pass it.
4. *Soundness and completeness.* `Stack.v`, `Ready.v`, `Heads.v`, `Builtins.v`, `Sols.v`, `Solve.v`, `Answers.v`,
   `Complete.v`. The specification is `Spec.v` (least model over ground terms). `Linear.v`, `LinearCase.v`: if no clause head repeats a
   variable, no term becomes cyclic and every turn ends; `IsEnds.v`: also with `is`, if every expression reached can be evaluated; `CallEnds.v`: then every call returns. `Size.v`, `SizeCase.v`, `SizeTree.v`: texts of at most 10000 characters keep the tables
   small, so that all hypotheses can be read off the texts; `BoxSize.v`: the same for the result boxes of the web page (`BoxLimit.v`: their time limit); `SizeHist.v`: for every
   history of calls (rejected programs, OUT_OF_MEMORY).
5. *Absence of undefined behaviour.* `Cells.v`, `Total.v`, `Safe.v`, `Wf.v`, `Settle.v`, `Ends.v`, `EndsLoad.v`, `Flat.v`.
6. *Texts.* `ParserFacts.v`, `Texts.v`, `Grammar.v`, `Roundtrip.v`, `Parsed.v`, `Loads.v`; expressions: `Exprs.v`,
   `Chains.v`; the whole language as a grammar: `Language.v`; positions: `Positions.v`, `CompAt.v`, `ErrPos.v`.
7. *Independence.* Two runs in lock step: `Sim.v`, `Lock.v`, `LockComp.v`, `LockHist.v`, `LockInst.v`, `Independence.v`.
8. *Built-in predicates.* `Arith.v`, `Double.v`, `Power.v`, `Append.v`, `IsAnswer.v`; `Reached.v`: every branch that runs one of them has two finite terms as arguments. *Printing:* `Terms.v`, `Shown.v`, `Ground.v`.
9. *Unification tree.* `TreeInv.v`: the arena is the search tree; `TreeSrc.v`: code and source goals; `TreeShape.v`,
   `TreeAll.v`: what the tree shows; `Labels.v`: its labels; `Bound.v`: the bindings shown; `Unfit.v`: clauses shown as failed;
   `Names.v`: names on the heap; `Returns.v`, `Clean.v`, `Shows.v`: the tree is made, and with names of the source only. `Wide.v`, `WideMore.v`: tables that are too small. `TestSuite.v`: 202 tests of /repo/test, evaluated on the model while the file is compiled; none of it is part of a proof, and three long series of answers are cut to 12, 12 and 8. `Limit.v`: the time limit. `AnswerText.v`: the texts of answers. `LabelText.v`: the texts of labels and bindings of the tree. `OrgAt.v`, `RunAt.v`: positions at run time. `TipAt.v`, `TipRun.v`, `TipFacts.v`, `TipLoad.v`: positions in the tree (a line numbered 1696969 of a program would be shown as a built-in predicate). `Once.v`: names in answers. `Stale.v`, `StaleCase.v`: calls in any order, and get_answer after the program has been replaced. `Nearer.v`, `NearCase.v`: turns needed for a proof with a given number of goals.
10. *Terminal:* `TermFacts.v`, `TermCase.v`; `TermText.v`: queries are read whole, since they contain one full stop only; `TermEnds.v`: how it ends. *Web page:* `WebText.v` (no markup), `WebFacts.v`, `WebCase.v`; the picture of the tree: `DrawFacts.v`, `DrawText.v`; several boxes and the window: `PageFacts.v`; alerts: `Alert.v`; the editors: `Editors.v`; `DrawCase.v`.
11. *What holds of the refuted properties:* `Trailing.v` (text behind a query), `Reload.v` (a program loaded under way),
    `Memory.v` (after OUT_OF_MEMORY), `Spelling.v`, `Naming.v` (names of variables, spelling of names), `Unambiguous.v` (the notation of terms), `Meaning.v`, `ReadCase.v` (what an answer shows), `Lists.v` (texts of lists), `RestCase.v` (cases).
12. *Counterexamples* from source text to reply: `Refute.v`, `Cyclic.v`, `TreeCase.v`; `Witness.v`, `Finite.v`: concrete
    sessions showing that hypotheses are met.

The theorems named in the manifest are in `Prop*.v`, which contain nothing else; beside each stands an `Example` with a
case that meets its hypotheses.

## 3. Hypotheses that recur

* `session cf o P s`: the state `o` was reached by calls of the public interface, `P` is the loaded program and `s` the
  query. `QStale` marks a program loaded while a query was under way (undefined behaviour follows, C31).
  OUT_OF_MEMORY ends a session (C32: nothing works after it). `history` is the same with get_answer in every state.
* `ord_ok cf`: hash maps are traversed in some order, each key once.
* `small_tables`: at most 32768 functors and arities; beyond that indices wrap (C24).
* `no_clash cf P`: the code of the first body goal of each rule passes the check; `roomy_clause` is a sufficient condition
  on the form of the rule (`C02_roomy_rules_partial`), C02 is false without it.
* `labelled cf P`: the code of the first body goal of each rule leaves the registers of its variables alone (C48);
  `roomy_clause` implies it.
* `all_goals no_is`: no goal `is`; the error of `is` may read outside the heap (C20).
* `shown_as cf o P q b sg`: the conclusion about an answer `b`: written out the terms `sg` are its texts, their names are spelled as such (`spelled`,
  if the table of variables has at most 32768 entries), and all their instances are solutions (if `no_cycles`).
* `no_cycles`: no variable gets bound to a term containing it; there is no occurs check. `datalog` (no compound terms) and `linear` (no
  variable twice in a clause head, no append/3) imply it (`C01_linear_acyclic`), and that every turn ends, if `is` is not used.
* `all_evaluable`: every right side of an `is` that the search reaches has a value, a division by zero or an unbound variable (no result
  outside 32 bits, no atom or compound term as operand); `linear` programs with `is` then have only turns that end (`C04_linear_is_ends`).

## 4. Defects found

Each has a theorem `..._refuted` with a run of the model as witness: register clash of the first body goal (C02), no
occurs check (C01, C04, C82), order of answers (C06), inexact powers (C18), right-associative `-` and `//` (C19), functor named
by type errors (C20, C22, C23), more than 32768
functors or variable names in the tables, which are never emptied (C01, C03, C23, C24, C37, C43, C45, C52), partial and improper lists (C27, C72), loading while a query is under way
(C31), everything after OUT_OF_MEMORY (C32), reported uninstantiated variables (C34), queries followed by text (C36, C39),
literals out of range (C38), names of variables in answers (C44), wrong goals, missing trees and ambiguous names in the
unification tree (C48, C49, C50, C51), lines of syntax errors (C62), positions of errors at run time (C64), and in the terminal program:
files never read (C55), failure after an error (C57), no end at the end of the input (C58), texts that are no queries not reported (C81), the query `q` and long lines (C80), and in the web page: "false" where answers are left, and markup from a query
that is not refused (C65, C66), marks in the editors at wrong places and for ever (C73, C74), texts that are not saved (C75), boxes taken for each other (C76).

## 5. Trusted base

* Coq's kernel, including `vm_compute`.
* `Print Assumptions` beneath each theorem of `Prop*.v`: "Closed under the global context" for all of them, that is, no
  axioms.
* That the definitions of section 1 say what the C++ code does. Each cites file and lines. `Examples.v` runs test cases of
  the repository on the model; `seeded/LOG.jsonl` lists wrong versions of the model and the theorems that fail on them.
* That the statements say what the properties mean. They use `Spec.v` and small definitions beside them.
