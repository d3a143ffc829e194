{"id": "C01", "title": "Answers are sound", "statement": "Whenever get_answer returns a binding list for a loaded query, every ground instance of that binding list makes every atom of the query a logical consequence of the loaded clauses (plus append/3, ==, is as built-in relations).", "quantifier": "all programs whose rules do not reuse a head register in the first body atom (see C02 for the rest), all queries, all answers of any index, all interleavings of time-outs and repeated get_answer calls", "why_tests_cant": "A test compares a few answers with expected strings; soundness ranges over every program, every derivation length and every answer of an infinite stream.", "anchors": ["src/wam/bfs_organizer/bfs_organizer.cpp: exec_executors, load_query, get_answer", "src/wam/instructions/instructions.cpp: unify, get_structure, call, proceed", "src/wam/compiler/compiler.cpp: compile_query, compile_program_term"]}
{"id": "C02", "title": "Rule bodies receive the arguments the clause text says", "statement": "For a rule h :- b1, ..., bn, when the head has matched, each body atom is called with exactly the arguments obtained by replacing the clause's variables by the values the match gave them (fresh variables for the others).", "quantifier": "all rules, all calling goals and heaps", "why_tests_cant": "The defect class is register allocation; only some shapes of head and first body atom collide, tests cover a handful of shapes.", "anchors": ["src/wam/compiler/compiler.cpp: assign_registers, compile_program_term, to_query_instructions"]}
{"id": "C03", "title": "Queries, facts and later body atoms are compiled faithfully", "statement": "For every query atom, every fact head and rule head, and every body atom from the second on, the generated instructions build or match exactly the written term: matching succeeds iff the goal and the head unify, and then the variables hold the unifying values.", "quantifier": "all atoms (any nesting, any number of repeated variables), all heaps and argument registers", "why_tests_cant": "Unbounded term shapes; the code generator's correctness is a statement over all terms.", "anchors": ["src/wam/compiler/compiler.cpp: to_query_instructions, to_program_instructions, flatten_query, flatten_program, assign_registers", "src/wam/instructions/instructions.cpp"]}
{"id": "C04", "title": "Search is complete and cannot be starved", "statement": "If some instance of the query is a logical consequence of the loaded (pure) program then a finite number of get_answer calls, each given enough time, returns an answer more general than that instance, even if other clauses loop for ever.", "quantifier": "all pure programs without register clash, all queries, all provable instances", "why_tests_cant": "Completeness quantifies over all derivations and infinite search trees.", "anchors": ["src/wam/bfs_organizer/bfs_organizer.cpp: exec_executors", "src/wam/instructions/instructions.cpp: call, proceed, deallocate"]}
{"id": "C05", "title": "Answers arrive in breadth-first order", "statement": "The answers of one query are produced in non-decreasing order of their depth in the search tree, where a depth unit is one turn in the scheduler queue; no answer of smaller depth is ever produced later.", "quantifier": "all programs, queries, and sequences of get_answer calls", "why_tests_cant": "Order over an unbounded stream of answers.", "anchors": ["src/wam/bfs_organizer/bfs_organizer.cpp: exec_executors", "src/wam/instructions/instructions.cpp: call, proceed, deallocate"]}
{"id": "C06", "title": "Answers are ordered by number of resolution steps", "statement": "An answer that needs fewer resolution steps (calls matched with clauses) is never returned after one that needs more.", "quantifier": "all programs and queries", "why_tests_cant": "The order depends on extra queue turns taken when a clause with shared variables ends; tests only use small symmetric programs.", "anchors": ["src/wam/instructions/instructions.cpp: deallocate", "src/wam/bfs_organizer/bfs_organizer.cpp: exec_executors"]}
{"id": "C07", "title": "A time-out only pauses the search", "statement": "If get_answer returns OUT_OF_TIME, the search state is unchanged: calling again continues, and the sequence of answers, failures and runtime errors delivered over all calls is the same as without any time-out.", "quantifier": "all states, all clock behaviours, all time limits", "why_tests_cant": "Time-outs can strike between any two scheduler turns; tests cannot enumerate the interruption points.", "anchors": ["src/wam/bfs_organizer/bfs_organizer.cpp: exec_executors 59-106, set_time_limit"]}
{"id": "C08", "title": "A runtime error ends only its own branch", "statement": "When get_answer returns a runtime error raised by is, exactly the branch that raised it is dropped; all other pending branches are still there, in the same order, and later get_answer calls go on with them.", "quantifier": "all states with a branch raising an error", "why_tests_cant": "Needs the whole queue compared in every reachable state.", "anchors": ["src/wam/bfs_organizer/bfs_organizer.cpp: exec_executors 85-97", "src/wam/runtime_errors/err_handling.cpp"]}
{"id": "C09", "title": "Clauses are tried in textual order", "statement": "The branches created by one call are appended to the scheduler queue in the order of the clauses in the program text, after every branch that was already waiting.", "quantifier": "all programs, goals, states", "why_tests_cant": "Order for any number of clauses and any queue content.", "anchors": ["src/wam/instructions/instructions.cpp: call 346-389", "src/wam/compiler/compiler.cpp: compile_program 455-485"]}
{"id": "C10", "title": "Unification computes a most general unifier", "statement": "When unification of two heap terms succeeds the resulting bindings are satisfied by exactly those valuations that satisfied the old bindings and make the two terms equal; when it fails no valuation does.", "quantifier": "all well-formed heaps and pairs of addresses for which unification returns", "why_tests_cant": "All term shapes, sharing patterns and binding chains.", "anchors": ["src/wam/instructions/instructions.cpp: unify 210-280", "src/wam/instructions/util/instructions_util.cpp: deref"]}
{"id": "C11", "title": "Unification terminates when a solution exists", "statement": "If two terms have a common finite instance compatible with the current bindings then unifying them terminates; without occurs check it may fail to terminate otherwise.", "quantifier": "all well-formed heaps and addresses", "why_tests_cant": "Termination over unbounded structures.", "anchors": ["src/wam/instructions/instructions.cpp: unify 210-280"]}
{"id": "C12", "title": "Dereferencing always terminates inside the heap", "statement": "In every state reached from loading a program and a query, following references from any allocated address terminates at an allocated cell that is unbound or not a reference.", "quantifier": "all reachable executor states, all addresses", "why_tests_cant": "Invariant over all executions.", "anchors": ["src/wam/instructions/util/instructions_util.cpp: deref 28-44", "src/wam/executor/executor.cpp: heap_at"]}
{"id": "C13", "title": "Branches do not see each other's bindings", "statement": "Running one branch never changes what any other branch, or any recorded ancestor shown in the unification tree, reads at any heap address.", "quantifier": "all reachable states, any branch run next, any other branch, any address", "why_tests_cant": "Copy-on-write sharing errors only show for particular interleavings of bindings in siblings.", "anchors": ["src/wam/executor/executor.cpp: heap_modify, heap_at", "include/prolog_bfs/wam/executor/executor.h: set_parent, move_from_parent", "src/wam/instructions/instructions.cpp: call"]}
{"id": "C14", "title": "== decides identity", "statement": "A goal S == T succeeds iff the two terms are identical under the current bindings (same variable or same structure with identical arguments) and never binds anything.", "quantifier": "all well-formed acyclic heaps, all pairs of terms", "why_tests_cant": "All term shapes and aliasing patterns.", "anchors": ["src/wam/built_in_predicates/equals.cpp"]}
{"id": "C15", "title": "\\== is the complement of ==", "statement": "In every state exactly one of S == T and S \\== T succeeds, and \\== never binds anything.", "quantifier": "all states and pairs of terms for which the comparison terminates", "why_tests_cant": "All states.", "anchors": ["src/wam/built_in_predicates/not_equals.cpp", "src/wam/built_in_predicates/equals.cpp"]}
{"id": "C16", "title": "is computes exact integer arithmetic for + - * //", "statement": "For an expression built from 32-bit integers with + - * and //, whose every intermediate result fits in 32 bits and with no zero divisor, X is E binds X to the exact value, // truncating towards zero.", "quantifier": "all expression trees and all 32-bit operands", "why_tests_cant": "2^64 operand pairs per operator and unbounded nesting; evaluation goes through double.", "anchors": ["src/wam/built_in_predicates/arithmetic/util/expr_evaluator.cpp", "src/wam/built_in_predicates/arithmetic/util/arith_functor.cpp"]}
{"id": "C17", "title": "Division by zero is always reported", "statement": "Evaluating an expression in which a divisor evaluates to 0 yields the runtime error DIV_BY_0 and no binding.", "quantifier": "all expressions whose evaluation reaches a zero divisor", "why_tests_cant": "All expressions.", "anchors": ["src/wam/built_in_predicates/arithmetic/checks/arithmetic_checks.cpp", "src/wam/built_in_predicates/arithmetic/util/expr_evaluator.cpp"]}
{"id": "C18", "title": "^ is exact on integers", "statement": "X is A ^ B binds X to the exact power whenever it fits in 32 bits and B is not negative.", "quantifier": "all 32-bit A and B", "why_tests_cant": "The computation goes through single precision; tests use small powers.", "anchors": ["include/prolog_bfs/wam/built_in_predicates/arithmetic/util/arith_functor_impl.h"]}
{"id": "C19", "title": "Operators of equal priority associate to the left", "statement": "In a chain such as A - B - C or A // B // C the operations are performed from left to right.", "quantifier": "all operator chains", "why_tests_cant": "Parser construction over chains of any length; tests only use associative chains.", "anchors": ["src/wam/compiler/util/node.cpp: node(const parser::chained_expr&) 86-106"]}
{"id": "C20", "title": "is reports unbound and non-arithmetic operands", "statement": "Evaluating an expression that contains an unbound variable yields ARGUMENTS_NOT_SUFF_INSTANCIATED and one that contains an atom or a compound term yields FUNCTOR_IS_NOT_ARITHMETIC, without crashing.", "quantifier": "all expressions and states", "why_tests_cant": "The error path reads the heap with an index of another table; whether that is in range depends on the program.", "anchors": ["src/wam/runtime_errors/err_handling.cpp", "src/wam/executor/executor.cpp: functor_of"]}
{"id": "C21", "title": "append/3 is list concatenation", "statement": "A ground goal append(Xs,Ys,Zs) with proper lists Xs, Ys is a consequence of the built-in clauses iff Zs is the concatenation, and the built-in clauses are compiled faithfully.", "quantifier": "all proper lists of any length", "why_tests_cant": "Unbounded lists.", "anchors": ["src/wam/built_in_predicates/append.cpp", "src/wam/compiler/built_in_pred_comp.cpp"]}
{"id": "C22", "title": "Built-in predicates cannot be redefined and a rejected program changes nothing", "statement": "load_program of a text defining append/3 or is/2 returns an error, and after any load_program that returns an error, every later query behaves as if that load had not happened.", "quantifier": "all program texts and all previous states", "why_tests_cant": "All texts and later queries.", "anchors": ["src/wam/compiler/checks/redefinition_of_built_in_pred.cpp", "src/wam/bfs_organizer/bfs_organizer.cpp: load_term_lines"]}
{"id": "C23", "title": "load_query starts afresh", "statement": "After a successful load_query the answers depend only on the loaded program and the new query: no branch, binding, statistic or answer of an earlier query survives.", "quantifier": "all histories of earlier calls", "why_tests_cant": "All histories.", "anchors": ["src/wam/bfs_organizer/bfs_organizer.cpp: load_query 109-134"]}
{"id": "C24", "title": "Distinct functors stay distinct", "statement": "Two functors that differ in name or arity are never treated as equal, and equal ones always are.", "quantifier": "all programs and queries with at most 32768 distinct functors; beyond that the property fails", "why_tests_cant": "Needs tens of thousands of symbols to fail.", "anchors": ["include/prolog_bfs/wam/bfs_organizer/data/storage.h: functor_index_of"]}
{"id": "C25", "title": "Each query variable appears exactly once in an answer", "statement": "The binding list of an answer contains every variable name of the query exactly once and nothing else.", "quantifier": "all queries (any number of atoms, shared or not), all programs, all answers", "why_tests_cant": "All derivations: the list is collected by walking the executor tree.", "anchors": ["src/wam/visual/substitution_util.cpp: find_substitutions_from_orig_query 214-262", "src/wam/compiler/compiler.cpp: find_var_reg_substitutions"]}
{"id": "C26", "title": "Ground answers are printed faithfully", "statement": "If a variable is bound to a ground term whose lists are all proper then the printed string is the standard notation of that term.", "quantifier": "all ground terms with proper lists", "why_tests_cant": "Unbounded terms.", "anchors": ["src/wam/visual/substitution_util.cpp: string_representation_of 71-183"]}
{"id": "C27", "title": "Partial and improper lists are printed faithfully", "statement": "If a variable is bound to a list with an unbound or non-list tail, the printed string shows the tail.", "quantifier": "all such lists", "why_tests_cant": "The existing test for it is commented out in the repository.", "anchors": ["src/wam/visual/substitution_util.cpp: string_representation_of 124-149"]}
{"id": "C28", "title": "A missing final dot is supplied", "statement": "load_query and validate_query treat a query text without final dot like the same text with a dot after its last non-blank character; a text that already ends in a dot or is blank is left alone, and doing it twice changes nothing more.", "quantifier": "all strings", "why_tests_cant": "All strings.", "anchors": ["src/wam/bfs_organizer/util/bfs_util.cpp"]}
{"id": "C29", "title": "Statistics count the goals called", "statement": "The statistics returned with each result equal the number of goals called since the query was loaded (modulo 2^32), and never count clause ends or head matchings.", "quantifier": "all executions", "why_tests_cant": "All executions.", "anchors": ["src/wam/instructions/instructions.cpp: call 350-352", "include/prolog_bfs/wam/bfs_organizer/data/runtime_statistics.h"]}
{"id": "C30", "title": "Calling an unknown predicate just fails", "statement": "A goal whose name and arity have no clause makes its branch fail without error and without creating branches or affecting any other branch.", "quantifier": "all states and goals", "why_tests_cant": "All states.", "anchors": ["src/wam/instructions/instructions.cpp: call 354-360"]}
{"id": "C31", "title": "Loading a program between answers is safe", "statement": "load_program may be called at any time; a following get_answer or get_unification_tree without a new load_query is well defined.", "quantifier": "all states with a loaded query", "why_tests_cant": "Use after free shows only as undefined behaviour.", "anchors": ["src/wam/bfs_organizer/bfs_organizer.cpp: load_term_lines, get_answer, get_unification_tree", "src/wam/instructions/instructions.cpp: call"]}
{"id": "C32", "title": "The system is usable after OUT_OF_MEMORY", "statement": "After get_answer returned OUT_OF_MEMORY, loading a program and a query again gives the same results as on a fresh object.", "quantifier": "all states in which memory runs out", "why_tests_cant": "Memory exhaustion cannot be provoked reliably in a unit test.", "anchors": ["src/wam/bfs_organizer/bfs_organizer.cpp: clear_memory 136-151, get_answer 50-57"]}
{"id": "C33", "title": "The unification tree is numbered and shaped like the search", "statement": "The tree returned by get_unification_tree has one query node per called goal and one child per clause tried in textual order, and its node ids are 0..n-1 in preorder without repetition.", "quantifier": "all reachable states", "why_tests_cant": "All executions.", "anchors": ["src/wam/visual/unification_tree/unification_tree.cpp: make_tree"]}
{"id": "C34", "title": "An expression over an unseen variable is rejected at load time", "statement": "A query whose atom contains an arithmetic expression with a variable that occurs neither in an earlier atom nor earlier in the same atom is rejected by load_query with ARGUMENTS_NOT_SUFF_INSTANCIATED, and no goal is run.", "quantifier": "all queries", "why_tests_cant": "All term shapes and orders of occurrence.", "anchors": ["src/wam/compiler/checks/undefined_var.cpp", "src/wam/compiler/compiler.cpp: to_query_instructions 197-198"]}
{"id": "C35", "title": "Exactly the variables shared between goals survive a call", "statement": "A variable gets a slot in the clause environment iff it occurs in a body atom after the first body atom (or in a query atom after the first) and in an earlier atom; distinct such variables get distinct slots whatever the hash order.", "quantifier": "all clauses and queries, all hash orders", "why_tests_cant": "All clauses and hash orders.", "anchors": ["src/wam/compiler/compiler.cpp: assign_permanent_registers 620-688"]}
{"id": "C36", "title": "validate_* agrees with load_*", "statement": "validate_program or validate_query reports an error iff parsing fails; a text rejected by validation is rejected by load with the same error, and a text that passes validation can only be rejected by load for redefinition, for an unbound expression variable, or for an integer literal out of range. Neither changes anything.", "quantifier": "all texts and states", "why_tests_cant": "All texts.", "anchors": ["src/wam/bfs_organizer/bfs_organizer.cpp: validate_program, validate_query, load_program, load_query"]}
{"id": "C37", "title": "No crash for well-formed programs", "statement": "For programs and queries without register clash, arithmetic and oversized literals, no call of the API runs into undefined behaviour, a failed assertion or an escaping exception.", "quantifier": "all such programs, queries, and call sequences load_program, load_query, get_answer*", "why_tests_cant": "All executions.", "anchors": ["src/wam/bfs_organizer/bfs_organizer.cpp", "src/wam/instructions/instructions.cpp", "src/wam/executor/executor.cpp"]}
{"id": "C38", "title": "Integer literals out of range are reported", "statement": "A program or query containing an integer literal that does not fit in 32 bits is rejected with a compiler error.", "quantifier": "all texts", "why_tests_cant": "Boundary of an escaping exception.", "anchors": ["src/wam/compiler/compiler.cpp: to_query_instructions 184-189, to_program_instructions 307-311"]}
{"id": "C39", "title": "A query with trailing text is reported", "statement": "If the query text contains anything but blanks after its first complete query, load_query returns an error that exists.", "quantifier": "all query texts", "why_tests_cant": "The thrown error object is the default one.", "anchors": ["include/prolog_bfs/wam/compiler/parser/parser.h: parse_query 19-31", "include/prolog_bfs/wam/compiler/error/compiler_error.h"]}
{"id": "C40", "title": "Results do not depend on hash order", "statement": "The observable results of a load_program, load_query, get_answer sequence do not depend on the iteration order of the hash maps used by the compiler.", "quantifier": "all programs and queries, all iteration orders", "why_tests_cant": "A test run sees only one hash order.", "anchors": ["src/wam/compiler/compiler.cpp: assign_permanent_registers 677-685"]}
{"id": "C41", "title": "Parsing is the inverse of canonical printing", "statement": "Parsing the canonical text of any clause or query gives back that clause or query.", "quantifier": "all clauses and queries of the grammar", "why_tests_cant": "Unbounded terms.", "anchors": ["include/prolog_bfs/wam/compiler/parser/base_grammar.h", "include/prolog_bfs/wam/compiler/parser/program_grammar.h"]}
{"id": "C42", "title": "Comments and blanks are ignored", "statement": "Inserting comment lines or blanks between clauses does not change the loaded program.", "quantifier": "all programs and all comments terminated by a newline", "why_tests_cant": "All texts.", "anchors": ["include/prolog_bfs/wam/compiler/parser/base_grammar.h: comment", "include/prolog_bfs/wam/compiler/parser/program_grammar.h"]}
{"id": "C43", "title": "Finite failure is reported exactly", "statement": "get_answer returns 'no (more) answer' only when no pending branch is left, and then every provable instance of a pure query has been covered by an earlier answer; calling again gives the same result.", "quantifier": "all states, all pure programs without clash", "why_tests_cant": "All search trees.", "anchors": ["src/wam/bfs_organizer/bfs_organizer.cpp: exec_executors 104-105"]}
{"id": "C44", "title": "An unbound answer variable is named consistently", "statement": "Two occurrences of the same unbound variable in one answer are printed identically and two different unbound variables differently.", "quantifier": "all answers", "why_tests_cant": "Depends on heap layout and name coincidences.", "anchors": ["src/wam/visual/substitution_util.cpp: string_representation_of 86-93"]}
{"id": "C45", "title": "Terms on the heap are complete between turns", "statement": "Between two turns of the scheduler every cell of the heap of a waiting executor is complete: references and structure pointers stay inside that heap, an atom or functor cell names an entry of the functor table with exactly that arity, and all its arguments lie inside the heap.", "quantifier": "all sessions, all states between turns, all waiting executors, all addresses", "why_tests_cant": "Invariant over all executions and all layered heaps.", "anchors": ["src/wam/instructions/instructions.cpp: 16-53, 55-208, 282-344", "src/wam/executor/executor.cpp: heap_at"]}
{"id": "C46", "title": "The tree shows exactly the delivered answers and the counted calls", "statement": "The answers at the leaves of the unification tree are exactly the answers get_answer has delivered since load_query, each as often as delivered, and the number of query nodes whose goal has been called equals the resolve counter modulo 2^32.", "quantifier": "all sessions, all sequences of get_answer calls", "why_tests_cant": "All executions, any interleaving of time limits.", "anchors": ["src/wam/visual/unification_tree/unification_tree.cpp: make_tree 15-50", "src/wam/bfs_organizer/bfs_organizer.cpp: 50-106"]}
{"id": "C47", "title": "Rejected texts leave the tree alone", "statement": "After load_program or load_query has rejected a text, get_unification_tree returns the same tree as before.", "quantifier": "all states, all texts", "why_tests_cant": "All texts and all states.", "anchors": ["src/wam/visual/unification_tree/unification_tree.cpp: make_tree", "src/wam/bfs_organizer/bfs_organizer.cpp: load_program, load_query"]}
{"id": "C48", "title": "A query node is labelled with the goal called there", "statement": "The label of a query node that is not pending is the goal called there under the bindings at the time of the call.", "quantifier": "all sessions, all nodes", "why_tests_cant": "All programs and all register allocations.", "anchors": ["src/wam/visual/unification_tree/unification_tree.cpp: resolve_query_node_name 55-72"]}
{"id": "C49", "title": "get_unification_tree always returns", "statement": "get_unification_tree returns a tree, without undefined behaviour, whenever it is called between other calls.", "quantifier": "all reachable states", "why_tests_cant": "All executions; needs particular orders of calls.", "anchors": ["src/wam/visual/unification_tree/unification_tree.cpp: make_tree, resolve_query_atoms_name", "src/wam/bfs_organizer/bfs_organizer.cpp: get_unification_tree"]}
{"id": "C50", "title": "Labels are unambiguous", "statement": "Within one node of the tree different variables are shown by different names, and lists with an open end differ from closed ones.", "quantifier": "all sessions, all nodes", "why_tests_cant": "Depends on name coincidences.", "anchors": ["src/wam/visual/unification_tree/unification_tree.cpp: resolve_query_node_name, resolve_var_binding_node", "src/wam/compiler/util/node.cpp: 13-78"]}
{"id": "C51", "title": "Bindings in the unification tree are most general unifiers", "statement": "Wherever the tree shows a goal as matched by a clause, the bindings shown there (for variables of the goal and of the head) make the label of the goal and the head of the clause equal, and every unifier of the two is an instance of them; where none are shown the clause does not match or has not been tried yet.", "quantifier": "all sessions, all nodes of the tree", "why_tests_cant": "All programs and states; generality quantifies over all unifiers.", "anchors": ["src/wam/visual/unification_tree/unification_tree.cpp: resolve_parent, erase_similar", "include/prolog_bfs/wam/visual/unification_tree/util/node_var_util.h: 19-27"]}
{"id": "C52", "title": "The unification tree names only what is in the source", "statement": "Every variable shown in a label or binding of the unification tree has the name of a variable of the query, of the program or of the clauses of the built-in append/3, and every constant shown occurs in one of these (numbers aside, which may be computed).", "quantifier": "all sessions, all nodes of the tree that have run", "why_tests_cant": "All programs, states and amounts of sharing between heaps; a wrong index into the tables of names shows some other valid name.", "anchors": ["src/wam/visual/unification_tree/unification_tree.cpp: resolve_query_node_name, resolve_var_binding_node", "include/prolog_bfs/wam/bfs_organizer/data/storage.h", "src/wam/compiler/util/node.cpp: 13-78"]}
{"id": "C53", "title": "The time limit in force is the one set last", "statement": "get_answer is stopped by the time limit exactly when the clock reading since its start exceeds the limit set by the last set_time_limit call (the initial limit if there was none), whatever programs and queries were loaded in between; it answers OUT_OF_TIME only then, and whenever a turn without result ends after the limit.", "quantifier": "all histories of calls, all clocks, all programs", "why_tests_cant": "Every history of calls and every sequence of clock readings; tests with real clocks see only a few of them.", "anchors": ["src/wam/bfs_organizer/bfs_organizer.cpp: 65-70, 190-192", "include/prolog_bfs/wam/bfs_organizer/bfs_organizer.h: 42,53"]}
{"id": "C54", "title": "Every text of an expression stands for exactly one expression, which the parser finds", "statement": "Let a text stand for an expression if it arises from it by writing ^ tighter than * and //, and these tighter than + and -, the right operand of + - * and // possibly an operation of the same priority without parentheses, with any blanks and additional parentheses. Then: no text stands for two expressions; every expression of the grammar has a text; the parser reads each such text as the expression it stands for, in queries and programs with infix is; and whatever the parser accepts as an expression is such a text.", "quantifier": "all expressions, all texts", "why_tests_cant": "Priorities, parentheses, blanks and chains of any length and depth in any combination; tests cover a handful of texts.", "anchors": ["include/prolog_bfs/wam/compiler/parser/base_grammar.h", "src/wam/compiler/util/node.cpp: 60-106"]}
{"id": "C55", "title": "Programs named on the command line are loaded", "statement": "The terminal program reads each file named on the command line and answers queries from its clauses; names it cannot load leave the program unchanged.", "quantifier": "all file names and contents", "why_tests_cant": "The repository's tests call the interpreter directly; all names.", "anchors": ["src/app_runner/normal_mode.cpp: 18-25", "include/prolog_bfs/program_arguments/parser.h"]}
{"id": "C56", "title": "The terminal shows exactly the results of the typed queries", "statement": "At every prompt, the output so far consists of the results of consecutive calls of get_answer for the queries typed so far, in order, nothing left out or added; the input read consists of exactly these queries and one semicolon per further result; and every query was either loaded, and its results are those of a run of it, or rejected, and there are only 'false'.", "quantifier": "all command lines, inputs and numbers of rounds", "why_tests_cant": "All inputs and interleavings of answers, errors and rejected texts.", "anchors": ["src/app_runner/normal_mode.cpp: 27-86"]}
{"id": "C57", "title": "Runtime errors do not end the terminal program", "statement": "After a runtime error the message is shown and the next query can be typed.", "quantifier": "all inputs", "why_tests_cant": "All points at which an error may occur.", "anchors": ["src/app_runner/normal_mode.cpp: 46-78", "include/prolog_bfs/wam/bfs_organizer/data/result.h: 39-42"]}
{"id": "C58", "title": "The terminal program ends with q. or the input", "statement": "The terminal program ends if 'q.' is typed at the prompt or the input ends, and not otherwise.", "quantifier": "all inputs", "why_tests_cant": "All inputs; non-termination.", "anchors": ["src/app_runner/normal_mode.cpp: 34-42"]}
{"id": "C59", "title": "Exactly the documented language is accepted", "statement": "The parser accepts exactly the texts of a fixed grammar (clauses, comments, structures, constants, variables, numbers, lists with a variable or a list as tail, operator expressions, ==, \\==, is), with blanks anywhere between words and signs except between a functor's name and its bracket, and every accepted text has one reading.", "quantifier": "all texts", "why_tests_cant": "Tests try a few texts; both directions over all texts, and uniqueness, need a proof about the ordered-choice parser.", "anchors": ["include/prolog_bfs/wam/compiler/parser/base_grammar.h: 72-130", "include/prolog_bfs/wam/compiler/parser/program_grammar.h: 30-50", "include/prolog_bfs/wam/compiler/parser/query_grammar.h: 28-34", "include/prolog_bfs/wam/compiler/parser/parser.h: 18-46"]}
{"id": "C60", "title": "Recorded lines and texts are those of the source", "statement": "For every accepted text, every clause and every atom is recorded with exactly its own text, without blanks or comments around it, and with the lines on which this text begins and ends; a query is recorded with its own text and the largest unsigned number as line.", "quantifier": "all texts", "why_tests_cant": "Tests check positions of a few texts; blanks, comments and line breaks can stand anywhere.", "anchors": ["include/prolog_bfs/wam/compiler/parser/base_grammar.h: 104-106", "include/prolog_bfs/wam/compiler/parser/program_grammar.h: 36-48", "include/prolog_bfs/wam/compiler/parser/query_grammar.h: 30-32", "include/prolog_bfs/wam/compiler/parser/util/parser_util.h: 22-35", "src/wam/compiler/parser/util/parser_util.cpp: 5-10"]}
{"id": "C61", "title": "Rules and errors carry the position of the right clause and atom", "statement": "The rules stored for a predicate are those of its clauses in the order of the text, each with the position of its clause and with the positions of its atoms; an error of the compiler carries the position of a head that redefines a built-in predicate, or of a goal with an expression over a variable that is not known there.", "quantifier": "all texts, all orders of permanent variables, all storages", "why_tests_cant": "Atoms are moved through the compiler in three different places; only a proof covers all shapes of clauses.", "anchors": ["src/wam/compiler/compiler.cpp: 429-484, 487-585", "src/wam/compiler/checks/undefined_var.cpp: 9-26", "src/wam/compiler/checks/redefinition_of_built_in_pred.cpp: 8-18", "include/prolog_bfs/wam/compiler/error/compiler_error.h: 42-44"]}
{"id": "C62", "title": "A syntax error is reported where the text goes wrong", "statement": "The line reported for a syntax error is the line of the first place at which the text can no longer be continued to an accepted one.", "quantifier": "all texts", "why_tests_cant": "Every place of the grammar can fail, after any text and with any blanks and line breaks; tests try a few.", "anchors": ["include/prolog_bfs/wam/compiler/parser/base_grammar.h: 81-129", "include/prolog_bfs/wam/compiler/parser/program_grammar.h: 36-48", "include/prolog_bfs/wam/compiler/parser/query_grammar.h: 30-32", "include/prolog_bfs/wam/compiler/parser/util/error_handler.h: 20-32", "include/prolog_bfs/wam/compiler/parser/parser.h: 18-46"]}
{"id": "C63", "title": "The text of an answer determines the answer", "statement": "get_answer_as_str gives false for no answer, true for an answer without variables, and otherwise the bindings in order; two results with the same text have the same bindings.", "quantifier": "all pairs of objects, all sequences of calls on each of them, all results that are not errors", "why_tests_cant": "Terms may themselves contain brackets, blanks, slashes and names of variables, so one text could be cut into bindings in several ways; tests look at few answers.", "anchors": ["src/wam/bfs_organizer/data/result.cpp: 8-27", "src/wam/data/var_binding.cpp: 6-9", "src/wam/visual/substitution_util.cpp: 70-262"]}
{"id": "C64", "title": "An error at run time names the goal that failed", "statement": "The code_info of a runtime error is the line and the text of the goal of the program or of the query whose evaluation failed.", "quantifier": "all objects, all sequences of calls", "why_tests_cant": "Positions are carried by the code pointers of the executors through calls, copies and deallocations; tests see the positions of few errors and can not exclude that others carry a different one.", "anchors": ["src/wam/runtime_errors/err_handling.cpp: 8-27", "src/wam/built_in_predicates/arithmetic/checks/arithmetic_checks.cpp: 9-18", "src/wam/compiler/built_in_pred_comp.cpp: 11-21", "include/prolog_bfs/wam/data/source_code_info.h: 14-28"]}
{"id": "C65", "title": "The web page shows the results of the query, in order", "statement": "The paragraphs of a result box are the results of get_answer other than time-outs, in the order of the calls; every click on Next is answered by exactly one paragraph; Next is enabled exactly when a paragraph is there and none says false; false means that there is no further answer.", "quantifier": "all programs and queries, all sequences of clicks, timers and time-outs, in any order", "why_tests_cant": "Answers arrive by timers that may fire in any order while further clicks are made, with any number of time-outs in between; tests of the page try few of these orders.", "anchors": ["web/assets/js/prolog_bfs/classes/InterpreterHandler.js: 15-175", "web/assets/js/prolog_bfs/classes/Result.js: 25-96", "web/assets/js/prolog_bfs/main.js: 58-90", "wasm/wasm.cpp: 13-57"]}
{"id": "C66", "title": "What is put into the page as markup contains none", "statement": "Queries and results, which the page inserts with innerHTML, contain none of the characters < > &.", "quantifier": "all programs and queries, all sequences of clicks, timers and time-outs", "why_tests_cant": "Names, numbers, terms and texts of errors are combined without bound; that no combination contains markup has to be shown for all of them.", "anchors": ["web/assets/js/prolog_bfs/classes/Result.js: 25-57", "src/wam/bfs_organizer/data/result.cpp: 8-27", "src/wam/runtime_errors/err_handling.cpp: 8-27", "include/prolog_bfs/wam/compiler/parser/query_grammar.h: 30-32"]}
{"id": "C67", "title": "The picture of the tree is the search tree", "statement": "The nodes and edges handed to the drawing library form a tree with the root 0 and no number used twice; below each query node stand the clauses for its goal in textual order, or 'no such rule' if there are none; the green nodes are the answers delivered, and the nodes to continue are as many as the executors in the queue; 'not unifiable' stands where a head does not unify.", "quantifier": "all programs and queries, after any sequence of calls, at any time of the search", "why_tests_cant": "Trees are of any size and shape, and negative and non-negative numbers are given out in an interleaved breadth-first walk; tests look at few small trees.", "anchors": ["web/assets/js/prolog_bfs/classes/TreeView.js: 124-314", "include/prolog_bfs/wam/visual/unification_tree/query_node.h: 66-104", "include/prolog_bfs/wam/visual/unification_tree/var_binding_node.h: 75-135"]}
{"id": "C68", "title": "The window shows the present tree of the box it was opened for", "statement": "After a click on 'Show tree view' the window shows the tree of this box in its present state; boxes do not influence one another.", "quantifier": "all sequences of events on the page, any number of boxes, timers firing in any order", "why_tests_cant": "Whether a drawing is kept depends on counters shared by all boxes and on the order of clicks and timers; the failing orders need a time-out at the right moment.", "anchors": ["web/assets/js/prolog_bfs/classes/TreeView.js: 55-112, 317", "web/assets/js/prolog_bfs/classes/InterpreterHandler.js: 88-92, 159-179", "web/assets/js/prolog_bfs/main.js: 58-77"]}
{"id": "C69", "title": "Where the tree says a clause does not fit, it does not", "statement": "Where the unification tree marks a clause below a goal as failed, no instance of the goal as labelled is an instance of the head of the clause; for ==, \\== and is, what they test does not hold of the label; a clause ended with an error only for the evaluation of an expression that has no value or contains an unbound variable.", "quantifier": "all programs and queries within the hypotheses of C48, every node of the tree after any sequence of calls", "why_tests_cant": "It compares two computations, the machine's on registers and heap layers and the tree's reading of labels, for every pair of goal and clause.", "anchors": ["include/prolog_bfs/wam/visual/unification_tree/var_binding_node.h: 60-135", "src/wam/instructions/instructions.cpp", "src/wam/executor/executor.cpp", "web/assets/js/prolog_bfs/classes/TreeView.js: 150-314"]}
{"id": "C70", "title": "Lines and texts shown in the tree", "statement": "The line and the text shown with a node of the unification tree are those of the goal the node stands for in the program or the query; those shown with a branch are those of the head of the clause tried there, and the branches are in the order of the clauses; built-in predicates are shown as such.", "quantifier": "all programs, all queries, every node of the tree after any sequence of calls that did not run out of memory", "why_tests_cant": "The position travels from the parser through the compiler into every copy of the instruction list an executor holds; each call, return and deallocation moves it, for trees of every shape.", "anchors": ["web/assets/js/prolog_bfs/classes/TreeView.js: 164-179, 215-280", "include/prolog_bfs/wam/visual/unification_tree/query_node.h: 95-118", "include/prolog_bfs/wam/visual/unification_tree/var_binding_node.h: 155-175", "include/prolog_bfs/wam/data/source_code_info.h: 10-29", "src/wam/compiler/compiler.cpp: 560-590"]}
{"id": "C71", "title": "What the page says about a rejected program or query", "statement": "After a click on Run, either a result box is opened or an alert names the reason and the line at which the program or the query is rejected, and the place is marked in the editor.", "quantifier": "all program and query texts, all words of the parser generator for what it expected", "why_tests_cant": "The alert depends on the kind of the first error in an arbitrary text and on positions carried from the parser through the compiler to the page.", "anchors": ["web/assets/js/prolog_bfs/classes/InterpreterHandler.js: 43-72", "web/assets/js/prolog_bfs/classes/SyntaxError.js: 12-46", "web/assets/js/prolog_bfs/main.js: 58-77", "include/prolog_bfs/wam/compiler/error/compiler_error.h: 13-48", "src/wam/compiler/checks/undefined_var.cpp: 9-26", "src/wam/compiler/checks/redefinition_of_built_in_pred.cpp: 8-18"]}
{"id": "C72", "title": "An answer can be read", "statement": "Whoever reads the texts of an answer as terms in standard notation, capitalised names being variables, reads the terms the variables of the query are bound to, except for which variables of the same name are the same; and if the texts are read as ground terms, the instance of the query with these terms is a consequence of the program.", "quantifier": "all programs, queries, executions, and readings of the texts", "why_tests_cant": "Ambiguity of a notation and all programs that produce an answer are unbounded.", "anchors": ["src/wam/visual/substitution_util.cpp: 71-183", "src/wam/visual/substitution_util.cpp: find_substitutions_from_orig_query 214-266"]}
{"id": "C73", "title": "The place of a syntax error in the editor", "statement": "For a syntax error the line and the column at which the parser stopped are marked in the editor, and the cursor is put there.", "quantifier": "all program and query texts, both ways in which releases of Boost find the start of a line", "why_tests_cant": "The place depends on an arbitrary text with tabs and line breaks of three kinds before the mistake.", "anchors": ["include/prolog_bfs/wam/compiler/parser/util/error_handler.h: 24-32", "include/prolog_bfs/wam/compiler/parser/base_grammar.h: 163-172", "web/assets/js/prolog_bfs/classes/SyntaxError.js: 12-39", "web/assets/js/prolog_bfs/classes/InterpreterHandler.js: 51, 54, 64, 67"]}
{"id": "C74", "title": "Marks and the alert in the course of time", "statement": "At all times exactly the place of the error reported last is marked in the editors and its alert shown, until the text in question is changed; then neither is.", "quantifier": "all sequences of clicks on Run, changes of either text and clicks on the cross of the alert, all texts", "why_tests_cant": "Marks and registered functions accumulate over arbitrarily long sequences of events in two editors.", "anchors": ["web/assets/js/prolog_bfs/classes/SyntaxError.js: 4-51", "web/assets/js/prolog_bfs/classes/Alert.js: 1-28", "web/assets/js/prolog_bfs/main.js: 58-77", "web/assets/js/prolog_bfs/ace_editor_setup.js: 1-27"]}
{"id": "C75", "title": "Saved texts come back", "statement": "The program and the query saved when the page is closed are in the editors when it is opened again within seven days.", "quantifier": "all texts, whatever was saved before", "why_tests_cant": "Texts contain arbitrary characters, which are encoded, and have any length.", "anchors": ["web/assets/js/prolog_bfs/main.js: autosave 92-120", "web/assets/js/prolog_bfs/ace_editor_setup.js: 13-28", "web/assets/js/prolog_bfs/config.js: 1-5"]}
{"id": "C76", "title": "Buttons act on the box they stand in", "statement": "The answers to a query are shown in the box of that query, Next asks the interpreter of the box it stands in, and the cross removes the box it stands in and clears its interpreter and no other.", "quantifier": "all sequences of clicks on Run, Next, continue search and crosses, and of timers, whatever the clock says at the clicks on Run", "why_tests_cant": "Boxes are found by numbers taken from the clock; which element and which object a number stands for depends on the whole history of the page.", "anchors": ["web/assets/js/prolog_bfs/main.js: instances 6, onRunClicked 58-77", "web/assets/js/prolog_bfs/classes/InterpreterHandler.js: instanceid 8, getAnswer 101-148, onNextClicked 157-173, kill 184-191", "web/assets/js/prolog_bfs/classes/Result.js: 25-95"]}
{"id": "C77", "title": "Short texts do not fill the tables", "statement": "If the texts loaded into one interpreter, accepted or rejected, have together at most 10000 characters, then its tables of functors and of variable names have at most 32768 entries and no functor has more than 32767 arguments.", "quantifier": "all interpreters, all sequences of program loads, query loads, time limits and calls of get_answer", "why_tests_cant": "All texts up to a length and all histories; the tables are never cleared, so the bound is about the whole history.", "anchors": ["src/wam/compiler/compiler.cpp: 27-585", "src/wam/compiler/built_in_pred_comp.cpp: 11-61", "include/prolog_bfs/wam/bfs_organizer/data/storage.h: functor_index_of", "src/wam/bfs_organizer/bfs_organizer.cpp: 72-134"]}
{"id": "C78", "title": "What a result box says is true", "statement": "Every answer shown in a result box of the web page is a solution of the query in the editor with respect to the program in the editor, and when false is shown every solution is an instance of an answer shown.", "quantifier": "all program and query texts, all sequences of clicks and timers, all timings of the search", "why_tests_cant": "It combines the parser, the compiler, the machine, the search and the page for all texts and all schedules.", "anchors": ["web/assets/js/prolog_bfs/main.js: onRunClicked 58-77", "web/assets/js/prolog_bfs/classes/InterpreterHandler.js: 15-175", "wasm/wasm.cpp: 13-57", "src/wam/bfs_organizer/bfs_organizer.cpp", "src/wam/compiler/compiler.cpp"]}
{"id": "C79", "title": "Clicks on Run before the interpreter is there", "statement": "A click on Run before the WebAssembly runtime is initialised tells the user to wait, and has no influence on what happens afterwards.", "quantifier": "all sequences of clicks on Run, changes of the editors and clicks on the cross of the alert, before and after the runtime is there", "why_tests_cant": "When the runtime gets there depends on the network; a page tested locally has it at once.", "anchors": ["web/assets/js/prolog_bfs/main.js: 9-42, onRunClicked 58-77", "web/assets/js/prolog_bfs/classes/InterpreterHandler.js: constructor 15-27", "web/assets/js/prolog_bfs/classes/Alert.js: 1-28"]}
{"id": "C80", "title": "A query typed at the terminal is read whole", "statement": "If a query and its full stop come next at the prompt of the terminal program, on one or more lines, exactly this query is loaded, its first result is shown, and the rest of the line behind the full stop has no influence.", "quantifier": "all command lines, inputs and points of the dialogue", "why_tests_cant": "All query texts: the input is cut at the first full stop, so that no query may contain another one.", "anchors": ["src/app_runner/normal_mode.cpp: 33-56", "include/prolog_bfs/wam/compiler/parser/query_grammar.h", "src/wam/bfs_organizer/util/bfs_util.cpp: 8-20"]}
{"id": "C81", "title": "The terminal program reports texts that are no queries", "statement": "If what is typed at the prompt is no query, this is reported, and the next query can be typed.", "quantifier": "all command lines, inputs and points of the dialogue", "why_tests_cant": "All texts outside the language of queries.", "anchors": ["src/app_runner/normal_mode.cpp: 43-56"]}
{"id": "C82", "title": "Every call of get_answer returns", "statement": "Once the clock has passed the time limit a call of get_answer returns: with an answer, a runtime error, FALSE, OUT_OF_TIME or OUT_OF_MEMORY.", "quantifier": "all programs, queries, earlier calls and clocks that pass the limit", "why_tests_cant": "The clock is read between turns only, so this needs that no single turn runs forever, in any program and at any branch of the search; a test that hangs proves nothing about the others.", "anchors": ["src/wam/bfs_organizer/bfs_organizer.cpp: 59-106", "src/wam/instructions/instructions.cpp"]}
