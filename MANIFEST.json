{
 "claims": [
  {
   "property": "C01",
   "status": "partial",
   "theorems": [
    "C01_answers_sound_partial",
    "C01_datalog_sound",
    "C01_linear_acyclic",
    "C01_linear_sound",
    "C01_short_texts",
    "C01_occurs_check_refuted",
    "C01_functors_refuted"
   ],
   "note": "Proved for executions that bind no variable to a term containing it and tables of at most 32768 functors; proved without that restriction for programs without compound terms and for programs without append/3 whose clause heads repeat no variable (with is: if every expression that is reached can be evaluated). In full it is false: there is no occurs check, and beyond 65536 functors different constants are taken for the same."
  },
  {
   "property": "C02",
   "status": "partial",
   "theorems": [
    "C02_rule_bodies_partial",
    "C02_roomy_rules_partial",
    "C02_roomy_programs",
    "C02_rule_bodies_refuted",
    "C02_unsound_answer_refuted",
    "C02_unwritten_register_refuted"
   ],
   "note": "False in full: a rule whose first body atom needs registers of the head's variables passes wrong arguments (refuted with concrete programs). Proved: for every rule without such a clash (and, in terms of the text, for every roomy rule), all calling goals and heaps, the head matches exactly and every body atom is called with the written arguments. Up to 32768 functors."
  },
  {
   "property": "C03",
   "status": "partial",
   "theorems": [
    "C03_query_partial",
    "C03_clause_partial",
    "C03_functors_refuted"
   ],
   "note": "Queries, all heads, and all body atoms from the second on, for all heaps and argument registers. In full it is false: with more than 65536 functors the head p(z) matches another constant. Missing besides: more than 32768 arguments; executions in which unification does not end (no occurs check), and after binding a variable to a term containing it the statements about values are vacuous."
  },
  {
   "property": "C04",
   "status": "partial",
   "theorems": [
    "C04_complete_partial",
    "C04_with_is_partial",
    "C04_datalog_complete",
    "C04_linear_complete",
    "C04_roomy_linear_complete",
    "C04_linear_is_ends",
    "C04_linear_is_partial",
    "C04_short_texts",
    "C04_blocked_refuted"
   ],
   "note": "Proved when every turn ends, which always holds for programs without compound terms and for programs without append/3 whose clause heads repeat no variable (with is: if every expression that is reached can be evaluated). In full it is false: without occurs check a single unification can loop."
  },
  {
   "property": "C05",
   "status": "proved",
   "theorems": [
    "C05_breadth_first"
   ],
   "note": ""
  },
  {
   "property": "C06",
   "status": "partial",
   "theorems": [
    "C06_nearer_partial",
    "C06_unshared_partial",
    "C06_short_texts",
    "C06_resolution_order_refuted"
   ],
   "note": "False in full: leaving a clause with shared variables takes a turn of its own. Proved: an answer never comes after one whose proofs all take more than one and a half times as many goals; exactly ordered for programs without shared variables between body goals."
  },
  {
   "property": "C07",
   "status": "proved",
   "theorems": [
    "C07_timeouts_pause"
   ],
   "note": ""
  },
  {
   "property": "C08",
   "status": "proved",
   "theorems": [
    "C08_error_drops_one_branch"
   ],
   "note": ""
  },
  {
   "property": "C09",
   "status": "proved",
   "theorems": [
    "C09_textual_order"
   ],
   "note": ""
  },
  {
   "property": "C10",
   "status": "proved",
   "theorems": [
    "C10_unify_is_most_general"
   ],
   "note": ""
  },
  {
   "property": "C11",
   "status": "proved",
   "theorems": [
    "C11_unify_terminates",
    "C11_unify_may_loop"
   ],
   "note": ""
  },
  {
   "property": "C12",
   "status": "partial",
   "theorems": [
    "C12_all_histories_partial",
    "C12_references_end_partial",
    "C12_short_texts",
    "C12_one_end"
   ],
   "note": "Every history of calls, every state between turns and between instructions, every executor, any number of functors. C12_short_texts: in particular whenever each text has fewer than 65535 characters. Missing: texts with a term of 65536 or more arguments."
  },
  {
   "property": "C13",
   "status": "proved",
   "theorems": [
    "C13_turn_isolated",
    "C13_get_answer_isolated"
   ],
   "note": ""
  },
  {
   "property": "C14",
   "status": "proved",
   "theorems": [
    "C14_identity",
    "C14_session"
   ],
   "note": ""
  },
  {
   "property": "C15",
   "status": "proved",
   "theorems": [
    "C15_complement",
    "C15_session"
   ],
   "note": ""
  },
  {
   "property": "C16",
   "status": "proved",
   "theorems": [
    "C16_exact_arithmetic",
    "C16_session",
    "C16_doubles",
    "C16_answer",
    "C16_short_texts"
   ],
   "note": ""
  },
  {
   "property": "C17",
   "status": "proved",
   "theorems": [
    "C17_division_by_zero",
    "C16_session"
   ],
   "note": ""
  },
  {
   "property": "C18",
   "status": "partial",
   "theorems": [
    "C18_floats_partial",
    "C18_never",
    "C18_power_refuted"
   ],
   "note": "False in full: the computation goes through floats of 24 bits. Proved exactly where it holds: operands and power that are floats, if the C library's powf is exact there; every other power comes out wrong."
  },
  {
   "property": "C19",
   "status": "partial",
   "theorems": [
    "C19_nesting_partial",
    "C19_values_partial",
    "C19_associativity_refuted"
   ],
   "note": "False: chains are nested to the right. Proved: which expression a chain stands for; for + only and * only the value is nevertheless the one from left to right, when every intermediate value fits."
  },
  {
   "property": "C20",
   "status": "partial",
   "theorems": [
    "C20_unbound_partial",
    "C20_session_partial",
    "C20_not_arithmetic_partial",
    "C20_not_arithmetic_refuted"
   ],
   "note": "False in full: the functor named in the error is read from a wrong place, which may be undefined. Proved: unbound variables are reported; an atom or compound term gives this kind of error or undefined behaviour."
  },
  {
   "property": "C21",
   "status": "proved",
   "theorems": [
    "C21_append",
    "C21_append_any",
    "C21_faithful",
    "C21_answer"
   ],
   "note": ""
  },
  {
   "property": "C22",
   "status": "partial",
   "theorems": [
    "C22_redefinition",
    "C22_rejected_partial",
    "C22_rejected_replies_partial",
    "C22_rejected_alike_partial",
    "C22_short_texts",
    "C22_later_query_refuted"
   ],
   "note": "Proved: such programs are rejected; a rejected program only adds entries to the symbol tables; without is/2 all later replies, including the statistics, are the same; with is/2 they are the same except that a type error may name another functor or read outside the heap, which really happens (C22_later_query_refuted). C22_short_texts: for texts of altogether at most 10000 characters without any assumption about tables. Missing: tables beyond 32768 entries, and a rejected program directly after OUT_OF_MEMORY."
  },
  {
   "property": "C23",
   "status": "partial",
   "theorems": [
    "C23_fresh_partial",
    "C23_fresh_alike_partial",
    "C23_calls",
    "C23_session",
    "C23_history_partial",
    "C23_history_alike_partial",
    "C23_short_texts",
    "C23_earlier_query_refuted",
    "C23_long_session_refuted"
   ],
   "note": "Proved for every two histories ending with the same program and limit, even with different hash orders: without is/2 the same replies and statistics from load_query on; with is/2 the same except for the functor a type error names (or its read outside the heap), which really depends on earlier queries (C23_earlier_query_refuted). False beyond 32768 entries of a table, which loading enough queries with variables gives (C23_long_session_refuted). Histories: all calls in any order in which get_answer never returned OUT_OF_MEMORY (C23_calls); what holds afterwards is C32."
  },
  {
   "property": "C24",
   "status": "proved",
   "theorems": [
    "C24_distinct",
    "C24_entered",
    "C24_stays",
    "C24_beyond_refuted"
   ],
   "note": "Within the stated limit of 32768 functors; beyond 65536 refuted, as the quantifier says."
  },
  {
   "property": "C25",
   "status": "proved",
   "theorems": [
    "C25_names_of_answers"
   ],
   "note": ""
  },
  {
   "property": "C26",
   "status": "proved",
   "theorems": [
    "C26_ground_terms_printed"
   ],
   "note": ""
  },
  {
   "property": "C27",
   "status": "partial",
   "theorems": [
    "C27_short_texts",
    "C27_partial_lists_refuted",
    "C27_lists_partial",
    "C27_closed",
    "C27_tail_partial",
    "C27_answers_partial"
   ],
   "note": "False in full: the last character of the tail is overwritten. Proved is the exact text of every list, closed or not."
  },
  {
   "property": "C28",
   "status": "proved",
   "theorems": [
    "C28_missing_dot",
    "C28_left_alone",
    "C28_all_texts",
    "C28_twice"
   ],
   "note": ""
  },
  {
   "property": "C29",
   "status": "proved",
   "theorems": [
    "C29_statistics"
   ],
   "note": ""
  },
  {
   "property": "C30",
   "status": "proved",
   "theorems": [
    "C30_unknown_predicate"
   ],
   "note": ""
  },
  {
   "property": "C31",
   "status": "partial",
   "theorems": [
    "C31_reload_refuted",
    "C31_dangling",
    "C31_no_result",
    "C31_no_return",
    "C31_mixed_refuted",
    "C31_before_partial",
    "C31_query_partial",
    "C31_exhausted_partial"
   ],
   "note": "False in full. Proved: once any waiting executor is to work on something stored in the replaced program, get_answer never returns anything but OUT_OF_TIME and, if neither time nor memory runs out, does not return (undefined behaviour); safe before the first answer, when a query is loaded next, and when no branch is left. If only goals of the query wait, the search goes on and can give answers that follow from neither program (C31_mixed_refuted). Missing: in that last case, when walking up through goals of the old program is undefined."
  },
  {
   "property": "C32",
   "status": "partial",
   "theorems": [
    "C32_out_of_memory_refuted",
    "C32_no_answer",
    "C32_bare_partial",
    "C32_built_ins_gone"
   ],
   "note": "False in full: the built-in predicates are gone for good. Proved: no answers until a query is loaded, then the replies are those of an object that never held anything and has no built-in predicates."
  },
  {
   "property": "C33",
   "status": "proved",
   "theorems": [
    "C33_shape",
    "C33_numbers",
    "C33_executors",
    "C33_first"
   ],
   "note": "For every tree that is returned (C49: when none is). After a rejected load_query the tree is the previous one (C47)."
  },
  {
   "property": "C34",
   "status": "partial",
   "theorems": [
    "C34_exact",
    "C34_unseen",
    "C34_only_unseen",
    "C34_textually_earlier_refuted"
   ],
   "note": "False if 'earlier in the same atom' is read as further left: structures below the arguments are compiled first. Proved with the order of compilation, exactly."
  },
  {
   "property": "C35",
   "status": "proved",
   "theorems": [
    "C35_clause",
    "C35_fact",
    "C35_query",
    "C35_distinct",
    "C35_within"
   ],
   "note": ""
  },
  {
   "property": "C36",
   "status": "partial",
   "theorems": [
    "C36_program",
    "C36_query_partial",
    "C36_trailing_text_refuted"
   ],
   "note": "False for queries followed by more text: no error is reported although parsing failed. Everything else proved."
  },
  {
   "property": "C37",
   "status": "partial",
   "theorems": [
    "C37_constructor",
    "C37_load_program",
    "C37_load_query",
    "C37_get_answer_safe_partial",
    "C37_short_texts",
    "C37_ends_partial",
    "C37_functors_refuted"
   ],
   "note": "False in full: with 32769 functors get_answer may read outside the table. Proved for tables of at most 32768 entries."
  },
  {
   "property": "C38",
   "status": "partial",
   "theorems": [
    "C38_big_literals_refuted",
    "C38_not_loaded_program",
    "C38_not_loaded_query"
   ],
   "note": "False: an exception escapes instead of an error being returned; what holds is that no such text is loaded."
  },
  {
   "property": "C39",
   "status": "partial",
   "theorems": [
    "C39_trailing_text_refuted",
    "C39_exact_partial",
    "C39_dropped"
   ],
   "note": "False in full. Proved: exactly which texts are dropped this way, and that all of them are."
  },
  {
   "property": "C40",
   "status": "proved",
   "theorems": [
    "C40_hash_order"
   ],
   "note": "All calls, all histories, any two iteration orders."
  },
  {
   "property": "C41",
   "status": "proved",
   "theorems": [
    "C41_query_roundtrip",
    "C41_program_roundtrip",
    "C41_all_queries",
    "C41_all_programs",
    "C41_characters"
   ],
   "note": ""
  },
  {
   "property": "C42",
   "status": "proved",
   "theorems": [
    "C42_gaps_ignored"
   ],
   "note": ""
  },
  {
   "property": "C43",
   "status": "partial",
   "theorems": [
    "C43_failure_exact_partial",
    "C43_short_texts",
    "C43_functors_refuted"
   ],
   "note": "Proved for tables of at most 32768 functors. In full it is false: beyond 65536 functors failure is reported though the only true instance was not delivered."
  },
  {
   "property": "C44",
   "status": "partial",
   "theorems": [
    "C44_short_texts",
    "C44_variable_names_refuted",
    "C44_names_partial",
    "C44_addresses_partial"
   ],
   "note": "False in full. Proved: every unbound variable has one name from the source, shown as it is or with its address behind it, the former always if it is a name of the query. Missing because false: in one way only, and different variables differently."
  },
  {
   "property": "C45",
   "status": "partial",
   "theorems": [
    "C45_terms_complete_partial",
    "C45_short_texts",
    "C45_functors_refuted"
   ],
   "note": "False in full: from 32769 functors on cells name no entry. Proved up to 32768 functors and arguments."
  },
  {
   "property": "C46",
   "status": "proved",
   "theorems": [
    "C46_answers",
    "C46_calls"
   ],
   "note": ""
  },
  {
   "property": "C47",
   "status": "proved",
   "theorems": [
    "C47_program",
    "C47_query"
   ],
   "note": ""
  },
  {
   "property": "C48",
   "status": "partial",
   "theorems": [
    "C48_labels_partial",
    "C48_roomy_labelled",
    "C48_short_texts",
    "C48_refuted"
   ],
   "note": "False in full: the register of a variable of the first body goal may be overwritten before the label is read (refuted with a rule that has no clash in the sense of C02). Proved for programs without such rules (labelled, a check of the code; roomy_clause is a sufficient condition on the form of the rules), when no cyclic terms arise."
  },
  {
   "property": "C49",
   "status": "partial",
   "theorems": [
    "C49_returns_partial",
    "C49_roomy_linear_returns",
    "C49_short_texts",
    "C49_cyclic_refuted",
    "C49_stale_refuted",
    "C49_memory_refuted"
   ],
   "note": "False in full. Proved: in a session whose search meets no cyclic term the tree is returned, for every program whose first body goals keep their registers (no_clash, labelled), at most 32768 variable names, small tables."
  },
  {
   "property": "C50",
   "status": "partial",
   "theorems": [
    "C50_form_partial",
    "C50_readable",
    "C50_alike_partial",
    "C50_bindings_partial",
    "C50_short_texts",
    "C50_variables_refuted",
    "C50_lists_refuted"
   ],
   "note": "Refuted as stated (variables of one name, open lists). Proved: the text of a label or binding determines it up to exactly these (and the kind of a word), for small tables, no_clash and labelled programs."
  },
  {
   "property": "C51",
   "status": "partial",
   "theorems": [
    "C51_bindings_partial",
    "C51_short_texts",
    "C51_refuted"
   ],
   "note": "False in full, as labels may be wrong (C48). Proved under the hypotheses of C48; 'most general' not for the built-in predicates that compute (is and comparisons)."
  },
  {
   "property": "C52",
   "status": "partial",
   "theorems": [
    "C52_labels_partial",
    "C52_bindings_partial",
    "C52_short_texts",
    "C52_functors_refuted"
   ],
   "note": "In full it is false: with more than 65536 functors a constant of an earlier program is shown. Missing besides: programs whose first body goal overwrites registers of its own label (no_clash, labelled) and tables beyond 32768 variable names. Shown of executors that have run; a goal not run yet has a fixed text."
  },
  {
   "property": "C53",
   "status": "proved",
   "theorems": [
    "C53_in_force",
    "C53_out_of_time",
    "C53_page"
   ],
   "note": "The clock is an input of the model: any readings."
  },
  {
   "property": "C54",
   "status": "proved",
   "theorems": [
    "C54_read",
    "C54_only",
    "C54_unique",
    "C54_all",
    "C54_programs"
   ],
   "note": ""
  },
  {
   "property": "C55",
   "status": "partial",
   "theorems": [
    "C55_files_refuted",
    "C55_names_partial",
    "C55_last_partial"
   ],
   "note": "False in full: the name of the file is taken for the program text. Proved is what happens instead: names that are no program texts are passed over, and of the others the last one counts."
  },
  {
   "property": "C56",
   "status": "proved",
   "theorems": [
    "C56_dialogue",
    "C56_queries"
   ],
   "note": "Queries during which memory runs out are in C56_dialogue but not in C56_queries."
  },
  {
   "property": "C57",
   "status": "partial",
   "theorems": [
    "C57_error_refuted",
    "C57_only_partial"
   ],
   "note": "False in full: an error after ';' makes the program fail. Proved: it fails only then, or on numbers too big for the compiler."
  },
  {
   "property": "C58",
   "status": "partial",
   "theorems": [
    "C58_end_refuted",
    "C58_quits_partial",
    "C58_q_partial",
    "C58_blank_refuted"
   ],
   "note": "False in full: at the end of the input the program goes on for ever, and q. behind an empty line is a query. Proved: it ends if and only if q. (or a final q) comes next at the prompt."
  },
  {
   "property": "C59",
   "status": "proved",
   "theorems": [
    "C59_program",
    "C59_query",
    "C59_program_unique",
    "C59_query_unique",
    "C59_rejected"
   ],
   "note": ""
  },
  {
   "property": "C60",
   "status": "proved",
   "theorems": [
    "C60_program",
    "C60_query",
    "C60_same_program",
    "C60_same_query",
    "C60_lines"
   ],
   "note": ""
  },
  {
   "property": "C61",
   "status": "proved",
   "theorems": [
    "C61_recorded",
    "C61_program_error",
    "C61_query_error",
    "C61_same"
   ],
   "note": ""
  },
  {
   "property": "C62",
   "status": "partial",
   "theorems": [
    "C62_program_partial",
    "C62_query_partial",
    "C62_not_late_partial",
    "C62_same_program",
    "C62_same_query",
    "C62_program_filled",
    "C62_line_refuted",
    "C62_unset_refuted"
   ],
   "note": "False in full: a mistake in a goal is reported at the comma before this goal, which may be on an earlier line, and a query with text behind its dot is refused without a position. Proved: everything before the position reported can be continued to an accepted text, so no error is reported too late."
  },
  {
   "property": "C63",
   "status": "proved",
   "theorems": [
    "C63_text_determines_answer",
    "C63_form",
    "C63_parts"
   ],
   "note": ""
  },
  {
   "property": "C64",
   "status": "partial",
   "theorems": [
    "C64_same",
    "C64_same_start",
    "C64_error_partial",
    "C64_goal_refuted"
   ],
   "note": "False in full: an error at run time always carries the position of the head of the built-in is, never that of the goal. Proved: exactly that, for all histories of calls."
  },
  {
   "property": "C65",
   "status": "partial",
   "theorems": [
    "C65_results_partial",
    "C65_false_text",
    "C65_next",
    "C65_every_click",
    "C65_false_final",
    "C65_memory_refuted",
    "C65_dropped_refuted"
   ],
   "note": "False in full: after a failed allocation the page shows false although answers may be left, and a query followed by further text is answered false without being run. Proved: everything else, for all orders of clicks and timers."
  },
  {
   "property": "C66",
   "status": "partial",
   "theorems": [
    "C66_paragraphs",
    "C66_query_partial",
    "C66_query_refuted"
   ],
   "note": "False in full: a query followed by further text is not refused, and this text is inserted as markup. Proved: results never contain markup, and no other query does."
  },
  {
   "property": "C67",
   "status": "partial",
   "theorems": [
    "C67_drawn",
    "C67_tree",
    "C67_shape",
    "C67_queries",
    "C67_answers",
    "C67_label",
    "C67_label_determines_answer",
    "C67_continue",
    "C67_error_refuted"
   ],
   "note": "False in full: 'not unifiable' is also shown where evaluating an is raised an error. Proved: everything else. Tool tips: C69, C70."
  },
  {
   "property": "C68",
   "status": "partial",
   "theorems": [
    "C68_window",
    "C68_present_partial",
    "C68_since_partial",
    "C68_refuted",
    "C68_boxes"
   ],
   "note": "False in full: an answer that arrives by a timer does not make the drawing outdated, and the old tree is shown. Proved: it is always a tree of that box, and the present one unless a timer of the box fired since drawings were last outdated."
  },
  {
   "property": "C69",
   "status": "partial",
   "theorems": [
    "C69_fails_partial",
    "C69_errors_partial",
    "C69_short_texts",
    "C69_refuted"
   ],
   "note": "False in full: with the wrong labels of C48 a clause may be shown as not fitting a label that is an instance of its head. Proved where C48 holds: rules without the clash of C02 and with labelled first goals, no cyclic terms, tables within 32768 entries."
  },
  {
   "property": "C70",
   "status": "partial",
   "theorems": [
    "C70_positions_partial",
    "C70_text",
    "C70_built_in",
    "C70_refuted"
   ],
   "note": "False in full: a node waiting after the last goal of a clause with variables in two goals shows a line number that was never set and an empty text. Proved: every node whose goal was called and every branch show the right position, waiting nodes the right one or none. Not covered: trees made after a new program was loaded without a new query, or after OUT_OF_MEMORY."
  },
  {
   "property": "C71",
   "status": "partial",
   "theorems": [
    "C71_alert_or_box",
    "C71_reason_partial",
    "C71_silence_partial",
    "C71_silent_refuted",
    "C71_memory_refuted",
    "C71_column_refuted"
   ],
   "note": "False in full: nothing is said about a query with text behind its dot, a number that is too large is taken for a lack of memory, and the column marked for errors of the compiler does not exist. Proved: an alert is shown exactly if no box is opened, with the reason and the line. The column of syntax errors: C73. Not modelled: the words of the parser generator."
  },
  {
   "property": "C72",
   "status": "partial",
   "theorems": [
    "C72_notation",
    "C72_readable_partial",
    "C72_short_texts",
    "C72_improper_refuted"
   ],
   "note": "Proved for answers whose lists are proper, where C01 holds and the table of variables has at most 32768 entries. In full it is false: the tail of an improper list loses its last letter to the bracket, and what remains may be another term."
  },
  {
   "property": "C73",
   "status": "partial",
   "theorems": [
    "C73_program_partial",
    "C73_query_partial",
    "C73_tab_refuted",
    "C73_old_refuted",
    "C73_cursor"
   ],
   "note": "False in full: tabs count as several columns, older releases of Boost count the line break, and the cursor is sent to the line before. Proved: the exact place for texts without tabs, for both releases."
  },
  {
   "property": "C74",
   "status": "partial",
   "theorems": [
    "C74_shown",
    "C74_removed",
    "C74_tidy_partial",
    "C74_for_ever",
    "C74_twice_refuted",
    "C74_elsewhere_refuted",
    "C74_lasting_refuted"
   ],
   "note": "False in full: marks of an error that is reported again stay for ever, a change elsewhere removes marks, and one alert is not hidden by corrections. Proved: all is as stated if every rejected text is changed before the next click on Run."
  },
  {
   "property": "C75",
   "status": "partial",
   "theorems": [
    "C75_read_back",
    "C75_clean",
    "C75_saved_partial",
    "C75_short_partial",
    "C75_empty_refuted",
    "C75_long_refuted"
   ],
   "note": "False in full: an emptied editor is filled with an example, and texts whose cookie is longer than 4096 bytes are not saved. Proved for all others, for all characters."
  },
  {
   "property": "C76",
   "status": "partial",
   "theorems": [
    "C76_own_partial",
    "C76_next_partial",
    "C76_close_partial",
    "C76_answer_refuted",
    "C76_close_refuted",
    "C76_stays"
   ],
   "note": "False in full: if the clock says the same at two clicks on Run, the second answer is shown in the first box, the cross of the first box clears the second interpreter, and the second box can never be closed. Proved if the numbers differ."
  },
  {
   "property": "C77",
   "status": "proved",
   "theorems": [
    "C77_bound",
    "C77_small",
    "C77_any",
    "C77_program_size",
    "C77_query_size",
    "C77_rules",
    "C77_histories"
   ],
   "note": "For every sequence of loads and calls. The bound is 75 + 3n for texts of n characters; 10000 is what it gives for the limit 32768 assumed elsewhere. C77_rules: with conditions on the form of the rules, the other hypotheses of C01 and related theorems follow."
  },
  {
   "property": "C78",
   "status": "partial",
   "theorems": [
    "C78_sound_partial",
    "C78_complete_partial",
    "C78_sound_refuted"
   ],
   "note": "False in full, as C01 is. Proved for texts of less than 10000 characters: sound if the rules are roomy and linear; complete when false is shown without exhausted memory, if the rules are roomy and there is no == , \\== or is."
  },
  {
   "property": "C79",
   "status": "partial",
   "theorems": [
    "C79_nothing",
    "C79_later",
    "C79_told_refuted"
   ],
   "note": "False in full: main.js replaces the function alert by an object, so that the request to wait throws outside the try. Proved: such a click changes nothing, and the page is always the one without it."
  },
  {
   "property": "C80",
   "status": "partial",
   "theorems": [
    "C80_whole_partial",
    "C80_line_refuted",
    "C80_q_refuted"
   ],
   "note": "False in full: the query q cannot be asked, and what stands more than 1024 characters behind the full stop is read as the next query. Proved: every other query is read whole and loaded as it stands, and the rest of the line, if shorter, is skipped."
  },
  {
   "property": "C81",
   "status": "partial",
   "theorems": [
    "C81_reported_refuted",
    "C81_false_partial"
   ],
   "note": "False in full: the error returned by load_query is ignored. Proved: every text that is no query gives 'false', and the next one can be typed."
  },
  {
   "property": "C82",
   "status": "partial",
   "theorems": [
    "C82_returns_partial",
    "C82_linear_partial",
    "C82_datalog_partial",
    "C82_short_texts",
    "C82_returns_refuted"
   ],
   "note": "False in full: without occurs check one unification can run forever, and the clock is read between turns only. Proved when every turn ends, which holds for programs without compound terms, and for programs without append/3 whose clause heads repeat no variable (with is: if every expression that is reached can be evaluated)."
  }
 ]
}