(** The unification tree. [make_tree fuel o]: get_unification_tree. [q_pre t]: the nodes in preorder, for each whether it is a
    query node, its executor and its number; [q_finals t]: the answers at the leaves. *)
From Coq Require Import Sorting.Permutation.
From Verif Require Import Base Machine Heap Compiler Parser Print Organizer Examples Spec Valuation Process Session Atoms Clause Search Order Terms Parsed Tables Clash Runs Answers
  HeapSim Tree TreeRun TreeFacts TreeSrc TreeShape TreeAll TreeCase Labels Bound Shows AnswerText LabelText.
Open Scope string_scope.
Open Scope list_scope.

(** C33. [qshows o P gs t]: [t] is the query node for the goals [gs]; its goal is the first of them, it has one child for each
    clause for that goal in textual order ([clauses_for]: of the program, or built in), and below a clause that matched come its
    body and the remaining goals, or an answer if there are none. *)
Theorem C33_shape cf o P s q fuel t : session cf o P s -> s = QFresh q \/ s = QStarted q -> make_tree fuel o = Val t ->
  qshows o P q t.
Proof. exact (session_shows cf o P s q fuel t). Qed.
Print Assumptions C33_shape.
Theorem C33_numbers fuel o t : make_tree fuel o = Val t -> q_ids t = seq 0 (List.length (q_ids t)).
Proof. exact (tree_ids fuel o t). Qed.
Print Assumptions C33_numbers.
Theorem C33_executors cf o P s q fuel t : session cf o P s -> s = QFresh q \/ s = QStarted q -> make_tree fuel o = Val t ->
  Permutation (q_execs t) (seq 0 (List.length (o_arena o))).
Proof. exact (session_execs cf o P s q fuel t). Qed.
Print Assumptions C33_executors.
Theorem C33_first cf o fuel : new_org cf = Val o ->
  make_tree fuel o = Val (QNode 0 0 (Some (RCon "cant determine name yet", "cant determine name yet")) []).
Proof. exact (first_tree cf o fuel). Qed.
Print Assumptions C33_first.

(** C46. [called_nodes]: query nodes whose executor is no longer pending. *)
Theorem C46_answers cf o P q rs o' fuel t : session cf o P (QFresh q) -> run cf o rs o' -> make_tree fuel o' = Val t ->
  Permutation (map (fun x => RAnswer (snd x)) (q_finals t)) (filter is_answer (map fst rs)).
Proof. exact (run_finals cf o P q rs o' fuel t). Qed.
Print Assumptions C46_answers.
Theorem C46_calls cf o P s q fuel t : session cf o P s -> s = QFresh q \/ s = QStarted q -> make_tree fuel o = Val t ->
  o_stats o = (Z.of_nat (List.length (called_nodes o t)) mod 4294967296)%Z.
Proof. exact (session_called cf o P s q fuel t). Qed.
Print Assumptions C46_calls.

Example C33_C46_hypotheses_met : exists o P q o' rs t, session cfg0 o P (QFresh q) /\ run cfg0 o rs o' /\
  make_tree 100 o' = Val t /\ List.length (q_pre t) = 27 /\ List.length (called_nodes o' t) = 9 /\ o_queue o' <> [] /\
  map snd (q_finals t) = [[("V", "c"); ("U", "a")]; [("V", "c"); ("U", "b")]].
Proof. exact big_tree. Qed.

(** C47 *)
Theorem C47_program cf text o r o' fuel t : load_program cf text o = Some (r, o') -> r <> LOk ->
  make_tree fuel o = Val t -> make_tree fuel o' = Val t.
Proof. exact (rejected_program_tree cf text o r o' fuel t). Qed.
Print Assumptions C47_program.
Theorem C47_query cf text o r o' fuel t : load_query cf text o = Some (r, o') -> r <> LOk ->
  make_tree fuel o = Val t -> make_tree fuel o' = Val t.
Proof. exact (rejected_query_tree cf text o r o' fuel t). Qed.
Print Assumptions C47_query.

Example C47_hypotheses_met : exists o P q o' rs t o2 o3, session cfg0 o P (QFresh q) /\ run cfg0 o rs o' /\
  make_tree 100 o' = Val t /\ List.length (q_pre t) = 27 /\
  load_program cfg0 "s(new). append(a,b,c)." o' = Some (LErr CRedef, o2) /\ o_sto o2 <> o_sto o' /\
  load_query cfg0 "p(" o' = Some (LErr CParser, o3).
Proof. exact rejected_case. Qed.

(** C48, refuted: the goal called is q(Y, a). *)
Theorem C48_refuted : exists o P q o' rs, session cfg0 o P (QFresh q) /\ run cfg0 o rs o' /\
  parse_program "p(X) :- q(X,a). q(b,Y)." = Some (COk P) /\ parse_query (append_dot "p(Y)") = Some (COk q) /\
  map fst rs = [RAnswer [("Y", "b")]] /\
  exists t t', make_tree 100 o' = Val t /\ first_below t = Some t' /\ label t' = "q(a, a)" /\ map snd (q_finals t') = [[("Y", "b")]].
Proof. exact wrong_label. Qed.
Print Assumptions C48_refuted.

(** C48, under hypotheses: no rule has the clash of C02 or reuses the register of a variable of its first goal ([labelled]),
    and no cyclic terms arise. [q_labels t]: executor, label and its text, of the query nodes; [solved o e]: the code that
    executor ran, which ends in a call of [f]; [h]: its heap (the layers seen as one) when it called. Its label has the name
    and arity of [f], and each argument of the label is the term in the argument register. *)
Theorem C48_labels_partial cf o P q rs o' fuel t ex nm str e : ord_ok cf -> session cf o P (QFresh q) -> run cf o rs o' ->
  small_tables (o_sto o) -> no_clash cf P -> labelled cf P -> no_cycles cf o ->
  make_tree fuel o' = Val t -> In (ex, nm, str) (q_labels t) -> nth_error (o_arena o') ex = Some e -> x_state e <> SRunning ->
  exists a f h, solved o' e = Val a /\ last (ca_code a) IProceed = ICall f /\
    node_str nm = Val str /\ rname nm = fv_name f /\ List.length (rkids nm) = fv_arity f /\
    hrel (heap_at (o_arena o') (x_parent e)) (m_heap (x_m e)) h /\
    forall i x, nth_error (rkids nm) i = Some x ->
      exists c b, nth_error (m_regs (x_m e)) i = Some c /\ get_heap_i c = Val b /\ rd (o_sto o') h b (rterm x).
Proof. intros OK. exact (run_labels cf OK o P q rs o' fuel t ex nm str e). Qed.
Print Assumptions C48_labels_partial.
(** the rules of C02_roomy_programs have neither defect, whatever the order of the hash tables *)
Theorem C48_roomy_labelled cf text P : ord_ok cf -> parse_program text = Some (COk P) -> Forall roomy_clause P ->
  no_clash cf P /\ labelled cf P.
Proof.
  intros OK E R. exact (conj (roomy_no_clash cf P OK (parse_program_wf text P E) R) (roomy_labelled cf P OK (parse_program_wf text P E) R)).
Qed.
Print Assumptions C48_roomy_labelled.

Example C48_hypotheses_met : exists o P q o' rs t, session cfg0 o P (QFresh q) /\ run cfg0 o rs o' /\ small_tables (o_sto o) /\
  no_clash cfg0 P /\ labelled cfg0 P /\ no_cycles cfg0 o /\ make_tree 100 o' = Val t /\ Forall roomy_clause P /\
  parse_program "len([],z). len([X|T],s(N)) :- len(T,N)." = Some (COk P) /\ parse_query (append_dot "len([a,b],N)") = Some (COk q) /\
  texts t = [(0, "len([a, b], N)"); (3, "len([b], N)"); (6, "len([], N)")] /\
  forall ex, In ex [0; 3; 6] -> exists e, nth_error (o_arena o') ex = Some e /\ x_state e <> SRunning.
Proof. exact labels_case. Qed.

(** C51, under the hypotheses of C48. [q_binds t]: for each child [k] of the query node of the executor [ex], with label
    [nm], what is shown as bound: nothing if the clause does not match or has not been tried, otherwise the texts of the
    bindings [qb] of variables of the label and [fb] of variables of the head [hd] of the clause, [c] of the former.
    [unifier_shown]: they contain no variable as bound to itself, make the label and the head equal ([w]: places of the
    variables of the head), and every unifier is an instance, except for built-in predicates that compute. *)
Theorem C51_bindings_partial cf o P q rs o' fuel t ex nm k bs : ord_ok cf -> session cf o P (QFresh q) -> run cf o rs o' ->
  small_tables (o_sto o) -> no_clash cf P -> labelled cf P -> no_cycles cf o ->
  make_tree fuel o' = Val t -> In (ex, (nm, k, bs)) (q_binds t) ->
  exists ke, nth_error (o_arena o') k = Some ke /\
    match bs with
    | None => (has_failed ke || is_running ke)%bool = true
    | Some (l, c) => (has_failed ke || is_running ke)%bool = false /\
        exists hd w qb fb, works_on o' ke hd /\ strs (qb ++ fb) = Val l /\ c = List.length qb /\ unifier_shown nm hd w qb fb
    end.
Proof. intros OK. exact (run_binds cf OK o P q rs o' fuel t ex nm k bs). Qed.
Print Assumptions C51_bindings_partial.
(** in full it is false: a label that does not unify with the head it is shown to match *)
Theorem C51_refuted : exists o P q o' rs t nm l ke hd, session cfg0 o P (QFresh q) /\ run cfg0 o rs o' /\
  parse_program "p(X) :- q(X,a). q(b,Y)." = Some (COk P) /\ parse_query (append_dot "p(Y)") = Some (COk q) /\
  make_tree 100 o' = Val t /\ In (2, (nm, 3, Some (l, 0))) (q_binds t) /\ nth_error (o_arena o') 3 = Some ke /\ works_on o' ke hd /\
  forall g v, ~ Forall2 (fun x y => ginst g (rterm x) = inst v y) (rkids nm) (kids hd).
Proof. exact wrong_binds. Qed.
Print Assumptions C51_refuted.

Example C51_hypotheses_met : exists o P q o' rs t, session cfg0 o P (QFresh q) /\ run cfg0 o rs o' /\ small_tables (o_sto o) /\
  no_clash cfg0 P /\ labelled cfg0 P /\ no_cycles cfg0 o /\ make_tree 100 o' = Val t /\
  parse_program "p(f(X),Y,Y) :- q(X), r(Y). q(g(Z)). q(h). r(f(h))." = Some (COk P) /\ parse_query (append_dot "p(A,A,B)") = Some (COk q) /\
  texts t = [(0, "p(A, A, B)"); (2, "q(X)"); (5, "r(f(g(Z)))"); (6, "r(f(h))")] /\
  shown_at t = [(0, 1, Some ([("A", "f(X)"); ("B", "f(X)"); ("Y", "f(X)")], 2)); (2, 3, Some ([("X", "g(Z)")], 1));
                (2, 4, Some ([("X", "h")], 1)); (5, 7, None); (6, 8, Some ([], 0))].
Proof. exact binds_case. Qed.

(** C52. Labels and bindings show only variables with names of the query, of the program or of append/3's clauses, and only
    constants of these ([sourced]). *)
Theorem C52_labels_partial cf o P q rs o' fuel t ex nm str e : ord_ok cf -> session cf o P (QFresh q) -> run cf o rs o' ->
  small_tables (o_sto o) -> (Z.of_nat (List.length (s_vars (o_sto o))) <= 32768)%Z -> no_clash cf P -> labelled cf P ->
  make_tree fuel o' = Val t -> In (ex, nm, str) (q_labels t) -> nth_error (o_arena o') ex = Some e -> x_state e <> SRunning ->
  sourced q P nm.
Proof. intros OK HS HR SM VT NC LB. exact (run_labels_sourced cf OK o o' P q rs HS HR SM VT NC LB fuel t ex nm str e). Qed.
Print Assumptions C52_labels_partial.
Theorem C52_bindings_partial cf o P q rs o' fuel t ex nm k l c : ord_ok cf -> session cf o P (QFresh q) -> run cf o rs o' ->
  small_tables (o_sto o) -> (Z.of_nat (List.length (s_vars (o_sto o))) <= 32768)%Z -> no_clash cf P -> labelled cf P ->
  make_tree fuel o' = Val t -> In (ex, (nm, k, Some (l, c))) (q_binds t) ->
  exists bs, strs bs = Val l /\ forall v x, In (v, x) bs -> sourced q P x.
Proof. intros OK HS HR SM VT NC LB. exact (run_binds_sourced cf OK o o' P q rs HS HR SM VT NC LB fuel t ex nm k l c). Qed.
Print Assumptions C52_bindings_partial.

(** C49, where no term is cyclic: whenever it is asked for, the tree is returned. *)
Theorem C49_returns_partial cf o P q rs o' : ord_ok cf -> session cf o P (QFresh q) -> run cf o rs o' -> small_tables (o_sto o) ->
  (Z.of_nat (List.length (s_vars (o_sto o))) <= 32768)%Z -> no_clash cf P -> labelled cf P -> no_cycles cf o ->
  exists N t, forall fuel, N <= fuel -> make_tree fuel o' = Val t.
Proof. intros OK. exact (run_returns cf OK o P q rs o'). Qed.
Print Assumptions C49_returns_partial.

Example C49_C52_hypotheses_met : exists o P q o' rs t, session cfg0 o P (QFresh q) /\ run cfg0 o rs o' /\ small_tables (o_sto o) /\
  (Z.of_nat (List.length (s_vars (o_sto o))) <= 32768)%Z /\ no_clash cfg0 P /\ labelled cfg0 P /\ no_cycles cfg0 o /\ make_tree 100 o' = Val t /\
  parse_program "p(S) :- append([a],R,S), r(S). r([T,b])." = Some (COk P) /\ parse_query (append_dot "p(Z)") = Some (COk q) /\
  texts t = [(0, "p(Z)"); (2, "append([a], R, Z)"); (5, "append([], R, Rs)"); (8, "r([a, Rs])")] /\
  shown_at t = [(0, 1, Some ([("S", "Z")], 0)); (2, 3, None); (2, 4, Some ([("Z", "[a, Rs]"); ("Ys", "R"); ("X", "a"); ("Xs", "[]")], 1));
                (5, 6, Some ([("R", "Rs"); ("List2", "Rs")], 1)); (5, 7, None); (8, 9, Some ([("Rs", "[b]"); ("T", "a")], 1))].
Proof. exact shows_case. Qed.

(** C49, refuted: cyclic terms; a program loaded while the search is under way; exhausted memory. *)
Theorem C49_cyclic_refuted : exists o P q o', session cfg0 o P (QFresh q) /\ run cfg0 o [(RFalse, 2%Z)] o' /\
  parse_program "eq(X,X)." = Some (COk P) /\ parse_query (append_dot "eq(Y,f(Y)), nopred(Y)") = Some (COk q) /\
  (forall fuel t, make_tree fuel o' <> Val t) /\ make_tree 1000 o' = Fuel.
Proof. exact knot_tree. Qed.
Print Assumptions C49_cyclic_refuted.
Theorem C49_stale_refuted : exists o P q o' o2 rs, session cfg0 o P (QFresh q) /\ run cfg0 o rs o' /\
  (exists t, make_tree 100 o' = Val t) /\ load_program cfg0 "p(c)." o' = Some (LOk, o2) /\ make_tree 100 o2 = Ub UDangling.
Proof. exact tree_after_load. Qed.
Print Assumptions C49_stale_refuted.
Theorem C49_memory_refuted : exists o P q o2, session cfg0 o P (QFresh q) /\
  get_answer cfg0 100 100 w_late o = Val (ROutOfMemory, o2) /\ make_tree 100 o2 = Ub UDangling.
Proof. exact tree_after_memory. Qed.
Print Assumptions C49_memory_refuted.

(** C50, what a label does tell. [reading nm]: a label without the heap indices of its variables, without the kinds of its words, and
    with the rest of a list as its last element. [lstr]: how a reading is written. Different readings that come about are written
    differently, so the text of a label determines it up to these three. Missing: tables too big, [no_clash] and [labelled]. *)
Theorem C50_form_partial cf o P q rs o' fuel t ex nm str e : ord_ok cf -> session cf o P (QFresh q) -> run cf o rs o' ->
  small_tables (o_sto o) -> (Z.of_nat (List.length (s_vars (o_sto o))) <= 32768)%Z -> no_clash cf P -> labelled cf P ->
  make_tree fuel o' = Val t -> In (ex, nm, str) (q_labels t) -> nth_error (o_arena o') ex = Some e -> x_state e <> SRunning ->
  well (reading nm) = true /\ str = lstr (reading nm).
Proof. intros OK HS HR SM VT NC LB. exact (label_reads cf OK o o' P q rs HS HR SM VT NC LB fuel t ex nm str e). Qed.
Print Assumptions C50_form_partial.
Theorem C50_readable x y : well x = true -> well y = true -> lstr x = lstr y -> x = y.
Proof. exact (lstr_inj x y). Qed.
Print Assumptions C50_readable.
Theorem C50_alike_partial cf o P q rs o' fuel t ex1 nm1 str1 e1 ex2 nm2 str2 e2 : ord_ok cf -> session cf o P (QFresh q) -> run cf o rs o' ->
  small_tables (o_sto o) -> (Z.of_nat (List.length (s_vars (o_sto o))) <= 32768)%Z -> no_clash cf P -> labelled cf P ->
  make_tree fuel o' = Val t -> In (ex1, nm1, str1) (q_labels t) -> In (ex2, nm2, str2) (q_labels t) ->
  nth_error (o_arena o') ex1 = Some e1 -> nth_error (o_arena o') ex2 = Some e2 -> x_state e1 <> SRunning -> x_state e2 <> SRunning ->
  (str1 = str2 <-> reading nm1 = reading nm2).
Proof. intros OK HS HR SM VT NC LB. exact (labels_alike cf OK o o' P q rs HS HR SM VT NC LB fuel t ex1 nm1 str1 e1 ex2 nm2 str2 e2). Qed.
Print Assumptions C50_alike_partial.
Theorem C50_bindings_partial cf o P q rs o' fuel t ex nm k l c : ord_ok cf -> session cf o P (QFresh q) -> run cf o rs o' ->
  small_tables (o_sto o) -> (Z.of_nat (List.length (s_vars (o_sto o))) <= 32768)%Z -> no_clash cf P -> labelled cf P ->
  make_tree fuel o' = Val t -> In (ex, (nm, k, Some (l, c))) (q_binds t) ->
  exists bs, strs bs = Val l /\ l = map (fun b => (fst (fst b), lstr (reading (snd b)))) bs /\ forall v x, In (v, x) bs -> well (reading x) = true.
Proof. intros OK HS HR SM VT NC LB. exact (binds_read cf OK o o' P q rs HS HR SM VT NC LB fuel t ex nm k l c). Qed.
Print Assumptions C50_bindings_partial.
Example C50_hypotheses_met : exists o P q o' rs t, session cfg0 o P (QFresh q) /\ run cfg0 o rs o' /\ small_tables (o_sto o) /\
  (Z.of_nat (List.length (s_vars (o_sto o))) <= 32768)%Z /\ no_clash cfg0 P /\ labelled cfg0 P /\ make_tree 100 o' = Val t /\
  parse_program "p([a|T],f(U,-5)). p([a,T],f(U,-5))." = Some (COk P) /\ parse_query (append_dot "p(X,Y), r(X,1+Y)") = Some (COk q) /\
  texts t = [(0, "p(X, Y)"); (3, "r([a, T], (1 + f(U, -5)))"); (4, "r([a, T], (1 + f(U, -5)))")] /\
  readings t = [LApp "p" [LWord "X"; LWord "Y"];
    LApp "r" [LList [LWord "a"; LWord "T"]; LOp "+" (LWord "1") (LApp "f" [LWord "U"; LWord "-5"])];
    LApp "r" [LList [LWord "a"; LWord "T"]; LOp "+" (LWord "1") (LApp "f" [LWord "U"; LWord "-5"])]].
Proof. exact label_case. Qed.

(** C50, refuted: two variables with one name; an open list shown as a closed one. *)
Theorem C50_variables_refuted : exists o P q o' rs, session cfg0 o P (QFresh q) /\ run cfg0 o rs o' /\
  parse_program "p(Y) :- q(X,Y). q(a,b)." = Some (COk P) /\ parse_query (append_dot "p(X)") = Some (COk q) /\
  exists t t', make_tree 100 o' = Val t /\ first_below t = Some t' /\ label t' = "q(X, X)" /\
    first_binds t' = Some [("X", "a"); ("X", "b")].
Proof. exact same_label. Qed.
Print Assumptions C50_variables_refuted.
Theorem C50_lists_refuted : exists o P q o' rs, session cfg0 o P (QFresh q) /\ run cfg0 o rs o' /\
  parse_program "p([a|T])." = Some (COk P) /\ parse_query (append_dot "p(X), r(X)") = Some (COk q) /\
  exists t t', make_tree 100 o' = Val t /\ first_below t = Some t' /\ label t' = "r([a, T])".
Proof. exact open_list. Qed.
Print Assumptions C50_lists_refuted.
