(** Every call of get_answer returns. *)
From Verif Require Import Base Machine Heap Facts Compiler Parser Print Organizer Examples Spec Valuation Process Session Search Order Runs
  Builtins Sols Solve Witness Terms Shown Alloc Atoms Clause Answers Complete Total Flat Safe Finite Cyclic Linear LinearCase Clash Size SizeCase IsEnds CallEnds.
Open Scope string_scope.
Open Scope list_scope.

(** C82. [w_time w k]: what the clock shows after [k] turns of the call. Once it shows more than the limit the call is over, whatever the
    results before were. [turns_end]: no single turn runs forever. Missing for the full statement, which is false (below): searches
    with a turn that does not end. *)
Theorem C82_returns_partial cf o P q rs o' w k : session cf o P (QFresh q) -> turns_end cf o -> run cf o rs o' -> (o_limit o' < w_time w k)%Z ->
  exists N, forall fuel n, N <= fuel -> N <= n -> exists r o2, get_answer cf fuel n w o' = Val (r, o2).
Proof. exact (ended_returns cf o P q rs o' w k). Qed.
Print Assumptions C82_returns_partial.

(** Programs whose clause heads repeat no variable, without is or with expressions that can be evaluated: nothing is assumed about turns. *)
Theorem C82_linear_partial cf o P q rs o' w k : ord_ok cf -> session cf o P (QFresh q) -> small_tables (o_sto o) ->
  (Z.of_nat (List.length (s_vars (o_sto o))) <= 32768)%Z -> no_clash cf P -> linear P q -> all_goals no_is P q \/ all_evaluable cf o ->
  run cf o rs o' -> (o_limit o' < w_time w k)%Z ->
  exists N, forall fuel n, N <= fuel -> N <= n -> exists r o2, get_answer cf fuel n w o' = Val (r, o2).
Proof. exact (linear_returns cf o P q rs o' w k). Qed.
Print Assumptions C82_linear_partial.

(** Programs and queries without compound terms, arithmetic and append/3. *)
Theorem C82_datalog_partial cf o P q rs o' w k : ord_ok cf -> session cf o P (QFresh q) -> small_tables (o_sto o) ->
  (Z.of_nat (List.length (s_vars (o_sto o))) <= 32768)%Z -> no_clash cf P -> datalog P q -> run cf o rs o' -> (o_limit o' < w_time w k)%Z ->
  exists N, forall fuel n, N <= fuel -> N <= n -> exists r o2, get_answer cf fuel n w o' = Val (r, o2).
Proof. exact (datalog_returns cf o P q rs o' w k). Qed.
Print Assumptions C82_datalog_partial.

(** [typed cf o P s n]: the texts loaded so far have [n] characters; here all hypotheses can be read off them. *)
Theorem C82_short_texts cf o P q n rs o' w k : ord_ok cf -> typed cf o P (QFresh q) n -> (Z.of_nat n <= 10000)%Z -> Forall roomy_clause P ->
  linear P q -> all_goals no_is P q -> run cf o rs o' -> (o_limit o' < w_time w k)%Z ->
  exists N, forall fuel n, N <= fuel -> N <= n -> exists r o2, get_answer cf fuel n w o' = Val (r, o2).
Proof. exact (short_returns cf o P q n rs o' w k). Qed.
Print Assumptions C82_short_texts.

(** a search without end and without answer: the call returns because of the clock; [soon] shows 0 for ten turns, then one second *)
Example C82_hypotheses_met : exists o P q o', session cfg0 o P (QFresh q) /\
  parse_program "p(X) :- p(f(X))." = Some (COk P) /\ parse_query (append_dot "p(Y)") = Some (COk q) /\
  small_tables (o_sto o) /\ (Z.of_nat (List.length (s_vars (o_sto o))) <= 32768)%Z /\ no_clash cfg0 P /\ linear P q /\ all_goals no_is P q /\
  (o_limit o < w_time soon 11)%Z /\ get_answer cfg0 100 100 soon o = Val (ROutOfTime, o').
Proof. exact returns_case. Qed.

(** after the last answer the search goes on for ever *)
Example C82_datalog_hypotheses_met : exists o P q rs o' o2, session cfg0 o P (QFresh q) /\
  parse_program "e(a,b). e(b,c). t(X,Y) :- t(X,Z), e(Z,Y). t(X,Y) :- e(X,Y)." = Some (COk P) /\ parse_query (append_dot "t(X,c)") = Some (COk q) /\
  small_tables (o_sto o) /\ (Z.of_nat (List.length (s_vars (o_sto o))) <= 32768)%Z /\ no_clash cfg0 P /\ datalog P q /\
  run cfg0 o rs o' /\ delivered rs = [RAnswer [("X", "b")]; RAnswer [("X", "a")]] /\
  (o_limit o' < w_time soon 11)%Z /\ get_answer cfg0 100 100 soon o' = Val (ROutOfTime, o2).
Proof. exact datalog_case. Qed.
Example C82_short_hypotheses_met : exists o P q o', typed cfg0 o P (QFresh q) (String.length "p(X) :- p(f(X))." + S (String.length "p(Y)")) /\
  (Z.of_nat (String.length "p(X) :- p(f(X))." + S (String.length "p(Y)")) <= 10000)%Z /\
  parse_program "p(X) :- p(f(X))." = Some (COk P) /\ parse_query (append_dot "p(Y)") = Some (COk q) /\ Forall roomy_clause P /\ linear P q /\ all_goals no_is P q /\
  (o_limit o < w_time soon 11)%Z /\ get_answer cfg0 100 100 soon o = Val (ROutOfTime, o').
Proof. exact short_returns_case. Qed.

(** The full statement is false: the clock is read between turns only, and without occurs check a single unification can run forever.
    [late] shows 0 for 100 turns, then one second. *)
Theorem C82_returns_refuted : exists o P q,
  parse_program "s :- p(A,f(A)), p(B,f(B)), p(A,B). s :- t1. t1 :- t2. t2 :- t3. t3 :- t4. t4 :- t5. t5. p(X,X)." = Some (COk P) /\
  parse_query (append_dot "s") = Some (COk q) /\
  session cfg0 o P (QFresh q) /\ no_clash cfg0 P /\ small_tables (o_sto o) /\ (Z.of_nat (List.length (s_vars (o_sto o))) <= 32768)%Z /\
  all_goals no_compare P q /\ all_goals no_is P q /\
  (forall k, 100 < k -> (o_limit o < w_time late k)%Z) /\ forall fuel n, get_answer cfg0 fuel n late o = Fuel.
Proof. exact never_returns. Qed.
Print Assumptions C82_returns_refuted.

(** C37, also with is: if every turn ends no call goes wrong. With [C04_linear_is_ends] the hypothesis holds for heads without repeated
    variables, if every expression that is reached can be evaluated. *)
Theorem C37_ends_partial cf o P q rs o' : session cf o P (QFresh q) -> turns_end cf o -> run cf o rs o' -> forall fuel n w u, get_answer cf fuel n w o' <> Ub u.
Proof. exact (ended_no_ub cf o P q rs o'). Qed.
Print Assumptions C37_ends_partial.

Example C37_ends_hypotheses_met : exists o P q rs o', session cfg0 o P (QFresh q) /\
  parse_program "d(0). d(2). r(f(Y)) :- d(X), Y is 4 // X." = Some (COk P) /\ run cfg0 o rs o' /\
  delivered rs = [RError EDivBy0; RAnswer [("Z", "f(2)")]; RFalse] /\ turns_end cfg0 o.
Proof.
  destruct is_case as (o & P & q & rs & o' & A & B & _ & C & D & E & F & G & _ & _ & H & I). exists o, P, q, rs, o'.
  exact (conj A (conj B (conj C (conj D (is_ends cfg0 o P q ord_ok_cfg0 A E F G H I))))).
Qed.
