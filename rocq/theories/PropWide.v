(** Tables with more entries than indices of type short can tell apart. *)
From Coq Require Import NArith.
From Verif Require Import Base Heap Machine Compiler Parser Print Organizer Examples Session Spec Valuation Process Builtins Runs Settle Answers Clause Atoms Faithful Ready Finite Tree Bound
  Isolation Wide WideMore.
Open Scope string_scope.
Open Scope list_scope.

(** C37: 32768 functors are the most; with one more get_answer reads outside the table. The program has facts only. *)
Theorem C37_functors_refuted : exists o P q, session cfg0 o P (QFresh q) /\ Z.of_nat (List.length (s_functors (o_sto o))) = 32769%Z /\
  (forall f, In f (s_functors (o_sto o)) -> fv_arity f <= 2) /\ (Z.of_nat (List.length (s_vars (o_sto o))) <= 32768)%Z /\
  no_clash cfg0 P /\ all_goals no_is P q /\ exists fuel n w u, get_answer cfg0 fuel n w o = Ub u.
Proof. exact wide_crash. Qed.
Print Assumptions C37_functors_refuted.

(** C45: a cell of a waiting executor that names no entry of the table *)
Theorem C45_functors_refuted : exists o P q o1 id a, session cfg0 o P (QFresh q) /\ Z.of_nat (List.length (s_functors (o_sto o))) = 32769%Z /\
  (forall f, In f (s_functors (o_sto o)) -> fv_arity f <= 2) /\ quiet cfg0 1000 o o1 /\ In id (o_queue o1) /\ allocated o1 id a /\
  forall c, reads o1 id a = Some c -> ~ cell_complete o1 id a c.
Proof. exact wide_cell. Qed.
Print Assumptions C45_functors_refuted.

(** C01: a wrong answer from facts about constants; two constants have the same index. Facts and query are of the form f(c). *)
Theorem C01_functors_refuted : exists o P q rs o', session cfg0 o P (QFresh q) /\ Z.of_nat (List.length (s_functors (o_sto o))) = 65539%Z /\
  (forall f, In f (s_functors (o_sto o)) -> fv_arity f <= 2) /\ no_clash cfg0 P /\ (forall a, In a (List.concat P ++ q) -> exists f c, a = NFun f [NCon c]) /\
  run cfg0 o rs o' /\ In (RAnswer []) (delivered rs) /\ ~ exists v, forall a, In a q -> prov (pow_of cfg0) (P ++ append_prog) (inst v a).
Proof. exact wide_unsound. Qed.
Print Assumptions C01_functors_refuted.

(** C43: failure is reported though the only true instance of p(X) has not been delivered, but an untrue one. *)
Theorem C43_functors_refuted : exists o P q rs o' v, session cfg0 o P (QFresh q) /\ Z.of_nat (List.length (s_functors (o_sto o))) = 65539%Z /\
  (forall f, In f (s_functors (o_sto o)) -> fv_arity f <= 2) /\ no_clash cfg0 P /\ all_goals no_compare P q /\ all_goals no_is P q /\
  run cfg0 o rs o' /\ delivered rs = [RAnswer [("X", "c")]; RFalse] /\ (forall a, In a q -> prov (pow_of cfg0) (P ++ append_prog) (inst v a)) /\
  forall b sg g, In (RAnswer b) (delivered rs) -> Spec.reads b sg -> (forall x, In x (flat_map nvars q) -> spelled (sg x) = true) ->
    exists x, In x (flat_map nvars q) /\ ginst g (sg x) <> v x.
Proof. exact wide_incomplete. Qed.
Print Assumptions C43_functors_refuted.

(** C03: with 65539 functors the head p(z) matches the argument c: the code succeeds though no values make them equal. *)
Theorem C03_functors_refuted : exists sto h ha m TA m', clause_code cfg0 sto false [h] [ha] /\ clause_wf [h] /\
  Z.of_nat (List.length (s_functors sto)) = 65539%Z /\ NoDup (s_functors sto) /\ (forall f, In f (s_functors sto) -> fv_arity f <= 2) /\
  wfh sto 0 (m_heap m) /\ argreg m TA /\ List.length TA = List.length (targs h) /\
  run_local cfg0 sto 10 (removelast (ca_code ha)) (enter ha m) = Val (Cont, m') /\ no_match sto h TA m /\ exists rho, sat sto rho (m_heap m).
Proof. exact wide_head. Qed.
Print Assumptions C03_functors_refuted.

(** C52: the tree shows X = ac though the program is q(y). and the query q(X): ac is a constant of a program that was there before. *)
Theorem C52_functors_refuted : exists o P q rs o' t ex nm k c, session cfg0 o P (QFresh q) /\ parse_program "q(y)." = Some (COk P) /\
  parse_query (append_dot "q(X)") = Some (COk q) /\ run cfg0 o rs o' /\ (forall f, In f (s_functors (o_sto o)) -> fv_arity f <= 2) /\
  make_tree 1000 o' = Val t /\ In (ex, (nm, k, Some ([("X", "ac")], c))) (q_binds t).
Proof. exact wide_shown. Qed.
Print Assumptions C52_functors_refuted.

(** C23: the names of the variables of all queries are kept. [o k] is reached from [o 0] by loading the query p(X) k times; at some number get_answer,
    which gave X = X so far, reads outside the table. *)
Theorem C23_long_session_refuted : exists o : N -> org, (forall k, session cfg0 (o k) [[NFun "p" [NVar "Y"]]] (QFresh px)) /\
  (forall k, load_query cfg0 "p(X)" (o k) = Some (LOk, o (N.succ k))) /\ (forall k, small_tables (o_sto (o k))) /\
  (exists o', get_answer cfg0 1000 1000 w0 (o 32764%N) = Val (RAnswer [("X", "X")], o')) /\ (exists u, get_answer cfg0 1000 1000 w0 (o 32765%N) = Ub u).
Proof. exact many_crash. Qed.
Print Assumptions C23_long_session_refuted.
