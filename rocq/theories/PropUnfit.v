(** What the unification tree says where a clause does not fit the goal. *)
From Verif Require Import Base Machine Heap Compiler Parser Print Organizer Examples Spec Terms Arith Builtins Search Order Tables Clash Runs Answers Session Atoms Clause
  Tree TreeRun TreeFacts TreeSrc TreeShape Labels Bound Unfit.
Open Scope string_scope.
Open Scope list_scope.

(** C69, under the hypotheses of C48. [q_binds t]: as in C51. Where the executor [k] of a clause below the goal with the
    label [nm] has failed (the web page then shows "not unifiable"), no instance of [nm] is one of the head [hd] of that
    clause ([unfit]); for == and \== what they test is not so of the label, for "is" the value is not the left side. *)
Theorem C69_fails_partial cf o P q rs o' fuel t ex nm k bs ke : ord_ok cf -> session cf o P (QFresh q) -> run cf o rs o' ->
  small_tables (o_sto o) -> no_clash cf P -> labelled cf P -> no_cycles cf o ->
  make_tree fuel o' = Val t -> In (ex, (nm, k, bs)) (q_binds t) -> nth_error (o_arena o') k = Some ke -> x_state ke = SFail ->
  exists hd, works_on o' ke hd /\ unfit (pow_of cf) nm hd.
Proof.
  intros OK HS HR SM NC LB NY E Hin Hk Es. pose proof (run_unfit cf OK o P q rs o' fuel t ex nm k bs ke HS HR SM NC LB NY E Hin Hk) as K.
  rewrite Es in K. exact K.
Qed.
Print Assumptions C69_fails_partial.
(** Where it ended with an error, the goal is the evaluation of an expression that has no value, or lacks a variable's. *)
Theorem C69_errors_partial cf o P q rs o' fuel t ex nm k bs ke er : ord_ok cf -> session cf o P (QFresh q) -> run cf o rs o' ->
  small_tables (o_sto o) -> no_clash cf P -> labelled cf P -> no_cycles cf o ->
  make_tree fuel o' = Val t -> In (ex, (nm, k, bs)) (q_binds t) -> nth_error (o_arena o') k = Some ke -> x_state ke = SError er ->
  exists hd, works_on o' ke hd /\ erring (pow_of cf) nm er.
Proof.
  intros OK HS HR SM NC LB NY E Hin Hk Es. pose proof (run_unfit cf OK o P q rs o' fuel t ex nm k bs ke HS HR SM NC LB NY E Hin Hk) as K.
  rewrite Es in K. exact K.
Qed.
Print Assumptions C69_errors_partial.
(** four goals that fail and one that raises an error: the labels, and the executors of the clauses *)
Example C69_hypotheses_met : exists o P q o' rs t, session cfg0 o P (QFresh q) /\ run cfg0 o rs o' /\ small_tables (o_sto o) /\
  no_clash cfg0 P /\ labelled cfg0 P /\ no_cycles cfg0 o /\ make_tree 100 o' = Val t /\
  parse_program "p(X,Y) :- X == Y. p(X,Y) :- X \== X. p(X,Y) :- 3 is 1+1. p(X,Y) :- q(g(X,f(X))). q(g(a,b)). p(X,Y) :- 1 is 1 // 0." = Some (COk P) /\
  parse_query (append_dot "p(A,B)") = Some (COk q) /\
  given_up o' t = [("==(A, B)", 11, false); ("\==(A, A)", 12, false); ("is(3, (1 + 1))", 13, false); ("q(g(A, f(A)))", 14, false);
                   ("is(1, (1 // 0))", 15, true)].
Proof. exact unfit_case. Qed.
(** In full it is false: the clause q(a,Y) is shown as not fitting the label q(a, a). *)
Theorem C69_refuted : exists o P q o' rs t nm ke hd, session cfg0 o P (QFresh q) /\ run cfg0 o rs o' /\
  parse_program "p(X) :- q(X,a). q(a,Y)." = Some (COk P) /\ parse_query (append_dot "p(b)") = Some (COk q) /\ map fst rs = [RFalse] /\
  make_tree 100 o' = Val t /\ In (2, (nm, 3, None)) (q_binds t) /\ node_str nm = Val "q(a, a)" /\ nth_error (o_arena o') 3 = Some ke /\
  x_state ke = SFail /\ works_on o' ke hd /\ special (to_fview hd) = None /\
  exists g v, Forall2 (fun x y => ginst g (rterm x) = inst v y) (rkids nm) (kids hd).
Proof. exact wrong_unfit. Qed.
Print Assumptions C69_refuted.
