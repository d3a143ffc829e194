(** Programs with is whose clause heads repeat no variable: every turn ends if every expression that is reached can be evaluated. *)
From Verif Require Import Base Machine Heap Facts Compiler Parser Print Organizer Examples Spec Valuation Process Session Search Order Runs
  Builtins Arith Sols Solve Witness Terms Shown Alloc Atoms Clause Ready Answers Complete Total Flat Safe Finite Naming Meaning Tree Clash Shows Labels Linear LinearCase IsEnds.
Open Scope string_scope.
Open Scope list_scope.

(** [all_evaluable cf o]: at every branch of the search that is about to run is, [calc] gives the right side a value, or the first problem
    it meets is a division by zero or an unbound variable; so no intermediate value leaves 32 bits and no operand is an atom or a compound term.
    Then no turn runs forever or into undefined behaviour, although is, == and \== are used. *)
Theorem C04_linear_is_ends cf o P q : ord_ok cf -> session cf o P (QFresh q) ->
  small_tables (o_sto o) -> (Z.of_nat (List.length (s_vars (o_sto o))) <= 32768)%Z -> no_clash cf P -> linear P q ->
  (forall root pi p a rest x y, root_of o root -> at_path cf (o_sto o) (o_prog o) root pi p -> p_codes p = a :: rest -> In (IIs x y) (ca_code a) ->
    forall a1 a2, argreg (p_m p) [a1; a2] -> exists t v, rd (o_sto o) (m_heap (p_m p)) a2 t /\ calc (pow_of cf) t = Some v /\ v <> inr PrNotArith) ->
  turns_end cf o.
Proof.
  intros OK HS SM SV NC LN EV. refine (is_ends cf o P q OK HS SM SV NC LN _).
  intros root pi p Hr Hp (a & rest & x & y & Ep & Hi). exact (EV root pi p a rest x y Hr Hp Ep Hi).
Qed.
Print Assumptions C04_linear_is_ends.

(** C04 for such programs: an answer for a provable instance of the query can only be missing if an error about a variable without value
    is delivered. Missing for the full statement, which is false (C04_blocked_refuted): heads that repeat a variable, == and \==. *)
Theorem C04_linear_is_partial cf o P q v : ord_ok cf -> session cf o P (QFresh q) ->
  small_tables (o_sto o) -> (Z.of_nat (List.length (s_vars (o_sto o))) <= 32768)%Z -> no_clash cf P ->
  all_goals no_compare P q -> linear P q -> all_evaluable cf o ->
  (forall a, In a q -> prov (pow_of cf) (P ++ append_prog) (inst v a)) ->
  exists N, (exists rs o', run cf o rs o' /\ List.length rs = N /\ forall r, In r (map fst rs) -> (exists b, r = RAnswer b) \/ exists e, r = RError e) /\
    forall rs o', run cf o rs o' -> N <= List.length (delivered rs) ->
      (exists b, In (RAnswer b) (delivered rs) /\ exists sg g, shown_as cf o P q b sg /\ forall x, In x (flat_map nvars q) -> ginst g (sg x) = v x) \/
      exists x, In (RError (EUnbound x)) (delivered rs).
Proof. intros OK HS SM SV NC A LN EV. exact (is_complete cf o P q OK HS SM SV NC LN v A EV). Qed.
Print Assumptions C04_linear_is_partial.

(** the branch of d(0) ends in an error, the other one in an answer *)
Example C04_linear_is_hypotheses_met : exists o P q rs o', session cfg0 o P (QFresh q) /\
  parse_program "d(0). d(2). r(f(Y)) :- d(X), Y is 4 // X." = Some (COk P) /\ parse_query (append_dot "r(Z)") = Some (COk q) /\
  run cfg0 o rs o' /\ delivered rs = [RError EDivBy0; RAnswer [("Z", "f(2)")]; RFalse] /\
  small_tables (o_sto o) /\ (Z.of_nat (List.length (s_vars (o_sto o))) <= 32768)%Z /\ no_clash cfg0 P /\ Forall roomy_clause P /\
  all_goals no_compare P q /\ linear P q /\ all_evaluable cfg0 o.
Proof. exact is_case. Qed.
