(** ==, \== and is in a search: properties C14 to C17 and C20. *)
From Verif Require Import Base Machine Heap Compiler Parser Print Organizer Examples Spec Valuation Process Session Search Order Runs
  Code Put Get Ready Heads Atoms Clause Builtins Terms Answers Clash Arith Alloc Reached.
Open Scope string_scope.
Open Scope list_scope.

(** [reaches cf o nm p]: [p] is a branch of the search of the session and about to run the code of the built-in predicate [nm].
    The theorems say that its argument registers then hold two finite terms and what its turn does with them. *)

(** C14. *)
Theorem C14_session cf o P q p : ord_ok cf -> session cf o P (QFresh q) -> small_tables (o_sto o) -> no_clash cf P -> no_cycles cf o ->
  reaches cf o "==" p ->
  exists a1 a2 t u, argreg (p_m p) [a1; a2] /\ rd (o_sto o) (m_heap (p_m p)) a1 t /\ rd (o_sto o) (m_heap (p_m p)) a2 u /\
  exists n0, forall fuel, n0 <= fuel ->
    if ident t u then succeeds (o_sto o) fuel p (m_heap (p_m p)) (p_turn cf (o_sto o) fuel (o_prog o) p)
    else p_turn cf (o_sto o) fuel (o_prog o) p = Val PFails.
Proof. intros OK HS SM NC Cy. exact (eq_reached cf o P q OK HS SM NC Cy p). Qed.
Print Assumptions C14_session.
Example C14_session_hypotheses_met : exists o P q p, session cfg0 o P (QFresh q) /\ small_tables (o_sto o) /\ no_clash cfg0 P /\ no_cycles cfg0 o /\
  (Z.of_nat (List.length (s_vars (o_sto o))) <= 32768)%Z /\ reaches cfg0 o "==" p /\
  exists c1 c2 l a1 a2, m_regs (p_m p) = c1 :: c2 :: l /\ addr_of c1 = Some a1 /\ addr_of c2 = Some a2 /\
    rd (o_sto o) (m_heap (p_m p)) a1 (TFun "f" [TVar 1 ""; TVar 4 ""]) /\ rd (o_sto o) (m_heap (p_m p)) a2 (TFun "f" [TVar 1 ""; TVar 1 ""]).
Proof. apply (reach_witness "p(f(Y,Z),Y)." "p(X,V), X == f(V,V)" 3); vm_compute; repeat split. Qed.

(** C15: \== succeeds exactly where == fails. *)
Theorem C15_session cf o P q p : ord_ok cf -> session cf o P (QFresh q) -> small_tables (o_sto o) -> no_clash cf P -> no_cycles cf o ->
  reaches cf o "\==" p ->
  exists a1 a2 t u, argreg (p_m p) [a1; a2] /\ rd (o_sto o) (m_heap (p_m p)) a1 t /\ rd (o_sto o) (m_heap (p_m p)) a2 u /\
  exists n0, forall fuel, n0 <= fuel ->
    if ident t u then p_turn cf (o_sto o) fuel (o_prog o) p = Val PFails
    else succeeds (o_sto o) fuel p (m_heap (p_m p)) (p_turn cf (o_sto o) fuel (o_prog o) p).
Proof. intros OK HS SM NC Cy. exact (neq_reached cf o P q OK HS SM NC Cy p). Qed.
Print Assumptions C15_session.
Example C15_session_hypotheses_met : exists o P q p, session cfg0 o P (QFresh q) /\ small_tables (o_sto o) /\ no_clash cfg0 P /\ no_cycles cfg0 o /\
  (Z.of_nat (List.length (s_vars (o_sto o))) <= 32768)%Z /\ reaches cfg0 o "\==" p /\
  exists c1 c2 l a1 a2, m_regs (p_m p) = c1 :: c2 :: l /\ addr_of c1 = Some a1 /\ addr_of c2 = Some a2 /\
    rd (o_sto o) (m_heap (p_m p)) a1 (TFun "f" [TVar 1 ""; TVar 4 ""]) /\ rd (o_sto o) (m_heap (p_m p)) a2 (TFun "f" [TVar 1 ""; TVar 1 ""]).
Proof. apply (reach_witness "p(f(Y,Z),Y)." "p(X,V), X \== f(V,V)" 3); vm_compute; repeat split. Qed.

(** C16 and C17. [exact_value]: the value of the expression, where every intermediate value fits 32 bits and no divisor is 0;
    [calc] gives the first problem met. *)
Theorem C16_session cf o P q p : ord_ok cf -> session cf o P (QFresh q) -> small_tables (o_sto o) -> no_clash cf P -> no_cycles cf o ->
  reaches cf o "is" p ->
  exists a1 a2 u t, argreg (p_m p) [a1; a2] /\ rd (o_sto o) (m_heap (p_m p)) a1 u /\ rd (o_sto o) (m_heap (p_m p)) a2 t /\
  (forall n, exact_value t = Some n -> exists n0, forall fuel, n0 <= fuel ->
    match u with
    | TInt k => if Z.eqb k n then succeeds (o_sto o) fuel p (m_heap (p_m p)) (p_turn cf (o_sto o) fuel (o_prog o) p)
                else p_turn cf (o_sto o) fuel (o_prog o) p = Val PFails
    | TVar d _ => exists h', succeeds (o_sto o) fuel p h' (p_turn cf (o_sto o) fuel (o_prog o) p) /\ rd (o_sto o) h' d (TInt n) /\
        rd (o_sto o) h' a1 (TInt n) /\
        forall b, b < List.length (m_heap (p_m p)) -> b <> d -> nth_error h' b = nth_error (m_heap (p_m p)) b
    | _ => p_turn cf (o_sto o) fuel (o_prog o) p = Val PFails
    end) /\
  (calc (pow_of cf) t = Some (inr PrDiv0) -> exists n0, forall fuel, n0 <= fuel -> p_turn cf (o_sto o) fuel (o_prog o) p = Val (PErr EDivBy0)).
Proof. intros OK HS SM NC Cy. exact (is_reached cf o P q OK HS SM NC Cy p). Qed.
Print Assumptions C16_session.
Example C16_session_hypotheses_met : exists o P q p, session cfg0 o P (QFresh q) /\ small_tables (o_sto o) /\ no_clash cfg0 P /\ no_cycles cfg0 o /\
  (Z.of_nat (List.length (s_vars (o_sto o))) <= 32768)%Z /\ reaches cfg0 o "is" p /\
  exists c1 c2 l a1 a2, m_regs (p_m p) = c1 :: c2 :: l /\ addr_of c1 = Some a1 /\ addr_of c2 = Some a2 /\
    rd (o_sto o) (m_heap (p_m p)) a1 (TVar 7 "") /\ rd (o_sto o) (m_heap (p_m p)) a2 (TEv "//" [TEv "+" [TInt 2; TEv "*" [TInt 3; TInt 5]]; TInt 4]).
Proof. apply (reach_witness "p(2 + 3 * 5)." "p(X), Y is X // 4" 3); vm_compute; repeat split. Qed.
Example C17_session_hypotheses_met : exists o P q p, session cfg0 o P (QFresh q) /\ small_tables (o_sto o) /\ no_clash cfg0 P /\ no_cycles cfg0 o /\
  (Z.of_nat (List.length (s_vars (o_sto o))) <= 32768)%Z /\ reaches cfg0 o "is" p /\
  exists c1 c2 l a1 a2, m_regs (p_m p) = c1 :: c2 :: l /\ addr_of c1 = Some a1 /\ addr_of c2 = Some a2 /\
    rd (o_sto o) (m_heap (p_m p)) a1 (TVar 2 "") /\ rd (o_sto o) (m_heap (p_m p)) a2 (TEv "//" [TInt 4; TInt 0]).
Proof. apply (reach_witness "p(0)." "p(X), Y is 4 // X" 3); vm_compute; repeat split. Qed.

(** C20: the first problem met is an unbound variable, which is reported with its name, or an atom or a compound term (its functor may be
    wrong and reading it undefined: [C20_not_arithmetic_refuted]). *)
Theorem C20_session_partial cf o P q p : ord_ok cf -> session cf o P (QFresh q) -> small_tables (o_sto o) -> no_clash cf P -> no_cycles cf o ->
  (Z.of_nat (List.length (s_vars (o_sto o))) <= 32768)%Z -> reaches cf o "is" p ->
  exists a1 a2 u t, argreg (p_m p) [a1; a2] /\ rd (o_sto o) (m_heap (p_m p)) a1 u /\ rd (o_sto o) (m_heap (p_m p)) a2 t /\
  (forall a, calc (pow_of cf) t = Some (inr (PrUnbound a)) ->
    exists v nm n0, nth_error (m_heap (p_m p)) a = Some (CRef a v) /\ vidx (o_sto o) nm v /\
    forall fuel, n0 <= fuel -> p_turn cf (o_sto o) fuel (o_prog o) p = Val (PErr (EUnbound nm))) /\
  (calc (pow_of cf) t = Some (inr PrNotArith) -> exists n0, forall fuel r, n0 <= fuel -> p_turn cf (o_sto o) fuel (o_prog o) p = Val r ->
    exists f, r = PErr (ENotArith f)).
Proof. intros OK HS SM NC Cy. exact (is_problem_reached cf o P q OK HS SM NC Cy p). Qed.
Print Assumptions C20_session_partial.
Example C20_session_hypotheses_met : exists o P q p, session cfg0 o P (QFresh q) /\ small_tables (o_sto o) /\ no_clash cfg0 P /\ no_cycles cfg0 o /\
  (Z.of_nat (List.length (s_vars (o_sto o))) <= 32768)%Z /\ reaches cfg0 o "is" p /\
  exists c1 c2 l a1 a2, m_regs (p_m p) = c1 :: c2 :: l /\ addr_of c1 = Some a1 /\ addr_of c2 = Some a2 /\
    rd (o_sto o) (m_heap (p_m p)) a1 (TVar 1 "") /\ rd (o_sto o) (m_heap (p_m p)) a2 (TEv "//" [TInt 4; TVar 0 ""]).
Proof. apply (reach_witness "p(X)." "p(X), Y is 4 // X" 3); vm_compute; repeat split. Qed.
