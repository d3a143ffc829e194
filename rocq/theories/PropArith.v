(** Properties of ==, \== and is. *)
From Verif Require Import Base Machine Heap Compiler Parser Print Organizer Spec Examples Valuation Process Session Search Order Runs
  Code Atoms Builtins Terms Witness Arith Double.
Open Scope string_scope.
Open Scope list_scope.

(** In all theorems: [at_builtin p nm a1 a2]: the branch [p], with a well-formed heap, runs the built-in predicate [nm]
    with the terms at the addresses [a1] and [a2]; [rd]: the finite term at an address; [succeeds p h]: the branch goes on
    (or becomes an answer) with the heap [h]. *)

(** C14. *)
Theorem C14_identity cf sto p a1 a2 t u : ord_ok cf -> NoDup (s_functors sto) ->
  at_builtin cf sto p "==" a1 a2 -> rd sto (m_heap (p_m p)) a1 t -> rd sto (m_heap (p_m p)) a2 u ->
  exists n0, forall fuel pg, n0 <= fuel ->
    if ident t u then succeeds sto fuel p (m_heap (p_m p)) (p_turn cf sto fuel pg p)
    else p_turn cf sto fuel pg p = Val PFails.
Proof. intros OK ND. exact (eq_turn cf OK sto ND p a1 a2 t u). Qed.
Print Assumptions C14_identity.

(** X and f(V,V) after X and V were bound by p: identical but for one variable *)
Example C14_hypotheses_met : exists o P q p, session cfg0 o P (QFresh q) /\ NoDup (s_functors (o_sto o)) /\
  (exists T pi Q root, root_of o root /\ search cfg0 (o_sto o) (o_prog o) root T ((pi, p) :: Q)) /\
  at_builtin cfg0 (o_sto o) p "==" 0 5 /\
  rd (o_sto o) (m_heap (p_m p)) 0 (TFun "f" [TVar 1 ""; TVar 4 ""]) /\ rd (o_sto o) (m_heap (p_m p)) 5 (TFun "f" [TVar 1 ""; TVar 1 ""]) /\
  parse_program "p(f(Y,Z),Y)." = Some (COk P) /\ parse_query (append_dot "p(X,V), X == f(V,V)") = Some (COk q).
Proof. apply (builtin_witness "p(f(Y,Z),Y)." "p(X,V), X == f(V,V)" 3); vm_compute; repeat split. discriminate. Qed.

(** C15. The two branches are in the same state but for the predicate they run. *)
Theorem C15_complement cf sto p p' a1 a2 fuel pg : ord_ok cf ->
  at_builtin cf sto p "==" a1 a2 -> at_builtin cf sto p' "\==" a1 a2 -> p_m p' = p_m p ->
  heap_reg_equals (list cell) fops fuel (m_heap (p_m p)) a1 a2 <> Fuel ->
  (succeeds sto fuel p (m_heap (p_m p)) (p_turn cf sto fuel pg p) /\ p_turn cf sto fuel pg p' = Val PFails) \/
  (p_turn cf sto fuel pg p = Val PFails /\ succeeds sto fuel p' (m_heap (p_m p')) (p_turn cf sto fuel pg p')).
Proof. intros OK. exact (neq_turn cf OK sto p p' a1 a2 fuel pg). Qed.
Print Assumptions C15_complement.

Example C15_hypotheses_met : exists o P q p, session cfg0 o P (QFresh q) /\ NoDup (s_functors (o_sto o)) /\
  (exists T pi Q root, root_of o root /\ search cfg0 (o_sto o) (o_prog o) root T ((pi, p) :: Q)) /\
  at_builtin cfg0 (o_sto o) p "\==" 0 5 /\
  rd (o_sto o) (m_heap (p_m p)) 0 (TFun "f" [TVar 1 ""; TVar 4 ""]) /\ rd (o_sto o) (m_heap (p_m p)) 5 (TFun "f" [TVar 1 ""; TVar 1 ""]) /\
  parse_program "p(f(Y,Z),Y)." = Some (COk P) /\ parse_query (append_dot "p(X,V), X \== f(V,V)") = Some (COk q).
Proof. apply (builtin_witness "p(f(Y,Z),Y)." "p(X,V), X \== f(V,V)" 3); vm_compute; repeat split. discriminate. Qed.

(** C16. [exact_value]: the value of the expression; every intermediate value fits 32 bits and no divisor is 0. *)
Theorem C16_exact_arithmetic cf sto p a1 a2 t n u : ord_ok cf ->
  at_builtin cf sto p "is" a1 a2 -> rd sto (m_heap (p_m p)) a2 t -> exact_value t = Some n ->
  rd sto (m_heap (p_m p)) a1 u ->
  exists n0, forall fuel pg, n0 <= fuel ->
    match u with
    | TInt k => if Z.eqb k n then succeeds sto fuel p (m_heap (p_m p)) (p_turn cf sto fuel pg p)
                else p_turn cf sto fuel pg p = Val PFails
    | TVar d _ => exists h', succeeds sto fuel p h' (p_turn cf sto fuel pg p) /\ rd sto h' d (TInt n) /\
        rd sto h' a1 (TInt n) /\
        forall b, b < List.length (m_heap (p_m p)) -> b <> d -> nth_error h' b = nth_error (m_heap (p_m p)) b
    | _ => p_turn cf sto fuel pg p = Val PFails
    end.
Proof. intros OK. exact (is_exact cf OK sto p a1 a2 t n u). Qed.
Print Assumptions C16_exact_arithmetic.

Example C16_hypotheses_met : exists o P q p, session cfg0 o P (QFresh q) /\ NoDup (s_functors (o_sto o)) /\
  (exists T pi Q root, root_of o root /\ search cfg0 (o_sto o) (o_prog o) root T ((pi, p) :: Q)) /\
  at_builtin cfg0 (o_sto o) p "is" 7 8 /\
  rd (o_sto o) (m_heap (p_m p)) 7 (TVar 7 "") /\ rd (o_sto o) (m_heap (p_m p)) 8 (TEv "//" [TEv "+" [TInt 2; TEv "*" [TInt 3; TInt 5]]; TInt 4]) /\
  parse_program "p(2 + 3 * 5)." = Some (COk P) /\ parse_query (append_dot "p(X), Y is X // 4") = Some (COk q).
Proof. apply (builtin_witness "p(2 + 3 * 5)." "p(X), Y is X // 4" 3); vm_compute; repeat split. discriminate. Qed.
Example C16_value : exact_value (TEv "//" [TEv "+" [TInt 2; TEv "*" [TInt 3; TInt 5]]; TInt 4]) = Some 4%Z.
Proof. reflexivity. Qed.

(** C16, one operation: the code computes with doubles, rounded to a nearest one, and casts to int; the model with
    integers. [exact_num i l r / exact_den i r] is the exact result of operator [i] (1 to 4: + - * //). *)
Theorem C16_doubles cf i l r m e : int32 l -> int32 r -> (1 <= i <= 4)%Z -> (i = 4%Z -> r <> 0%Z) ->
  nearest (exact_num i l r) (exact_den i r) m e -> cast (FFin m e) = apply_op cf i l r.
Proof. exact (doubles_agree cf i l r m e). Qed.
Print Assumptions C16_doubles.

Example C16_doubles_hypotheses_met : int32 7 /\ int32 (-2) /\ nearest (exact_num 4 7 (-2)) (exact_den 4 (-2)) (-7) (-1).
Proof. split; [|split]; [split; discriminate|split; discriminate|exact doubles_agree_met]. Qed.

(** C17. [calc] evaluates from left to right and gives the first problem met. *)
Theorem C17_division_by_zero cf sto p a1 a2 t u : ord_ok cf ->
  at_builtin cf sto p "is" a1 a2 -> rd sto (m_heap (p_m p)) a2 t -> calc (pow_of cf) t = Some (inr PrDiv0) ->
  rd sto (m_heap (p_m p)) a1 u ->
  exists n0, forall fuel pg, n0 <= fuel -> p_turn cf sto fuel pg p = Val (PErr EDivBy0).
Proof. intros OK. exact (is_div0 cf OK sto p a1 a2 t u). Qed.
Print Assumptions C17_division_by_zero.

Example C17_hypotheses_met : exists o P q p, session cfg0 o P (QFresh q) /\ NoDup (s_functors (o_sto o)) /\
  (exists T pi Q root, root_of o root /\ search cfg0 (o_sto o) (o_prog o) root T ((pi, p) :: Q)) /\
  at_builtin cfg0 (o_sto o) p "is" 2 3 /\
  rd (o_sto o) (m_heap (p_m p)) 2 (TVar 2 "") /\ rd (o_sto o) (m_heap (p_m p)) 3 (TEv "//" [TInt 4; TInt 0]) /\
  parse_program "p(0)." = Some (COk P) /\ parse_query (append_dot "p(X), Y is 4 // X") = Some (COk q).
Proof. apply (builtin_witness "p(0)." "p(X), Y is 4 // X" 3); vm_compute; repeat split. discriminate. Qed.
Example C17_value : calc (pow_of cfg0) (TEv "//" [TInt 4; TInt 0]) = Some (inr PrDiv0).
Proof. reflexivity. Qed.

(** C20 for unbound variables. Missing for the full statement: see [C20_not_arithmetic_refuted]. *)
Theorem C20_unbound_partial cf sto p a1 a2 t u a v nm : ord_ok cf ->
  at_builtin cf sto p "is" a1 a2 -> rd sto (m_heap (p_m p)) a2 t -> calc (pow_of cf) t = Some (inr (PrUnbound a)) ->
  rd sto (m_heap (p_m p)) a1 u -> nth_error (m_heap (p_m p)) a = Some (CRef a v) -> nthZ (s_vars sto) v = Some nm ->
  exists n0, forall fuel pg, n0 <= fuel -> p_turn cf sto fuel pg p = Val (PErr (EUnbound nm)).
Proof. intros OK. exact (is_unbound cf OK sto p a1 a2 t u a v nm). Qed.
Print Assumptions C20_unbound_partial.

Example C20_unbound_hypotheses_met : exists o P q p, session cfg0 o P (QFresh q) /\ NoDup (s_functors (o_sto o)) /\
  (exists T pi Q root, root_of o root /\ search cfg0 (o_sto o) (o_prog o) root T ((pi, p) :: Q)) /\
  at_builtin cfg0 (o_sto o) p "is" 1 2 /\
  rd (o_sto o) (m_heap (p_m p)) 1 (TVar 1 "") /\ rd (o_sto o) (m_heap (p_m p)) 2 (TEv "//" [TInt 4; TVar 0 ""]) /\
  parse_program "p(X)." = Some (COk P) /\ parse_query (append_dot "p(X), Y is 4 // X") = Some (COk q).
Proof. apply (builtin_witness "p(X)." "p(X), Y is 4 // X" 3); vm_compute; repeat split. discriminate. Qed.

(** C20 for atoms and compound terms, if the error is produced at all (it may be undefined instead, and its functor may
    be wrong: [C20_not_arithmetic_refuted]). *)
Theorem C20_not_arithmetic_partial cf sto p a1 a2 t u : ord_ok cf ->
  at_builtin cf sto p "is" a1 a2 -> rd sto (m_heap (p_m p)) a2 t -> calc (pow_of cf) t = Some (inr PrNotArith) ->
  rd sto (m_heap (p_m p)) a1 u ->
  exists n0, forall fuel pg r, n0 <= fuel -> p_turn cf sto fuel pg p = Val r -> exists f, r = PErr (ENotArith f).
Proof. intros OK. exact (is_not_arith cf OK sto p a1 a2 t u). Qed.
Print Assumptions C20_not_arithmetic_partial.

Example C20_not_arithmetic_hypotheses_met : exists o P q p, session cfg0 o P (QFresh q) /\ NoDup (s_functors (o_sto o)) /\
  (exists T pi Q root, root_of o root /\ search cfg0 (o_sto o) (o_prog o) root T ((pi, p) :: Q)) /\
  at_builtin cfg0 (o_sto o) p "is" 2 3 /\
  rd (o_sto o) (m_heap (p_m p)) 2 (TVar 2 "") /\ rd (o_sto o) (m_heap (p_m p)) 3 (TEv "//" [TInt 4; TCon "a"]) /\
  parse_program "p(a)." = Some (COk P) /\ parse_query (append_dot "p(X), Y is 4 // X") = Some (COk q).
Proof. apply (builtin_witness "p(a)." "p(X), Y is 4 // X" 3); vm_compute; repeat split. discriminate. Qed.
