(** What the generated code does. *)
From Verif Require Import Base Machine Heap Facts Compiler Parser Print Organizer Examples Spec Valuation Process Session Search Code Put Alloc Atoms Clause
  Stack Ready Order Runs Parsed Answers Complete Witness Faithful Clash Independence.
Open Scope string_scope.
Open Scope list_scope.

(** C03, queries. [faithful q r m V]: the code of each goal runs, without failing or going wrong, up to the call of that
    goal. Then the argument registers refer to the instances of the written arguments, variables met in earlier goals
    are where they were, and the others are new. What the called goal leaves behind is arbitrary, see [resumes].
    Missing: more than 32768 functors or arguments. *)
Theorem C03_query_partial cf sto q r m : ord_ok cf -> sto_ok sto -> query_code cf sto q r -> Forall atom_ok q -> wfh sto 0 (m_heap m) ->
  faithful cf sto q r m (fun _ => None).
Proof. intros OK ok. exact (query_faithful cf OK sto ok q r m). Qed.
Print Assumptions C03_query_partial.

(** C03, heads and later goals, of any clause. [TA]: the addresses in the argument registers. If the code of the head
    fails, no values of the variables make the arguments equal to those of the head; if it succeeds then [matched]:
    exactly those values that do so are left. [V0 s]: the place of the variable [s] of the head. Once the code of the
    first goal has run, the variables of the later goals have places, those of the head the same ones, and the later
    goals are called with the written arguments. Missing: as above; comparisons of cyclic terms that do not end (there
    is no occurs check). *)
Theorem C03_clause_partial cf sto fuel b h body ha r m TA : ord_ok cf -> sto_ok sto ->
  clause_code cf sto b (h :: body) (ha :: r) -> clause_wf (h :: body) ->
  wfh sto 0 (m_heap m) -> argreg m TA -> List.length TA = List.length (targs h) ->
  match run_local cf sto fuel (removelast (ca_code ha)) (enter ha m) with
  | Val (Cont, m') => exists V0, matched sto h TA m m' V0 /\
      forall b1 bs fa r' m1, body = b1 :: bs -> r = fa :: r' ->
        run_local cf sto fuel (removelast (ca_code fa)) (enter fa (fresh m')) = Val (Cont, m1) ->
        exists V, (forall s, occ s bs -> (V s <> None <-> In s (vars_of h) \/ In s (vars_of b1))) /\
          (forall s a, V s = Some a -> V0 s = Some a \/
            (V0 s = None /\ List.length (m_heap m') <= a /\ exists w, nth_error (m_heap m1) a = Some (CRef a w))) /\
          forall m2, resumes sto m1 m2 -> faithful cf sto bs r' m2 V
  | Val (Failing, _) => no_match sto h TA m
  | Fuel => True
  | _ => False
  end.
Proof. intros OK ok. exact (clause_faithful cf OK sto ok fuel b h body ha r m TA). Qed.
Print Assumptions C03_clause_partial.

(** C02. Missing for the full statement (which is false, see C02_rule_bodies_refuted): rules with a register clash. Rules
    that satisfy [roomy_clause] have none: the head or the first goal is a constant; or the first goal needs no more
    registers than the head has arguments (for its arguments, the terms below its arguments, and its new variables); or
    the first goal has no compound arguments, its new variables occur in later goals, and it has no more arguments
    than the head or all its variables occur in later goals. *)
Theorem C02_roomy_rules_partial cf sto fuel b h body ha r m TA : ord_ok cf -> sto_ok sto ->
  clause_code cf sto b (h :: body) (ha :: r) -> clause_wf (h :: body) -> roomy_clause (h :: body) ->
  wfh sto 0 (m_heap m) -> argreg m TA -> List.length TA = List.length (targs h) ->
  match run_local cf sto fuel (removelast (ca_code ha)) (enter ha m) with
  | Val (Cont, m') => exists V, matched sto h TA m m' V /\ faithful cf sto body r (fresh m') V
  | Val (Failing, _) => no_match sto h TA m
  | Fuel => True
  | _ => False
  end.
Proof. intros OK ok CC W R. exact (rule_faithful cf OK sto ok fuel b h body ha r m TA CC W (roomy_clause_ok cf (h :: body) OK W R)). Qed.
Print Assumptions C02_roomy_rules_partial.
(** The same for every rule that passes the test [clause_ok]. *)
Theorem C02_rule_bodies_partial cf sto fuel b h body ha r m TA : ord_ok cf -> sto_ok sto ->
  clause_code cf sto b (h :: body) (ha :: r) -> clause_wf (h :: body) -> clause_ok cf (h :: body) = true ->
  wfh sto 0 (m_heap m) -> argreg m TA -> List.length TA = List.length (targs h) ->
  match run_local cf sto fuel (removelast (ca_code ha)) (enter ha m) with
  | Val (Cont, m') => exists V, matched sto h TA m m' V /\ faithful cf sto body r (fresh m') V
  | Val (Failing, _) => no_match sto h TA m
  | Fuel => True
  | _ => False
  end.
Proof. intros OK ok. exact (rule_faithful cf OK sto ok fuel b h body ha r m TA). Qed.
Print Assumptions C02_rule_bodies_partial.
(** Programs of such rules have no clash, so that the theorems about answers apply to them. *)
Theorem C02_roomy_programs cf text P : ord_ok cf -> parse_program text = Some (COk P) -> Forall roomy_clause P -> no_clash cf P.
Proof. intros OK E R. exact (roomy_no_clash cf P OK (parse_program_wf text P E) R). Qed.
Print Assumptions C02_roomy_programs.

(** a rule, called with p(A,B,7); the second argument of the head is built *)
Example C02_hypotheses_met : exists h body ha r sto m', parse_program "p(X,f(X,Y),W) :- q(Y,X,Z), r(Z,X)." = Some (COk [h :: body]) /\
  clause_code cfg0 sto false (h :: body) (ha :: r) /\ clause_wf (h :: body) /\ roomy_clause (h :: body) /\ sto_ok sto /\
  wfh sto 0 [CRef 0 0; CRef 0 0; CInt 7; CRef 3 0] /\ argreg (start [CRef 0 0; CRef 0 0; CInt 7; CRef 3 0] [1; 3; 2]) [1; 3; 2] /\
  List.length [1; 3; 2] = List.length (targs h) /\
  run_local cfg0 sto 100 (removelast (ca_code ha)) (enter ha (start [CRef 0 0; CRef 0 0; CInt 7; CRef 3 0] [1; 3; 2])) = Val (Cont, m').
Proof. apply compiled_witness. vm_compute. reflexivity. Qed.

(** a query with three goals, one inside a structure *)
Example C03_hypotheses_met : exists q r sto, parse_query (append_dot "p(X,f(Y,X)), q(Y), r(f(f(X,Z),Y))") = Some (COk q) /\
  query_code cfg0 sto q r /\ sto_ok sto /\ Forall atom_ok q /\ wfh sto 0 [].
Proof. apply query_witness. vm_compute. reflexivity. Qed.

Example C02_programs_met : exists P, Forall roomy_clause P /\
  parse_program "rev([],[]). rev([H|T],R) :- rev(T,S), append(S,[H],R). path(X,Y) :- edge(X,Z), path(Z,Y). anc(X,Y,Z) :- par(f(X),Y). go :- p(A,g(A,B)), q(B). len([],0). len([H|T],N) :- len(T,M), N is M+1." = Some (COk P).
Proof. apply roomy_witness. vm_compute. reflexivity. Qed.
