(** The public calls never go wrong: constructor, loading, answering; exact failure; literals out of range. *)
From Verif Require Import Base Machine Heap Facts Compiler Parser Print Organizer Spec Examples Valuation Process Order Session Search Atoms Terms Shown Runs Clause Answers
  Complete Safe Witness Finite Builtins Loads Settle Naming Meaning.
Open Scope string_scope.
Open Scope list_scope.

(** C37. The constructor succeeds; loading always returns, and no exception escapes unless there is an integer literal out of
    range; get_answer has no undefined behaviour. (Programs with a register clash or arithmetic are
    outside the property.) Missing: more than 32768 functors, arguments or variable names. *)
Theorem C37_constructor cf : ord_ok cf -> exists o, new_org cf = Val o.
Proof. exact (new_org_total cf). Qed.
Print Assumptions C37_constructor.
Theorem C37_load_program cf text o : ord_ok cf ->
  (forall P c n, parse_program text = Some (COk P) -> In c P -> In n c -> ~ big_literal n) ->
  exists r o', load_program cf text o = Some (r, o') /\ r <> LEscape.
Proof. exact (load_program_safe cf text o). Qed.
Print Assumptions C37_load_program.
Theorem C37_load_query cf text o : ord_ok cf ->
  (forall q n, parse_query (append_dot text) = Some (COk q) -> In n q -> ~ big_literal n) ->
  exists r o', load_query cf text o = Some (r, o') /\ r <> LEscape.
Proof. exact (load_query_safe cf text o). Qed.
Print Assumptions C37_load_query.
Theorem C37_get_answer_safe_partial cf o P s : ord_ok cf -> session cf o P s -> s <> QStale -> small_tables (o_sto o) ->
  (Z.of_nat (List.length (s_vars (o_sto o))) <= 32768)%Z -> no_clash cf P -> all_goals no_is P (qgoals s) ->
  forall fuel n w u, get_answer cf fuel n w o <> Ub u.
Proof. exact (session_no_ub cf o P s). Qed.
Print Assumptions C37_get_answer_safe_partial.

(** C43. (Programs with a register clash are outside the property.) Missing: more than 32768 functors or arguments. *)
Theorem C43_failure_exact_partial cf o P q rs o' : ord_ok cf -> session cf o P (QFresh q) ->
  small_tables (o_sto o) -> no_clash cf P -> run cf o rs o' -> In RFalse (delivered rs) ->
  o_queue o' = [] /\
  (forall fuel w r o2, forall n, get_answer cf fuel n w o' = Val (r, o2) -> r = RFalse) /\
  (all_goals no_compare P q -> (all_goals no_is P q \/ forall x, ~ In (RError (EUnbound x)) (delivered rs)) -> forall v,
     (forall a, In a q -> prov (pow_of cf) (P ++ append_prog) (inst v a)) -> exists b, In (RAnswer b) (delivered rs) /\
      exists sg g, shown_as cf o P q b sg /\ forall x, In x (flat_map nvars q) -> ginst g (sg x) = v x).
Proof. intros OK HS SM NC. exact (failure_shown cf OK o P q HS SM NC rs o'). Qed.
Print Assumptions C43_failure_exact_partial.

(** Also for C37: a program and query that meet all the hypotheses. *)
Example C43_hypotheses_met : exists o P q o', session cfg0 o P (QFresh q) /\
  run cfg0 o [(RAnswer [("X", "[a]")], 2%Z); (RFalse, 2%Z)] o' /\
  parse_program "" = Some (COk P) /\ parse_query (append_dot "append([b],X,[b,a])") = Some (COk q) /\
  small_tables (o_sto o) /\ no_clash cfg0 P /\ (Z.of_nat (List.length (s_vars (o_sto o))) <= 32768)%Z /\
  no_cycles cfg0 o /\ turns_end cfg0 o /\ (true = true -> all_goals no_compare P q /\ all_goals no_is P q).
Proof. apply (hyps_witness _ _ _ [w0; w0]); vm_compute; reflexivity. Qed.

(** C38. Refuted, [C38_big_literals_refuted]: an exception escapes instead of an error being returned. But no such text is loaded. *)
Theorem C38_not_loaded_program cf text o P c n r o' : ord_ok cf -> parse_program text = Some (COk P) -> In c P -> In n c -> big_literal n ->
  load_program cf text o = Some (r, o') -> r <> LOk.
Proof. exact (big_program cf text o P c n r o'). Qed.
Print Assumptions C38_not_loaded_program.
Theorem C38_not_loaded_query cf text o q n r o' : ord_ok cf -> parse_query (append_dot text) = Some (COk q) -> In n q -> big_literal n ->
  load_query cf text o = Some (r, o') -> r <> LOk.
Proof. exact (big_query cf text o q n r o'). Qed.
Print Assumptions C38_not_loaded_query.
Example C38_hypotheses_met : parse_query (append_dot "X is 2147483648") = Some (COk [NFun "is" [NVar "X"; NInt "2147483648"]]) /\
  big_literal (NFun "is" [NVar "X"; NInt "2147483648"]).
Proof. split; [vm_compute; reflexivity|]. apply big_example. Qed.
