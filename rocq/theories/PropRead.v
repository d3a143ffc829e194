(** What can be read off the text of an answer. *)
From Verif Require Import Base Machine Heap Facts Compiler Parser Print Organizer Examples Spec Valuation Process Session Search Order Runs
  Builtins Sols Solve Witness Terms Shown Alloc Atoms Clause Answers Finite Unambiguous Naming Complete Meaning ReadCase.
Open Scope string_scope.
Open Scope list_scope.

(** C72. [spelled]: variables have capitalised names, constants and functors names with a small first letter; [anon t] is [t] without the
    identities of its variables. The standard notation is unambiguous. *)
Theorem C72_notation t t' : spelled t = true -> spelled t' = true -> show t = show t' -> anon t = anon t'.
Proof. exact (show_inj t t'). Qed.
Print Assumptions C72_notation.
Example C72_notation_met : spelled (TFun "f" [TFun "[" [TCon "a"; TVar 3 "T"]; TEv "+" [TInt (-7); TVar 1 "T"]]) = true /\
  show (TFun "f" [TFun "[" [TCon "a"; TVar 3 "T"]; TEv "+" [TInt (-7); TVar 1 "T"]]) = "f([a|T],(-7 + T))" /\
  show (TFun "f" [TFun "[" [TCon "a"; TVar 0 "T"]; TEv "+" [TInt (-7); TVar 2 "T"]]) = "f([a|T],(-7 + T))".
Proof. repeat split. Qed.
(** [sg] are the terms the answer stands for: all their instances are solutions. If their lists are proper, then whoever reads the texts as
    standard notation reads these terms; and if they are read as ground terms [v], these are a solution.
    Missing: improper lists (the statement is false for them, see below), programs with a register clash, cyclic terms, tables beyond 32768. *)
Theorem C72_readable_partial cf o P q rs o' b : ord_ok cf -> session cf o P (QFresh q) -> small_tables (o_sto o) ->
  (Z.of_nat (List.length (s_vars (o_sto o))) <= 32768)%Z -> no_clash cf P -> no_cycles cf o ->
  run cf o rs o' -> In (RAnswer b) (delivered rs) ->
  exists sg, shown_as cf o P q b sg /\ ((forall x, In x (flat_map nvars q) -> proper (sg x) = true) ->
    (forall rd, (forall x s, In (x, s) b -> s = show (rd x) /\ spelled (rd x) = true) -> forall x, In x (flat_map nvars q) -> anon (rd x) = anon (sg x)) /\
    (forall v, (forall x s, In (x, s) b -> s = show_ground (v x) /\ spelled (tm_of (v x)) = true) ->
       forall a, In a q -> prov (pow_of cf) (P ++ append_prog) (inst v a))).
Proof. exact (answers_readable cf o P q rs o' b). Qed.
Print Assumptions C72_readable_partial.
Example C72_hypotheses_met : exists o P q o', session cfg0 o P (QFresh q) /\
  run cfg0 o [(RAnswer [("X", "[a,f(b)]"); ("Y", "-1")], 1%Z)] o' /\
  parse_program "p([a,f(b)],-1)." = Some (COk P) /\ parse_query (append_dot "p(X,Y)") = Some (COk q) /\
  small_tables (o_sto o) /\ no_clash cfg0 P /\ (Z.of_nat (List.length (s_vars (o_sto o))) <= 32768)%Z /\
  no_cycles cfg0 o /\ turns_end cfg0 o /\ (true = true -> all_goals no_compare P q /\ all_goals no_is P q).
Proof. apply (hyps_witness _ _ _ [w0]); vm_compute; reflexivity. Qed.
(** The text read as standard notation need not be a solution, if there is an improper list: the last letter of bc makes way for the bracket. *)
Theorem C72_improper_refuted : exists o P q o' v, session cfg0 o P (QFresh q) /\
  run cfg0 o [(RAnswer [("X", "[a,b]")], 1%Z)] o' /\
  parse_program "p([a|X],X)." = Some (COk P) /\ parse_query (append_dot "p(X,bc)") = Some (COk q) /\
  small_tables (o_sto o) /\ no_clash cfg0 P /\ (Z.of_nat (List.length (s_vars (o_sto o))) <= 32768)%Z /\ no_cycles cfg0 o /\
  (forall x s, In (x, s) [("X", "[a,b]")] -> s = show_ground (v x) /\ spelled (tm_of (v x)) = true) /\
  exists a, In a q /\ ~ prov (pow_of cfg0) (P ++ append_prog) (inst v a).
Proof. exact improper_misread. Qed.
Print Assumptions C72_improper_refuted.
