(** Programs whose clause heads repeat no variable: no assumption about cycles or endless turns is needed. *)
From Verif Require Import Base Machine Heap Facts Compiler Parser Print Organizer Examples Spec Valuation Process Session Search Order Runs
  Builtins Sols Solve Witness Terms Shown Alloc Atoms Clause Answers Complete Total Flat Safe Finite Cyclic Ground Once Settle Naming Meaning Tree Clash Shows Labels Linear LinearCase.
Open Scope string_scope.
Open Scope list_scope.

(** [linear P q]: no head of a clause of [P] contains a variable twice, and no goal calls append/3 (whose first clause is append([],L,L)).
    Then the missing occurs check never matters, whatever the bodies and the query are: no execution builds a cyclic term, so every theorem
    assuming [no_cycles] holds. *)
Theorem C01_linear_acyclic cf o P q : ord_ok cf -> session cf o P (QFresh q) -> small_tables (o_sto o) -> no_clash cf P -> linear P q -> no_cycles cf o.
Proof. intros OK HS SM NC. exact (linear_acyclic cf OK o P q HS SM NC). Qed.
Print Assumptions C01_linear_acyclic.

(** C01 for such programs: all answers are sound. *)
Theorem C01_linear_sound cf o P q rs o' b : ord_ok cf -> session cf o P (QFresh q) ->
  small_tables (o_sto o) -> no_clash cf P -> linear P q -> run cf o rs o' -> In (RAnswer b) (delivered rs) ->
  exists sg, reads b sg /\ (forall x s, In (x, s) b -> proper (sg x) = true -> s = show (sg x)) /\
     ((Z.of_nat (List.length (s_vars (o_sto o))) <= 32768)%Z -> forall x, In x (flat_map nvars q) -> spelled (sg x) = true) /\
     forall g a, In a q -> prov (pow_of cf) (P ++ append_prog) (inst (fun x => ginst g (sg x)) a).
Proof. exact (linear_sound cf o P q rs o' b). Qed.
Print Assumptions C01_linear_sound.

(** C04 for such programs, without == and \== and is: every instance of the query that is provable is covered by an answer, after
    finitely many calls with enough time. *)
Theorem C04_linear_complete cf o P q v : ord_ok cf -> session cf o P (QFresh q) ->
  small_tables (o_sto o) -> (Z.of_nat (List.length (s_vars (o_sto o))) <= 32768)%Z -> no_clash cf P ->
  all_goals no_compare P q -> all_goals no_is P q -> linear P q ->
  (forall a, In a q -> prov (pow_of cf) (P ++ append_prog) (inst v a)) ->
  exists N, (exists rs o', run cf o rs o' /\ List.length rs = N /\ forall r, In r (map fst rs) -> exists b, r = RAnswer b) /\
    forall rs o', run cf o rs o' -> N <= List.length (delivered rs) -> exists b, In (RAnswer b) (delivered rs) /\
      exists sg g, shown_as cf o P q b sg /\ forall x, In x (flat_map nvars q) -> ginst g (sg x) = v x.
Proof. intros OK HS SM SV NC NCm NI LN. exact (complete_shown cf OK o P q HS SM NC NCm NI (linear_ends cf OK o P q HS SM NC LN SV NI) v). Qed.
Print Assumptions C04_linear_complete.

(** Together with C02_roomy_programs all conditions on the rules can be read off the text ([roomy_clause] is a condition on the
    registers that the first goal of a rule needs). *)
Theorem C04_roomy_linear_complete cf o P q v : ord_ok cf -> session cf o P (QFresh q) ->
  small_tables (o_sto o) -> (Z.of_nat (List.length (s_vars (o_sto o))) <= 32768)%Z -> Forall roomy_clause P ->
  all_goals no_compare P q -> all_goals no_is P q -> linear P q ->
  (forall a, In a q -> prov (pow_of cf) (P ++ append_prog) (inst v a)) ->
  exists N, (exists rs o', run cf o rs o' /\ List.length rs = N /\ forall r, In r (map fst rs) -> exists b, r = RAnswer b) /\
    forall rs o', run cf o rs o' -> N <= List.length (delivered rs) -> exists b, In (RAnswer b) (delivered rs) /\
      exists sg g, shown_as cf o P q b sg /\ forall x, In x (flat_map nvars q) -> ginst g (sg x) = v x.
Proof. exact (roomy_linear_complete cf o P q v). Qed.
Print Assumptions C04_roomy_linear_complete.

(** C49 for such programs: the tree is always returned. *)
Theorem C49_roomy_linear_returns cf o P q rs o' : ord_ok cf -> session cf o P (QFresh q) -> run cf o rs o' -> small_tables (o_sto o) ->
  (Z.of_nat (List.length (s_vars (o_sto o))) <= 32768)%Z -> Forall roomy_clause P -> linear P q ->
  exists N t, forall fuel, N <= fuel -> make_tree fuel o' = Val t.
Proof. exact (roomy_linear_returns cf o P q rs o'). Qed.
Print Assumptions C49_roomy_linear_returns.

(** infinitely many branches; the lengths of the lists are bound twice, by two goals *)
Example C04_linear_hypotheses_met : exists o P q rs o', session cfg0 o P (QFresh q) /\
  parse_program "len([],z). len([X|T],s(N)) :- len(T,N). two(s(s(z)))." = Some (COk P) /\
  parse_query (append_dot "len(L,N), two(N)") = Some (COk q) /\
  run cfg0 o rs o' /\ delivered rs = [RAnswer [("N", "s(s(z))"); ("L", "[X3,X8]")]] /\
  small_tables (o_sto o) /\ (Z.of_nat (List.length (s_vars (o_sto o))) <= 32768)%Z /\ no_clash cfg0 P /\ Forall roomy_clause P /\
  all_goals no_compare P q /\ all_goals no_is P q /\ linear P q.
Proof. exact linear_case. Qed.
