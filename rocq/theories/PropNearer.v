(** The order of the answers and the size of their proofs. *)
From Verif Require Import Base Machine Heap Compiler Parser Print Organizer Spec Examples Process Session Code Search Runs Atoms Heads Builtins Sols Tables Root Answers Nearer NearCase Naming Meaning.
Open Scope string_scope.
Open Scope list_scope.

(** C06. [proved_with cf P q v k]: the instance of the query [q] by [v] has a proof in which [k] goals are called.
    When the answer [b] is delivered, every instance of the query that has a proof with less than two thirds of the goals
    of any proof of (some instance of) [b] is covered by an answer delivered before.
    Missing for the full statement, which is false (C06_resolution_order_refuted): the factor two thirds, see C06_unshared;
    executions that build cyclic terms, == and \==, tables of more than 32768 functors, programs with a register clash. *)
Theorem C06_nearer_partial cf o P q rs o' pre b post : ord_ok cf -> session cf o P (QFresh q) ->
  small_tables (o_sto o) -> no_clash cf P -> all_goals no_compare P q -> no_cycles cf o ->
  run cf o rs o' -> delivered rs = pre ++ RAnswer b :: post -> (forall x, ~ In (RError (EUnbound x)) pre) ->
  exists sg, shown_as cf o P q b sg /\ forall v k, proved_with cf P q v k ->
    (exists g, forall n, proved_with cf P q (fun x => ginst g (sg x)) n -> 3 * k < 2 * n) ->
    exists b', In (RAnswer b') pre /\ exists sg' g', shown_as cf o P q b' sg' /\ forall x, In x (flat_map nvars q) -> ginst g' (sg' x) = v x.
Proof. intros OK HS SM NC. exact (nearer_half_shown cf OK o P q HS SM NC rs o' pre b post). Qed.
Print Assumptions C06_nearer_partial.

(** the second answer takes three goals, the first one *)
Example C06_nearer_met : near_hyps near_text near_prog.
Proof. exact near_case. Qed.

(** C06 exactly, for programs in which no variable is shared between two goals of a body (the first goal and the head
    counting as one): such clauses need no environment, and leaving them takes no turn. *)
Theorem C06_unshared_partial cf o P q rs o' pre b post : ord_ok cf -> session cf o P (QFresh q) ->
  small_tables (o_sto o) -> no_clash cf P -> (forall c, In c P -> unshared c) -> all_goals no_compare P q -> no_cycles cf o ->
  run cf o rs o' -> delivered rs = pre ++ RAnswer b :: post -> (forall x, ~ In (RError (EUnbound x)) pre) ->
  exists sg, shown_as cf o P q b sg /\ forall v k, proved_with cf P q v k ->
    (exists g, forall n, proved_with cf P q (fun x => ginst g (sg x)) n -> k < n) ->
    exists b', In (RAnswer b') pre /\ exists sg' g', shown_as cf o P q b' sg' /\ forall x, In x (flat_map nvars q) -> ginst g' (sg' x) = v x.
Proof. intros OK HS SM NC. exact (nearer_exact_shown cf OK o P q HS SM NC rs o' pre b post). Qed.
Print Assumptions C06_unshared_partial.
Example C06_unshared_met : near_hyps even_text even_prog /\ forall c, In c even_prog -> unshared c.
Proof. exact even_case. Qed.
