(** Properties of the tables of functors and of the slots of permanent variables. *)
From Verif Require Import Base Machine Compiler Parser Print Organizer Examples Session Search Atoms Tables Witness Slots.
Open Scope string_scope.
Open Scope list_scope.

(** C24. Functors are compared by their indices; [functor_index_of] gives the index of a functor, entering it if it is new. The
    index leads back to the functor and stays the same however much is loaded later. *)
Theorem C24_distinct cf o P s f g i j s1 s2 : session cf o P s ->
  functor_index_of f (o_sto o) = (i, s1) -> functor_index_of g s1 = (j, s2) ->
  (Z.of_nat (List.length (s_functors s2)) <= 32768)%Z -> (i = j <-> f = g).
Proof. exact (functors_distinct cf o P s f g i j s1 s2). Qed.
Print Assumptions C24_distinct.
Theorem C24_entered f s i s' : functor_index_of f s = (i, s') -> (Z.of_nat (List.length (s_functors s')) <= 32768)%Z ->
  sto_ext s s' /\ nthZ (s_functors s') i = Some f.
Proof. exact (index_entry f s i s'). Qed.
Print Assumptions C24_entered.
Theorem C24_stays f s i s1 s2 : functor_index_of f s = (i, s1) -> sto_ext s1 s2 -> (Z.of_nat (List.length (s_functors s2)) <= 32768)%Z ->
  functor_index_of f s2 = (i, s2).
Proof. exact (index_stays f s i s1 s2). Qed.
Print Assumptions C24_stays.
(** and beyond: *)
Theorem C24_beyond_refuted : exists s f g i s', NoDup (s_functors s) /\ f <> g /\ functor_index_of f s = (i, s) /\ functor_index_of g s = (i, s').
Proof. exact functors_wrap. Qed.
Print Assumptions C24_beyond_refuted.

(** f/1 was entered by the program, f/2 is new *)
Example C24_hypotheses_met : exists o P q i j s1 s2, session cfg0 o P (QFresh q) /\
  functor_index_of (FV "f" 1) (o_sto o) = (i, s1) /\ functor_index_of (FV "f" 2) s1 = (j, s2) /\
  (Z.of_nat (List.length (s_functors s2)) <= 32768)%Z /\ s1 = o_sto o /\ s2 <> s1 /\
  parse_program "p(f(a))." = Some (COk P) /\ parse_query (append_dot "p(X)") = Some (COk q).
Proof. apply (table_witness "p(f(a))." "p(X)" (FV "f" 1) (FV "f" 2)). vm_compute. repeat split; discriminate. Qed.

(** C35. [pos_of v (perm_order cf c b)]: the slot of [v] in the environment of the clause ([b] = true) or query [c]. [c_ord cf], of
    which only [ord_ok] is known, is the hash order. *)
Theorem C35_clause cf h b bs v : ord_ok cf ->
  (exists y, pos_of v (perm_order cf (h :: b :: bs) true) = Some y) <->
  (exists b1 n b2, bs = b1 ++ n :: b2 /\ In v (vars_of n) /\ occ v (h :: b :: b1)).
Proof. exact (slot_clause cf h b bs v). Qed.
Print Assumptions C35_clause.
Theorem C35_fact cf h v : ord_ok cf -> pos_of v (perm_order cf [h] true) = None.
Proof. exact (slot_fact cf h v). Qed.
Print Assumptions C35_fact.
Theorem C35_query cf a q v : ord_ok cf ->
  (exists y, pos_of v (perm_order cf (a :: q) false) = Some y) <->
  (exists q1 n q2, q = q1 ++ n :: q2 /\ In v (vars_of n) /\ occ v (a :: q1)).
Proof. exact (slot_query cf a q v). Qed.
Print Assumptions C35_query.
Theorem C35_distinct cf ns b v w y : pos_of v (perm_order cf ns b) = Some y -> pos_of w (perm_order cf ns b) = Some y -> v = w.
Proof. exact (slot_distinct cf ns b v w y). Qed.
Print Assumptions C35_distinct.
Theorem C35_within cf ns b v y : pos_of v (perm_order cf ns b) = Some y -> y < List.length (perm_order cf ns b).
Proof. exact (slot_bound cf ns b v y). Qed.
Print Assumptions C35_within.

Example C35_hypotheses_met :
  perm_order cfg0 [NFun "p" [NVar "X"; NVar "Y"]; NFun "q" [NVar "X"; NVar "Z"]; NFun "r" [NFun "f" [NVar "Z"]; NVar "X"; NVar "W"]] true = ["X"; "Z"] /\
  perm_order cfg0 [NFun "p" [NVar "X"; NVar "Y"]; NFun "q" [NVar "X"; NVar "Z"]] false = ["X"].
Proof. split; vm_compute; reflexivity. Qed.
