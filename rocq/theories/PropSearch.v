(** Properties of the search and its scheduler. *)
From Coq Require Import Sorted.
From Verif Require Import Base Machine Heap Compiler Parser Print Organizer Examples Process Session Search Order Runs
  Isolation Witness.
Open Scope string_scope.
Open Scope list_scope.

(** C05. [at_path]: the search tree, one turn per level; [plt]: shallower first, then leftmost. The results delivered
    (answers and runtime errors) are the results found in the tree, strictly in this order and without a gap; when the
    search reports that there is no further answer nothing is left in the tree. *)
Theorem C05_breadth_first cf o P q rs o' : session cf o P (QFresh q) -> run cf o rs o' ->
  exists root ps k, root_of o root /\
    delivered rs = map snd ps ++ repeat RFalse k /\
    StronglySorted plt (map fst ps) /\
    (forall pi x, In (pi, x) ps -> answer_at cf (o_sto o) (o_prog o) root pi x) /\
    (forall pi x, answer_at cf (o_sto o) (o_prog o) root pi x ->
       (exists s y, In (s, y) ps /\ plt pi s) \/ k <> 0 -> In (pi, x) ps).
Proof. exact (breadth_first cf o P q rs o'). Qed.
Print Assumptions C05_breadth_first.

(** a query with answers at different depths, run with a time-out *)
Example C05_hypotheses_met : exists o P q o', session cfg0 o P (QFresh q) /\
  run cfg0 o [(ROutOfTime, 1%Z); (RAnswer [("X", "b")], 1%Z); (RAnswer [("X", "a")], 2%Z); (RFalse, 2%Z)] o' /\
  parse_program "p(X) :- q(X). p(b). q(a)." = Some (COk P) /\ parse_query (append_dot "p(X)") = Some (COk q).
Proof. apply (run_witness _ _ [w_slow; w0; w0; w0]). vm_compute. reflexivity. Qed.

(** C07. Two runs of the same query, with different clocks and time limits: what is delivered besides time-outs is
    the same sequence, one run may just have got further. *)
Theorem C07_timeouts_pause cf o P q rs1 o1 rs2 o2 : session cf o P (QFresh q) ->
  run cf o rs1 o1 -> run cf o rs2 o2 ->
  prefix (delivered rs1) (delivered rs2) \/ prefix (delivered rs2) (delivered rs1).
Proof. exact (timeouts_pause cf o P q rs1 o1 rs2 o2). Qed.
Print Assumptions C07_timeouts_pause.

(** C08. The branch [id] that raised the error is the only one dropped. *)
Theorem C08_error_drops_one_branch cf o P s fuel n w er o' : session cf o P s -> s <> QStale ->
  get_answer cf fuel n w o = Val (RError er, o') ->
  exists o1 id, quiet cf fuel o o1 /\ o_queue o1 = id :: o_queue o' /\
    forall j, j < List.length (o_arena o1) -> j <> id -> untouched o1 o' j.
Proof. exact (error_drops_one cf o P s fuel n w er o'). Qed.
Print Assumptions C08_error_drops_one_branch.

Example C08_hypotheses_met : exists o P q o', session cfg0 o P (QFresh q) /\
  run cfg0 o [(RError EDivBy0, 4%Z); (RAnswer [("X", "1"); ("Y", "4")], 4%Z); (RFalse, 4%Z)] o' /\
  parse_program "d(0). d(1). r(X,Y) :- d(X), Y is 4 // X." = Some (COk P) /\
  parse_query (append_dot "r(X,Y)") = Some (COk q).
Proof. apply (run_witness _ _ [w0; w0; w0]). vm_compute. reflexivity. Qed.

(** C13. One turn changes nothing for any other executor, pending or recorded; a whole get_answer changes nothing for
    the executors that were not pending when it started. *)
Theorem C13_turn_isolated cf o P s fuel r o' id q : session cf o P s -> s <> QStale ->
  o_queue o = id :: q -> turn cf fuel o = Val (r, o') ->
  forall j, j < List.length (o_arena o) -> j <> id -> untouched o o' j.
Proof. exact (turn_isolates cf o P s fuel r o' id q). Qed.
Print Assumptions C13_turn_isolated.
Theorem C13_get_answer_isolated cf o P s fuel n w r o' : session cf o P s -> s <> QStale ->
  get_answer cf fuel n w o = Val (r, o') -> r <> ROutOfMemory ->
  forall j, j < List.length (o_arena o) -> ~ In j (o_queue o) -> untouched o o' j.
Proof. exact (answer_isolated cf o P s fuel n w r o'). Qed.
Print Assumptions C13_get_answer_isolated.

(** two branches share the cell of X and bind it differently *)
Example C13_hypotheses_met : exists o P q o', session cfg0 o P (QFresh q) /\
  run cfg0 o [(RAnswer [("X", "a")], 1%Z); (RAnswer [("X", "b")], 1%Z)] o' /\
  parse_program "p(a). p(b)." = Some (COk P) /\ parse_query (append_dot "p(X)") = Some (COk q).
Proof. apply (run_witness _ _ [w0; w0]). vm_compute. reflexivity. Qed.
