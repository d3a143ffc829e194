(** Properties of calls and of the statistics. *)
From Verif Require Import Base Machine Heap Compiler Parser Print Organizer Examples Process Session Search Order Runs
  Isolation Witness Calls.
Open Scope string_scope.
Open Scope list_scope.

(** C09. [calls_goal]: the branch [id], next in the queue, calls a goal for [f]; [defined_by P f]: the clauses of [f] in
    textual order; [code_for]: the compiled form of a clause. The k-th new branch runs the k-th clause, then what was
    left to do after the goal. *)
Theorem C09_textual_order cf o P s fuel id q f cs r o' : session cf o P s -> s <> QStale ->
  o_queue o = id :: q -> calls_goal o id f cs -> turn cf fuel o = Val (r, o') ->
  r = None /\ exists rs, Forall2 (code_for cf (o_sto o) f) (defined_by P f) rs /\
    o_queue o' = q ++ seq (List.length (o_arena o)) (List.length rs) /\
    List.length (o_arena o') = List.length (o_arena o) + List.length rs /\
    forall k r, nth_error rs k = Some r -> exists e', nth_error (o_arena o') (List.length (o_arena o) + k) = Some e' /\
      x_parent e' = Some id /\ x_state e' = SRunning /\ x_codes e' = rule_ptrs (o_pgen o) r ++ cs.
Proof. exact (call_order cf o P s fuel id q f cs r o'). Qed.
Print Assumptions C09_textual_order.

(** p/1 has three clauses; when it is called after one clock tick more another branch is waiting *)
Example C09_hypotheses_met : exists o P s id q cs r o', session cfg0 o P s /\ s <> QStale /\ o_queue o = id :: q /\
  calls_goal o id (FV "p" 1) cs /\ turn cfg0 1000 o = Val (r, o') /\ List.length q = 1 /\ List.length (o_queue o') = 4 /\
  List.length (defined_by P (FV "p" 1)) = 3 /\
  parse_program "p(a). r(X) :- p(X). p(b). r(X) :- p(X). p(c)." = Some (COk P).
Proof.
  apply (call_witness _ "r(X)" {| w_time := fun k => if Nat.ltb 2 k then 1000000%Z else 0%Z; w_oom := fun _ => false |}).
  vm_compute. repeat split.
Qed.

(** C29. [goals_called T]: how many of the turns [T] had a call as the next thing to do. *)
Theorem C29_statistics cf o P q rs o1 fuel n w r o' : session cf o P (QFresh q) -> run cf o rs o1 ->
  get_answer cf fuel n w o1 = Val (r, o') ->
  exists root T Q, root_of o root /\ search cf (o_sto o) (o_prog o) root T Q /\
    o_stats o' = (Z.of_nat (goals_called T) mod 4294967296)%Z /\
    exists k, filter (fun r => negb (is_timeout r)) (map fst rs ++ match r with ROutOfMemory => [] | _ => [r] end) =
      map snd (outs T) ++ repeat RFalse k /\ (k <> 0 -> Q = []).
Proof. exact (statistics cf o P q rs o1 fuel n w r o'). Qed.
Print Assumptions C29_statistics.

Example C29_hypotheses_met : exists o P q o', session cfg0 o P (QFresh q) /\
  run cfg0 o [(RAnswer [("X", "a")], 4%Z); (RFalse, 4%Z)] o' /\
  parse_program "p(X) :- q(X), r(X). q(a). q(b). r(a)." = Some (COk P) /\ parse_query (append_dot "p(X)") = Some (COk q).
Proof. apply (run_witness _ _ [w0; w0]). vm_compute. reflexivity. Qed.

(** C30. *)
Theorem C30_unknown_predicate cf o P s fuel id q f cs r o' : session cf o P s -> s <> QStale ->
  o_queue o = id :: q -> calls_goal o id f cs -> defined_by P f = [] -> turn cf fuel o = Val (r, o') ->
  r = None /\ o_queue o' = q /\ List.length (o_arena o') = List.length (o_arena o) /\
  forall j, j < List.length (o_arena o) -> j <> id -> untouched o o' j.
Proof. exact (call_unknown cf o P s fuel id q f cs r o'). Qed.
Print Assumptions C30_unknown_predicate.

Example C30_hypotheses_met : exists o P s id q cs r o', session cfg0 o P s /\ s <> QStale /\ o_queue o = id :: q /\
  calls_goal o id (FV "p" 1) cs /\ turn cfg0 1000 o = Val (r, o') /\ List.length q = 1 /\ List.length (o_queue o') = 1 /\
  List.length (defined_by P (FV "p" 1)) = 0 /\
  parse_program "p(a,b). r(X) :- p(X). r(X) :- r(X)." = Some (COk P).
Proof.
  apply (call_witness _ "r(X)" {| w_time := fun k => if Nat.ltb 2 k then 1000000%Z else 0%Z; w_oom := fun _ => false |}).
  vm_compute. repeat split.
Qed.
