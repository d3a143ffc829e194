(** Histories in which get_answer is called at any time (C23), and all that can happen once the program of a running query has been replaced (C31).
    [history cf o P s]: [o] came about by any calls except that OUT_OF_MEMORY was never returned; [P] is the program loaded last. *)
From Verif Require Import Base Machine Heap Compiler Parser Print Organizer Spec Builtins Examples Session Atoms Answers Runs LockHist LockInst Independence Stale StaleCase.
Open Scope string_scope.
Open Scope list_scope.

(** Every sequence of calls without OUT_OF_MEMORY is such a history, *)
Theorem C23_calls cf o0 cs o : new_org cf = Val o0 -> In o (states cf cs o0) ->
  (forall st, ~ In (Val (ReplyAnswer ROutOfMemory st)) (play cf cs o0)) -> exists P s, history cf o P s.
Proof. intros N. exact (history_states cf o0 N cs o). Qed.
Print Assumptions C23_calls.
(** and after load_query it is a session, so that what is proved about sessions (C01, C04, C05 and the others) applies. *)
Theorem C23_session cf o P s text q o' : history cf o P s -> parse_query (append_dot text) = Some (COk q) -> load_query cf text o = Some (LOk, o') ->
  session cf o' P (QFresh q).
Proof. intros H Ep E. exact (history_session cf o' P (QFresh q) (hi_query cf o P s text q o' H Ep E) I). Qed.
Print Assumptions C23_session.

(** From load_query on the replies are determined by the program, the query and the time limit, whatever was called before. *)
Theorem C23_history_partial cf1 cf2 o1 o2 P s1 s2 text cs : ord_ok cf1 -> ord_ok cf2 -> (forall a b, c_powf cf1 a b = c_powf cf2 a b) ->
  history cf1 o1 P s1 -> history cf2 o2 P s2 -> o_limit o1 = o_limit o2 ->
  (forall c n, In c P -> In n (tl c) -> no_is n) -> Forall (text_goals no_is) (CallQuery text :: cs) ->
  Forall (fun x => short_tables (o_sto x)) (states cf1 (CallQuery text :: cs) o1) ->
  Forall (fun x => short_tables (o_sto x)) (states cf2 (CallQuery text :: cs) o2) ->
  play cf1 (CallQuery text :: cs) o1 = play cf2 (CallQuery text :: cs) o2.
Proof. exact (history_exact cf1 cf2 o1 o2 P s1 s2 text cs). Qed.
Print Assumptions C23_history_partial.
Theorem C23_history_alike_partial cf1 cf2 o1 o2 P s1 s2 text cs : ord_ok cf1 -> ord_ok cf2 -> (forall a b, c_powf cf1 a b = c_powf cf2 a b) ->
  history cf1 o1 P s1 -> history cf2 o2 P s2 -> o_limit o1 = o_limit o2 ->
  Forall (fun x => short_tables (o_sto x)) (states cf1 (CallQuery text :: cs) o1) ->
  Forall (fun x => short_tables (o_sto x)) (states cf2 (CallQuery text :: cs) o2) ->
  alike (play cf1 (CallQuery text :: cs) o1) (play cf2 (CallQuery text :: cs) o2).
Proof. exact (history_alike cf1 cf2 o1 o2 P s1 s2 text cs). Qed.
Print Assumptions C23_history_alike_partial.
Example C23_history_hypotheses_met : exists o1 o2 P s1 s2 cs, history cfg0 o1 P s1 /\ history rev0 o2 P s2 /\ s1 = QStale /\ o_limit o1 = o_limit o2 /\
  (forall c n, In c P -> In n (tl c) -> no_is n) /\ Forall (text_goals no_is) (CallQuery "p(X)" :: cs) /\
  Forall (fun x => short_tables (o_sto x)) (states cfg0 (CallQuery "p(X)" :: cs) o1) /\
  Forall (fun x => short_tables (o_sto x)) (states rev0 (CallQuery "p(X)" :: cs) o2) /\
  play cfg0 (CallQuery "p(X)" :: cs) o1 = [Val (ReplyLoad LOk); Val (ReplyAnswer (RAnswer [("X", "b")]) 1); Val (ReplyAnswer RFalse 1)].
Proof. exact history_case. Qed.

(** C31. The program of a running query is replaced while some waiting executor, at whatever place of the queue, is to work on something
    stored in the old program: from then on get_answer returns nothing but OUT_OF_TIME, *)
Theorem C31_no_result cf o P q text o' id rs o'' : session cf o P (QStarted q) -> load_program cf text o = Some (LOk, o') ->
  In id (o_queue o) -> works_in o SrcProg id -> run cf o' rs o'' -> delivered rs = [].
Proof. intros H1 H2 H3 H4 H5. exact (proj1 (reload_nothing cf o P q text o' id rs o'' H1 H2 H3 H4 H5)). Qed.
Print Assumptions C31_no_result.
(** and a call for which neither the time nor memory runs out does not return. *)
Theorem C31_no_return cf o P q text o' id rs o'' : session cf o P (QStarted q) -> load_program cf text o = Some (LOk, o') ->
  In id (o_queue o) -> works_in o SrcProg id -> run cf o' rs o'' ->
  forall fuel n w, (forall k, (w_time w k <= o_limit o'')%Z) -> (forall k, w_oom w k = false) -> forall x, get_answer cf fuel n w o'' <> Val x.
Proof. exact (reload_never cf o P q text o' id rs o''). Qed.
Print Assumptions C31_no_return.
Example C31_no_result_hypotheses_met : exists o P q o1 o2 i id, session cfg0 o P (QFresh q) /\ get_answer cfg0 100 100 (w_turns 3) o = Val (ROutOfTime, o1) /\
  session cfg0 o1 P (QStarted q) /\ load_program cfg0 "p(b)." o1 = Some (LOk, o2) /\ o_queue o1 = [i; id] /\ ~ works_in o1 SrcProg i /\ works_in o1 SrcProg id /\
  get_answer cfg0 100 100 w0 o2 = Ub UDangling /\
  exists o3, get_answer cfg0 100 100 (w_turns 1) o2 = Val (ROutOfTime, o3) /\ run cfg0 o2 [(ROutOfTime, o_stats o3)] o3 /\ o_stats o3 <> o_stats o2.
Proof. exact stuck_case. Qed.
(** If only goals of the query wait, the search goes on with the new program: q(X), p(X) is answered with X = b, which follows neither from
    the program the query was started with nor from the new one. *)
Theorem C31_mixed_refuted : exists o0, new_org cfg0 = Val o0 /\
  play cfg0 mixed_calls o0 =
    [Val (ReplyLoad LOk); Val (ReplyLoad LOk); Val (ReplyAnswer ROutOfTime 1); Val (ReplyLoad LOk); Val (ReplyAnswer (RAnswer [("X", "b")]) 3)] /\
  parse_program mixed_old = Some (COk mixed_P) /\ parse_program mixed_new = Some (COk mixed_P') /\
  parse_query (append_dot "q(X), p(X)") = Some (COk [NFun "q" [NVar "X"]; NFun "p" [NVar "X"]]) /\
  forall v P, P = mixed_P \/ P = mixed_P' -> v "X" = GCon "b" ->
    ~ forall a, In a [NFun "q" [NVar "X"]; NFun "p" [NVar "X"]] -> prov (pow_of cfg0) (P ++ append_prog) (inst v a).
Proof. exact mixed_case. Qed.
Print Assumptions C31_mixed_refuted.
