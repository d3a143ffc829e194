(** The time limit. *)
From Verif Require Import Base Machine Heap Compiler Parser Print Organizer Examples Runs LockHist Limit.
Open Scope string_scope.
Open Scope list_scope.

(** C53. [history cf cs o]: the calls [cs] led to [o]; [last_limit cs t]: the limit set last, [t] if none was. *)
Theorem C53_in_force cf cs o : history cf cs o -> o_limit o = last_limit cs 100000.
Proof. exact (limit_in_force cf cs o). Qed.
Print Assumptions C53_in_force.
(** [silent_turns cf fuel k o o']: [k] turns of the scheduler, none of which ends the call; [w_time w k]: the time read after [k] turns *)
Theorem C53_out_of_time cf fuel n w o r o' : get_answer cf fuel n w o = Val (r, o') ->
  (r = ROutOfTime <-> exists k, silent_turns cf fuel k o o' /\ o_queue o' <> [] /\ (o_limit o < w_time w k)%Z /\
                               forall i, i < k -> (w_time w i <= o_limit o)%Z /\ w_oom w i = false).
Proof. exact (answer_time cf fuel n w o r o'). Qed.
Print Assumptions C53_out_of_time.

Example C53_hypotheses_met : exists o o', history cfg0 limit_calls o /\ o_limit o = 7%Z /\ get_answer cfg0 100 100 slow_world o = Val (ROutOfTime, o') /\
  silent_turns cfg0 100 2 o o' /\ exists r o'', get_answer cfg0 100 100 w0 o' = Val (RAnswer r, o'').
Proof. exact limit_case. Qed.
