(** Theorems about the web front end. *)
From Verif Require Import Base Machine Compiler Parser Print Organizer Session Runs Atoms Examples Trailing AnswerText Web WebText WebFacts WebCase.
Open Scope string_scope.
Open Scope list_scope.

(** C65. [es]: anything that can happen to a result box. [results_of cf o o' rs]: calls of get_answer lead from the freshly
    loaded object [o] to [o'], and [rs] are their results without the time-outs (ROutOfMemory is followed by RFalse only).
    The paragraphs of the box are these results, in this order; only the remark about memory is put in between.
    A query followed by further text is the exception: then every paragraph is "false" (refuted part below). *)
Theorem C65_results_partial cf v program query b0 es b : ord_ok cf ->
  run_clicked cf v program query = Val (Opened b0) -> steps cf es b0 = Val b -> b_alive b = true ->
  exists P, parse_program program = Some (COk P) /\
  ((exists q o ls, parse_query (append_dot query) = Some (COk q) /\ session cf o P (QFresh q) /\
      b_shown b = map line_text ls /\ results_of cf o (b_org b) (line_results ls)) \/
   (exists u t q, followed (append_dot query) u t q) /\ Forall (fun s => s = "false") (b_shown b)).
Proof. exact (box_results cf v program query b0 es b). Qed.
Print Assumptions C65_results_partial.

(** the paragraph "false" stands for RFalse, and for nothing else *)
Theorem C65_false_text l : line_text l = "false" <-> l = LResult RFalse.
Proof. exact (false_text l). Qed.
Print Assumptions C65_false_text.

(** Next is enabled exactly when there is a paragraph and none says "false". *)
Theorem C65_next cf v program query b0 es b :
  run_clicked cf v program query = Val (Opened b0) -> steps cf es b0 = Val b -> b_alive b = true ->
  (b_next b = true <-> b_shown b <> [] /\ ~ In "false" (b_shown b)) /\ (b_tree b = true <-> b_shown b <> []).
Proof. exact (box_next cf v program query b0 es b). Qed.
Print Assumptions C65_next.

(** Every click is answered by one paragraph or still has its timer, and paragraphs stay. *)
Theorem C65_every_click cf v program query b0 es b e b' :
  run_clicked cf v program query = Val (Opened b0) -> steps cf es b0 = Val b -> step cf e b = Val b' -> b_alive b' = true ->
  List.length (b_timers b0) + List.length (b_shown b0) = 1 /\
  List.length (b_timers b') + List.length (b_shown b') = List.length (b_timers b) + List.length (b_shown b) + (if asks e b then 1 else 0) /\
  exists l, b_shown b' = b_shown b ++ l.
Proof. exact (box_asked cf v program query b0 es b e b'). Qed.
Print Assumptions C65_every_click.

(** When "false" is shown, no call can give anything else. *)
Theorem C65_false_final cf v program query b0 es b :
  run_clicked cf v program query = Val (Opened b0) -> steps cf es b0 = Val b -> b_alive b = true ->
  In "false" (b_shown b) -> o_queue (b_org b) = [].
Proof. exact (box_false cf v program query b0 es b). Qed.
Print Assumptions C65_false_final.

(** ... which does not mean that there is no further answer: a failed allocation ends in "false" too. *)
Theorem C65_memory_refuted : exists v v' program query es b0 b b1,
  run_clicked cfg0 v program query = Val (Opened b0) /\ steps cfg0 es b0 = Val b /\ b_shown b = ["Memory exhausted."; "false"] /\ b_next b = false /\
  run_clicked cfg0 v' program query = Val (Opened b1) /\ b_shown b1 = ["[X / a]"].
Proof. exact false_refuted. Qed.
Print Assumptions C65_memory_refuted.

(** A query that has answers is answered "false" when more text follows its full stop. *)
Theorem C65_dropped_refuted : exists v program q1 q2 b1 b2, run_clicked cfg0 v program q1 = Val (Opened b1) /\ b_shown b1 = ["[X / a]"] /\
  run_clicked cfg0 v program (q1 ++ ". " ++ q2) = Val (Opened b2) /\ b_shown b2 = ["false"].
Proof. exact dropped_refuted. Qed.
Print Assumptions C65_dropped_refuted.

(** time-outs, two clicks answered in the other order, the remark about memory, clicks in the tree after the end *)
Example C65_hypotheses_met : exists b0 b,
  run_clicked cfg0 v_slow letters "p(X)" = Val (Opened b0) /\
  steps cfg0 [EvTimer 0 v_slow; EvTimer 0 v_good; EvNext v_slow; EvNext v_slow; EvTimer 1 v_good; EvTimer 0 v_full; EvContinue v_good; EvNext v_good; EvContinue v_good] b0 = Val b /\
  (b_shown b, b_next b, List.length (b_timers b)) =
    (["[X / a]"; "[X / b]"; "Soft memory limit reached. Please close some results."; "[X / c]"; "false"; "false"], false, 0).
Proof. exact (web_case_exists _ _ _ _ _ web_case). Qed.
Example C65_error_met : exists b0 b, run_clicked cfg0 v_good divide "p(X)" = Val (Opened b0) /\ steps cfg0 [EvNext v_good] b0 = Val b /\
  (b_shown b, b_next b, List.length (b_timers b)) = (["[X / b]"; "ERROR: Arithmetic: evaluation error: zero_divisor"], true, 0).
Proof. exact (web_case_exists _ _ _ _ _ web_error). Qed.

(** C66. [plain s]: the text contains none of < > &. The paragraphs are put into the page as they are. *)
Theorem C66_paragraphs cf v program query b0 es b :
  run_clicked cf v program query = Val (Opened b0) -> steps cf es b0 = Val b -> b_alive b = true ->
  Forall plain (b_shown b) /\ b_head b = query.
Proof. exact (box_plain cf v program query b0 es b). Qed.
Print Assumptions C66_paragraphs.

(** So is the query; it is plain unless it is one that is dropped silently. *)
Theorem C66_query_partial cf v program query b0 : ord_ok cf -> run_clicked cf v program query = Val (Opened b0) ->
  plain query \/ exists u t q, followed (append_dot query) u t q.
Proof. exact (head_plain cf v program query b0). Qed.
Print Assumptions C66_query_partial.

Theorem C66_query_refuted : exists v program query b, run_clicked cfg0 v program query = Val (Opened b) /\ b_head b = "p(X).<img src=x onerror=f()>".
Proof. exact markup_refuted. Qed.
Print Assumptions C66_query_refuted.

(** what plain says *)
Example C66_plain : plain "[X / f(a,[1,2|Y])]" /\ ~ plain "a<b" /\ ~ plain "&" /\ ~ plain ">".
Proof. repeat split; discriminate. Qed.
