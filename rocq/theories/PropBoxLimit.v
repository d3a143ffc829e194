(** C53 for the page: whatever is clicked, a call of get_answer for a box is stopped as soon as a clock reading exceeds 100000 microseconds (C53_out_of_time with this limit). *)
From Verif Require Import Base Machine Heap Compiler Parser Print Organizer Examples Terminal Web WebCase BoxSize BoxLimit.
Open Scope string_scope.
Open Scope list_scope.

Theorem C53_page cf v program query b0 es b : run_clicked cf v program query = Val (Opened b0) -> steps cf es b0 = Val b -> o_limit (b_org b) = 100000%Z.
Proof. exact (page_limit cf v program query b0 es b). Qed.
Print Assumptions C53_page.
Example C53_page_hypotheses_met : exists b0 b, run_clicked cfg0 v_good box_prog "len([a,b],N)" = Val (Opened b0) /\ steps cfg0 [EvNext v_good] b0 = Val b.
Proof. exact (match box_case with ex_intro _ _ (ex_intro _ _ (ex_intro _ b0 (ex_intro _ b (conj A (conj B _))))) => ex_intro _ b0 (ex_intro _ b (conj A B)) end). Qed.
