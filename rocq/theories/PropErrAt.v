(** The positions that errors at run time carry. *)
From Verif Require Import Base Machine Compiler Parser Organizer Examples Positions CompAt LockHist OrgAt RunAt.
Open Scope string_scope.
Open Scope list_scope.

(** C64. [play_at] is the machine in which every compiled atom carries its source_code_info. Without the positions it is the machine of the other theorems. *)
Theorem C64_same cf cs o : play cf cs (plain o) = map (omap fst) (play_at cf cs o).
Proof. exact (play_plain cf cs o). Qed.
Print Assumptions C64_same.
Theorem C64_same_start cf : new_org cf = omap plain (new_at cf).
Proof. exact (new_plain cf). Qed.
Print Assumptions C64_same_start.
(** Whatever is called on the object: an error at run time carries the position of the head of the built-in "is". *)
Theorem C64_error_partial cf cs o e n j : new_at cf = Val o -> In (Val (ReplyAnswer (RError e) n, j)) (play_at cf cs o) ->
  j = Some {| i_begin := 1696969; i_end := 1696969; i_text := "Lhs is Rhs" |}.
Proof. exact (history_error cf cs o e n j). Qed.
Print Assumptions C64_error_partial.
Example C64_hypotheses_met : exists o, new_at cfg0 = Val o /\
  In (Val (ReplyAnswer (RError EDivBy0) 2, Some {| i_begin := 1696969; i_end := 1696969; i_text := "Lhs is Rhs" |})) (play_at cfg0 div_calls o).
Proof. exact div_error. Qed.
(** So it names no goal of the program or of the query. *)
Theorem C64_goal_refuted : exists cs q o e n j,
  parse_program_at div_text = Some (COk cs) /\ parse_query_at (append_dot "p(X)") = Some (COk q) /\ new_at cfg0 = Val o /\
  In (Val (ReplyAnswer (RError e) n, j)) (play_at cfg0 div_calls o) /\
  forall a i, In (a, i) (atoms_at cs ++ snd q) -> j <> Some i.
Proof. exact div_not_named. Qed.
Print Assumptions C64_goal_refuted.
