(** The terminal program: more on C55 and C58. *)
From Verif Require Import Base Machine Heap Compiler Parser Print Organizer Session Examples Terminal TermFacts TermEnds.
Open Scope string_scope.
Open Scope list_scope.

(** C58. If [q.], or [q] and the end of the input, comes next at the prompt the program ends, for good and whatever follows. *)
Theorem C58_q_partial cf fuel n ws paths input k w s rest : normal_mode cf fuel n ws paths input k = Val (w, inl s) -> t_show s = None ->
  i_good (t_in s) = true -> i_rest (t_in s) = "q" \/ i_rest (t_in s) = ("q." ++ rest)%string ->
  forall j, normal_mode cf fuel n ws paths input (j + S k) = Val ((w ++ "?- ")%string, inr TQuit).
Proof. exact (q_ends cf fuel n ws paths input k w s rest). Qed.
Print Assumptions C58_q_partial.
Example C58_q_hypotheses_met : exists w s rest, normal_mode cfg0 100 100 (fun _ => w0) [] ("append(X,Y,[a])." ++ nl ++ ";" ++ nl ++ "x" ++ nl ++ "q. bye" ++ nl) 3 = Val (w, inl s) /\
  t_show s = None /\ i_good (t_in s) = true /\ i_rest (t_in s) = ("q." ++ rest)%string.
Proof. exact q_case. Qed.
(** Refuted if an empty line is typed before: then it is a query. *)
Theorem C58_blank_refuted : exists w s, normal_mode cfg0 100 100 (fun _ => w0) [] (nl ++ "q." ++ nl) 1 = Val (w, inl s) /\ w = (header [] ++ "?- false" ++ nl)%string.
Proof. exact blank_q. Qed.
Print Assumptions C58_blank_refuted.

(** C55. If the names behind [p] are no program texts, the dialogue starts with what loading the name [p] itself as a program gives. *)
Theorem C55_last_partial cf a p b o o1 : load_files cf (a ++ p :: b) o = Val (Some o1) -> (forall x, In x b -> exists e, parse_program x = Some (CErr e)) ->
  exists o0 r, load_files cf a o = Val (Some o0) /\ load_program cf p o0 = Some (r, o1).
Proof. exact (last_name cf a p b o o1). Qed.
Print Assumptions C55_last_partial.
Example C55_last_hypotheses_met : exists o o1, new_org cfg0 = Val o /\ load_files cfg0 (["prog.pl"; "p(a)."] ++ "p(b)." :: ["family.pl"]) o = Val (Some o1) /\
  (forall x, In x ["family.pl"] -> exists e, parse_program x = Some (CErr e)) /\
  exists o0, load_files cfg0 ["prog.pl"; "p(a)."] o = Val (Some o0) /\ load_program cfg0 "p(b)." o0 = Some (LOk, o1).
Proof. exact last_case. Qed.
