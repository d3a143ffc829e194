(** Queries typed at the terminal: properties C80 and C81. *)
From Verif Require Import Base Machine Heap Compiler Parser Print Organizer Session Language Examples Terminal TermFacts TermText.
Open Scope string_scope.
Open Scope list_scope.

(** C80. If a query followed by a full stop is what comes next at the prompt, it is read whole, loaded as that query, and its first
    result is shown; the rest of the line is skipped. *)
Theorem C80_whole_partial cf fuel n ws paths input k w s t rest q w' s' :
  normal_mode cf fuel n ws paths input k = Val (w, inl s) -> t_show s = None -> t_in s = {| i_rest := t ++ "." ++ rest; i_good := true |} ->
  query_lang q (t ++ ".") -> normal_mode cf fuel n ws paths input (S k) = Val (w', inl s') ->
  parse_query (append_dot t) = Some (COk q) /\
  (exists lr o1 r, load_query cf t (t_org s) = Some (lr, o1) /\ get_answer cf fuel n (ws (t_k s)) o1 = Val (r, t_org s') /\
    t_show s' = showing r /\ w' = (w ++ shown r)%string) /\
  (forall line later, rest = (line ++ nl ++ later)%string -> has_char newline line = false -> (Z.of_nat (String.length line) < 1024)%Z ->
     t_in s' = {| i_rest := later; i_good := true |}).
Proof. exact (read_whole cf fuel n ws paths input k w s t rest q w' s'). Qed.
Print Assumptions C80_whole_partial.
(** a query on two lines with a word behind it *)
Example C80_hypotheses_met : exists w s q w' s', normal_mode cfg0 100 100 (fun _ => w0) [] long_dialogue 2 = Val (w, inl s) /\ t_show s = None /\
  t_in s = {| i_rest := (("append([a]," ++ nl ++ " [b],Y) ") ++ "." ++ (" more" ++ nl ++ "y" ++ nl))%string; i_good := true |} /\
  query_lang q (("append([a]," ++ nl ++ " [b],Y) ") ++ ".") /\ normal_mode cfg0 100 100 (fun _ => w0) [] long_dialogue 3 = Val (w', inl s') /\
  t_show s' = Some [("Y", "[a,b]")].
Proof. exact whole_case. Qed.
(** Refuted for long lines: more than 1024 characters behind the full stop are read as the next query. Here they end the program. *)
Theorem C80_line_refuted : exists rest w, has_char newline rest = false /\
  normal_mode cfg0 100 100 (fun _ => w0) [] ("append([],[],[])." ++ rest ++ nl) 3 = Val (w, inr TQuit).
Proof. exact long_line. Qed.
Print Assumptions C80_line_refuted.
(** Refuted for the query [q]: it has an answer, but cannot be asked. *)
Theorem C80_q_refuted : exists o o1 o2 o3 w, new_org cfg0 = Val o /\ load_program cfg0 "q." o = Some (LOk, o1) /\ load_query cfg0 "q" o1 = Some (LOk, o2) /\
  get_answer cfg0 100 100 w0 o2 = Val (RAnswer [], o3) /\ query_lang [NCon "q"] "q." /\
  normal_mode cfg0 100 100 (fun _ => w0) ["q."] ("q." ++ nl) 1 = Val (w, inr TQuit).
Proof. exact query_q. Qed.
Print Assumptions C80_q_refuted.

(** C81. Refuted: a text that is no query gives the same output as a query without answers. *)
Theorem C81_reported_refuted : exists w s1 s2, (forall q, ~ query_lang q "append([],[a]),[].") /\ (exists q, query_lang q "append([],[a],[]).") /\
  normal_mode cfg0 100 100 (fun _ => w0) [] ("append([],[a]),[]." ++ nl) 1 = Val (w, inl s1) /\
  normal_mode cfg0 100 100 (fun _ => w0) [] ("append([],[a],[])." ++ nl) 1 = Val (w, inl s2).
Proof. exact same_output. Qed.
Print Assumptions C81_reported_refuted.
(** This is so for every such text: [false] is shown, and the next query can be typed. *)
Theorem C81_false_partial cf fuel n ws paths input k w s t rest w' s' :
  normal_mode cf fuel n ws paths input k = Val (w, inl s) -> t_show s = None -> t_in s = {| i_rest := t ++ "." ++ rest; i_good := true |} ->
  has_char "." t = false -> (forall q, ~ query_lang q (append_dot t)) -> normal_mode cf fuel n ws paths input (S k) = Val (w', inl s') ->
  w' = (w ++ "?- false" ++ nl)%string /\ t_show s' = None.
Proof. exact (rejected_false cf fuel n ws paths input k w s t rest w' s'). Qed.
Print Assumptions C81_false_partial.
Example C81_hypotheses_met : exists w s t rest w' s', normal_mode cfg0 100 100 (fun _ => w0) [] ("append(X,[b],[a,b])." ++ nl ++ "x" ++ nl ++ "p(X." ++ nl) 2 = Val (w, inl s) /\
  t_show s = None /\ t_in s = {| i_rest := (t ++ "." ++ rest)%string; i_good := true |} /\ has_char "." t = false /\ (forall q, ~ query_lang q (append_dot t)) /\
  normal_mode cfg0 100 100 (fun _ => w0) [] ("append(X,[b],[a,b])." ++ nl ++ "x" ++ nl ++ "p(X." ++ nl) 3 = Val (w', inl s').
Proof. exact rejected_case_t. Qed.
