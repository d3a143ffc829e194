(** Properties of the heap. *)
From Verif Require Import Base Machine Heap Compiler Parser Print Organizer Examples Process Session Search Atoms Answers LockHist EndsLoad Isolation Settle.
Open Scope string_scope.
Open Scope list_scope.

(** C12. [o1]: any state between two turns of a session; [o2]: that state, or any state between two instructions of the
    next turn. In every executor, also those that have ended, following references from any allocated address ends at
    an allocated cell that is an unbound variable or not a reference. Missing: more than 32768 functors or arguments. *)
Theorem C12_references_end_partial cf o P s fuel o1 o2 : ord_ok cf -> session cf o P s -> s <> QStale -> small_tables (o_sto o) ->
  quiet cf fuel o o1 -> o2 = o1 \/ inside cf fuel o1 o2 ->
  forall id a, allocated o2 id a -> exists d, settles o2 id a d.
Proof. intros OK HS Ns SM Q K. exact (all_references_end cf o P s fuel o1 o2 OK HS Ns SM Q K). Qed.
Print Assumptions C12_references_end_partial.
(** The same in every history of calls, whatever the tables hold: also after OUT_OF_MEMORY, after rejected texts, and with
    a query still waiting when another program is loaded. [o]: any state between two calls. Missing: texts containing
    a term with 65536 or more arguments. *)
Theorem C12_all_histories_partial cf cs o0 o fuel o1 o2 : new_org cf = Val o0 -> Forall narrow_call cs -> In o (states cf cs o0) ->
  quiet cf fuel o o1 -> o2 = o1 \/ inside cf fuel o1 o2 ->
  forall id a, allocated o2 id a -> exists d, settles o2 id a d.
Proof. intros E F H Q K. exact (references_end_always cf cs o0 o fuel o1 o2 E F H Q K). Qed.
Print Assumptions C12_all_histories_partial.
(** where it ends is one place *)
Theorem C12_one_end o id a d e : settles o id a d -> settles o id a e -> d = e.
Proof. intros H K. exact (settles_det o id a d H e K). Qed.
Print Assumptions C12_one_end.

(** inside the third turn executor 2 has just built f(X); X is a chain of two references, ending in the heap of its parent *)
Example C12_hypotheses_met : exists o P q o1 o2, session cfg0 o P (QFresh q) /\ small_tables (o_sto o) /\
  quiet cfg0 1000 o o1 /\ inside cfg0 1000 o1 o2 /\
  match reads o2 2 3, reads o2 2 0, reads o2 2 1 with Some (CRef 0 _), Some (CRef 1 _), Some (CCons _) => true | _, _, _ => false end = true /\
  parse_program "p(X,b) :- q(f(X)). q(f(c))." = Some (COk P) /\ parse_query (append_dot "p(Z,Z)") = Some (COk q).
Proof. apply (inside_witness _ _ 2 2). vm_compute. reflexivity. Qed.

(** a query waiting while another program was loaded *)
Example C12_history_met : let cs := [CallProgram "p(a,b)."; CallQuery "p(Z,Z)"; CallProgram "p(X,b) :- q(f(X)). q(f(c))."] in
  exists o0 o o1 o2, new_org cfg0 = Val o0 /\ Forall narrow_call cs /\ In o (states cfg0 cs o0) /\ quiet cfg0 1000 o o1 /\ inside cfg0 1000 o1 o2 /\
  match reads o2 2 3, reads o2 2 0, reads o2 2 1 with Some (CRef 0 _), Some (CRef 1 _), Some (CCons _) => true | _, _, _ => false end = true.
Proof. apply (history_witness _ 2 2); vm_compute; reflexivity. Qed.

(** C45. Between two turns every cell of a waiting executor is complete: references stay inside the heap, an atom or
    functor is one of the table, with its arity, and all arguments are there. *)
Theorem C45_terms_complete_partial cf o P s fuel o1 : ord_ok cf -> session cf o P s -> s <> QStale -> small_tables (o_sto o) ->
  quiet cf fuel o o1 -> forall id a, In id (o_queue o1) -> allocated o1 id a ->
  exists c, reads o1 id a = Some c /\ cell_complete o1 id a c.
Proof. intros OK HS Ns SM Q. exact (pending_complete cf o P s fuel o1 OK HS Ns SM Q). Qed.
Print Assumptions C45_terms_complete_partial.

(** after three turns a waiting executor has the structure f(X) at address 2 *)
Example C45_hypotheses_met : exists o P q o1, session cfg0 o P (QFresh q) /\ small_tables (o_sto o) /\ quiet cfg0 1000 o o1 /\
  match o_queue o1 with
  | id :: _ => match reads o1 id 2, reads o1 id 3 with Some (CFun _ 1), Some (CRef 0 _) => true | _, _ => false end
  | [] => false
  end = true /\
  parse_program "p(X,b) :- q(f(X)). q(f(c))." = Some (COk P) /\ parse_query (append_dot "p(Z,Z)") = Some (COk q).
Proof. apply (quiet_witness _ _ 3). vm_compute. reflexivity. Qed.
