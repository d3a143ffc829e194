(** Properties whose full statement is refuted: what does hold (C27, C31, C32, C39, C44). *)
From Verif Require Import Base Machine Heap Facts HeapSim Compiler Parser Print Organizer Spec Valuation Process Refine Mono Turn Shape Session
  Code Put Search PutRun Get Alloc Atoms Clause Stack Ready Heads Builtins Sols Solve Terms Shown Parsed Tables Root Order Runs Answers
  Clash Sim Cells Examples Witness Finite Tree TreeTurn TreeInv TreeRun TreeSrc TreeFacts TreeShape TreeAll TreeCase Labels Bound Names Returns Clean Shows Flat Safe
  Examples Witness Complete Finite Total LockHist Refute Safe Lists Naming Reload Memory Trailing RestCase.
Open Scope string_scope.
Open Scope list_scope.

(** C27. The text of a list with the elements [ts] and any tail. Refuted in PropRefuted.v: the tail is shown; its last character
    is always overwritten. *)
Theorem C27_lists_partial ts tail : ts <> [] ->
  printed false (tm_list ts tail) = ("[" ++ String.concat "," (map (printed false) ts) ++ relast (tail_sep tail ++ printed true tail) "]")%string.
Proof. exact (list_printed ts tail). Qed.
Print Assumptions C27_lists_partial.
Theorem C27_closed ts : ts <> [] ->
  printed false (tm_list ts nil_tm) = ("[" ++ String.concat "," (map (printed false) ts) ++ "]")%string.
Proof. exact (list_closed ts). Qed.
Print Assumptions C27_closed.
Theorem C27_tail_partial ts tail : ts <> [] -> printed true tail <> "" ->
  printed false (tm_list ts tail) = ("[" ++ String.concat "," (map (printed false) ts) ++ tail_sep tail ++ but_last (printed true tail) ++ "]")%string.
Proof. exact (list_open ts tail). Qed.
Print Assumptions C27_tail_partial.
Example C27_hypotheses_met : printed true (TVar 12 "X12") <> "" /\
  printed false (tm_list [TCon "a"; TInt 5] (TVar 12 "X12")) = "[a,5|X1]" /\ printed false (tm_list [TCon "a"] (TFun "foo" [TCon "b"])) = "[a,foo(b]".
Proof. split; [discriminate|]. split; reflexivity. Qed.
(** [printed] is the text in answers. *)
Theorem C27_answers_partial cf o P q rs o' b : ord_ok cf -> session cf o P (QFresh q) -> small_tables (o_sto o) ->
  (Z.of_nat (List.length (s_vars (o_sto o))) <= 32768)%Z -> no_clash cf P -> run cf o rs o' -> In (RAnswer b) (delivered rs) ->
  exists sg, (forall x s, In (x, s) b -> s = printed false (sg x) /\
      forall ts tail, ts <> [] -> sg x = tm_list ts tail ->
        s = ("[" ++ String.concat "," (map (printed false) ts) ++ relast (tail_sep tail ++ printed true tail) "]")%string) /\
    (no_cycles cf o -> forall g a, In a q -> prov (pow_of cf) (P ++ append_prog) (inst (fun x => ginst g (sg x)) a)).
Proof. exact (answers_lists cf o P q rs o' b). Qed.
Print Assumptions C27_answers_partial.

(** C31. Replacing the program of a running query: if the goal worked on next is stored in the old program, the next get_answer
    reads freed memory. *)
Theorem C31_dangling cf o P q text o' fuel n w : session cf o P (QStarted q) -> load_program cf text o = Some (LOk, o') ->
  next_code o = Some SrcProg -> (w_time w 0 <= o_limit o)%Z -> w_oom w 0 = false ->
  get_answer cf fuel (S n) w o' = Ub UDangling.
Proof. exact (reload_dangles cf o P q text o' fuel n w). Qed.
Print Assumptions C31_dangling.
Example C31_dangling_hypotheses_met : exists o P q o1 o2, parse_program rest_prog = Some (COk P) /\ parse_query (append_dot "p(X)") = Some (COk q) /\
  session cfg0 o P (QFresh q) /\ get_answer cfg0 100 100 w0 o = Val (RAnswer [("X", "a")], o1) /\ session cfg0 o1 P (QStarted q) /\
  load_program cfg0 rest_new o1 = Some (LOk, o2) /\ next_code o1 = Some SrcProg /\ (w_time w0 0 <= o_limit o1)%Z /\ w_oom w0 0 = false.
Proof. exact reload_case. Qed.
(** It is safe before the first get_answer of a query; then the query is answered from the new program ([session] with the new
    clauses, so C01, C04 and the others apply). *)
Theorem C31_before_partial cf o P s text cs o' : ord_ok cf -> session cf o P s -> (forall q, s <> QStarted q) -> s <> QStale ->
  parse_program text = Some (COk cs) -> load_program cf text o = Some (LOk, o') ->
  small_tables (o_sto o') -> (Z.of_nat (List.length (s_vars (o_sto o'))) <= 32768)%Z -> no_clash cf cs -> all_goals no_is cs (qgoals s) ->
  session cf o' cs s /\ forall fuel n w, no_ub (get_answer cf fuel n w o').
Proof. exact (reload_safe cf o P s text cs o'). Qed.
Print Assumptions C31_before_partial.
Example C31_before_hypotheses_met : exists o P q cs o', parse_program rest_prog = Some (COk P) /\ parse_query (append_dot "p(X)") = Some (COk q) /\
  session cfg0 o P (QFresh q) /\ (forall x, QFresh q <> QStarted x) /\ QFresh q <> QStale /\
  parse_program rest_new = Some (COk cs) /\ load_program cfg0 rest_new o = Some (LOk, o') /\
  small_tables (o_sto o') /\ (Z.of_nat (List.length (s_vars (o_sto o'))) <= 32768)%Z /\ no_clash cfg0 cs /\ all_goals no_is cs (qgoals (QFresh q)) /\
  exists o1, get_answer cfg0 100 100 w0 o' = Val (RAnswer [("X", "c")], o1).
Proof. exact reload_safe_case. Qed.
(** It is safe in any state when a query is loaded next, and once no branch is left. *)
Theorem C31_query_partial cf o P s text cs o' qt q o'' : ord_ok cf -> session cf o P s ->
  parse_program text = Some (COk cs) -> load_program cf text o = Some (LOk, o') ->
  parse_query (append_dot qt) = Some (COk q) -> load_query cf qt o' = Some (LOk, o'') ->
  small_tables (o_sto o'') -> (Z.of_nat (List.length (s_vars (o_sto o''))) <= 32768)%Z -> no_clash cf cs -> all_goals no_is cs q ->
  session cf o'' cs (QFresh q) /\ forall fuel n w, no_ub (get_answer cf fuel n w o'').
Proof. exact (reload_query cf o P s text cs o' qt q o''). Qed.
Print Assumptions C31_query_partial.
Theorem C31_exhausted_partial cf o text o' fuel n w : load_program cf text o = Some (LOk, o') -> o_queue o = [] ->
  get_answer cf fuel (S n) w o' = Val (RFalse, o').
Proof. exact (reload_exhausted cf o text o' fuel n w). Qed.
Print Assumptions C31_exhausted_partial.

(** C32. After OUT_OF_MEMORY the object gives no answer until a query is loaded; *)
Theorem C32_no_answer cf fuel n w o o1 : get_answer cf fuel n w o = Val (ROutOfMemory, o1) ->
  forall fuel' n' w', get_answer cf fuel' (S n') w' o1 = Val (RFalse, o1).
Proof. exact (oom_false cf fuel n w o o1). Qed.
Print Assumptions C32_no_answer.
(** then all replies, to any further calls, are those of an object that never held anything and has no built-in predicates.
    The full statement (with built-in predicates) is refuted in PropRefuted.v. *)
Theorem C32_bare_partial cf fuel n w o o1 p t cs : ord_ok cf -> get_answer cf fuel n w o = Val (ROutOfMemory, o1) ->
  play cf (CallProgram p :: CallQuery t :: cs) o1 = play cf (CallProgram p :: CallQuery t :: cs) (bare (o_limit o1)).
Proof. exact (oom_bare cf fuel n w o o1 p t cs). Qed.
Print Assumptions C32_bare_partial.
(** whatever is called, is/2 and append/3 never come back. *)
Theorem C32_built_ins_gone cf fuel n w o o1 cs o2 f : get_answer cf fuel n w o = Val (ROutOfMemory, o1) ->
  In o2 (states cf cs o1) -> f = FV "is" 2 \/ f = FV "append" 3 -> plookup f (o_prog o2) = None.
Proof. exact (oom_gone cf fuel n w o o1 cs o2 f). Qed.
Print Assumptions C32_built_ins_gone.
Example C32_hypotheses_met : exists o o1, loaded "p(a)." "p(X)" = Some o /\ get_answer cfg0 1000 1000 w_full o = Val (ROutOfMemory, o1) /\
  play cfg0 [CallProgram rest_prog; CallQuery "p(X)"; CallAnswer 100 100 w0] o1 = [Val (ReplyLoad LOk); Val (ReplyLoad LOk); Val (ReplyAnswer (RAnswer [("X", "a")]) 1)].
Proof. exact oom_case. Qed.

(** C39. A query text is rejected with the error that does not exist exactly if something other than blanks follows the first
    full stop of an otherwise complete query; *)
Theorem C39_exact_partial cf text o : ord_ok cf ->
  ((exists o', load_query cf text o = Some (LErr CNone, o')) <-> exists u t q, followed (append_dot text) u t q).
Proof. exact (silent_exact cf text o). Qed.
Print Assumptions C39_exact_partial.
(** every such query is dropped. *)
Theorem C39_dropped cf text o u t q : followed (append_dot text) u t q ->
  exists o', load_query cf text o = Some (LErr CNone, o') /\
  (forall fuel n w r o2, get_answer cf fuel n w o' = Val (r, o2) -> r = RFalse /\ o2 = o') /\
  forall fuel n w, exists o2, get_answer cf fuel (S n) w o' = Val (RFalse, o2).
Proof. exact (silent_dropped cf text o u t q). Qed.
Print Assumptions C39_dropped.
Example C39_hypotheses_met : followed (append_dot "f(a). g(b).") "f(a)" " g(b)." [NFun "f" [NCon "a"]].
Proof. vm_compute. repeat split; discriminate. Qed.

(** C44. Every answer shows terms in which each unbound variable [k] has one name [base k], that of a variable of the source, shown as it is or with its
    address behind it, the latter only if it is no variable of the query; so a variable with the name of a query variable is shown
    the same everywhere. Missing (and refuted in PropRefuted.v): other variables are shown in one way only, and different
    variables differently. *)
Theorem C44_names_partial cf o P q rs o' b : ord_ok cf -> session cf o P (QFresh q) -> small_tables (o_sto o) ->
  (Z.of_nat (List.length (s_vars (o_sto o))) <= 32768)%Z -> no_clash cf P ->
  run cf o rs o' -> In (RAnswer b) (delivered rs) ->
  exists sg base, reads b sg /\
    (forall x, In x (flat_map nvars q) -> (
      (forall k nm, In (k, nm) (tm_vars (sg x)) -> In (base k) (flat_map nvars (atoms q P)) /\
        (nm = base k \/ (nm = (base k ++ string_of_nat k)%string /\ ~ In (base k) (flat_map nvars q)))) /\
      (forall s, In s (tm_cons (sg x)) -> In s (flat_map ncons (atoms q P)))) /\ spelled (sg x) = true) /\
    (no_cycles cf o -> forall g a, In a q -> prov (pow_of cf) (P ++ append_prog) (inst (fun x => ginst g (sg x)) a)).
Proof. intros OK HS SM VT NC. exact (answers_named cf OK o P q HS SM VT NC rs o' b). Qed.
Print Assumptions C44_names_partial.
Example C44_hypotheses_met : exists o P q o', session cfg0 o P (QFresh q) /\
  run cfg0 o [(RAnswer [("Y", "f(X2,X,Z4)")], 1%Z)] o' /\
  parse_program "p(f(X,X,Z))." = Some (COk P) /\ parse_query (append_dot "p(Y)") = Some (COk q) /\
  small_tables (o_sto o) /\ no_clash cfg0 P /\ (Z.of_nat (List.length (s_vars (o_sto o))) <= 32768)%Z /\
  no_cycles cfg0 o /\ turns_end cfg0 o /\ (true = true -> all_goals no_compare P q /\ all_goals no_is P q).
Proof. apply (hyps_witness _ _ _ [w0]); vm_compute; reflexivity. Qed.
(** Two variables of the same name, both shown with address, are shown differently. *)
Theorem C44_addresses_partial x k k' : (x ++ string_of_nat k = x ++ string_of_nat k')%string -> k = k'.
Proof. exact (numbered_distinct x k k'). Qed.
Print Assumptions C44_addresses_partial.
