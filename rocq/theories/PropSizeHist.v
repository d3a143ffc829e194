(** Short texts in every history of calls: no assumption about the tables or the width of terms is needed.
    [chars cs]: the characters of all texts of the calls [cs], one more for each query. *)
From Verif Require Import Base Machine Heap Compiler Parser Print Organizer Examples Session Atoms Order Answers LockHist LockInst Independence Stale StaleCase Isolation Settle EndsLoad Size SizeHist.
Open Scope string_scope.
Open Scope list_scope.

(** C77. The tables after any calls, also after OUT_OF_MEMORY and with texts that were rejected. *)
Theorem C77_histories cf hs o0 o : new_org cf = Val o0 -> In o (states cf hs o0) ->
  List.length (s_functors (o_sto o)) <= 75 + 3 * chars hs /\ List.length (s_vars (o_sto o)) <= 75 + 3 * chars hs /\
  forall f, In f (s_functors (o_sto o)) -> fv_arity f <= 75 + 3 * chars hs.
Proof. intros N H. destruct (state_bounded cf hs o0 o N H) as [A B C]. exact (conj A (conj B C)). Qed.
Print Assumptions C77_histories.

(** C22. All texts together at most 10000 characters: after a rejected program the replies are those without it, exactly if is/2 is not
    used and otherwise up to the functor a type error names. [s_functors (o_sto o) <> []]: the call before did not return OUT_OF_MEMORY. *)
Theorem C22_short_texts cf o0 hs o text r o' cs : ord_ok cf -> new_org cf = Val o0 -> In o (states cf hs o0) ->
  load_program cf text o = Some (r, o') -> r <> LOk -> s_functors (o_sto o) <> [] ->
  (Z.of_nat (chars hs) + Z.of_nat (String.length text) + Z.of_nat (chars cs) <= 10000)%Z ->
  (Forall (text_goals no_is) hs -> Forall (text_goals no_is) cs -> play cf cs o' = play cf cs o) /\ alike (play cf cs o) (play cf cs o').
Proof. exact (rejected_short cf o0 hs o text r o' cs). Qed.
Print Assumptions C22_short_texts.
Example C22_short_hypotheses_met : exists o0 o o', let hs := [CallProgram "p(a). p(b). e(X,X). r(X) :- e(X,f(c))."; CallQuery "p(Y)"; ask1] in
  let cs := [ask1; CallQuery "r(Z)"; ask1] in
  new_org cfg0 = Val o0 /\ In o (states cfg0 hs o0) /\
  load_program cfg0 "q(f) :- r(l). append(a,b,c)." o = Some (LErr CRedef, o') /\ s_functors (o_sto o) <> [] /\
  (Z.of_nat (chars hs) + Z.of_nat (String.length "q(f) :- r(l). append(a,b,c).") + Z.of_nat (chars cs) <= 10000)%Z /\
  Forall (text_goals no_is) hs /\ Forall (text_goals no_is) cs /\ o_sto o' <> o_sto o /\
  play cfg0 cs o = [Val (ReplyAnswer (RAnswer [("Y", "b")]) 1); Val (ReplyLoad LOk); Val (ReplyAnswer (RAnswer [("Z", "f(c)")]) 2)].
Proof. exact rejected_short_case. Qed.

(** C23. Two histories of short texts, after which the same program and time limit hold: the same replies from load_query on. *)
Theorem C23_short_texts cf1 cf2 oa ob hs1 hs2 o1 o2 P s1 s2 text cs : ord_ok cf1 -> ord_ok cf2 -> (forall a b, c_powf cf1 a b = c_powf cf2 a b) ->
  new_org cf1 = Val oa -> In o1 (states cf1 hs1 oa) -> new_org cf2 = Val ob -> In o2 (states cf2 hs2 ob) ->
  history cf1 o1 P s1 -> history cf2 o2 P s2 -> o_limit o1 = o_limit o2 ->
  (Z.of_nat (chars hs1) + Z.of_nat (chars (CallQuery text :: cs)) <= 10000)%Z -> (Z.of_nat (chars hs2) + Z.of_nat (chars (CallQuery text :: cs)) <= 10000)%Z ->
  ((forall c n, In c P -> In n (tl c) -> no_is n) -> Forall (text_goals no_is) (CallQuery text :: cs) ->
   play cf1 (CallQuery text :: cs) o1 = play cf2 (CallQuery text :: cs) o2) /\
  alike (play cf1 (CallQuery text :: cs) o1) (play cf2 (CallQuery text :: cs) o2).
Proof. exact (histories_short cf1 cf2 oa ob hs1 hs2 o1 o2 P s1 s2 text cs). Qed.
Print Assumptions C23_short_texts.
Example C23_short_hypotheses_met : exists oa ob o1 o2 P s1 s2,
  let hs1 := [CallProgram mixed_old; CallQuery "q(X), p(X)"; CallAnswer 100 100 (w_turns 3); CallProgram mixed_new; CallAnswer 100 100 w0] in
  let hs2 := [CallProgram mixed_new] in let cs := [ask1; ask1] in
  new_org cfg0 = Val oa /\ In o1 (states cfg0 hs1 oa) /\ new_org rev0 = Val ob /\ In o2 (states rev0 hs2 ob) /\
  history cfg0 o1 P s1 /\ history rev0 o2 P s2 /\ s1 = QStale /\ o_limit o1 = o_limit o2 /\
  (Z.of_nat (chars hs1) + Z.of_nat (chars (CallQuery "p(X)" :: cs)) <= 10000)%Z /\ (Z.of_nat (chars hs2) + Z.of_nat (chars (CallQuery "p(X)" :: cs)) <= 10000)%Z /\
  (forall c n, In c P -> In n (tl c) -> no_is n) /\ Forall (text_goals no_is) (CallQuery "p(X)" :: cs) /\
  play cfg0 (CallQuery "p(X)" :: cs) o1 = [Val (ReplyLoad LOk); Val (ReplyAnswer (RAnswer [("X", "b")]) 1); Val (ReplyAnswer RFalse 1)].
Proof. exact history_short_case. Qed.

(** C12. Any number of calls, each text of fewer than 65535 characters: every reference ends. *)
Theorem C12_short_texts cf cs o0 o fuel o1 o2 : new_org cf = Val o0 -> Forall (fun c => (Z.of_nat (chars_of c) < 65536)%Z) cs -> In o (states cf cs o0) ->
  quiet cf fuel o o1 -> o2 = o1 \/ inside cf fuel o1 o2 ->
  forall id a, allocated o2 id a -> exists d, settles o2 id a d.
Proof. intros E F H Q K. exact (references_short cf cs o0 o fuel o1 o2 E F H Q K). Qed.
Print Assumptions C12_short_texts.
Example C12_short_hypotheses_met : let cs := [CallProgram "p(a,b)."; CallQuery "p(Z,Z)"; CallProgram "p(X,b) :- q(f(X)). q(f(c))."] in
  exists o0 o o1 o2, new_org cfg0 = Val o0 /\ Forall (fun c => (Z.of_nat (chars_of c) < 65536)%Z) cs /\ In o (states cfg0 cs o0) /\
  quiet cfg0 1000 o o1 /\ inside cfg0 1000 o1 o2 /\
  match reads o2 2 3, reads o2 2 0, reads o2 2 1 with Some (CRef 0 _), Some (CRef 1 _), Some (CCons _) => true | _, _, _ => false end = true.
Proof. exact references_short_case. Qed.
