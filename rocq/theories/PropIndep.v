(** What replies do not depend on: hash orders, earlier calls, rejected programs. [play cf cs o]: the replies to the calls
    [cs]; [states cf cs o]: the states before, between and after them; [short_tables]: at most 32768 functors and variables. *)
From Verif Require Import Base Machine Heap Compiler Parser Print Organizer Examples Session Atoms Answers LockHist LockInst Independence.
Open Scope string_scope.
Open Scope list_scope.

(** C40. [c_ord cf]: the order in which a hash map of names is traversed. *)
Theorem C40_hash_order cf1 cf2 o1 o2 cs : ord_ok cf1 -> ord_ok cf2 -> (forall a b, c_powf cf1 a b = c_powf cf2 a b) ->
  new_org cf1 = Val o1 -> new_org cf2 = Val o2 -> play cf1 cs o1 = play cf2 cs o2.
Proof. intros O1 O2 PW. exact (order_same cf1 cf2 O1 O2 PW o1 o2 cs). Qed.
Print Assumptions C40_hash_order.

Example C40_hypotheses_met : ord_ok cfg0 /\ ord_ok rev0 /\ (forall a b, c_powf cfg0 a b = c_powf rev0 a b) /\
  (exists o1 o2, new_org cfg0 = Val o1 /\ new_org rev0 = Val o2) /\
  exists P c, parse_program "r(X,Y) :- p(X,Z), p(Z,U), p(U,Y)." = Some (COk P) /\ In c P /\ perm_order cfg0 c true <> perm_order rev0 c true.
Proof. exact rev0_ok. Qed.

(** C22, second half: after a rejected program all replies are as if it had not been loaded. [C22_later_query_refuted] shows that
    is/2 must be excluded or errors compared more loosely. Missing: larger tables, and a rejected program directly after
    OUT_OF_MEMORY. *)
Theorem C22_rejected_replies_partial cf o0 hs o text r o' cs : ord_ok cf -> new_org cf = Val o0 -> In o (states cf hs o0) ->
  load_program cf text o = Some (r, o') -> r <> LOk -> s_functors (o_sto o) <> [] ->
  Forall (text_goals no_is) hs -> Forall (text_goals no_is) cs -> Forall (fun x => short_tables (o_sto x)) (states cf hs o0) ->
  Forall (fun x => short_tables (o_sto x)) (states cf cs o) -> Forall (fun x => short_tables (o_sto x)) (states cf cs o') ->
  play cf cs o' = play cf cs o.
Proof. exact (rejected_exact cf o0 hs o text r o' cs). Qed.
Print Assumptions C22_rejected_replies_partial.
(** [alike]: the same replies, but a type error may name another functor; nothing is said once one of both has undefined behaviour *)
Theorem C22_rejected_alike_partial cf o0 hs o text r o' cs : ord_ok cf -> new_org cf = Val o0 -> In o (states cf hs o0) ->
  load_program cf text o = Some (r, o') -> r <> LOk -> s_functors (o_sto o) <> [] ->
  Forall (fun x => short_tables (o_sto x)) (states cf hs o0) ->
  Forall (fun x => short_tables (o_sto x)) (states cf cs o) -> Forall (fun x => short_tables (o_sto x)) (states cf cs o') ->
  alike (play cf cs o) (play cf cs o').
Proof. exact (rejected_alike cf o0 hs o text r o' cs). Qed.
Print Assumptions C22_rejected_alike_partial.
Theorem C22_later_query_refuted : exists o o' cs, replay [CallProgram "e(X,X)."] = Some o /\
  load_program cfg0 "q(f) :- r(l). append(a,b,c)." o = Some (LErr CRedef, o') /\
  play cfg0 cs o = [Val (ReplyLoad LOk); Val (ReplyAnswer (RError (ENotArith (FV "a" 0))) 2)] /\
  play cfg0 cs o' = [Val (ReplyLoad LOk); Ub UHeap].
Proof. exact later_query. Qed.
Print Assumptions C22_later_query_refuted.

Example C22_replies_hypotheses_met : exists o0 hs o o' cs, new_org cfg0 = Val o0 /\ In o (states cfg0 hs o0) /\
  load_program cfg0 "q(f) :- r(l). append(a,b,c)." o = Some (LErr CRedef, o') /\ s_functors (o_sto o) <> [] /\
  Forall (text_goals no_is) hs /\ Forall (text_goals no_is) cs /\ Forall (fun x => short_tables (o_sto x)) (states cfg0 hs o0) /\
  Forall (fun x => short_tables (o_sto x)) (states cfg0 cs o) /\ Forall (fun x => short_tables (o_sto x)) (states cfg0 cs o') /\
  o_sto o' <> o_sto o /\ play cfg0 cs o = [Val (ReplyAnswer (RAnswer [("Y", "b")]) 1); Val (ReplyLoad LOk); Val (ReplyAnswer (RAnswer [("Z", "f(c)")]) 2)].
Proof. exact rejected_case. Qed.

(** C23: after load_query the replies depend on the program, the query and the time limit only, not on the calls before. *)
Theorem C23_fresh_partial cf1 cf2 o1 o2 P s1 s2 text cs : ord_ok cf1 -> ord_ok cf2 -> (forall a b, c_powf cf1 a b = c_powf cf2 a b) ->
  session cf1 o1 P s1 -> session cf2 o2 P s2 -> o_limit o1 = o_limit o2 ->
  (forall c n, In c P -> In n (tl c) -> no_is n) -> Forall (text_goals no_is) (CallQuery text :: cs) ->
  Forall (fun x => short_tables (o_sto x)) (states cf1 (CallQuery text :: cs) o1) ->
  Forall (fun x => short_tables (o_sto x)) (states cf2 (CallQuery text :: cs) o2) ->
  play cf1 (CallQuery text :: cs) o1 = play cf2 (CallQuery text :: cs) o2.
Proof. exact (fresh_exact cf1 cf2 o1 o2 P s1 s2 text cs). Qed.
Print Assumptions C23_fresh_partial.
Theorem C23_fresh_alike_partial cf1 cf2 o1 o2 P s1 s2 text cs : ord_ok cf1 -> ord_ok cf2 -> (forall a b, c_powf cf1 a b = c_powf cf2 a b) ->
  session cf1 o1 P s1 -> session cf2 o2 P s2 -> o_limit o1 = o_limit o2 ->
  Forall (fun x => short_tables (o_sto x)) (states cf1 (CallQuery text :: cs) o1) ->
  Forall (fun x => short_tables (o_sto x)) (states cf2 (CallQuery text :: cs) o2) ->
  alike (play cf1 (CallQuery text :: cs) o1) (play cf2 (CallQuery text :: cs) o2).
Proof. exact (fresh_alike cf1 cf2 o1 o2 P s1 s2 text cs). Qed.
Print Assumptions C23_fresh_alike_partial.
(** The functor named in a type error depends on earlier calls, as does whether there is one. *)
Theorem C23_earlier_query_refuted : exists o1 o2 cs, replay [CallProgram "e(X,X)."] = Some o1 /\
  replay [CallProgram "e(X,X)."; CallQuery "e(r(l),f)"] = Some o2 /\
  play cfg0 (CallQuery "e(Y,foo(a)), X is Y" :: cs) o1 = [Val (ReplyLoad LOk); Val (ReplyAnswer (RError (ENotArith (FV "a" 0))) 2)] /\
  play cfg0 (CallQuery "e(Y,foo(a)), X is Y" :: cs) o2 = [Val (ReplyLoad LOk); Ub UHeap].
Proof. exact earlier_query. Qed.
Print Assumptions C23_earlier_query_refuted.

Example C23_hypotheses_met : exists o1 o2 P s1 s2 cs, session cfg0 o1 P s1 /\ session rev0 o2 P s2 /\ o_limit o1 = o_limit o2 /\
  (forall c n, In c P -> In n (tl c) -> no_is n) /\ Forall (text_goals no_is) (CallQuery "r(X,f(Y))" :: cs) /\
  Forall (fun x => short_tables (o_sto x)) (states cfg0 (CallQuery "r(X,f(Y))" :: cs) o1) /\
  Forall (fun x => short_tables (o_sto x)) (states rev0 (CallQuery "r(X,f(Y))" :: cs) o2) /\
  o_sto o1 <> o_sto o2 /\ o_queue o2 <> [] /\ o_queue o1 = [] /\
  play cfg0 (CallQuery "r(X,f(Y))" :: cs) o1 = [Val (ReplyLoad LOk); Val (ReplyAnswer (RAnswer [("X", "a"); ("Y", "c")]) 4); Val (ReplyAnswer RFalse 4)].
Proof. exact fresh_case. Qed.
