(** Soundness and completeness of the answers. *)
From Verif Require Import Base Machine Heap Facts Compiler Parser Print Organizer Examples Spec Valuation Process Session Search Order Runs
  Builtins Sols Solve Witness Terms Shown Alloc Atoms Clause Answers Complete Total Flat Safe Finite Cyclic Ground Once Settle Naming Meaning.
Open Scope string_scope.
Open Scope list_scope.

(** C01. [reads b sg]: the binding list [b] shows the terms [sg]; [spelled]: a variable is a capitalised name, a constant is not. Missing for the full statement (which is false, see
    below): programs with a register clash (C02) or more than 32768 functors, and executions in which a variable was
    bound to a term containing it. *)
Theorem C01_answers_sound_partial cf o P q rs o' b : ord_ok cf -> session cf o P (QFresh q) ->
  small_tables (o_sto o) -> no_clash cf P -> no_cycles cf o ->
  run cf o rs o' -> In (RAnswer b) (delivered rs) ->
  exists sg, reads b sg /\ (forall x s, In (x, s) b -> proper (sg x) = true -> s = show (sg x)) /\
     ((Z.of_nat (List.length (s_vars (o_sto o))) <= 32768)%Z -> forall x, In x (flat_map nvars q) -> spelled (sg x) = true) /\
     forall g a, In a q -> prov (pow_of cf) (P ++ append_prog) (inst (fun x => ginst g (sg x)) a).
Proof.
  intros OK HS SM NC Cy HR Hb. destruct (answers_shown cf OK o P q HS SM NC rs o' b HR Hb) as (sg & A & B & C).
  exists sg. split; [exact A|]. split; [|split; [exact B|exact (C Cy)]].
  intros x s Hx Pr. rewrite (A x s Hx). apply (printed_show _ Pr).
Qed.
Print Assumptions C01_answers_sound_partial.

Example C01_hypotheses_met : exists o P q o', session cfg0 o P (QFresh q) /\
  run cfg0 o [(RAnswer [("X", "[]"); ("Z", "[]"); ("Y", "[a,f(b)]")], 3%Z); (RAnswer [("X", "[a]"); ("Z", "[a]"); ("Y", "[f(b)]")], 9%Z)] o' /\
  parse_program "rev([],[]). rev([H|T],R) :- rev(T,S), append(S,[H],R)." = Some (COk P) /\
  parse_query (append_dot "append(X,Y,[a,f(b)]), rev(X,Z)") = Some (COk q) /\
  small_tables (o_sto o) /\ no_clash cfg0 P /\ (Z.of_nat (List.length (s_vars (o_sto o))) <= 32768)%Z /\
  no_cycles cfg0 o /\ turns_end cfg0 o /\ (true = true -> all_goals no_compare P q /\ all_goals no_is P q).
Proof. apply (hyps_witness _ _ _ [w0; w0]); vm_compute; reflexivity. Qed.

(** Programs and queries without compound terms need no assumption about cycles. *)
Theorem C01_datalog_sound cf o P q rs o' b : ord_ok cf -> session cf o P (QFresh q) ->
  small_tables (o_sto o) -> no_clash cf P -> datalog P q ->
  run cf o rs o' -> In (RAnswer b) (delivered rs) ->
  exists sg, reads b sg /\
     ((Z.of_nat (List.length (s_vars (o_sto o))) <= 32768)%Z -> forall x, In x (flat_map nvars q) -> spelled (sg x) = true) /\
     forall g a, In a q -> prov (pow_of cf) (P ++ append_prog) (inst (fun x => ginst g (sg x)) a).
Proof.
  intros OK HS SM NC DL HR Hb. destruct (answers_shown cf OK o P q HS SM NC rs o' b HR Hb) as (sg & A & B & C).
  exists sg. split; [exact A|]. split; [exact B|]. exact (C (datalog_acyclic cf OK o P q HS SM DL)).
Qed.
Print Assumptions C01_datalog_sound.

(** The full statement is false: unification has no occurs check. *)
Theorem C01_occurs_check_refuted : exists o P q rs o' b,
  parse_program "q :- p(Y,f(Y)). p(X,X)." = Some (COk P) /\ parse_query (append_dot "q") = Some (COk q) /\
  session cfg0 o P (QFresh q) /\ no_clash cfg0 P /\ small_tables (o_sto o) /\
  run cfg0 o rs o' /\ In (RAnswer b) (delivered rs) /\
  ~ exists v, forall a, In a q -> prov (pow_of cfg0) (P ++ append_prog) (inst v a).
Proof. exact occurs_unsound. Qed.
Print Assumptions C01_occurs_check_refuted.

(** C04. [N] calls with enough time deliver answers only, and then, however the calls are timed, an answer more general
    than the provable instance has been delivered: [shown_as b sg] means [reads b sg], all names spelled as such, and that all
    instances of [sg] are solutions. Missing for the full statement (which is false, see below):
    executions with a turn that does not end. *)
Theorem C04_complete_partial cf o P q v : ord_ok cf -> session cf o P (QFresh q) ->
  small_tables (o_sto o) -> no_clash cf P -> all_goals no_compare P q -> all_goals no_is P q -> turns_end cf o ->
  (forall a, In a q -> prov (pow_of cf) (P ++ append_prog) (inst v a)) ->
  exists N, (exists rs o', run cf o rs o' /\ List.length rs = N /\ forall r, In r (map fst rs) -> exists b, r = RAnswer b) /\
    forall rs o', run cf o rs o' -> N <= List.length (delivered rs) -> exists b, In (RAnswer b) (delivered rs) /\
      exists sg g, shown_as cf o P q b sg /\ forall x, In x (flat_map nvars q) -> ginst g (sg x) = v x.
Proof. intros OK HS SM NC A B C. exact (complete_shown cf OK o P q HS SM NC A B C v). Qed.
Print Assumptions C04_complete_partial.

(** Also with [is]: an answer for the provable instance can only be missing if a runtime error about a variable without value is
    delivered; division by zero and wrong types of operands elsewhere lose nothing. *)
Theorem C04_with_is_partial cf o P q v : ord_ok cf -> session cf o P (QFresh q) ->
  small_tables (o_sto o) -> no_clash cf P -> all_goals no_compare P q -> turns_end cf o ->
  (forall a, In a q -> prov (pow_of cf) (P ++ append_prog) (inst v a)) ->
  exists N, (exists rs o', run cf o rs o' /\ List.length rs = N /\ forall r, In r (map fst rs) -> (exists b, r = RAnswer b) \/ exists e, r = RError e) /\
    forall rs o', run cf o rs o' -> N <= List.length (delivered rs) ->
      (exists b, In (RAnswer b) (delivered rs) /\ exists sg g, shown_as cf o P q b sg /\ forall x, In x (flat_map nvars q) -> ginst g (sg x) = v x) \/
      exists x, In (RError (EUnbound x)) (delivered rs).
Proof. intros OK HS SM NC A C. exact (complete_or_unbound_shown cf OK o P q HS SM NC A C v). Qed.
Print Assumptions C04_with_is_partial.

(** the branch of d(0) ends in an error, the other one not *)
Example C04_with_is_hypotheses_met : exists o P q rs o', session cfg0 o P (QFresh q) /\
  parse_program "d(0). d(2). r(Y) :- d(X), Y is 4 // X." = Some (COk P) /\ parse_query (append_dot "r(Y)") = Some (COk q) /\
  run cfg0 o rs o' /\ delivered rs = [RError EDivBy0; RAnswer [("Y", "2")]; RFalse] /\
  small_tables (o_sto o) /\ no_clash cfg0 P /\ all_goals no_compare P q /\ turns_end cfg0 o.
Proof.
  destruct (loaded_witness "d(0). d(2). r(Y) :- d(X), Y is 4 // X." "r(Y)" (fun o P q =>
    small_b (o_sto o) && noclash_b cfg0 P && goals_b nocompare_b P q && tree_ok cfg0 (o_sto o) (o_prog o) 1000 1000 (root_proc o) &&
    match calls [w0; w0; w0] o with Some (rs, _) => if list_eq_dec res_eq_dec (delivered rs) [RError EDivBy0; RAnswer [("Y", "2")]; RFalse] then true else false | None => false end))
    as (o & P & q & A & B & C & D); [vm_compute; reflexivity|].
  rewrite !andb_true_iff in D. destruct D as ((((D1 & D2) & D3) & D4) & D5).
  destruct (calls [w0; w0; w0] o) as [[rs o']|] eqn:Ec; [|discriminate]. destruct (list_eq_dec res_eq_dec (delivered rs) _) as [E|]; [|discriminate].
  exists o, P, q, rs, o'. split; [exact A|]. split; [exact B|]. split; [exact C|]. split; [exact (calls_run _ _ _ _ Ec)|]. split; [exact E|].
  split; [exact (small_b_ok _ D1)|]. split; [exact (noclash_b_ok _ _ D2)|]. split; [exact (goals_b_ok nocompare_b no_compare _ _ nocompare_b_ok D3)|].
  exact (proj2 (session_tree _ _ _ _ D4)).
Qed.

Theorem C04_datalog_complete cf o P q v : ord_ok cf -> session cf o P (QFresh q) ->
  small_tables (o_sto o) -> (Z.of_nat (List.length (s_vars (o_sto o))) <= 32768)%Z -> no_clash cf P -> all_goals no_compare P q -> datalog P q ->
  (forall a, In a q -> prov (pow_of cf) (P ++ append_prog) (inst v a)) ->
  exists N, (exists rs o', run cf o rs o' /\ List.length rs = N /\ forall r, In r (map fst rs) -> exists b, r = RAnswer b) /\
    forall rs o', run cf o rs o' -> N <= List.length (delivered rs) -> exists b, In (RAnswer b) (delivered rs) /\
      exists sg g, shown_as cf o P q b sg /\ forall x, In x (flat_map nvars q) -> ginst g (sg x) = v x.
Proof.
  intros OK HS SM SV NC A DL. exact (complete_shown cf OK o P q HS SM NC A (proj2 (proj2 (proj2 DL))) (datalog_ends cf OK o P q HS SM SV NC DL) v).
Qed.
Print Assumptions C04_datalog_complete.

(** left recursion does not starve the second clause *)
Example C04_hypotheses_met : exists o P q rs o', session cfg0 o P (QFresh q) /\
  parse_program "e(a,b). e(b,c). t(X,Y) :- t(X,Z), e(Z,Y). t(X,Y) :- e(X,Y)." = Some (COk P) /\
  parse_query (append_dot "t(X,c)") = Some (COk q) /\
  run cfg0 o rs o' /\ delivered rs = [RAnswer [("X", "b")]; RAnswer [("X", "a")]] /\
  small_tables (o_sto o) /\ (Z.of_nat (List.length (s_vars (o_sto o))) <= 32768)%Z /\ no_clash cfg0 P /\ all_goals no_compare P q /\ datalog P q.
Proof.
  destruct (loaded_witness "e(a,b). e(b,c). t(X,Y) :- t(X,Z), e(Z,Y). t(X,Y) :- e(X,Y)." "t(X,c)" (fun o P q =>
    small_b (o_sto o) && (Z.of_nat (List.length (s_vars (o_sto o))) <=? 32768)%Z && noclash_b cfg0 P && goals_b nocompare_b P q && datalog_b P q &&
    match calls [w0; w0] o with Some (rs, _) => answers_eqb (delivered rs) [[("X", "b")]; [("X", "a")]] | None => false end))
    as (o & P & q & A & B & C & D); [vm_compute; reflexivity|].
  rewrite !andb_true_iff in D. destruct D as (((((D1 & D2) & D3) & D4) & D5) & D6).
  destruct (calls [w0; w0] o) as [[rs o']|] eqn:Ec; [|discriminate].
  exists o, P, q, rs, o'. split; [exact A|]. split; [exact B|]. split; [exact C|]. split; [exact (calls_run _ _ _ _ Ec)|].
  split; [|split; [exact (small_b_ok _ D1)|split; [apply Z.leb_le; exact D2|split; [exact (noclash_b_ok _ _ D3)|split; [exact (goals_b_ok nocompare_b no_compare _ _ nocompare_b_ok D4)|exact (datalog_b_ok _ _ D5)]]]]].
  exact (answers_eqb_ok _ _ D6).
Qed.

(** The full statement is false: one branch can loop inside a single unification, and then nothing is ever delivered. *)
Theorem C04_blocked_refuted : exists o P q v,
  parse_program "s :- p(A,f(A)), p(B,f(B)), p(A,B). s :- t1. t1 :- t2. t2 :- t3. t3 :- t4. t4 :- t5. t5. p(X,X)." = Some (COk P) /\
  parse_query (append_dot "s") = Some (COk q) /\
  session cfg0 o P (QFresh q) /\ no_clash cfg0 P /\ small_tables (o_sto o) /\ all_goals no_compare P q /\ all_goals no_is P q /\
  (forall a, In a q -> prov (pow_of cfg0) (P ++ append_prog) (inst v a)) /\
  forall rs o', run cfg0 o rs o' -> delivered rs = [].
Proof. exact occurs_blocks. Qed.
Print Assumptions C04_blocked_refuted.

(** C25. Whatever the program, and whether the answer is right or not. *)
Theorem C25_names_of_answers cf o P q rs o' b : session cf o P (QFresh q) -> run cf o rs o' -> In (RAnswer b) (delivered rs) ->
  NoDup (map fst b) /\ forall x, In x (map fst b) <-> In x (flat_map nvars q).
Proof. exact (names_once cf o P q rs o' b). Qed.
Print Assumptions C25_names_of_answers.
Example C25_hypotheses_met : exists o P q o', session cfg0 o P (QFresh q) /\ noclash_b cfg0 P = false /\
  run cfg0 o [(RAnswer [("Y", "a"); ("Z", "b"); ("X", "b")], 3%Z)] o' /\ flat_map nvars q = ["X"; "Y"; "Z"; "X"].
Proof. exact once_case. Qed.

(** C26. The cell at [a] holds the ground term [t]: it is printed in standard notation, given enough fuel, and never
    otherwise. The first hypotheses are those of every heap reached; [fun_ok]: a functor is "[" with none or two
    arguments, or has at least one argument. *)
Theorem C26_ground_terms_printed sto h users a t : wfh sto 0 h ->
  (forall d i n nm k, nth_error h d = Some (CFun i n) -> nthZ (s_functors sto) i = Some (FV nm k) -> fun_ok nm k) ->
  (forall d b v, nth_error h d = Some (CRef b v) -> nthZ (s_vars sto) v <> None) ->
  a < List.length h -> rd sto h a (tm_of t) -> proper (tm_of t) = true ->
  (exists n, forall fuel, n <= fuel -> str_of (list cell) fops sto fuel h users false a = Val (show_ground t)) /\
  forall fuel, str_of (list cell) fops sto fuel h users false a = Val (show_ground t) \/ str_of (list cell) fops sto fuel h users false a = Fuel.
Proof. exact (ground_printed sto h users a t). Qed.
Print Assumptions C26_ground_terms_printed.

Definition heap26 : list cell := [CFun 0 2; CRef 3 0; CInt (-7); CFun 1 2; CCons 2; CRef 6 0; CFun 1 2; CInt 1; CRef 9 0; CFun 3 0].
Definition sto26 : storage := {| s_functors := [FV "f" 2; FV "[" 2; FV "a" 0; FV "[" 0]; s_vars := ["X"] |}.
Example C26_hypotheses_met : wfh sto26 0 heap26 /\
  (forall d i n nm k, nth_error heap26 d = Some (CFun i n) -> nthZ (s_functors sto26) i = Some (FV nm k) -> fun_ok nm k) /\
  (forall d b v, nth_error heap26 d = Some (CRef b v) -> nthZ (s_vars sto26) v <> None) /\
  rd sto26 heap26 0 (tm_of (GFun "f" [GFun "[" [GCon "a"; GFun "[" [GInt 1; GFun "[" []]]; GInt (-7)])) /\
  show_ground (GFun "f" [GFun "[" [GCon "a"; GFun "[" [GInt 1; GFun "[" []]]; GInt (-7)]) = "f([a,1],-7)".
Proof.
  split; [split|].
  - intros a c E. do 10 (destruct a as [|a]; [injection E as <-; cbn; first [exact I | lia | repeat split; try lia; eexists; reflexivity | eexists; reflexivity]|]). destruct a; discriminate.
  - intros a L. cbn in L.
    assert (K : forall d, d < 10 -> next heap26 d = None -> derefs heap26 0 d d) by (intros d Ld Nd; apply dr_here; [cbn; lia|exact Nd]).
    do 10 (destruct a as [|a]; [first [exists 0; eexists; apply K; [lia|reflexivity] | exists 1; eexists; eapply dr_step; [reflexivity|apply K; [lia|reflexivity]]]|]). lia.
  - split; [|split; [|split; [|reflexivity]]].
    + intros d i n nm k E. do 10 (destruct d as [|d]; [first [discriminate E | injection E as <- <-; cbn; intros K; injection K as <- <-; first [left; split; [reflexivity|auto] | right; repeat split; discriminate]]|]). destruct d; discriminate.
    + intros d b v E. do 10 (destruct d as [|d]; [first [discriminate E | injection E as <- <-; discriminate]|]). destruct d; discriminate.
    + apply (rdb_sound sto26 10). reflexivity.
Qed.
