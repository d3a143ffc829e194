(** Properties the program does not have, each with a witness run from source text. *)
From Verif Require Import Base Machine Heap Compiler Parser Print Organizer Examples Spec Refute.
Open Scope string_scope.

(** C02: the body goal does not get the argument the clause says (p(a) is provable, but the answer is "no"). *)
Theorem C02_rule_bodies_refuted :
  exists program query cs q,
    parse_program program = Some (COk cs) /\ parse_query (append_dot query) = Some (COk q) /\
    (exists v, forall a, In a q -> prov pw0 (cs ++ append_prog) (inst v a)) /\
    ask 1 program query = Some (LOk, LOk, [Val RFalse]).
Proof. exact body_args_wrong. Qed.
Print Assumptions C02_rule_bodies_refuted.

(** C01 without the condition on registers: an answer that is not a consequence. *)
Theorem C02_unsound_answer_refuted :
  exists program query cs q,
    parse_program program = Some (COk cs) /\ parse_query (append_dot query) = Some (COk q) /\
    ask 1 program query = Some (LOk, LOk, [Val (RAnswer [])]) /\
    ~ (exists v, forall a, In a q -> prov pw0 (cs ++ append_prog) (inst v a)).
Proof. exact clash_unsound. Qed.
Print Assumptions C02_unsound_answer_refuted.

(** C06: [prov_in n] counts the goals of a proof; Z = b needs more goals than Z = a but comes first. *)
Theorem C06_resolution_order_refuted :
  exists program query cs q,
    parse_program program = Some (COk cs) /\ parse_query (append_dot query) = Some (COk [q]) /\
    ask 2 program query = Some (LOk, LOk, [Val (RAnswer [("Z", "b")]); Val (RAnswer [("Z", "a")])]) /\
    prov_in pw0 (cs ++ append_prog) 9 (inst (fun _ => GCon "a") q) /\
    (forall n, prov_in pw0 (cs ++ append_prog) n (inst (fun _ => GCon "b") q) -> 9 < n).
Proof. exact order_wrong. Qed.
Print Assumptions C06_resolution_order_refuted.

(** C18: with powf rounding to the nearest float 3^16 is off by one, and no float gives the right value. *)
Theorem C18_power_refuted :
  (3 ^ 16 = 43046721)%Z /\
  ask_pow powf_rn "X is 3^16" = Some (Val (RAnswer [("X", "43046720")])) /\
  forall cf, (forall a b m e, c_powf cf a b = FFin m e -> Z.abs m <= 16777216)%Z ->
    apply_op cf 0 3 16 <> Val 43046721%Z.
Proof. exact pow_wrong. Qed.
Print Assumptions C18_power_refuted.

(** C19: 10-3-2 is 9, 16//4//2 is 8 *)
Theorem C19_associativity_refuted :
  ask 1 "" "X is 10-3-2" = Some (LOk, LOk, [Val (RAnswer [("X", "9")])]) /\
  ask 1 "" "X is 16//4//2" = Some (LOk, LOk, [Val (RAnswer [("X", "8")])]).
Proof. exact assoc_wrong. Qed.
Print Assumptions C19_associativity_refuted.

(** C20: out of bounds read instead of an error; and an error naming the wrong functor *)
Theorem C20_not_arithmetic_refuted :
  ask 1 "bar(a,b,c,d,e,f,g,h,i,j,k,l,m,n,o,p). e(foo)." "e(Y), X is Y" = Some (LOk, LOk, [Ub UHeap]) /\
  ask 1 "e(foo(a,b,c))." "e(Y), X is Y" = Some (LOk, LOk, [Val (RError (ENotArith (FV "a" 0)))]).
Proof. exact (conj not_arith_crash not_arith_wrong_name). Qed.
Print Assumptions C20_not_arithmetic_refuted.

(** C27: [a|X] printed as [a|], [a|foo(b)] as [a,foo(b] *)
Theorem C27_partial_lists_refuted :
  ask 1 "p([a|X],X)." "p(Y,Z)" = Some (LOk, LOk, [Val (RAnswer [("Y", "[a|]"); ("Z", "Z")])]) /\
  ask 1 "" "append([a],foo(b),Y)" = Some (LOk, LOk, [Val (RAnswer [("Y", "[a,foo(b]")])]).
Proof. exact partial_list_wrong. Qed.
Print Assumptions C27_partial_lists_refuted.

(** C31: get_answer follows a freed pointer after load_program *)
Theorem C31_reload_refuted :
  exists o r o1 o2,
    loaded "p(a). p(b). p(c)." "p(X)" = Some o /\
    get_answer cfg0 1000 1000 w0 o = Val (r, o1) /\
    load_program cfg0 "p(c)." o1 = Some (LOk, o2) /\
    get_answer cfg0 1000 1000 w0 o2 = Ub UDangling.
Proof. exact reload_dangling. Qed.
Print Assumptions C31_reload_refuted.

(** C32: append/3 is gone after OUT_OF_MEMORY *)
Theorem C32_out_of_memory_refuted :
  exists o o1 o2 o3 o4,
    loaded "p(a)." "p(X)" = Some o /\
    get_answer cfg0 1000 1000 w_full o = Val (ROutOfMemory, o1) /\
    load_program cfg0 "p(a)." o1 = Some (LOk, o2) /\
    load_query cfg0 "append([a],[b],L)" o2 = Some (LOk, o3) /\
    get_answer cfg0 1000 1000 w0 o3 = Val (RFalse, o4) /\
    ask 1 "p(a)." "append([a],[b],L)" = Some (LOk, LOk, [Val (RAnswer [("L", "[a,b]")])]).
Proof. exact oom_loses_built_ins. Qed.
Print Assumptions C32_out_of_memory_refuted.

(** C38: std::out_of_range escapes from load_query and load_program *)
Theorem C38_big_literals_refuted :
  ask 0 "" "X is 2147483648" = Some (LOk, LEscape, []) /\
  ask 0 "p(2147483648)." "p(X)" = Some (LEscape, LOk, []).
Proof. exact big_literal_escapes. Qed.
Print Assumptions C38_big_literals_refuted.

(** C39: the query is dropped without an error that exists *)
Theorem C39_trailing_text_refuted :
  exists l, ask 1 "f(a). g(b)." "f(a). g(b)." = Some (LOk, l, [Val RFalse]) /\ reports_error l = false /\ l <> LOk.
Proof. exact trailing_text_silent. Qed.
Print Assumptions C39_trailing_text_refuted.

(** C44: different variables with one name; one variable with two names *)
Theorem C44_variable_names_refuted :
  ask 1 "p(f(A))." "p(X), p(A)" = Some (LOk, LOk, [Val (RAnswer [("A", "f(A)"); ("X", "f(A)")])]) /\
  ask 1 "p(f(X,X))." "p(Y)" = Some (LOk, LOk, [Val (RAnswer [("Y", "f(X2,X)")])]).
Proof. exact names_clash. Qed.
Print Assumptions C44_variable_names_refuted.

(** C02: a rule with two goals, a fact for each goal, a ground query. The second goal is called with a register that was never
    written, which is undefined behaviour. *)
Theorem C02_unwritten_register_refuted : exists program query,
  ask 1 program query = Some (LOk, LOk, [Ub UTag]).
Proof. exists "p(X) :- q(A), r(X). q(b). r(a).", "p(a)". exact unwritten_ub. Qed.
Print Assumptions C02_unwritten_register_refuted.
