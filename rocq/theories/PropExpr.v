(** Properties of expressions: how their texts are read, and what ^ and chains of operators give. *)
From Verif Require Import Base Machine Heap Compiler Parser Print Organizer Spec Examples Valuation Process Session Search Order Runs
  Code Atoms Builtins Terms Witness Arith ParserFacts Texts Grammar Roundtrip Exprs Chains Refute Power.
Open Scope string_scope.
Open Scope list_scope.

(** C54. [writes 1 n w]: the text w stands for the expression n. *)
Theorem C54_read n w : writes 1 n w -> forall a, g_term a = true -> parse_query ((text a +++ " is" +++ w) +++ ".") = Some (COk [NFun "is" [a; n]]).
Proof. intros W a Ga. exact (query_parsed _ _ (gws_one _ _ (gw_is a n w Ga W))). Qed.
Print Assumptions C54_read.
Theorem C54_only k s n t : p_expr k s = POk n t -> exists w, s = w +++ t /\ writes 1 n w.
Proof. intros E. destruct (expr_sound k s n t E) as (w & H1 & H2 & _). exact (ex_intro _ w (conj H1 H2)). Qed.
Print Assumptions C54_only.
Theorem C54_unique n m w : writes 1 n w -> writes 1 m w -> n = m.
Proof. exact (writes_unique n m w). Qed.
Print Assumptions C54_unique.
Theorem C54_all n : g_expr n = true -> exists w, writes 1 n w.
Proof. intros G. exists (min_text 1 n). exact (min_writes n 1 G). Qed.
Print Assumptions C54_all.
Theorem C54_programs P s : program_writes P s -> parse_program s = Some (COk P).
Proof. exact (program_parsed P s). Qed.
Print Assumptions C54_programs.

Example C54_hypotheses_met :
  writes 1 (NEv "+" [NVar "X"; NEv "-" [NEv "*" [NEv "^" [NInt "2"; NInt "3"]; NEv "+" [NInt "4"; NVar "Y"]]; NInt "5"]]) "X + 2^3 * ( 4+Y ) - 5" /\
  program_writes [[NFun "p" [NVar "X"]; NFun "q" [NVar "Y"]; NFun "is" [NVar "X"; NEv "-" [NEv "*" [NVar "Y"; NInt "3"]; NInt "1"]]]; [NFun "q" [NInt "2"]]]
    ((("p(X)" +++ ":-" +++ "q(Y)" +++ "," +++ "X" +++ " is" +++ " Y * 3 - 1") +++ ".") +++ (("q(2)" +++ ".") +++ "")) /\
  g_expr (NEv "*" [NEv "-" [NVar "X"; NEv "^" [NInt "2"; NInt "7"]]; NInt "3"]) = true /\
  min_text 1 (NEv "*" [NEv "-" [NVar "X"; NEv "^" [NInt "2"; NInt "7"]]; NInt "3"]) = "(X-2^7)*3".
Proof.
  assert (V : forall p b s, all_chars is_space b = true -> name_of is_upper s = true -> writes p (NVar s) (b +++ s)) by (intros; now apply w_var).
  assert (N : forall p b s, all_chars is_space b = true -> number_text s = true -> writes p (NInt s) (b +++ s)) by (intros; now apply w_int).
  split; [|split; [|split; reflexivity]].
  - refine (w_add 1 " " "+" _ _ "X" " 2^3 * ( 4+Y ) - 5" ltac:(lia) eq_refl ltac:(cbn; auto) (V 2 "" "X" eq_refl eq_refl) _).
    refine (w_add 1 " " "-" _ _ " 2^3 * ( 4+Y )" " 5" ltac:(lia) eq_refl ltac:(cbn; auto) _ (N 1 " " "5" eq_refl eq_refl)).
    refine (w_mul 2 " " "*" _ _ " 2^3" " ( 4+Y )" ltac:(lia) eq_refl ltac:(cbn; auto) _ _).
    + exact (w_pow 3 "" _ _ " 2" "3" ltac:(lia) eq_refl (N 4 " " "2" eq_refl eq_refl) (N 4 "" "3" eq_refl eq_refl)).
    + refine (w_par 2 " " " " _ " 4+Y" eq_refl eq_refl _).
      exact (w_add 1 "" "+" _ _ " 4" "Y" ltac:(lia) eq_refl ltac:(cbn; auto) (N 2 " " "4" eq_refl eq_refl) (V 1 "" "Y" eq_refl eq_refl)).
  - refine (pw_more _ _ _ _ (cw_rule (NFun "p" [NVar "X"]) _ _ eq_refl (gws_more (NFun "q" [NVar "Y"]) _ _ _ (gw_plain (NFun "q" [NVar "Y"]) eq_refl) (gws_one _ _ (gw_is (NVar "X") _ " Y * 3 - 1" eq_refl _)))) (pw_more _ _ _ _ (cw_fact (NFun "q" [NInt "2"]) eq_refl) pw_end)).
    refine (w_add 1 " " "-" _ _ " Y * 3" " 1" ltac:(lia) eq_refl ltac:(cbn; auto) _ (N 1 " " "1" eq_refl eq_refl)).
    exact (w_mul 2 " " "*" _ _ " Y" " 3" ltac:(lia) eq_refl ltac:(cbn; auto) (V 3 " " "Y" eq_refl eq_refl) (N 2 " " "3" eq_refl eq_refl)).
Qed.

(** C19. The claim itself is false (C19_associativity_refuted): a chain of operators of equal priority stands for the expression nested
    to the right. [chain_writes p ops s v l u]: u is the chain that starts with the text s of v and continues with the operators and
    operands of l; they are operators of ops, and the operands are of a higher priority than p. *)
Theorem C19_nesting_partial s v l u n : chain_writes 1 ["+"; "-"] s v l u \/ chain_writes 2 ["*"; "//"] s v l u ->
  (writes 1 n u <-> n = nest_right v l).
Proof. exact (chain_nested s v l u n). Qed.
Print Assumptions C19_nesting_partial.
(** For chains of + only, and of * only, the value is that of performing the operations from left to right, whenever both are defined. *)
Theorem C19_values_partial o a l z : o = "+" \/ o = "*" -> exact_value (tnest_right o a l) = Some z ->
  z = fold_left (if o =? "+" then Z.add else Z.mul) l a /\
  forall y, exact_value (tnest_left o (TInt a) l) = Some y -> y = z.
Proof.
  intros Ho E. split; [exact (chain_value o a l z Ho E)|]. intros y Ey. rewrite (chain_value o a l z Ho E). exact (left_value o a l y Ho Ey).
Qed.
Print Assumptions C19_values_partial.

Example C19_hypotheses_met :
  chain_writes 1 ["+"; "-"] "10" (NInt "10") [("-", NInt "3"); ("-", NEv "*" [NInt "2"; NVar "X"])] "10-3 - 2*X" /\
  nest_right (NInt "10") [("-", NInt "3"); ("-", NEv "*" [NInt "2"; NVar "X"])] = NEv "-" [NInt "10"; NEv "-" [NInt "3"; NEv "*" [NInt "2"; NVar "X"]]] /\
  exact_value (tnest_right "*" 3 [-4; 5; 7]%Z) = Some (-420)%Z /\ exact_value (tnest_left "*" (TInt 3) [-4; 5; 7]%Z) = Some (-420)%Z.
Proof.
  split; [|vm_compute; auto]. assert (M : In "-" ["+"; "-"]) by (cbn; auto).
  refine (cw_next 1 _ (NInt "10") "10" "" "-" (NInt "3") _ "3" "3 - 2*X" (w_int 2 "" "10" eq_refl eq_refl) eq_refl M _).
  refine (cw_next 1 _ (NInt "3") "3" " " "-" _ _ _ " 2*X" (w_int 2 "" "3" eq_refl eq_refl) eq_refl M _).
  apply cw_one. exact (w_mul 2 "" "*" (NInt "2") (NVar "X") " 2" "X" ltac:(lia) eq_refl ltac:(cbn; auto) (w_int 3 " " "2" eq_refl eq_refl) (w_var 2 "" "X" eq_refl eq_refl)).
Qed.

(** C18. The claim itself is false (C18_power_refuted). [is_float z]: z = m * 2^e with e not negative and m of at most 24 bits;
    [powf_exact]: where operands and power are such numbers the C library's powf is exact. *)
Theorem C18_floats_partial cf sto p a1 a2 a b u : ord_ok cf ->
  at_builtin cf sto p "is" a1 a2 -> rd sto (m_heap (p_m p)) a2 (TEv "^" [TInt a; TInt b]) ->
  powf_exact cf -> (0 <= b)%Z -> is_float a -> is_float b -> is_float (a ^ b)%Z -> (-2147483648 <= a ^ b <= 2147483647)%Z ->
  rd sto (m_heap (p_m p)) a1 u ->
  exists n0, forall fuel pg, n0 <= fuel ->
    match u with
    | TInt k => if Z.eqb k (a ^ b) then succeeds sto fuel p (m_heap (p_m p)) (p_turn cf sto fuel pg p) else p_turn cf sto fuel pg p = Val PFails
    | TVar d _ => exists h', succeeds sto fuel p h' (p_turn cf sto fuel pg p) /\ rd sto h' d (TInt (a ^ b)) /\ rd sto h' a1 (TInt (a ^ b)) /\
        forall c, c < List.length (m_heap (p_m p)) -> c <> d -> nth_error h' c = nth_error (m_heap (p_m p)) c
    | _ => p_turn cf sto fuel pg p = Val PFails
    end.
Proof. intros OK. exact (is_power cf OK sto p a1 a2 a b u). Qed.
Print Assumptions C18_floats_partial.
(** Every other power comes out wrong, whatever powf does, as long as its results are floats. *)
Theorem C18_never cf a b : powf_float cf -> ~ is_float (a ^ b)%Z -> apply_op cf 0 a b <> Val (a ^ b)%Z.
Proof. exact (power_never cf a b). Qed.
Print Assumptions C18_never.

(** rounding to the nearest float meets both assumptions on powf *)
Example C18_hypotheses_met : powf_exact cfg_rn /\ powf_float cfg_rn /\ powf_exact cfg0 /\
  is_float (-3)%Z /\ is_float 13%Z /\ is_float ((-3) ^ 13)%Z /\ is_float (6 ^ 11)%Z /\ ~ is_float (3 ^ 16)%Z /\
  exists o P q p, session cfg0 o P (QFresh q) /\ NoDup (s_functors (o_sto o)) /\
  (exists T pi Q root, root_of o root /\ search cfg0 (o_sto o) (o_prog o) root T ((pi, p) :: Q)) /\
  at_builtin cfg0 (o_sto o) p "is" 2 3 /\
  rd (o_sto o) (m_heap (p_m p)) 2 (TVar 2 "") /\ rd (o_sto o) (m_heap (p_m p)) 3 (TEv "^" [TInt 6; TInt 11]) /\
  parse_program "p(6)." = Some (COk P) /\ parse_query (append_dot "p(X), Y is X ^ 11") = Some (COk q).
Proof.
  split; [exact rn_exact|]. split; [exact rn_float|].
  split; [intros a b _ _ _ _; cbn [cfg0 c_powf trunc_fval]; change (0 <=? 0)%Z with true; cbv iota; rewrite Z.pow_0_r, Z.mul_1_r; reflexivity|].
  split; [apply small_float; lia|]. split; [apply small_float; lia|]. split; [apply small_float; vm_compute; discriminate|].
  split; [exists 177147%Z, 11%Z; split; [lia|split; [lia|reflexivity]]|].
  split.
  - intros (m & e & He & Hm & E). change (3 ^ 16)%Z with 43046721%Z in E. destruct (Z.eq_dec e 0) as [->|Ne]; [rewrite Z.pow_0_r in E; lia|].
    replace e with (Z.succ (e - 1)) in E by lia. rewrite Z.pow_succ_r in E by lia. lia.
  - apply (builtin_witness "p(6)." "p(X), Y is X ^ 11" 3); vm_compute; repeat split. discriminate.
Qed.
