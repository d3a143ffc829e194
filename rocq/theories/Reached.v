(** Every branch of a search that has been handed the code of ==, \== or is has its two arguments in the registers. *)
From Verif Require Import Base Machine Heap Facts HeapSim Compiler Parser Print Organizer Spec Valuation Process Refine Mono Turn Shape Session
  Code Put Search PutRun Get Alloc Atoms Clause Stack Ready Heads Builtins Sols Solve Terms Shown Parsed Tables Root Order Runs Answers
  Clash Examples Witness Finite Tree TreeTurn TreeInv TreeRun TreeSrc TreeFacts TreeShape TreeAll TreeCase Total Safe Labels Cells Bound Names Returns Arith Linear LinearCase Size SizeCase.
Open Scope string_scope.
Open Scope list_scope.

(** what a turn leaves to the next ones *)
Lemma kid_heap cf sto pg fuel p l k : p_turn cf sto fuel pg p = Val (PKids l) -> In k l -> ends_with cf sto p (m_heap (p_m k)).
Proof.
  unfold p_turn. destruct (p_codes p) as [|a rest] eqn:Ec; [discriminate|]. intros E Hk.
  destruct (run_local cf sto fuel (removelast (ca_code a)) (set_regs (p_m p) (resize (m_regs (p_m p)) (ca_regs a)))) as [[[| |e] m]|u|] eqn:R; cbn [bind] in E; try discriminate E.
  exists fuel, a, rest, m. split; [exact Ec|]. split; [exact R|].
  destruct (last (ca_code a) IProceed); try discriminate E.
  - destruct (plookup f pg); [|discriminate E]. injection E as <-. apply in_map_iff in Hk as (r & <- & _). reflexivity.
  - destruct (forallb is_dealloc rest); [destruct (answer_of sto fuel (m_heap m) (p_trail p)); discriminate E|]. injection E as <-. destruct Hk as [<-|[]]. reflexivity.
  - destruct (m_envs m); [discriminate E|]. injection E as <-. destruct Hk as [<-|[]]. reflexivity.
Qed.
Lemma path_finite cf o root pi p : no_cycles cf o -> root_of o root -> at_path cf (o_sto o) (o_prog o) root pi p -> finite_terms (o_sto o) (m_heap (p_m p)).
Proof.
  intros NCy Hr Hp. destruct Hp as [|pi p i l k Hp [fuel E] Hn].
  - destruct Hr as (r & _ & ->). intros a La. cbn in La. lia.
  - apply (NCy root pi p); auto. eapply kid_heap; [exact E|]. exact (nth_error_In _ _ Hn).
Qed.
Theorem reached_builtin cf o P q root pi p nm a rest : ord_ok cf -> session cf o P (QFresh q) -> small_tables (o_sto o) -> no_clash cf P ->
  root_of o root -> at_path cf (o_sto o) (o_prog o) root pi p -> p_codes p = a :: rest -> special (FV nm 2) <> None ->
  plookup (FV nm 2) (o_prog o) = Some [[a]] ->
  exists a1 a2, at_builtin cf (o_sto o) p nm a1 a2 /\
    (no_cycles cf o -> exists t u, rd (o_sto o) (m_heap (p_m p)) a1 t /\ rd (o_sto o) (m_heap (p_m p)) a2 u).
Proof.
  intros OK HS SM NC Hr Hp Hc Hsp Pl.
  assert (ok : sto_ok (o_sto o)) by (destruct SM; split; auto; eapply session_nodup; eauto).
  destruct (session_parsed _ _ _ _ HS) as [SP QW]. pose proof (sp_wf _ SP) as PW. cbn in QW.
  pose proof (sess_PC cf o P q HS) as PC. destruct (root_code cf o P q HS root Hr) as (rl & -> & QC).
  destruct (session_inv _ _ _ _ HS) as [A _]. pose proof (ck_prog _ _ _ A (FV nm 2)) as K.
  destruct (special (FV nm 2)) as [i|] eqn:Ei; [|contradiction]. destruct K as (rs & K1 & K2). rewrite Pl in K1. injection K1 as <-.
  pose proof (special_shape2 cf OK (o_sto o) (FV nm 2) i [[a]] Ei K2) as (a' & Ea & Ecode & Er & En & Es). injection Ea as <-.
  assert (Hl : last (ca_code a) IProceed = IProceed) by (rewrite Ecode; reflexivity).
  assert (G : exists a1 a2, at_builtin cf (o_sto o) p nm a1 a2).
  { destruct (plain_path cf OK (o_sto o) ok (o_prog o) P PC PW NC q rl QC QW pi p Hp) as (S & K).
    destruct K as [fs tr W SK Dl Tr Tk|fs tr Rd Tr Tk|hd body TA fs tr At Tr Tk|nm' a1 a2 fs tr At _ _ Tr Tk].
    - destruct (stk_top _ _ (pow_of cf) (PA P) _ _ _ _ SK a rest Hc) as (fs' & _ & [Tg|(-> & _)]); [|discriminate].
      inversion Tg as [perm V n gs fs0 D0 D' seen s1 is u cs tl Hi Ha Ht Ec]. rewrite Ec, last_last in Hl. discriminate.
    - inversion Rd as [perm V n gs fs0 a0 pre is cs tl u m1 es st st' s1 nr Hi Ha Hg Ec Ea]. rewrite Hc in Ec. injection Ec as <- _.
      rewrite Ea, last_last in Hl. discriminate.
    - exfalso. destruct At as [(b & r & rest0 & CC & CW & CK & CLb & Hg & Ep & W & SK & LT & AR)].
      destruct (clause_code_split cf OK (o_sto o) ok b (hd :: body) r CC CW CK)
        as (h & body' & ha & rs & hc & nr & st & _ & -> & Ec & _ & _ & HE & _).
      rewrite Hc in Ep. cbn [app] in Ep. injection Ep as <- _. cbv zeta in Ec.
      apply (spec_plain a _ (ex_intro _ (FV nm 2) (ex_intro _ i (conj Ei Ecode))) Ec). intros j Hj. apply in_app_iff in Hj. destruct Hj as [Hj|Hj].
      + unfold alloc_code in Hj. destruct (Nat.eqb _ 0); [destruct Hj|destruct Hj as [<-|[]]; intros K; exact K].
      + exact (hents_plain _ _ _ _ _ _ HE j Hj).
    - destruct (special_label cf OK (o_sto o) _ 0 p nm' a1 a2 fs At) as (a' & rest' & Ea & En' & Ar & _).
      rewrite Hc in Ea. injection Ea as <- <-. rewrite En in En'. assert (nm' = nm) as -> by (injection En' as E; symmetry; exact E).
      exists a1, a2. destruct At as [(i' & rs' & r' & rest' & S1 & S2 & S3 & S4 & S5 & S6 & S7)].
      rewrite Hc in S4. exists i, a, rest. csplit; auto. }
  destruct G as (a1 & a2 & G). exists a1, a2. split; [exact G|]. intros NCy.
  pose proof (path_finite cf o _ pi p NCy Hr Hp) as F. destruct G as (i' & a' & rest' & _ & _ & _ & _ & AR).
  destruct (AR 0 a1 eq_refl) as (c1 & _ & _ & L1). destruct (AR 1 a2 eq_refl) as (c2 & _ & _ & L2).
  destruct (F a1 L1) as (t & T1). destruct (F a2 L2) as (u & T2). eauto.
Qed.

Lemma neq_direct cf sto p a1 a2 t u : ord_ok cf -> NoDup (s_functors sto) -> at_builtin cf sto p "\==" a1 a2 ->
  rd sto (m_heap (p_m p)) a1 t -> rd sto (m_heap (p_m p)) a2 u ->
  exists n0, forall fuel pg, n0 <= fuel ->
    if ident t u then p_turn cf sto fuel pg p = Val PFails else succeeds sto fuel p (m_heap (p_m p)) (p_turn cf sto fuel pg p).
Proof.
  intros OK ND A R1 R2. pose proof A as (_ & _ & _ & _ & _ & _ & W & _).
  destruct (builtin_run cf OK sto _ _ _ _ A) as (i & m2 & c1 & c2 & Hi & Hh & He & G1 & G2 & G3 & G4 & L1 & L2 & K & KU).
  assert (i = INeq) as -> by (unfold special in Hi; cbn in Hi; congruence).
  destruct (equals_spec sto ND _ W _ _ R1 _ _ R2) as (n0 & H0). exists n0. intros fuel pg Hn.
  assert (S2 : fstep cf sto fuel (INeq 2 3) m2 = Val (if ident t u then Failing else Cont, m2)).
  { unfold fstep. cbn [local_step]. unfold not_equals_check, equals_check. rewrite G1. cbn [bind]. rewrite G2. cbn [bind]. rewrite G3. cbn [bind]. rewrite G4. cbn [bind].
    rewrite Hh. specialize (H0 _ Hn). unfold equals in H0. rewrite H0. now destruct (ident t u). }
  pose proof (K fuel pg _ _ S2) as T. destruct (ident t u); [exact T|]. rewrite <- Hh. exact (T eq_refl).
Qed.

(** a branch of the search that is about to run the code of the built-in predicate [nm] *)
Definition reaches (cf : cfg) (o : org) (nm : string) (p : process) : Prop :=
  exists root pi a rest, root_of o root /\ at_path cf (o_sto o) (o_prog o) root pi p /\ p_codes p = a :: rest /\ plookup (FV nm 2) (o_prog o) = Some [[a]].

Section Reached.
Variable cf : cfg.
Variable o : org.
Variable P : list (list node).
Variable q : list node.
Hypothesis OK : ord_ok cf.
Hypothesis HS : session cf o P (QFresh q).
Hypothesis SM : small_tables (o_sto o).
Hypothesis NC : no_clash cf P.
Hypothesis Cy : no_cycles cf o.
Notation hp p := (m_heap (H := list cell) (p_m p)).

Lemma reaches_builtin nm p : special (FV nm 2) <> None -> reaches cf o nm p ->
  exists a1 a2 t u, at_builtin cf (o_sto o) p nm a1 a2 /\ rd (o_sto o) (hp p) a1 t /\ rd (o_sto o) (hp p) a2 u.
Proof.
  intros Hs (root & pi & a & rest & Hr & Hp & Hc & Pl).
  destruct (reached_builtin cf o P q root pi p nm a rest) as (a1 & a2 & A & B); auto. destruct (B Cy) as (t & u & R1 & R2). eauto 8.
Qed.
Lemma builtin_args nm p a1 a2 : at_builtin cf (o_sto o) p nm a1 a2 -> argreg (p_m p) [a1; a2].
Proof. intros (i & a & rest & _ & _ & _ & _ & H). exact H. Qed.

Theorem eq_reached p : reaches cf o "==" p ->
  exists a1 a2 t u, argreg (p_m p) [a1; a2] /\ rd (o_sto o) (hp p) a1 t /\ rd (o_sto o) (hp p) a2 u /\
  exists n0, forall fuel, n0 <= fuel ->
    if ident t u then succeeds (o_sto o) fuel p (hp p) (p_turn cf (o_sto o) fuel (o_prog o) p)
    else p_turn cf (o_sto o) fuel (o_prog o) p = Val PFails.
Proof.
  intros H. destruct (reaches_builtin "==" p) as (a1 & a2 & t & u & A & R1 & R2); [discriminate|exact H|].
  exists a1, a2, t, u. csplit; auto; [exact (builtin_args _ _ _ _ A)|].
  destruct (eq_turn cf OK (o_sto o) (session_nodup _ _ _ _ HS) p a1 a2 t u A R1 R2) as (n0 & K). exists n0. intros fuel Hn. exact (K fuel (o_prog o) Hn).
Qed.
Theorem neq_reached p : reaches cf o "\==" p ->
  exists a1 a2 t u, argreg (p_m p) [a1; a2] /\ rd (o_sto o) (hp p) a1 t /\ rd (o_sto o) (hp p) a2 u /\
  exists n0, forall fuel, n0 <= fuel ->
    if ident t u then p_turn cf (o_sto o) fuel (o_prog o) p = Val PFails
    else succeeds (o_sto o) fuel p (hp p) (p_turn cf (o_sto o) fuel (o_prog o) p).
Proof.
  intros H. destruct (reaches_builtin "\==" p) as (a1 & a2 & t & u & A & R1 & R2); [discriminate|exact H|].
  exists a1, a2, t, u. csplit; auto; [exact (builtin_args _ _ _ _ A)|].
  destruct (neq_direct cf (o_sto o) p a1 a2 t u OK (session_nodup _ _ _ _ HS) A R1 R2) as (n0 & K). exists n0. intros fuel Hn. exact (K fuel (o_prog o) Hn).
Qed.
(** the value of the right side, for a term that can be evaluated *)
Theorem is_reached p : reaches cf o "is" p ->
  exists a1 a2 u t, argreg (p_m p) [a1; a2] /\ rd (o_sto o) (hp p) a1 u /\ rd (o_sto o) (hp p) a2 t /\
  (forall n, exact_value t = Some n -> exists n0, forall fuel, n0 <= fuel ->
    match u with
    | TInt k => if Z.eqb k n then succeeds (o_sto o) fuel p (hp p) (p_turn cf (o_sto o) fuel (o_prog o) p)
                else p_turn cf (o_sto o) fuel (o_prog o) p = Val PFails
    | TVar d _ => exists h', succeeds (o_sto o) fuel p h' (p_turn cf (o_sto o) fuel (o_prog o) p) /\ rd (o_sto o) h' d (TInt n) /\
        rd (o_sto o) h' a1 (TInt n) /\
        forall b, b < List.length (hp p) -> b <> d -> nth_error h' b = nth_error (hp p) b
    | _ => p_turn cf (o_sto o) fuel (o_prog o) p = Val PFails
    end) /\
  (calc (pow_of cf) t = Some (inr PrDiv0) -> exists n0, forall fuel, n0 <= fuel -> p_turn cf (o_sto o) fuel (o_prog o) p = Val (PErr EDivBy0)).
Proof.
  intros H. destruct (reaches_builtin "is" p) as (a1 & a2 & u & t & A & R1 & R2); [discriminate|exact H|].
  exists a1, a2, u, t. csplit; auto; [exact (builtin_args _ _ _ _ A)| |].
  - intros n En. destruct (is_exact cf OK (o_sto o) p a1 a2 t n u A R2 En R1) as (n0 & K). exists n0. intros fuel Hn. exact (K fuel (o_prog o) Hn).
  - intros En. destruct (is_div0 cf OK (o_sto o) p a1 a2 t u A R2 En R1) as (n0 & K). exists n0. intros fuel Hn. exact (K fuel (o_prog o) Hn).
Qed.
Theorem is_problem_reached p : (Z.of_nat (List.length (s_vars (o_sto o))) <= 32768)%Z -> reaches cf o "is" p ->
  exists a1 a2 u t, argreg (p_m p) [a1; a2] /\ rd (o_sto o) (hp p) a1 u /\ rd (o_sto o) (hp p) a2 t /\
  (forall a, calc (pow_of cf) t = Some (inr (PrUnbound a)) -> exists v nm n0, nth_error (hp p) a = Some (CRef a v) /\ vidx (o_sto o) nm v /\
    forall fuel, n0 <= fuel -> p_turn cf (o_sto o) fuel (o_prog o) p = Val (PErr (EUnbound nm))) /\
  (calc (pow_of cf) t = Some (inr PrNotArith) -> exists n0, forall fuel r, n0 <= fuel -> p_turn cf (o_sto o) fuel (o_prog o) p = Val r ->
    exists f, r = PErr (ENotArith f)).
Proof.
  intros SV H. destruct (reaches_builtin "is" p) as (a1 & a2 & u & t & A & R1 & R2); [discriminate|exact H|].
  exists a1, a2, u, t. csplit; auto; [exact (builtin_args _ _ _ _ A)| |].
  - intros a Ea. pose proof A as (_ & _ & _ & _ & _ & _ & W & _).
    destruct (eval_spec cf (o_sto o) _ W _ _ R2 _ Ea) as (_ & _ & _ & v & Ev & _).
    destruct H as (root & pi & a0 & rest & Hr & Hp & _ & _).
    assert (F : pfit (o_sto o) p).
    { assert (ok : sto_ok (o_sto o)) by (destruct SM; split; auto; eapply session_nodup; eauto).
      destruct (session_parsed _ _ _ _ HS) as [SP QW]. destruct (root_code cf o P q HS root Hr) as (rl & -> & QC).
      eapply path_fit; [exact ok|exact (sess_PC cf o P q HS)|exact (sp_wf _ SP)| |eapply root_fit; eauto; apply QW|exact Hp].
      apply Forall_forall. intros c Hc. apply (append_ok cf OK c Hc). }
    destruct F as [(F & _) _]. rewrite Forall_forall in F. destruct (F _ (nth_error_In _ _ Ev)) as (nm & V).
    destruct (is_unbound cf OK (o_sto o) p a1 a2 t u a v nm A R2 Ea R1 Ev (vidx_name (o_sto o) SV nm v V)) as (n0 & K).
    exists v, nm, n0. csplit; auto.
  - intros Ea. destruct (is_not_arith cf OK (o_sto o) p a1 a2 t u A R2 Ea R1) as (n0 & K). exists n0. intros fuel r. exact (K fuel (o_prog o) r).
Qed.
End Reached.

(** cases *)
Lemma reach_witness program query n nm t u :
  match loaded program query, parse_program program, parse_query (append_dot query) with
  | Some o, Some (COk P), Some (COk _) =>
      match next_branch o n, plookup (FV nm 2) (o_prog o) with
      | Some p, Some [[a]] =>
          match p_codes p with a' :: _ => a' = a | [] => False end /\
          small_b (o_sto o) && noclash_b cfg0 P && (Z.of_nat (List.length (s_vars (o_sto o))) <=? 32768)%Z && tree_ok cfg0 (o_sto o) (o_prog o) 100 100 (root_proc o) = true /\
          match m_regs (p_m p) with
          | c1 :: c2 :: _ => match addr_of c1, addr_of c2 with
                             | Some x, Some y => rdb (o_sto o) 100 (m_heap (p_m p)) x = Some t /\ rdb (o_sto o) 100 (m_heap (p_m p)) y = Some u
                             | _, _ => False
                             end
          | _ => False
          end
      | _, _ => False
      end
  | _, _, _ => False
  end ->
  exists o P q p, session cfg0 o P (QFresh q) /\ small_tables (o_sto o) /\ no_clash cfg0 P /\ no_cycles cfg0 o /\
    (Z.of_nat (List.length (s_vars (o_sto o))) <= 32768)%Z /\ reaches cfg0 o nm p /\
    exists c1 c2 l a1 a2, m_regs (p_m p) = c1 :: c2 :: l /\ addr_of c1 = Some a1 /\ addr_of c2 = Some a2 /\
      rd (o_sto o) (m_heap (p_m p)) a1 t /\ rd (o_sto o) (m_heap (p_m p)) a2 u.
Proof.
  destruct (loaded program query) as [o|] eqn:E1; [|contradiction].
  destruct (parse_program program) as [[P| |]|] eqn:E2; try contradiction.
  destruct (parse_query (append_dot query)) as [[q| |]|] eqn:E3; try contradiction.
  pose proof (loaded_session _ _ _ _ _ E1 E2 E3) as HS.
  destruct (next_branch o n) as [p|] eqn:E4; [|contradiction].
  destruct (plookup (FV nm 2) (o_prog o)) as [[|[|a []] []]|] eqn:E5; try contradiction.
  rewrite !andb_true_iff. intros (Ha & (((H1 & H2) & H4) & H3) & R). apply Z.leb_le in H4. destruct (p_codes p) as [|a' rest] eqn:E6; [contradiction|]. subst a'.
  clear E1. exists o, P, q, p. destruct (Finite.session_tree _ _ _ _ H3) as [N _]. csplit; auto using small_b_ok, noclash_b_ok.
  - unfold next_branch in E4. assert (RO : root_of o (root_proc o)).
    { destruct (session_inv _ _ _ _ HS) as [_ (rl & _ & _ & K & _)]. assert (RO : root_of o (init_proc rl)) by (exists rl; split; [exact K|reflexivity]). rewrite <- (root_proc_ok _ _ RO). exact RO. }
    pose proof (search_n_ok cfg0 (o_sto o) (o_prog o) (root_proc o) 1000 n [] [([], root_proc o)] (se_init _ _ _ _)) as S.
    destruct (snd (search_n _ _ _ _ _ _ _)) as [|[pi p'] Q]; [discriminate E4|]. injection E4 as ->.
    destruct (search_order _ _ _ _ _ _ S) as (_ & _ & _ & S4 & _). exists (root_proc o), pi, a, rest. csplit; auto. apply S4. now left.
  - destruct (m_regs (p_m p)) as [|c1 [|c2 l]]; try contradiction. destruct (addr_of c1) as [x|] eqn:X; [|contradiction].
    destruct (addr_of c2) as [y|] eqn:Y; [|contradiction]. destruct R as [R1 R2]. exists c1, c2, l, x, y. csplit; auto; eapply rdb_sound; eassumption.
Qed.
