(** The bindings the unification tree shows where a goal met the head of a clause. *)
From Verif Require Import Base Machine Heap Facts HeapSim Compiler Parser Print Organizer Spec Valuation Process Refine Mono Turn Shape Session
  Code Put Search PutRun Get Alloc Atoms Clause Stack Ready Heads Builtins Sols Solve Terms Shown Parsed Tables Root Order Runs Answers
  Clash Examples Witness Finite Tree TreeTurn TreeInv TreeRun TreeSrc TreeFacts TreeShape TreeAll TreeCase Labels.
Open Scope string_scope.
Open Scope list_scope.

(** --- after the code of a head, the registers of its variables hold them --- *)
Lemma head_vars perm h nr st : atom_ok h -> snd (assign_one h) <= nr ->
  chk_hents perm nr (flatten_program (fst (assign_one h))) (ginit h) = Some st ->
  shows_vars perm (fst (assign_one h)) h (g_F st).
Proof.
  intros Ha Hn E s Hs Hp. destruct (is_constant h) eqn:Ec; [rewrite const_vars in Hs by assumption; contradiction|].
  destruct (assign_one h) as [ha cnt] eqn:Ea. destruct (assign_one_alloc h ha cnt Ec Ea) as (lx & TA). cbn [fst snd] in *.
  assert (Hk : forall m, In m (kids h) -> node_ok m) by (destruct h; try contradiction; try discriminate; destruct l; [contradiction|assumption]).
  destruct (head_ready perm h ha cnt nr lx Hk Ec TA Hn) as (st' & E' & T & [D SS F Fv]). rewrite E in E'. injection E' as <-.
  apply (lx_var h ha cnt lx TA) in Hs. destruct Hs as (i & x & Hi). exists x. split; [eapply (ta_vx _ _ _ _ TA); eauto|].
  eapply F; eauto. eapply nth_error_lt; eauto.
Qed.

Section Heads.
Variable cf : cfg.
Hypothesis OK : ord_ok cf.
Variable sto : storage.
Hypothesis ok : sto_ok sto.
Notation hp m := (m_heap (H := list cell) m).
Notation len := (@List.length cell).
Notation sat := (sat sto).
Notation hle := (hle sto).

Lemma clause_head b h body ha r : clause_code cf sto b (h :: body) (ha :: r) ->
  ca_node ha = h /\ ca_subs ha = find_var_reg_substitutions (permof cf (h :: body) true) (fst (assign_one h)).
Proof.
  intros (s0 & sE & f & E & X). unfold compile_program_term in E.
  set (perm := permof cf (h :: body) true) in *.
  change (fun s => pos_of s (perm_order cf (h :: body) true)) with perm in E. cbv zeta in E.
  destruct (negb b && redefines h)%bool; [discriminate|].
  destruct (assign_hb_head h body) as (A1 & A2 & A3).
  replace (match body with [] => let '(ha, c) := assign_one h in (ha, None, c)
           | b0 :: _ => let '(ha, ba, c) := assign_two h b0 in (ha, Some ba, c) end)
    with (assign_hb (h :: body)) in E by (destruct body; reflexivity).
  destruct (assign_hb (h :: body)) as [[ha' oba] nr] eqn:Eab. cbn [fst snd] in A1, A2, A3.
  apply cbind_ok in E. destruct E as ([hc0 s1] & t1 & E1 & E).
  apply cbind_ok in E. destruct E as ([firsts s3] & t2 & E2 & E).
  apply cbind_ok in E. destruct E as (others & t3 & E3 & E). injection E as _ <- _ _. cbn [ca_node ca_subs]. now rewrite A1.
Qed.

(** the variables of a head are where [l] says, and the arguments [TA] are those of the head *)
Definition head_shown (a : catom) (h0 : list cell) (m' : mst (list cell)) (TA : list nat) : Prop :=
  exists V l, fsub_addrs m' (ca_subs a) = Val l /\
    (forall s b, In (s, b) l -> b < len (hp m') /\ vals sto (hp m') V b (NVar s)) /\
    (forall s, In s (map fst l) <-> In s (vars_of (ca_node a))) /\
    Forall2 (vals sto (hp m') V) TA (targs (ca_node a)) /\
    (special (to_fview (ca_node a)) = None ->
      forall rho v, sat rho h0 -> Forall2 (fun b n => rho b = inst v n) TA (targs (ca_node a)) ->
      exists rho', (forall b, b < len h0 -> rho' b = rho b) /\ sat rho' (hp m') /\ forall s b, In (s, b) l -> rho' b = v s).

Lemma hsub_addrs m V perm nr st vx : hinv sto perm nr 0 st m V [] -> forall vs done,
  (forall s, In s vs -> In s (g_D st)) ->
  (forall s, In s vs -> perm s = None -> exists x, assoc s vx = Some x /\ nassoc x (g_F st) = Some (NVar s)) ->
  exists l, fsub_addrs m (var_regs perm vs vx done) = Val l /\
    (forall s a, In (s, a) l -> V s = Some a) /\
    (forall s, In s (map fst l) <-> In s vs /\ ~ In s done).
Proof.
  intros [W D L F T S E R]. induction vs as [|s vs IH]; intros done HD HF; cbn [var_regs].
  - exists []. cbn. csplit; auto; [intros s a []|]. intros s. tauto.
  - destruct (existsb (String.eqb s) done) eqn:Ed.
    + destruct (IH done) as (l & E1 & E2 & E3); [intros; apply HD; now right|intros; apply HF; auto; now right|].
      exists l. csplit; auto. intros t. rewrite E3. cbn. apply existsb_exists in Ed. destruct Ed as (t' & Ht & Et).
      apply String.eqb_eq in Et. subst t'. split; [tauto|]. intros [[->|K] N]; tauto.
    + destruct (IH (s :: done)) as (l & E1 & E2 & E3); [intros; apply HD; now right|intros; apply HF; auto; now right|].
      assert (K : exists a, fsub_addr m (match perm s with Some y => (s, y, true)
                  | None => (s, match assoc s vx with Some x => x | None => 0 end, false) end) = Val (s, a) /\ V s = Some a).
      { pose proof (HD s (or_introl eq_refl)) as Ds. apply D in Ds. destruct (V s) as [a|] eqn:Ev; [|contradiction].
        exists a. split; [|reflexivity]. destruct (perm s) as [y|] eqn:Ep.
        - destruct (E s y Ep) as (e & es & Ee & Hy & Hh). destruct (Hh a Ev) as (c & Ec & Ea).
          unfold fsub_addr, rperm. rewrite Ee, Ec. cbn [bind of_opt]. apply addr_of_get in Ea. now rewrite Ea.
        - destruct (HF s (or_introl eq_refl) Ep) as (x & Ex & En). rewrite Ex.
          destruct (F x _ En) as (t & c & b & Et & Ec & Ea & Eb). injection Et as <-. rewrite Ev in Eb. injection Eb as <-.
          unfold fsub_addr. rewrite (rreg_get _ _ _ Ec). cbn [bind]. apply addr_of_get in Ea. now rewrite Ea. }
      destruct K as (a & Ka & Va). exists ((s, a) :: l). cbn [fsub_addrs]. rewrite Ka. cbn [bind]. rewrite E1. cbn [bind].
      csplit; auto.
      * intros t b [H|H]; [injection H as <- <-; auto|auto].
      * intros t. cbn [map fst]. cbn [In]. rewrite E3. cbn [In]. split.
        -- intros [->|[H N]]; [|tauto]. split; [tauto|]. intros N.
           assert (existsb (String.eqb t) done = true) by (apply existsb_exists; exists t; split; [assumption|apply String.eqb_refl]).
           congruence.
        -- intros [[->|H] N]; [tauto|]. destruct (String.eqb_spec s t) as [->|]; [now left|]. right. split; [assumption|]. tauto.
Qed.

Variable lab : Prop.
Variable good : node -> Prop.

Lemma head_label fuel p hd body TA fs : at_clause cf sto good lab p hd body TA fs ->
  exists a rest, p_codes p = a :: rest /\ ca_node a = hd /\ atom_ok hd /\ List.length TA = List.length (targs hd) /\ argreg (p_m p) TA /\
  match run_local cf sto fuel (removelast (ca_code a)) (set_regs (p_m p) (resize (m_regs (p_m p)) (ca_regs a))) with
  | Val (Cont, m') => wfh sto 0 (hp m') /\ hle (hp (p_m p)) (hp m') /\ head_shown a (hp (p_m p)) m' TA
  | _ => True
  end.
Proof.
  intros [(b & r & rest & CC & CW & CK & CLb & Hg & Ep & W & SK & LT & AR)].
  destruct (clause_code_split cf OK sto ok b (hd :: body) r CC CW CK)
    as (h & body' & ha & rs & hc & nr & st & Ec & -> & Ecode & Er & Eu & HE & CH & GT & GD & SY & Ln & HB).
  injection Ec as <- <-. cbv zeta in *. destruct (clause_head _ _ _ _ _ CC) as [Nd Sb].
  assert (Hh : atom_ok hd) by (cbn [clause_wf] in CW; now inversion CW).
  assert (Hn : snd (assign_one hd) <= nr).
  { destruct CC as (s0 & sE & f & E & X). unfold compile_program_term in E.
    set (perm := permof cf (hd :: body) true) in *.
    change (fun s => pos_of s (perm_order cf (hd :: body) true)) with perm in E. cbv zeta in E.
    destruct (negb b && redefines hd)%bool; [discriminate|].
    destruct (assign_hb_head hd body) as (A1 & A2 & A3).
    replace (match body with [] => let '(ha, c) := assign_one hd in (ha, None, c)
             | b0 :: _ => let '(ha, ba, c) := assign_two hd b0 in (ha, Some ba, c) end)
      with (assign_hb (hd :: body)) in E by (destruct body; reflexivity).
    destruct (assign_hb (hd :: body)) as [[ha' oba] nr'] eqn:Eab. cbn [fst snd] in A1, A2, A3.
    apply cbind_ok in E. destruct E as ([hc0 s1] & t1 & E1 & E).
    apply cbind_ok in E. destruct E as ([firsts s3] & t2 & E2 & E).
    apply cbind_ok in E. destruct E as (others & t3 & E3 & E). injection E as _ Eha _ _. subst ha. cbn [ca_regs] in Er. lia. }
  set (perm := permof cf (hd :: body) true) in *.
  set (np := List.length (perm_order cf (hd :: body) true)) in *.
  assert (PI : pinj perm) by (intros s t y; apply permof_inj).
  exists ha, (rs ++ rest). rewrite Ep. csplit; auto.
  rewrite Ecode, removelast_last, PutRun.run_app, Er. set (m0 := set_regs (p_m p) (resize (m_regs (p_m p)) nr)).
  set (m1 := if Nat.eqb np 0 then m0 else set_envs m0 (repeat cell0 np :: m_envs m0)).
  assert (R1 : run_local cf sto fuel (alloc_code np) m0 = Val (Cont, m1)).
  { unfold alloc_code, m1. destruct (Nat.eqb np 0); [reflexivity|]. cbn [run_local]. rewrite (step_alloc cf sto). reflexivity. }
  rewrite R1. cbn [bind].
  assert (H1 : hp m1 = hp (p_m p)) by (unfold m1; destruct (Nat.eqb np 0); reflexivity).
  assert (G1 : m_regs m1 = resize (m_regs (p_m p)) nr) by (unfold m1; destruct (Nat.eqb np 0); reflexivity).
  assert (E1 : m_envs m1 = if Nat.eqb np 0 then m_envs (p_m p) else repeat cell0 np :: m_envs (p_m p))
    by (unfold m1; destruct (Nat.eqb np 0); reflexivity).
  assert (Pn : forall s y, perm s = Some y -> y < np) by (intros s y; apply permof_lt).
  set (V0 := fun _ : string => @None nat).
  assert (HI : hinv sto perm nr 0 (ginit hd) m1 V0 TA).
  { split; cbn [ginit g_D g_F g_T g_seen].
    - rewrite H1. exact W.
    - intros s. split; [intros []|]. intros K. now apply K.
    - discriminate.
    - discriminate.
    - rewrite H1, G1. apply (argq_from (fun x n a => exists c, nth_error (resize (m_regs (p_m p)) nr) x = Some c /\ addr_of c = Some a /\ a < len (hp (p_m p)))); [assumption|].
      intros i n a En Ea. cbn [Nat.add]. destruct (AR i a Ea) as (c & A1 & A2 & A3). exists c. csplit; auto. apply resize_nth; [assumption|].
      apply nth_error_lt in En. lia.
    - intros s y _. split; [discriminate|intros []].
    - intros s y Ey. specialize (Pn s y Ey). rewrite E1. destruct (Nat.eqb_spec np 0) as [->|]; [lia|].
      exists (repeat cell0 np), (m_envs (p_m p)). rewrite repeat_length. csplit; auto. discriminate.
    - rewrite G1. apply resize_length. }
  pose proof (hents_run cf sto ok fuel perm PI nr _ (ginit hd) st m1 V0 TA hc (g_seen st) HE CH HI) as HR.
  rewrite H1 in HR. cbn [ginit g_T] in HR.
  assert (EqH : forall rho v, Eqs sto (hp (p_m p)) V0 (argq (targs hd)) TA 0 [] rho v <->
    sat rho (hp (p_m p)) /\ Forall2 (fun a n => rho a = inst v n) TA (targs hd)).
  { intros rho v. unfold Eqs, argq. rewrite argq_inst. split.
    - intros (A & _ & B & _). auto.
    - intros [A B]. csplit; auto; [intros s a; discriminate|]. intros [|j] n; discriminate. }
  destruct (run_local cf sto fuel hc m1) as [[[| |e] m']|u|]; cbn [hres] in HR; auto; try contradiction.
  destruct HR as (_ & V' & TA' & I' & FR & LD). rewrite GT in LD.
  assert (TA' = []) as -> by (pose proof (hi_T _ _ _ _ _ _ _ _ I') as K; rewrite GT in K; inversion K; reflexivity).
  rewrite H1 in LD.
  assert (EqC : forall rho v, Eqs sto (hp m') V' [] [] 0 [] rho v <-> sat rho (hp m') /\ cons_on rho V' v).
  { intros rho v. unfold Eqs. split; [intros (A & B & _); auto|]. intros [A B]. csplit; auto. intros [|j] n; discriminate. }
  destruct LD as [LB LF]. cbn [ginit g_T] in LB, LF.
  assert (HL : hle (hp (p_m p)) (hp m')).
  { split; [destruct FR as (_ & L & _); rewrite H1 in L; exact L|]. intros rho Hs.
    refine (proj1 (proj1 (EqH rho (vof rho V')) _)). apply LB, EqC. split; [assumption|apply vof_cons]. }
  csplit; [exact (hi_wf _ _ _ _ _ _ _ _ I')|exact HL|].
  assert (SB : exists l, fsub_addrs m' (ca_subs ha) = Val l /\ (forall s a, In (s, a) l -> V' s = Some a) /\ forall s, In s (map fst l) <-> In s (vars_of hd)).
  { rewrite Sb. unfold find_var_reg_substitutions. rewrite aa_top_one. destruct (is_constant hd) eqn:Ec.
    - exists []. rewrite const_vars by assumption. csplit; [reflexivity|intros s a []|tauto].
    - destruct (hsub_addrs m' V' perm nr st (aa_vx (fst (assign_one hd))) I' (vars_of hd) []) as (l & L1 & L2 & L3).
      + intros s Hs. now apply GD.
      + exact (head_vars perm hd nr st Hh Hn CH).
      + exists l. csplit; auto. intros s. rewrite L3. cbn. tauto. }
  destruct SB as (l & L1 & L2 & L3). exists V', l. rewrite Nd. csplit; auto.
  - intros s a Hs. apply L2 in Hs. split; [eapply (hi_lt _ _ _ _ _ _ _ _ I'); eauto|]. intros rho v Sr Cr. exact (eq_sym (Cr _ _ Hs)) || exact (Cr _ _ Hs).
  - assert (K : forall rho v, sat rho (hp m') -> cons_on rho V' v -> Forall2 (fun a n => rho a = inst v n) TA (targs hd)).
    { intros rho v Sr Cr. apply (EqH rho v). apply LB, EqC. auto. }
    clear - K LT. revert K LT. generalize (targs hd). induction TA as [|a TA IH]; intros [|n ns] K LT; try discriminate; constructor.
    + intros rho v Sr Cr. specialize (K rho v Sr Cr). now inversion K.
    + apply IH; [|now injection LT]. intros rho v Sr Cr. specialize (K rho v Sr Cr). now inversion K.
  - intros _ rho v Sr Fr. destruct (LF rho v) as (rho' & Ag & Q); [now apply EqH|]. apply EqC in Q. destruct Q as [Q1 Q2].
    exists rho'. csplit; auto.
Qed.

Lemma special_shape2 f i rs : special f = Some i -> special_code cf sto f i rs ->
  exists a, rs = [[a]] /\ ca_code a = [IGetVar 2 0; IGetVar 3 1; i 2 3; IProceed] /\ ca_regs a = 4 /\
    ca_node a = binary_pred (fv_name f) /\ ca_subs a = [("Lhs", 2, false); ("Rhs", 3, false)].
Proof.
  intros Hf (r & (s0 & s1 & g & E & X) & ->).
  assert (Hc : c_ord cf [] = []) by (apply ord_nil; exact OK).
  unfold compile_program_term, binary_pred in E. cbn in E. unfold perm_order in E. cbn [perm_vars] in E.
  rewrite Hc in E. unfold to_program, cbind in E. cbn in E. unfold cret in E. injection E as <- <- <-.
  eexists. cbn. csplit; reflexivity.
Qed.
Lemma special_label fuel p nm a1 a2 fs : at_special cf sto good p nm a1 a2 fs ->
  exists a rest, p_codes p = a :: rest /\ ca_node a = binary_pred nm /\ argreg (p_m p) [a1; a2] /\
  match run_local cf sto fuel (removelast (ca_code a)) (set_regs (p_m p) (resize (m_regs (p_m p)) (ca_regs a))) with
  | Val (Cont, m') => wfh sto 0 (hp m') /\ hle (hp (p_m p)) (hp m') /\ head_shown a (hp (p_m p)) m' [a1; a2]
  | _ => True
  end.
Proof.
  intros AS. destruct (special_run cf OK sto good [] fuel p nm a1 a2 fs AS) as (a0 & rest0 & Ep0 & _ & SR).
  destruct AS as [(i & rs & r & rest & Hf & SC & Ir & Ep & W & SK & AR)].
  destruct (special_shape2 _ _ _ Hf SC) as (a & -> & Ecode & Er & En & Es). destruct Ir as [<-|[]].
  rewrite Ep in Ep0. cbn [app] in Ep0. injection Ep0 as <- <-.
  exists a, rest. rewrite Ep. csplit; [reflexivity|exact En|exact AR|].
  destruct (run_local cf sto fuel (removelast (ca_code a)) _) as [[[| |e] m']|u|] eqn:Rn; auto.
  destruct SR as (W' & HL & _). csplit; auto.
  rewrite Ecode, Er in Rn. cbn [removelast] in Rn. set (m0 := set_regs (p_m p) (resize (m_regs (p_m p)) 4)) in *.
  destruct (AR 0 a1 eq_refl) as (c1 & E1 & A1 & L1). destruct (AR 1 a2 eq_refl) as (c2 & E2 & A2 & L2).
  apply (resize_nth _ 4) in E1, E2; try lia. change (resize (m_regs (p_m p)) 4) with (m_regs m0) in E1, E2.
  assert (Lm : List.length (m_regs m0) = 4) by apply resize_length.
  destruct (upd_some (m_regs m0) 2 c1) as (l1 & U1); [lia|]. pose proof (upd_length _ _ _ _ U1) as Ll1.
  destruct (upd_some l1 3 c2) as (l2 & U2); [lia|].
  cbn [run_local] in Rn. unfold fstep in Rn. cbn [local_step] in Rn.
  rewrite (rreg_get _ _ _ E1) in Rn. cbn [bind] in Rn. unfold wreg at 1 in Rn. rewrite U1 in Rn. cbn [of_opt bind] in Rn.
  assert (E2' : nth_error l1 1 = Some c2) by (rewrite (upd_nth _ _ _ _ _ U1); exact E2).
  rewrite (rreg_get (set_regs m0 l1) 1 c2 E2') in Rn. cbn [bind] in Rn. unfold wreg at 1 in Rn. cbn [m_regs set_regs] in Rn. rewrite U2 in Rn. cbn [of_opt bind] in Rn.
  set (m2 := set_regs (set_regs m0 l1) l2) in *.
  assert (Rg : m_regs m' = l2).
  { destruct (local_step _ _ _ _ _ (i 2 3) m2) as [[st3 m3]|u|] eqn:Rl; cbn [bind] in Rn; try discriminate Rn.
    assert (m3 = m' \/ st3 <> Cont) by (destruct st3; [left; now injection Rn|right..]; discriminate).
    destruct H as [->|N]; [|destruct st3; [contradiction|discriminate Rn..]].
    change l2 with (m_regs m2). clear - Rl Hf.
    destruct (special_eq _ _ Hf) as [[_ ->]|[[_ ->]|[_ ->]]]; cbn [local_step] in Rl.
    - unfold is_pred in Rl.
      repeat match type of Rl with
      | (_ <- ?x ;; _) = _ => let E := fresh in destruct x eqn:E; cbn [bind] in Rl; try discriminate Rl
      | match ?x with _ => _ end = _ => destruct x; try discriminate Rl
      end; try (injection Rl as _ <-; reflexivity).
    - unfold equals_check in Rl.
      repeat match type of Rl with
      | (_ <- ?x ;; _) = _ => let E := fresh in destruct x eqn:E; cbn [bind] in Rl; try discriminate Rl
      | match ?x with _ => _ end = _ => destruct x; try discriminate Rl
      end; try (injection Rl as _ <-; reflexivity).
    - unfold not_equals_check, equals_check in Rl.
      repeat match type of Rl with
      | (_ <- ?x ;; _) = _ => let E := fresh in destruct x eqn:E; cbn [bind] in Rl; try discriminate Rl
      | match ?x with _ => _ end = _ => destruct x; try discriminate Rl
      end; try (injection Rl as _ <-; reflexivity).
      injection Rl as _ <-.
      repeat match type of H with
      | (_ <- ?x ;; _) = _ => let E := fresh in destruct x eqn:E; cbn [bind] in H; try discriminate H
      end. now injection H as _ <-. }
  assert (R2 : rreg (list cell) m' 2 = Val c1).
  { apply rreg_get. rewrite Rg, (upd_nth _ _ _ _ _ U2). cbn [Nat.eqb]. exact (upd_two _ _ _ _ U1). }
  assert (R3 : rreg (list cell) m' 3 = Val c2) by (apply rreg_get; rewrite Rg; exact (upd_two _ _ _ _ U2)).
  apply addr_of_get in A1, A2.
  exists (fun s => if String.eqb s "Lhs" then Some a1 else if String.eqb s "Rhs" then Some a2 else None), [("Lhs", a1); ("Rhs", a2)].
  rewrite Es, En. destruct HL as [HL _]. csplit.
  - cbn [fsub_addrs fsub_addr]. rewrite R2, R3. cbn [bind]. rewrite A1, A2. reflexivity.
  - intros s b [K|[K|[]]]; injection K as <- <-; (split; [lia|]); intros rho v _ Cr; cbn [inst]; [apply (Cr "Lhs" a1)|apply (Cr "Rhs" a2)]; reflexivity.
  - intros s. cbn. tauto.
  - cbn [targs is_constant binary_pred kids fv_name]. constructor; [|constructor; [|constructor]]; intros rho v _ Cr; cbn [inst]; [apply (Cr "Lhs" a1)|apply (Cr "Rhs" a2)]; reflexivity.
  - intros K. change (special (FV nm 2) = None) in K. congruence.
Qed.
End Heads.

(** --- the query nodes and binding nodes of a session --- *)
Section Nodes.
Variable cf : cfg.
Hypothesis OK : ord_ok cf.
Variables (o : org) (P : list (list node)) (q : list node) (rl : rule) (ps : list process) (lv : nat -> bool)
  (G : nat -> process) (M : nat -> mst (list cell)) (D : list (nat * list (string * string))).
Hypothesis Q : query_code cf (o_sto o) q rl.
Hypothesis R : refines cf o ps.
Hypothesis T : tree_inv cf rl o ps lv G M D.
Hypothesis PC : prog_code cf (o_sto o) P (o_prog o).
Hypothesis ok : sto_ok (o_sto o).
Hypothesis PW : Forall clause_wf P.
Hypothesis Hq : q <> [] /\ Forall atom_ok q.
Hypothesis NC : no_clash cf P.
Hypothesis LB : labelled cf P.
Notation sto := (o_sto o).
Notation hp m := (m_heap (H := list cell) m).

(** the goal [n] was called with the arguments at [TA]; [l]: where its variables are *)
Record called (ex : nat) (e : exec) (a : catom) (n : node) (TA : list nat) (V : string -> option nat) (l : list (string * nat)) : Prop := {
  cd_solved : solved o e = Val a;
  cd_node : ca_node a = n;
  cd_ok : atom_ok n;
  cd_last : last (ca_code a) IProceed = ICall (to_fview n);
  cd_heap : hrel (heap_at (o_arena o) (x_parent e)) (m_heap (x_m e)) (hp (M ex));
  cd_regs : m_regs (x_m e) = m_regs (M ex);
  cd_ends : ends_with cf sto (G ex) (hp (M ex));
  cd_wf : wfh sto 0 (hp (M ex));
  cd_len : List.length TA = List.length (targs n);
  cd_args : argreg (M ex) TA;
  cd_vals : Forall2 (vals sto (hp (M ex)) V) TA (targs n);
  cd_subs : Organizer.sub_addrs (x_m e) (ca_subs a) = Val l;
  cd_l : forall s b, In (s, b) l -> b < List.length (hp (M ex)) /\ vals sto (hp (M ex)) V b (NVar s);
  cd_names : forall s, In s (map fst l) <-> In s (vars_of n)
}.
Lemma call_node ex e : nth_error (o_arena o) ex = Some e -> lv ex = true -> x_state e <> SRunning ->
  exists a n TA V l, called ex e a n TA V l.
Proof.
  intros He Lv Hst. pose proof (ti_node _ _ _ _ _ _ _ _ T ex e He) as TN.
  destruct (tn_run _ _ _ _ _ _ _ _ TN) as [(K & _)|[_ F]]; [contradiction|].
  destruct F as (c & a & rest & st & fu & Ec & Ef & Ecs & Er & Cl & Oc).
  assert (K : st = Cont /\ exists f, last (ca_code a) IProceed = ICall f) by (destruct Oc; try congruence; eauto).
  destruct K as (-> & f & El). specialize (Cl eq_refl). destruct Cl as (C1 & C2 & C3).
  destruct (ti_path _ _ _ _ _ _ _ _ T ex e He) as (pi & Hp).
  destruct (call_ready cf OK sto ok (o_prog o) P PC PW NC q rl Q Hq pi (G ex) a rest f Hp Ecs El) as (fs & Rd).
  destruct (ready_label cf sto ok _ _ fu (G ex) fs Rd) as (n & a' & rest' & m' & V & TA & B1 & B2 & B3 & B4 & B5 & W & TL & AR & VS & LV).
  rewrite Ecs in B1. injection B1 as <- <-. rewrite Er in B5. injection B5 as <-.
  destruct LV as (l & L1 & L2 & L3).
  { intros cl Hcl. apply in_app_iff in Hcl. destruct Hcl as [Hcl|Hcl]; [auto|]. now apply append_labelled. }
  exists a, n, TA, V, l. split; auto.
  - unfold solved. now rewrite Ec.
  - exists fu, a, rest, (M ex). auto.
  - rewrite (Refine.sub_addrs_sim (x_m e) (M ex)); auto. rewrite C3. now destruct (m_envs (M ex)).
Qed.

Lemma head_path pi p a rest : at_path cf sto (o_prog o) (init_proc rl) pi p -> p_codes p = a :: rest -> last (ca_code a) IProceed = IProceed ->
  exists TA, atom_ok (ca_node a) /\ List.length TA = List.length (targs (ca_node a)) /\ argreg (p_m p) TA /\
  forall fuel m', run_local cf sto fuel (removelast (ca_code a)) (set_regs (p_m p) (resize (m_regs (p_m p)) (ca_regs a))) = Val (Cont, m') ->
    wfh sto 0 (hp m') /\ hle sto (hp (p_m p)) (hp m') /\ head_shown sto a (hp (p_m p)) m' TA.
Proof.
  intros Hp Hc Hl. destruct (plain_path cf OK sto ok (o_prog o) P PC PW NC q rl Q Hq pi p Hp) as (S & K).
  destruct K as [fs tr W SK Dl Tr Tk|fs tr Rd Tr Tk|hd body TA fs tr At Tr Tk|nm a1 a2 fs tr At _ _ Tr Tk].
  - destruct (stk_top _ _ (pow_of cf) (PA P) _ _ _ _ SK a rest Hc) as (fs' & _ & [Tg|(-> & _)]); [|discriminate].
    inversion Tg as [perm V n gs fs0 D0 D' seen s1 is u cs tl Hi Ha Ht Ec]. rewrite Ec, last_last in Hl. discriminate.
  - inversion Rd as [perm V n gs fs0 a0 pre is cs tl u m1 es st st' s1 nr Hi Ha Hg Ec Ea]. rewrite Hc in Ec. injection Ec as <- _.
    rewrite Ea, last_last in Hl. discriminate.
  - exists TA. destruct (head_label cf OK sto ok _ _ 0 p hd body TA fs At) as (a' & rest' & Ea & En & Ao & Lt & Ar & _).
    rewrite Hc in Ea. injection Ea as <- <-. rewrite En. csplit; auto. intros fuel m' Er.
    destruct (head_label cf OK sto ok _ _ fuel p hd body TA fs At) as (a' & rest' & Ea' & _ & _ & _ & _ & K).
    rewrite Hc in Ea'. injection Ea' as <- <-. rewrite Er in K. exact K.
  - exists [a1; a2]. destruct (special_label cf OK sto _ 0 p nm a1 a2 fs At) as (a' & rest' & Ea & En & Ar & _).
    rewrite Hc in Ea. injection Ea as <- <-. rewrite En. csplit; auto.
    + cbn. intros m [<-|[<-|[]]]; cbn; auto.
    + intros fuel m' Er. destruct (special_label cf OK sto _ fuel p nm a1 a2 fs At) as (a' & rest' & Ea' & _ & _ & K).
      rewrite Hc in Ea'. injection Ea' as <- <-. rewrite Er in K. exact K.
Qed.

(** the head of a clause was matched with the goal called by [ex] *)
Record matches (ex k : nat) (ke : exec) (a : catom) (TA : list nat) : Prop := {
  mc_solved : solved o ke = Val a;
  mc_ok : atom_ok (ca_node a);
  mc_last : last (ca_code a) IProceed = IProceed;
  mc_heap : hrel (heap_at (o_arena o) (x_parent ke)) (m_heap (x_m ke)) (hp (M k));
  mc_ends : ends_with cf sto (G k) (hp (M k));
  mc_wf : wfh sto 0 (hp (M k));
  mc_le : hle sto (hp (M ex)) (hp (M k));
  mc_len : List.length TA = List.length (targs (ca_node a));
  mc_args : argreg (M ex) TA;
  mc_head : head_shown sto a (hp (M ex)) (M k) TA;
  mc_subs : forall l, fsub_addrs (M k) (ca_subs a) = Val l -> Organizer.sub_addrs (x_m ke) (ca_subs a) = Val l
}.
Lemma match_node ex e k ke : nth_error (o_arena o) ex = Some e -> lv ex = true -> x_state e <> SRunning -> In k (x_kids e) ->
  nth_error (o_arena o) k = Some ke -> has_failed ke = false -> is_running ke = false ->
  exists a n TA' V l ak TA, called ex e a n TA' V l /\ matches ex k ke ak TA /\ to_fview (ca_node ak) = to_fview n.
Proof.
  intros He Lv Hst Hk Hke Hf Hr. destruct (call_node ex e He Lv Hst) as (a & n & TA' & V & l & Cd).
  pose proof (ti_node _ _ _ _ _ _ _ _ T ex e He) as TN.
  destruct (tn_run _ _ _ _ _ _ _ _ TN) as [(K & _)|[_ F]]; [contradiction|].
  destruct F as (c & a1 & rest & st & fu & Ec & Ef & Ecs & Er & Cl & Oc).
  assert (a1 = a). { pose proof (cd_solved _ _ _ _ _ _ _ Cd) as K. unfold solved in K. rewrite Ec in K. congruence. } subst a1.
  destruct Oc as [K1 K2 K3 K4|er K1 K2 K3 K4|f K1 K2 K3 K4 K5 K6|f rs K1 K2 K3 K4 K5 K6|pid b fu' K1 K2 K3 K4 K5 K6 K7 K8 K9 K10|k' K1 K2 K3 K4 K5 K6 K7];
    try congruence; try (rewrite ?K4, ?K6 in Hk; contradiction).
  assert (Hn : f = to_fview n) by (pose proof (cd_last _ _ _ _ _ _ _ Cd); congruence).
  destruct (kid_level cf o rl ps lv G M D T ex e k He Hk) as (ke' & Hke' & Hpar & Hlk). rewrite Hke in Hke'. injection Hke' as <-.
  assert (HG : exists r, In r rs /\ G k = {| p_m := fresh (M ex); p_codes := r ++ rest; p_trail := trail_after a (M ex) (p_trail (G ex)) |}).
  { clear - K6 Hk. induction K6 as [|k0 r ks rs E K6 IH]; [contradiction|]. destruct Hk as [->|Hk]; [exists r; split; [now left|assumption]|].
    destruct (IH Hk) as (r' & A & B). exists r'. split; [now right|assumption]. }
  destruct HG as (r & Ir & HG).
  pose proof (prog_src cf sto P (o_prog o) f PC PW) as PS. rewrite K4 in PS. destruct PS as [PS _].
  assert (Hc : exists cl, In cl (clauses_for P f) /\ clause_src cl r).
  { clear - PS Ir. induction PS as [|cl r0 cls rs E PS IH]; [contradiction|]. destruct Ir as [->|Ir]; [exists cl; split; [now left|assumption]|].
    destruct (IH Ir) as (cl' & A & B). exists cl'. split; [now right|assumption]. }
  destruct Hc as (cl & Icl & (h & body & ha & cs & -> & -> & Hh & _)).
  assert (Hfh : to_fview h = f).
  { unfold clauses_for in Icl. destruct (special f) as [i|] eqn:Es.
    - destruct Icl as [E|[]]. injection E as <- <-. destruct (special_eq _ _ Es) as [[-> _]|[[-> _]|[-> _]]]; reflexivity.
    - destruct (is_append f) eqn:Ea.
      + unfold is_append in Ea; apply fview_eqb_eq in Ea. rewrite Ea. destruct Icl as [E|[E|[]]]; injection E as <- <-; reflexivity.
      + unfold clauses_of in Icl. apply filter_In in Icl. destruct Icl as [_ E]. now apply has_head_eq in E. }
  pose proof (ti_node _ _ _ _ _ _ _ _ T k ke Hke) as TK.
  destruct (tn_run _ _ _ _ _ _ _ _ TK) as [(K & _)|[_ F]]; [unfold is_running in Hr; rewrite K in Hr; discriminate|].
  destruct F as (ck & ak & restk & stk & fuk & Eck & Efk & Ecsk & Erk & Clk & Ock).
  rewrite HG in Ecsk. cbn [p_codes app] in Ecsk. injection Ecsk as <- Erest.
  rewrite Lv in Hlk. cbn in Hlk. unfold has_failed in Hf.
  assert (K : stk = Cont /\ last (ca_code ha) IProceed = IProceed).
  { destruct Ock as [J1 J2 J3 J4|er J1 J2 J3 J4|? J1 J2 J3 J4 J5 J6|? ? J1 J2 J3 J4 J5 J6|? ? ? J1 J2 J3 J4 J5 J6 J7 J8 J9 J10|? J1 J2 J3 J4 J5 J6 J7];
      try congruence; auto; rewrite J3 in Hf; discriminate. }
  destruct K as [-> El]. specialize (Clk eq_refl). destruct Clk as (C1 & C2 & C3).
  destruct (ti_path _ _ _ _ _ _ _ _ T k ke Hke) as (pi & Hp).
  assert (Ecs' : p_codes (G k) = ha :: cs ++ rest) by (now rewrite HG).
  destruct (head_path pi (G k) ha _ Hp Ecs' El) as (TA & B1 & B2 & B3 & B4). destruct (B4 fuk (M k) Erk) as (W & HL & HS).
  rewrite HG in B3, HL, HS. cbn [p_m] in B3, HL, HS. change (hp (fresh (M ex))) with (hp (M ex)) in *.
  exists a, n, TA', V, l, ha, TA. split; [assumption|]. split; [|congruence]. split; auto.
  - unfold solved. now rewrite Eck.
  - exists fuk, ha, (cs ++ rest), (M k). auto.
  - intros l0 E0. rewrite (Refine.sub_addrs_sim (x_m ke) (M k)); auto. rewrite C3. now destruct (m_envs (M k)).
Qed.
End Nodes.

(** --- substitutions --- *)
Section Subst.
Definition look (b : list ((string * nat) * rnode)) (v : string * nat) : option rnode :=
  option_map snd (find (fun x => same_var (fst x) v) b).
Definition by_name (b : list ((string * nat) * rnode)) (s : string) : option rnode :=
  option_map snd (find (fun x => (fst (fst x) =? s)%string) b).
End Subst.
(** the variables of a label replaced by what is shown for them; those without an entry are left *)
Fixpoint rsub (b : list ((string * nat) * rnode)) (n : rnode) : tm :=
  match n with
  | RVar s a => match look b (s, a) with Some x => rterm x | None => TVar a s end
  | RCon s => TCon s
  | RInt s => TInt (lit_val s)
  | RFun s l => TFun s (map (rsub b) l)
  | REv s l => TEv s (map (rsub b) l)
  end.
(** the same for the head of a clause; [w]: the places of its variables *)
Fixpoint hsub (w : string -> nat) (b : list ((string * nat) * rnode)) (n : node) : tm :=
  match n with
  | NVar s => match by_name b s with Some x => rterm x | None => TVar (w s) s end
  | NCon s => TCon s
  | NInt s => TInt (lit_val s)
  | NFun s l => TFun s (map (hsub w b) l)
  | NEv s l => TEv s (map (hsub w b) l)
  end.
Fixpoint rvars (n : rnode) : list (string * nat) :=
  match n with
  | RVar s a => [(s, a)]
  | RCon _ | RInt _ => []
  | RFun _ l | REv _ l => flat_map rvars l
  end.
Lemma rnode_ind2 (Q : rnode -> Prop) : (forall s a, Q (RVar s a)) -> (forall s, Q (RCon s)) -> (forall s, Q (RInt s)) ->
  (forall s l, Forall Q l -> Q (RFun s l)) -> (forall s l, Forall Q l -> Q (REv s l)) -> forall n, Q n.
Proof.
  intros H1 H2 H3 H4 H5. fix IH 1. intros [s a|s|s|s l|s l]; [apply H1|apply H2|apply H3|apply H4|apply H5];
    induction l; constructor; solve [apply IH|assumption].
Qed.
Lemma same_var_eq x y : same_var x y = true <-> x = y.
Proof.
  unfold same_var. rewrite andb_true_iff, String.eqb_eq, Nat.eqb_eq. destruct x, y. cbn. split; [intros [-> ->]; reflexivity|]. intros E. injection E. auto.
Qed.
Lemma look_some b v x : look b v = Some x -> In (v, x) b.
Proof.
  unfold look. destruct (find _ b) as [[v' x']|] eqn:E; [|discriminate]. cbn. intros K. injection K as ->. apply find_some in E.
  destruct E as [A B]. cbn in B. apply same_var_eq in B. now subst.
Qed.
Lemma look_none b v x : look b v = None -> In (v, x) b -> False.
Proof.
  unfold look. destruct (find _ b) as [[v' x']|] eqn:E; [discriminate|]. intros _ H. pose proof (find_none _ _ E _ H) as K. cbn in K.
  assert (same_var v v = true) by (now apply same_var_eq). congruence.
Qed.
Lemma by_name_some b s x : by_name b s = Some x -> exists a, In ((s, a), x) b.
Proof.
  unfold by_name. destruct (find _ b) as [[[s' a'] x']|] eqn:E; [|discriminate]. cbn. intros K. injection K as ->. apply find_some in E.
  destruct E as [A B]. cbn in B. apply String.eqb_eq in B. subst. eauto.
Qed.
Lemma by_name_none b s a x : by_name b s = None -> In ((s, a), x) b -> False.
Proof.
  unfold by_name. destruct (find _ b) as [[v' x']|] eqn:E; [discriminate|]. intros _ H. pose proof (find_none _ _ E _ H) as K. cbn in K.
  rewrite String.eqb_refl in K. discriminate.
Qed.
Lemma itself_eq v x : itself (v, x) = true -> x = RVar (fst v) (snd v).
Proof. unfold itself. cbn. destruct x; try discriminate. intros K. apply same_var_eq in K. now subst. Qed.

(** --- the variables collected breadth first are those of the label --- *)
Definition rsizes (l : list rnode) : nat := fold_right (fun m acc => rsize m + acc) 0 l.
Lemma rsizes_app l k : rsizes (l ++ k) = rsizes l + rsizes k.
Proof. unfold rsizes. induction l as [|x l IH]; cbn [app fold_right]; [reflexivity|]. rewrite IH. lia. Qed.
Lemma rsize_kids n : rsize n = S (rsizes (rkids n)).
Proof. destruct n; reflexivity. Qed.
Lemma rbfs_vars f : forall qu, rsizes qu <= f -> forall s a, In (RVar s a) (rbfs f qu) <-> In (s, a) (flat_map rvars qu).
Proof.
  induction f as [|f IH]; intros [|n qu] H s a; cbn [rbfs]; try reflexivity.
  - cbn in H. rewrite rsize_kids in H. lia.
  - cbn [rsizes fold_right] in H. fold (rsizes qu) in H. rewrite rsize_kids in H. cbn [In flat_map]. rewrite IH by (rewrite rsizes_app; lia).
    rewrite flat_map_app, !in_app_iff. destruct n as [t b|t|t|t l|t l]; cbn [rkids rvars flat_map In].
    + split; [intros [E|[K|[]]]|intros [[E|[]]|K]]; auto; injection E as -> ->; auto.
    + split; [intros [E|[K|[]]]|intros [[]|K]]; auto; discriminate.
    + split; [intros [E|[K|[]]]|intros [[]|K]]; auto; discriminate.
    + split; [intros [E|[K|K]]|intros [K|K]]; auto; discriminate.
    + split; [intros [E|[K|K]]|intros [K|K]]; auto; discriminate.
Qed.
Lemma unique_in l : forall done v, In v (unique_vars l done) <-> In v done \/ In (RVar (fst v) (snd v)) l.
Proof.
  induction l as [|n l IH]; intros done v; cbn [unique_vars]; [cbn; tauto|].
  destruct n as [t b|t|t|t k|t k]; rewrite IH; cbn [In].
  - destruct (existsb (same_var (t, b)) done) eqn:E.
    + apply existsb_exists in E. destruct E as (v' & Hv & Ev). apply same_var_eq in Ev. subst v'. split; [tauto|].
      intros [K|[K|K]]; auto. injection K as -> ->. left. now destruct v.
    + rewrite in_app_iff. cbn. destruct v as [s a]. cbn. split; intros H.
      * destruct H as [[H|[H|[]]]|H]; auto. injection H as -> ->. auto.
      * destruct H as [H|[H|H]]; auto. injection H as -> ->. auto.
  - split; intros [H|H]; auto. destruct H; auto. discriminate.
  - split; intros [H|H]; auto. destruct H; auto. discriminate.
  - split; intros [H|H]; auto. destruct H; auto. discriminate.
  - split; intros [H|H]; auto. destruct H; auto. discriminate.
Qed.
Lemma name_vars_in n v : In v (name_vars n) <-> In v (flat_map rvars (rkids n)).
Proof.
  unfold name_vars. rewrite unique_in. destruct v as [s a]. cbn [fst snd In]. rewrite rbfs_vars by (rewrite rsize_kids; lia). tauto.
Qed.

Section Unify.
Variable sto : storage.
Variables h h' : list cell.
Hypothesis W : wfh sto 0 h.
Hypothesis W' : wfh sto 0 h'.
Hypothesis F' : finite_terms sto h'.
Hypothesis HL : hle sto h h'.
Notation len := (@List.length cell).

Lemma rd_lt2 g a t : rd sto g a t -> a < len g.
Proof. intros K. inversion K as [? ? ? N|? ? ? N|? ? N|? ? N|? ? ? ? N|? ? ? ? N]; subst; try (eapply nth_error_lt; eassumption).
  destruct (next_ref _ _ _ N) as [(v & E & _)|[E _]]; eapply nth_error_lt; eassumption. Qed.
Fixpoint tvars (t : tm) : list nat := match t with TVar a _ => [a] | TCon _ | TInt _ => [] | TFun _ l | TEv _ l => flat_map tvars l end.
Lemma rd_vars g a t : rd sto g a t -> forall b, In b (tvars t) -> forall s, rd sto g b (TVar b s).
Proof.
  revert a t. apply (rd_mut sto g (fun a t => forall b, In b (tvars t) -> forall s, rd sto g b (TVar b s))
    (fun a n l => forall b, In b (flat_map tvars l) -> forall s, rd sto g b (TVar b s))); cbn [tvars flat_map]; intros; try contradiction; auto.
  - destruct H0 as [<-|[]]. eapply rd_var; eauto.
  - rewrite in_app_iff in *. destruct H3; auto.
Qed.
Lemma rvars_tvars n s a : In (s, a) (rvars n) -> In a (tvars (rterm n)).
Proof.
  induction n as [t b|t|t|t l IH|t l IH] using rnode_ind2; cbn [rvars rterm tvars]; intros K; try contradiction.
  - destruct K as [K|[]]. injection K as _ ->. now left.
  - apply in_flat_map in K. destruct K as (x & Hx & K). apply in_flat_map. exists (rterm x). split; [now apply in_map|]. rewrite Forall_forall in IH. auto.
  - apply in_flat_map in K. destruct K as (x & Hx & K). apply in_flat_map. exists (rterm x). split; [now apply in_map|]. rewrite Forall_forall in IH. auto.
Qed.
Lemma rsub_ginst b g g' n : (forall s a, In (s, a) (rvars n) -> g a = ginst g' (rsub b (RVar s a))) -> ginst g (rterm n) = ginst g' (rsub b n).
Proof.
  induction n as [t c|t|t|t l IH|t l IH] using rnode_ind2; intros K.
  - cbn [rterm ginst]. apply K. now left.
  - reflexivity.
  - reflexivity.
  - cbn [rterm ginst rsub]. f_equal. rewrite !map_map. apply map_ext_in. intros x Hx. rewrite Forall_forall in IH. apply IH; auto.
    intros s a Hs. apply K. cbn [rvars]. apply in_flat_map. eauto.
  - cbn [rterm ginst rsub]. f_equal. rewrite !map_map. apply map_ext_in. intros x Hx. rewrite Forall_forall in IH. apply IH; auto.
    intros s a Hs. apply K. cbn [rvars]. apply in_flat_map. eauto.
Qed.
Lemma hsub_ginst w b v g' n : (forall s, In s (nvars n) -> v s = ginst g' (hsub w b (NVar s))) -> inst v n = ginst g' (hsub w b n).
Proof.
  induction n as [t|t|t|t l IH|t l IH] using node_ind'; intros K.
  - apply K. now left.
  - reflexivity.
  - reflexivity.
  - cbn [inst ginst hsub]. f_equal. rewrite map_map. apply map_ext_in. intros x Hx. rewrite Forall_forall in IH. apply IH; auto.
    intros s Hs. apply K. cbn [nvars]. apply in_flat_map. eauto.
  - cbn [inst ginst hsub]. f_equal. rewrite map_map. apply map_ext_in. intros x Hx. rewrite Forall_forall in IH. apply IH; auto.
    intros s Hs. apply K. cbn [nvars]. apply in_flat_map. eauto.
Qed.

Variables (TA : list nat) (xs : list rnode) (ys : list node) (V : string -> option nat) (l : list (string * nat)).
Variables qb0 fb0 : list ((string * nat) * rnode).
Hypothesis HA : Forall2 (fun b x => b < len h /\ rd sto h b (rterm x)) TA xs.
Hypothesis HV : Forall2 (vals sto h' V) TA ys.
Hypothesis Hl : forall s b, In (s, b) l -> b < len h' /\ vals sto h' V b (NVar s).
Hypothesis Hn : forall s, In s (flat_map nvars ys) -> In s (map fst l).
Hypothesis Hq : forall v x, In (v, x) qb0 -> rd sto h' (snd v) (rterm x).
Hypothesis Hqv : forall v, In v (flat_map rvars xs) -> exists x, In (v, x) qb0.
Hypothesis Hf : forall v x, In (v, x) fb0 -> In v l /\ rd sto h' (snd v) (rterm x).
Hypothesis Hfv : forall v, In v l -> exists x, In (v, x) fb0.
Definition cut (b : list ((string * nat) * rnode)) : list ((string * nat) * rnode) := filter (fun x => negb (itself x)) b.
Definition place (s : string) : nat := match assoc s l with Some b => b | None => 0 end.

Lemma assoc_in {A} s (k : list (string * A)) b : assoc s k = Some b -> In (s, b) k.
Proof.
  induction k as [|[t c] k IH]; cbn; [discriminate|]. destruct (String.eqb_spec s t) as [->|N]; intros E; [injection E as ->; now left|right; auto].
Qed.
Lemma assoc_some {A} s (k : list (string * A)) : In s (map fst k) -> exists b, assoc s k = Some b.
Proof.
  induction k as [|[t c] k IH]; cbn; [contradiction|]. destruct (String.eqb_spec s t) as [->|N]; [eauto|]. intros [K|K]; [congruence|auto].
Qed.
Lemma cut_in v x b : In (v, x) (cut b) <-> In (v, x) b /\ itself (v, x) = false.
Proof. unfold cut. rewrite filter_In. now rewrite negb_true_iff. Qed.

(** valuations of the heap after the match, at the variables of the label and of the head *)
Lemma q_rho rho g s a : sat sto rho h' -> (forall b t, rd sto h' b t -> b < len h' -> rho b = ginst g t) ->
  In (s, a) (flat_map rvars xs) -> rho a = ginst g (rsub (cut qb0) (RVar s a)).
Proof.
  intros Sr Hg Hs. cbn [rsub]. destruct (look (cut qb0) (s, a)) as [x|] eqn:E.
  - apply look_some, cut_in in E. destruct E as [E _]. pose proof (Hq _ _ E) as K. apply Hg; [exact K|eapply rd_lt2; eauto].
  - destruct (Hqv _ Hs) as (x & Hx). destruct (itself ((s, a), x)) eqn:Ei.
    + apply itself_eq in Ei. subst x. pose proof (Hq _ _ Hx) as K. cbn in K. exact (Hg _ _ K (rd_lt2 _ _ _ K)).
    + exfalso. apply (look_none _ _ x E). now apply cut_in.
Qed.
Lemma f_rho rho g v s : sat sto rho h' -> (forall b t, rd sto h' b t -> b < len h' -> rho b = ginst g t) ->
  (forall t b, In (t, b) l -> rho b = v t) -> In s (map fst l) -> v s = ginst g (hsub place (cut fb0) (NVar s)).
Proof.
  intros Sr Hg Hv Hs. cbn [hsub]. destruct (by_name (cut fb0) s) as [x|] eqn:E.
  - apply by_name_some in E. destruct E as (a & E). apply cut_in in E. destruct E as [E _]. destruct (Hf _ _ E) as [K1 K2].
    rewrite <- (Hv _ _ K1). apply Hg; [exact K2|eapply rd_lt2; eauto].
  - unfold place. destruct (assoc_some s l Hs) as (b & Eb). rewrite Eb. apply assoc_in in Eb. destruct (Hfv _ Eb) as (x & Hx).
    destruct (itself ((s, b), x)) eqn:Ei.
    + apply itself_eq in Ei. subst x. destruct (Hf _ _ Hx) as [_ K]. cbn in K. rewrite <- (Hv _ _ Eb). exact (Hg _ _ K (rd_lt2 _ _ _ K)).
    + exfalso. apply (by_name_none _ _ b x E). now apply cut_in.
Qed.

Lemma shown_unifies : Forall2 (fun x y => alike (rsub (cut qb0) x) (hsub place (cut fb0) y)) xs ys.
Proof.
  assert (K : forall TA' xs' ys', Forall2 (fun b x => b < len h /\ rd sto h b (rterm x)) TA' xs' -> Forall2 (vals sto h' V) TA' ys' ->
    incl (flat_map rvars xs') (flat_map rvars xs) -> incl (flat_map nvars ys') (flat_map nvars ys) ->
    Forall2 (fun x y => alike (rsub (cut qb0) x) (hsub place (cut fb0) y)) xs' ys').
  { intros TA' xs' ys' A. revert ys'. induction A as [|b x TA' xs' [Lb Rb] A IH]; intros ys' B I1 I2; inversion B; subst; constructor.
    - match goal with H : vals _ _ _ b ?y0 |- _ => rename H into Vb; rename y0 into y end. apply alike_ground. intros g.
      destruct (ground_fin sto h' W' F' g) as (rho & Sr & Hg).
      assert (Hg' : forall c t, rd sto h' c t -> c < len h' -> rho c = ginst g t) by (intros; apply Hg; assumption).
      set (v := fun s => match V s with Some c => rho c | None => GInt 0 end).
      assert (Cv : cons_on rho V v). { intros s c Ec. unfold v. now rewrite Ec. }
      transitivity (rho b).
      + symmetry. rewrite (sat_rd sto h rho (proj2 HL rho Sr) b _ Rb). apply rsub_ginst. intros s a Hs. apply (q_rho rho g s a Sr Hg').
        apply I1. cbn [flat_map]. apply in_app_iff. now left.
      + rewrite (Vb rho v Sr Cv). apply hsub_ginst. intros s Hs. apply (f_rho rho g v s Sr Hg').
        * intros t c Hc. destruct (Hl t c Hc) as [_ K]. exact (K rho v Sr Cv).
        * apply Hn, I2. cbn [flat_map]. apply in_app_iff. now left.
    - apply IH; auto; [intros z Hz; apply I1|intros z Hz; apply I2]; cbn [flat_map]; apply in_app_iff; now right. }
  apply (K TA xs ys HA HV); apply incl_refl.
Qed.
Hypothesis F : finite_terms sto h.
Hypothesis MG : forall rho v, sat sto rho h -> Forall2 (fun b n => rho b = inst v n) TA ys ->
  exists rho', (forall b, b < len h -> rho' b = rho b) /\ sat sto rho' h' /\ forall s b, In (s, b) l -> rho' b = v s.
Lemma shown_general g v : Forall2 (fun x y => ginst g (rterm x) = inst v y) xs ys ->
  exists g', (forall s a, In (s, a) (flat_map rvars xs) -> g a = ginst g' (rsub (cut qb0) (RVar s a))) /\
             (forall s, In s (flat_map nvars ys) -> v s = ginst g' (hsub place (cut fb0) (NVar s))).
Proof.
  intros U. destruct (ground_fin sto h W F g) as (rho & Sr & Hg).
  destruct (MG rho v Sr) as (rho' & Ag & Sr' & Hv).
  { clear - HA U Hg. revert ys U. induction HA as [|b x TA0 xs0 [Lb Rb] A IH]; intros ys0 U; inversion U; subst; constructor.
    - rewrite (Hg b _ Rb Lb). assumption.
    - now apply IH. }
  assert (Hg' : forall c t, rd sto h' c t -> c < len h' -> rho' c = ginst rho' t) by (intros; now apply (sat_rd sto h')).
  exists rho'. split.
  - intros s a Hs. assert (Ra : rd sto h a (TVar a s)).
    { clear - HA Hs. induction HA as [|b x TA0 xs0 [Lb Rb] A IH]; [contradiction|]. cbn [flat_map] in Hs. apply in_app_iff in Hs.
      destruct Hs as [Hs|Hs]; auto. eapply rd_vars; [exact Rb|]. eapply rvars_tvars; eauto. }
    pose proof (rd_lt2 _ _ _ Ra) as La. pose proof (Hg a _ Ra La) as K. cbn in K. rewrite <- K, <- (Ag a La). now apply q_rho.
  - intros s Hs. apply (f_rho rho' rho' v s Sr' Hg'); auto.
Qed.
End Unify.

(** --- the bindings in a tree: label of the goal, executor of the clause, what is shown; for the clauses below called goals --- *)
Definition bshown (n : rnode) (b : bnode) : rnode * nat * option (list (string * string) * nat) := match b with BNode k _ bs _ => (n, k, bs) end.
Fixpoint q_binds (t : qnode) : list (nat * (rnode * nat * option (list (string * string) * nat))) :=
  match t with
  | QNode ex id nm ks => match nm with Some (n, s) => map (fun b => (ex, bshown n b)) ks | None => [] end ++
      (fix go (l : list bnode) := match l with [] => [] | b :: l' => b_binds b ++ go l' end) ks
  end
with b_binds (b : bnode) : list (nat * (rnode * nat * option (list (string * string) * nat))) :=
  match b with
  | BNode ex id _ c => match c with BQuery q => q_binds q | _ => [] end
  end.
Lemma q_binds_eq ex id nm ks : q_binds (QNode ex id nm ks) =
  match nm with Some (n, s) => map (fun b => (ex, bshown n b)) ks | None => [] end ++ flat_map b_binds ks.
Proof. reflexivity. Qed.
(** query nodes with the clauses below them *)
Definition b_ex (b : bnode) : nat := match b with BNode k _ _ _ => k end.
Fixpoint q_edges (t : qnode) : list (nat * nat) :=
  match t with
  | QNode ex id nm ks => map (fun b => (ex, b_ex b)) ks ++
      (fix go (l : list bnode) := match l with [] => [] | b :: l' => b_edges b ++ go l' end) ks
  end
with b_edges (b : bnode) : list (nat * nat) :=
  match b with
  | BNode ex id _ c => match c with BQuery q => q_edges q | _ => [] end
  end.
Lemma q_edges_eq ex id nm ks : q_edges (QNode ex id nm ks) = map (fun b => (ex, b_ex b)) ks ++ flat_map b_edges ks.
Proof. reflexivity. Qed.

Section Edges.
Variable fuel : nat.
Variable o : org.
Lemma strip_edges : forall t, q_edges (strip t) = q_edges t.
Proof.
  apply (qnode_ind2 _ (fun b => b_edges (strip_b b) = b_edges b)); auto.
  intros ex id nm ks H. rewrite strip_eq, !q_edges_eq. f_equal.
  - rewrite map_map. apply map_ext. intros [k i b c]. reflexivity.
  - induction H as [|b ks Hb H IH]; [reflexivity|]. cbn [map flat_map]. now rewrite Hb, IH.
Qed.
Lemma make_b_ex n c k b c1 : make_b fuel o n c k = Val (b, c1) -> b_ex b = k.
Proof.
  intros E. destruct (make_b_case _ _ _ _ _ _ _ E) as (ke & _ & H).
  destruct (x_state ke); [destruct H as [-> _]|destruct H as [-> _]|destruct H as (l & _ & -> & _)|destruct H as (j & q & _ & _ & ->)|destruct H as [-> _]]; reflexivity.
Qed.
Lemma make_q_edges n : forall id cnt t c, make_q fuel n o id cnt = Val (t, c) -> forall ex k, In (ex, k) (q_edges t) ->
  exists e, nth_error (o_arena o) ex = Some e /\ In k (x_kids e).
Proof.
  induction n as [|n IH]; intros id cnt t c E ex k Hk; [discriminate|]. rewrite make_q_eq in E.
  apply bind_val in E. destruct E as (e & He & E). apply bind_val in E. destruct E as ([ks c1] & Ek & E). injection E as <- <-.
  apply of_opt_val in He. apply make_bs_all in Ek. rewrite q_edges_eq in Hk. apply in_app_iff in Hk. destruct Hk as [Hk|Hk].
  - apply in_map_iff in Hk. destruct Hk as (b & Eb & Hb). injection Eb as -> <-. exists e. split; [assumption|].
    clear - Ek Hb. induction Ek as [|k b' kl ks (cc & cc1 & Eb) Ek IHk]; [contradiction|]. destruct Hb as [->|Hb].
    + left. symmetry. eapply make_b_ex; eauto.
    + right. auto.
  - apply in_flat_map in Hk. destruct Hk as (b & Hb & Hk).
    assert (Eb : exists k c c1, make_b fuel o n c k = Val (b, c1)).
    { clear - Ek Hb. induction Ek as [|k b' kl ks (cc & cc1 & Eb) Ek IHk]; [contradiction|]. destruct Hb as [->|Hb]; eauto. }
    destruct Eb as (k0 & cc & cc1 & Eb). destruct (make_b_case _ _ _ _ _ _ _ Eb) as (ke & _ & H).
    destruct (x_state ke); [destruct H as [-> _]|destruct H as [-> _]|destruct H as (l & _ & -> & _)|destruct H as (j & q & _ & Eq & ->)|destruct H as [-> _]];
      cbn [b_edges] in Hk; try contradiction. eapply IH; eauto.
Qed.
(** what [bind_node] shows at a node below a goal *)
Definition binds_at (nm : rnode) (k : nat) (bs : option (list (string * string) * nat)) : Prop :=
  exists ke, nth_error (o_arena o) k = Some ke /\
    if (has_failed ke || is_running ke)%bool then bs = None else exists l, bind_node fuel o nm ke = Val l /\ bs = Some l.
Lemma make_q_plain n : forall id cnt t c, make_q fuel n o id cnt = Val (t, c) -> q_binds t = [].
Proof.
  induction n as [|n IH]; intros id cnt t c E; [discriminate|]. rewrite make_q_eq in E.
  apply bind_val in E. destruct E as (e & He & E). apply bind_val in E. destruct E as ([ks c1] & Ek & E). injection E as <- <-.
  apply make_bs_all in Ek. rewrite q_binds_eq. cbn [app]. induction Ek as [|k b kl ks (cc & cc1 & Eb) Ek IHk]; [reflexivity|].
  cbn [flat_map]. rewrite IHk, app_nil_r. destruct (make_b_case _ _ _ _ _ _ _ Eb) as (ke & _ & Hb).
  destruct (x_state ke); [destruct Hb as [-> _]|destruct Hb as [-> _]|destruct Hb as (l & _ & -> & _)|destruct Hb as (j & q & _ & Eq & ->)|destruct Hb as [-> _]];
    try reflexivity. cbn [b_binds]. eapply IH; eauto.
Qed.
Lemma make_q_strip n : forall id cnt t c, make_q fuel n o id cnt = Val (t, c) -> strip t = t.
Proof.
  induction n as [|n IH]; intros id cnt t c E; [discriminate|]. rewrite make_q_eq in E.
  apply bind_val in E. destruct E as (e & He & E). apply bind_val in E. destruct E as ([ks c1] & Ek & E). injection E as <- <-.
  apply make_bs_all in Ek. rewrite strip_eq. f_equal. induction Ek as [|k b kl ks (cc & cc1 & Eb) Ek IHk]; [reflexivity|].
  cbn [map]. rewrite IHk. f_equal. destruct (make_b_case _ _ _ _ _ _ _ Eb) as (ke & _ & Hb).
  destruct (x_state ke); [destruct Hb as [-> _]|destruct Hb as [-> _]|destruct Hb as (l & _ & -> & _)|destruct Hb as (j & q & _ & Eq & ->)|destruct Hb as [-> _]];
    try reflexivity. cbn [strip_b]. now rewrite (IH _ _ _ _ Eq).
Qed.

Definition bind_src (ex : nat) (nm : rnode) (k : nat) (bs : option (list (string * string) * nat)) (labels : list (nat * rnode * string)) (edges : list (nat * nat)) : Prop :=
  exists e str, nth_error (o_arena o) ex = Some e /\ In (ex, nm, str) labels /\ In (ex, k) edges /\
    ((has_failed e || is_running e)%bool = false -> binds_at nm k bs).
Lemma bind_src_incl ex nm k bs l l' d d' : incl l l' -> incl d d' -> bind_src ex nm k bs l d -> bind_src ex nm k bs l' d'.
Proof. intros I J (e & str & A & B & C & E). exists e, str. csplit; auto. Qed.
Lemma strip_binds : forall t, strip t = t -> q_binds t = [].
Proof.
  apply (qnode_ind2 (fun t => strip t = t -> q_binds t = []) (fun b => strip_b b = b -> b_binds b = [])); auto.
  - intros ex id nm ks H E. rewrite strip_eq in E. injection E as <- E. rewrite q_binds_eq. cbn [app].
    induction H as [|b ks Hb H IH]; [reflexivity|]. cbn [map] in E. injection E as E1 E2. cbn [flat_map]. now rewrite Hb, IH.
  - intros ex id bs q H E. cbn [strip_b] in E. injection E as _ E. cbn [b_binds]. auto.
Qed.
Lemma resolve_binds ex nm k bs : forall t t', strip t = t -> resolve_q fuel o t = Val t' -> In (ex, (nm, k, bs)) (q_binds t') ->
  bind_src ex nm k bs (q_labels t') (q_edges t').
Proof.
  apply (qnode_ind2 (fun t => forall t', strip t = t -> resolve_q fuel o t = Val t' -> In (ex, (nm, k, bs)) (q_binds t') ->
                        bind_src ex nm k bs (q_labels t') (q_edges t'))
                    (fun b => forall n b', strip_b b = b -> resolve_b fuel o n b = Val b' ->
                        (In (ex, (nm, k, bs)) (b_binds b') -> bind_src ex nm k bs (b_labels b') (b_edges b')) /\
                        match b' with BNode k' _ bs' _ => binds_at n k' bs' end)).
  - intros x id m ks H t' Es E K. rewrite strip_eq in Es. injection Es as _ Es. rewrite resolve_q_eq in E. apply bind_val in E. destruct E as (e & He & E). apply of_opt_val in He.
    apply bind_val in E. destruct E as (n & En & E). apply bind_val in E. destruct E as (s & Ess & E).
    destruct (has_failed e || is_running e)%bool eqn:Ef.
    + injection E as <-. rewrite q_binds_eq in K. apply in_app_iff in K. destruct K as [K|K].
      * apply in_map_iff in K. destruct K as (b & Eb & Hb). destruct b as [k0 i0 b0 c0]. cbn [bshown] in Eb. injection Eb as <- <- <- <-.
        exists e, s. csplit; auto.
        -- rewrite q_labels_eq. now left.
        -- rewrite q_edges_eq. apply in_app_iff. left. apply in_map_iff. eexists. split; [|exact Hb]. reflexivity.
        -- congruence.
      * exfalso. clear - K Es. induction ks as [|b ks IH]; [contradiction|]. cbn [map] in Es. injection Es as E1 E2. cbn [flat_map] in K.
        apply in_app_iff in K. destruct K as [K|K]; auto. destruct b as [k0 i0 b0 [|f|q]]; try contradiction. cbn [strip_b] in E1. injection E1 as _ E1.
        cbn [b_binds] in K. rewrite strip_binds in K by assumption. contradiction.
    + apply bind_val in E. destruct E as (ks' & Ek & E). injection E as <-. apply omap_val in Ek. rewrite q_binds_eq in K. apply in_app_iff in K.
      assert (B : exists b b', In b ks /\ In b' ks' /\ resolve_b fuel o n b = Val b' /\ strip_b b = b /\
        ((ex, (nm, k, bs)) = (x, bshown n b') \/ In (ex, (nm, k, bs)) (b_binds b'))).
      { destruct K as [K|K].
        - apply in_map_iff in K. destruct K as (b' & Eb & Hb). symmetry in Eb.
          clear - Ek Hb Es Eb. induction Ek as [|b c ks ks' Ec Ek IH]; [contradiction|]. cbn [map] in Es. injection Es as E1 E2. destruct Hb as [->|Hb].
          + exists b, b'. csplit; auto; now left.
          + destruct (IH E2 Hb) as (b0 & b0' & A & B & C & D & E). exists b0, b0'. csplit; auto; now right.
        - apply in_flat_map in K. destruct K as (b' & Hb & K).
          clear - Ek Hb Es K. induction Ek as [|b c ks ks' Ec Ek IH]; [contradiction|]. cbn [map] in Es. injection Es as E1 E2. destruct Hb as [->|Hb].
          + exists b, b'. csplit; auto; now left.
          + destruct (IH E2 Hb) as (b0 & b0' & A & B & C & D & E). exists b0, b0'. csplit; auto; now right. }
      destruct B as (b & b' & Ib & Ib' & Eb & Esb & Hb). rewrite Forall_forall in H. destruct (H b Ib n b' Esb Eb) as [H1 H2].
      destruct Hb as [Hb|Hb].
      * destruct b' as [k0 i0 b0 c0]. cbn [bshown] in Hb. injection Hb as -> -> -> ->. exists e, s. csplit; auto.
        -- rewrite q_labels_eq. now left.
        -- rewrite q_edges_eq. apply in_app_iff. left. apply in_map_iff. eexists. split; [|exact Ib']. reflexivity.
      * apply (bind_src_incl _ _ _ _ (b_labels b') _ (b_edges b')); auto.
        -- intros z Hz. rewrite q_labels_eq. apply in_app_iff. right. apply in_flat_map. eauto.
        -- intros z Hz. rewrite q_edges_eq. apply in_app_iff. right. apply in_flat_map. eauto.
  - intros x id b0 n b' Es E. cbn [strip_b] in Es. injection Es as <-. cbn [resolve_b] in E. apply bind_val in E. destruct E as (e & He & E). apply of_opt_val in He.
    destruct (has_failed e || is_running e)%bool eqn:Ef; [|apply bind_val in E; destruct E as (l & _ & E); discriminate].
    injection E as <-. split; [intros []|]. exists e. split; [assumption|]. now rewrite Ef.
  - intros x id b0 f n b' Es E. cbn [strip_b] in Es. injection Es as <-. cbn [resolve_b] in E. apply bind_val in E. destruct E as (e & He & E). apply of_opt_val in He.
    destruct (has_failed e || is_running e)%bool eqn:Ef.
    + injection E as <-. split; [intros []|]. exists e. split; [assumption|]. now rewrite Ef.
    + apply bind_val in E. destruct E as (l & El & E). injection E as <-. split; [intros []|]. exists e. split; [assumption|]. rewrite Ef. eauto.
  - intros x id b0 q IH n b' Es E. cbn [strip_b] in Es. injection Es as <- Es. cbn [resolve_b] in E. apply bind_val in E. destruct E as (e & He & E). apply of_opt_val in He.
    destruct (has_failed e || is_running e)%bool eqn:Ef.
    + injection E as <-. split; [|exists e; split; [assumption|]; now rewrite Ef]. cbn [b_binds]. rewrite strip_binds by assumption. intros [].
    + apply bind_val in E. destruct E as (l & El & E). apply bind_val in E. destruct E as (q' & Eq & E). injection E as <-. split.
      * intros K. cbn [b_binds] in K. exact (IH q' Es Eq K).
      * exists e. split; [assumption|]. rewrite Ef. eauto.
Qed.
End Edges.

Lemma bindings_rd fuel o e h : hrel (heap_at (o_arena o) (x_parent e)) (m_heap (x_m e)) h -> wfh (o_sto o) 0 h ->
  forall l b, bindings fuel o e l = Val b -> map fst b = l /\ forall v x, In (v, x) b -> rd (o_sto o) h (snd v) (rterm x).
Proof.
  intros H W. induction l as [|v0 l IH]; intros b E; cbn [bindings] in E; [injection E as <-; split; [reflexivity|intros v x []]|].
  apply bind_val in E. destruct E as (n & En & E). apply bind_val in E. destruct E as (r & Er & E). injection E as <-.
  destruct (IH r Er) as [I1 I2]. cbn [map fst]. rewrite I1. split; [reflexivity|]. intros v x [K|K]; [|auto]. injection K as <- <-.
  unfold exec_rep in En. rewrite (node_rep_sim _ _ _ _ H) in En. eapply node_rep_rd; eauto.
Qed.
Lemma Forall2_of_nth {A B} (Rl : A -> B -> Prop) : forall l1 l2, List.length l1 = List.length l2 ->
  (forall i x y, nth_error l1 i = Some x -> nth_error l2 i = Some y -> Rl x y) -> Forall2 Rl l1 l2.
Proof.
  induction l1 as [|x l1 IH]; intros [|y l2] L H; try discriminate L; constructor.
  - now apply (H 0).
  - apply IH; [now injection L|]. intros i. exact (H (S i)).
Qed.
Lemma in_fst {A B} (l : list (A * B)) v : In v (map fst l) -> exists x, In (v, x) l.
Proof. intros H. apply in_map_iff in H. destruct H as ([v' x] & E & H). cbn in E. subst. eauto. Qed.

(** what is shown where a goal (label [nm]) met the head [hd]: [qb] binds the variables of the goal, [fb] those of the head,
    which are at the places [w] *)
Record unifier_shown (nm : rnode) (hd : node) (w : string -> nat) (qb fb : list ((string * nat) * rnode)) : Prop := {
  us_name : rname nm = fv_name (to_fview hd);
  us_q : forall v x, In (v, x) qb -> In v (rvars nm) /\ x <> RVar (fst v) (snd v);
  us_f : forall v x, In (v, x) fb -> In (fst v) (nvars hd) /\ x <> RVar (fst v) (snd v);
  us_unifies : Forall2 (fun x y => alike (rsub qb x) (hsub w fb y)) (rkids nm) (kids hd);
  us_general : special (to_fview hd) = None -> forall g v, Forall2 (fun x y => ginst g (rterm x) = inst v y) (rkids nm) (kids hd) ->
    exists g', (forall s a, In (s, a) (rvars nm) -> g a = ginst g' (rsub qb (RVar s a))) /\
               (forall s, In s (nvars hd) -> v s = ginst g' (hsub w fb (NVar s)))
}.

Section Session.
Variable cf : cfg.
Hypothesis OK : ord_ok cf.
Theorem tree_binds rl o P q D fuel t ex nm k bs : tree_at cf rl o q D -> prog_code cf (o_sto o) P (o_prog o) -> sto_ok (o_sto o) ->
  Forall clause_wf P -> q <> [] /\ Forall atom_ok q -> no_clash cf P -> labelled cf P ->
  (forall pi p h, at_path cf (o_sto o) (o_prog o) (init_proc rl) pi p -> ends_with cf (o_sto o) p h -> finite_terms (o_sto o) h) ->
  make_tree fuel o = Val t -> In (ex, (nm, k, bs)) (q_binds t) ->
  exists ke, nth_error (o_arena o) k = Some ke /\
    match bs with
    | None => (has_failed ke || is_running ke)%bool = true
    | Some (l, c) => (has_failed ke || is_running ke)%bool = false /\
        exists hd w qb fb, works_on o ke hd /\ strs (qb ++ fb) = Val l /\ c = List.length qb /\ unifier_shown nm hd w qb fb
    end.
Proof.
  intros TA0 PC ok PW Hq NC LB NY E Hin. pose proof TA0 as (ps & lv & G & M & Q & R & T & _).
  pose proof E as E'. unfold make_tree in E'. apply bind_val in E'. destruct E' as ([t0 c0] & E0 & E1).
  destruct (resolve_binds fuel o ex nm k bs t0 t (make_q_strip _ _ _ _ _ _ _ E0) E1 Hin) as (e & str & He & Hlab & Hed & Hb).
  rewrite <- strip_edges, (resolve_strip _ _ _ _ E1), strip_edges in Hed.
  destruct (make_q_edges _ _ _ _ _ _ _ E0 _ _ Hed) as (e0 & He0 & Hk). rewrite He in He0. injection He0 as <-.
  assert (Lv : lv ex = true).
  { destruct (labels_pre _ _ _ _ Hlab) as (i & Hi). rewrite <- strip_pre, (resolve_strip _ _ _ _ E1), strip_pre in Hi.
    assert (L0 : lv 0 = true).
    { destruct (nth_error (o_arena o) 0) as [e0|] eqn:He0.
      - destruct (tn_up _ _ _ _ _ _ _ _ (ti_node _ _ _ _ _ _ _ _ T 0 e0 He0)) as [(_ & _ & K)|(pid & pe & U1 & U2 & _)]; [assumption|].
        pose proof (rf_parents _ _ _ R _ _ _ He0 U1). lia.
      - apply nth_error_None in He0. destruct (o_arena o) eqn:Ea; [|cbn in He0; lia]. now elim (ti_root _ _ _ _ _ _ _ _ T). }
    destruct (su_node _ _ _ _ _ _ (make_q_sub cf fuel o rl ps lv G M D R T _ _ _ _ _ E0 L0) _ _ _ Hi) as (K & _). exact K. }
  assert (Hst : x_state e <> SRunning /\ (has_failed e || is_running e)%bool = false).
  { destruct (tn_run _ _ _ _ _ _ _ _ (ti_node _ _ _ _ _ _ _ _ T ex e He)) as [(_ & K & _)|[Hs (c & a & rest & st & fu & _ & _ & _ & _ & _ & Oc)]].
    - rewrite K in Hk. contradiction.
    - destruct Oc as [K1 K2 K3 K4|er K1 K2 K3 K4|f K1 K2 K3 K4 K5 K6|f rs K1 K2 K3 K4 K5 K6|pid b fu' K1 K2 K3 K4 K5 K6 K7 K8 K9 K10|k' K1 K2 K3 K4 K5 K6 K7];
        try congruence; try (rewrite ?K4, ?K6 in Hk; contradiction). split; [assumption|]. unfold has_failed, is_running. now rewrite K5. }
  destruct Hst as [Hst Hnf]. destruct (Hb Hnf) as (ke & Hke & Hbs). clear Hb. exists ke. split; [assumption|].
  destruct (has_failed ke || is_running ke)%bool eqn:Ek; [subst bs; reflexivity|].
  destruct Hbs as ([l c] & El & ->). split; [reflexivity|]. apply orb_false_iff in Ek. destruct Ek as [Ek1 Ek2].
  destruct (match_node cf OK o P q rl ps lv G M D Q T PC ok PW Hq NC LB ex e k ke He Lv Hst Hk Hke Ek1 Ek2)
    as (a & n & TA' & V & l' & ak & TA & Cd & Mc & Ef).
  assert (F : finite_terms (o_sto o) (m_heap (M ex))).
  { destruct (ti_path _ _ _ _ _ _ _ _ T ex e He) as (pi & Hp). exact (NY _ _ _ Hp (cd_ends _ _ _ _ _ _ _ _ _ _ _ Cd)). }
  assert (F' : finite_terms (o_sto o) (m_heap (M k))).
  { destruct (ti_path _ _ _ _ _ _ _ _ T k ke Hke) as (pi & Hp). exact (NY _ _ _ Hp (mc_ends _ _ _ _ _ _ _ _ _ Mc)). }
  destruct (tree_labels cf OK rl o P q D fuel t ex nm str e TA0 PC ok PW Hq NC LB E Hlab He Hst) as (_ & _ & h & _ & _ & Hh & Lb).
  rewrite (hrel_fun _ _ _ _ Hh (cd_heap _ _ _ _ _ _ _ _ _ _ _ Cd)) in Lb. specialize (Lb F). clear h Hh.
  destruct Lb as (a0 & f & B1 & B2 & _ & B3 & B4 & B5).
  rewrite (cd_solved _ _ _ _ _ _ _ _ _ _ _ Cd) in B1. injection B1 as <-. rewrite (cd_last _ _ _ _ _ _ _ _ _ _ _ Cd) in B2. injection B2 as <-.
  (* what bind_node did *)
  unfold bind_node in El. rewrite (mc_solved _ _ _ _ _ _ _ _ _ Mc) in El. cbn [bind] in El.
  destruct (mc_head _ _ _ _ _ _ _ _ _ Mc) as (Vk & lk & K1 & K2 & K3 & K4 & K5).
  rewrite (mc_subs _ _ _ _ _ _ _ _ _ Mc lk K1) in El. cbn [bind] in El.
  apply bind_val in El. destruct El as (qb0 & Eq & El). apply bind_val in El. destruct El as (fb0 & Efb & El).
  apply bind_val in El. destruct El as (l0 & El0 & El). injection El as <- <-.
  pose proof (mc_wf _ _ _ _ _ _ _ _ _ Mc) as Wk.
  destruct (bindings_rd _ _ _ _ (mc_heap _ _ _ _ _ _ _ _ _ Mc) Wk _ _ Eq) as [Q1 Q2].
  destruct (bindings_rd _ _ _ _ (mc_heap _ _ _ _ _ _ _ _ _ Mc) Wk _ _ Efb) as [F1 F2].
  set (hd := ca_node ak) in *. pose proof (mc_ok _ _ _ _ _ _ _ _ _ Mc) as Ah. change (atom_ok hd) in Ah.
  exists hd, (place lk), (cut qb0), (cut fb0). csplit; auto.
  { exists ak. split; [exact (mc_solved _ _ _ _ _ _ _ _ _ Mc)|reflexivity]. }
  assert (Rk : rvars nm = flat_map rvars (rkids nm)).
  { pose proof (cd_ok _ _ _ _ _ _ _ _ _ _ _ Cd). destruct nm as [s0 x0|s0|s0|s0 l0'|s0 l0']; try reflexivity. exfalso.
    assert (Z : query_name fuel o e = Val (RVar s0 x0)).
    { destruct (resolve_labels _ _ _ _ _ _ _ E1 Hlab) as [Z|(e0 & He0 & Z & _)]; [now rewrite (make_q_labels _ _ _ _ _ _ _ E0) in Z|]. congruence. }
    unfold query_name in Z. replace (is_running e) with false in Z by (unfold is_running; destruct (x_state e); congruence).
    rewrite (cd_solved _ _ _ _ _ _ _ _ _ _ _ Cd) in Z. cbn [bind] in Z. apply bind_val in Z. destruct Z as (? & _ & Z). apply bind_val in Z. destruct Z as (? & _ & Z).
    rewrite (cd_node _ _ _ _ _ _ _ _ _ _ _ Cd) in Z. destruct n; try contradiction; [discriminate|]. rewrite replace_fun in Z. apply bind_val in Z. destruct Z as (? & _ & Z). discriminate. }
  assert (Nk : nvars hd = flat_map nvars (kids hd)) by (destruct hd; try contradiction; reflexivity).
  assert (Vn : forall s, In s (map fst lk) <-> In s (nvars hd)) by (intros s; rewrite K3; now apply vars_of_nvars).
  assert (QV : forall v, In v (flat_map rvars (rkids nm)) <-> exists x, In (v, x) qb0).
  { intros v. rewrite <- name_vars_in, <- Q1. split; [apply in_fst|]. intros (x & Hx). exact (in_map fst _ _ Hx). }
  assert (FV' : forall v, In v lk -> exists x, In (v, x) fb0) by (intros v Hv; apply in_fst; now rewrite F1).
  assert (FF : forall v x, In (v, x) fb0 -> In v lk /\ rd (o_sto o) (m_heap (M k)) (snd v) (rterm x)).
  { intros v x Hx. split; [rewrite <- F1; exact (in_map fst _ _ Hx)|auto]. }
  assert (Len : List.length (rkids nm) = List.length (kids hd)).
  { rewrite B4, <- Ef. destruct hd; try contradiction; reflexivity. }
  assert (Cases : (rkids nm = [] /\ kids hd = []) \/ (targs hd = kids hd /\
    Forall2 (fun b x => b < List.length (m_heap (M ex)) /\ rd (o_sto o) (m_heap (M ex)) b (rterm x)) TA (rkids nm))).
  { destruct (is_constant hd) eqn:Ec.
    - left. destruct hd; try discriminate Ec. cbn [kids List.length] in Len. destruct (rkids nm); [auto|discriminate Len].
    - right. assert (Et : targs hd = kids hd) by (unfold targs; now rewrite Ec). split; [assumption|].
      pose proof (mc_len _ _ _ _ _ _ _ _ _ Mc) as Lt. change (List.length TA = List.length (targs hd)) in Lt. rewrite Et, <- Len in Lt.
      pose proof (mc_args _ _ _ _ _ _ _ _ _ Mc) as Ar. unfold argreg in Ar. rewrite (cd_regs _ _ _ _ _ _ _ _ _ _ _ Cd) in B5.
      apply Forall2_of_nth; [exact Lt|]. intros i b x Hb Hx. destruct (Ar i b Hb) as (c1 & C1 & C2 & C3).
      destruct (B5 i x Hx) as (c2 & b2 & D1 & D2 & D3). rewrite C1 in D1. injection D1 as <-. apply addr_of_get in C2. rewrite C2 in D2. injection D2 as <-. auto. }
  split.
  - rewrite Ef. exact B3.
  - intros v x Hx. apply cut_in in Hx. destruct Hx as [Hx Hi]. split.
    + rewrite Rk. apply QV. eauto.
    + intros ->. unfold itself in Hi. cbn in Hi. destruct v as [s0 x0]. cbn in Hi. assert (same_var (s0, x0) (s0, x0) = true) by now apply same_var_eq. congruence.
  - intros v x Hx. apply cut_in in Hx. destruct Hx as [Hx Hi]. split.
    + apply Vn. destruct (FF _ _ Hx) as [K _]. exact (in_map fst _ _ K).
    + intros ->. unfold itself in Hi. cbn in Hi. destruct v as [s0 x0]. cbn in Hi. assert (same_var (s0, x0) (s0, x0) = true) by now apply same_var_eq. congruence.
  - destruct Cases as [[-> ->]|[Et HA]]; [constructor|]. rewrite Et in K4.
    eapply (shown_unifies (o_sto o) (m_heap (M ex)) (m_heap (M k))) with (TA := TA) (V := Vk); eauto.
    + exact (mc_le _ _ _ _ _ _ _ _ _ Mc).
    + intros s Hs. apply Vn. now rewrite Nk.
    + intros v Hv. now apply QV.
  - intros Sp g v U. rewrite Rk, Nk. destruct Cases as [[-> ->]|[Et HA]]; [exists g; split; intros; contradiction|]. rewrite Et in K4, K5.
    eapply (shown_general (o_sto o) (m_heap (M ex)) (m_heap (M k))) with (TA := TA) (l := lk); eauto.
    + exact (cd_wf _ _ _ _ _ _ _ _ _ _ _ Cd).
    + intros s Hs. apply Vn. now rewrite Nk.
    + intros v' Hv. now apply QV.
Qed.
(** where a goal met a clause the bindings shown are a most general unifier of the label and the head *)
Theorem run_binds o P q rs o' fuel t ex nm k bs : session cf o P (QFresh q) -> run cf o rs o' -> small_tables (o_sto o) ->
  no_clash cf P -> labelled cf P -> no_cycles cf o -> make_tree fuel o' = Val t -> In (ex, (nm, k, bs)) (q_binds t) ->
  exists ke, nth_error (o_arena o') k = Some ke /\
    match bs with
    | None => (has_failed ke || is_running ke)%bool = true
    | Some (l, c) => (has_failed ke || is_running ke)%bool = false /\
        exists hd w qb fb, works_on o' ke hd /\ strs (qb ++ fb) = Val l /\ c = List.length qb /\ unifier_shown nm hd w qb fb
    end.
Proof.
  intros HS HR SM NC LB NY E Hin. destruct (run_at _ _ _ _ _ _ HS HR) as (rl & D & HD & RT & _).
  destruct (run_search _ _ _ _ _ _ HS HR) as (? & ? & ? & ? & ? & _ & _ & _ & _ & _ & _ & Es & Ep & _).
  destruct (session_inv _ _ _ _ HS) as [A _]. destruct (session_parsed _ _ _ _ HS) as [[PW _] Hq].
  assert (ok : sto_ok (o_sto o)) by (destruct SM; split; auto; eapply session_nodup; eauto).
  assert (PC : prog_code cf (o_sto o) P (o_prog o)) by apply A. rewrite <- Es in PC, ok. rewrite <- Ep in PC.
  apply (tree_binds rl o' P q D fuel t ex nm k bs HD PC ok PW Hq NC LB); auto.
  intros pi p h Hp Hw. rewrite Es, Ep in *. exact (NY _ _ _ _ RT Hp Hw).
Qed.
End Session.

(** --- a case --- *)
Definition shown_at (t : qnode) : list (nat * nat * option (list (string * string) * nat)) :=
  map (fun x => (fst x, snd (fst (snd x)), snd (snd x))) (q_binds t).
Definition shown_dec (a b : nat * nat * option (list (string * string) * nat)) : {a = b} + {a <> b}.
Proof. repeat decide equality. Defined.
Lemma binds_case : exists o P q o' rs t, session cfg0 o P (QFresh q) /\ run cfg0 o rs o' /\ small_tables (o_sto o) /\
  no_clash cfg0 P /\ labelled cfg0 P /\ no_cycles cfg0 o /\ make_tree 100 o' = Val t /\
  parse_program "p(f(X),Y,Y) :- q(X), r(Y). q(g(Z)). q(h). r(f(h))." = Some (COk P) /\ parse_query (append_dot "p(A,A,B)") = Some (COk q) /\
  texts t = [(0, "p(A, A, B)"); (2, "q(X)"); (5, "r(f(g(Z)))"); (6, "r(f(h))")] /\
  shown_at t = [(0, 1, Some ([("A", "f(X)"); ("B", "f(X)"); ("Y", "f(X)")], 2)); (2, 3, Some ([("X", "g(Z)")], 1));
                (2, 4, Some ([("X", "h")], 1)); (5, 7, None); (6, 8, Some ([], 0))].
Proof.
  destruct (tree_witness "p(f(X),Y,Y) :- q(X), r(Y). q(g(Z)). q(h). r(f(h))." "p(A,A,B)" [w0] (fun o o' P q rs =>
    small_b (o_sto o) && noclash_b cfg0 P && forallb (clause_labels cfg0) P && tree_ok cfg0 (o_sto o) (o_prog o) 1000 1000 (root_proc o) &&
    match make_tree 100 o' with
    | Val t => texts_eqb (texts t) [(0, "p(A, A, B)"); (2, "q(X)"); (5, "r(f(g(Z)))"); (6, "r(f(h))")] &&
        if list_eq_dec shown_dec (shown_at t) [(0, 1, Some ([("A", "f(X)"); ("B", "f(X)"); ("Y", "f(X)")], 2)); (2, 3, Some ([("X", "g(Z)")], 1));
                (2, 4, Some ([("X", "h")], 1)); (5, 7, None); (6, 8, Some ([], 0))] then true else false
    | _ => false end))
    as (o & o' & P & q & rs & H1 & H2 & H3 & H4 & H5); [vm_compute; reflexivity|].
  rewrite !andb_true_iff in H5. destruct H5 as [[[[K1 K2] K3] K4] K6].
  destruct (make_tree 100 o') as [t| |] eqn:Et; try discriminate K6. rewrite forallb_forall in K3.
  apply andb_true_iff in K6. destruct K6 as [K6 K7]. destruct (list_eq_dec shown_dec _ _) as [K8|]; [|discriminate K7].
  exists o, P, q, o', rs, t. csplit; auto using small_b_ok, noclash_b_ok, texts_eqb_ok.
  exact (proj1 (Finite.session_tree _ _ _ _ K4)).
Qed.
(** a goal shown as matched although its label does not unify with the head *)
Lemma wrong_binds : exists o P q o' rs t nm l ke hd, session cfg0 o P (QFresh q) /\ run cfg0 o rs o' /\
  parse_program "p(X) :- q(X,a). q(b,Y)." = Some (COk P) /\ parse_query (append_dot "p(Y)") = Some (COk q) /\
  make_tree 100 o' = Val t /\ In (2, (nm, 3, Some (l, 0))) (q_binds t) /\ nth_error (o_arena o') 3 = Some ke /\ works_on o' ke hd /\
  forall g v, ~ Forall2 (fun x y => ginst g (rterm x) = inst v y) (rkids nm) (kids hd).
Proof.
  destruct (tree_witness "p(X) :- q(X,a). q(b,Y)." "p(Y)" [w0] (fun o o' P q rs =>
    match make_tree 100 o', nth_error (o_arena o') 3 with
    | Val t, Some ke => match nth_error (q_binds t) 1, solved o' ke with
                        | Some (2, (RFun _ [RCon s; _], 3, Some (_, 0))), Val a =>
                            match ca_node a with NFun _ [NCon s'; _] => negb (String.eqb s s') | _ => false end
                        | _, _ => false
                        end
    | _, _ => false
    end)) as (o & o' & P & q & rs & H1 & H2 & H3 & H4 & H5); [vm_compute; reflexivity|].
  destruct (make_tree 100 o') as [t| |] eqn:Et; try discriminate H5. destruct (nth_error (o_arena o') 3) as [ke|] eqn:Ek; try discriminate H5.
  destruct (nth_error (q_binds t) 1) as [[ex [[nm k] bs]]|] eqn:Eb; try discriminate H5.
  destruct ex as [|[|[|]]]; try discriminate H5.
  destruct k as [|[|[|[|]]]], bs as [[l [|]]|], nm as [| | |f [|[|s| | |] [|x [|]]]|]; try discriminate H5.
  destruct (solved o' ke) as [a| |] eqn:Es; try discriminate H5. destruct (ca_node a) as [| | |f' [|[|s'| | |] [|y [|]]]|] eqn:Ea; try discriminate H5.
  exists o, P, q, o', rs, t, (RFun f [RCon s; x]), l, ke, (NFun f' [NCon s'; y]). csplit; auto.
  - exact (nth_error_In _ _ Eb).
  - exists a. auto.
  - intros g v K. cbn in K. inversion K as [|? ? ? ? K1]; subst. cbn in K1. injection K1 as ->. rewrite String.eqb_refl in H5. discriminate H5.
Qed.
