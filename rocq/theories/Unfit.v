(** Where the unification tree says that a clause does not fit the goal, it does not. *)
From Verif Require Import Base Machine Heap Facts HeapSim Compiler Parser Print Organizer Spec Valuation Process Refine Mono Turn Shape Session
  Code Put Search PutRun Get Alloc Atoms Clause Stack Ready Heads Loads Faithful Builtins Sols Solve Terms Shown Parsed Tables Root Order Runs Answers
  Clash Examples Witness Finite Arith Tree TreeTurn TreeInv TreeRun TreeSrc TreeFacts TreeShape TreeAll TreeCase Labels Bound.
Open Scope string_scope.
Open Scope list_scope.

(** --- the three predicates that compute --- *)
Section Special.
Variable cf : cfg.
Hypothesis OK : ord_ok cf.
Variable sto : storage.
Hypothesis ok : sto_ok sto.
Notation hp m := (m_heap (H := list cell) m).
Notation len := (@List.length cell).
Notation pw := (pow_of cf).

Lemma special_fails fuel nm i a m a1 a2 t u st m' : special (FV nm 2) = Some i -> ca_code a = [IGetVar 2 0; IGetVar 3 1; i 2 3; IProceed] ->
  ca_regs a = 4 -> wfh sto 0 (hp m) -> argreg m [a1; a2] -> rd sto (hp m) a1 t -> rd sto (hp m) a2 u ->
  run_local cf sto fuel (removelast (ca_code a)) (enter a m) = Val (st, m') ->
  match st with
  | Cont => True
  | Failing => (nm = "==" /\ ident t u = false) \/ (nm = "\==" /\ ident t u = true) \/
      (nm = "is" /\ exists n, forall rho, sat sto rho (hp m) -> aeval pw (rho a2) = Some n /\ rho a1 <> GInt n)
  | Raise e => nm = "is" /\ ((forall x, e <> EUnbound x) -> forall rho, sat sto rho (hp m) -> aeval pw (rho a2) = None)
  end.
Proof.
  intros Hf Ecode Er W AR R1 R2. rewrite Ecode. unfold enter. rewrite Er. cbn [removelast]. set (m0 := set_regs m (resize (m_regs m) 4)).
  destruct (AR 0 a1 eq_refl) as (c1 & E1 & A1 & L1). destruct (AR 1 a2 eq_refl) as (c2 & E2 & A2 & L2).
  apply (resize_nth _ 4) in E1, E2; try lia. change (resize (m_regs m) 4) with (m_regs m0) in E1, E2.
  assert (Lm : List.length (m_regs m0) = 4) by apply resize_length.
  destruct (upd_some (m_regs m0) 2 c1) as (l1 & U1); [lia|]. pose proof (upd_length _ _ _ _ U1) as Ll1.
  destruct (upd_some l1 3 c2) as (l2 & U2); [lia|].
  cbn [run_local]. unfold fstep. cbn [local_step].
  rewrite (rreg_get _ _ _ E1). cbn [bind]. unfold wreg at 1. rewrite U1. cbn [of_opt bind].
  assert (E2' : nth_error l1 1 = Some c2) by (rewrite (upd_nth _ _ _ _ _ U1); exact E2).
  rewrite (rreg_get (set_regs m0 l1) 1 c2 E2'). cbn [bind]. unfold wreg at 1. cbn [m_regs set_regs]. rewrite U2. cbn [of_opt bind].
  set (m2 := set_regs (set_regs m0 l1) l2).
  assert (G2 : rreg (list cell) m2 2 = Val c1).
  { apply rreg_get. change (nth_error l2 2 = Some c1). rewrite (upd_nth _ _ _ _ _ U2). cbn [Nat.eqb]. exact (upd_two _ _ _ _ U1). }
  assert (G3 : rreg (list cell) m2 3 = Val c2) by (apply rreg_get; exact (upd_two _ _ _ _ U2)).
  apply addr_of_get in A1, A2.
  assert (H2 : hp m2 = hp m) by reflexivity.
  assert (EQ : forall b, heap_reg_equals (list cell) fops fuel (hp m) a1 a2 = Val b -> ident t u = b).
  { intros b Eb. destruct (equals_spec sto (so_nodup _ ok) (hp m) W a1 t R1 a2 u R2) as (n0 & Hn).
    pose proof (heap_reg_equals_mono (list cell) fops fuel (Nat.max fuel n0) (hp m) a1 a2 ltac:(lia)) as K. unfold equals in Hn. rewrite (Hn (Nat.max fuel n0) ltac:(lia)) in K.
    rewrite Eb in K. destruct K as [K|K]; [discriminate K|congruence]. }
  destruct (special_eq _ _ Hf) as [[Ef ->]|[[Ef ->]|[Ef ->]]]; injection Ef as ->; cbn [local_step].
  - unfold is_pred. rewrite G3. cbn [bind]. rewrite A2. cbn [bind]. rewrite H2.
    destruct (eval_reg (list cell) fops cf sto fuel (hp m) a2) as [[n|e]| |] eqn:Ee; cbn [bind]; try discriminate.
    2:{ intros K. injection K as <- _. split; [reflexivity|]. intros NU rho Hs. exact (eval_error cf sto rho _ Hs W _ _ _ Ee NU). }
    rewrite G2. cbn [bind]. rewrite A1. cbn [bind].
    destruct (wfh_deref sto 0 _ a1 W L1) as (d & Ed & Ld & Nd & (kd & Dd)). rewrite Ed. cbn [bind].
    destruct (root_cases sto 0 _ d W Ld Nd) as (c & Ec & Hc). rewrite (proj2 (at_nth _ _ _) Ec). cbn [bind].
    assert (EV : forall rho, sat sto rho (hp m) -> aeval pw (rho a2) = Some n) by (intros rho Hs; eapply eval_sound; eauto).
    assert (DR : forall rho, sat sto rho (hp m) -> rho a1 = rho d) by (intros rho Hs; eapply sat_derefs; eauto).
    assert (NO : (forall rho, sat sto rho (hp m) -> rho a1 <> GInt n) -> ("is" = "==" /\ ident t u = false) \/ ("is" = "\==" /\ ident t u = true) \/
      ("is" = "is" /\ exists n, forall rho, sat sto rho (hp m) -> aeval pw (rho a2) = Some n /\ rho a1 <> GInt n)).
    { intros K. right. right. split; [reflexivity|]. exists n. auto. }
    destruct c as [j|z|b w|j z|j z|b]; try contradiction; cbn [bind].
    + intros K. injection K as <- _. apply NO. intros rho Hs. rewrite (DR rho Hs), (Hs d _ Ec). discriminate.
    + destruct (Z.eqb_spec z n) as [->|Nm]; intros K; injection K as <- _; [exact I|].
      apply NO. intros rho Hs. rewrite (DR rho Hs), (Hs d _ Ec). congruence.
    + subst b. unfold push, hsize. cbn [h_push h_size fops m_heap set_heap]. rewrite H2, app_length. cbn [List.length].
      rewrite Nat.add_sub.
      destruct (push_bind sto (hp m) d w (CInt n) 0 W Ec eq_refl I) as (h' & Eb & W' & Lh & Sh). rewrite Eb. cbn [bind].
      intros K. injection K as <- _. exact I.
    + intros K. injection K as <- _. apply NO. intros rho Hs. rewrite (DR rho Hs), (Hs d _ Ec). discriminate.
    + intros K. injection K as <- _. apply NO. intros rho Hs. rewrite (DR rho Hs), (Hs d _ Ec). discriminate.
  - unfold equals_check. rewrite G2. cbn [bind]. rewrite A1. cbn [bind]. rewrite G3. cbn [bind]. rewrite A2. cbn [bind]. rewrite H2.
    destruct (heap_reg_equals (list cell) fops fuel (hp m) a1 a2) as [[|]|x|] eqn:Ee; cbn [bind]; intros K; try discriminate K; injection K as <- _; [exact I|].
    left. auto.
  - unfold not_equals_check, equals_check. rewrite G2. cbn [bind]. rewrite A1. cbn [bind]. rewrite G3. cbn [bind]. rewrite A2. cbn [bind]. rewrite H2.
    destruct (heap_reg_equals (list cell) fops fuel (hp m) a1 a2) as [[|]|x|] eqn:Ee; cbn [bind]; intros K; try discriminate K; injection K as <- _; [|exact I].
    right. left. auto.
Qed.
End Special.

(** --- a clause that was tried and given up --- *)
Lemma Forall2_in_r {A B} (R : A -> B -> Prop) l k : Forall2 R l k -> forall y, In y k -> exists x, In x l /\ R x y.
Proof.
  induction 1 as [|a b l k H F IH]; intros y Hy; [contradiction|]. destruct Hy as [<-|Hy]; [exists a; split; [now left|assumption]|].
  destruct (IH y Hy) as (x & A1 & A2). exists x. split; [now right|assumption].
Qed.

Section Nodes.
Variable cf : cfg.
Hypothesis OK : ord_ok cf.
Variables (o : org) (P : list (list node)) (q : list node) (rl : rule) (ps : list process) (lv : nat -> bool)
  (G : nat -> process) (M : nat -> mst (list cell)) (D : list (nat * list (string * string))).
Hypothesis Q : query_code cf (o_sto o) q rl.
Hypothesis T : tree_inv cf rl o ps lv G M D.
Hypothesis PC : prog_code cf (o_sto o) P (o_prog o).
Hypothesis ok : sto_ok (o_sto o).
Hypothesis PW : Forall clause_wf P.
Hypothesis Hq : q <> [] /\ Forall atom_ok q.
Hypothesis NC : no_clash cf P.
Hypothesis LB : labelled cf P.
Notation sto := (o_sto o).
Notation hp m := (m_heap (H := list cell) m).

(** the code of the head of a clause for [f] *)
Definition head_code (f : fview) (a : catom) : Prop :=
  match special f with
  | Some i => ca_code a = [IGetVar 2 0; IGetVar 3 1; i 2 3; IProceed] /\ ca_regs a = 4 /\ fv_arity f = 2
  | None => exists b body r, clause_code cf sto b (ca_node a :: body) (a :: r) /\ clause_wf (ca_node a :: body)
  end.

Record tried (ex k : nat) (ke : exec) (a : catom) (TA : list nat) (st : istat) : Prop := {
  tr_solved : solved o ke = Val a;
  tr_ok : atom_ok (ca_node a);
  tr_code : head_code (to_fview (ca_node a)) a;
  tr_len : List.length TA = List.length (targs (ca_node a));
  tr_args : argreg (M ex) TA;
  tr_run : exists fuel, run_local cf sto fuel (removelast (ca_code a)) (enter a (fresh (M ex))) = Val (st, M k);
  tr_state : match x_state ke with SFail => st = Failing | SError er => st = Raise er | _ => st = Cont end
}.
Lemma tried_node ex e k ke : nth_error (o_arena o) ex = Some e -> lv ex = true -> x_state e <> SRunning -> In k (x_kids e) ->
  nth_error (o_arena o) k = Some ke -> is_running ke = false ->
  exists a n TA' V l ak TA st, called cf o G M ex e a n TA' V l /\ tried ex k ke ak TA st /\ to_fview (ca_node ak) = to_fview n.
Proof.
  intros He Lv Hst Hk Hke Hr. destruct (call_node cf OK o P q rl ps lv G M D Q T PC ok PW Hq NC LB ex e He Lv Hst) as (a & n & TA' & V & l & Cd).
  pose proof (ti_node _ _ _ _ _ _ _ _ T ex e He) as TN.
  destruct (tn_run _ _ _ _ _ _ _ _ TN) as [(K & _)|[_ F]]; [contradiction|].
  destruct F as (c & a1 & rest & st & fu & Ec & Ef & Ecs & Er & Cl & Oc).
  assert (a1 = a). { pose proof (cd_solved _ _ _ _ _ _ _ _ _ _ _ Cd) as K. unfold solved in K. rewrite Ec in K. congruence. } subst a1.
  destruct Oc as [K1 K2 K3 K4|er K1 K2 K3 K4|f K1 K2 K3 K4 K5 K6|f rs K1 K2 K3 K4 K5 K6|pid b fu' K1 K2 K3 K4 K5 K6 K7 K8 K9 K10|k' K1 K2 K3 K4 K5 K6 K7];
    try congruence; try (rewrite ?K4, ?K6 in Hk; contradiction).
  assert (Hn : f = to_fview n) by (pose proof (cd_last _ _ _ _ _ _ _ _ _ _ _ Cd); congruence).
  destruct (kid_level cf o rl ps lv G M D T ex e k He Hk) as (ke' & Hke' & Hpar & Hlk). rewrite Hke in Hke'. injection Hke' as <-.
  assert (HG : exists r, In r rs /\ G k = {| p_m := fresh (M ex); p_codes := r ++ rest; p_trail := trail_after a (M ex) (p_trail (G ex)) |}).
  { clear - K6 Hk. induction K6 as [|k0 r ks rs E K6 IH]; [contradiction|]. destruct Hk as [->|Hk]; [exists r; split; [now left|assumption]|].
    destruct (IH Hk) as (r' & A & B). exists r'. split; [now right|assumption]. }
  destruct HG as (r & Ir & HG).
  assert (HC : exists ha cs, r = ha :: cs /\ to_fview (ca_node ha) = f /\ head_code f ha /\ last (ca_code ha) IProceed = IProceed).
  { pose proof (PC f) as Pf. rewrite K4 in Pf. unfold head_code. destruct (special f) as [i|] eqn:Es.
    - destruct Pf as (rs' & E' & SC). injection E' as <-. destruct (special_shape2 cf OK sto f i rs Es SC) as (ha & -> & C1 & C2 & C3 & C4).
      destruct Ir as [<-|[]]. exists ha, []. rewrite C1, C3. csplit; auto; destruct (special_eq _ _ Es) as [[-> _]|[[-> _]|[-> _]]]; reflexivity.
    - assert (Hc : exists b cl, clause_code cf sto b cl r /\ clause_wf cl /\ has_head f cl = true).
      { destruct (is_append f) eqn:Ea.
        - destruct Pf as (rs' & E' & F2). injection E' as <-. destruct (Forall2_in_r _ _ _ F2 r Ir) as (cl & Icl & Hc).
          exists true, cl. csplit; auto; [now apply append_wf|].
          unfold is_append in Ea. apply fview_eqb_eq in Ea. rewrite Ea. destruct Icl as [<-|[<-|[]]]; reflexivity.
        - destruct Pf as [F2 _]. destruct (Forall2_in_r _ _ _ F2 r Ir) as (cl & Icl & Hc). unfold clauses_of in Icl.
          apply filter_In in Icl. destruct Icl as [I1 I2]. exists false, cl. csplit; auto. exact (proj1 (Forall_forall _ _) PW cl I1). }
      destruct Hc as (b & cl & CC & CW & HH). destruct (clause_code_src _ _ _ _ _ CC CW) as (h & body & ha & cs & E1 & -> & _).
      subst cl. destruct (clause_head cf sto b h body ha cs CC) as [Nd _]. exists ha, cs. rewrite Nd. csplit; auto.
      + now apply has_head_eq in HH.
      + exists b, body, cs. auto.
      + destruct (clause_code_parts cf OK sto ok b (h :: body) _ CC CW) as (h' & body' & ha' & rs' & hc & nr & st' & _ & Er0 & Ecode & _).
        injection Er0 as <- <-. cbv zeta in Ecode. rewrite Ecode. apply last_app_one. }
  destruct HC as (ha & cs & -> & Hf & HC & El).
  pose proof (ti_node _ _ _ _ _ _ _ _ T k ke Hke) as TK.
  destruct (tn_run _ _ _ _ _ _ _ _ TK) as [(K & _)|[_ F]]; [unfold is_running in Hr; rewrite K in Hr; discriminate|].
  destruct F as (ck & ak & restk & stk & fuk & Eck & Efk & Ecsk & Erk & Clk & Ock).
  rewrite HG in Ecsk. cbn [p_codes app] in Ecsk. injection Ecsk as <- Erest.
  rewrite Lv in Hlk. cbn in Hlk.
  destruct (ti_path _ _ _ _ _ _ _ _ T k ke Hke) as (pi & Hp).
  assert (Ecs' : p_codes (G k) = ha :: cs ++ rest) by (now rewrite HG).
  destruct (head_path cf OK o P q rl Q PC ok PW Hq NC pi (G k) ha _ Hp Ecs' El) as (TA & B1 & B2 & B3 & _).
  rewrite HG in B3. cbn [p_m] in B3.
  exists a, n, TA', V, l, ha, TA, stk. split; [assumption|]. split; [|congruence]. split; auto.
  - unfold solved. now rewrite Eck.
  - now rewrite Hf.
  - exists fuk. rewrite HG in Erk. exact Erk.
  - destruct Ock as [J1 J2 J3 J4|er J1 J2 J3 J4|? J1 J2 J3 J4 J5 J6|? ? J1 J2 J3 J4 J5 J6|? ? ? J1 J2 J3 J4 J5 J6 J7 J8 J9 J10|? J1 J2 J3 J4 J5 J6 J7];
      try congruence; try (now rewrite J3); try (now rewrite J5).
Qed.
End Nodes.

(** the goal with the label [nm] does not fit the head [hd]; for predicates that compute, what they test is not so *)
Record unfit (pw : Z -> Z -> option Z) (nm : rnode) (hd : node) : Prop := {
  un_name : rname nm = fv_name (to_fview hd) /\ List.length (rkids nm) = fv_arity (to_fview hd);
  un_clause : special (to_fview hd) = None -> forall g v, ~ Forall2 (fun x y => ginst g (rterm x) = inst v y) (rkids nm) (kids hd);
  un_eq : to_fview hd = FV "==" 2 -> exists x y, rkids nm = [x; y] /\ ident (rterm x) (rterm y) = false;
  un_neq : to_fview hd = FV "\==" 2 -> exists x y, rkids nm = [x; y] /\ ident (rterm x) (rterm y) = true;
  un_is : to_fview hd = FV "is" 2 -> exists x y n, rkids nm = [x; y] /\
    forall g, aeval pw (ginst g (rterm y)) = Some n /\ ginst g (rterm x) <> GInt n
}.
(** the goal with the label [nm] is the evaluation of an expression without a value, or with variables of which none is known *)
Definition erring (pw : Z -> Z -> option Z) (nm : rnode) (er : rterr) : Prop :=
  rname nm = "is" /\ exists x y, rkids nm = [x; y] /\
    ((forall v, er <> EUnbound v) -> forall g, aeval pw (ginst g (rterm y)) = None).

Section Session.
Variable cf : cfg.
Hypothesis OK : ord_ok cf.
Theorem tree_unfit rl o P q D fuel t ex nm k bs ke : tree_at cf rl o q D -> prog_code cf (o_sto o) P (o_prog o) -> sto_ok (o_sto o) ->
  Forall clause_wf P -> q <> [] /\ Forall atom_ok q -> no_clash cf P -> labelled cf P ->
  (forall pi p h, at_path cf (o_sto o) (o_prog o) (init_proc rl) pi p -> ends_with cf (o_sto o) p h -> finite_terms (o_sto o) h) ->
  make_tree fuel o = Val t -> In (ex, (nm, k, bs)) (q_binds t) -> nth_error (o_arena o) k = Some ke ->
  match x_state ke with
  | SFail => exists hd, works_on o ke hd /\ unfit (pow_of cf) nm hd
  | SError er => exists hd, works_on o ke hd /\ erring (pow_of cf) nm er
  | _ => True
  end.
Proof.
  intros TA0 PC ok PW Hq NC LB NY E Hin Hke. pose proof TA0 as (ps & lv & G & M & Q & R & T & _).
  destruct (is_running ke) eqn:Hrun; [unfold is_running in Hrun; destruct (x_state ke); auto; discriminate Hrun|].
  pose proof E as E'. unfold make_tree in E'. apply bind_val in E'. destruct E' as ([t0 c0] & E0 & E1).
  destruct (resolve_binds fuel o ex nm k bs t0 t (make_q_strip _ _ _ _ _ _ _ E0) E1 Hin) as (e & str & He & Hlab & Hed & Hb).
  rewrite <- strip_edges, (resolve_strip _ _ _ _ E1), strip_edges in Hed.
  destruct (make_q_edges _ _ _ _ _ _ _ E0 _ _ Hed) as (e0 & He0 & Hk). rewrite He in He0. injection He0 as <-.
  assert (Lv : lv ex = true).
  { destruct (labels_pre _ _ _ _ Hlab) as (i & Hi). rewrite <- strip_pre, (resolve_strip _ _ _ _ E1), strip_pre in Hi.
    assert (L0 : lv 0 = true).
    { destruct (nth_error (o_arena o) 0) as [e0|] eqn:He0.
      - destruct (tn_up _ _ _ _ _ _ _ _ (ti_node _ _ _ _ _ _ _ _ T 0 e0 He0)) as [(_ & _ & K)|(pid & pe & U1 & U2 & _)]; [assumption|].
        pose proof (rf_parents _ _ _ R _ _ _ He0 U1). lia.
      - apply nth_error_None in He0. destruct (o_arena o) eqn:Ea; [|cbn in He0; lia]. now elim (ti_root _ _ _ _ _ _ _ _ T). }
    destruct (su_node _ _ _ _ _ _ (make_q_sub cf fuel o rl ps lv G M D R T _ _ _ _ _ E0 L0) _ _ _ Hi) as (K & _). exact K. }
  assert (Hst : x_state e <> SRunning).
  { destruct (tn_run _ _ _ _ _ _ _ _ (ti_node _ _ _ _ _ _ _ _ T ex e He)) as [(_ & K & _)|[Hs _]]; [|assumption].
    rewrite K in Hk. contradiction. }
  destruct (tried_node cf OK o P q rl ps lv G M D Q T PC ok PW Hq NC LB ex e k ke He Lv Hst Hk Hke Hrun)
    as (a & n & TA' & V & l & ak & TA & st & Cd & Tr & Ef).
  assert (F : finite_terms (o_sto o) (m_heap (M ex))).
  { destruct (ti_path _ _ _ _ _ _ _ _ T ex e He) as (pi & Hp). exact (NY _ _ _ Hp (cd_ends _ _ _ _ _ _ _ _ _ _ _ Cd)). }
  destruct (tree_labels cf OK rl o P q D fuel t ex nm str e TA0 PC ok PW Hq NC LB E Hlab He Hst) as (_ & _ & h & _ & _ & Hh & Lb).
  rewrite (hrel_fun _ _ _ _ Hh (cd_heap _ _ _ _ _ _ _ _ _ _ _ Cd)) in Lb. specialize (Lb F). clear h Hh.
  destruct Lb as (a0 & f & B1 & B2 & _ & B3 & B4 & B5).
  rewrite (cd_solved _ _ _ _ _ _ _ _ _ _ _ Cd) in B1. injection B1 as <-. rewrite (cd_last _ _ _ _ _ _ _ _ _ _ _ Cd) in B2. injection B2 as <-.
  set (hd := ca_node ak) in *. pose proof (tr_ok _ _ _ _ _ _ _ _ _ Tr) as Ah. change (atom_ok hd) in Ah.
  pose proof (cd_wf _ _ _ _ _ _ _ _ _ _ _ Cd) as W.
  assert (Hw : works_on o ke hd) by (exists ak; split; [exact (tr_solved _ _ _ _ _ _ _ _ _ Tr)|reflexivity]).
  assert (Len : List.length (rkids nm) = List.length (kids hd)).
  { rewrite B4, <- Ef. destruct hd; try contradiction; reflexivity. }
  assert (HA : is_constant hd = false -> targs hd = kids hd /\
    Forall2 (fun b x => b < List.length (m_heap (M ex)) /\ rd (o_sto o) (m_heap (M ex)) b (rterm x)) TA (rkids nm)).
  { intros Ec. assert (Et : targs hd = kids hd) by (unfold targs; now rewrite Ec). split; [assumption|].
    pose proof (tr_len _ _ _ _ _ _ _ _ _ Tr) as Lt. change (List.length TA = List.length (targs hd)) in Lt. rewrite Et, <- Len in Lt.
    pose proof (tr_args _ _ _ _ _ _ _ _ _ Tr) as Ar. unfold argreg in Ar. rewrite (cd_regs _ _ _ _ _ _ _ _ _ _ _ Cd) in B5.
    apply Forall2_of_nth; [exact Lt|]. intros i b x Hb' Hx. destruct (Ar i b Hb') as (c1 & C1 & C2 & C3).
    destruct (B5 i x Hx) as (c2 & b2 & D1 & D2 & D3). rewrite C1 in D1. injection D1 as <-. apply addr_of_get in C2. rewrite C2 in D2. injection D2 as <-. auto. }
  assert (GR : forall g b x, rd (o_sto o) (m_heap (M ex)) b x -> b < List.length (m_heap (M ex)) -> exists rho, sat (o_sto o) rho (m_heap (M ex)) /\
     forall b' x', rd (o_sto o) (m_heap (M ex)) b' x' -> b' < List.length (m_heap (M ex)) -> rho b' = ginst g x').
  { intros g b x _ _. exact (ground_fin (o_sto o) (m_heap (M ex)) W F g). }
  destruct (tr_run _ _ _ _ _ _ _ _ _ Tr) as (fu & Rn). pose proof (tr_state _ _ _ _ _ _ _ _ _ Tr) as St.
  pose proof (tr_code _ _ _ _ _ _ _ _ _ Tr) as Hc. change (head_code cf o (to_fview hd) ak) in Hc. unfold head_code in Hc.
  destruct (special (to_fview hd)) as [i|] eqn:Sp.
  - (* a predicate that computes *)
    destruct Hc as (C1 & C2 & C3). destruct (to_fview hd) as [hn ha] eqn:Eh. cbn [fv_arity] in C3. subst ha.
    assert (Ec : is_constant hd = false) by (destruct hd; try contradiction; [discriminate Eh|reflexivity]).
    destruct (HA Ec) as [Et HF].
    assert (E2 : exists b1 b2 x y, TA = [b1; b2] /\ rkids nm = [x; y]).
    { rewrite <- Ef in B4. cbn [fv_arity] in B4. destruct (rkids nm) as [|x [|y [|? ?]]]; try discriminate B4.
      inversion HF as [|b1 ? TA1 ? ? HF1]; subst. inversion HF1 as [|b2 ? TA2 ? ? HF2]; subst. inversion HF2; subst. exists b1, b2, x, y. auto. }
    destruct E2 as (b1 & b2 & x & y & -> & Ek). rewrite Ek in HF. inversion HF as [|? ? ? ? [Lb1 Rb1] HF1]; subst. inversion HF1 as [|? ? ? ? [Lb2 Rb2] _]; subst.
    pose proof (special_fails cf (o_sto o) ok fu hn i ak (fresh (M ex)) b1 b2 (rterm x) (rterm y) st (M k) Sp C1 C2 W
      (tr_args _ _ _ _ _ _ _ _ _ Tr) Rb1 Rb2 Rn) as SF.
    assert (GS : forall g, exists rho, sat (o_sto o) rho (m_heap (M ex)) /\ rho b1 = ginst g (rterm x) /\ rho b2 = ginst g (rterm y)).
    { intros g. destruct (GR g b1 _ Rb1 Lb1) as (rho & S1 & S2). exists rho. csplit; auto. }
    destruct (x_state ke) as [| | | |er] eqn:Es; auto; subst st.
    + exists hd. split; [assumption|]. split.
      * rewrite Eh. rewrite <- Ef in B3. split; [exact B3|]. now rewrite Ek.
      * rewrite Eh, Sp. discriminate.
      * rewrite Eh. intros K. injection K as ->. exists x, y. split; [assumption|]. destruct SF as [[_ K]|[[K _]|[K _]]]; [assumption|discriminate..].
      * rewrite Eh. intros K. injection K as ->. exists x, y. split; [assumption|]. destruct SF as [[K _]|[[_ K]|[K _]]]; [discriminate|assumption|discriminate].
      * rewrite Eh. intros K. injection K as ->. destruct SF as [[K _]|[[K _]|[_ (z & K)]]]; [discriminate..|]. exists x, y, z. split; [assumption|].
        intros g. destruct (GS g) as (rho & S1 & S2 & S3). destruct (K rho S1) as [J1 J2]. now rewrite <- S2, <- S3.
    + exists hd. split; [assumption|]. destruct SF as [-> SF]. split.
      * rewrite B3, <- Ef. reflexivity.
      * exists x, y. split; [assumption|]. intros NU g. destruct (GS g) as (rho & S1 & S2 & S3). rewrite <- S3. now apply SF.
  - (* a clause *)
    destruct Hc as (b & body & r & CC & CW). change (ca_node ak) with hd in CC, CW.
    destruct (head_match cf OK (o_sto o) ok fu b hd body ak r (fresh (M ex)) TA CC CW W (tr_args _ _ _ _ _ _ _ _ _ Tr) (tr_len _ _ _ _ _ _ _ _ _ Tr))
      as [_ HM]. rewrite Rn in HM.
    destruct (x_state ke) as [| | | |er] eqn:Es; auto; subst st; [|contradiction].
    exists hd. split; [assumption|].
    assert (Nsp : forall i nm0, special (FV nm0 2) = Some i -> to_fview hd <> FV nm0 2) by (intros i0 nm0 K1 K2; congruence).
    split; try (intros K; exfalso; eapply Nsp; [|exact K]; reflexivity).
    + rewrite B3, B4, Ef. auto.
    + intros _ g v U. destruct (is_constant hd) eqn:Ec.
      * destruct (ground_fin (o_sto o) (m_heap (M ex)) W F g) as (rho & S1 & _). apply (HM rho v S1).
        pose proof (tr_len _ _ _ _ _ _ _ _ _ Tr) as Lt. change (List.length TA = List.length (targs hd)) in Lt.
        assert (En : n = hd).
        { pose proof (cd_ok _ _ _ _ _ _ _ _ _ _ _ Cd) as An. clear - Ec Ef An Ah. destruct hd; try discriminate Ec. destruct n as [| | |s0 l0|]; try contradiction; cbn in Ef.
          - injection Ef as ->. reflexivity.
          - injection Ef as _ K. destruct l0; [contradiction|discriminate K]. }
        pose proof (cd_vals _ _ _ _ _ _ _ _ _ _ _ Cd) as Vs. pose proof (cd_args _ _ _ _ _ _ _ _ _ _ _ Cd) as Ar'. pose proof (tr_args _ _ _ _ _ _ _ _ _ Tr) as Ar.
        rewrite En in Vs. assert (Et : targs hd = [hd]) by (unfold targs; now rewrite Ec). rewrite Et in *.
        destruct TA as [|b1 [|]]; try discriminate Lt. inversion Vs as [|b2 ? ? ? V2 V3]; subst. inversion V3; subst.
        assert (b1 = b2).
        { destruct (Ar 0 b1 eq_refl) as (c1 & C1 & C2 & _). destruct (Ar' 0 b2 eq_refl) as (c2 & D1 & D2 & _). congruence. }
        subst b2. constructor; [|constructor]. rewrite (V2 rho (vof rho V) S1 (vof_cons _ _)). destruct hd; try discriminate Ec. reflexivity.
      * destruct (HA eq_refl) as [Et HF]. destruct (ground_fin (o_sto o) (m_heap (M ex)) W F g) as (rho & S1 & S2). apply (HM rho v S1). rewrite Et.
        clear - HF U S2. revert U. generalize (kids hd). induction HF as [|b' x' TA0 xs [Lb Rb] HF IH]; intros ys U; inversion U; subst; constructor.
        -- rewrite (S2 b' _ Rb Lb). assumption.
        -- now apply IH.
Qed.
(** Where a clause was given up, it does not fit the label. *)
Theorem run_unfit o P q rs o' fuel t ex nm k bs ke : session cf o P (QFresh q) -> run cf o rs o' -> small_tables (o_sto o) ->
  no_clash cf P -> labelled cf P -> no_cycles cf o -> make_tree fuel o' = Val t -> In (ex, (nm, k, bs)) (q_binds t) ->
  nth_error (o_arena o') k = Some ke ->
  match x_state ke with
  | SFail => exists hd, works_on o' ke hd /\ unfit (pow_of cf) nm hd
  | SError er => exists hd, works_on o' ke hd /\ erring (pow_of cf) nm er
  | _ => True
  end.
Proof.
  intros HS HR SM NC LB NY E Hin Hke. destruct (run_at _ _ _ _ _ _ HS HR) as (rl & D & HD & RT & _).
  destruct (run_search _ _ _ _ _ _ HS HR) as (? & ? & ? & ? & ? & _ & _ & _ & _ & _ & _ & Es & Ep & _).
  destruct (session_inv _ _ _ _ HS) as [A _]. destruct (session_parsed _ _ _ _ HS) as [[PW _] Hq].
  assert (ok : sto_ok (o_sto o)) by (destruct SM; split; auto; eapply session_nodup; eauto).
  assert (PC : prog_code cf (o_sto o) P (o_prog o)) by apply A. rewrite <- Es in PC, ok. rewrite <- Ep in PC.
  apply (tree_unfit rl o' P q D fuel t ex nm k bs ke HD PC ok PW Hq NC LB); auto.
  intros pi p h Hp Hw. rewrite Es, Ep in *. exact (NY _ _ _ _ RT Hp Hw).
Qed.
End Session.

(** --- a case --- *)
(** the labels below which a clause was given up, and whether for an error *)
Definition given_up (o : org) (t : qnode) : list (string * nat * bool) :=
  flat_map (fun x => let '(ex, (nm, k, bs)) := x in
    match nth_error (o_arena o) k, node_str nm with
    | Some ke, Val s => match x_state ke with SFail => [(s, k, false)] | SError _ => [(s, k, true)] | _ => [] end
    | _, _ => []
    end) (q_binds t).
Definition given_dec (a b : string * nat * bool) : {a = b} + {a <> b}.
Proof. repeat decide equality. Defined.
Definition unfit_text : string := "p(X,Y) :- X == Y. p(X,Y) :- X \== X. p(X,Y) :- 3 is 1+1. p(X,Y) :- q(g(X,f(X))). q(g(a,b)). p(X,Y) :- 1 is 1 // 0.".
Definition unfit_list : list (string * nat * bool) :=
  [("==(A, B)", 11, false); ("\==(A, A)", 12, false); ("is(3, (1 + 1))", 13, false); ("q(g(A, f(A)))", 14, false); ("is(1, (1 // 0))", 15, true)].
Lemma unfit_case : exists o P q o' rs t, session cfg0 o P (QFresh q) /\ run cfg0 o rs o' /\ small_tables (o_sto o) /\
  no_clash cfg0 P /\ labelled cfg0 P /\ no_cycles cfg0 o /\ make_tree 100 o' = Val t /\
  parse_program unfit_text = Some (COk P) /\ parse_query (append_dot "p(A,B)") = Some (COk q) /\ given_up o' t = unfit_list.
Proof.
  destruct (tree_witness unfit_text "p(A,B)" [w0] (fun o o' P q rs =>
    small_b (o_sto o) && noclash_b cfg0 P && forallb (clause_labels cfg0) P && tree_ok cfg0 (o_sto o) (o_prog o) 1000 1000 (root_proc o) &&
    match make_tree 100 o' with
    | Val t => if list_eq_dec given_dec (given_up o' t) unfit_list then true else false
    | _ => false end))
    as (o & o' & P & q & rs & H1 & H2 & H3 & H4 & H5); [vm_compute; reflexivity|].
  rewrite !andb_true_iff in H5. destruct H5 as [[[[K1 K2] K3] K4] K6].
  destruct (make_tree 100 o') as [t| |] eqn:Et; try discriminate K6. rewrite forallb_forall in K3.
  destruct (list_eq_dec given_dec _ _) as [K8|]; [|discriminate K6].
  exists o, P, q, o', rs, t. csplit; auto using small_b_ok, noclash_b_ok.
  exact (proj1 (Finite.session_tree _ _ _ _ K4)).
Qed.
(** a clause shown as not fitting a label which is an instance of its head *)
Lemma wrong_unfit : exists o P q o' rs t nm ke hd, session cfg0 o P (QFresh q) /\ run cfg0 o rs o' /\
  parse_program "p(X) :- q(X,a). q(a,Y)." = Some (COk P) /\ parse_query (append_dot "p(b)") = Some (COk q) /\ map fst rs = [RFalse] /\
  make_tree 100 o' = Val t /\ In (2, (nm, 3, None)) (q_binds t) /\ node_str nm = Val "q(a, a)" /\ nth_error (o_arena o') 3 = Some ke /\
  x_state ke = SFail /\ works_on o' ke hd /\ special (to_fview hd) = None /\
  exists g v, Forall2 (fun x y => ginst g (rterm x) = inst v y) (rkids nm) (kids hd).
Proof.
  destruct (tree_witness "p(X) :- q(X,a). q(a,Y)." "p(b)" [w0] (fun o o' P q rs =>
    match map fst rs with [RFalse] => true | _ => false end &&
    match make_tree 100 o', nth_error (o_arena o') 3 with
    | Val t, Some ke => match nth_error (q_binds t) 1, solved o' ke, x_state ke with
                        | Some (2, (RFun f [RCon s; RCon s2], 3, None)), Val a, SFail =>
                            match ca_node a with NFun f' [NCon s'; NVar _] => (f =? "q") && (f' =? "q") && (s =? "a") && (s2 =? "a") && (s' =? "a") | _ => false end
                        | _, _, _ => false
                        end
    | _, _ => false
    end)) as (o & o' & P & q & rs & H1 & H2 & H3 & H4 & H5); [vm_compute; reflexivity|].
  apply andb_true_iff in H5. destruct H5 as [H0 H5].
  destruct (make_tree 100 o') as [t| |] eqn:Et; try discriminate H5. destruct (nth_error (o_arena o') 3) as [ke|] eqn:Ek; try discriminate H5.
  destruct (nth_error (q_binds t) 1) as [[ex [[nm k] bs]]|] eqn:Eb; try discriminate H5.
  destruct ex as [|[|[|]]]; try discriminate H5.
  destruct k as [|[|[|[|]]]], bs as [?|], nm as [| | |f [|[|s| | |] [|[|s2| | |] [|]]]|]; try discriminate H5.
  destruct (solved o' ke) as [a| |] eqn:Es; try discriminate H5. destruct (x_state ke) eqn:Est; try discriminate H5.
  destruct (ca_node a) as [| | |f' [|[|s'| | |] [|[y| | | |] [|]]]|] eqn:Ea; try discriminate H5.
  rewrite !andb_true_iff, !String.eqb_eq in H5. destruct H5 as [[[[-> ->] ->] ->] ->].
  exists o, P, q, o', rs, t, (RFun "q" [RCon "a"; RCon "a"]), ke, (NFun "q" [NCon "a"; NVar y]). csplit; auto.
  - destruct (map fst rs) as [|[] [|]]; try discriminate H0. reflexivity.
  - exact (nth_error_In _ _ Eb).
  - exists a. auto.
  - exists (fun _ => GInt 0), (fun _ => GCon "a"). repeat constructor.
Qed.
