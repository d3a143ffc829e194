(** Following references ends, in every executor, at every instruction of every session. *)
From Verif Require Import Base Machine Heap HeapSim Facts Compiler Parser Print Organizer Examples Spec Valuation Process Refine Mono Turn Shape Session Code Put Search
  Get Alloc Atoms Clause Tables Root Order Runs Answers Sols Solve Complete Isolation Witness Finite Cells Loads Slots Wf Builtins.
Open Scope string_scope.
Open Scope list_scope.

(** --- the statement --- *)
(** The address [a] belongs to the heap of executor [id], its own part or a part inherited from its parents. *)
Definition allocated (o : org) (id a : nat) : Prop :=
  exists e, nth_error (o_arena o) id = Some e /\ a < l_size (m_heap (x_m e)).
(** Following references from [a] in executor [id] ends at [d], which is an unbound variable or not a reference. *)
Inductive settles (o : org) (id : nat) : nat -> nat -> Prop :=
| sl_here a c : reads o id a = Some c -> match c with CRef b _ => b = a | CStr _ => False | _ => True end -> settles o id a a
| sl_next a c b d : reads o id a = Some c -> match c with CRef t _ | CStr t => t = b | _ => False end -> b <> a ->
    settles o id b d -> settles o id a d.
Definition all_settle (o : org) : Prop := forall id a, allocated o id a -> exists d, settles o id a d.
Lemma settles_det o id a d : settles o id a d -> forall e, settles o id a e -> d = e.
Proof.
  induction 1 as [a c R C|a c b d R C N S IH]; intros e S'; inversion S' as [a' c' R' C'|a' c' b' d' R' C' N' S'']; subst; auto.
  - rewrite R in R'. injection R' as <-. destruct c; try contradiction. congruence.
  - rewrite R in R'. injection R' as <-. destruct c; try contradiction. congruence.
  - rewrite R in R'. injection R' as <-. apply IH. destruct c; try contradiction; congruence.
Qed.
(** The instructions [is] of executor [id], up to the first that fails. *)
Inductive steps (cf : cfg) (fuel : nat) (id : nat) : org -> list instr -> org -> Prop :=
| sp_nil o : steps cf fuel id o [] o
| sp_cons o i is o1 o2 : instr_step cf fuel o id i = Val (RCont, o1) -> steps cf fuel id o1 is o2 -> steps cf fuel id o (i :: is) o2
| sp_stop o i st o1 : instr_step cf fuel o id i = Val (st, o1) -> st <> RCont -> steps cf fuel id o [i] o1.
(** A state inside the turn that starts in [o]: some instructions of the code of the first executor in the queue have been
    executed, but not the last one. *)
Definition inside (cf : cfg) (fuel : nat) (o o2 : org) : Prop :=
  exists id q e p ps a is1 i is2 o1, o_queue o = id :: q /\ nth_error (o_arena o) id = Some e /\ x_codes e = p :: ps /\
    follow o p = Val a /\ ca_code a = is1 ++ i :: is2 /\
    put_exec (set_queue o q) id (with_m e (set_regs (x_m e) (resize (m_regs (x_m e)) (ca_regs a)))) = Val o1 /\
    steps cf fuel id o1 is1 o2.

(** --- the heap of an executor as a flat list --- *)
Definition hset1 (sto : storage) (ar : list exec) (e : exec) : Prop :=
  exists fh k, hrel (heap_at ar (x_parent e)) (m_heap (x_m e)) fh /\ wfh sto k fh.
Definition AH (sto : storage) (ar : list exec) : Prop := forall id e, nth_error ar id = Some e -> hset1 sto ar e.

Lemma reads_at o id e a : parents_ok (o_arena o) -> nth_error (o_arena o) id = Some e ->
  reads o id a = l_at (heap_at (o_arena o) (x_parent e)) (m_heap (x_m e)) a.
Proof.
  intros Hp He. unfold reads, heap_at at 1. cbn [heap_at_f]. rewrite He.
  apply l_at_ext. intros b. unfold heap_at. destruct (x_parent e) as [q|] eqn:Eq; [|now destruct (List.length (o_arena o))].
  pose proof (Hp _ _ _ He Eq) as Hq. pose proof (nth_error_lt _ _ _ He).
  apply heap_at_f_frame with (id := S (List.length (o_arena o))); auto; try lia.
  intros j e' He' Hx. apply nth_error_lt in He' as Hl. specialize (Hp _ _ _ He' Hx). lia.
Qed.
Lemma AH_settles sto o : parents_ok (o_arena o) -> AH sto (o_arena o) -> all_settle o.
Proof.
  intros Hp H id a (e & He & La). destruct (H id e He) as (fh & k & [Hs Ha] & W).
  assert (R : forall b, reads o id b = nth_error fh b) by (intros b; rewrite (reads_at o id e b Hp He); apply Ha).
  rewrite Hs in La. destruct (proj2 W a La) as (n & d & D). exists d. induction D as [a L N|n a b d N D IH].
  - destruct (root_cases sto _ _ a W L N) as (c & Ec & Hc). eapply sl_here; [rewrite R; exact Ec|exact Hc].
  - pose proof N as N'. unfold next in N'. destruct (nth_error fh a) as [c|] eqn:Ec; [|discriminate].
    assert (K : match c with CRef t _ | CStr t => t = b | _ => False end /\ b <> a).
    { destruct c; try discriminate N'; destruct (Nat.eqb_spec a0 a); try discriminate N'; injection N' as <-; auto. }
    eapply sl_next; [rewrite R; exact Ec|apply K|apply K|]. apply IH. eapply derefs_lt; eauto.
Qed.

Lemma hset1_frame sto ar ar' id j e : parents_ok ar -> childless ar id ->
  (forall j, j < List.length ar -> j <> id -> nth_error ar' j = nth_error ar j) -> List.length ar <= List.length ar' ->
  nth_error ar j = Some e -> hset1 sto ar e -> hset1 sto ar' e.
Proof.
  intros Hp Hc Hag Hl He (fh & k & H & W). exists fh, k. split; [|exact W]. eapply hrel_ext; [|exact H]. intros a.
  eapply heap_at_frame; eauto. destruct (x_parent e) as [q|] eqn:Eq; auto.
  pose proof (Hp _ _ _ He Eq). pose proof (nth_error_lt _ _ _ He). split; [lia|]. intros ->. exact (Hc _ _ He Eq).
Qed.

(** --- instructions inside a turn --- *)
Lemma steps_locals cf fuel o0 id e0 : parents_ok (o_arena o0) -> childless (o_arena o0) id ->
  nth_error (o_arena o0) id = Some e0 ->
  forall o is o2, steps cf fuel id o is o2 -> forall ar m fm, o = set_arena o0 ar ->
    forallb is_local is = true ->
    List.length ar = List.length (o_arena o0) ->
    nth_error ar id = Some (with_m e0 m) ->
    (forall j, j <> id -> nth_error ar j = nth_error (o_arena o0) j) ->
    mrel (heap_at (o_arena o0) (x_parent e0)) m fm ->
    exists ar' m' ss s fm', o2 = set_arena o0 ar' /\ List.length ar' = List.length (o_arena o0) /\
      nth_error ar' id = Some (with_state (with_m e0 m') ss) /\
      (forall j, j <> id -> nth_error ar' j = nth_error (o_arena o0) j) /\
      mrel (heap_at (o_arena o0) (x_parent e0)) m' fm' /\ run_local cf (o_sto o0) fuel is fm = Val (s, fm').
Proof.
  intros Hp Hc He0.
  assert (ONE : forall ar m fm i st o1, is_local i = true -> List.length ar = List.length (o_arena o0) ->
    nth_error ar id = Some (with_m e0 m) -> (forall j, j <> id -> nth_error ar j = nth_error (o_arena o0) j) ->
    mrel (heap_at (o_arena o0) (x_parent e0)) m fm -> instr_step cf fuel (set_arena o0 ar) id i = Val (st, o1) ->
    exists ar' m' ss s fm', o1 = set_arena o0 ar' /\ List.length ar' = List.length (o_arena o0) /\
      nth_error ar' id = Some (with_state (with_m e0 m') ss) /\
      (forall j, j <> id -> nth_error ar' j = nth_error (o_arena o0) j) /\
      mrel (heap_at (o_arena o0) (x_parent e0)) m' fm' /\ fstep cf (o_sto o0) fuel i fm = Val (s, fm') /\
      match st with RCont => s = Cont /\ ss = x_state e0 | _ => s <> Cont end).
  { intros ar m fm i st o1 Hi Hlen Hid Hj Hm E.
    assert (Hstep : instr_step cf fuel (set_arena o0 ar) id i =
     ('(st, m1) <- local_step lheap (lops (heap_at ar (x_parent e0))) cf (o_sto o0) fuel i m ;;
      match st with
      | Cont => o1 <- put_exec (set_arena o0 ar) id (with_m e0 m1) ;; Val (RCont, o1)
      | Failing => o1 <- put_exec (set_arena o0 ar) id (with_state (with_m e0 m1) SFail) ;; Val (RFailing, o1)
      | Raise er => o1 <- put_exec (set_arena o0 ar) id (with_state (with_m e0 m1) (SError er)) ;; Val (RRaise er, o1)
      end)).
    { unfold instr_step. destruct i; try discriminate; unfold get_exec; cbn [o_arena set_arena]; rewrite Hid;
        cbn [of_opt bind x_parent x_m with_m]; reflexivity. }
    rewrite Hstep in E. clear Hstep.
    assert (FR : forall b, heap_at (o_arena o0) (x_parent e0) b = heap_at ar (x_parent e0) b).
    { intros a. eapply heap_at_frame with (id := id); eauto.
      - lia.
      - destruct (x_parent e0) as [q|] eqn:Eq; auto.
        pose proof (Hp _ _ _ He0 Eq). pose proof (nth_error_lt _ _ _ He0). split; [lia|]. intros ->.
        exact (Hc _ _ He0 Eq). }
    assert (Hm' : mrel (heap_at ar (x_parent e0)) m fm) by (eapply mrel_ext; [exact FR|exact Hm]).
    pose proof (local_step_sim _ cf (o_sto o0) fuel i m fm Hm') as Hsim. unfold fstep.
    destruct (local_step lheap _ cf (o_sto o0) fuel i m) as [[s1 m1]| |] eqn:E1; cbn [bind] in E; try discriminate E.
    destruct (local_step (list cell) fops cf (o_sto o0) fuel i fm) as [[s2 fm1]| |] eqn:E2; cbn [out_rel] in Hsim; try contradiction.
    destruct Hsim as [Es Hm1]. cbn in Es, Hm1. subst s2.
    assert (Hm1' : mrel (heap_at (o_arena o0) (x_parent e0)) m1 fm1) by (eapply mrel_ext; [|exact Hm1]; intros a; symmetry; apply FR).
    assert (Hid' : nth_error (o_arena (set_arena o0 ar)) id = Some (with_m e0 m)) by exact Hid.
    destruct s1 as [| |er].
    - destruct (put_exec_some (set_arena o0 ar) id _ (with_m e0 m1) Hid') as (ar1 & Ep & L1 & N1 & J1). rewrite Ep in E.
      cbn [bind] in E. injection E as <- <-. cbn [o_arena set_arena] in L1, J1.
      exists ar1, m1, (x_state e0), Cont, fm1. csplit; auto; [congruence|]. intros j Hne. rewrite J1 by assumption. auto.
    - destruct (put_exec_some (set_arena o0 ar) id _ (with_state (with_m e0 m1) SFail) Hid') as (ar1 & Ep & L1 & N1 & J1). rewrite Ep in E.
      cbn [bind] in E. injection E as <- <-. cbn [o_arena set_arena] in L1, J1.
      exists ar1, m1, SFail, Failing, fm1. csplit; auto; [congruence| |discriminate]. intros j Hne. rewrite J1 by assumption. auto.
    - destruct (put_exec_some (set_arena o0 ar) id _ (with_state (with_m e0 m1) (SError er)) Hid') as (ar1 & Ep & L1 & N1 & J1). rewrite Ep in E.
      cbn [bind] in E. injection E as <- <-. cbn [o_arena set_arena] in L1, J1.
      exists ar1, m1, (SError er), (Raise er), fm1. csplit; auto; [congruence| |discriminate]. intros j Hne. rewrite J1 by assumption. auto. }
  intros o is o2 H. induction H as [o|o i is o1 o2 E S IH|o i st o1 E N]; intros ar m fm -> Hl Hlen Hid Hj Hm.
  - exists ar, m, (x_state e0), Cont, fm. csplit; auto.
  - cbn [forallb] in Hl. apply andb_prop in Hl. destruct Hl as [Hi Hl].
    destruct (ONE ar m fm i RCont o1 Hi Hlen Hid Hj Hm E) as (ar1 & m1 & ss & s & fm1 & -> & L1 & N1 & J1 & M1 & F1 & -> & ->).
    destruct (IH ar1 m1 fm1 eq_refl Hl L1 N1 J1 M1) as (ar2 & m2 & ss & s & fm2 & -> & L2 & N2 & J2 & M2 & F2).
    exists ar2, m2, ss, s, fm2. csplit; auto. cbn [run_local]. rewrite F1. exact F2.
  - cbn [forallb] in Hl. apply andb_prop in Hl. destruct Hl as [Hi _].
    destruct (ONE ar m fm i st o1 Hi Hlen Hid Hj Hm E) as (ar1 & m1 & ss & s & fm1 & -> & L1 & N1 & J1 & M1 & F1 & K).
    assert (Ns : s <> Cont) by (destruct st; tauto).
    exists ar1, m1, ss, s, fm1. csplit; auto. cbn [run_local]. rewrite F1. cbn [bind]. destruct s; [contradiction| |]; reflexivity.
Qed.

(** --- what control instructions keep --- *)
Record keeps (id : nat) (o o' : org) : Prop := {
  kp_exec : forall e, nth_error (o_arena o) id = Some e -> exists e', nth_error (o_arena o') id = Some e' /\
    x_parent e' = x_parent e /\ m_heap (x_m e') = m_heap (x_m e);
  kp_len : List.length (o_arena o) <= List.length (o_arena o');
  kp_queue : forall j, In j (o_queue o) -> In j (o_queue o');
  kp_new : forall j, List.length (o_arena o) <= j < List.length (o_arena o') -> In j (o_queue o')
}.
Lemma keeps_refl id o : keeps id o o.
Proof. split; eauto. lia. Qed.
Lemma keeps_trans id o1 o2 o3 : keeps id o1 o2 -> keeps id o2 o3 -> keeps id o1 o3.
Proof.
  intros [A1 B1 C1 D1] [A2 B2 C2 D2]. split; [| lia | auto |].
  - intros e H. destruct (A1 e H) as (e1 & H1 & P1 & M1). destruct (A2 e1 H1) as (e2 & H2 & P2 & M2). exists e2. csplit; congruence.
  - intros j Hj. destruct (Nat.lt_ge_cases j (List.length (o_arena o2))); [apply C2, D1; lia|apply D2; lia].
Qed.
Lemma put_keeps id o e e1 o' : nth_error (o_arena o) id = Some e -> x_parent e1 = x_parent e -> m_heap (x_m e1) = m_heap (x_m e) ->
  put_exec o id e1 = Val o' -> keeps id o o'.
Proof.
  intros He Hx Hm E. pose proof (put_len _ _ _ _ E) as L. unfold put_exec in E. apply bind_val in E. destruct E as (a & Ea & E). apply of_opt_val in Ea.
  injection E as <-. cbn in L |- *. split; cbn.
  - intros e' He'. rewrite He in He'. injection He' as <-. exists e1. rewrite (upd_nth _ _ _ _ _ Ea), Nat.eqb_refl. auto.
  - lia.
  - auto.
  - lia.
Qed.
Lemma get_some o id e : get_exec o id = Val e -> nth_error (o_arena o) id = Some e.
Proof. unfold get_exec. apply of_opt_val. Qed.
Lemma clear_same e e1 : clear_exec e = Val e1 -> x_parent e1 = x_parent e /\ m_heap (x_m e1) = m_heap (x_m e).
Proof. unfold clear_exec. destruct (x_codes e); [discriminate|]. intros E. injection E as <-. auto. Qed.
Lemma add_keeps id o c o' : add_child o id c = Val o' -> keeps id o o'.
Proof.
  intros E. unfold add_child in E. inv_bind E. inv_bind E. injection E as <-. apply get_some in Hv.
  assert (K : keeps id o v0) by (eapply put_keeps; [exact Hv| | |exact Hv0]; reflexivity).
  eapply keeps_trans; [exact K|]. split; cbn.
  - intros e He. exists e. csplit; auto. rewrite nth_error_app1; [assumption|eapply nth_error_lt; eauto].
  - rewrite app_length. lia.
  - intros j Hj. apply in_app_iff. auto.
  - intros j Hj. rewrite app_length in Hj. cbn in Hj. apply in_app_iff. right. left. pose proof (put_len _ _ _ _ Hv0). lia.
Qed.
Lemma spawn_keeps id rs : forall o o', spawn o id rs = Val o' -> keeps id o o'.
Proof.
  induction rs as [|r rs IH]; intros o o' E; cbn in E; [injection E as <-; apply keeps_refl|].
  inv_bind E. destruct (x_codes v); [discriminate|]. inv_bind E. eapply keeps_trans; [eapply add_keeps; eauto|eauto].
Qed.
Lemma ctl_keeps cf fuel id o i st o' : is_local i = false -> instr_step cf fuel o id i = Val (st, o') -> keeps id o o'.
Proof.
  intros Hi E. destruct i; try discriminate; cbn [instr_step] in E.
  - unfold do_call in E. set (o0 := set_stats o _) in E. assert (K0 : keeps id o o0) by (split; cbn; eauto; lia).
    destruct (plookup f (o_prog o0)).
    + inv_bind E. inv_bind E. inv_bind E. inv_bind E. injection E as _ <-. destruct (clear_same _ _ Hv1) as [P1 M1].
      eapply keeps_trans; [exact K0|]. eapply keeps_trans; [eapply spawn_keeps; eauto|].
      eapply put_keeps; [apply get_some; exact Hv0| | |exact Hv2]; assumption.
    + inv_bind E. inv_bind E. injection E as _ <-. eapply keeps_trans; [exact K0|].
      eapply put_keeps; [apply get_some; exact Hv| | |exact Hv0]; reflexivity.
  - unfold do_proceed in E. inv_bind E. destruct (x_codes v); [discriminate|]. inv_bind E. destruct v0.
    + inv_bind E. inv_bind E. injection E as _ <-. destruct (clear_same _ _ Hv1) as [P1 M1].
      eapply put_keeps; [apply get_some; exact Hv| | |exact Hv2]; assumption.
    + inv_bind E. inv_bind E. injection E as _ <-. eapply keeps_trans; [|eapply add_keeps; eauto].
      eapply put_keeps; [apply get_some; exact Hv| | |exact Hv1]; reflexivity.
  - unfold do_dealloc in E. inv_bind E. destruct (m_envs (x_m v)); [discriminate|]. destruct (x_codes v); [discriminate|].
    inv_bind E. injection E as _ <-. eapply keeps_trans; [eapply put_keeps; [apply get_some; exact Hv| | |exact Hv0]; reflexivity|].
    split; cbn; eauto; try lia. intros j Hj. apply in_app_iff. auto.
Qed.
Lemma ctl_run_keeps cf fuel id o i st o' : is_local i = false -> run_instrs cf fuel o id [i] = Val (st, o') -> keeps id o o'.
Proof.
  intros Hi E. cbn [run_instrs] in E. inv_bind E. destruct v as [s1 o1]. pose proof (ctl_keeps _ _ _ _ _ _ _ Hi Hv) as K.
  assert (G : (e <- get_exec o1 id ;; e1 <- clear_exec e ;; o2 <- put_exec o1 id e1 ;; Val (s1, o2)) = Val (st, o') -> keeps id o o').
  { intros F. inv_bind F. inv_bind F. inv_bind F. injection F as _ <-. destruct (clear_same _ _ Hv1) as [P1 M1].
    eapply keeps_trans; [exact K|]. eapply put_keeps; [apply get_some; exact Hv0| | |exact Hv2]; assumption. }
  destruct s1; [injection E as _ <-; exact K|apply G; exact E|apply G; exact E].
Qed.

Lemma run_steps cf fuel id tl_ is : forall o st o', run_instrs cf fuel o id (is ++ tl_) = Val (st, o') ->
  (exists o2, steps cf fuel id o is o2 /\ run_instrs cf fuel o2 id tl_ = Val (st, o')) \/
  (exists is1 is2 o2 e e1, is = is1 ++ is2 /\ steps cf fuel id o is1 o2 /\ nth_error (o_arena o2) id = Some e /\ clear_exec e = Val e1 /\
    put_exec o2 id e1 = Val o').
Proof.
  induction is as [|i is IH]; intros o st o' E; cbn [app] in E.
  - left. exists o. split; [constructor|exact E].
  - cbn [run_instrs] in E. inv_bind E. destruct v as [s1 o1].
    assert (G : s1 <> RCont -> (e <- get_exec o1 id ;; e1 <- clear_exec e ;; o2 <- put_exec o1 id e1 ;; Val (s1, o2)) = Val (st, o') ->
      exists is1 is2 o2 e e1, i :: is = is1 ++ is2 /\ steps cf fuel id o is1 o2 /\ nth_error (o_arena o2) id = Some e /\ clear_exec e = Val e1 /\
        put_exec o2 id e1 = Val o').
    { intros N F. inv_bind F. inv_bind F. inv_bind F. injection F as _ <-. exists [i], is, o1, v, v0. csplit; auto.
      - eapply sp_stop; eauto.
      - apply get_some. exact Hv0. }
    destruct s1; [|right; apply G; [discriminate|exact E]|right; apply G; [discriminate|exact E]].
    destruct (IH _ _ _ E) as [(o2 & S2 & R2)|(is1 & is2 & o2 & e & e1 & -> & S2 & R)].
    + left. exists o2. split; [eapply sp_cons; eauto|exact R2].
    + right. exists (i :: is1), is2, o2, e, e1. split; [reflexivity|]. split; [eapply sp_cons; eauto|exact R].
Qed.
Lemma Forall2_in_l {A B} (R : A -> B -> Prop) l k x : Forall2 R l k -> In x l -> exists y, In y k /\ R x y.
Proof. induction 1; intros []; subst; [eexists; split; [left; reflexivity|assumption]|]. destruct IHForall2 as (y0 & Hy & Hr); auto. exists y0. split; [right; exact Hy|exact Hr]. Qed.

(** --- one turn --- *)
Section Turn.
Variable cf : cfg.
Variable sto : storage.
Hypothesis ok : sto_ok sto.
Hypothesis C0 : exists s, nthZ (s_functors sto) 0 = Some (FV s 0).
Variable P : list (list node).
Variable pg : prog.
Hypothesis PC : prog_code cf sto P pg.
Hypothesis CW : Forall clause_wf P.
Hypothesis AW : Forall clause_wf append_clauses.
Notation pwf := (pwf sto).

Record good_state (o : org) (ps : list process) : Prop := {
  gs_sto : o_sto o = sto;
  gs_prog : o_prog o = pg;
  gs_ref : refines cf o ps;
  gs_pwf : Forall pwf ps;
  gs_all : AH sto (o_arena o)
}.

(** the executor at the front and its process *)
Lemma front o ps id q : good_state o ps -> o_queue o = id :: q -> exists p ps' e, ps = p :: ps' /\ pwf p /\
  nth_error (o_arena o) id = Some e /\ childless (o_arena o) id /\ mrel (heap_at (o_arena o) (x_parent e)) (x_m e) (p_m p) /\
  forall c cs, x_codes e = c :: cs -> exists a rest is ctl, p_codes p = a :: rest /\ follow o c = Val a /\ cok sto a /\
    ca_code a = is ++ [ctl] /\ removelast (ca_code a) = is /\ forallb is_local is = true /\ is_local ctl = false.
Proof.
  intros [E1 E2 HR FW A] Hq. pose proof HR as [Hp Hnd Hch Hpr HF]. rewrite Hq in HF. inversion HF as [|? p ? ps' Hid HF']; subst.
  destruct Hid as (e & He & Hst & Hm & Hcd & Hk). inversion FW as [|? ? F1 F2]; subst. exists p, ps', e. csplit; auto.
  { apply Hch. rewrite Hq. left. reflexivity. }
  intros c cs Hxc. rewrite Hxc in Hcd. inversion Hcd as [|? a ? rest Hfo Hrest E0 E1]; subst.
  assert (Hsh : query_shape a \/ head_shape a).
  { destruct Hk as [_ _ Hs|? ? ? _ _ _ _ Hs|? h b _ _ Hh Hs _]; rewrite <- E1 in Hs || rewrite <- E1 in Hh.
    - inversion Hs; auto.
    - inversion Hs; auto.
    - injection Hh as -> ->. auto. }
  destruct (shape_split a Hsh) as (is & ctl & Hcode & Hloc & Hr & _ & Hctl). exists a, rest, is, ctl. csplit; auto.
  - pose proof (proj2 (proj2 F1)) as FC. rewrite <- E1 in FC. inversion FC; assumption.
  - destruct Hctl as [[f ->]|[->|[_ ->]]]; reflexivity.
Qed.

Lemma prefix_of {A} (is1 is2 is : list A) x y : is1 ++ x :: is2 = is ++ [y] -> exists t, is = is1 ++ t.
Proof.
  intros E. exists (removelast (x :: is2)). apply (f_equal (@removelast A)) in E. rewrite removelast_last in E.
  rewrite removelast_app in E by discriminate. symmetry. exact E.
Qed.
(** one executor changes, by its own instructions *)
Lemma AH_changed o ar' id e e' fm k : parents_ok (o_arena o) -> childless (o_arena o) id -> AH sto (o_arena o) ->
  nth_error (o_arena o) id = Some e -> List.length (o_arena o) <= List.length ar' -> nth_error ar' id = Some e' ->
  (forall j, j < List.length (o_arena o) -> j <> id -> nth_error ar' j = nth_error (o_arena o) j) ->
  x_parent e' = x_parent e -> hrel (heap_at (o_arena o) (x_parent e)) (m_heap (x_m e')) fm -> wfh sto k fm ->
  forall j x, j < List.length (o_arena o) -> nth_error ar' j = Some x -> hset1 sto ar' x.
Proof.
  intros Hp Hc A He L N J Px Hm W j x Hj Hx. destruct (Nat.eq_dec j id) as [->|Ne].
  - rewrite N in Hx. injection Hx as <-. exists fm, k. split; [|exact W]. rewrite Px. eapply hrel_ext; [|exact Hm].
    intros a. eapply heap_at_frame with (id := id); eauto. destruct (x_parent e) as [g|] eqn:Eq; auto.
    pose proof (Hp _ _ _ He Eq). split; [lia|]. intros ->. exact (Hc _ _ He Eq).
  - rewrite (J j Hj Ne) in Hx. eapply hset1_frame with (id := id); eauto.
Qed.

Lemma inside_settles fuel o ps o2 : good_state o ps -> inside cf fuel o o2 -> parents_ok (o_arena o2) /\ AH sto (o_arena o2).
Proof.
  intros G (id & q & e & c & cs & a & is1 & i & is2 & o1 & Hq & He & Hc & Hf & Ha & Hp1 & St).
  destruct (front o ps id q G Hq) as (p & ps' & e' & -> & PW & He' & Hch & Hm & K). rewrite He in He'. injection He' as <-.
  destruct (K c cs Hc) as (a' & rest & is & ctl & Hcs & Hfo & Ck & Hcode & Hrl & Hloc & _). rewrite Hf in Hfo. injection Hfo as <-.
  pose proof (rf_parents _ _ _ (gs_ref _ _ G)) as Hp.
  pose proof Hcode as Hcode'. rewrite Ha in Hcode'. destruct (prefix_of _ _ _ _ _ Hcode') as [t Et].
  set (o0 := set_queue o q) in *. set (m0 := set_regs (x_m e) (resize (m_regs (x_m e)) (ca_regs a))) in *.
  assert (Hm0 : mrel (heap_at (o_arena o0) (x_parent e)) m0 (start p a)).
  { unfold m0, start. destruct Hm as (M1 & M2 & M3). rewrite M2. apply mrel_set_regs. split; auto. }
  destruct (put_exec_some o0 id e (with_m e m0) He) as (ar1 & Ep & L1 & N1 & J1). rewrite Ep in Hp1. injection Hp1 as <-.
  rewrite Et, forallb_app in Hloc. apply andb_prop in Hloc. destruct Hloc as [Hl1 _].
  destruct (steps_locals cf fuel o0 id e Hp Hch He _ _ _ St ar1 m0 (start p a) eq_refl Hl1 L1 N1 J1 Hm0)
    as (ar2 & m2 & ss & s & fm2 & -> & L2 & N2 & J2 & M2 & R2). cbn [o_arena set_arena].
  change (o_sto o0) with (o_sto o) in R2. rewrite (gs_sto _ _ G) in R2.
  rewrite Et in Hrl. destruct (turn_runs cf sto ok C0 p a fuel is1 t s fm2 PW Ck Hrl R2) as [k W].
  assert (KK := fun x1 x2 x3 => AH_changed o ar2 id e (with_state (with_m e m2) ss) (m_heap fm2) k Hp Hch (gs_all _ _ G) He x1 N2 x2 eq_refl x3 W).
  assert (KA : forall j x, nth_error ar2 j = Some x -> hset1 sto ar2 x).
  { intros j x Hx. eapply KK; eauto.
    - change (o_arena o0) with (o_arena o) in L2. lia.
    - apply M2.
    - apply nth_error_lt in Hx. rewrite L2 in Hx. exact Hx. }
  split; [|exact KA]. intros j x g Hx Hg. destruct (Nat.eq_dec j id) as [->|Ne].
  - rewrite N2 in Hx. injection Hx as <-. exact (Hp _ _ _ He Hg).
  - rewrite J2 in Hx by assumption. exact (Hp _ _ _ Hx Hg).
Qed.

Lemma turn_good fuel o ps r o' : good_state o ps -> o_queue o <> [] -> turn cf fuel o = Val (r, o') -> exists ps', good_state o' ps'.
Proof.
  intros G Hne E. destruct (o_queue o) as [|id q] eqn:Hq; [contradiction|]. clear Hne.
  destruct (front o ps id q G Hq) as (p & ps' & e & -> & PW & He & Hch & Hm & K).
  pose proof (rf_parents _ _ _ (gs_ref _ _ G)) as Hp.
  pose proof (turn_refines cf fuel o _ (gs_ref _ _ G)) as TR. cbn iota in TR.
  destruct (p_turn cf (o_sto o) fuel (o_prog o) p) as [sr|u|] eqn:Ept; try (rewrite TR in E; discriminate).
  destruct TR as (o1 & id' & q' & Eq' & Et & HR' & Hsc & Hag & Hq1 & _). rewrite Hq in Eq'. injection Eq' as <- <-.
  rewrite Et in E. injection E as <- <-. destruct Hsc as (S1 & S2 & _).
  assert (FW' : Forall pwf (ps' ++ kids_of sr)).
  { apply Forall_app. split; [exact (Forall_inv_tail (gs_pwf _ _ G))|]. destruct sr; cbn; auto.
    rewrite (gs_sto _ _ G), (gs_prog _ _ G) in Ept. eapply turn_pwf; eauto. }
  exists (ps' ++ kids_of sr). split; auto; try (rewrite ?S1, ?S2; apply G).
  destruct Hag as (_ & _ & Hl & Hj).
  (* the executor itself *)
  assert (ME : exists e' fm k, nth_error (o_arena o1) id = Some e' /\ x_parent e' = x_parent e /\
     hrel (heap_at (o_arena o) (x_parent e)) (m_heap (x_m e')) fm /\ wfh sto k fm /\
     forall j, List.length (o_arena o) <= j < List.length (o_arena o1) -> In j (o_queue o1)).
  { clear HR' FW' Ept. pose proof Et as T. unfold turn in T. rewrite Hq in T. set (o0 := set_queue o q) in *.
    rewrite (get_exec_some o0 id e He) in T. cbn [bind] in T. destruct (x_codes e) as [|c cs] eqn:Hxc; [discriminate T|].
    destruct (K c cs eq_refl) as (a & rest & is & ctl & Hcs & Hfo & Ck & Hcode & Hrl & Hloc & Hctl).
    change (follow o0 c) with (follow o c) in T. rewrite Hfo in T. cbn [bind] in T.
    set (m0 := set_regs (x_m e) (resize (m_regs (x_m e)) (ca_regs a))) in *.
    assert (Hm0 : mrel (heap_at (o_arena o0) (x_parent e)) m0 (start p a)).
    { unfold m0, start. destruct Hm as (M1 & M2 & M3). rewrite M2. apply mrel_set_regs. split; auto. }
    destruct (put_exec_some o0 id e (with_m e m0) He) as (ar1 & Ep & L1 & N1 & J1). rewrite Ep in T. cbn [bind] in T.
    apply bind_val in T. destruct T as ([st o2] & T & T2).
    assert (o2 = o1); [|subst o2].
    { destruct st.
      - inv_bind T2. destruct (x_state v); try (injection T2 as _ <-; reflexivity). inv_bind T2. injection T2 as _ <-. reflexivity.
      - inv_bind T2. destruct (x_state v); try (injection T2 as _ <-; reflexivity). inv_bind T2. injection T2 as _ <-. reflexivity.
      - injection T2 as _ <-. reflexivity. }
    clear T2. rewrite Hcode in T.
    assert (MID : forall is1 is2 o2, is = is1 ++ is2 -> steps cf fuel id (set_arena o0 ar1) is1 o2 -> exists e2 fm k,
       nth_error (o_arena o2) id = Some e2 /\ x_parent e2 = x_parent e /\ hrel (heap_at (o_arena o) (x_parent e)) (m_heap (x_m e2)) fm /\ wfh sto k fm /\
       List.length (o_arena o2) = List.length (o_arena o)).
    { intros is1 is2 o2 Ei St. rewrite Ei, forallb_app in Hloc. apply andb_prop in Hloc. destruct Hloc as [Hl1 _].
      destruct (steps_locals cf fuel o0 id e Hp Hch He _ _ _ St ar1 m0 (start p a) eq_refl Hl1 L1 N1 J1 Hm0)
        as (ar2 & m2 & ss & s & fm2 & -> & L2 & N2 & J2 & M2 & R2).
      change (o_sto o0) with (o_sto o) in R2. rewrite (gs_sto _ _ G) in R2. rewrite Ei in Hrl.
      destruct (turn_runs cf sto ok C0 p a fuel is1 is2 s fm2 PW Ck Hrl R2) as [k W].
      exists (with_state (with_m e m2) ss), (m_heap fm2), k. csplit; auto. apply M2. }
    destruct (run_steps _ _ _ _ _ _ _ _ T) as [(o2 & St & R2)|(is1 & is2 & o2 & e2 & e3 & Ei & St & He2 & Hcl & Hput)].
    - destruct (MID is [] o2 (eq_sym (app_nil_r _)) St) as (e2 & fm & k & N2 & P2 & H2 & W2 & L2).
      pose proof (ctl_run_keeps _ _ _ _ _ _ _ Hctl R2) as [A B C D]. destruct (A e2 N2) as (e3 & N3 & P3 & M3).
      exists e3, fm, k. csplit; auto; [congruence|rewrite M3; exact H2|]. intros j Hjj. apply D. lia.
    - destruct (MID is1 is2 o2 Ei St) as (e2' & fm & k & N2 & P2 & H2 & W2 & L2). rewrite He2 in N2. injection N2 as <-.
      destruct (clear_same _ _ Hcl) as [Pc Mc]. pose proof (put_keeps id o2 e2 e3 o1 He2 Pc Mc Hput) as [A B C D].
      destruct (A e2 He2) as (e4 & N4 & P4 & M4). exists e4, fm, k. csplit; auto; [congruence|rewrite M4; exact H2|].
      intros j Hjj. pose proof (put_len _ _ _ _ Hput). apply D. lia. }
  destruct ME as (e' & fm & k & N' & Px & Hh & W & New).
  intros j x Hx. destruct (Nat.lt_ge_cases j (List.length (o_arena o))) as [Hlt|Hge].
  - eapply (AH_changed o (o_arena o1) id e e' fm k); eauto. apply G.
  - pose proof (nth_error_lt _ _ _ Hx) as Hjl. specialize (New j (conj Hge Hjl)).
    pose proof (rf_queue _ _ _ HR') as F. destruct (Forall2_in_l _ _ _ _ F New) as (pj & Hpj & (ej & Hej & _ & Hmj & _)).
    rewrite Hx in Hej. injection Hej as <-. rewrite Forall_forall in FW'. specialize (FW' pj Hpj).
    exists (m_heap (p_m pj)), 0. split; [apply Hmj|apply FW'].
Qed.
Lemma quiet_good fuel o ps o' : good_state o ps -> quiet cf fuel o o' -> exists ps', good_state o' ps'.
Proof.
  intros G Q. revert ps G. induction Q as [o|o o1 o2 Hne Et Q IH]; intros ps G; [eauto|].
  destruct (turn_good _ _ _ _ _ G Hne Et) as [ps1 G1]. eauto.
Qed.
Lemma answer_good fuel n w o ps r o' : good_state o ps -> get_answer cf fuel n w o = Val (r, o') -> r <> ROutOfMemory ->
  exists ps', good_state o' ps'.
Proof.
  intros G E Hr. destruct (answer_last_turn _ _ _ _ _ _ _ _ E Hr) as (o1 & HQ & K). destruct (quiet_good _ _ _ _ G HQ) as [ps1 G1].
  assert (L : o_queue o1 <> [] /\ turn cf fuel o1 = Val (Some r, o') -> exists ps', good_state o' ps').
  { intros [Hne Et]. exact (turn_good _ _ _ _ _ G1 Hne Et). }
  destruct r; try contradiction; try (apply L; exact K); (destruct K as [-> _]; eauto).
Qed.
End Turn.

(** --- the first functor --- *)
Lemma term_same cf cf' b c : perm_order cf c true = perm_order cf' c true -> forall s, compile_program_term cf b c s = compile_program_term cf' b c s.
Proof. intros E s. unfold compile_program_term. destruct c; [reflexivity|]. rewrite E. reflexivity. Qed.
Lemma built_ins_same cf : ord_ok cf -> compile_built_ins cf empty_storage = compile_built_ins cfg0 empty_storage.
Proof.
  intros OK. pose proof (ord_nil cf OK) as Hn.
  assert (B : forall nm f p s, compile_binary cf nm f p s = compile_binary cfg0 nm f p s).
  { intros nm f p s. unfold compile_binary. destruct (pred_regs (binary_pred nm)). unfold cbind.
    rewrite (term_same cf cfg0); [reflexivity|]. unfold perm_order. cbn -[c_ord String.eqb]. rewrite Hn. reflexivity. }
  assert (A : forall c, In c append_clauses -> forall s, compile_program_term cf true c s = compile_program_term cfg0 true c s).
  { intros c [<-|[<-|[]]]; apply term_same; unfold perm_order.
    - change (perm_vars _ true) with (@nil string). exact Hn.
    - change (perm_vars _ true) with (@nil string). exact Hn. }
  assert (C : forall cs p, (forall c, In c cs -> forall s, compile_program_term cf true c s = compile_program_term cfg0 true c s) ->
    forall s, compile_clauses cf true cs p s = compile_clauses cfg0 true cs p s).
  { induction cs as [|c cs IH]; intros p H s; [reflexivity|]. cbn [compile_clauses]. unfold cbind. rewrite (H c (or_introl eq_refl)).
    destruct (compile_program_term cfg0 true c s) as [[[f r]|e|] s1]; try reflexivity. apply IH. intros c' Hc'. apply H. right. exact Hc'. }
  unfold compile_built_ins. unfold cbind at 1. rewrite B. symmetry. unfold cbind at 1. symmetry.
  destruct (compile_binary cfg0 "is" IIs [] empty_storage) as [[p1|e|] s1]; try reflexivity.
  unfold cbind at 1. rewrite B. symmetry. unfold cbind at 1. symmetry.
  destruct (compile_binary cfg0 "==" IEq p1 s1) as [[p2|e|] s2]; try reflexivity.
  unfold cbind at 1. rewrite B. symmetry. unfold cbind at 1. symmetry.
  destruct (compile_binary cfg0 "\==" INeq p2 s2) as [[p3|e|] s3]; try reflexivity.
  apply C. exact A.
Qed.

Theorem new_org_total cf : ord_ok cf -> exists o, new_org cf = Val o.
Proof.
  intros OK. unfold new_org. rewrite (built_ins_same cf OK). destruct (compile_built_ins cfg0 empty_storage) as [[p|e|] s] eqn:E; [eauto|exfalso|exfalso].
  - assert (K : match fst (compile_built_ins cfg0 empty_storage) with CErr _ => False | _ => True end) by (vm_compute; exact I). rewrite E in K. exact K.
  - assert (K : match fst (compile_built_ins cfg0 empty_storage) with CEsc => False | _ => True end) by (vm_compute; exact I). rewrite E in K. exact K.
Qed.

(** --- sessions --- *)
Lemma load_program_sto cf text o r o' : load_program cf text o = Some (r, o') -> sto_ext (o_sto o) (o_sto o') /\ o_arena o' = o_arena o.
Proof.
  unfold load_program. destruct (parse_program text) as [[cs|e|]|]; try discriminate.
  - pose proof (compile_clauses_ext cf false cs [] (o_sto o)) as X. unfold compile_program in *.
    destruct (compile_clauses cf false cs [] (o_sto o)) as [[p|e|] s]; intros E; injection E as _ <-; split; auto.
  - intros E. injection E as _ <-. split; [apply sto_ext_refl|reflexivity].
  - intros E. injection E as _ <-. split; [apply sto_ext_refl|reflexivity].
Qed.
Lemma load_query_sto cf text o r o' : load_query cf text o = Some (r, o') -> sto_ext (o_sto o) (o_sto o') /\
  (o_arena o' = o_arena o \/ exists g rl, o_arena o' = [init_exec g rl]).
Proof.
  unfold load_query. destruct (parse_query (append_dot text)) as [[cs|e|]|]; try discriminate.
  - pose proof (compile_query_ext cf cs (o_sto o)) as X.
    destruct (compile_query cf cs (o_sto o)) as [[p|e|] s]; intros E; injection E as _ <-; split; auto.
    right. cbn. eauto.
  - intros E. injection E as _ <-. split; [apply sto_ext_refl|auto].
  - intros E. injection E as _ <-. split; [apply sto_ext_refl|auto].
Qed.
Lemma answer_sto cf o P s fuel n w r o' : session cf o P s -> s <> QStale -> get_answer cf fuel n w o = Val (r, o') -> r <> ROutOfMemory ->
  o_sto o' = o_sto o.
Proof.
  intros H Hs E Hr. destruct (session_inv _ _ _ _ H) as [A K].
  assert (G : forall root T Qu g, refines cf o (map snd Qu) -> search cf (o_sto o) (o_prog o) root T Qu ->
            goals cf (o_sto o) (o_prog o) T g -> o_stats o = (Z.of_nat g mod 4294967296)%Z -> o_sto o' = o_sto o).
  { intros root T Qu g B C D F. destruct (answer_loop_search cf _ _ _ _ _ _ _ _ _ _ _ B C D F E Hr) as (? & ? & ? & _ & _ & _ & _ & (S1 & _) & _). exact S1. }
  destruct s as [|q|q|]; [|destruct K as (rl & K1 & K2 & K3 & K4 & K5)|destruct K as (rl & T & Qu & g & K1 & K2 & K3 & K4 & K5)|contradiction].
  - unfold get_answer in E. destruct n as [|n]; cbn in E; [discriminate|]. cbn in K. rewrite K in E. injection E as <- <-. reflexivity.
  - eapply (G (init_proc rl) [] [([], init_proc rl)] 0); auto; try solve [constructor].
    cbn [map snd]. apply init_refines; auto. apply entries_prog_shape. apply A.
  - eapply G; eauto.
Qed.
Lemma nthZ_ext sto sto' i f : sto_ext sto sto' -> nthZ (s_functors sto) i = Some f -> nthZ (s_functors sto') i = Some f.
Proof.
  intros [[l E] _] H. unfold nthZ in *. destruct (Z.ltb i 0); [discriminate|]. rewrite E, nth_error_app1; [exact H|].
  eapply nth_error_lt; eauto.
Qed.
Lemma session_first cf o P s : ord_ok cf -> session cf o P s -> nthZ (s_functors (o_sto o)) 0 = Some (FV "[" 0).
Proof.
  intros OK. induction 1 as [o E|o P s text cs o' H IH Ep E|o P s text r o' H IH E Hr|o P s text q o' H IH Ep E
                 |o P s text r o' H IH E Hr|o P s t H IH|o P s fuel n w r o' H IH Hs E Hr].
  - unfold new_org in E. rewrite (built_ins_same cf OK) in E.
    assert (K : nthZ (s_functors (snd (compile_built_ins cfg0 empty_storage))) 0 = Some (FV "[" 0)) by (vm_compute; reflexivity).
    destruct (compile_built_ins cfg0 empty_storage) as [[p|e|] s1]; try discriminate. injection E as <-. exact K.
  - eapply nthZ_ext; [apply (load_program_sto _ _ _ _ _ E)|exact IH].
  - eapply nthZ_ext; [apply (load_program_sto _ _ _ _ _ E)|exact IH].
  - eapply nthZ_ext; [apply (load_query_sto _ _ _ _ _ E)|exact IH].
  - eapply nthZ_ext; [apply (load_query_sto _ _ _ _ _ E)|exact IH].
  - exact IH.
  - rewrite (answer_sto _ _ _ _ _ _ _ _ _ H Hs E Hr). exact IH.
Qed.
Lemma wfh_ext sto sto' k h : sto_ext sto sto' -> wfh sto k h -> wfh sto' k h.
Proof.
  intros X [A B]. split; [|exact B]. intros a c Hc. specialize (A a c Hc). destruct c; cbn in *; auto.
  - destruct A as [s K]. exists s. eapply nthZ_ext; eauto.
  - destruct A as (A1 & (s & K) & A2). csplit; auto. exists s. eapply nthZ_ext; eauto.
Qed.
Lemma AH_ext sto sto' ar : sto_ext sto sto' -> AH sto ar -> AH sto' ar.
Proof. intros X A id e He. destruct (A id e He) as (fh & k & H & W). exists fh, k. split; [exact H|eapply wfh_ext; eauto]. Qed.
Lemma small_back sto sto' : sto_ext sto sto' -> small_tables sto' -> small_tables sto.
Proof.
  intros [[l E] _] [A B]. rewrite E in A, B. split.
  - rewrite app_length in A. lia.
  - intros f Hf. apply B. apply in_app_iff. auto.
Qed.
Lemma hset1_new sto ar e : x_m e = new_m 0 [] [] -> hset1 sto ar e.
Proof.
  intros E. exists [], 0. rewrite E. split.
  - split; [reflexivity|]. intros i. unfold l_at, l_size. cbn. now destruct i.
  - split; [intros [|a] c H; discriminate H|intros a H; inversion H].
Qed.
Lemma one_parents e : x_parent e = None -> parents_ok [e].
Proof. intros E [|[|]] x q He; try discriminate. injection He as <-. congruence. Qed.
Lemma one_AH sto e : x_m e = new_m 0 [] [] -> AH sto [e].
Proof. intros E [|[|]] x He; try discriminate. injection He as <-. now apply hset1_new. Qed.

Lemma session_pending cf o P s : ord_ok cf -> session cf o P s -> s <> QStale -> small_tables (o_sto o) -> AH (o_sto o) (o_arena o) ->
  exists ps, good_state cf (o_sto o) (o_prog o) o ps.
Proof.
  intros OK HS Ns SM A. destruct (session_inv _ _ _ _ HS) as [CO K]. destruct (session_parsed _ _ _ _ HS) as [[PW _] QW].
  assert (ok : sto_ok (o_sto o)) by (destruct SM; split; auto; eapply session_nodup; eauto).
  assert (C0 : exists s, nthZ (s_functors (o_sto o)) 0 = Some (FV s 0)) by (eexists; eapply session_first; eauto).
  assert (AW : Forall clause_wf append_clauses) by (apply Forall_forall; intros c Hc; apply (append_ok cf OK c Hc)).
  destruct s as [|q|q|]; [| | |contradiction].
  - destruct (session_refines _ _ _ _ HS Ns) as [ps HR]. exists ps. cbn in K. pose proof (rf_queue _ _ _ HR) as F. rewrite K in F. inversion F; subst.
    split; auto.
  - destruct K as (r & K1 & K2 & K3 & K4 & K5). exists [init_proc r]. split; auto.
    + apply init_refines; auto. apply entries_prog_shape. apply CO.
    + constructor; [|constructor]. exact (root_pwf cf (o_sto o) ok q r K1 (proj2 QW)).
  - destruct K as (r & T & Q & g & K1 & K2 & K3 & K4 & K5). exists (map snd Q). split; auto.
    apply Forall_forall. intros p Hp. apply in_map_iff in Hp. destruct Hp as ([pi p'] & <- & Hin). cbn [snd].
    destruct (search_order _ _ _ _ _ _ K3) as (_ & _ & _ & PT & _). specialize (PT _ _ Hin).
    eapply path_pwf; [exact ok|exact C0|apply CO|exact PW|exact AW| |exact PT]. exact (root_pwf cf (o_sto o) ok q r K1 (proj2 QW)).
Qed.
Lemma session_heaps cf o P s : ord_ok cf -> session cf o P s -> small_tables (o_sto o) ->
  parents_ok (o_arena o) /\ AH (o_sto o) (o_arena o).
Proof.
  intros OK. induction 1 as [o E|o P s text cs o' H IH Ep E|o P s text r o' H IH E Hr|o P s text q o' H IH Ep E
                 |o P s text r o' H IH E Hr|o P s t H IH|o P s fuel n w r o' H IH Hs E Hr]; intros SM.
  - unfold new_org in E. destruct (compile_built_ins cf empty_storage) as [[p|e|] s1]; try discriminate. injection E as <-. cbn [o_arena].
    split; [now apply one_parents|now apply one_AH].
  - destruct (load_program_sto _ _ _ _ _ E) as [X Ea]. destruct (IH (small_back _ _ X SM)) as [A B]. rewrite Ea. split; [exact A|eapply AH_ext; eauto].
  - destruct (load_program_sto _ _ _ _ _ E) as [X Ea]. destruct (IH (small_back _ _ X SM)) as [A B]. rewrite Ea. split; [exact A|eapply AH_ext; eauto].
  - destruct (load_query_sto _ _ _ _ _ E) as [X [Ea|(g & rl & Ea)]]; rewrite Ea.
    + destruct (IH (small_back _ _ X SM)) as [A B]. split; [exact A|eapply AH_ext; eauto].
    + split; [now apply one_parents|now apply one_AH].
  - destruct (load_query_sto _ _ _ _ _ E) as [X [Ea|(g & rl & Ea)]]; rewrite Ea.
    + destruct (IH (small_back _ _ X SM)) as [A B]. split; [exact A|eapply AH_ext; eauto].
    + split; [now apply one_parents|now apply one_AH].
  - exact (IH SM).
  - rewrite (answer_sto _ _ _ _ _ _ _ _ _ H Hs E Hr) in SM. destruct (IH SM) as [A B].
    destruct (session_pending cf o P s OK H Hs SM B) as [ps G].
    destruct (session_inv _ _ _ _ H) as [CO _]. destruct (session_parsed _ _ _ _ H) as [[PW _] _].
    assert (ok : sto_ok (o_sto o)) by (destruct SM; split; auto; eapply session_nodup; eauto).
    assert (C0 : exists s, nthZ (s_functors (o_sto o)) 0 = Some (FV s 0)) by (eexists; eapply session_first; eauto).
    assert (AW : Forall clause_wf append_clauses) by (apply Forall_forall; intros c Hc; apply (append_ok cf OK c Hc)).
    destruct (answer_good cf (o_sto o) ok C0 P (o_prog o) (ck_prog _ _ _ CO) PW AW fuel n w o ps r o' G E Hr) as [ps' G'].
    split; [apply (rf_parents _ _ _ (gs_ref _ _ _ _ _ G'))|]. rewrite (gs_sto _ _ _ _ _ G'). apply (gs_all _ _ _ _ _ G').
Qed.

(** C12 *)
Theorem all_references_end cf o P s fuel o1 o2 : ord_ok cf -> session cf o P s -> s <> QStale -> small_tables (o_sto o) ->
  quiet cf fuel o o1 -> o2 = o1 \/ inside cf fuel o1 o2 -> all_settle o2.
Proof.
  intros OK HS Ns SM Q K. destruct (session_heaps cf o P s OK HS SM) as [A B]. destruct (session_pending cf o P s OK HS Ns SM B) as [ps G].
  destruct (session_inv _ _ _ _ HS) as [CO _]. destruct (session_parsed _ _ _ _ HS) as [[PW _] _].
  assert (ok : sto_ok (o_sto o)) by (destruct SM; split; auto; eapply session_nodup; eauto).
  assert (C0 : exists s, nthZ (s_functors (o_sto o)) 0 = Some (FV s 0)) by (eexists; eapply session_first; eauto).
  assert (AW : Forall clause_wf append_clauses) by (apply Forall_forall; intros c Hc; apply (append_ok cf OK c Hc)).
  destruct (quiet_good cf (o_sto o) ok C0 P (o_prog o) (ck_prog _ _ _ CO) PW AW fuel o ps o1 G Q) as [ps1 G1].
  destruct K as [->|K].
  - eapply AH_settles; [apply (rf_parents _ _ _ (gs_ref _ _ _ _ _ G1))|apply (gs_all _ _ _ _ _ G1)].
  - destruct (inside_settles cf (o_sto o) ok C0 P (o_prog o) (ck_prog _ _ _ CO) fuel o1 ps1 o2 G1 K) as [C D]. eapply AH_settles; eauto.
Qed.
Theorem references_end_stale cf o P s : ord_ok cf -> session cf o P s -> small_tables (o_sto o) -> all_settle o.
Proof. intros OK HS SM. destruct (session_heaps cf o P s OK HS SM). eapply AH_settles; eauto. Qed.

(** C45: what a cell of a waiting executor may be *)
Definition cell_complete (o : org) (id a : nat) (c : cell) : Prop :=
  match c with
  | CRef b _ | CStr b => allocated o id b
  | CInt _ => True
  | CCons i => exists s, nthZ (s_functors (o_sto o)) i = Some (FV s 0)
  | CFun i n => exists s k, n = Z.of_nat k /\ nthZ (s_functors (o_sto o)) i = Some (FV s k) /\
      forall j, j <= k -> allocated o id (a + j)
  | CEval i n => (0 <= i <= 4)%Z /\ n = 2%Z /\ forall j, j <= 2 -> allocated o id (a + j)
  end.
Theorem pending_complete cf o P s fuel o1 : ord_ok cf -> session cf o P s -> s <> QStale -> small_tables (o_sto o) ->
  quiet cf fuel o o1 -> forall id a, In id (o_queue o1) -> allocated o1 id a -> exists c, reads o1 id a = Some c /\ cell_complete o1 id a c.
Proof.
  intros OK HS Ns SM Q id a Hin (e & He & La). destruct (session_heaps cf o P s OK HS SM) as [A B]. destruct (session_pending cf o P s OK HS Ns SM B) as [ps G].
  destruct (session_inv _ _ _ _ HS) as [CO _]. destruct (session_parsed _ _ _ _ HS) as [[PW _] _].
  assert (ok : sto_ok (o_sto o)) by (destruct SM; split; auto; eapply session_nodup; eauto).
  assert (C0 : exists s, nthZ (s_functors (o_sto o)) 0 = Some (FV s 0)) by (eexists; eapply session_first; eauto).
  assert (AW : Forall clause_wf append_clauses) by (apply Forall_forall; intros c Hc; apply (append_ok cf OK c Hc)).
  destruct (quiet_good cf (o_sto o) ok C0 P (o_prog o) (ck_prog _ _ _ CO) PW AW fuel o ps o1 G Q) as [ps1 G1].
  destruct (Forall2_in_l _ _ _ _ (rf_queue _ _ _ (gs_ref _ _ _ _ _ G1)) Hin) as (p & Hp & (e' & He' & _ & [[Hs Ha] _] & _)).
  rewrite He in He'. injection He' as <-. pose proof (gs_pwf _ _ _ _ _ G1) as F. rewrite Forall_forall in F. destruct (F p Hp) as [[W _] _].
  assert (AL : forall b, b < l_size (m_heap (x_m e)) -> allocated o1 id b) by (intros b Hb; exists e; auto).
  set (h := m_heap (p_m p)) in *. pose proof La as La'. rewrite Hs in La'. apply nth_error_Some in La'. destruct (nth_error h a) as [c|] eqn:Ec; [|congruence].
  exists c. split; [rewrite (reads_at o1 id e a (rf_parents _ _ _ (gs_ref _ _ _ _ _ G1)) He), Ha; exact Ec|].
  specialize (W a c Ec). unfold cell_complete. rewrite (gs_sto _ _ _ _ _ G1). pose proof La as La2. rewrite Hs in La2.
  assert (LE : forall b, b < List.length h -> allocated o1 id b) by (intros b Hb; apply AL; rewrite Hs; exact Hb).
  destruct c as [i|z|b v|i n|i n|b]; cbn in W.
  - exact W.
  - exact I.
  - apply LE. exact W.
  - destruct W as (W1 & (nm & W2) & W3). exists nm, (Z.to_nat n). csplit; auto; [lia|]. intros j Hj. apply LE. lia.
  - destruct W as (-> & W2 & W3). csplit; auto; try apply W2. intros j Hj. apply LE. lia.
  - apply LE. lia.
Qed.

(** --- concrete states --- *)
Fixpoint turnsb (k : nat) (o : org) : option org :=
  match k with
  | 0 => Some o
  | S k' => match o_queue o, turn cfg0 1000 o with _ :: _, Val (None, o1) => turnsb k' o1 | _, _ => None end
  end.
Fixpoint stepsb (id : nat) (is : list instr) (o : org) : option org :=
  match is with
  | [] => Some o
  | i :: is' => match instr_step cfg0 1000 o id i with Val (RCont, o1) => stepsb id is' o1 | _ => None end
  end.
Definition insideb (n : nat) (o : org) : option org :=
  match o_queue o with
  | id :: q =>
      match nth_error (o_arena o) id with
      | Some e =>
          match x_codes e with
          | p :: _ =>
              match follow o p with
              | Val a =>
                  if Nat.ltb n (List.length (ca_code a)) then
                    match put_exec (set_queue o q) id (with_m e (set_regs (x_m e) (resize (m_regs (x_m e)) (ca_regs a)))) with
                    | Val o1 => stepsb id (firstn n (ca_code a)) o1
                    | _ => None
                    end
                  else None
              | _ => None
              end
          | [] => None
          end
      | None => None
      end
  | [] => None
  end.
Lemma turnsb_quiet k : forall o o1, turnsb k o = Some o1 -> quiet cfg0 1000 o o1.
Proof.
  induction k as [|k IH]; intros o o1 E; cbn [turnsb] in E; [injection E as <-; constructor|].
  destruct (o_queue o) as [|id q] eqn:Eq; [discriminate|]. destruct (turn cfg0 1000 o) as [[[r|] o2]| |] eqn:Et; try discriminate.
  eapply quiet_turn; [congruence|exact Et|]. apply IH. exact E.
Qed.
Lemma stepsb_steps id is : forall o o1, stepsb id is o = Some o1 -> steps cfg0 1000 id o is o1.
Proof.
  induction is as [|i is IH]; intros o o1 E; cbn [stepsb] in E; [injection E as <-; constructor|].
  destruct (instr_step cfg0 1000 o id i) as [[[] o2]| |] eqn:Et; try discriminate. eapply sp_cons; [exact Et|]. apply IH. exact E.
Qed.
Lemma insideb_inside n o o2 : insideb n o = Some o2 -> inside cfg0 1000 o o2.
Proof.
  unfold insideb. intros E. destruct (o_queue o) as [|id q] eqn:Eq; [discriminate|]. destruct (nth_error (o_arena o) id) as [e|] eqn:Ee; [|discriminate].
  destruct (x_codes e) as [|p ps] eqn:Ec; [discriminate|]. destruct (follow o p) as [a| |] eqn:Ef; try discriminate.
  destruct (Nat.ltb_spec n (List.length (ca_code a))) as [L|]; [|discriminate].
  destruct (put_exec (set_queue o q) id _) as [o1| |] eqn:Ep; try discriminate.
  destruct (skipn n (ca_code a)) as [|i is2] eqn:Es.
  { apply (f_equal (@List.length instr)) in Es. rewrite skipn_length in Es. cbn in Es. lia. }
  exists id, q, e, p, ps, a, (firstn n (ca_code a)), i, is2, o1. csplit; auto.
  - rewrite <- Es. symmetry. apply firstn_skipn.
  - apply stepsb_steps. exact E.
Qed.
Lemma inside_witness program query k n (K : org -> bool) :
  match loaded program query, parse_program program, parse_query (append_dot query) with
  | Some o, Some (COk _), Some (COk _) => andb (small_b (o_sto o)) match turnsb k o with
      | Some o1 => match insideb n o1 with Some o2 => K o2 | None => false end | None => false end
  | _, _, _ => false
  end = true ->
  exists o P q o1 o2, session cfg0 o P (QFresh q) /\ small_tables (o_sto o) /\ quiet cfg0 1000 o o1 /\ inside cfg0 1000 o1 o2 /\ K o2 = true /\
    parse_program program = Some (COk P) /\ parse_query (append_dot query) = Some (COk q).
Proof.
  destruct (loaded program query) as [o|] eqn:E1; [|discriminate]. destruct (parse_program program) as [[P| |]|] eqn:E2; try discriminate.
  destruct (parse_query (append_dot query)) as [[q| |]|] eqn:E3; try discriminate. intros H. apply andb_prop in H. destruct H as [H0 H].
  destruct (turnsb k o) as [o1|] eqn:E4; [|discriminate]. destruct (insideb n o1) as [o2|] eqn:E5; [|discriminate].
  exists o, P, q, o1, o2. csplit; auto using small_b_ok.
  - eapply loaded_session; eassumption.
  - eapply turnsb_quiet; eassumption.
  - eapply insideb_inside; eassumption.
Qed.
Lemma quiet_witness program query k (K : org -> bool) :
  match loaded program query, parse_program program, parse_query (append_dot query) with
  | Some o, Some (COk _), Some (COk _) => andb (small_b (o_sto o)) match turnsb k o with Some o1 => K o1 | None => false end
  | _, _, _ => false
  end = true ->
  exists o P q o1, session cfg0 o P (QFresh q) /\ small_tables (o_sto o) /\ quiet cfg0 1000 o o1 /\ K o1 = true /\
    parse_program program = Some (COk P) /\ parse_query (append_dot query) = Some (COk q).
Proof.
  destruct (loaded program query) as [o|] eqn:E1; [|discriminate]. destruct (parse_program program) as [[P| |]|] eqn:E2; try discriminate.
  destruct (parse_query (append_dot query)) as [[q| |]|] eqn:E3; try discriminate. intros H. apply andb_prop in H. destruct H as [H0 H].
  destruct (turnsb k o) as [o1|] eqn:E4; [|discriminate].
  exists o, P, q, o1. csplit; auto using small_b_ok.
  - eapply loaded_session; eassumption.
  - eapply turnsb_quiet; eassumption.
Qed.

(** --- no errors without is --- *)
Theorem no_is_no_errors cf o P q rs o' : ord_ok cf -> session cf o P (QFresh q) -> small_tables (o_sto o) -> no_clash cf P ->
  all_goals no_is P q -> run cf o rs o' -> forall e, ~ In (RError e) (delivered rs).
Proof.
  intros OK HS SM NC Na HR e He. destruct (sess_search cf o P q HS rs o' HR) as (root & T & Q & k & Hr & S & D & _). rewrite D in He.
  apply error_turn in He. destruct He as (pi & p & He).
  destruct (sess_root cf OK o P q HS SM root Hr) as (_ & S0 & Hp & HS0). destruct (rules_bound (o_prog o)) as (R & RL).
  pose proof (search_sound cf OK (o_sto o) (sess_ok cf o P q HS SM) (o_prog o) P (pure P q) (noarith P q) (sess_PC cf o P q HS) (sess_CW cf OK o P q HS NC)
      (sess_NR cf o P q HS) R RL (flat_map vars_of q) root S0 Hp T Q S) as (_ & _ & NE).
  exact (NE pi p e He Na).
Qed.
(** --- loading --- *)
Theorem load_program_safe cf text o : ord_ok cf ->
  (forall P c n, parse_program text = Some (COk P) -> In c P -> In n c -> ~ big_literal n) ->
  exists r o', load_program cf text o = Some (r, o') /\ r <> LEscape.
Proof.
  intros OK NB. destruct (load_program_reasons cf text o OK) as (r & o' & E & K). exists r, o'. split; [exact E|]. intros ->.
  destruct (validate_program text) as [[|e|]|]; try contradiction.
  - destruct K as (P & Ep & c & n & Hc & Hn & B). exact (NB P c n Ep Hc Hn B).
  - destruct K as (_ & K & _). discriminate K.
Qed.
Theorem load_query_safe cf text o : ord_ok cf ->
  (forall q n, parse_query (append_dot text) = Some (COk q) -> In n q -> ~ big_literal n) ->
  exists r o', load_query cf text o = Some (r, o') /\ r <> LEscape.
Proof.
  intros OK NB. destruct (load_query_reasons cf text o OK) as (r & o' & E & K). exists r, o'. split; [exact E|]. intros ->.
  destruct (validate_query text) as [[|e|]|]; try contradiction.
  - destruct K as (q & Ep & n & Hn & B). exact (NB q n Ep Hn B).
  - destruct K as (K & _). discriminate K.
Qed.

Theorem failure_pure cf o P q rs o' : ord_ok cf -> session cf o P (QFresh q) -> small_tables (o_sto o) -> no_clash cf P ->
  run cf o rs o' -> In RFalse (delivered rs) ->
  o_queue o' = [] /\
  (forall fuel w r o2, forall n, get_answer cf fuel n w o' = Val (r, o2) -> r = RFalse) /\
  (all_goals no_compare P q -> (all_goals no_is P q \/ forall x, ~ In (RError (EUnbound x)) (delivered rs)) -> forall v,
     (forall a, In a q -> prov (pow_of cf) (P ++ append_prog) (inst v a)) -> exists b, In (RAnswer b) (delivered rs) /\ covers cf o P q b v).
Proof.
  intros OK HS SM NC HR Hf. destruct (failure_exact cf OK o P q HS SM NC rs o' HR Hf) as (A & B & C). csplit; auto.
  intros Pu [Na|Ne] v Hv; apply C; auto. intros x. eapply no_is_no_errors; eauto.
Qed.
Theorem big_program cf text o P c n r o' : ord_ok cf -> parse_program text = Some (COk P) -> In c P -> In n c -> big_literal n ->
  load_program cf text o = Some (r, o') -> r <> LOk.
Proof.
  intros OK Ep Hc Hn B E ->. destruct (load_program_reasons cf text o OK) as (r & o1 & E1 & K). rewrite E in E1. injection E1 as <- <-.
  destruct (validate_program text) as [[|e|]|]; try contradiction; [|destruct K as (_ & K & _); discriminate K].
  destruct K as (P' & Ep' & _ & F). rewrite Ep in Ep'. injection Ep' as <-. rewrite Forall_forall in F. specialize (F c Hc). rewrite Forall_forall in F. exact (F n Hn B).
Qed.
Theorem big_query cf text o q n r o' : ord_ok cf -> parse_query (append_dot text) = Some (COk q) -> In n q -> big_literal n ->
  load_query cf text o = Some (r, o') -> r <> LOk.
Proof.
  intros OK Ep Hn B E ->. destruct (load_query_reasons cf text o OK) as (r & o1 & E1 & K). rewrite E in E1. injection E1 as <- <-.
  destruct (validate_query text) as [[|e|]|]; try contradiction; [|destruct K as (K & _); discriminate K].
  destruct K as (q' & Ep' & _ & F). rewrite Ep in Ep'. injection Ep' as <-. rewrite Forall_forall in F. exact (F n Hn B).
Qed.
Lemma big_example : big_literal (NFun "is" [NVar "X"; NInt "2147483648"]).
Proof.
  exists "2147483648"%string, 2147483648%Z. split; [|split; [vm_compute; reflexivity|right; reflexivity]].
  eapply sub_kid; [right; left; reflexivity|apply sub_refl].
Qed.
