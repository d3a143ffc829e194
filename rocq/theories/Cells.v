(** What the cells of a branch contain: variable indices from the table of names, functors of the shapes the grammar
    produces. *)
From Verif Require Import Base Machine Heap Facts Compiler Parser Print Organizer Spec Valuation Process Shape Turn Session Code Search Alloc Atoms Clause Order.
Open Scope string_scope.
Open Scope list_scope.

Section Cells.
Variable cf : cfg.
Variable sto : storage.
Hypothesis ok : sto_ok sto.

Definition cell_fit (c : cell) : Prop :=
  match c with
  | CRef _ v => exists nm, vidx sto nm v
  | CFun i n => exists nm k, cidx sto (FV nm k) i /\ n = short_arity (FV nm k) /\ fun_ok nm k
  | _ => True
  end.
Definition instr_fit (i : instr) : Prop :=
  match i with
  | IPutStruct c _ | IGetStruct c _ | IUniStruct c _ => cell_fit c
  | ISetVar _ v | ISetPVar _ v | IUniVar _ v | IUniPVar _ v | IPutVar _ _ v | IPutPVar _ _ v => exists nm, vidx sto nm v
  | _ => True
  end.
Definition code_fit (a : catom) : Prop := Forall instr_fit (ca_code a).
Notation fits := (Forall cell_fit).
Definition mfit (m : mst (list cell)) : Prop := fits (m_heap m) /\ fits (m_regs m) /\ Forall fits (m_envs m).
Definition pfit (p : process) : Prop := mfit (p_m p) /\ Forall code_fit (p_codes p).

(** --- the machine --- *)
Lemma upd_fits l i c l' : upd l i c = Some l' -> fits l -> cell_fit c -> fits l'.
Proof.
  intros U F C. apply Forall_forall. intros d Hd. apply In_nth_error in Hd. destruct Hd as [j Hj].
  rewrite (upd_nth _ _ _ _ _ U) in Hj. destruct (Nat.eqb_spec j i).
  - injection Hj as <-. assumption.
  - rewrite Forall_forall in F. apply F. eapply nth_error_In; eauto.
Qed.
Lemma at_fit h a c : at_ (list cell) fops h a = Val c -> fits h -> cell_fit c.
Proof.
  unfold at_. cbn [h_at fops]. destruct (nth_error h a) eqn:E; cbn; [|discriminate]. intros K F. injection K as <-.
  rewrite Forall_forall in F. apply F. eapply nth_error_In; eauto.
Qed.
Lemma bind_fits h d t h' : bind_ref (list cell) fops h d t = Val h' -> fits h -> fits h'.
Proof.
  unfold bind_ref. destruct (at_ _ _ h d) as [c| |] eqn:E; cbn [bind]; try discriminate. intros K F.
  pose proof (at_fit _ _ _ E F) as C. destruct c; try discriminate. unfold hset in K. cbn [h_set fops] in K.
  destruct (upd h d (CRef t v)) eqn:U; cbn in K; [|discriminate]. injection K as <-. eapply upd_fits; eauto.
Qed.
Lemma push_fits h c : fits h -> cell_fit c -> fits (h ++ [c]).
Proof. intros F C. apply Forall_app. auto. Qed.
Lemma unify_fits fuel : forall h pdl b h', unify_loop (list cell) fops fuel h pdl = Val (b, h') -> fits h -> fits h'.
Proof.
  induction fuel as [|f IH]; intros h [|a [|b0 rest]] b h' E F; cbn [unify_loop] in E; try discriminate; try (injection E as _ <-; exact F).
  destruct (deref _ _ h a) as [d1| |]; cbn [bind] in E; try discriminate.
  destruct (deref _ _ h b0) as [d2| |]; cbn [bind] in E; try discriminate.
  destruct (Nat.eqb d1 d2); [eapply IH; eauto|].
  destruct (at_ _ _ h d1) as [c1| |]; cbn [bind] in E; try discriminate.
  destruct (at_ _ _ h d2) as [c2| |]; cbn [bind] in E; try discriminate.
  assert (G : forall x y, (h' <- bind_ref (list cell) fops h x y ;; unify_loop (list cell) fops f h' rest) = Val (b, h') -> fits h').
  { intros x y K. destruct (bind_ref (list cell) fops h x y) as [h1| |] eqn:Eb; cbn [bind] in K; try discriminate.
    eapply IH; [exact K|]. eapply bind_fits; eauto. }
  destruct c1, c2; try discriminate; try (eapply G; eassumption); try (injection E as _ <-; exact F);
    destruct (Z.eqb _ _); try (injection E as _ <-; exact F); eapply IH; eauto.
Qed.
Lemma wreg_fit m i c m' : wreg (list cell) m i c = Val m' -> mfit m -> cell_fit c -> mfit m'.
Proof.
  unfold wreg. destruct (upd (m_regs m) i c) eqn:U; cbn; [|discriminate]. intros E (A & B & C) D. injection E as <-.
  split; [exact A|]. split; [eapply upd_fits; eauto|exact C].
Qed.
Lemma wperm_fit m i c m' : wperm (list cell) m i c = Val m' -> mfit m -> cell_fit c -> mfit m'.
Proof.
  unfold wperm. destruct (m_envs m) as [|e es] eqn:Ee; [discriminate|]. destruct (upd e i c) eqn:U; cbn; [|discriminate].
  intros E (A & B & C) D. injection E as <-. split; [exact A|]. split; [exact B|]. cbn. rewrite Ee in C.
  inversion C; subst. constructor; [eapply upd_fits; eauto|assumption].
Qed.
Lemma rreg_fit m i c : rreg (list cell) m i = Val c -> mfit m -> cell_fit c.
Proof.
  unfold rreg. destruct (nth_error (m_regs m) i) eqn:E; cbn; [|discriminate]. intros K (_ & B & _). injection K as <-.
  rewrite Forall_forall in B. apply B. eapply nth_error_In; eauto.
Qed.
Lemma rperm_fit m i c : rperm (list cell) m i = Val c -> mfit m -> cell_fit c.
Proof.
  unfold rperm. destruct (m_envs m) as [|e es] eqn:Ee; [discriminate|]. destruct (nth_error e i) eqn:E; cbn; [|discriminate].
  intros K (_ & _ & C). injection K as <-. rewrite Ee in C. inversion C; subst. rewrite Forall_forall in H1. apply H1. eapply nth_error_In; eauto.
Qed.
Lemma push_mfit m c : mfit m -> cell_fit c -> mfit (push (list cell) fops m c).
Proof. intros (A & B & C) D. split; [|auto]. cbn. now apply push_fits. Qed.
Lemma heap_mfit m h : mfit m -> fits h -> mfit (set_heap m h).
Proof. intros (A & B & C) D. split; auto. Qed.

Ltac bd E x Hx :=
  match type of E with
  | bind ?m _ = Val _ => destruct m as [x| |] eqn:Hx; cbn [bind] in E; try discriminate
  end.
Lemma unify_m_fit fuel m a b s m' : unify_m (list cell) fops fuel m a b = Val (s, m') -> mfit m -> mfit m'.
Proof.
  unfold unify_m, unify. intros E M. bd E r Er. destruct r as [b' h']. injection E as _ <-. apply heap_mfit; [assumption|].
  eapply unify_fits; [exact Er|]. apply M.
Qed.
Lemma get_value_fit fuel m c d s m' : get_value (list cell) fops fuel m c d = Val (s, m') -> mfit m -> mfit m'.
Proof. unfold get_value. intros E M. bd E a Ea. bd E b Eb. eapply unify_m_fit; eauto. Qed.
Lemma unify_value_fit fuel m c s m' : unify_value (list cell) fops fuel m c = Val (s, m') -> mfit m -> mfit m'.
Proof.
  unfold unify_value. intros E M. destruct (m_mode m) as [[]|]; [| |discriminate].
  - bd E a Ea. bd E r Er. destruct r as [s1 m1]. injection E as _ <-. exact (unify_m_fit _ _ _ _ _ _ Er M).
  - bd E a Ea. bd E d Ed. bd E r Er. pose proof (at_fit _ _ _ Er (proj1 M)) as Cr.
    destruct r; try discriminate; injection E as _ <-; apply (push_mfit m); auto; exact I.
Qed.
Lemma unify_variable_fit wr m x v s m' :
  (forall m i c m', wr m i c = Val m' -> mfit m -> cell_fit c -> mfit m') ->
  unify_variable (list cell) fops wr m x v = Val (s, m') -> (exists nm, vidx sto nm v) -> mfit m -> mfit m'.
Proof.
  intros Hw. unfold unify_variable, push_ref. intros E V M. destruct (m_mode m) as [[]|]; [| |discriminate]; bd E m1 E1; injection E as _ <-.
  - refine (Hw _ _ _ _ E1 M _). exact I.
  - refine (Hw _ _ _ _ E1 (push_mfit _ _ M _) _); exact V.
Qed.
Lemma step_fit fuel i m s m' : fstep cf sto fuel i m = Val (s, m') -> instr_fit i -> mfit m -> mfit m'.
Proof.
  unfold fstep, local_step, push_ref. intros E I M.
  destruct i; cbn [instr_fit] in I; try discriminate.
  - bd E m1 E1. injection E as _ <-. refine (wreg_fit _ _ _ _ E1 (push_mfit _ _ M I) _). exact Logic.I.
  - bd E m1 E1. injection E as _ <-. refine (wreg_fit _ _ _ _ E1 (push_mfit _ _ M _) _); exact I.
  - bd E m1 E1. injection E as _ <-. refine (wperm_fit _ _ _ _ E1 (push_mfit _ _ M _) _); exact I.
  - bd E r1 E1. injection E as _ <-. apply push_mfit; [assumption|]. eapply rreg_fit; eauto.
  - bd E r1 E1. injection E as _ <-. apply push_mfit; [assumption|]. eapply rperm_fit; eauto.
  - unfold get_structure in E. bd E r Er. bd E a0 E0. bd E d Ed. bd E c0 Ec.
    destruct c0; try (destruct (cell_eqb _ _); injection E as _ <-; exact M).
    bd E h' Eh. injection E as _ <-. destruct (push_mfit m c M I) as (P1 & P2 & P3). split; [|split; [exact P2|exact P3]].
    exact (bind_fits _ _ _ _ Eh P1).
  - unfold unify_structure in E. destruct (m_mode m) as [[]|]; [| |discriminate].
    + bd E d Ed. bd E c0 Ec. destruct c0; try (destruct (cell_eqb _ _); injection E as _ <-; exact M).
      bd E h' Eh. injection E as _ <-. destruct (push_mfit m c M I) as (P1 & P2 & P3). split; [|split; [exact P2|exact P3]].
      exact (bind_fits _ _ _ _ Eh P1).
    + bd E m2 E2. injection E as _ <-. refine (wreg_fit _ _ _ _ E2 (push_mfit _ _ M I) _). exact Logic.I.
  - eapply unify_variable_fit; eauto using wreg_fit.
  - eapply unify_variable_fit; eauto using wperm_fit.
  - bd E r Er. eapply unify_value_fit; eauto.
  - bd E r Er. eapply unify_value_fit; eauto.
  - bd E m1 E1. bd E m2 E2. injection E as _ <-. refine (wreg_fit _ _ _ _ E2 _ _); [|exact I].
    refine (wreg_fit _ _ _ _ E1 (push_mfit _ _ M _) _); exact I.
  - bd E m1 E1. bd E m2 E2. injection E as _ <-. refine (wreg_fit _ _ _ _ E2 _ _); [|exact I].
    refine (wperm_fit _ _ _ _ E1 (push_mfit _ _ M _) _); exact I.
  - bd E r Er. bd E m1 E1. injection E as _ <-. refine (wreg_fit _ _ _ _ E1 M _). eapply rreg_fit; eauto.
  - bd E r Er. bd E m1 E1. injection E as _ <-. refine (wreg_fit _ _ _ _ E1 M _). eapply rperm_fit; eauto.
  - bd E r Er. bd E m1 E1. injection E as _ <-. refine (wreg_fit _ _ _ _ E1 M _). eapply rreg_fit; eauto.
  - bd E r Er. bd E m1 E1. injection E as _ <-. refine (wperm_fit _ _ _ _ E1 M _). eapply rreg_fit; eauto.
  - bd E r Er. bd E r2 Er2. eapply get_value_fit; eauto.
  - bd E r Er. bd E r2 Er2. eapply get_value_fit; eauto.
  - injection E as _ <-. destruct M as (A & B & C). split; [exact A|]. split; [exact B|]. cbn. constructor; [|exact C].
    apply Forall_forall. intros c Hc. apply repeat_spec in Hc. subst c. exact Logic.I.
  - unfold is_pred in E. bd E r Er. bd E b Eb. bd E v Ev. destruct v; [|injection E as _ <-; exact M].
    bd E rx Ex. bd E a Ea. bd E d Ed. bd E c Ec. destruct c; try (injection E as _ <-; exact M).
    bd E h' Eh. injection E as _ <-. destruct (push_mfit m (CInt n) M Logic.I) as (P1 & P2 & P3). split; [|split; [exact P2|exact P3]].
    exact (bind_fits _ _ _ _ Eh P1).
  - unfold equals_check in E. bd E c Ec. bd E a Ea. bd E d Ed. bd E b Eb. bd E r Er. injection E as _ <-. exact M.
  - unfold not_equals_check, equals_check in E. bd E x0 Ex0. bd Ex0 c Ec. bd Ex0 a Ea. bd Ex0 d Ed. bd Ex0 b Eb. bd Ex0 r Er.
    injection Ex0 as <-. injection E as _ <-. exact M.
Qed.
Lemma run_fit fuel is : forall m s m', run_local cf sto fuel is m = Val (s, m') -> Forall instr_fit is -> mfit m -> mfit m'.
Proof.
  induction is as [|i is IH]; intros m s m' E F M; cbn [run_local] in E; [injection E as _ <-; exact M|].
  inversion F as [|? ? F1 F2]; subst. destruct (fstep cf sto fuel i m) as [[s1 m1]| |] eqn:E1; cbn [bind] in E; try discriminate.
  pose proof (step_fit _ _ _ _ _ E1 F1 M) as M1. destruct s1; [eapply IH; eauto|injection E as _ <-; exact M1|injection E as _ <-; exact M1].
Qed.

(** --- the code --- *)
Definition node_fit (n : node) : Prop := match n with NFun s l => fun_ok s (List.length l) | _ => True end.
Definition atom_fit (a : aatom) : Prop := Forall (fun e => node_fit (en_node e)) (aa_ents a).
Lemma scell_fit n c : scell sto n c -> node_fit n -> cell_fit c.
Proof. intros [t l i Hi|t l i Hi] F; cbn in *; eauto 6. Qed.
Section Code.
Variable perm : string -> option nat.
Lemma qkids_fit ks s0 is s1 : qkids sto perm ks s0 is s1 -> Forall instr_fit is.
Proof.
  induction 1 as [|k ks s0 c1 s1 c2 s2 Hk H IH]; [constructor|]. apply Forall_app. split; [|assumption].
  destruct Hk; constructor; cbn; eauto.
Qed.
Lemma qents_fit es s0 is s1 : qents sto perm es s0 is s1 -> Forall (fun e => node_fit (en_node e)) es -> Forall instr_fit is.
Proof.
  induction 1 as [|k ks s0 c1 s1 c2 s2 Hk H IH]; intros F; [constructor|]. inversion F as [|? ? F1 F2]; subst.
  apply Forall_app. split; [|auto]. destruct Hk; repeat constructor; cbn in *; eauto.
  - eapply scell_fit; eauto.
  - eapply qkids_fit; eauto.
Qed.
Lemma hkids_fit ks s0 is s1 : hkids sto perm ks s0 is s1 -> Forall instr_fit is.
Proof.
  induction 1 as [|k ks s0 c1 s1 c2 s2 Hk H IH]; [constructor|]. apply Forall_app. split; [|assumption].
  destruct Hk; constructor; cbn; eauto.
Qed.
Lemma hents_fit es s0 is s1 : hents sto perm es s0 is s1 -> Forall (fun e => node_fit (en_node e)) es -> Forall instr_fit is.
Proof.
  induction 1 as [|k ks s0 c1 s1 c2 s2 Hk H IH]; intros F; [constructor|]. inversion F as [|? ? F1 F2]; subst.
  apply Forall_app. split; [|auto]. destruct Hk; repeat constructor; cbn in *; eauto.
  - eapply scell_fit; eauto.
  - eapply hkids_fit; eauto.
Qed.
Lemma flat_fit a : atom_fit a -> Forall (fun e => node_fit (en_node e)) (flatten_program a).
Proof. intros F. unfold flatten_program. apply Forall_forall. intros e He. apply filter_In in He. unfold atom_fit in F. rewrite Forall_forall in F. apply F, He. Qed.
Lemma flatq_fit a : atom_fit a -> Forall (fun e => node_fit (en_node e)) (flatten_query a).
Proof.
  intros F. apply flat_fit in F. unfold flatten_query. destruct (is_constant (aa_top a)); [assumption|].
  rewrite <- (firstn_skipn (List.length (kids (aa_top a))) (flatten_program a)) in F. apply Forall_app in F.
  apply Forall_app. split; [apply Forall_rev|]; apply F.
Qed.
Lemma to_query_fit a seen s c seen' s' : to_query perm a seen s = (COk (c, seen'), s') -> sto_ext s' sto -> atom_fit a -> Forall instr_fit c.
Proof.
  intros E X F. destruct (to_query_rel sto perm ok _ _ _ _ _ _ E X) as (is & -> & Q). apply Forall_app. split; [|repeat constructor].
  eapply qents_fit; [exact Q|]. now apply flatq_fit.
Qed.
Lemma to_program_fit a seen s c seen' s' : to_program perm a seen s = (COk (c, seen'), s') -> sto_ext s' sto -> atom_fit a -> Forall instr_fit c.
Proof.
  intros E X F. destruct (to_program_rel sto perm ok _ _ _ _ _ _ E X) as (is & -> & Q). apply Forall_app. split; [|repeat constructor].
  eapply hents_fit; [exact Q|]. now apply flat_fit.
Qed.
End Code.

Lemma mk_ents_fit nargs l : forall pos rest, Forall (fun x => node_fit (fst x)) l -> Forall (fun e => node_fit (en_node e)) (mk_ents nargs pos l rest).
Proof.
  induction l as [|[n x] l IH]; intros pos rest F; [constructor|]. inversion F as [|? ? F1 F2]; subst. cbn [mk_ents]. constructor; [exact F1|]. now apply IH.
Qed.
Lemma assign_term_fit n m : (forall k, In k (kids n) -> node_ok k) -> atom_fit (fst (fst (assign_term n m))).
Proof.
  intros H. unfold assign_term. destruct (assign_xs _ _ _ _ _) as [[xs c'] m']. cbn [fst]. unfold atom_fit. cbn [aa_ents]. apply mk_ents_fit.
  apply Forall_forall. intros [k x] Hk. apply in_combine_l in Hk. pose proof (bfs_ok _ (kids n) (Nat.le_refl _) H k Hk) as K.
  cbn [fst]. destruct k; try exact I. apply K.
Qed.
Lemma atom_kids_ok n : atom_ok n -> forall k, In k (kids n) -> node_ok k.
Proof. destruct n as [| | |s [|]|]; cbn; try contradiction; auto. Qed.
Lemma const_fit n : atom_ok n -> is_constant n = true -> atom_fit (const_atom n).
Proof. intros A C. destruct n; try discriminate. repeat constructor. Qed.
Lemma assign_one_fit n : atom_ok n -> atom_fit (fst (assign_one n)).
Proof.
  intros A. unfold assign_one. destruct (is_constant n) eqn:C; [now apply const_fit|].
  pose proof (assign_term_fit n [] (atom_kids_ok n A)) as K. destruct (assign_term n []) as [[a c] m]. exact K.
Qed.
Lemma assign_two_fit h b : atom_ok h -> atom_ok b -> let '(ha, ba, _) := assign_two h b in atom_fit ha /\ atom_fit ba.
Proof.
  intros A B. unfold assign_two. pose proof (assign_one_fit h A) as Fh. pose proof (assign_one_fit b B) as Fb.
  destruct (is_constant b) eqn:Cb.
  - destruct (assign_one h) as [ha c]. split; [assumption|now apply const_fit].
  - destruct (is_constant h) eqn:Ch.
    + destruct (assign_one b) as [ba c]. split; [now apply const_fit|assumption].
    + pose proof (assign_term_fit h [] (atom_kids_ok h A)) as K1. destruct (assign_term h []) as [[ha c1] m1].
      pose proof (assign_term_fit b m1 (atom_kids_ok b B)) as K2. destruct (assign_term b m1) as [[ba c2] m2]. split; assumption.
Qed.

Lemma alloc_fit n : Forall instr_fit (alloc_code n).
Proof. unfold alloc_code. destruct (Nat.eqb n 0); repeat constructor. Qed.
Lemma query_atoms_fit perm u ns : forall pre seen s r s', compile_query_atoms perm pre u ns seen s = (COk r, s') -> sto_ext s' sto ->
  Forall instr_fit pre -> Forall atom_ok ns -> Forall code_fit r.
Proof.
  induction ns as [|n ns IH]; intros pre seen s r s' E X P F; cbn [compile_query_atoms] in E; [injection E as <- <-; constructor|].
  apply cbind_ok in E. destruct E as ([a sa] & t1 & E1 & E). apply cbind_ok in E. destruct E as (r' & t2 & E2 & E).
  injection E as <- <-. inversion F as [|? ? Hn Hns]; subst.
  assert (X1 : sto_ext t1 t2) by (pose proof (compile_query_atoms_ext perm u ns [] sa t1) as K; rewrite E2 in K; exact K).
  constructor; [|eapply IH; eauto]. unfold compile_query_atom in E1. pose proof (assign_one_fit n Hn) as Fa.
  destruct (assign_one n) as [aa cnt]. cbn [fst] in Fa.
  apply cbind_ok in E1. destruct E1 as ([c sq] & t3 & E1 & E1'). injection E1' as <- <- <-. unfold code_fit. cbn [ca_code].
  apply Forall_app. split; [assumption|]. eapply to_query_fit; [exact E1|eapply sto_ext_trans; eauto|assumption].
Qed.
Lemma clause_code_fit b c r : clause_code cf sto b c r -> clause_wf c -> Forall code_fit r.
Proof.
  intros (s0 & sE & f & E & X) W. unfold compile_program_term in E. destruct c as [|h body]; [contradiction|].
  destruct (negb b && redefines h)%bool; [discriminate|]. inversion W as [|? ? Wh Wb]; subst.
  set (perm := fun s => pos_of s (perm_order cf (h :: body) true)) in *.
  assert (A : exists ha oba cnt, (match body with [] => let '(ha, c) := assign_one h in (ha, None, c) | b :: _ => let '(ha, ba, c) := assign_two h b in (ha, Some ba, c) end) = (ha, oba, cnt)
    /\ atom_fit ha /\ match oba with None => True | Some ba => atom_fit ba end).
  { destruct body as [|b1 bs].
    - pose proof (assign_one_fit h Wh) as K. destruct (assign_one h) as [ha c]. eauto 6.
    - inversion Wb as [|? ? W1 _]; subst. pose proof (assign_two_fit h b1 Wh W1) as K. destruct (assign_two h b1) as [[ha ba] c].
      exists ha, (Some ba), c. split; [reflexivity|exact K]. }
  destruct A as (ha & oba & cnt & EA & Fh & Fb). rewrite EA in E.
  apply cbind_ok in E. destruct E as ([hc s1] & t1 & E1 & E). apply cbind_ok in E. destruct E as ([firsts s3] & t2 & E2 & E).
  apply cbind_ok in E. destruct E as (others & t3 & E3 & E). injection E as <- <- <-.
  assert (X3 : sto_ext t2 t3) by (pose proof (compile_query_atoms_ext perm false (tl body) [] (remove_x_a_regs s3) t2) as K; rewrite E3 in K; exact K).
  assert (X2 : sto_ext t1 t2).
  { destruct oba as [ba|]; [|injection E2 as <- <- <-; apply sto_ext_refl]. apply cbind_ok in E2. destruct E2 as ([bc s4] & t4 & E4 & E5). injection E5 as <- <- <-.
    pose proof (to_query_ext perm ba (erase_head_regs ha s1) t1) as K. rewrite E4 in K. exact K. }
  assert (Xt2 : sto_ext t2 sto) by (eapply sto_ext_trans; eauto). assert (Xt1 : sto_ext t1 sto) by (eapply sto_ext_trans; eauto).
  constructor.
  - unfold code_fit. cbn [ca_code]. apply Forall_app. split; [apply alloc_fit|]. eapply to_program_fit; eauto.
  - apply Forall_app. split.
    + destruct oba as [ba|]; [|injection E2 as <- _ _; constructor]. apply cbind_ok in E2. destruct E2 as ([bc s4] & t4 & E4 & E5). injection E5 as <- <- <-.
      constructor; [|constructor]. unfold code_fit. cbn [ca_code]. eapply to_query_fit; eauto.
    + apply Forall_app. split; [eapply query_atoms_fit; eauto; destruct body; [constructor|]; now inversion Wb|].
      destruct (Nat.eqb _ 0); repeat constructor.
Qed.
Lemma binary_pred_wf nm : clause_wf [binary_pred nm].
Proof. constructor; [|constructor]. cbn. intros m [<-|[<-|[]]]; exact I. Qed.
Lemma Forall_removelast {A} (Q : A -> Prop) l : Forall Q l -> Forall Q (removelast l).
Proof. induction 1 as [|x l Hx H IH]; [constructor|]. cbn. destruct l; [constructor|]. now constructor. Qed.
Lemma Forall_skipn {A} (Q : A -> Prop) l n : Forall Q l -> Forall Q (skipn n l).
Proof. intros F. rewrite <- (firstn_skipn n l) in F. apply Forall_app in F. apply F. Qed.
Lemma special_code_fit f i rs : special f = Some i -> special_code cf sto f i rs -> Forall (Forall code_fit) rs.
Proof.
  intros Hs (r & Hr & ->). constructor; [|constructor]. pose proof (clause_code_fit _ _ _ Hr (binary_pred_wf _)) as F.
  destruct r as [|a r]; [constructor|]. inversion F as [|? ? F1 F2]; subst. cbn [insert_pred]. constructor; [|assumption].
  unfold code_fit in *. cbn [ca_code].
  assert (Hi : instr_fit (i (fst (pred_regs (binary_pred (fv_name f)))) (snd (pred_regs (binary_pred (fv_name f)))))).
  { unfold special in Hs. destruct (fview_eqb f _); [injection Hs as <-; exact I|]. destruct (fview_eqb f _); [injection Hs as <-; exact I|].
    destruct (fview_eqb f _); [injection Hs as <-; exact I|discriminate]. }
  unfold insert_before_last. apply Forall_app. split; [now apply Forall_removelast|]. constructor; [assumption|]. now apply Forall_skipn.
Qed.

Section Branches.
Variable P : list (list node).
Variable pg : prog.
Hypothesis PC : prog_code cf sto P pg.
Hypothesis CW : Forall clause_wf P.
Hypothesis AW : Forall clause_wf append_clauses.
Lemma prog_fit f rs : plookup f pg = Some rs -> Forall (Forall code_fit) rs.
Proof.
  intros E. pose proof (PC f) as K.
  assert (G : forall b cs rs, Forall2 (clause_code cf sto b) cs rs -> Forall clause_wf cs -> Forall (Forall code_fit) rs).
  { induction 1 as [|c r cs' rs' Hc H IH]; intros F; [constructor|]. inversion F; subst. constructor; [eapply clause_code_fit; eauto|auto]. }
  destruct (special f) as [i|] eqn:Es.
  - destruct K as (rs' & E' & K). rewrite E in E'. injection E' as <-. eapply special_code_fit; eauto.
  - destruct (is_append f).
    + destruct K as (rs' & E' & K). rewrite E in E'. injection E' as <-. eapply G; eauto.
    + rewrite E in K. destruct K as [K _]. eapply G; [exact K|]. unfold clauses_of. apply Forall_forall. intros c Hc. apply filter_In in Hc.
      rewrite Forall_forall in CW. apply CW, Hc.
Qed.
Lemma resize_fits l n : Forall cell_fit l -> Forall cell_fit (resize l n).
Proof.
  intros F. unfold resize. apply Forall_app. split.
  - rewrite <- (firstn_skipn n l) in F. apply Forall_app in F. apply F.
  - apply Forall_forall. intros c Hc. apply repeat_spec in Hc. subst c. exact I.
Qed.
Lemma ends_fit p fuel a rest s m : pfit p -> p_codes p = a :: rest ->
  run_local cf sto fuel (removelast (ca_code a)) (set_regs (p_m p) (resize (m_regs (p_m p)) (ca_regs a))) = Val (s, m) -> mfit m.
Proof.
  intros [(A & B & C) D] E R. rewrite E in D. inversion D as [|? ? D1 D2]; subst. eapply run_fit; [exact R| |].
  - apply Forall_removelast. exact D1.
  - split; [exact A|]. split; [apply resize_fits; exact B|exact C].
Qed.
Lemma turn_fit fuel p l : pfit p -> p_turn cf sto fuel pg p = Val (PKids l) -> Forall pfit l.
Proof.
  intros F E. unfold p_turn in E. destruct (p_codes p) as [|a rest] eqn:Ec; [discriminate|].
  destruct (run_local cf sto fuel (removelast (ca_code a)) _) as [[s m]| |] eqn:Er; cbn [bind] in E; try discriminate.
  pose proof (ends_fit p fuel a rest s m F Ec Er) as M. destruct F as [_ F]. rewrite Ec in F. inversion F as [|? ? F1 F2]; subst.
  destruct s; try discriminate. destruct (last (ca_code a) IProceed); try discriminate.
  - destruct (plookup f pg) as [rs|] eqn:Ep; try discriminate. injection E as <-. apply prog_fit in Ep.
    apply Forall_forall. intros q Hq. apply in_map_iff in Hq. destruct Hq as (r & <- & Hr). split; [exact M|]. cbn [p_codes].
    apply Forall_app. split; [|assumption]. rewrite Forall_forall in Ep. auto.
  - destruct (forallb is_dealloc rest).
    + destruct (answer_of _ _ _ _); discriminate.
    + injection E as <-. constructor; [|constructor]. split; assumption.
  - destruct (m_envs m) as [|e es] eqn:Ee; [discriminate|]. injection E as <-. constructor; [|constructor]. split; [|assumption].
    destruct M as (A & B & C). split; [exact A|]. split; [exact B|]. cbn. rewrite Ee in C. now inversion C.
Qed.
Lemma path_fit root pi p : pfit root -> at_path cf sto pg root pi p -> pfit p.
Proof.
  intros R H. induction H as [|pi p i l k H IH [fuel E] Hn]; [assumption|].
  pose proof (turn_fit fuel p l IH E) as F. rewrite Forall_forall in F. apply F. eapply nth_error_In; eauto.
Qed.
End Branches.
Lemma root_fit q r : query_code cf sto q r -> Forall atom_ok q -> pfit (init_proc r).
Proof.
  intros (s0 & s1 & E & X) F. split; [repeat split; constructor|]. cbn [p_codes init_proc]. unfold compile_query in E.
  eapply query_atoms_fit; eauto. apply alloc_fit.
Qed.
End Cells.
