(** Programs without compound terms: their terms are always finite and their turns always end. *)
From Verif Require Import Base Machine Heap Facts Compiler Parser Organizer Spec Print Valuation HeapSim Process Refine Mono Turn Shape Session Code Put Search PutRun Get Alloc Atoms Clause Stack Ready Heads Builtins Sols Solve Terms Shown Parsed Tables Root Order Cells Runs Answers Complete Total.
Open Scope string_scope.
Open Scope list_scope.

(** variables, constants, integers and the empty list *)
Definition leaf (n : node) : Prop := match n with NVar _ | NCon _ | NInt _ | NFun _ [] => True | _ => False end.
Definition atom_flat (n : node) : Prop := forall k, In k (kids n) -> leaf k.
Definition no_append (n : node) : Prop := is_append (to_fview n) = false.

Section Flat.
Variable cf : cfg.
Hypothesis OK : ord_ok cf.
Variable sto : storage.
Hypothesis ok : sto_ok sto.
Notation hp m := (m_heap (H := list cell) m).
Notation len := (@List.length cell).

Definition small_cell (c : cell) : Prop :=
  match c with
  | CCons i => exists s, cidx sto (FV s 0) i
  | CFun i n => n = 0%Z /\ exists s, cidx sto (FV s 0) i
  | CInt _ => True
  | _ => False
  end.
Definition flat_cell (c : cell) : Prop := match c with CRef _ _ | CCons _ | CInt _ => True | CFun _ n => n = 0%Z | _ => False end.
Definition good_call (f : fview) : Prop := is_append f = false /\ f <> FV "is" 2.
Definition instr_flat (i : instr) : Prop :=
  match i with
  | IPutStruct c _ | IGetStruct c _ => small_cell c
  | IPutVar _ _ _ | IPutPVar _ _ _ | IPutVal _ _ | IPutPVal _ _ | IGetVar _ _ | IGetPVar _ _ | IGetVal _ _ | IGetPVal _ _
  | IAlloc _ | IEq _ _ | INeq _ _ | IProceed | IDealloc => True
  | ICall f => good_call f
  | _ => False
  end.
Definition code_flat (a : catom) : Prop := Forall instr_flat (ca_code a).
Definition heap_flat (h : list cell) : Prop := Forall flat_cell h.

Lemma small_flat c : small_cell c -> flat_cell c /\ addr_of c = None /\ forall l a, a < l -> wf_cell sto l 0 a c.
Proof.
  destruct c as [i|n|b v|i n|i n|b]; cbn; try contradiction; intros H; (split; [tauto|split; [reflexivity|]]); auto.
  destruct H as (-> & s & Hs). intros l a La. cbn. csplit; try lia. exists s. exact Hs.
Qed.

(** --- the machine on such heaps --- *)
Lemma deref_fuel h a : wfh sto 0 h -> deref (list cell) fops h a <> Fuel.
Proof.
  intros W. destruct (Nat.lt_ge_cases a (len h)) as [L|L].
  - destruct (wfh_deref sto 0 h a W L) as (d & -> & _). discriminate.
  - unfold deref. cbn [deref_aux]. unfold at_. cbn [h_at fops]. rewrite (proj2 (nth_error_None h a) L). discriminate.
Qed.
Lemma deref_lt h a d : deref (list cell) fops h a = Val d -> a < len h.
Proof. intros E. apply deref_derefs in E. destruct E as (n & D). eapply derefs_lt; eauto. Qed.
Lemma at_fuel h a : at_ (list cell) fops h a <> Fuel.
Proof. unfold at_. cbn [h_at fops]. destruct (nth_error h a); discriminate. Qed.
Lemma bind_fuel h d t : bind_ref (list cell) fops h d t <> Fuel.
Proof.
  unfold bind_ref. destruct (at_ (list cell) fops h d) as [c| |] eqn:E; cbn [bind]; try discriminate; [|now elim (at_fuel h d)].
  destruct c; try discriminate. unfold hset. cbn [h_set fops]. destruct (upd h d _); discriminate.
Qed.
Lemma flat_at h d c : heap_flat h -> at_ (list cell) fops h d = Val c -> flat_cell c.
Proof. intros F E. apply at_nth in E. unfold heap_flat in F. rewrite Forall_forall in F. apply F. eapply nth_error_In; eauto. Qed.
Lemma shape_flat h h' : same_shape h h' -> heap_flat h -> heap_flat h'.
Proof.
  intros [L K] F. unfold heap_flat in *. rewrite Forall_forall in *. intros c Hc. apply In_nth_error in Hc. destruct Hc as (a & Ha).
  pose proof (nth_error_lt _ _ _ Ha) as La. destruct (nth_error h a) as [c0|] eqn:E0.
  - specialize (K a c0 E0). pose proof (F c0 (nth_error_In _ _ E0)) as F0. destruct c0; cbn in F0; try contradiction.
    + rewrite K in Ha. injection Ha as <-. exact I.
    + rewrite K in Ha. injection Ha as <-. exact I.
    + destruct K as (b & K & _). rewrite K in Ha. injection Ha as <-. exact I.
    + rewrite K in Ha. injection Ha as <-. exact F0.
  - apply nth_error_None in E0. lia.
Qed.

Lemma unify_flat fuel h a b : wfh sto 0 h -> heap_flat h ->
  unify (list cell) fops (S fuel) h a b <> Fuel /\
  forall r h', unify (list cell) fops (S fuel) h a b = Val (r, h') -> wfh sto 0 h' /\ heap_flat h'.
Proof.
  intros W F. split.
  - unfold unify. cbn [unify_loop].
    destruct (deref (list cell) fops h a) as [d1| |] eqn:E1; cbn [bind]; try discriminate; [|now elim (deref_fuel h a W)].
    destruct (deref (list cell) fops h b) as [d2| |] eqn:E2; cbn [bind]; try discriminate; [|now elim (deref_fuel h b W)].
    destruct (Nat.eqb d1 d2); [destruct fuel; discriminate|].
    destruct (at_ (list cell) fops h d1) as [c1| |] eqn:A1; cbn [bind]; try discriminate; [|now elim (at_fuel h d1)].
    destruct (at_ (list cell) fops h d2) as [c2| |] eqn:A2; cbn [bind]; try discriminate; [|now elim (at_fuel h d2)].
    pose proof (flat_at _ _ _ F A1) as F1. pose proof (flat_at _ _ _ F A2) as F2.
    assert (K : forall h x y, ('h' <- bind_ref (list cell) fops h x y ;; unify_loop (list cell) fops fuel h' []) <> Fuel).
    { intros h0 x y. destruct (bind_ref (list cell) fops h0 x y) eqn:Eb; cbn [bind]; try discriminate; [destruct fuel; discriminate|now elim (bind_fuel h0 x y)]. }
    destruct c1 as [i|n|x v|i n|i n|x], c2 as [j|m|y w|j m|j m|y]; cbn in F1, F2; try contradiction; try discriminate; try apply K.
    + destruct (Z.eqb i j); [destruct fuel; discriminate|discriminate].
    + destruct (Z.eqb n m); [destruct fuel; discriminate|discriminate].
    + subst. destruct (Z.eqb i j); [|discriminate]. cbn [Z.to_nat push_args]. destruct fuel; discriminate.
  - intros r h' E.
    assert (La : a < len h /\ b < len h).
    { unfold unify in E. cbn [unify_loop] in E.
      destruct (deref (list cell) fops h a) as [d1| |] eqn:E1; cbn [bind] in E; try discriminate.
      destruct (deref (list cell) fops h b) as [d2| |] eqn:E2; cbn [bind] in E; try discriminate. split; eapply deref_lt; eauto. }
    destruct La as [La Lb]. pose proof (unify_loop_spec sto (so_nodup _ ok) (S fuel) h [a; b] W) as K. unfold unify in E. rewrite E in K.
    destruct K as (W' & Sh & _); [split; [cbn; auto|intros x [<-|[<-|[]]]; assumption]|]. split; [assumption|]. eapply shape_flat; eauto.
Qed.
Lemma equals_flat fuel h a b : wfh sto 0 h -> heap_flat h -> heap_reg_equals (list cell) fops (S fuel) h a b <> Fuel.
Proof.
  intros W F. cbn [heap_reg_equals].
  destruct (deref (list cell) fops h a) as [d1| |] eqn:E1; cbn [bind]; try discriminate; [|now elim (deref_fuel h a W)].
  destruct (deref (list cell) fops h b) as [d2| |] eqn:E2; cbn [bind]; try discriminate; [|now elim (deref_fuel h b W)].
  destruct (at_ (list cell) fops h d1) as [c1| |] eqn:A1; cbn [bind]; try discriminate; [|now elim (at_fuel h d1)].
  destruct (at_ (list cell) fops h d2) as [c2| |] eqn:A2; cbn [bind]; try discriminate; [|now elim (at_fuel h d2)].
  pose proof (flat_at _ _ _ F A1) as F1. destruct (cell_eqb c1 c2); [|discriminate].
  destruct c1; try discriminate; cbn in F1; [|contradiction]. subst. discriminate.
Qed.
Lemma heap_i_fuel c : get_heap_i c <> Fuel.
Proof. destruct c; discriminate. Qed.
Lemma wreg_fuel (m : mst (list cell)) x c : wreg (list cell) m x c <> Fuel.
Proof. unfold wreg. destruct (upd (m_regs m) x c); discriminate. Qed.
Lemma rreg_fuel (m : mst (list cell)) x : rreg (list cell) m x <> Fuel.
Proof. unfold rreg. destruct (nth_error (m_regs m) x); discriminate. Qed.
Lemma wperm_fuel (m : mst (list cell)) x c : wperm (list cell) m x c <> Fuel.
Proof. unfold wperm. destruct (m_envs m); [discriminate|]. destruct (upd l x c); discriminate. Qed.
Lemma rperm_fuel (m : mst (list cell)) x : rperm (list cell) m x <> Fuel.
Proof. unfold rperm. destruct (m_envs m); [discriminate|]. destruct (nth_error l x); discriminate. Qed.
Lemma wreg_heap (m : mst (list cell)) x c m' : wreg (list cell) m x c = Val m' -> hp m' = hp m.
Proof. unfold wreg. destruct (upd (m_regs m) x c); [|discriminate]. intros E. injection E as <-. reflexivity. Qed.
Lemma wperm_heap (m : mst (list cell)) x c m' : wperm (list cell) m x c = Val m' -> hp m' = hp m.
Proof. unfold wperm. destruct (m_envs m); [discriminate|]. destruct (upd l x c); [|discriminate]. intros E. injection E as <-. reflexivity. Qed.

(** [good_out]: not out of fuel, and a good heap afterwards *)
Definition mgood (m : mst (list cell)) : Prop := wfh sto 0 (hp m) /\ heap_flat (hp m).
Definition fine {A} (Q : A -> Prop) (x : out A) : Prop := match x with Val a => Q a | Ub _ => True | Fuel => False end.
Lemma fine_bind {A B} (Q : A -> Prop) (R : B -> Prop) (x : out A) (f : A -> out B) : fine Q x -> (forall a, x = Val a -> Q a -> fine R (f a)) -> fine R (bind x f).
Proof. destruct x as [a|u|]; cbn; auto. Qed.
Lemma fine_any {A} (x : out A) : x <> Fuel -> fine (fun a => x = Val a) x.
Proof. destruct x; cbn; auto. Qed.

Lemma push_ref_good m v : mgood m -> mgood (push (list cell) fops m (CRef (hsize (list cell) fops m) v)).
Proof.
  intros [W F]. split.
  - cbn. apply (wf_block sto 0); [assumption|lia|]. intros [|[|j]] c0 E; cbn in E; try discriminate. injection E as <-.
    unfold hsize. cbn. rewrite Nat.add_0_r. split; lia.
  - cbn. apply Forall_app. split; [assumption|]. repeat constructor.
Qed.
Lemma push_small_good m c : mgood m -> small_cell c -> mgood (push (list cell) fops m c).
Proof.
  intros [W F] S. destruct (small_flat c S) as (Fc & Ac & Wc). split.
  - cbn. apply (wf_block sto 0); [assumption|lia|]. intros [|[|j]] c0 E; cbn in E; try discriminate. injection E as <-.
    rewrite Nat.add_0_r, Ac. split; [apply Wc; cbn; lia|exact I].
  - cbn. apply Forall_app. split; [assumption|]. repeat constructor. assumption.
Qed.
Lemma step_flat fuel i m : instr_flat i -> mgood m -> fine (fun r => mgood (snd r)) (fstep cf sto (S fuel) i m).
Proof.
  intros Fi Hm. pose proof Hm as [W F]. unfold fstep.
  assert (WR : forall m' x c, mgood m' -> fine mgood (wreg (list cell) m' x c)).
  { intros m' x c G. pose proof (wreg_fuel m' x c) as K. destruct (wreg (list cell) m' x c) eqn:E; cbn; auto.
    unfold mgood. now rewrite (wreg_heap _ _ _ _ E). }
  assert (WP : forall m' x c, mgood m' -> fine mgood (wperm (list cell) m' x c)).
  { intros m' x c G. pose proof (wperm_fuel m' x c) as K. destruct (wperm (list cell) m' x c) eqn:E; cbn; auto.
    unfold mgood. now rewrite (wperm_heap _ _ _ _ E). }
  assert (GV : forall c d, fine (fun r => mgood (snd r)) (get_value (list cell) fops (S fuel) m c d)).
  { intros c d. unfold get_value. eapply fine_bind; [apply fine_any, heap_i_fuel|]. intros a _ _.
    eapply fine_bind; [apply fine_any, heap_i_fuel|]. intros b _ _. unfold unify_m.
    destruct (unify_flat fuel (hp m) a b W F) as [U1 U2]. eapply fine_bind; [apply fine_any; exact U1|]. intros [r h'] E _. cbn.
    destruct (U2 _ _ E). split; assumption. }
  destruct i; cbn in Fi; try contradiction; cbn [local_step]; try exact Logic.I.
  - apply (fine_bind mgood); [apply WR; now apply push_small_good|]. intros. assumption.
  - unfold get_structure. eapply fine_bind; [apply fine_any, rreg_fuel|]. intros r _ _.
    eapply fine_bind; [apply fine_any, heap_i_fuel|]. intros a0 _ _. eapply fine_bind; [apply fine_any, deref_fuel; assumption|]. intros d Ed _.
    eapply fine_bind; [apply fine_any, at_fuel|]. intros c0 Ec _.
    assert (Gd : fine (fun r : istat * mst (list cell) => mgood (snd r)) (if cell_eqb c0 c then Val (Cont, set_mode m MRead (d + 1)) else Val (Failing, m))).
    { destruct (cell_eqb c0 c); exact Hm. }
    destruct c0 as [j|k|b w|j k|j k|b]; try exact Gd. clear Gd.
    destruct (small_flat c Fi) as (Fc & Ac & Wc).
    assert (Hd : nth_error (hp m) d = Some (CRef d w)).
    { apply at_nth in Ec. pose proof (deref_derefs _ _ _ Ed) as (n & D). destruct (derefs_root _ _ _ _ D) as [Ld Nd].
      unfold next in Nd. rewrite Ec in Nd. destruct (Nat.eqb_spec b d); [now subst b|discriminate]. }
    destruct (push_bind sto (hp m) d w c 0 W Hd Ac) as (h' & Eb & W' & Lh & _); [apply Wc; lia|].
    assert (Es : hsize (list cell) fops (push (list cell) fops m c) - 1 = len (hp m)).
    { unfold hsize, push. cbn [h_size h_push fops m_heap set_heap]. rewrite app_length. cbn [List.length]. lia. }
    cbv zeta. rewrite Es. change (hp (push (list cell) fops m c)) with (hp m ++ [c]). rewrite Eb. cbn [bind fine snd]. split; [exact W'|].
    cbn [m_heap set_heap set_mode]. unfold bind_ref in Eb. destruct (at_ (list cell) fops (hp m ++ [c]) d) as [c0| |] eqn:E0; cbn [bind] in Eb; try discriminate.
    destruct c0; try discriminate. unfold hset in Eb. cbn [h_set fops] in Eb. destruct (upd (hp m ++ [c]) d _) as [h1|] eqn:U; [|discriminate]. injection Eb as <-.
    apply Forall_forall. intros y Hx. apply In_nth_error in Hx. destruct Hx as (j & Hj). rewrite (upd_nth _ _ _ _ _ U) in Hj.
    destruct (Nat.eqb j d); [injection Hj as <-; exact I|]. apply nth_error_In in Hj. apply in_app_iff in Hj. unfold heap_flat in F. rewrite Forall_forall in F.
    destruct Hj as [Hj|[<-|[]]]; auto.
  - apply (fine_bind mgood); [apply WR; now apply push_ref_good|]. intros m1 _ G1. apply (fine_bind mgood); [now apply WR|]. intros. assumption.
  - apply (fine_bind mgood); [apply WP; now apply push_ref_good|]. intros m1 _ G1. apply (fine_bind mgood); [now apply WR|]. intros. assumption.
  - eapply fine_bind; [apply fine_any, rreg_fuel|]. intros c _ _. apply (fine_bind mgood); [now apply WR|]. intros. assumption.
  - eapply fine_bind; [apply fine_any, rperm_fuel|]. intros c _ _. apply (fine_bind mgood); [now apply WR|]. intros. assumption.
  - eapply fine_bind; [apply fine_any, rreg_fuel|]. intros c _ _. apply (fine_bind mgood); [now apply WR|]. intros. assumption.
  - eapply fine_bind; [apply fine_any, rreg_fuel|]. intros c _ _. apply (fine_bind mgood); [now apply WP|]. intros. assumption.
  - eapply fine_bind; [apply fine_any, rreg_fuel|]. intros c _ _. eapply fine_bind; [apply fine_any, rreg_fuel|]. intros d _ _. apply GV.
  - eapply fine_bind; [apply fine_any, rperm_fuel|]. intros c _ _. eapply fine_bind; [apply fine_any, rreg_fuel|]. intros d _ _. apply GV.
  - exact Hm.
  - unfold equals_check. eapply fine_bind; [apply fine_any, rreg_fuel|]. intros c _ _. eapply fine_bind; [apply fine_any, heap_i_fuel|]. intros a _ _.
    eapply fine_bind; [apply fine_any, rreg_fuel|]. intros d _ _. eapply fine_bind; [apply fine_any, heap_i_fuel|]. intros b _ _.
    eapply fine_bind; [apply fine_any, equals_flat; assumption|]. intros r _ _. exact Hm.
  - unfold not_equals_check, equals_check. eapply fine_bind with (Q := fun r => mgood (snd r)); [|intros [s1 m1] _ G; exact G].
    eapply fine_bind; [apply fine_any, rreg_fuel|]. intros c _ _. eapply fine_bind; [apply fine_any, heap_i_fuel|]. intros a _ _.
    eapply fine_bind; [apply fine_any, rreg_fuel|]. intros d _ _. eapply fine_bind; [apply fine_any, heap_i_fuel|]. intros b _ _.
    eapply fine_bind; [apply fine_any, equals_flat; assumption|]. intros r _ _. exact Hm.
Qed.
Lemma run_flat fuel is : forall m, Forall instr_flat is -> mgood m -> fine (fun r => mgood (snd r)) (run_local cf sto (S fuel) is m).
Proof.
  induction is as [|i is IH]; intros m Fi G; cbn [run_local]; [exact G|].
  inversion Fi as [|? ? F1 F2]; subst.
  eapply fine_bind; [apply step_flat; eauto|]. intros [s m1] _ G1. cbn [snd] in G1. destruct s; [now apply IH|exact G1|exact G1].
Qed.
Lemma flat_finite h : wfh sto 0 h -> heap_flat h -> finite_terms sto h.
Proof.
  intros W F a La. destruct (wfh_deref sto 0 h a W La) as (d & Ed & Ld & Nd & (n & D)). destruct (root_cases sto 0 h d W Ld Nd) as (c & Ec & Hc).
  assert (K : exists t, rd sto h d t).
  { unfold heap_flat in F. rewrite Forall_forall in F. pose proof (F c (nth_error_In _ _ Ec)) as Fc. destruct c; try contradiction; cbn in Fc.
    - eexists. eapply rd_con; eauto.
    - eexists. eapply rd_int; eauto.
    - subst. eexists (TVar d ""). eapply rd_var; eauto.
    - subst. eexists. eapply rd_fun; [exact Ec|]. cbn. constructor. }
  destruct K as (t & Rt). exists t. eapply rd_derefs; eauto.
Qed.

(** --- the code of clauses and queries without compound terms --- *)
Definition leaf_ent (e : ent) : Prop := leaf (en_node e) /\ en_kids e = [].
Lemma scell_flat n c : scell sto n c -> leaf n -> small_cell c.
Proof.
  intros [t l i Hi|t l i Hi] L; cbn in L; [|contradiction]. destruct l; [|contradiction]. cbn. split; [reflexivity|eauto].
Qed.
Section Code.
Variable perm : string -> option nat.
Lemma qents_flat es s0 is s1 : qents sto perm es s0 is s1 -> Forall leaf_ent es -> Forall instr_flat is.
Proof.
  induction 1 as [|k ks s0 c1 s1 c2 s2 Hk H IH]; intros F; [constructor|]. inversion F as [|? ? [F1 F1'] F2]; subst.
  apply Forall_app. split; [|auto]. destruct Hk; cbn in F1, F1'; repeat constructor; cbn; eauto.
  - eapply scell_flat; eauto.
  - subst. inversion H1; subst. constructor.
Qed.
Lemma hents_flat es s0 is s1 : hents sto perm es s0 is s1 -> Forall leaf_ent es -> Forall instr_flat is.
Proof.
  induction 1 as [|k ks s0 c1 s1 c2 s2 Hk H IH]; intros F; [constructor|]. inversion F as [|? ? [F1 F1'] F2]; subst.
  apply Forall_app. split; [|auto]. destruct Hk; cbn in F1, F1'; repeat constructor; cbn; eauto.
  - eapply scell_flat; eauto.
  - subst. inversion H1; subst. constructor.
Qed.
Definition aflat (a : aatom) : Prop := Forall leaf_ent (aa_ents a).
Lemma flatp_flat a : aflat a -> Forall leaf_ent (flatten_program a).
Proof. intros F. unfold flatten_program. apply Forall_forall. intros e He. apply filter_In in He. unfold aflat in F. rewrite Forall_forall in F. apply F, He. Qed.
Lemma flatq_flat a : aflat a -> Forall leaf_ent (flatten_query a).
Proof.
  intros F. apply flatp_flat in F. unfold flatten_query. destruct (is_constant (aa_top a)); [assumption|].
  rewrite <- (firstn_skipn (List.length (kids (aa_top a))) (flatten_program a)) in F. apply Forall_app in F.
  apply Forall_app. split; [apply Forall_rev|]; apply F.
Qed.
Lemma to_query_flat a seen s c seen' s' : to_query perm a seen s = (COk (c, seen'), s') -> sto_ext s' sto -> aflat a -> good_call (to_fview (aa_top a)) ->
  Forall instr_flat c.
Proof.
  intros E X F G. destruct (to_query_rel sto perm ok _ _ _ _ _ _ E X) as (is & -> & Q). apply Forall_app. split; [|repeat constructor; apply G].
  eapply qents_flat; [exact Q|]. now apply flatq_flat.
Qed.
Lemma to_program_flat a seen s c seen' s' : to_program perm a seen s = (COk (c, seen'), s') -> sto_ext s' sto -> aflat a -> Forall instr_flat c.
Proof.
  intros E X F. destruct (to_program_rel sto perm ok _ _ _ _ _ _ E X) as (is & -> & Q). apply Forall_app. split; [|repeat constructor].
  eapply hents_flat; [exact Q|]. now apply flatp_flat.
Qed.
End Code.

Lemma leaf_kids n : leaf n -> kids n = [].
Proof. destruct n as [| | |s [|]|]; cbn; auto; contradiction. Qed.
Lemma mk_ents_flat nargs l : forall pos rest, Forall (fun x => leaf (fst x)) l -> Forall leaf_ent (mk_ents nargs pos l rest).
Proof.
  induction l as [|[n x] l IH]; intros pos rest F; [constructor|]. inversion F as [|? ? F1 F2]; subst. cbn [mk_ents]. constructor; [|now apply IH].
  split; [exact F1|]. cbn [en_kids]. cbn [fst] in F1. rewrite (leaf_kids n F1). reflexivity.
Qed.
Lemma bfs_flat f : forall q, Forall leaf q -> Forall leaf (bfs_q f q).
Proof.
  induction f as [|f IH]; intros q F; [constructor|]. destruct q as [|n q]; [constructor|]. cbn [bfs_q]. inversion F as [|? ? F1 F2]; subst.
  constructor; [assumption|]. apply IH. rewrite (leaf_kids n F1), app_nil_r. assumption.
Qed.
Lemma assign_term_flat n m : atom_flat n -> aflat (fst (fst (assign_term n m))).
Proof.
  intros H. unfold assign_term. destruct (assign_xs _ _ _ _ _) as [[xs c'] m']. cbn [fst]. unfold aflat. cbn [aa_ents]. apply mk_ents_flat.
  apply Forall_forall. intros [k x] Hk. apply in_combine_l in Hk. cbn [fst].
  assert (K : Forall leaf (bfs (kids n))) by (apply bfs_flat, Forall_forall; exact H).
  rewrite Forall_forall in K. now apply K.
Qed.
Lemma const_flat n : is_constant n = true -> aflat (const_atom n).
Proof. intros C. destruct n; try discriminate. repeat constructor. Qed.
Lemma assign_one_flat n : atom_flat n -> aflat (fst (assign_one n)).
Proof.
  intros A. unfold assign_one. destruct (is_constant n) eqn:C; [now apply const_flat|].
  pose proof (assign_term_flat n [] A) as K. destruct (assign_term n []) as [[a c] m]. exact K.
Qed.
Lemma assign_two_flat h b : atom_flat h -> atom_flat b -> let '(ha, ba, _) := assign_two h b in aflat ha /\ aflat ba.
Proof.
  intros A B. unfold assign_two. pose proof (assign_one_flat h A) as Fh. pose proof (assign_one_flat b B) as Fb.
  destruct (is_constant b) eqn:Cb.
  - destruct (assign_one h) as [ha c]. split; [assumption|now apply const_flat].
  - destruct (is_constant h) eqn:Ch.
    + destruct (assign_one b) as [ba c]. split; [now apply const_flat|assumption].
    + pose proof (assign_term_flat h [] A) as K1. destruct (assign_term h []) as [[ha c1] m1].
      pose proof (assign_term_flat b m1 B) as K2. destruct (assign_term b m1) as [[ba c2] m2]. split; assumption.
Qed.
Lemma assign_one_top n : aa_top (fst (assign_one n)) = n.
Proof.
  unfold assign_one. destruct (is_constant n); [reflexivity|]. unfold assign_term. destruct (assign_xs _ _ _ _ _) as [[xs c'] m']. reflexivity.
Qed.
Lemma assign_two_top h b : let '(ha, ba, _) := assign_two h b in aa_top ba = b.
Proof.
  unfold assign_two. pose proof (assign_one_top b) as Kb. destruct (is_constant b) eqn:Cb.
  - destruct (assign_one h). reflexivity.
  - destruct (is_constant h) eqn:Ch.
    + destruct (assign_one b) as [ba c]. exact Kb.
    + unfold assign_term. destruct (assign_xs _ _ _ _ []) as [[x1 c1] m1]. destruct (assign_xs _ _ _ _ m1) as [[x2 c2] m2]. reflexivity.
Qed.
Definition goal_flat (n : node) : Prop := atom_flat n /\ good_call (to_fview n).
Lemma alloc_flat n : Forall instr_flat (alloc_code n).
Proof. unfold alloc_code. destruct (Nat.eqb n 0); repeat constructor. Qed.
Lemma query_atoms_flat perm u ns : forall pre seen s r s', compile_query_atoms perm pre u ns seen s = (COk r, s') -> sto_ext s' sto ->
  Forall instr_flat pre -> Forall goal_flat ns -> Forall code_flat r.
Proof.
  induction ns as [|n ns IH]; intros pre seen s r s' E X P F; cbn [compile_query_atoms] in E; [injection E as <- <-; constructor|].
  apply cbind_ok in E. destruct E as ([a sa] & t1 & E1 & E). apply cbind_ok in E. destruct E as (r' & t2 & E2 & E).
  injection E as <- <-. inversion F as [|? ? [Hn Hg] Hns]; subst.
  assert (X1 : sto_ext t1 t2) by (pose proof (compile_query_atoms_ext perm u ns [] sa t1) as K; rewrite E2 in K; exact K).
  constructor; [|eapply IH; eauto]. unfold compile_query_atom in E1. pose proof (assign_one_flat n Hn) as Fa. pose proof (assign_one_top n) as Ta.
  destruct (assign_one n) as [aa cnt]. cbn [fst] in Fa, Ta.
  apply cbind_ok in E1. destruct E1 as ([c sq] & t3 & E1 & E1'). injection E1' as <- <- <-. unfold code_flat. cbn [ca_code].
  apply Forall_app. split; [assumption|]. eapply to_query_flat; [exact E1|eapply sto_ext_trans; eauto|assumption|now rewrite Ta].
Qed.
Definition clause_flat (c : list node) : Prop := match c with [] => False | h :: b => atom_flat h /\ Forall goal_flat b end.
Lemma clause_code_flat b c r : clause_code cf sto b c r -> clause_flat c -> Forall code_flat r.
Proof.
  intros (s0 & sE & f & E & X) W. unfold compile_program_term in E. destruct c as [|h body]; [contradiction|].
  destruct (negb b && redefines h)%bool; [discriminate|]. destruct W as [Wh Wb].
  set (perm := fun s => pos_of s (perm_order cf (h :: body) true)) in *.
  assert (A : exists ha oba cnt, (match body with [] => let '(ha, c) := assign_one h in (ha, None, c) | b :: _ => let '(ha, ba, c) := assign_two h b in (ha, Some ba, c) end) = (ha, oba, cnt)
    /\ aflat ha /\ match oba with None => True | Some ba => aflat ba /\ good_call (to_fview (aa_top ba)) end).
  { destruct body as [|b1 bs].
    - pose proof (assign_one_flat h Wh) as K. destruct (assign_one h) as [ha c]. eauto 6.
    - inversion Wb as [|? ? [W1 G1] _]; subst. pose proof (assign_two_flat h b1 Wh W1) as K. pose proof (assign_two_top h b1) as T.
      destruct (assign_two h b1) as [[ha ba] c]. destruct K. exists ha, (Some ba), c. rewrite T. auto. }
  destruct A as (ha & oba & cnt & EA & Fh & Fb). rewrite EA in E.
  apply cbind_ok in E. destruct E as ([hc s1] & t1 & E1 & E). apply cbind_ok in E. destruct E as ([firsts s3] & t2 & E2 & E).
  apply cbind_ok in E. destruct E as (others & t3 & E3 & E). injection E as <- <- <-.
  assert (X3 : sto_ext t2 t3) by (pose proof (compile_query_atoms_ext perm false (tl body) [] (remove_x_a_regs s3) t2) as K; rewrite E3 in K; exact K).
  assert (X2 : sto_ext t1 t2).
  { destruct oba as [ba|]; [|injection E2 as <- <- <-; apply sto_ext_refl]. apply cbind_ok in E2. destruct E2 as ([bc s4] & t4 & E4 & E5). injection E5 as <- <- <-.
    pose proof (to_query_ext perm ba (erase_head_regs ha s1) t1) as K. rewrite E4 in K. exact K. }
  assert (Xt2 : sto_ext t2 sto) by (eapply sto_ext_trans; eauto). assert (Xt1 : sto_ext t1 sto) by (eapply sto_ext_trans; eauto).
  constructor.
  - unfold code_flat. cbn [ca_code]. apply Forall_app. split; [apply alloc_flat|]. eapply to_program_flat; eauto.
  - apply Forall_app. split.
    + destruct oba as [ba|]; [|injection E2 as <- _ _; constructor]. apply cbind_ok in E2. destruct E2 as ([bc s4] & t4 & E4 & E5). injection E5 as <- <- <-.
      constructor; [|constructor]. unfold code_flat. cbn [ca_code]. destruct Fb. eapply to_query_flat; eauto.
    + apply Forall_app. split; [eapply query_atoms_flat; eauto; destruct body; [constructor|]; now inversion Wb|].
      destruct (Nat.eqb _ 0); repeat constructor.
Qed.
Section Branches.
Variable P : list (list node).
Variable pg : prog.
Hypothesis PC : prog_code cf sto P pg.
Hypothesis CW : Forall clause_flat P.
Lemma prog_flat f rs : good_call f -> plookup f pg = Some rs -> Forall (Forall code_flat) rs.
Proof.
  intros [Ga Gi] E. pose proof (PC f) as K.
  assert (G : forall b cs rs, Forall2 (clause_code cf sto b) cs rs -> Forall clause_flat cs -> Forall (Forall code_flat) rs).
  { induction 1 as [|c r cs' rs' Hc H IH]; intros F; [constructor|]. inversion F; subst. constructor; [eapply clause_code_flat; eauto|auto]. }
  destruct (special f) as [i|] eqn:Es.
  - destruct K as (rs' & E' & K). rewrite E in E'. injection E' as <-. destruct (special_shape cf OK sto f i rs Es K) as (a & -> & Ec & _).
    constructor; [|constructor]. constructor; [|constructor]. unfold code_flat. rewrite Ec.
    destruct (special_eq _ _ Es) as [[-> _]|[[-> ->]|[-> ->]]]; [now elim Gi|repeat constructor|repeat constructor].
  - rewrite Ga, E in K. destruct K as [K _]. eapply G; [exact K|]. unfold clauses_of. apply Forall_forall. intros c Hc. apply filter_In in Hc.
    rewrite Forall_forall in CW. apply CW, Hc.
Qed.
Definition pflat (p : process) : Prop := mgood (p_m p) /\ Forall code_flat (p_codes p).
Lemma run_pflat fuel p : pflat p -> fine (fun r => mgood (snd r)) (match p_codes p with [] => Ub UCode
  | a :: _ => run_local cf sto (S fuel) (removelast (ca_code a)) (set_regs (p_m p) (resize (m_regs (p_m p)) (ca_regs a))) end).
Proof.
  intros [G F]. destruct (p_codes p) as [|a rest]; [exact I|]. inversion F as [|? ? F1 F2]; subst. apply run_flat; [now apply Forall_removelast|exact G].
Qed.
Lemma turn_flat fuel p l : pflat p -> p_turn cf sto (S fuel) pg p = Val (PKids l) -> Forall pflat l.
Proof.
  intros F E. pose proof (run_pflat fuel p F) as R. unfold p_turn in E. destruct (p_codes p) as [|a rest] eqn:Ec; [discriminate|].
  destruct (run_local cf sto (S fuel) (removelast (ca_code a)) _) as [[s m]| |] eqn:Er; cbn [bind] in E; try discriminate.
  cbn [fine snd] in R. destruct F as [_ F]. rewrite Ec in F. inversion F as [|? ? F1 F2]; subst.
  destruct s; try discriminate. destruct (last (ca_code a) IProceed) eqn:El; try discriminate.
  - destruct (plookup f pg) as [rs|] eqn:Ep; try discriminate. injection E as <-. apply prog_flat in Ep.
    + apply Forall_forall. intros q Hq. apply in_map_iff in Hq. destruct Hq as (r & <- & Hr). split; [exact R|]. cbn [p_codes].
      apply Forall_app. split; [|assumption]. rewrite Forall_forall in Ep. auto.
    + assert (K : instr_flat (last (ca_code a) IProceed)).
      { unfold code_flat in F1. destruct (ca_code a) as [|x xs] eqn:Ea; [exact I|]. rewrite Forall_forall in F1. apply F1.
        assert (N : x :: xs <> []) by discriminate. pose proof (app_removelast_last IProceed N) as L. remember (last (x :: xs) IProceed) as z.
        rewrite L. apply in_app_iff. right. now left. }
      now rewrite El in K.
  - destruct (forallb is_dealloc rest).
    + destruct (answer_of _ _ _ _); discriminate.
    + injection E as <-. constructor; [|constructor]. split; assumption.
  - destruct (m_envs m) as [|e es] eqn:Ee; [discriminate|]. injection E as <-. constructor; [|constructor]. split; [|assumption]. exact R.
Qed.
Lemma path_flat root pi p : pflat root -> at_path cf sto pg root pi p -> pflat p.
Proof.
  intros R H. induction H as [|pi p i l k H IH [fuel E] Hn]; [assumption|].
  assert (E' : p_turn cf sto (S fuel) pg p = Val (PKids l)).
  { refine (le_val _ _ _ (p_turn_mono cf sto pg fuel (S fuel) p _) E). lia. }
  pose proof (turn_flat fuel p l IH E') as F. rewrite Forall_forall in F. apply F. eapply nth_error_In; eauto.
Qed.
Lemma pflat_ends p h : pflat p -> ends_with cf sto p h -> finite_terms sto h.
Proof.
  intros F (fuel & a & rest & m & Ec & Er & <-). pose proof (run_pflat fuel p F) as R. rewrite Ec in R.
  rewrite (le_val _ _ _ (run_local_mono cf sto fuel (S fuel) _ (Nat.le_succ_diag_r _) _) Er) in R. destruct R. now apply flat_finite.
Qed.
End Branches.
Lemma root_flat q r : query_code cf sto q r -> Forall goal_flat q -> pflat (init_proc r).
Proof.
  intros (s0 & s1 & E & X) F. split.
  - split; cbn; [split; [intros a c K; destruct a; discriminate|intros a K; inversion K]|constructor].
  - cbn [p_codes init_proc]. unfold compile_query in E. eapply query_atoms_flat; eauto. apply alloc_flat.
Qed.
End Flat.

(** programs and queries without compound terms, [append] and [is] *)
Definition datalog (P : list (list node)) (q : list node) : Prop :=
  (forall c n, In c P -> In n c -> atom_flat n) /\ (forall n, In n q -> atom_flat n) /\ all_goals no_append P q /\ all_goals no_is P q.
Section Session.
Variable cf : cfg.
Hypothesis OK : ord_ok cf.
Variable o : org.
Variable P : list (list node).
Variable q : list node.
Hypothesis HS : session cf o P (QFresh q).
Hypothesis SM : small_tables (o_sto o).
Hypothesis NC : no_clash cf P.
Hypothesis DL : datalog P q.
Notation sto := (o_sto o).
Notation pg := (o_prog o).
Lemma dl_path root pi p : root_of o root -> at_path cf sto pg root pi p -> pflat sto p.
Proof.
  intros (r & Er & ->) Hp. destruct (session_inv _ _ _ _ HS) as [_ (r' & Q1 & Q2 & Q3 & Q4 & Q5)].
  assert (r = r') as ->.
  { rewrite Q3 in Er. injection Er as E. unfold query_ptrs in E. clear - E. revert r' E. induction r as [|a x IH]; intros [|b y] E; try discriminate; [reflexivity|].
    cbn in E. injection E as -> E. f_equal. now apply IH. }
  destruct DL as (D1 & D2 & [D3 D3'] & [D4 D4']).
  eapply path_flat; eauto using sess_ok, sess_PC.
  - destruct (session_parsed _ _ _ _ HS) as [[W _] _]. rewrite Forall_forall in *. intros c Hc. specialize (W c Hc). destruct c as [|h b]; [contradiction|].
    split; [apply (D1 _ _ Hc); now left|]. apply Forall_forall. intros n Hn. split; [apply (D1 _ _ Hc); now right|]. split; [apply (D3 _ _ Hc Hn)|apply (D4 _ _ Hc Hn)].
  - eapply root_flat; eauto using sess_ok. apply Forall_forall. intros n Hn. split; [auto|]. split; [apply (D3' _ Hn)|apply (D4' _ Hn)].
Qed.
Lemma datalog_acyclic : no_cycles cf o.
Proof. intros root pi p h Hr Hp. eapply pflat_ends; eauto using sess_ok. eapply dl_path; eauto. Qed.
End Session.
