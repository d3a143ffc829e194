(** The labels of the unification tree: the goals called, for rules whose first goal keeps the registers of its variables. *)
From Coq Require Import Decimal DecimalZ DecimalString.
From Verif Require Import Base Machine Heap Facts HeapSim Compiler Parser Print Organizer Spec Valuation Process Refine Mono Turn Shape Session
  Code Put Search PutRun Get Alloc Atoms Clause Stack Ready Heads Builtins Sols Solve Terms Shown Parsed Tables Root Order Runs Answers
  Clash Examples Witness Finite Tree TreeTurn TreeInv TreeRun TreeSrc TreeFacts TreeShape TreeAll TreeCase.
Open Scope string_scope.
Open Scope list_scope.

(** --- printing an integer and reading it back --- *)
Lemma digits_uint d : forall acc, digits_val (NilEmpty.string_of_uint d) (Zpos acc) = Some (Zpos (Pos.of_uint_acc d acc)).
Proof.
  induction d as [|d IH|d IH|d IH|d IH|d IH|d IH|d IH|d IH|d IH|d IH]; intros acc; cbn [NilEmpty.string_of_uint Pos.of_uint_acc]; [reflexivity|..];
    rewrite <- IH;
    match goal with |- digits_val (String ?c ?s) ?x = digits_val ?s ?y =>
      transitivity (digits_val s (x * 10 + (Z.of_nat (nat_of_ascii c) - 48))%Z); [reflexivity|f_equal]
    end;
    match goal with |- (_ + (?z - 48))%Z = _ => let k := eval vm_compute in z in change z with k end; lia.
Qed.
Lemma digits_uint0 d : digits_val (NilEmpty.string_of_uint d) 0 = Some (Z.of_N (Pos.of_uint d)).
Proof.
  induction d as [|d IH|d IH|d IH|d IH|d IH|d IH|d IH|d IH|d IH|d IH]; cbn [NilEmpty.string_of_uint digits_val Pos.of_uint]; [reflexivity|exact IH|..];
    cbn [Z.of_N]; rewrite <- digits_uint; reflexivity.
Qed.
Lemma digits_zero d : digits_val (NilZero.string_of_uint d) 0 = Some (Z.of_N (Pos.of_uint d)).
Proof. destruct d; [reflexivity|..]; apply digits_uint0. Qed.
Lemma uint_first d : exists c s, NilZero.string_of_uint d = String c s /\ Ascii.eqb c "-"%char = false.
Proof. destruct d; cbn; eauto. Qed.
Lemma lit_val_string z : lit_val (string_of_Z z) = z.
Proof.
  unfold lit_val, string_of_Z, int_text_val. rewrite <- (DecimalZ.of_to z) at 2. destruct (Z.to_int z) as [d|d]; cbn [NilZero.string_of_int].
  - destruct (uint_first d) as (c & s & E & Ec). rewrite <- (digits_zero d) || idtac. rewrite E. rewrite Ec, <- E, digits_zero. reflexivity.
  - cbn [Ascii.eqb Bool.eqb]. destruct (uint_first d) as (c & s & E & Ec). rewrite E, <- E, digits_zero. reflexivity.
Qed.

(** --- the term a label stands for --- *)
Fixpoint rterm (n : rnode) : tm :=
  match n with
  | RVar s a => TVar a s
  | RCon s => TCon s
  | RInt s => TInt (lit_val s)
  | RFun s l => TFun s (map rterm l)
  | REv s l => TEv s (map rterm l)
  end.
Lemma tm_ind2 (Q : tm -> Prop) : (forall a s, Q (TVar a s)) -> (forall s, Q (TCon s)) -> (forall n, Q (TInt n)) ->
  (forall s l, Forall Q l -> Q (TFun s l)) -> (forall s l, Forall Q l -> Q (TEv s l)) -> forall t, Q t.
Proof.
  intros H1 H2 H3 H4 H5. fix IH 1. intros [a s|s|n|s l|s l]; [apply H1|apply H2|apply H3|..].
  - apply H4. induction l; constructor; auto.
  - apply H5. induction l; constructor; auto.
Qed.

(** equality up to the names of variables *)
Inductive alike : tm -> tm -> Prop :=
| al_var a s s' : alike (TVar a s) (TVar a s')
| al_con s : alike (TCon s) (TCon s)
| al_int n : alike (TInt n) (TInt n)
| al_fun s l l' : Forall2 alike l l' -> alike (TFun s l) (TFun s l')
| al_ev s l l' : Forall2 alike l l' -> alike (TEv s l) (TEv s l').
Lemma alike_ground : forall u t, (forall g, ginst g u = ginst g t) -> alike u t.
Proof.
  assert (L : forall (l l' : list tm), Forall (fun u => forall t, (forall g, ginst g u = ginst g t) -> alike u t) l ->
    (forall g, map (ginst g) l = map (ginst g) l') -> Forall2 alike l l').
  { intros l l' F. revert l'. induction F as [|u l Hu F IH]; intros [|t l'] E; try (specialize (E (fun _ => GInt 0)); discriminate); constructor.
    - apply Hu. intros g. specialize (E g). now injection E.
    - apply IH. intros g. specialize (E g). now injection E. }
  intros u. induction u as [a s|s|n|s l IH|s l IH] using tm_ind2; intros t E.
  - destruct t as [b s'|s'|n|s' l|s' l].
    + pose proof (E (fun x => if Nat.eqb x a then GInt 0 else GInt 1)) as K. cbn in K. rewrite Nat.eqb_refl in K.
      destruct (Nat.eqb_spec b a) as [->|]; [constructor|discriminate].
    + specialize (E (fun _ => GInt 0)). discriminate.
    + specialize (E (fun _ => GCon "")). discriminate.
    + specialize (E (fun _ => GInt 0)). discriminate.
    + specialize (E (fun _ => GInt 0)). discriminate.
  - destruct t as [b s'|s'|n|s' l|s' l]; pose proof (E (fun _ => GInt 0)) as K; try discriminate. injection K as ->. constructor.
  - destruct t as [b s'|s'|m|s' l|s' l]; [|pose proof (E (fun _ => GInt 0)) as K; try discriminate..].
    + specialize (E (fun _ => GCon "")). discriminate.
    + injection K as ->. constructor.
  - destruct t as [b s'|s'|n|s' l'|s' l']; pose proof (E (fun _ => GInt 0)) as K; try discriminate. injection K as -> _. constructor.
    apply L; [assumption|]. intros g. specialize (E g). now injection E.
  - destruct t as [b s'|s'|n|s' l'|s' l']; pose proof (E (fun _ => GInt 0)) as K; try discriminate. injection K as -> _. constructor.
    apply L; [assumption|]. intros g. specialize (E g). now injection E.
Qed.
Lemma rd_alike sto h a t : rd sto h a t -> forall t', alike t t' -> rd sto h a t'.
Proof.
  revert a t. apply (rd_mut sto h (fun a t => forall t', alike t t' -> rd sto h a t')
    (fun a n l => forall l', Forall2 alike l l' -> rds sto h a n l')).
  - intros a b t N R IH t' K. eapply rd_next; eauto.
  - intros a v nm E t' K. inversion K; subst. eapply rd_var; eauto.
  - intros a i E t' K. inversion K; subst. now apply rd_con.
  - intros a n E t' K. inversion K; subst. now apply rd_int.
  - intros a i n l E R IH t' K. inversion K; subst. eapply rd_fun; eauto.
  - intros a i n l E R IH t' K. inversion K; subst. eapply rd_ev; eauto.
  - intros a l' K. inversion K. constructor.
  - intros a n t l R IH Rs IHs l' K. inversion K; subst. constructor; auto.
Qed.

(** --- reading terms from a heap --- *)
Lemma node_args_ext p q : (forall k, p k = q k) -> forall n k, node_args p n k = node_args q n k.
Proof. intros H n. induction n as [|n IH]; intros k; cbn; [reflexivity|]. rewrite H, IH. reflexivity. Qed.
Lemma node_rep_sim par sto lh fh : hrel par lh fh -> forall n a, node_rep (lops par) sto n lh a = node_rep fops sto n fh a.
Proof.
  intros H n. induction n as [|n IH]; intros a; cbn [node_rep]; [reflexivity|].
  rewrite (deref_sim par lh fh a H). destruct (deref _ fops fh a) as [d| |]; cbn [bind]; auto.
  rewrite (at_sim par lh fh d H). destruct (at_ _ fops fh d) as [c| |]; cbn [bind]; auto.
  destruct c; auto.
  - destruct (of_opt _ _) as [fv| |]; cbn [bind]; auto. now rewrite (node_args_ext _ _ IH).
  - destruct (of_opt _ _) as [fv| |]; cbn [bind]; auto. now rewrite (node_args_ext _ _ IH).
Qed.

Section Read.
Variable sto : storage.
Variable h : list cell.
Hypothesis W : wfh sto 0 h.
Lemma node_rep_rd n : forall a r, node_rep fops sto n h a = Val r -> rd sto h a (rterm r).
Proof.
  induction n as [|n IH]; intros a r E; [discriminate|]. cbn [node_rep] in E.
  assert (L : forall m k l, node_args (node_rep fops sto n h) m k = Val l -> rds sto h k m (map rterm l)).
  { induction m as [|m IHm]; intros k l El; cbn [node_args] in El; [injection El as <-; constructor|].
    apply bind_val in El. destruct El as (x & Ex & El). apply bind_val in El. destruct El as (l' & El' & El). injection El as <-.
    cbn [map]. constructor; auto. }
  apply bind_val in E. destruct E as (d & Ed & E). apply bind_val in E. destruct E as (c & Ec & E).
  apply deref_derefs in Ed. destruct Ed as (m & D). eapply rd_derefs; [exact D|]. destruct (derefs_root _ _ _ _ D) as [Ld Nd].
  apply at_nth in Ec. pose proof (proj1 W d c Ec) as Wc.
  destruct c as [i|z|b v|i z|i z|b]; cbn [wf_cell] in Wc.
  - destruct Wc as (s & Es). rewrite Es in E. injection E as <-. cbn [rterm fv_name].
    replace s with (fn sto i) by (unfold fn; now rewrite Es). now apply rd_con.
  - injection E as <-. cbn [rterm]. rewrite lit_val_string. now apply rd_int.
  - apply bind_val in E. destruct E as (nm & _ & E). injection E as <-. cbn [rterm].
    assert (b = d). { unfold next in Nd. rewrite Ec in Nd. destruct (Nat.eqb_spec b d); [assumption|discriminate]. }
    subst b. eapply rd_var; eauto.
  - destruct Wc as (_ & (s & Es) & _). rewrite Es in E. cbn [of_opt bind fv_arity fv_name] in E. apply bind_val in E. destruct E as (l & El & E).
    injection E as <-. cbn [rterm]. replace s with (fn sto i) by (unfold fn; now rewrite Es).
    eapply rd_fun; [exact Ec|]. rewrite Nat.add_1_r in El. auto.
  - destruct Wc as (-> & _). apply bind_val in E. destruct E as (nm & En & E). apply bind_val in E. destruct E as (l & El & E).
    apply of_opt_val in En. injection E as <-. cbn [rterm]. replace nm with (opn i) by (unfold opn; now rewrite En).
    eapply rd_ev; [exact Ec|]. rewrite Nat.add_1_r in El. auto.
  - discriminate.
Qed.

(** --- replacing the variables of a source term --- *)
Lemma replace_fun l s ks : replace_vars l (NFun s ks) = (r <- omap (replace_vars l) ks ;; Val (RFun s r)).
Proof. reflexivity. Qed.
Lemma replace_ev l s ks : replace_vars l (NEv s ks) = (r <- omap (replace_vars l) ks ;; Val (REv s r)).
Proof. reflexivity. Qed.
Lemma replace_inst v g rl : (forall s x, assoc s rl = Some x -> v s = ginst g (rterm x)) ->
  forall n x, replace_vars rl n = Val x -> inst v n = ginst g (rterm x).
Proof.
  intros H. induction n as [s|s|s|s ks IH|s ks IH] using node_ind'; intros x E.
  - cbn [replace_vars] in E. apply of_opt_val in E. exact (H _ _ E).
  - injection E as <-. reflexivity.
  - injection E as <-. reflexivity.
  - rewrite replace_fun in E. apply bind_val in E. destruct E as (r & Er & E). injection E as <-. apply omap_val in Er.
    cbn [inst rterm ginst]. f_equal. induction Er as [|k y ks r Ek Er IHr]; [reflexivity|]. inversion IH; subst. cbn [map]. f_equal; auto.
  - rewrite replace_ev in E. apply bind_val in E. destruct E as (r & Er & E). injection E as <-. apply omap_val in Er.
    cbn [inst rterm ginst]. f_equal. induction Er as [|k y ks r Ek Er IHr]; [reflexivity|]. inversion IH; subst. cbn [map]. f_equal; auto.
Qed.
End Read.

(** --- one argument of a label --- *)
Lemma arg_shown sto h V a n rl x : wfh sto 0 h -> finite_terms sto h -> a < List.length h -> vals sto h V a n ->
  (forall s y, assoc s rl = Some y -> exists b, b < List.length h /\ vals sto h V b (NVar s) /\ rd sto h b (rterm y)) ->
  replace_vars rl n = Val x -> rd sto h a (rterm x).
Proof.
  intros W F La Va Hr E. destruct (F a La) as (u & Ru). apply (rd_alike sto h a u Ru). apply alike_ground. intros g.
  destruct (ground_fin sto h W F g) as (rho & Hs & Hg).
  set (v := fun s => match V s with Some b => rho b | None => GInt 0 end).
  assert (Hv : cons_on rho V v). { intros s b Eb. unfold v. now rewrite Eb. }
  rewrite <- (Hg a u Ru La), (Va rho v Hs Hv). apply (replace_inst v g rl); [|assumption].
  intros s y Ey. destruct (Hr s y Ey) as (b & Lb & Vb & Rb). rewrite <- (Hg b _ Rb Lb). symmetry. exact (Vb rho v Hs Hv).
Qed.
Lemma reps_rd fuel o e h : hrel (heap_at (o_arena o) (x_parent e)) (m_heap (x_m e)) h -> wfh (o_sto o) 0 h ->
  forall l rl, reps fuel o e l = Val rl -> forall s y, assoc s rl = Some y -> exists b, In (s, b) l /\ rd (o_sto o) h b (rterm y).
Proof.
  intros H W. induction l as [|[s0 a0] l IH]; intros rl E s y Ey; cbn [reps] in E; [injection E as <-; discriminate|].
  apply bind_val in E. destruct E as (n & En & E). apply bind_val in E. destruct E as (r & Er & E). injection E as <-.
  cbn [assoc] in Ey. destruct (String.eqb_spec s s0) as [->|Ns].
  - injection Ey as <-. exists a0. split; [now left|]. unfold exec_rep in En. rewrite (node_rep_sim _ _ _ _ H) in En.
    eapply node_rep_rd; eauto.
  - destruct (IH r Er s y Ey) as (b & Hb & Rb). exists b. split; [now right|assumption].
Qed.

(** --- the labels of a tree: executor, name and text of the resolved query nodes in preorder --- *)
Fixpoint q_labels (t : qnode) : list (nat * rnode * string) :=
  match t with
  | QNode ex id nm ks => match nm with Some (n, s) => [(ex, n, s)] | None => [] end ++
      (fix go (l : list bnode) := match l with [] => [] | b :: l' => b_labels b ++ go l' end) ks
  end
with b_labels (b : bnode) : list (nat * rnode * string) :=
  match b with
  | BNode ex id _ c => match c with BQuery q => q_labels q | _ => [] end
  end.
Lemma q_labels_eq ex id nm ks : q_labels (QNode ex id nm ks) = match nm with Some (n, s) => [(ex, n, s)] | None => [] end ++ flat_map b_labels ks.
Proof. reflexivity. Qed.
Lemma labels_pre ex n str : forall t, In (ex, n, str) (q_labels t) -> exists i, In (true, ex, i) (q_pre t).
Proof.
  apply (qnode_ind2 (fun t => In (ex, n, str) (q_labels t) -> exists i, In (true, ex, i) (q_pre t))
                    (fun b => In (ex, n, str) (b_labels b) -> exists i, In (true, ex, i) (b_pre b))).
  - intros x id nm ks H K. rewrite q_labels_eq in K. rewrite q_pre_eq. apply in_app_iff in K. destruct K as [K|K].
    + destruct nm as [[m s]|]; [|contradiction]. destruct K as [K|[]]. injection K as -> _ _. exists id. now left.
    + apply in_flat_map in K. destruct K as (b & Hb & K). rewrite Forall_forall in H. destruct (H b Hb K) as (i & Hi).
      exists i. right. apply in_flat_map. eauto.
  - intros x id bs [].
  - intros x id bs b [].
  - intros x id bs q IH K. destruct (IH K) as (i & Hi). exists i. rewrite b_pre_eq. now right.
Qed.
Lemma make_q_labels fuel o n : forall id cnt t c, make_q fuel n o id cnt = Val (t, c) -> q_labels t = [].
Proof.
  induction n as [|n IH]; intros id cnt t c E; [discriminate|]. rewrite make_q_eq in E.
  apply bind_val in E. destruct E as (e & He & E). apply bind_val in E. destruct E as ([ks c1] & Ek & E). injection E as <- <-.
  apply make_bs_all in Ek. rewrite q_labels_eq. cbn [app]. induction Ek as [|k b kl ks (cc & cc1 & Eb) Ek IHk]; [reflexivity|].
  cbn [flat_map]. rewrite IHk, app_nil_r. destruct (make_b_case _ _ _ _ _ _ _ Eb) as (ke & _ & Hb).
  destruct (x_state ke); [destruct Hb as [-> _]|destruct Hb as [-> _]|destruct Hb as (l & _ & -> & _)|destruct Hb as (j & q & _ & Eq & ->)|destruct Hb as [-> _]];
    try reflexivity. cbn [b_labels]. eapply IH; eauto.
Qed.
Lemma resolve_labels fuel o x n str : forall t t', resolve_q fuel o t = Val t' -> In (x, n, str) (q_labels t') ->
  In (x, n, str) (q_labels t) \/ exists e, nth_error (o_arena o) x = Some e /\ query_name fuel o e = Val n /\ node_str n = Val str.
Proof.
  apply (qnode_ind2 (fun t => forall t', resolve_q fuel o t = Val t' -> In (x, n, str) (q_labels t') ->
                        In (x, n, str) (q_labels t) \/ exists e, nth_error (o_arena o) x = Some e /\ query_name fuel o e = Val n /\ node_str n = Val str)
                    (fun b => forall nm b', resolve_b fuel o nm b = Val b' -> In (x, n, str) (b_labels b') ->
                        In (x, n, str) (b_labels b) \/ exists e, nth_error (o_arena o) x = Some e /\ query_name fuel o e = Val n /\ node_str n = Val str)).
  - intros ex id nm ks H t' E K. rewrite resolve_q_eq in E. apply bind_val in E. destruct E as (e & He & E). apply of_opt_val in He.
    apply bind_val in E. destruct E as (m & Em & E). apply bind_val in E. destruct E as (s & Es & E).
    assert (Own : forall ks', (In (x, n, str) (flat_map b_labels ks') -> In (x, n, str) (flat_map b_labels ks) \/ exists e, nth_error (o_arena o) x = Some e /\ query_name fuel o e = Val n /\ node_str n = Val str) ->
      In (x, n, str) (q_labels (QNode ex id (Some (m, s)) ks')) -> In (x, n, str) (q_labels (QNode ex id nm ks)) \/ exists e, nth_error (o_arena o) x = Some e /\ query_name fuel o e = Val n /\ node_str n = Val str).
    { intros ks' Hk K'. rewrite q_labels_eq in K'. destruct K' as [K'|K'].
      - injection K' as -> -> ->. right. eauto.
      - destruct (Hk K') as [Hk'|Hk']; [left|now right]. rewrite q_labels_eq. apply in_app_iff. now right. }
    destruct (has_failed e || is_running e)%bool.
    + injection E as <-. apply (Own ks); auto.
    + apply bind_val in E. destruct E as (ks' & Ek & E). injection E as <-. apply (Own ks'); [|assumption]. clear Own K.
      apply omap_val in Ek. induction Ek as [|b b' ks ks' Eb Ek IH]; [intros []|]. inversion H as [|? ? Hb Hk]; subst.
      cbn [flat_map]. rewrite !in_app_iff. intros [K|K].
      * destruct (Hb _ _ Eb K); auto.
      * destruct (IH Hk K); auto.
  - intros ex id bs nm b' E. cbn [resolve_b] in E. apply bind_val in E. destruct E as (e & _ & E).
    destruct (has_failed e || is_running e)%bool; [injection E as <-; intros []|]. apply bind_val in E. destruct E as (l & _ & E). discriminate.
  - intros ex id bs b nm b' E. cbn [resolve_b] in E. apply bind_val in E. destruct E as (e & _ & E).
    destruct (has_failed e || is_running e)%bool; [injection E as <-; intros []|]. apply bind_val in E. destruct E as (l & _ & E). injection E as <-. intros [].
  - intros ex id bs q H nm b' E K. cbn [resolve_b] in E. apply bind_val in E. destruct E as (e & _ & E).
    destruct (has_failed e || is_running e)%bool; [injection E as <-; now left|]. apply bind_val in E. destruct E as (l & _ & E).
    apply bind_val in E. destruct E as (q' & Eq & E). injection E as <-. cbn [b_labels] in *. exact (H _ Eq K).
Qed.

(** --- every branch --- *)
Section Path.
Variable cf : cfg.
Hypothesis OK : ord_ok cf.
Variable sto : storage.
Hypothesis ok : sto_ok sto.
Variable pg : prog.
Variable P : list (list node).
Hypothesis PC : prog_code cf sto P pg.
Hypothesis PW : Forall clause_wf P.
Hypothesis NC : no_clash cf P.
Variable q : list node.
Variable r : rule.
Hypothesis QC : query_code cf sto q r.
Hypothesis QW : q <> [] /\ Forall atom_ok q.
Notation qv := (flat_map vars_of q).
Notation pok := (pok cf sto P False False qv).

Lemma plain_CW : forall c, In c (PA P) -> clause_wf c /\ clause_ok cf c = true /\ Forall (good False False) (tl c).
Proof.
  intros c Hc. apply in_app_iff in Hc. destruct Hc as [Hc|Hc].
  - csplit; auto; [rewrite Forall_forall in PW; auto|]. apply Forall_forall. intros n Hn. split; contradiction.
  - destruct (append_ok cf OK c Hc) as (A & B & C). csplit; auto.
Qed.
Lemma plain_path pi p : at_path cf sto pg (init_proc r) pi p -> exists S, pok p S.
Proof.
  intros Hp. induction Hp as [|pi p i l k H IH [fuel E] Hn].
  - destruct (root_pok cf OK sto ok P False False q r) as (S0 & K & _); auto; try apply QW; [|eauto].
    apply Forall_forall. intros n Hn. split; contradiction.
  - destruct IH as (S & Hs). destruct (rules_bound pg) as (R & RL).
    pose proof (turn_sols cf OK sto ok pg P False False PC plain_CW (fun f => match f with end) R RL qv fuel p S (PKids l) Hs E) as K.
    destruct K as (Ss & F & _). destruct (F2_nth_l _ _ _ F i _ Hn) as (Sj & _ & Pj). eauto.
Qed.
(** a branch about to call a goal *)
Lemma call_ready pi p a rest f : at_path cf sto pg (init_proc r) pi p -> p_codes p = a :: rest -> last (ca_code a) IProceed = ICall f ->
  exists fs, ready cf sto (labelled cf (PA P)) (good False False) p fs.
Proof.
  intros Hp Hc Hl. destruct (plain_path pi p Hp) as (S & K). destruct K as [fs tr W SK Dl Tr Tk|fs tr Rd Tr Tk|hd body TA fs tr At Tr Tk|nm a1 a2 fs tr At _ _ Tr Tk].
  - destruct (stk_top _ _ (pow_of cf) (PA P) _ _ _ _ SK a rest Hc) as (fs' & _ & [T|(-> & _)]); [|discriminate].
    exists fs'. exact (goal_is_ready cf sto _ _ p a rest fs' Hc W T).
  - eauto.
  - destruct (head_run cf OK sto ok _ (pow_of cf) (PA P) _ 0 p hd body TA fs At) as (a' & rest' & Ea & El & _).
    rewrite Hc in Ea. injection Ea as <- <-. congruence.
  - destruct (special_run cf OK sto _ (PA P) 0 p nm a1 a2 fs At) as (a' & rest' & Ea & El & _).
    rewrite Hc in Ea. injection Ea as <- <-. congruence.
Qed.
End Path.

Lemma nth_error_ext {A} : forall l k : list A, (forall i, nth_error l i = nth_error k i) -> l = k.
Proof.
  induction l as [|x l IH]; intros [|y k] H; auto.
  - specialize (H 0). discriminate.
  - specialize (H 0). discriminate.
  - f_equal; [specialize (H 0); now injection H|]. apply IH. intros i. exact (H (S i)).
Qed.
Lemma hrel_fun par lh fh fh' : hrel par lh fh -> hrel par lh fh' -> fh = fh'.
Proof. intros [_ A] [_ B]. apply nth_error_ext. intros i. now rewrite <- A, <- B. Qed.

(** --- the labels of a session --- *)
Lemma append_labelled cf : ord_ok cf -> labelled cf append_clauses.
Proof.
  intros OK c Hc. pose proof (ord_nil cf OK) as Hn. destruct Hc as [<-|[<-|[]]]; [reflexivity|].
  unfold clause_labels, permof, perm_order. match goal with |- context [perm_vars ?a ?b] => change (perm_vars a b) with (@nil string) end.
  rewrite Hn. vm_compute. reflexivity.
Qed.
Definition rname (n : rnode) : string := match n with RVar s _ | RCon s | RInt s | RFun s _ | REv s _ => s end.

Section Session.
Variable cf : cfg.
Hypothesis OK : ord_ok cf.

Lemma tree_labels rl o P q D fuel t ex nm str e : tree_at cf rl o q D -> prog_code cf (o_sto o) P (o_prog o) -> sto_ok (o_sto o) ->
  Forall clause_wf P -> q <> [] /\ Forall atom_ok q -> no_clash cf P -> labelled cf P ->
  make_tree fuel o = Val t -> In (ex, nm, str) (q_labels t) -> nth_error (o_arena o) ex = Some e -> x_state e <> SRunning ->
  exists pi p h, at_path cf (o_sto o) (o_prog o) (init_proc rl) pi p /\ ends_with cf (o_sto o) p h /\
    hrel (heap_at (o_arena o) (x_parent e)) (m_heap (x_m e)) h /\
    (finite_terms (o_sto o) h -> exists a f, solved o e = Val a /\ last (ca_code a) IProceed = ICall f /\
      node_str nm = Val str /\ rname nm = fv_name f /\ List.length (rkids nm) = fv_arity f /\
      forall i x, nth_error (rkids nm) i = Some x ->
        exists c b, nth_error (m_regs (x_m e)) i = Some c /\ get_heap_i c = Val b /\ rd (o_sto o) h b (rterm x)).
Proof.
  intros (ps & lv & G & M & Q & R & T & _) PC ok PW Hq NC LB E Hin He Hst.
  assert (En : query_name fuel o e = Val nm /\ node_str nm = Val str).
  { unfold make_tree in E. apply bind_val in E. destruct E as ([t0 c] & E0 & E). destruct (resolve_labels _ _ _ _ _ _ _ E Hin) as [K|(e0 & He0 & K)].
    - now rewrite (make_q_labels _ _ _ _ _ _ _ E0) in K.
    - rewrite He in He0. now injection He0 as <-. }
  destruct En as [En Estr].
  assert (Lv : lv ex = true).
  { destruct (labels_pre _ _ _ _ Hin) as (i & Hi). destruct (make_tree_cut _ _ _ E) as (t0 & c & E0 & Es).
    rewrite <- strip_pre, Es, strip_pre in Hi.
    assert (L0 : lv 0 = true).
    { destruct (nth_error (o_arena o) 0) as [e0|] eqn:He0.
      - destruct (tn_up _ _ _ _ _ _ _ _ (ti_node _ _ _ _ _ _ _ _ T 0 e0 He0)) as [(_ & _ & K)|(pid & pe & U1 & U2 & _)]; [assumption|].
        pose proof (rf_parents _ _ _ R _ _ _ He0 U1). lia.
      - apply nth_error_None in He0. destruct (o_arena o) eqn:Ea; [|cbn in He0; lia]. now elim (ti_root _ _ _ _ _ _ _ _ T). }
    destruct (su_node _ _ _ _ _ _ (make_q_sub cf fuel o rl ps lv G M D R T _ _ _ _ _ E0 L0) _ _ _ Hi) as (K & _). exact K. }
  pose proof (ti_node _ _ _ _ _ _ _ _ T ex e He) as TN. destruct (tn_run _ _ _ _ _ _ _ _ TN) as [(K & _)|[_ F]]; [contradiction|].
  destruct F as (c & a & rest & st & fu & Ec & Ef & Ecs & Er & Cl & Oc).
  assert (K : st = Cont /\ exists f, last (ca_code a) IProceed = ICall f).
  { destruct Oc; try congruence; eauto. }
  destruct K as (-> & f & El). specialize (Cl eq_refl). destruct Cl as (C1 & C2 & C3).
  destruct (ti_path _ _ _ _ _ _ _ _ T ex e He) as (pi & Hp).
  destruct (call_ready cf OK (o_sto o) ok (o_prog o) P PC PW NC q rl Q Hq pi (G ex) a rest f Hp Ecs El) as (fs & Rd).
  destruct (ready_label cf (o_sto o) ok _ _ fu (G ex) fs Rd) as (n & a' & rest' & m' & V & TA & B1 & B2 & B3 & B4 & B5 & W & TL & AR & VS & LV).
  rewrite Ecs in B1. injection B1 as <- <-. rewrite Er in B5. injection B5 as <-.
  destruct LV as (l & L1 & L2 & L3).
  { intros cl Hcl. apply in_app_iff in Hcl. destruct Hcl as [Hcl|Hcl]; [auto|]. now apply append_labelled. }
  exists pi, (G ex), (m_heap (M ex)). split; [exact Hp|]. split; [exists fu, a, rest, (M ex); auto|]. split; [assumption|]. intros Fin.
  set (h := m_heap (M ex)) in *. assert (Hh : hrel (heap_at (o_arena o) (x_parent e)) (m_heap (x_m e)) h) by assumption.
  assert (Sv : solved o e = Val a) by (unfold solved; now rewrite Ec).
  assert (Nm : exists rs, replace_vars rs n = Val nm /\
    forall s y, assoc s rs = Some y -> exists b, b < List.length h /\ vals (o_sto o) h V b (NVar s) /\ rd (o_sto o) h b (rterm y)).
  { unfold query_name in En. replace (is_running e) with false in En by (unfold is_running; destruct (x_state e); congruence).
    rewrite Sv in En. cbn [bind] in En. apply bind_val in En. destruct En as (l' & El' & En).
    assert (l' = l) by (rewrite (sub_addrs_sim (x_m e) (M ex)) in El' by (auto; rewrite C3; now destruct (m_envs (M ex))); congruence). subst l'.
    apply bind_val in En. destruct En as (rs & Ers & En). rewrite B2 in En. exists rs. split; [assumption|].
    intros s0 y Ey. destruct (reps_rd _ _ _ _ Hh W _ _ Ers _ _ Ey) as (b & Hb & Rb). destruct (L2 _ _ Hb) as [Lb Vb]. eauto. }
  destruct Nm as (rs & Er' & Hr). clear En.
  assert (Args : forall ks r, omap (replace_vars rs) ks = Val r -> targs n = ks -> List.length r = List.length ks /\
    forall i x, nth_error r i = Some x -> exists c b, nth_error (m_regs (x_m e)) i = Some c /\ get_heap_i c = Val b /\ rd (o_sto o) h b (rterm x)).
  { intros ks r Eo Et. apply omap_val in Eo. split; [clear - Eo; induction Eo; cbn; congruence|]. intros i x Ex.
    assert (Hk : exists k, nth_error ks i = Some k /\ replace_vars rs k = Val x).
    { clear - Eo Ex. revert i Ex. induction Eo as [|k y ks r Ek Eo IH]; intros [|i] Ex; try discriminate; [|now apply IH].
      injection Ex as <-. exists k. auto. }
    destruct Hk as (k & Ek & Hk). rewrite Et in VS, TL.
    destruct (nth_error TA i) as [b|] eqn:Eb; [|apply nth_error_None in Eb; apply nth_error_lt in Ek; lia].
    destruct (F2_nth_l _ _ _ VS i b Eb) as (k' & Ek' & Vb). rewrite Ek in Ek'. injection Ek' as <-.
    destruct (AR i b Eb) as (c0 & Rc & Ac & Lb). exists c0, b. csplit; [congruence|now apply addr_of_get|].
    eapply arg_shown; eauto. }
  exists a, (to_fview n). split; [exact Sv|]. split; [exact B4|]. split; [exact Estr|].
  destruct n as [s0|s0|s0|s0 ks|s0 ks]; try contradiction.
  - injection Er' as <-. cbn. csplit; auto. intros [|i] x; discriminate.
  - rewrite replace_fun in Er'. apply bind_val in Er'. destruct Er' as (r & Eo & Er'). injection Er' as <-. cbn [rname rkids to_fview].
    destruct ks as [|k0 ks]; [contradiction|]. destruct (Args _ _ Eo eq_refl) as [A1 A2]. csplit; auto.
Qed.

Theorem session_labels o P s q fuel t ex nm str e h : session cf o P s -> s = QFresh q \/ s = QStarted q -> small_tables (o_sto o) ->
  no_clash cf P -> labelled cf P -> make_tree fuel o = Val t -> In (ex, nm, str) (q_labels t) ->
  nth_error (o_arena o) ex = Some e -> x_state e <> SRunning ->
  hrel (heap_at (o_arena o) (x_parent e)) (m_heap (x_m e)) h -> finite_terms (o_sto o) h ->
  exists a f, solved o e = Val a /\ last (ca_code a) IProceed = ICall f /\
    node_str nm = Val str /\ rname nm = fv_name f /\ List.length (rkids nm) = fv_arity f /\
    forall i x, nth_error (rkids nm) i = Some x ->
      exists c b, nth_error (m_regs (x_m e)) i = Some c /\ get_heap_i c = Val b /\ rd (o_sto o) h b (rterm x).
Proof.
  intros HS Hs SM NC LB E Hin He Hst Hh Fin. pose proof (TreeRun.session_tree _ _ _ _ HS) as HT.
  destruct (session_inv _ _ _ _ HS) as [A _]. destruct (session_parsed _ _ _ _ HS) as [[PW _] QW].
  assert (ok : sto_ok (o_sto o)) by (destruct SM; split; auto; eapply session_nodup; eauto).
  assert (PC : prog_code cf (o_sto o) P (o_prog o)) by apply A.
  assert (K : (exists D, has_tree cf o q D) /\ q <> [] /\ Forall atom_ok q) by (destruct Hs as [-> | ->]; split; auto).
  destruct K as ((D & rl & HD) & Hq).
  destruct (tree_labels rl o P q D fuel t ex nm str e HD PC ok PW Hq NC LB E Hin He Hst) as (pi & p & h' & _ & _ & Hh' & K).
  rewrite <- (hrel_fun _ _ _ _ Hh Hh') in K. auto.
Qed.

(** the label of a node of the tree is the goal called there, read from the argument registers at the call *)
Theorem run_labels o P q rs o' fuel t ex nm str e : session cf o P (QFresh q) -> run cf o rs o' -> small_tables (o_sto o) ->
  no_clash cf P -> labelled cf P -> no_cycles cf o -> make_tree fuel o' = Val t -> In (ex, nm, str) (q_labels t) ->
  nth_error (o_arena o') ex = Some e -> x_state e <> SRunning ->
  exists a f h, solved o' e = Val a /\ last (ca_code a) IProceed = ICall f /\
    node_str nm = Val str /\ rname nm = fv_name f /\ List.length (rkids nm) = fv_arity f /\
    hrel (heap_at (o_arena o') (x_parent e)) (m_heap (x_m e)) h /\
    forall i x, nth_error (rkids nm) i = Some x ->
      exists c b, nth_error (m_regs (x_m e)) i = Some c /\ get_heap_i c = Val b /\ rd (o_sto o') h b (rterm x).
Proof.
  intros HS HR SM NC LB NY E Hin He Hst. destruct (run_at _ _ _ _ _ _ HS HR) as (rl & D & HD & RT & _).
  destruct (run_search _ _ _ _ _ _ HS HR) as (? & ? & ? & ? & ? & _ & _ & _ & _ & _ & _ & Es & Ep & _).
  destruct (session_inv _ _ _ _ HS) as [A _]. destruct (session_parsed _ _ _ _ HS) as [[PW _] Hq].

  assert (ok : sto_ok (o_sto o)) by (destruct SM; split; auto; eapply session_nodup; eauto).
  assert (PC : prog_code cf (o_sto o) P (o_prog o)) by apply A. rewrite <- Es in PC, ok. rewrite <- Ep in PC.
  destruct (tree_labels rl o' P q D fuel t ex nm str e HD PC ok PW Hq NC LB E Hin He Hst) as (pi & p & h & Hp & Hw & Hh & K).
  destruct K as (a & f & K1 & K2 & K3 & K4 & K5 & K6). { rewrite Es, Ep in *. exact (NY _ _ _ _ RT Hp Hw). }
  exists a, f, h. csplit; auto.
Qed.
End Session.

(** --- a case --- *)
Definition texts (t : qnode) : list (nat * string) := map (fun x => (fst (fst x), snd x)) (q_labels t).
Definition texts_eqb (l k : list (nat * string)) : bool :=
  if list_eq_dec (fun a b => match Nat.eq_dec (fst a) (fst b), string_dec (snd a) (snd b) with
                             | left E1, left E2 => left (eq_trans (surjective_pairing a) (eq_trans (f_equal2 pair E1 E2) (eq_sym (surjective_pairing b))))
                             | right N, _ => right (fun E => N (f_equal fst E))
                             | _, right N => right (fun E => N (f_equal snd E))
                             end) l k then true else false.
Lemma texts_eqb_ok l k : texts_eqb l k = true -> l = k.
Proof. unfold texts_eqb. destruct (list_eq_dec _ l k); [auto|discriminate]. Qed.

Lemma labels_case : exists o P q o' rs t, session cfg0 o P (QFresh q) /\ run cfg0 o rs o' /\ small_tables (o_sto o) /\
  no_clash cfg0 P /\ labelled cfg0 P /\ no_cycles cfg0 o /\ make_tree 100 o' = Val t /\ Forall roomy_clause P /\
  parse_program "len([],z). len([X|T],s(N)) :- len(T,N)." = Some (COk P) /\ parse_query (append_dot "len([a,b],N)") = Some (COk q) /\
  texts t = [(0, "len([a, b], N)"); (3, "len([b], N)"); (6, "len([], N)")] /\
  forall ex, In ex [0; 3; 6] -> exists e, nth_error (o_arena o') ex = Some e /\ x_state e <> SRunning.
Proof.
  destruct (tree_witness "len([],z). len([X|T],s(N)) :- len(T,N)." "len([a,b],N)" [w0] (fun o o' P q rs =>
    small_b (o_sto o) && noclash_b cfg0 P && forallb (clause_labels cfg0) P && tree_ok cfg0 (o_sto o) (o_prog o) 1000 1000 (root_proc o) &&
    forallb roomy_clause_b P && match make_tree 100 o' with Val t => texts_eqb (texts t) [(0, "len([a, b], N)"); (3, "len([b], N)"); (6, "len([], N)")] | _ => false end &&
    forallb (fun ex => match nth_error (o_arena o') ex with Some e => negb (is_running e) | None => false end) [0; 3; 6]))
    as (o & o' & P & q & rs & H1 & H2 & H3 & H4 & H5); [vm_compute; reflexivity|].
  rewrite !andb_true_iff in H5. destruct H5 as [[[[[[K1 K2] K3] K4] K5] K6] K7].
  destruct (make_tree 100 o') as [t| |] eqn:Et; try discriminate K6. rewrite forallb_forall in K3, K5, K7.
  exists o, P, q, o', rs, t. csplit; auto using small_b_ok, noclash_b_ok, texts_eqb_ok.
  - exact (proj1 (Finite.session_tree _ _ _ _ K4)).
  - apply Forall_forall. intros c Hc. apply roomy_clause_b_ok. auto.
  - intros ex Hx. specialize (K7 ex Hx). destruct (nth_error (o_arena o') ex) as [e|]; [|discriminate K7]. exists e. split; [reflexivity|].
    intros E. unfold is_running in K7. rewrite E in K7. discriminate K7.
Qed.
