(** No undefined behaviour in any session; turns of programs without compound terms end. *)
From Verif Require Import Base Machine Heap Facts Compiler Parser Organizer Spec Print Valuation HeapSim Process Refine Mono Turn Shape Session Code Put Search PutRun Get Alloc Atoms Clause Stack Ready Heads Builtins Sols Solve Terms Shown Parsed Tables Root Order Cells Runs Answers Complete Total Flat.
Open Scope string_scope.
Open Scope list_scope.

Section Path.
Variable cf : cfg.
Hypothesis OK : ord_ok cf.
Variable sto : storage.
Hypothesis ok : sto_ok sto.
Hypothesis SV : (Z.of_nat (List.length (s_vars sto)) <= 32768)%Z.
Variable pg : prog.
Variable P : list (list node).
Hypothesis PC : prog_code cf sto P pg.
Hypothesis PW : Forall clause_wf P.
Hypothesis NC : no_clash cf P.
Hypothesis NI : forall c n, In c P -> In n (tl c) -> no_is n.
Variable q : list node.
Variable r : rule.
Hypothesis QC : query_code cf sto q r.
Hypothesis QW : q <> [] /\ Forall atom_ok q.
Hypothesis QI : forall n, In n q -> no_is n.
Notation qv := (flat_map vars_of q).
Notation pok := (pok cf sto P False True qv).

Lemma safe_CW : forall c, In c (PA P) -> clause_wf c /\ clause_ok cf c = true /\ Forall (good False True) (tl c).
Proof.
  intros c Hc. apply in_app_iff in Hc. destruct Hc as [Hc|Hc].
  - csplit; auto; [rewrite Forall_forall in PW; auto|]. apply Forall_forall. intros n Hn. split; [contradiction|]. intros _. exact (NI c n Hc Hn).
  - destruct (append_ok cf OK c Hc) as (A & B & C). csplit; auto.
Qed.
Lemma safe_path pi p : at_path cf sto pg (init_proc r) pi p -> pfit sto p /\ exists S, pok p S.
Proof.
  intros Hp. split.
  - eapply path_fit; [exact ok|exact PC|exact PW| |eapply root_fit; eauto; apply QW|exact Hp].
    apply Forall_forall. intros c Hc. apply (append_ok cf OK c Hc).
  - induction Hp as [|pi p i l k H IH [fuel E] Hn].
    + destruct (root_pok cf OK sto ok P False True q r) as (S0 & K & _); auto; try apply QW; [|eauto].
      apply Forall_forall. intros n Hn. split; [contradiction|]. intros _. exact (QI n Hn).
    + destruct IH as (S & Hs). destruct (rules_bound pg) as (R & RL).
      pose proof (turn_sols cf OK sto ok pg P False True PC safe_CW (fun f => match f with end) R RL qv fuel p S (PKids l) Hs E) as K.
      destruct K as (Ss & F & _). destruct (F2_nth_l _ _ _ F i _ Hn) as (Sj & _ & Pj). eauto.
Qed.
Lemma path_no_ub fuel pi p : at_path cf sto pg (init_proc r) pi p -> no_ub (p_turn cf sto fuel pg p).
Proof. intros H. destruct (safe_path _ _ H) as (F & S & K). apply (turn_safe cf OK sto ok SV pg P False qv p S K F). Qed.
Lemma path_ends pi p : at_path cf sto pg (init_proc r) pi p ->
  (exists fuel, run_of cf sto fuel p <> Fuel) -> (forall h, ends_with cf sto p h -> finite_terms sto h) -> exists x, turns cf sto pg p x.
Proof. intros H. destruct (safe_path _ _ H) as (F & S & K). apply (turn_safe cf OK sto ok SV pg P False qv p S K F). Qed.
End Path.

(** --- every call of get_answer --- *)
Lemma loop_no_ub cf root fuel n : forall k w o T Q,
  (forall pi p, at_path cf (o_sto o) (o_prog o) root pi p -> no_ub (p_turn cf (o_sto o) fuel (o_prog o) p)) ->
  refines cf o (map snd Q) -> search cf (o_sto o) (o_prog o) root T Q -> no_ub (answer_loop cf fuel n k w o).
Proof.
  induction n as [|n IH]; intros k w o T Q HN HR HS; cbn [answer_loop]; [apply no_ub_fuel|].
  pose proof (turn_refines cf fuel o _ HR) as TR. destruct Q as [|[pi p] Q]; cbn [map] in TR.
  - destruct TR as [_ Eq]. rewrite Eq. apply no_ub_val.
  - cbn [snd] in TR. destruct (o_queue o) as [|id q] eqn:Eq; [apply no_ub_val|].
    destruct (o_limit o <? w_time w k)%Z; [apply no_ub_val|]. destruct (w_oom w k); [apply no_ub_val|].
    assert (At : at_path cf (o_sto o) (o_prog o) root pi p) by (destruct (search_order _ _ _ _ _ _ HS) as (_ & _ & _ & S4 & _); apply S4; now left).
    pose proof (HN _ _ At) as Np. destruct (p_turn cf (o_sto o) fuel (o_prog o) p) as [sr|u|] eqn:Et.
    + destruct TR as (o1 & id' & q' & _ & -> & HR1 & Hsc & _). cbn [bind].
      destruct (result_of sr); [apply no_ub_val|]. destruct Hsc as (S1 & S2 & _).
      apply (IH (S k) w o1 (T ++ [(pi, p, sr)]) (Q ++ label pi (kids_of sr))).
      * rewrite S1, S2. exact HN.
      * rewrite map_app, label_snd. exact HR1.
      * rewrite S1, S2. eapply se_turn; [exact HS|]. now exists fuel.
    + now elim (Np u).
    + rewrite TR. apply no_ub_fuel.
Qed.

Definition qgoals (s : qstate) : list node := match s with QFresh q | QStarted q => q | _ => [] end.
Theorem session_no_ub cf o P s : ord_ok cf -> session cf o P s -> s <> QStale -> small_tables (o_sto o) ->
  (Z.of_nat (List.length (s_vars (o_sto o))) <= 32768)%Z -> no_clash cf P -> all_goals no_is P (qgoals s) ->
  forall fuel n w, no_ub (get_answer cf fuel n w o).
Proof.
  intros OK HS Ns SM SV NC [NI QI] fuel n w. destruct (session_inv _ _ _ _ HS) as [A K]. destruct (session_parsed _ _ _ _ HS) as [[PW _] QW].
  assert (ok : sto_ok (o_sto o)) by (destruct SM; split; auto; eapply session_nodup; eauto).
  unfold get_answer. destruct s as [|q|q|]; cbn [query_ok session_query qgoals] in *; [| | |contradiction].
  - destruct n; cbn [answer_loop]; [apply no_ub_fuel|]. rewrite K. apply no_ub_val.
  - destruct K as (r & Q1 & Q2 & Q3 & Q4 & Q5). apply (loop_no_ub cf (init_proc r) fuel n 0 w o [] [([], init_proc r)]).
    + intros pi p Hp. eapply path_no_ub; eauto. apply A.
    + cbn [map snd]. apply init_refines; auto. apply entries_prog_shape. apply A.
    + constructor.
  - destruct K as (r & T & Q & g & Q1 & Q2 & Q3 & Q4 & Q5). apply (loop_no_ub cf (init_proc r) fuel n 0 w o T Q); auto.
    intros pi p Hp. eapply path_no_ub; eauto. apply A.
Qed.

(** --- turns end --- *)
Section Session.
Variable cf : cfg.
Hypothesis OK : ord_ok cf.
Variable o : org.
Variable P : list (list node).
Variable q : list node.
Hypothesis HS : session cf o P (QFresh q).
Hypothesis SM : small_tables (o_sto o).
Hypothesis SV : (Z.of_nat (List.length (s_vars (o_sto o))) <= 32768)%Z.
Hypothesis NC : no_clash cf P.
Lemma root_code root : root_of o root -> exists r, root = init_proc r /\ query_code cf (o_sto o) q r.
Proof.
  intros (r & Er & ->). destruct (session_inv _ _ _ _ HS) as [_ (r' & Q1 & Q2 & Q3 & Q4 & Q5)]. exists r'. split; [|assumption]. f_equal.
  rewrite Q3 in Er. injection Er as E. unfold query_ptrs in E. symmetry. clear - E. revert r' E. induction r as [|a x IH]; intros [|b y] E; try discriminate; [reflexivity|].
  cbn in E. injection E as -> E. f_equal. now apply IH.
Qed.
Lemma datalog_ends : datalog P q -> turns_end cf o.
Proof.
  intros DL root pi p Hr Hp. pose proof (dl_path cf OK o P q HS SM DL root pi p Hr Hp) as F.
  destruct (root_code root Hr) as (r & -> & Q1). destruct (session_parsed _ _ _ _ HS) as [[PW _] QW]. pose proof (sess_PC cf o P q HS) as A.
  assert (ok : sto_ok (o_sto o)) by (eapply sess_ok; eauto). destruct DL as (_ & _ & _ & N1 & N2).
  eapply (path_ends cf OK (o_sto o) ok SV (o_prog o) P A PW NC N1 q r Q1 QW N2 pi p Hp).
  - exists 1. unfold run_of. pose proof (run_pflat cf (o_sto o) ok 0 p F) as K.
    destruct (p_codes p); [discriminate|]. intros E. rewrite E in K. exact K.
  - intros h He. eapply pflat_ends; eauto.
Qed.
End Session.
