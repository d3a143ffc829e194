(** Any calls without OUT_OF_MEMORY, and get_answer after the program of a running query has been replaced. *)
From Verif Require Import Base Machine Heap Facts HeapSim Compiler Parser Print Organizer Process Refine Turn Shape Mono
  Session Search Order Runs LockHist Isolation Reload Settle RunAt.
Open Scope string_scope.
Open Scope list_scope.

(** As [session], but get_answer may be called in every state. *)
Inductive history (cf : cfg) : org -> list (list node) -> qstate -> Prop :=
| hi_new o : new_org cf = Val o -> history cf o [] QNone
| hi_program o P s text cs o' : history cf o P s -> parse_program text = Some (COk cs) ->
    load_program cf text o = Some (LOk, o') -> history cf o' cs (q_reload s)
| hi_program_err o P s text r o' : history cf o P s ->
    load_program cf text o = Some (r, o') -> r <> LOk -> history cf o' P s
| hi_query o P s text q o' : history cf o P s -> parse_query (append_dot text) = Some (COk q) ->
    load_query cf text o = Some (LOk, o') -> history cf o' P (QFresh q)
| hi_query_err o P s text r o' : history cf o P s ->
    load_query cf text o = Some (r, o') -> r <> LOk -> history cf o' P QNone
| hi_limit o P s t : history cf o P s -> history cf (set_time_limit t o) P s
| hi_answer o P s fuel n w r o' : history cf o P s ->
    get_answer cf fuel n w o = Val (r, o') -> r <> ROutOfMemory -> history cf o' P (q_run s).

(** --- what get_answer leaves alone, in every state --- *)
(** equal but for the executors, the queue and the statistics *)
Definition beside (o o' : org) : Prop :=
  o_limit o' = o_limit o /\ o_sto o' = o_sto o /\ o_prog o' = o_prog o /\ o_built o' = o_built o /\ o_query o' = o_query o /\
  o_pgen o' = o_pgen o /\ o_qgen o' = o_qgen o.
Lemma beside_refl o : beside o o.
Proof. repeat split. Qed.
Lemma beside_trans a b c : beside a b -> beside b c -> beside a c.
Proof. unfold beside. intros (A1 & A2 & A3 & A4 & A5 & A6 & A7) (B1 & B2 & B3 & B4 & B5 & B6 & B7). csplit; congruence. Qed.
Lemma beside_sym a b : beside a b -> beside b a.
Proof. unfold beside. intros (A1 & A2 & A3 & A4 & A5 & A6 & A7). csplit; congruence. Qed.

(** besides, only executor [id] of the first [L] changes *)
Definition keeps (L id : nat) (o o' : org) : Prop :=
  L <= List.length (o_arena o') /\ (forall j, j < L -> j <> id -> nth_error (o_arena o') j = nth_error (o_arena o) j) /\ beside o o'.
Lemma keeps_refl L id o : L <= List.length (o_arena o) -> keeps L id o o.
Proof. intros H. split; [assumption|]. split; [reflexivity|apply beside_refl]. Qed.
Lemma keeps_trans L id a b c : keeps L id a b -> keeps L id b c -> keeps L id a c.
Proof.
  intros (A1 & A2 & A3) (B1 & B2 & B3). split; [assumption|]. split; [|eapply beside_trans; eassumption].
  intros j H1 H2. rewrite B2 by assumption. now apply A2.
Qed.
Lemma put_keeps L id o e o' : L <= List.length (o_arena o) -> put_exec o id e = Val o' -> keeps L id o o'.
Proof.
  intros H E. pose proof (put_len _ _ _ _ E) as El. unfold put_exec in E. apply bind_val in E. destruct E as (a & Ea & E).
  apply of_opt_val in Ea. injection E as <-. split; [lia|]. split; [|now repeat split].
  intros j _ Hj. cbn. rewrite (upd_nth _ _ _ _ _ Ea). destruct (Nat.eqb_spec j id); [contradiction|reflexivity].
Qed.
Lemma add_keeps L id o c o' : L <= List.length (o_arena o) -> add_child o id c = Val o' -> keeps L id o o'.
Proof.
  intros H E. unfold add_child in E. inv_bind E. inv_bind E. pose proof (put_len _ _ _ _ Hv0) as El.
  pose proof (put_keeps L id _ _ _ H Hv0) as (_ & G & B).
  injection E as <-. split; [cbn; rewrite app_length; lia|]. split; [|exact B].
  intros j Hj Hn. cbn. rewrite nth_error_app1 by lia. now apply G.
Qed.
Lemma spawn_keeps L id rs : forall o o', L <= List.length (o_arena o) -> spawn o id rs = Val o' -> keeps L id o o'.
Proof.
  induction rs as [|r rs IH]; intros o o' H E; cbn in E.
  - injection E as <-. now apply keeps_refl.
  - inv_bind E. destruct (x_codes v); [discriminate|]. inv_bind E.
    pose proof (add_keeps L id _ _ _ H Hv0) as G. eapply keeps_trans; [exact G|]. eapply IH; [apply G|eassumption].
Qed.
Lemma instr_keeps cf fuel L o id i st o' : L <= List.length (o_arena o) ->
  instr_step cf fuel o id i = Val (st, o') -> keeps L id o o'.
Proof.
  intros H E.
  assert (Hlocal : forall e m (s0 : istat), match s0 with
      | Cont => o1 <- put_exec o id (with_m e m) ;; Val (RCont, o1)
      | Failing => o1 <- put_exec o id (with_state (with_m e m) SFail) ;; Val (RFailing, o1)
      | Raise er => o1 <- put_exec o id (with_state (with_m e m) (SError er)) ;; Val (RRaise er, o1)
      end = Val (st, o') -> keeps L id o o').
  { intros e m s0 F. destruct s0; inv_bind F; injection F as _ <-; eapply put_keeps; eassumption. }
  destruct i; try (cbn [instr_step] in E; apply bind_val in E; destruct E as (e0 & _ & E); apply bind_val in E;
    destruct E as ([s0 m] & _ & E); eapply Hlocal; eassumption);
    cbn [instr_step] in E.
  - unfold do_call in E. set (o0 := set_stats o _) in E.
    assert (G0 : keeps L id o o0) by (split; [assumption|]; split; [reflexivity|now repeat split]).
    destruct (plookup f (o_prog o0)).
    + inv_bind E. pose proof (spawn_keeps L id _ _ _ (proj1 G0) Hv) as G1. inv_bind E. inv_bind E. inv_bind E.
      injection E as _ <-. eapply keeps_trans; [exact G0|]. eapply keeps_trans; [exact G1|].
      eapply put_keeps; [apply G1|eassumption].
    + inv_bind E. inv_bind E. injection E as _ <-. eapply keeps_trans; [exact G0|].
      eapply put_keeps; [apply G0|eassumption].
  - unfold do_proceed in E. inv_bind E. destruct (x_codes v); [discriminate|]. inv_bind E. destruct v0.
    + inv_bind E. inv_bind E. injection E as _ <-. eapply put_keeps; eassumption.
    + inv_bind E. inv_bind E. injection E as _ <-. pose proof (put_keeps L id _ _ _ H Hv1) as G.
      eapply keeps_trans; [exact G|]. eapply add_keeps; [apply G|eassumption].
  - unfold do_dealloc in E. inv_bind E. destruct (m_envs (x_m v)); [discriminate|]. destruct (x_codes v); [discriminate|].
    inv_bind E. injection E as _ <-. pose proof (put_keeps L id _ _ _ H Hv0) as G.
    eapply keeps_trans; [exact G|]. split; [apply G|]. split; [reflexivity|now repeat split].
Qed.
Lemma run_keeps cf fuel L id is : forall o st o', L <= List.length (o_arena o) ->
  run_instrs cf fuel o id is = Val (st, o') -> keeps L id o o'.
Proof.
  induction is as [|i is IH]; intros o st o' H E; cbn [run_instrs] in E.
  - injection E as _ <-. now apply keeps_refl.
  - inv_bind E. destruct v as [s1 o1]. pose proof (instr_keeps _ _ _ _ _ _ _ _ H Hv) as G.
    assert (K : forall s, (e <- get_exec o1 id ;; e1 <- clear_exec e ;; o2 <- put_exec o1 id e1 ;; Val (s, o2)) = Val (st, o') ->
                keeps L id o o').
    { intros s F. inv_bind F. inv_bind F. inv_bind F. injection F as _ <-. eapply keeps_trans; [exact G|].
      eapply put_keeps; [apply G|eassumption]. }
    destruct s1; [|eapply K; eassumption|eapply K; eassumption].
    eapply keeps_trans; [exact G|]. eapply IH; [apply G|eassumption].
Qed.
Lemma turn_keeps cf fuel o id q r o' : o_queue o = id :: q -> turn cf fuel o = Val (r, o') ->
  keeps (List.length (o_arena o)) id o o' /\ r <> Some RFalse /\ r <> Some ROutOfTime /\ r <> Some ROutOfMemory.
Proof.
  intros Eq E. unfold turn in E. rewrite Eq in E. inv_bind E. destruct (x_codes v); [discriminate|].
  inv_bind E. inv_bind E. pose proof (put_keeps (List.length (o_arena o)) id (set_queue o q) _ _ (le_n _) Hv1) as G1.
  inv_bind E. destruct v2 as [st o2]. pose proof (run_keeps _ _ _ _ _ _ _ _ (proj1 G1) Hv2) as G2.
  pose proof (keeps_trans _ _ _ _ _ G1 G2) as G.
  assert (K : o' = o2 /\ r <> Some RFalse /\ r <> Some ROutOfTime /\ r <> Some ROutOfMemory).
  { destruct st.
    - inv_bind E. destruct (x_state v2); try (injection E as <- <-; csplit; (reflexivity || discriminate)).
      inv_bind E. injection E as <- <-. csplit; (reflexivity || discriminate).
    - inv_bind E. destruct (x_state v2); try (injection E as <- <-; csplit; (reflexivity || discriminate)).
      inv_bind E. injection E as <- <-. csplit; (reflexivity || discriminate).
    - injection E as <- <-. csplit; (reflexivity || discriminate). }
  destruct K as [-> K]. split; [exact G|exact K].
Qed.
Lemma turn_beside cf fuel o r o' : turn cf fuel o = Val (r, o') -> beside o o'.
Proof.
  intros E. destruct (o_queue o) as [|id q] eqn:Eq.
  - unfold turn in E. rewrite Eq in E. injection E as _ <-. apply beside_refl.
  - now destruct (turn_keeps _ _ _ _ _ _ _ Eq E) as [(_ & _ & B) _].
Qed.
Lemma answer_beside cf fuel : forall n k w o r o', answer_loop cf fuel n k w o = Val (r, o') -> r <> ROutOfMemory -> beside o o'.
Proof.
  induction n as [|n IH]; intros k w o r o' E Hr; cbn [answer_loop] in E; [discriminate|].
  destruct (o_queue o) as [|id q] eqn:Eq; [injection E as _ <-; apply beside_refl|].
  destruct (o_limit o <? w_time w k)%Z; [injection E as _ <-; apply beside_refl|].
  destruct (w_oom w k); [injection E as <- _; contradiction|]. inv_bind E. destruct v as [r1 o1]. pose proof (turn_beside _ _ _ _ _ Hv) as B.
  destruct r1 as [r1|]; [injection E as _ <-; exact B|]. eapply beside_trans; [exact B|eauto].
Qed.

(** --- load_program and load_query do not look at the rest --- *)
Lemma program_beside cf text o o2 r o' : beside o o2 -> load_program cf text o = Some (r, o') ->
  exists o2', load_program cf text o2 = Some (r, o2') /\ beside o' o2'.
Proof.
  intros (A1 & A2 & A3 & A4 & A5 & A6 & A7) E. unfold load_program in *. rewrite A2.
  destruct (parse_program text) as [[cs|e|]|]; try discriminate.
  - destruct (compile_program cf cs (o_sto o)) as [[p|e|] s]; injection E as <- <-; eexists; (split; [reflexivity|]); unfold beside; cbn [set_sto o_limit o_sto o_prog o_built o_query o_pgen o_qgen]; rewrite ?A1, ?A2, ?A3, ?A4, ?A5, ?A6, ?A7; now repeat split.
  - injection E as <- <-. eexists. split; [reflexivity|]. unfold beside; cbn; csplit; congruence.
  - injection E as <- <-. eexists. split; [reflexivity|]. unfold beside; cbn; csplit; congruence.
Qed.
Lemma query_beside cf text o o2 r o' : beside o o2 -> load_query cf text o = Some (r, o') ->
  exists o2', load_query cf text o2 = Some (r, o2') /\ beside o' o2' /\ (r = LOk -> o2' = o').
Proof.
  intros (A1 & A2 & A3 & A4 & A5 & A6 & A7) E. unfold load_query in *. rewrite A2.
  destruct (parse_query (append_dot text)) as [[q|e|]|]; try discriminate.
  - destruct (compile_query cf q (o_sto o)) as [[p|e|] s]; injection E as <- <-; eexists;
      (split; [reflexivity|]); (split; [unfold beside; cbn [set_sto set_queue set_stats o_limit o_sto o_prog o_built o_query o_pgen o_qgen]; rewrite ?A1, ?A2, ?A3, ?A4, ?A5, ?A6, ?A7; now repeat split|]); intros; try discriminate. now rewrite A1, A3, A4, A6, A7.
  - injection E as <- <-. eexists. split; [reflexivity|]. split; [unfold beside; cbn; csplit; congruence|discriminate].
  - injection E as <- <-. eexists. split; [reflexivity|]. split; [unfold beside; cbn; csplit; congruence|discriminate].
Qed.

(** A history with a query that the calls since have left intact is a session. *)
Definition settled (s : qstate) : Prop := match s with QFresh _ | QStarted _ => True | _ => False end.
Lemma history_beside cf o P s : history cf o P s ->
  (settled s -> session cf o P s) /\ exists o2 s2, session cf o2 P s2 /\ beside o o2.
Proof.
  induction 1 as [o E|o P s text cs o' H IH Ep E|o P s text r o' H IH E Hr|o P s text q o' H IH Ep E
                 |o P s text r o' H IH E Hr|o P s t H IH|o P s fuel n w r o' H IH E Hr].
  - split; [contradiction|]. exists o, QNone. split; [now constructor|apply beside_refl].
  - destruct IH as [A (o2 & s2 & S & B)]. split.
    + intros Hs. eapply ss_program; [apply A|eassumption|eassumption]. destruct s; cbn in Hs |- *; auto.
    + destruct (program_beside _ _ _ _ _ _ B E) as (o2' & E2 & B2). exists o2', (q_reload s2). split; [|assumption].
      exact (ss_program cf o2 P s2 text cs o2' S Ep E2).
  - destruct IH as [A (o2 & s2 & S & B)]. split.
    + intros Hs. exact (ss_program_err cf o P s text r o' (A Hs) E Hr).
    + destruct (program_beside _ _ _ _ _ _ B E) as (o2' & E2 & B2). exists o2', s2. split; [|assumption].
      exact (ss_program_err cf o2 P s2 text r o2' S E2 Hr).
  - destruct IH as [A (o2 & s2 & S & B)]. destruct (query_beside _ _ _ _ _ _ B E) as (o2' & E2 & B2 & Eo).
    rewrite (Eo eq_refl) in E2. pose proof (ss_query cf o2 P s2 text q o' S Ep E2) as S'. split; [auto|].
    exists o', (QFresh q). split; [assumption|apply beside_refl].
  - destruct IH as [A (o2 & s2 & S & B)]. split; [contradiction|].
    destruct (query_beside _ _ _ _ _ _ B E) as (o2' & E2 & B2 & _). exists o2', QNone. split; [|assumption].
    exact (ss_query_err cf o2 P s2 text r o2' S E2 Hr).
  - destruct IH as [A (o2 & s2 & S & B)]. split; [intros Hs; apply ss_limit; auto|].
    exists (set_time_limit t o2), s2. split; [now apply ss_limit|].
    destruct B as (A1 & A2 & A3 & A4 & A5 & A6 & A7). unfold beside; cbn. csplit; auto.
  - destruct IH as [A (o2 & s2 & S & B)]. split.
    + intros Hs. assert (Hs' : settled s) by (destruct s; auto).
      apply (ss_answer cf o P s fuel n w r o'); auto. destruct s; try contradiction; discriminate.
    + exists o2, s2. split; [assumption|]. eapply beside_trans; [|exact B]. apply beside_sym. exact (answer_beside _ _ _ _ _ _ _ _ E Hr).
Qed.
Theorem history_session cf o P s : history cf o P s -> settled s -> session cf o P s.
Proof. intros H. apply (history_beside _ _ _ _ H). Qed.

(** Every sequence of calls without OUT_OF_MEMORY is a history. *)
Theorem history_states cf o0 : new_org cf = Val o0 -> forall cs o, In o (states cf cs o0) ->
  (forall st, ~ In (Val (ReplyAnswer ROutOfMemory st)) (play cf cs o0)) -> exists P s, history cf o P s.
Proof.
  intros En cs. assert (G : exists P s, history cf o0 P s) by (eexists _, _; now apply hi_new). clear En. revert o0 G.
  induction cs as [|c cs IH]; intros o0 (P & s & G) o Hi Hm; cbn [states play] in *.
  - destruct Hi as [<-|[]]. eauto.
  - destruct Hi as [<-|Hi]; [eauto|]. destruct (perform cf c o0) as [[r o1]| |] eqn:E; try contradiction.
    apply (IH o1); [|assumption|intros st Hin; apply (Hm st); now right].
    destruct c as [text|text|fuel n w|t]; cbn [perform] in E.
    + destruct (load_program cf text o0) as [[lr o1']|] eqn:El; [|discriminate]. cbn in E. injection E as _ <-.
      destruct lr as [|e|].
      * destruct (parse_program text) as [[cs'|e|]|] eqn:Ep;
          try (unfold load_program in El; rewrite Ep in El; discriminate El). eexists _, _. exact (hi_program cf o0 P s text cs' o1' G Ep El).
      * eexists _, _. exact (hi_program_err cf o0 P s text _ o1' G El ltac:(discriminate)).
      * eexists _, _. exact (hi_program_err cf o0 P s text _ o1' G El ltac:(discriminate)).
    + destruct (load_query cf text o0) as [[lr o1']|] eqn:El; [|discriminate]. cbn in E. injection E as _ <-.
      destruct lr as [|e|].
      * destruct (parse_query (append_dot text)) as [[q|e|]|] eqn:Ep;
          try (unfold load_query in El; rewrite Ep in El; discriminate El). eexists _, _. exact (hi_query cf o0 P s text q o1' G Ep El).
      * eexists _, _. exact (hi_query_err cf o0 P s text _ o1' G El ltac:(discriminate)).
      * eexists _, _. exact (hi_query_err cf o0 P s text _ o1' G El ltac:(discriminate)).
    + inv_bind E. destruct v as [r' o1']. injection E as <- <-. eexists _, _.
      refine (hi_answer cf o0 P s fuel n w r' o1' G Hv _). intros ->. apply (Hm (o_stats o1')). now left.
    + injection E as _ <-. eexists _, _. exact (hi_limit cf o0 P s t G).
Qed.

(** --- pointers into the query point to goals --- *)
Definition sound_ptr (p : cptr) : Prop := cp_src p = SrcQuery -> query_shape (cp_atom p).
Definition sound_exec (e : exec) : Prop := Forall sound_ptr (x_codes e).
Definition sound (o : org) : Prop := Forall sound_exec (o_arena o).
Lemma sound_get o id e : sound o -> get_exec o id = Val e -> sound_exec e.
Proof. intros H E. unfold get_exec in E. apply of_opt_val in E. unfold sound in H. rewrite Forall_forall in H. apply H. eapply nth_error_In; eassumption. Qed.
Lemma upd_Forall {A} (Q : A -> Prop) : forall l i x l', upd l i x = Some l' -> Forall Q l -> Q x -> Forall Q l'.
Proof.
  intros l i x l' E H Hx. apply Forall_forall. intros y Hy. apply In_nth_error in Hy. destruct Hy as (j & Hj).
  rewrite (upd_nth _ _ _ _ _ E) in Hj. destruct (Nat.eqb j i); [now injection Hj as <-|].
  rewrite Forall_forall in H. apply H. eapply nth_error_In; eassumption.
Qed.
Lemma put_sound o id e o' : sound o -> sound_exec e -> put_exec o id e = Val o' -> sound o'.
Proof.
  intros H He E. unfold put_exec in E. apply bind_val in E. destruct E as (a & Ea & E). apply of_opt_val in Ea. injection E as <-.
  exact (upd_Forall _ _ _ _ _ Ea H He).
Qed.
Lemma add_sound o id c o' : sound o -> sound_exec c -> add_child o id c = Val o' -> sound o'.
Proof.
  intros H Hc E. unfold add_child in E. inv_bind E. inv_bind E. injection E as <-. pose proof (sound_get _ _ _ H Hv) as He.
  pose proof (put_sound _ _ _ _ H (He : sound_exec (with_kids v _)) Hv0) as H1. unfold sound. cbn. apply Forall_app. split; [exact H1|]. now constructor.
Qed.
Lemma rule_sound g r : Forall sound_ptr (rule_ptrs g r).
Proof. unfold rule_ptrs. apply Forall_map, Forall_forall. intros a _ E. discriminate E. Qed.
Lemma spawn_sound id rs : forall o o', sound o -> spawn o id rs = Val o' -> sound o'.
Proof.
  induction rs as [|r rs IH]; intros o o' H E; cbn [spawn] in E; [now injection E as <-|]. inv_bind E. pose proof (sound_get _ _ _ H Hv) as He.
  destruct (x_codes v) as [|c codes] eqn:Ec; [discriminate|]. inv_bind E. eapply IH; [|exact E]. eapply add_sound; [exact H| |exact Hv0].
  unfold sound_exec in *. cbn. rewrite Ec in He. apply Forall_app. split; [apply rule_sound|]. now inversion He.
Qed.
Lemma clear_codes e e' : clear_exec e = Val e' -> exists c, x_codes e' = [c] /\ In c (x_codes e) /\ x_state e' = x_state e.
Proof.
  unfold clear_exec. intros E. destruct (x_codes e) as [|c l] eqn:Ec; [discriminate|]. injection E as <-. exists c. cbn. csplit; auto.
Qed.
Lemma clear_sound e e' : sound_exec e -> clear_exec e = Val e' -> sound_exec e'.
Proof.
  intros H E. destruct (clear_codes _ _ E) as (c & E1 & E2 & _). unfold sound_exec in *. rewrite E1. constructor; [|constructor].
  rewrite Forall_forall in H. auto.
Qed.
Lemma instr_sound cf fuel o id i st o' : sound o -> instr_step cf fuel o id i = Val (st, o') -> sound o'.
Proof.
  intros H E.
  assert (Hlocal : forall e m (s0 : istat), sound_exec e -> match s0 with
      | Cont => o1 <- put_exec o id (with_m e m) ;; Val (RCont, o1)
      | Failing => o1 <- put_exec o id (with_state (with_m e m) SFail) ;; Val (RFailing, o1)
      | Raise er => o1 <- put_exec o id (with_state (with_m e m) (SError er)) ;; Val (RRaise er, o1)
      end = Val (st, o') -> sound o').
  { intros e m s0 He F. destruct s0; inv_bind F; injection F as _ <-; (eapply put_sound; [exact H| |eassumption]); exact He. }
  destruct i; try (cbn [instr_step] in E; apply bind_val in E; destruct E as (e0 & He0 & E); apply bind_val in E;
    destruct E as ([s0 m] & _ & E); eapply Hlocal; [eapply sound_get; eassumption|exact E]);
    cbn [instr_step] in E.
  - unfold do_call in E. set (o0 := set_stats o _) in E. assert (H0 : sound o0) by exact H.
    destruct (plookup f (o_prog o0)).
    + inv_bind E. pose proof (spawn_sound _ _ _ _ H0 Hv) as H1. inv_bind E. inv_bind E. inv_bind E. injection E as _ <-.
      pose proof (clear_sound _ _ (sound_get _ _ _ H1 Hv0) Hv1) as Hc. eapply put_sound; [exact H1| |exact Hv2]. exact Hc.
    + inv_bind E. inv_bind E. injection E as _ <-. eapply put_sound; [exact H0| |exact Hv0]. exact (sound_get _ _ _ H0 Hv).
  - unfold do_proceed in E. inv_bind E. pose proof (sound_get _ _ _ H Hv) as He. destruct (x_codes v) as [|c codes] eqn:Ec; [discriminate|].
    assert (Hcs : sound_ptr c /\ Forall sound_ptr codes) by (unfold sound_exec in He; rewrite Ec in He; now inversion He).
    inv_bind E. destruct v0.
    + inv_bind E. inv_bind E. injection E as _ <-. eapply put_sound; [exact H| |exact Hv2].
      eapply clear_sound; [|exact Hv1]. exact He.
    + inv_bind E. inv_bind E. injection E as _ <-. eapply add_sound; [eapply put_sound; [exact H| |exact Hv1]| |exact Hv2].
      * unfold sound_exec. cbn. constructor; [apply Hcs|constructor].
      * apply Hcs.
  - unfold do_dealloc in E. inv_bind E. pose proof (sound_get _ _ _ H Hv) as He. destruct (m_envs (x_m v)); [discriminate|].
    destruct (x_codes v) as [|c codes] eqn:Ec; [discriminate|]. inv_bind E. injection E as _ <-.
    assert (H1 : sound v0).
    { eapply put_sound; [exact H| |exact Hv0]. unfold sound_exec in *. cbn. rewrite Ec in He. now inversion He. }
    exact H1.
Qed.
Lemma run_sound cf fuel id is : forall o st o', sound o -> run_instrs cf fuel o id is = Val (st, o') -> sound o'.
Proof.
  induction is as [|i is IH]; intros o st o' H E; cbn [run_instrs] in E; [now injection E as _ <-|].
  inv_bind E. destruct v as [s1 o1]. pose proof (instr_sound _ _ _ _ _ _ _ H Hv) as H1.
  assert (K : forall s, (e <- get_exec o1 id ;; e1 <- clear_exec e ;; o2 <- put_exec o1 id e1 ;; Val (s, o2)) = Val (st, o') -> sound o').
  { intros s F. inv_bind F. inv_bind F. inv_bind F. injection F as _ <-. eapply put_sound; [exact H1| |eassumption].
    eapply clear_sound; [|eassumption]. eapply sound_get; eassumption. }
  destruct s1; [|eapply K; eassumption|eapply K; eassumption]. eapply IH; eassumption.
Qed.
Lemma turn_sound cf fuel o r o' : sound o -> turn cf fuel o = Val (r, o') -> sound o'.
Proof.
  intros H E. unfold turn in E. destruct (o_queue o) as [|id q]; [now injection E as _ <-|]. inv_bind E.
  pose proof (sound_get (set_queue o q) _ _ H Hv) as He. destruct (x_codes v) as [|p ps] eqn:Ec; [discriminate|]. inv_bind E. inv_bind E.
  assert (H1 : sound v1) by (eapply put_sound; [exact (H : sound (set_queue o q))| |exact Hv1]; exact He).
  inv_bind E. destruct v2 as [st o2]. pose proof (run_sound _ _ _ _ _ _ _ H1 Hv2) as H2.
  destruct st.
  - inv_bind E. destruct (x_state v2); try (injection E as _ <-; exact H2). inv_bind E. injection E as _ <-. exact H2.
  - inv_bind E. destruct (x_state v2); try (injection E as _ <-; exact H2). inv_bind E. injection E as _ <-. exact H2.
  - injection E as _ <-. exact H2.
Qed.
Lemma answer_sound cf fuel : forall n k w o r o', answer_loop cf fuel n k w o = Val (r, o') -> r <> ROutOfMemory -> sound o -> sound o'.
Proof.
  induction n as [|n IH]; intros k w o r o' E Hr H; cbn [answer_loop] in E; [discriminate|].
  destruct (o_queue o) as [|id q]; [now injection E as _ <-|].
  destruct (o_limit o <? w_time w k)%Z; [now injection E as _ <-|].
  destruct (w_oom w k); [injection E as <- _; contradiction|]. inv_bind E. destruct v as [r1 o1]. pose proof (turn_sound _ _ _ _ _ H Hv) as H1.
  destruct r1 as [r1|]; [now injection E as _ <-|]. eauto.
Qed.
Lemma session_sound cf o P s : session cf o P s -> sound o.
Proof.
  induction 1 as [o E|o P s text cs o' H IH Ep E|o P s text r o' H IH E Hr|o P s text q o' H IH Ep E
                 |o P s text r o' H IH E Hr|o P s t H IH|o P s fuel n w r o' H IH Hs E Hr].
  - unfold new_org in E. destruct (compile_built_ins cf empty_storage) as [[p|e|] s1]; try discriminate.
    injection E as <-. unfold sound. cbn. constructor; [|constructor]. constructor.
  - destruct (load_program_parts _ _ _ _ E) as (L1 & _). unfold sound. now rewrite L1.
  - destruct (load_program_err _ _ _ _ _ E Hr) as (s1 & -> & _). exact IH.
  - unfold load_query in E. rewrite Ep in E. destruct (compile_query cf q (o_sto o)) as [[r|e|] s1] eqn:Ec; try discriminate. injection E as <-.
    pose proof (compile_query_query_shape _ _ _ _ _ Ec) as Hq. unfold sound. cbn. constructor; [|constructor].
    unfold sound_exec. cbn. unfold query_ptrs. apply Forall_map. eapply Forall_impl; [|exact Hq]. intros a Ha _. exact Ha.
  - assert (Ea : o_arena o' = o_arena o); [|unfold sound; now rewrite Ea].
    unfold load_query in E. destruct (parse_query (append_dot text)) as [[q|e|]|]; try discriminate.
    + destruct (compile_query cf q (o_sto o)) as [[rr|e|] s1]; injection E as <- <-; try contradiction; reflexivity.
    + injection E as <- <-. reflexivity.
    + injection E as <- <-. reflexivity.
  - exact IH.
  - exact (answer_sound _ _ _ _ _ _ _ _ E Hr IH).
Qed.

(** --- the turn of a goal of the query returns nothing --- *)
Lemma put_get o id e o' : put_exec o id e = Val o' -> get_exec o' id = Val e.
Proof.
  intros E. unfold put_exec in E. apply bind_val in E. destruct E as (a & Ea & E). apply of_opt_val in Ea. injection E as <-.
  unfold get_exec. cbn. now rewrite (upd_nth _ _ _ _ _ Ea), Nat.eqb_refl.
Qed.
Definition unsolved (o : org) (id : nat) : Prop := forall e, get_exec o id = Val e -> x_state e <> SSuccess.
Lemma put_unsolved o id e o' : put_exec o id e = Val o' -> x_state e <> SSuccess -> unsolved o' id.
Proof. intros E H e' E'. rewrite (put_get _ _ _ _ E) in E'. now injection E' as <-. Qed.
Lemma goal_instr cf fuel o id i st o' : is_put i = true \/ (exists f, i = ICall f) \/ i = IDealloc -> unsolved o id ->
  instr_step cf fuel o id i = Val (st, o') -> unsolved o' id /\ forall er, st <> RRaise er.
Proof.
  intros Hi U E.
  assert (Hlocal : forall e m (s0 : istat), x_state e <> SSuccess -> (forall er, s0 <> Raise er) -> match s0 with
      | Cont => o1 <- put_exec o id (with_m e m) ;; Val (RCont, o1)
      | Failing => o1 <- put_exec o id (with_state (with_m e m) SFail) ;; Val (RFailing, o1)
      | Raise er => o1 <- put_exec o id (with_state (with_m e m) (SError er)) ;; Val (RRaise er, o1)
      end = Val (st, o') -> unsolved o' id /\ forall er, st <> RRaise er).
  { intros e m s0 He Hn F. destruct s0; [| |now elim (Hn e0)]; inv_bind F; injection F as <- <-;
      (split; [eapply put_unsolved; [eassumption|]|discriminate]); [exact He|cbn; discriminate]. }
  destruct i; try (cbn [instr_step] in E; apply bind_val in E; destruct E as (e0 & He0 & E); apply bind_val in E;
    destruct E as ([s0 m] & Hl & E); eapply Hlocal; [exact (U _ He0)| |exact E]; intros er ->;
    refine (only_is_raises _ cf (o_sto o) fuel _ (x_m e0) _ er m Hl); intros ? ? X; discriminate X);
    cbn [instr_step] in E; try (destruct Hi as [Hi|[(f & Hi)|Hi]]; discriminate Hi).
  - unfold do_call in E. set (o0 := set_stats o _) in E. destruct (plookup f (o_prog o0)).
    + inv_bind E. inv_bind E. inv_bind E. inv_bind E. injection E as <- <-. split; [|discriminate]. eapply put_unsolved; [exact Hv2|cbn; discriminate].
    + inv_bind E. inv_bind E. injection E as <- <-. split; [|discriminate]. eapply put_unsolved; [exact Hv0|cbn; discriminate].
  - unfold do_dealloc in E. inv_bind E. destruct (m_envs (x_m v)); [discriminate|]. destruct (x_codes v); [discriminate|].
    inv_bind E. injection E as <- <-. split; [|discriminate]. pose proof (put_unsolved _ _ _ _ Hv0 (U _ Hv)) as K. exact K.
Qed.
Lemma goal_run cf fuel id is : Forall (fun i => is_put i = true \/ (exists f, i = ICall f) \/ i = IDealloc) is -> forall o st o', unsolved o id ->
  run_instrs cf fuel o id is = Val (st, o') -> unsolved o' id /\ forall er, st <> RRaise er.
Proof.
  induction 1 as [|i is Hi His IH]; intros o st o' U E; cbn [run_instrs] in E; [injection E as <- <-; split; [exact U|discriminate]|].
  inv_bind E. destruct v as [s1 o1]. destruct (goal_instr _ _ _ _ _ _ _ Hi U Hv) as [U1 N1].
  destruct s1 as [| |er]; [eapply IH; eassumption| |now elim (N1 er)].
  inv_bind E. inv_bind E. inv_bind E. injection E as <- <-. split; [|discriminate]. eapply put_unsolved; [exact Hv2|].
  destruct (clear_codes _ _ Hv1) as (_ & _ & _ & ->). exact (U1 _ Hv0).
Qed.
Lemma query_shape_goal a : query_shape a -> Forall (fun i => is_put i = true \/ (exists f, i = ICall f) \/ i = IDealloc) (ca_code a).
Proof.
  intros [(is & f & -> & H)| ->].
  - apply Forall_app. split; [|constructor; [eauto|constructor]]. rewrite forallb_forall in H. apply Forall_forall. auto.
  - constructor; [auto|constructor].
Qed.

(** --- get_answer after the program of a running query has been replaced --- *)
(** what executor [id] works on next is stored in the program, or in the query *)
Definition works_in (o : org) (c : csrc) (id : nat) : Prop :=
  exists e p ps, nth_error (o_arena o) id = Some e /\ x_codes e = p :: ps /\ cp_src p = c.
(** [id] waits for its turn with a goal of the query *)
Definition at_goal (o : org) (id : nat) : Prop :=
  exists e, nth_error (o_arena o) id = Some e /\ x_state e = SRunning /\
    forall p ps, x_codes e = p :: ps -> cp_src p = SrcQuery /\ query_shape (cp_atom p).
(** some executor waits with a goal of a program that has been replaced, those before it wait with goals of the query *)
Definition blocked (o : org) : Prop :=
  exists q1 id q2 e p ps, o_queue o = q1 ++ id :: q2 /\ NoDup (q1 ++ [id]) /\ Forall (at_goal o) q1 /\
    nth_error (o_arena o) id = Some e /\ x_codes e = p :: ps /\ cp_src p = SrcProg /\ cp_gen p <> o_pgen o.

Lemma goal_turn_none cf fuel o id q r o' : o_queue o = id :: q -> at_goal o id -> turn cf fuel o = Val (r, o') -> r = None.
Proof.
  intros Eq (e & He & Hs & Hp) E. unfold turn in E. rewrite Eq in E. inv_bind E.
  unfold get_exec in Hv. cbn [set_queue o_arena] in Hv. rewrite He in Hv. injection Hv as <-. destruct (x_codes e) as [|p ps] eqn:Ec; [discriminate|].
  destruct (Hp p ps eq_refl) as [Es Hq]. inv_bind E.
  assert (v = cp_atom p) by (unfold follow in Hv; rewrite Es in Hv; destruct (Nat.eqb _ _); [now injection Hv as <-|discriminate]). subst v.
  inv_bind E. assert (U : unsolved v id) by (eapply put_unsolved; [exact Hv0|cbn; rewrite Hs; discriminate]).
  inv_bind E. destruct v0 as [st o2]. destruct (goal_run _ _ _ _ (query_shape_goal _ Hq) _ _ _ U Hv1) as [U2 N2].
  destruct st as [| |er]; [| |now elim (N2 er)]; inv_bind E; pose proof (U2 _ Hv2) as K; destruct (x_state v0); try contradiction; now injection E as <- _.
Qed.
Lemma blocked_turn cf fuel o r o' : blocked o -> turn cf fuel o = Val (r, o') -> r = None /\ blocked o'.
Proof.
  intros (q1 & id & q2 & e & p & ps & Eq & ND & Hq & He & Ec & Es & Eg) E. destruct q1 as [|i q1].
  - exfalso. cbn in Eq. unfold turn in E. rewrite Eq in E. unfold get_exec in E. cbn [set_queue o_arena] in E. rewrite He in E.
    cbn [of_opt bind] in E. rewrite Ec in E. unfold follow in E. cbn [set_queue o_pgen o_qgen] in E. rewrite Es in E.
    destruct (Nat.eqb_spec (cp_gen p) (o_pgen o)); [contradiction|]. discriminate E.
  - cbn [app] in Eq, ND. inversion ND as [|? ? ND1 ND2]; subst. inversion Hq as [|? ? Hi Hq']; subst.
    split; [eapply goal_turn_none; eassumption|].
    destruct (turn_keeps _ _ _ _ _ _ _ Eq E) as [(K1 & K2 & (_ & _ & _ & _ & _ & B & _)) _].
    destruct (turn_queue _ _ _ _ _ _ _ Eq E) as (new & Eq' & _).
    exists q1, id, (q2 ++ new), e, p, ps. rewrite Eq', <- app_assoc. csplit; auto.
    + apply Forall_forall. intros j Hj. rewrite Forall_forall in Hq'. destruct (Hq' _ Hj) as (e1 & G1 & G2).
      exists e1. split; [|exact G2]. rewrite K2; auto; [apply nth_error_Some; congruence|].
      intros ->. apply ND1. apply in_app_iff. now left.
    + rewrite K2; auto; [apply nth_error_Some; congruence|]. intros ->. apply ND1. apply in_app_iff. right. now left.
    + now rewrite B.
Qed.
Lemma blocked_answer cf fuel : forall n c w o r o', blocked o -> answer_loop cf fuel n c w o = Val (r, o') ->
  (r = ROutOfTime /\ blocked o' /\ exists k, (o_limit o < w_time w k)%Z) \/ (r = ROutOfMemory /\ exists k, w_oom w k = true).
Proof.
  induction n as [|n IH]; intros c w o r o' HB E; cbn [answer_loop] in E; [discriminate|].
  destruct (o_queue o) as [|i q] eqn:Eq; [destruct HB as (q1 & id & q2 & e & p & ps & Eq' & _); rewrite Eq in Eq'; destruct q1; discriminate|].
  destruct (o_limit o <? w_time w c)%Z eqn:Et; [injection E as <- <-; left; csplit; auto; exists c; now apply Z.ltb_lt|].
  destruct (w_oom w c) eqn:Eo; [injection E as <- _; right; eauto|]. inv_bind E. destruct v as [r1 o1].
  destruct (blocked_turn _ _ _ _ _ HB Hv) as [-> HB1]. destruct (turn_beside _ _ _ _ _ Hv) as (L & _). rewrite <- L. eapply IH; eassumption.
Qed.
Lemma NoDup_app_l {A} (l k : list A) : NoDup (l ++ k) -> NoDup l.
Proof.
  induction l as [|a l IH]; intros H; [constructor|]. inversion H as [|? ? H1 H2]; subst. constructor; [|auto].
  intros Hi. apply H1. apply in_app_iff. now left.
Qed.
Lemma first_of {A} (Q : A -> Prop) (D : forall x, Q x \/ ~ Q x) l x : In x l -> Q x -> exists l1 y l2, l = l1 ++ y :: l2 /\ Q y /\ Forall (fun z => ~ Q z) l1.
Proof.
  induction l as [|a l IH]; intros Hi Hx; [contradiction|]. destruct (D a) as [Ha|Ha]; [exists [], a, l; auto|].
  destruct Hi as [->|Hi]; [contradiction|]. destruct (IH Hi Hx) as (l1 & y & l2 & -> & H1 & H2). exists (a :: l1), y, l2. auto.
Qed.
Lemma reload_blocked cf o P q text o' id : session cf o P (QStarted q) -> load_program cf text o = Some (LOk, o') ->
  In id (o_queue o) -> works_in o SrcProg id -> blocked o'.
Proof.
  intros HS HL Hi Hw. destruct (load_program_parts _ _ _ _ HL) as (L1 & L2 & L3 & L4 & L5).
  destruct (session_inv _ _ _ _ HS) as [_ (r & T & Q & g & _ & RF & _)]. pose proof (session_sound _ _ _ _ HS) as SO.
  assert (D : forall x, works_in o SrcProg x \/ ~ works_in o SrcProg x).
  { intros x. destruct (nth_error (o_arena o) x) as [e|] eqn:Ee; [|right; intros (e & p & ps & He & _); congruence].
    destruct (x_codes e) as [|p ps] eqn:Ec; [right; intros (e' & p & ps & He & Ec' & _); congruence|].
    destruct (cp_src p) eqn:Es; [|]; ((left; exists e, p, ps; csplit; auto; fail) || (right; intros (e' & p' & ps' & He & Ec' & Es'); assert (e' = e) by congruence; subst e'; rewrite Ec in Ec'; injection Ec' as -> ->; congruence)). }
  destruct (first_of _ D _ _ Hi Hw) as (q1 & y & q2 & Eq & (e & p & ps & He & Ec & Es) & Hq).
  pose proof (rf_nodup _ _ _ RF) as ND. rewrite Eq in ND.
  exists q1, y, q2, e, p, ps. rewrite L2, L1, L3. csplit; auto.
  - replace (q1 ++ y :: q2) with ((q1 ++ [y]) ++ q2) in ND by (rewrite <- app_assoc; reflexivity). exact (NoDup_app_l _ _ ND).
  - apply Forall_forall. intros j Hj. rewrite Forall_forall in Hq.
    assert (Hj' : In j (o_queue o)) by (rewrite Eq; apply in_app_iff; now left).
    destruct (Forall2_in_l _ _ _ _ (rf_queue _ _ _ RF) Hj') as (pr & _ & (e' & He' & Hs' & _)).
    exists e'. rewrite L1. csplit; auto. intros p' ps' Ec'.
    assert (Es' : cp_src p' = SrcQuery) by (destruct (cp_src p') eqn:Es'; (reflexivity || (exfalso; apply (Hq j Hj); exists e', p', ps'; auto))).
    split; [exact Es'|]. unfold sound in SO. rewrite Forall_forall in SO. pose proof (SO e' (nth_error_In _ _ He')) as K.
    unfold sound_exec in K. rewrite Ec' in K. inversion K as [|? ? K1 _]; subst. exact (K1 Es').
  - assert (Hy : In y (o_queue o)) by (rewrite Eq; apply in_app_iff; right; now left).
    destruct (Forall2_in_l _ _ _ _ (rf_queue _ _ _ RF) Hy) as (pr & _ & (e' & He' & _ & _ & Hc & _)).
    assert (e' = e) by congruence. subst e'. rewrite Ec in Hc. inversion Hc as [|? a ? ? Hf _]; subst.
    unfold follow in Hf. rewrite Es in Hf. destruct (Nat.eqb_spec (cp_gen p) (o_pgen o)); [lia|discriminate].
Qed.
(** The program of a running query is replaced while some executor is to work on something stored in the old one: whatever
    the sequence of calls of get_answer from then on, none returns anything but OUT_OF_TIME; *)
Theorem reload_nothing cf o P q text o' id rs o'' : session cf o P (QStarted q) -> load_program cf text o = Some (LOk, o') ->
  In id (o_queue o) -> works_in o SrcProg id -> run cf o' rs o'' -> delivered rs = [] /\ blocked o''.
Proof.
  intros HS HL Hi Hw HR. pose proof (reload_blocked _ _ _ _ _ _ _ HS HL Hi Hw) as HB. clear HS HL.
  induction HR as [o1|o1 rs o2 t HR IH|o1 rs o2 fuel n w r o3 HR IH E Hr].
  - split; [reflexivity|exact HB].
  - exact (IH HB).
  - destruct (IH HB) as [D B]. destruct (blocked_answer _ _ _ _ _ _ _ _ B E) as [(-> & B3 & _)|(-> & _)]; [|contradiction].
    split; [|exact B3]. unfold delivered in *. rewrite map_app, filter_app, D. reflexivity.
Qed.
(** a call during which the time is never up and memory never short does not return at all. *)
Theorem reload_never cf o P q text o' id rs o'' : session cf o P (QStarted q) -> load_program cf text o = Some (LOk, o') ->
  In id (o_queue o) -> works_in o SrcProg id -> run cf o' rs o'' ->
  forall fuel n w, (forall k, (w_time w k <= o_limit o'')%Z) -> (forall k, w_oom w k = false) -> forall x, get_answer cf fuel n w o'' <> Val x.
Proof.
  intros HS HL Hi Hw HR fuel n w Ht Ho [r o3] E. destruct (reload_nothing _ _ _ _ _ _ _ _ _ HS HL Hi Hw HR) as [_ B].
  destruct (blocked_answer _ _ _ _ _ _ _ _ B E) as [(_ & _ & k & K)|(_ & k & K)]; [specialize (Ht k); lia|rewrite Ho in K; discriminate].
Qed.
