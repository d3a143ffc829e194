(** What a turn leaves alone. *)
From Verif Require Import Base Machine Heap Facts HeapSim Compiler Parser Print Organizer Process Refine Turn Shape Mono
  Session Search Order Runs.
Open Scope list_scope.

Lemma session_refines cf o P s : session cf o P s -> s <> QStale -> exists ps, refines cf o ps.
Proof.
  intros H Hs. destruct (session_inv _ _ _ _ H) as [A K]. destruct s as [|q|q|]; try contradiction.
  - exists []. clear Hs. cbn in K.
    assert (G : parents_ok (o_arena o) /\ prog_shape (o_prog o)).
    { split; [|apply entries_prog_shape; apply A].
      remember QNone as s eqn:Es. clear A. revert Es K.
      induction H as [o E|o P s text cs o' H IH Ep E|o P s text r o' H IH E Hr|o P s text q o' H IH Ep E
                 |o P s text r o' H IH E Hr|o P s t H IH|o P s fuel n w r o' H IH Hs E Hr]; intros Es K.
      - unfold new_org in E. destruct (compile_built_ins cf empty_storage) as [[p|e|] s1] eqn:Ec; try discriminate.
        injection E as <-. intros [|[|]] e q He; try discriminate. injection He as <-. discriminate.
      - unfold load_program in E. rewrite Ep in E.
        destruct (compile_program cf cs (o_sto o)) as [[p|e|] s1] eqn:Ec; try discriminate. injection E as <-. cbn in *.
        apply IH; auto. destruct s; try discriminate; reflexivity.
      - destruct (load_program_err _ _ _ _ _ E Hr) as (s1 & -> & X). cbn in *. auto.
      - discriminate.
      - assert (Ea : o_arena o' = o_arena o).
        { unfold load_query in E. destruct (parse_query (append_dot text)) as [[q|e|]|]; try discriminate.
          - destruct (compile_query cf q (o_sto o)) as [[rr|e|] s1] eqn:Ec; injection E as <- <-; try contradiction; reflexivity.
          - injection E as <- <-. reflexivity.
          - injection E as <- <-. reflexivity. }
        rewrite Ea. clear E. destruct (session_inv _ _ _ _ H) as [A K'].
        destruct s as [|q|q|]; cbn in K'.
        + auto.
        + destruct K' as (rl & _ & _ & Ear & _). rewrite Ear. intros [|[|]] e q' He; try discriminate.
          injection He as <-. discriminate.
        + destruct K' as (rl & T & Q & g & _ & HR & _). apply HR.
        + clear IH K. remember QStale as s eqn:Es'. revert Es'. clear - H.
          induction H as [o E|o P s text cs o' H IH Ep E|o P s text r o' H IH E Hr|o P s text q o' H IH Ep E
                 |o P s text r o' H IH E Hr|o P s t H IH|o P s fuel n w r o' H IH Hs E Hr]; intros Es; try discriminate.
          * unfold load_program in E. rewrite Ep in E.
            destruct (compile_program cf cs (o_sto o)) as [[p|e|] s1] eqn:Ec; try discriminate. injection E as <-. cbn in *.
            destruct s; try discriminate; auto. destruct (session_inv _ _ _ _ H) as [_ (rl & T & Q & g & _ & HR & _)].
            apply HR.
          * destruct (load_program_err _ _ _ _ _ E Hr) as (s1 & -> & X). cbn in *. auto.
          * cbn. auto.
          * destruct s; try discriminate. contradiction.
      - cbn in *. auto.
      - destruct s; try discriminate. unfold get_answer in E. destruct n; [discriminate|]. cbn [answer_loop] in E.
        destruct (session_inv _ _ _ _ H) as [_ K']. cbn in K'. rewrite K' in E. injection E as <- <-. auto. }
    destruct G as [G1 G2]. split; auto; rewrite K; try constructor. contradiction.
  - destruct K as (r & K1 & K2 & K3 & K4 & K5). exists [init_proc r]. apply init_refines; auto.
    apply entries_prog_shape; apply A.
  - destruct K as (r & T & Q & g & _ & HR & _). eauto.
Qed.

(** --- the queue only gets the executor itself or new ones --- *)
Definition grows (L id : nat) (o o' : org) : Prop :=
  L <= List.length (o_arena o') /\
  exists new, o_queue o' = o_queue o ++ new /\ forall j, In j new -> j = id \/ L <= j.
Lemma grows_refl L id o : L <= List.length (o_arena o) -> grows L id o o.
Proof. intros H. split; [assumption|]. exists []. rewrite app_nil_r. split; [reflexivity|contradiction]. Qed.
Lemma grows_trans L id o1 o2 o3 : grows L id o1 o2 -> grows L id o2 o3 -> grows L id o1 o3.
Proof.
  intros [A (n1 & E1 & H1)] [B (n2 & E2 & H2)]. split; [assumption|]. exists (n1 ++ n2).
  rewrite E2, E1, app_assoc. split; [reflexivity|]. intros j Hj. apply in_app_iff in Hj. destruct Hj; auto.
Qed.
Lemma put_grows L id o k e o' : L <= List.length (o_arena o) -> put_exec o k e = Val o' -> grows L id o o'.
Proof.
  intros H E. unfold put_exec in E. apply bind_val in E. destruct E as (a & Ea & E). apply of_opt_val in Ea.
  apply upd_length in Ea. injection E as <-. split; cbn; [lia|]. exists []. rewrite app_nil_r. split; [reflexivity|contradiction].
Qed.
Lemma put_len o k e o' : put_exec o k e = Val o' -> List.length (o_arena o') = List.length (o_arena o).
Proof.
  intros E. unfold put_exec in E. apply bind_val in E. destruct E as (a & Ea & E). apply of_opt_val in Ea.
  apply upd_length in Ea. injection E as <-. exact Ea.
Qed.
Lemma add_grows L id o k c o' : L <= List.length (o_arena o) -> add_child o k c = Val o' -> grows L id o o'.
Proof.
  intros H E. unfold add_child in E. inv_bind E. inv_bind E. pose proof (put_len _ _ _ _ Hv0) as El.
  pose proof (put_grows L id _ _ _ _ H Hv0) as [_ (new & Eq & Hn)].
  injection E as <-. split; cbn; [rewrite app_length; lia|].
  exists (new ++ [List.length (o_arena o)]). rewrite Eq, app_assoc. split; [reflexivity|].
  intros j Hj. apply in_app_iff in Hj. destruct Hj as [Hj|[<-|[]]]; auto.
Qed.
Lemma spawn_grows L id rs : forall o o' k, L <= List.length (o_arena o) -> spawn o k rs = Val o' -> grows L id o o'.
Proof.
  induction rs as [|r rs IH]; intros o o' k H E; cbn in E.
  - injection E as <-. now apply grows_refl.
  - inv_bind E. destruct (x_codes v); [discriminate|]. inv_bind E.
    pose proof (add_grows L id _ _ _ _ H Hv0) as G. eapply grows_trans; [exact G|]. eapply IH; [apply G|eassumption].
Qed.
Lemma instr_grows cf fuel L o id i st o' : L <= List.length (o_arena o) ->
  instr_step cf fuel o id i = Val (st, o') -> grows L id o o'.
Proof.
  intros H E.
  assert (Hlocal : forall e m (s0 : istat), match s0 with
      | Cont => o1 <- put_exec o id (with_m e m) ;; Val (RCont, o1)
      | Failing => o1 <- put_exec o id (with_state (with_m e m) SFail) ;; Val (RFailing, o1)
      | Raise er => o1 <- put_exec o id (with_state (with_m e m) (SError er)) ;; Val (RRaise er, o1)
      end = Val (st, o') -> grows L id o o').
  { intros e m s0 F. destruct s0; inv_bind F; injection F as _ <-; eapply put_grows; eassumption. }
  destruct i; try (cbn [instr_step] in E; apply bind_val in E; destruct E as (e0 & _ & E); apply bind_val in E;
    destruct E as ([s0 m] & _ & E); eapply Hlocal; eassumption);
    cbn [instr_step] in E.
  - unfold do_call in E. set (o0 := set_stats o _) in E.
    assert (G0 : grows L id o o0) by (split; [assumption|]; exists []; rewrite app_nil_r; split; [reflexivity|contradiction]).
    destruct (plookup f (o_prog o0)).
    + inv_bind E. pose proof (spawn_grows L id _ _ _ _ (proj1 G0) Hv) as G1. inv_bind E. inv_bind E. inv_bind E.
      injection E as _ <-. eapply grows_trans; [exact G0|]. eapply grows_trans; [exact G1|].
      eapply put_grows; [apply G1|eassumption].
    + inv_bind E. inv_bind E. injection E as _ <-. eapply grows_trans; [exact G0|].
      eapply put_grows; [apply G0|eassumption].
  - unfold do_proceed in E. inv_bind E. destruct (x_codes v); [discriminate|]. inv_bind E. destruct v0.
    + inv_bind E. inv_bind E. injection E as _ <-. eapply put_grows; eassumption.
    + inv_bind E. inv_bind E. injection E as _ <-. pose proof (put_grows L id _ _ _ _ H Hv1) as G.
      eapply grows_trans; [exact G|]. eapply add_grows; [apply G|eassumption].
  - unfold do_dealloc in E. inv_bind E. destruct (m_envs (x_m v)); [discriminate|]. destruct (x_codes v); [discriminate|].
    inv_bind E. injection E as _ <-. pose proof (put_grows L id _ _ _ _ H Hv0) as G.
    eapply grows_trans; [exact G|]. split; [apply G|]. exists [id]. split; [reflexivity|]. intros j [<-|[]]. auto.
Qed.
Lemma run_grows cf fuel L id is : forall o st o', L <= List.length (o_arena o) ->
  run_instrs cf fuel o id is = Val (st, o') -> grows L id o o'.
Proof.
  induction is as [|i is IH]; intros o st o' H E; cbn [run_instrs] in E.
  - injection E as _ <-. now apply grows_refl.
  - inv_bind E. destruct v as [s1 o1]. pose proof (instr_grows _ _ _ _ _ _ _ _ H Hv) as G.
    assert (K : forall s, (e <- get_exec o1 id ;; e1 <- clear_exec e ;; o2 <- put_exec o1 id e1 ;; Val (s, o2)) = Val (st, o') ->
                grows L id o o').
    { intros s F. inv_bind F. inv_bind F. inv_bind F. injection F as _ <-. eapply grows_trans; [exact G|].
      eapply put_grows; [apply G|eassumption]. }
    destruct s1; [|eapply K; eassumption|eapply K; eassumption].
    eapply grows_trans; [exact G|]. eapply IH; [apply G|eassumption].
Qed.
Lemma turn_queue cf fuel o id q r o' : o_queue o = id :: q -> turn cf fuel o = Val (r, o') ->
  exists new, o_queue o' = q ++ new /\ forall j, In j new -> j = id \/ List.length (o_arena o) <= j.
Proof.
  intros Eq E. unfold turn in E. rewrite Eq in E. inv_bind E. destruct (x_codes v); [discriminate|].
  inv_bind E. inv_bind E. pose proof (put_grows (List.length (o_arena o)) id (set_queue o q) _ _ _ (le_n _) Hv1) as G1.
  inv_bind E. destruct v2 as [st o2]. pose proof (run_grows _ _ _ _ _ _ _ _ (proj1 G1) Hv2) as G2.
  pose proof (grows_trans _ _ _ _ _ G1 G2) as [_ G].
  assert (o' = o2); [|subst o'; exact G].
  destruct st.
  - inv_bind E. destruct (x_state v2); try (injection E as _ <-; reflexivity). inv_bind E. injection E as _ <-. reflexivity.
  - inv_bind E. destruct (x_state v2); try (injection E as _ <-; reflexivity). inv_bind E. injection E as _ <-. reflexivity.
  - injection E as _ <-. reflexivity.
Qed.

(** What executor [j] reads at every address. *)
Definition reads (o : org) (j a : nat) : option cell := heap_at (o_arena o) (Some j) a.
(** Executor [j] is the same in both, and reads the same. *)
Definition untouched (o o' : org) (j : nat) : Prop :=
  nth_error (o_arena o') j = nth_error (o_arena o) j /\ forall a, reads o' j a = reads o j a.

Lemma Forall2_length {A B} (R : A -> B -> Prop) l k : Forall2 R l k -> List.length l = List.length k.
Proof. induction 1; cbn; congruence. Qed.

Lemma turn_isolated cf fuel o ps id q r o' : refines cf o ps -> o_queue o = id :: q ->
  turn cf fuel o = Val (r, o') ->
  List.length (o_arena o) <= List.length (o_arena o') /\
  (forall j, j < List.length (o_arena o) -> j <> id -> untouched o o' j) /\
  (exists ps', refines cf o' ps') /\
  (exists new, o_queue o' = q ++ new /\ forall j, In j new -> j = id \/ List.length (o_arena o) <= j) /\
  (r <> None -> o_queue o' = q).
Proof.
  intros HR Eq E. pose proof (turn_refines cf fuel o ps HR) as TR. destruct ps as [|p ps].
  { destruct TR as [_ TR]. congruence. }
  destruct (p_turn cf (o_sto o) fuel (o_prog o) p) as [sr|u|]; try (rewrite TR in E; discriminate).
  destruct TR as (o1 & id' & q' & Eq' & Et & HR' & Hsc & Hag & Hq & _).
  rewrite Eq in Eq'. injection Eq' as <- <-. rewrite Et in E. injection E as <- <-.
  pose proof Hag as (_ & _ & Hl & Hj). split; [assumption|]. split; [|split; [eauto|split; [eapply turn_queue; eauto|]]].
  - intros j Hlt Hne. split; [auto|]. intros a. unfold reads. symmetry.
    apply heap_at_frame with (id := id); auto; [apply HR|].
    apply HR. rewrite Eq. left. reflexivity.
  - intros Hr. assert (kids_of sr = []) by (destruct sr; cbn in Hr |- *; congruence).
    rewrite H, app_nil_r in HR'. pose proof (rf_queue _ _ _ HR') as F. pose proof (rf_queue _ _ _ HR) as F0.
    apply Forall2_length in F. apply Forall2_length in F0. rewrite Eq in F0. cbn in F0.
    rewrite Hq in F. rewrite app_length in F.
    destruct (skipn (List.length q) (o_queue o1)) eqn:Es; [rewrite app_nil_r in Hq; exact Hq|]. cbn in F. lia.
Qed.

(** turns without a result *)
Inductive quiet (cf : cfg) (fuel : nat) : org -> org -> Prop :=
| quiet_refl o : quiet cf fuel o o
| quiet_turn o o1 o2 : o_queue o <> [] -> turn cf fuel o = Val (None, o1) -> quiet cf fuel o1 o2 -> quiet cf fuel o o2.

Lemma answer_last_turn cf fuel n : forall k w o r o', answer_loop cf fuel n k w o = Val (r, o') ->
  r <> ROutOfMemory ->
  exists o1, quiet cf fuel o o1 /\
    match r with
    | RFalse | ROutOfTime => o' = o1 /\ (r = RFalse -> o_queue o1 = [])
    | _ => o_queue o1 <> [] /\ turn cf fuel o1 = Val (Some r, o')
    end.
Proof.
  induction n as [|n IH]; intros k w o r o' E Hr; cbn [answer_loop] in E; [discriminate|].
  destruct (o_queue o) as [|id q] eqn:Eq.
  - injection E as <- <-. exists o. split; [constructor|]. auto.
  - destruct (o_limit o <? w_time w k)%Z.
    { injection E as <- <-. exists o. split; [constructor|]. split; [reflexivity|discriminate]. }
    destruct (w_oom w k); [injection E as <- <-; contradiction|].
    inv_bind E. destruct v as [[r1|] o1].
    + injection E as <- <-. exists o. split; [constructor|].
      assert (Hne : o_queue o <> []) by congruence. destruct r1; auto.
      * exfalso. clear - Hv Eq. unfold turn in Hv. rewrite Eq in Hv. inv_bind Hv. destruct (x_codes v); [discriminate|].
        inv_bind Hv. inv_bind Hv. inv_bind Hv. destruct v2 as [st o2]. destruct st.
        -- inv_bind Hv. destruct (x_state v2); try discriminate. inv_bind Hv. discriminate.
        -- inv_bind Hv. destruct (x_state v2); try discriminate. inv_bind Hv. discriminate.
        -- discriminate.
      * exfalso. clear - Hv Eq. unfold turn in Hv. rewrite Eq in Hv. inv_bind Hv. destruct (x_codes v); [discriminate|].
        inv_bind Hv. inv_bind Hv. inv_bind Hv. destruct v2 as [st o2]. destruct st.
        -- inv_bind Hv. destruct (x_state v2); try discriminate. inv_bind Hv. discriminate.
        -- inv_bind Hv. destruct (x_state v2); try discriminate. inv_bind Hv. discriminate.
        -- discriminate.
    + destruct (IH _ _ _ _ _ E Hr) as (o2 & Q & K). exists o2. split; [|exact K].
      eapply quiet_turn; eauto. congruence.
Qed.

Lemma quiet_isolated cf fuel o o' ps : refines cf o ps -> quiet cf fuel o o' ->
  (exists ps', refines cf o' ps') /\ List.length (o_arena o) <= List.length (o_arena o') /\
  forall j, j < List.length (o_arena o) -> ~ In j (o_queue o) -> untouched o o' j /\ ~ In j (o_queue o').
Proof.
  intros HR HQ. revert ps HR. induction HQ as [o|o o1 o2 Hne Et HQ IH]; intros ps HR.
  - split; [eauto|]. split; [lia|]. intros j Hj Hn. split; [|assumption]. split; reflexivity.
  - destruct (o_queue o) as [|id q] eqn:Eq; [contradiction|].
    destruct (turn_isolated _ _ _ _ _ _ _ _ HR Eq Et) as (Hl & Hu & (ps1 & HR1) & (new & Hq & Hnew) & _).
    destruct (IH _ HR1) as (A & B & C). split; [assumption|]. split; [lia|]. intros j Hj Hn.
    assert (Hji : j <> id) by (intros ->; apply Hn; left; reflexivity).
    destruct (Hu _ Hj Hji) as [U1 U2].
    assert (Hn1 : ~ In j (o_queue o1)).
    { rewrite Hq, in_app_iff. intros [H|H]; [apply Hn; right; assumption|]. destruct (Hnew _ H); [congruence|lia]. }
    destruct (C j ltac:(lia) Hn1) as [[V1 V2] V3]. split; [|assumption].
    split; [congruence|]. intros a. now rewrite V2.
Qed.

(** C13 over a whole call *)
Theorem answer_isolated cf o P s fuel n w r o' : session cf o P s -> s <> QStale ->
  get_answer cf fuel n w o = Val (r, o') -> r <> ROutOfMemory ->
  forall j, j < List.length (o_arena o) -> ~ In j (o_queue o) -> untouched o o' j.
Proof.
  intros HS Hs E Hr j Hj Hn. destruct (session_refines _ _ _ _ HS Hs) as [ps HR].
  destruct (answer_last_turn _ _ _ _ _ _ _ _ E Hr) as (o1 & HQ & K).
  destruct (quiet_isolated _ _ _ _ _ HR HQ) as ((ps1 & HR1) & Hl & Hu).
  destruct (Hu j Hj Hn) as [[U1 U2] Hn1].
  assert (Hlast : o_queue o1 <> [] /\ turn cf fuel o1 = Val (Some r, o') -> untouched o o' j).
  { intros [Hne Et]. destruct (o_queue o1) as [|id q] eqn:Eq; [contradiction|].
    destruct (turn_isolated _ _ _ _ _ _ _ _ HR1 Eq Et) as (_ & Hu1 & _).
    destruct (Hu1 j ltac:(lia)) as [W1 W2]; [intros ->; apply Hn1; left; reflexivity|].
    split; [congruence|]. intros a. now rewrite W2. }
  destruct r; try contradiction; auto.
  - destruct K as [-> _]. split; assumption.
  - destruct K as [-> _]. split; assumption.
Qed.

(** C13 for one turn *)
Theorem turn_isolates cf o P s fuel r o' id q : session cf o P s -> s <> QStale ->
  o_queue o = id :: q -> turn cf fuel o = Val (r, o') ->
  forall j, j < List.length (o_arena o) -> j <> id -> untouched o o' j.
Proof.
  intros HS Hs Eq E. destruct (session_refines _ _ _ _ HS Hs) as [ps HR].
  exact (proj1 (proj2 (turn_isolated _ _ _ _ _ _ _ _ HR Eq E))).
Qed.

(** C08 *)
Theorem error_drops_one cf o P s fuel n w er o' : session cf o P s -> s <> QStale ->
  get_answer cf fuel n w o = Val (RError er, o') ->
  exists o1 id, quiet cf fuel o o1 /\ o_queue o1 = id :: o_queue o' /\
    forall j, j < List.length (o_arena o1) -> j <> id -> untouched o1 o' j.
Proof.
  intros HS Hs E. destruct (session_refines _ _ _ _ HS Hs) as [ps HR].
  destruct (answer_last_turn _ _ _ _ _ _ _ _ E ltac:(discriminate)) as (o1 & HQ & Hne & Et).
  destruct (quiet_isolated _ _ _ _ _ HR HQ) as ((ps1 & HR1) & _).
  destruct (o_queue o1) as [|id q] eqn:Eq; [contradiction|].
  destruct (turn_isolated _ _ _ _ _ _ _ _ HR1 Eq Et) as (_ & Hu & _ & _ & Hq).
  exists o1, id. split; [assumption|]. split; [rewrite Hq by discriminate; exact Eq|]. assumption.
Qed.
