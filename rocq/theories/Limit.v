(** The time limit in force, and when get_answer gives up. *)
From Verif Require Import Base Machine Heap Compiler Parser Print Organizer Facts HeapSim Process Turn Session Search Runs LockHist Examples Witness.
Open Scope string_scope.
Open Scope list_scope.

Ltac binv E := let a := fresh "v" in let E1 := fresh "Ev" in apply bind_val in E; destruct E as (a & E1 & E).
(** --- only set_time_limit changes the limit --- *)
Definition lim (o o' : org) : Prop := o_limit o' = o_limit o.
Lemma put_lim o id e o' : put_exec o id e = Val o' -> lim o o'.
Proof. unfold put_exec. intros E. binv E. injection E as <-. reflexivity. Qed.
Lemma add_lim o id c o' : add_child o id c = Val o' -> lim o o'.
Proof. unfold add_child. intros E. binv E. binv E. apply put_lim in Ev0. injection E as <-. exact Ev0. Qed.
Lemma spawn_lim rs : forall o id o', spawn o id rs = Val o' -> lim o o'.
Proof.
  induction rs as [|r rs IH]; intros o id o' E; cbn in E; [injection E as <-; reflexivity|]. binv E. destruct (x_codes v); [discriminate E|]. binv E.
  apply add_lim in Ev0. apply IH in E. congruence.
Qed.
Lemma call_lim o id f st o' : do_call o id f = Val (st, o') -> lim o o'.
Proof.
  unfold do_call. destruct (plookup f _); intros E.
  - binv E. binv E. binv E. binv E. injection E as _ <-. apply spawn_lim in Ev. apply put_lim in Ev2. unfold lim in *. cbn in *. congruence.
  - binv E. binv E. injection E as _ <-. apply put_lim in Ev0. exact Ev0.
Qed.
Lemma proceed_lim o id st o' : do_proceed o id = Val (st, o') -> lim o o'.
Proof.
  unfold do_proceed. intros E. binv E. destruct (x_codes v); [discriminate E|]. binv E. destruct v0; binv E; binv E; injection E as _ <-.
  - eapply put_lim; eauto.
  - apply put_lim in Ev1. apply add_lim in Ev2. congruence.
Qed.
Lemma dealloc_lim o id st o' : do_dealloc o id = Val (st, o') -> lim o o'.
Proof.
  unfold do_dealloc. intros E. binv E. destruct (m_envs (x_m v)); [discriminate E|]. destruct (x_codes v); [discriminate E|]. binv E. injection E as _ <-. apply put_lim in Ev0. exact Ev0.
Qed.
Lemma step_lim cf fuel o id i st o' : instr_step cf fuel o id i = Val (st, o') -> lim o o'.
Proof.
  intros E. assert (L : forall j, (e <- get_exec o id ;; '(st, m) <- local_step lheap (lops (heap_at (o_arena o) (x_parent e))) cf (o_sto o) fuel j (x_m e) ;;
      match st with
      | Cont => o1 <- put_exec o id (with_m e m) ;; Val (RCont, o1)
      | Failing => o1 <- put_exec o id (with_state (with_m e m) SFail) ;; Val (RFailing, o1)
      | Raise er => o1 <- put_exec o id (with_state (with_m e m) (SError er)) ;; Val (RRaise er, o1)
      end) = Val (st, o') -> lim o o').
  { clear E. intros j E. binv E. binv E. destruct v0 as [[] m]; binv E; injection E as _ <-; eapply put_lim; eauto. }
  destruct i; try (exact (L _ E)); [eapply call_lim; eauto|eapply proceed_lim; eauto|eapply dealloc_lim; eauto].
Qed.
Lemma run_lim cf fuel is : forall o id st o', run_instrs cf fuel o id is = Val (st, o') -> lim o o'.
Proof.
  induction is as [|i is IH]; intros o id st o' E; cbn [run_instrs] in E; [injection E as _ <-; reflexivity|]. binv E. destruct v as [s1 o1]. apply step_lim in Ev.
  unfold lim in *. rewrite <- Ev. destruct s1; [eapply IH; eauto| |]; binv E; binv E; binv E; injection E as _ <-; eapply put_lim; eauto.
Qed.
Lemma turn_lim cf fuel o r o' : turn cf fuel o = Val (r, o') -> lim o o' /\ r <> Some ROutOfTime.
Proof.
  unfold turn. destruct (o_queue o) as [|id q]; intros E; [injection E as <- <-; split; [reflexivity|discriminate]|]. binv E. destruct (x_codes v); [discriminate E|]. binv E. binv E. binv E. destruct v2 as [st o2].
  assert (Kp : lim o o2) by (apply put_lim in Ev1; apply run_lim in Ev2; unfold lim in *; cbn in *; congruence).
  assert (D : forall a, a <> ROutOfTime -> Val (Some a, o2) = Val (r, o') -> lim o o' /\ r <> Some ROutOfTime) by (intros a Ha Ea; injection Ea as <- <-; split; [exact Kp|congruence]).
  assert (D' : Val (None, o2) = Val (r, o') -> lim o o' /\ r <> Some ROutOfTime) by (intros Ea; injection Ea as <- <-; split; [exact Kp|discriminate]).
  destruct st; [| |apply D in E; [exact E|discriminate]]; binv E; destruct (x_state v2); try (exact (D' E)); binv E; (apply D in E; [exact E|discriminate]).
Qed.

(** [silent_turns cf fuel k o o']: [k] turns of the scheduler, none of which ends the call *)
Inductive silent_turns (cf : cfg) (fuel : nat) : nat -> org -> org -> Prop :=
| tu_none o : silent_turns cf fuel 0 o o
| tu_more k o o1 o2 : o_queue o <> [] -> turn cf fuel o = Val (None, o1) -> silent_turns cf fuel k o1 o2 -> silent_turns cf fuel (S k) o o2.
Lemma silent_turns_lim cf fuel k o o' : silent_turns cf fuel k o o' -> o_limit o' = o_limit o.
Proof. intros H. induction H as [|k o o1 o2 Q E H IH]; [reflexivity|]. apply turn_lim in E. destruct E as [E _]. congruence. Qed.

(** get_answer: some turns within the limit; then the queue is empty, the clock is beyond the limit, memory is exhausted, or a turn
    delivers something *)
Inductive ends_in (cf : cfg) (fuel : nat) (w : world) (k : nat) (o : org) : res -> org -> Prop :=
| ei_empty : o_queue o = [] -> ends_in cf fuel w k o RFalse o
| ei_time : o_queue o <> [] -> (o_limit o < w_time w k)%Z -> ends_in cf fuel w k o ROutOfTime o
| ei_memory : o_queue o <> [] -> (w_time w k <= o_limit o)%Z -> w_oom w k = true -> ends_in cf fuel w k o ROutOfMemory (clear_memory o)
| ei_turn r o' : o_queue o <> [] -> (w_time w k <= o_limit o)%Z -> w_oom w k = false -> turn cf fuel o = Val (Some r, o') ->
    r <> ROutOfTime -> ends_in cf fuel w k o r o'.
Definition shift (j : nat) (w : world) : world := {| w_time := fun i => w_time w (j + i); w_oom := fun i => w_oom w (j + i) |}.
Lemma loop_ends cf fuel n : forall j w o r o', answer_loop cf fuel n j w o = Val (r, o') ->
  exists k o1, silent_turns cf fuel k o o1 /\ (forall i, i < k -> (w_time w (j + i) <= o_limit o)%Z /\ w_oom w (j + i) = false) /\ ends_in cf fuel w (j + k) o1 r o'.
Proof.
  induction n as [|n IH]; intros j w o r o' E; cbn [answer_loop] in E; [discriminate E|].
  destruct (o_queue o) as [|x l] eqn:Q.
  { injection E as <- <-. exists 0, o. csplit; [constructor|lia|now constructor]. }
  assert (Q' : o_queue o <> []) by now rewrite Q.
  destruct (Z.ltb_spec (o_limit o) (w_time w j)) as [L|L].
  { injection E as <- <-. exists 0, o. csplit; [constructor|lia|]. rewrite Nat.add_0_r. now constructor. }
  destruct (w_oom w j) eqn:M.
  { injection E as <- <-. exists 0, o. csplit; [constructor|lia|]. rewrite Nat.add_0_r. now constructor. }
  binv E. destruct v as [[r1|] o1].
  - injection E as <- <-. exists 0, o. csplit; [constructor|lia|]. rewrite Nat.add_0_r. apply turn_lim in Ev as Nt. destruct Nt as [_ Nt].
    constructor; auto. congruence.
  - pose proof (proj1 (turn_lim _ _ _ _ _ Ev)) as Lo. destruct (IH _ _ _ _ _ E) as (k & o2 & T & B & F). exists (S k), o2. csplit.
    + econstructor; eauto.
    + intros [|i] Hi; [rewrite Nat.add_0_r; auto|]. unfold lim in Lo. rewrite <- Lo. specialize (B i ltac:(lia)). now replace (j + S i) with (S j + i) by lia.
    + now replace (j + S k) with (S j + k) by lia.
Qed.
Theorem answer_ends cf fuel n w o r o' : get_answer cf fuel n w o = Val (r, o') ->
  exists k o1, silent_turns cf fuel k o o1 /\ (forall i, i < k -> (w_time w i <= o_limit o)%Z /\ w_oom w i = false) /\ o_limit o1 = o_limit o /\ ends_in cf fuel w k o1 r o'.
Proof. intros E. destruct (loop_ends _ _ _ _ _ _ _ _ E) as (k & o1 & T & B & F). exists k, o1. csplit; auto. eapply silent_turns_lim; eauto. Qed.
Theorem answer_time cf fuel n w o r o' : get_answer cf fuel n w o = Val (r, o') ->
  (r = ROutOfTime <-> exists k, silent_turns cf fuel k o o' /\ o_queue o' <> [] /\ (o_limit o < w_time w k)%Z /\
                               forall i, i < k -> (w_time w i <= o_limit o)%Z /\ w_oom w i = false).
Proof.
  intros E. destruct (answer_ends _ _ _ _ _ _ _ E) as (k & o1 & T & B & Lo & F). split.
  - intros ->. inversion F as [| Q L| |r0 x0 A1 A2 A3 A4 A5]; subst; [|congruence]. exists k. csplit; auto. congruence.
  - intros (k' & T' & Q' & L' & B').
    assert (K : forall k k' o o1 o2, silent_turns cf fuel k o o1 -> silent_turns cf fuel k' o o2 -> k <= k' -> exists d, k' = k + d /\ silent_turns cf fuel d o1 o2).
    { clear. intros k k' o o1 o2 H. revert k' o2. induction H as [o|k o o1 o2 Q E H IH]; intros k' o3 H' Le; [exists k'; auto|].
      destruct k' as [|k']; [lia|]. inversion H' as [|k2 x1 x2 x3 Q2 E2 H2]; subst. rewrite E in E2. injection E2 as <-. assert (KK := IH _ _ H2); destruct KK as (d & -> & D); [lia|]. exists d. auto. }
    destruct (Nat.lt_trichotomy k k') as [Lt|[->|Lt]].
    + assert (KK := K _ _ _ _ _ T T'); destruct KK as (d & Ed & D); [lia|]. destruct d; [lia|]. inversion D as [|k2 x1 x2 x3 Q2 E2 H2]; subst.
      destruct (B' k Lt) as [B1 B2]. inversion F as [A|A A2|A A2 A3|r0 x0 A1 A2 A3 A4 A5]; subst; try congruence.
    + assert (KK := K _ _ _ _ _ T T'); destruct KK as (d & Ed & D); [lia|]. assert (d = 0) by lia. subst d. inversion D; subst.
      inversion F as [A|A A2|A A2 A3|r0 x0 A1 A2 A3 A4 A5]; subst; try congruence; exfalso; cbn [clear_memory o_limit] in *; lia.
    + destruct (B k' Lt). lia.
Qed.

(** --- histories --- *)
Inductive history (cf : cfg) : list call -> org -> Prop :=
| hi_new o : new_org cf = Val o -> history cf [] o
| hi_call cs c o r o' : history cf cs o -> perform cf c o = Val (r, o') -> history cf (cs ++ [c]) o'.
(** the limit set last, in microseconds; at first 100 milliseconds *)
Fixpoint last_limit (cs : list call) (t : Z) : Z :=
  match cs with
  | [] => t
  | CallLimit t' :: cs' => last_limit cs' t'
  | _ :: cs' => last_limit cs' t
  end.
Lemma last_limit_app cs : forall c t, last_limit (cs ++ [c]) t = match c with CallLimit t' => t' | _ => last_limit cs t end.
Proof. induction cs as [|[] cs IH]; intros c t0; cbn; auto; destruct c; auto. Qed.
Lemma load_program_lim cf text o r o' : load_program cf text o = Some (r, o') -> o_limit o' = o_limit o.
Proof.
  unfold load_program. destruct (parse_program text) as [[]|]; try discriminate; [|intros E; injection E as _ <-; reflexivity..].
  destruct (compile_program cf a (o_sto o)) as [[] s]; intros E; injection E as _ <-; reflexivity.
Qed.
Lemma load_query_lim cf text o r o' : load_query cf text o = Some (r, o') -> o_limit o' = o_limit o.
Proof.
  unfold load_query. destruct (parse_query _) as [[]|]; try discriminate; [|intros E; injection E as _ <-; reflexivity..].
  destruct (compile_query cf a (o_sto o)) as [[] s]; intros E; injection E as _ <-; reflexivity.
Qed.
Lemma answer_lim cf fuel n w o r o' : get_answer cf fuel n w o = Val (r, o') -> o_limit o' = o_limit o.
Proof.
  intros E. destruct (answer_ends _ _ _ _ _ _ _ E) as (k & o1 & _ & _ & Lo & F). inversion F; subst; auto.
  apply turn_lim in H2. destruct H2 as [H2 _]. congruence.
Qed.
Theorem limit_in_force cf cs o : history cf cs o -> o_limit o = last_limit cs 100000.
Proof.
  intros H. induction H as [o E|cs c o r o' H IH E].
  - unfold new_org in E. destruct (compile_built_ins cf empty_storage) as [[] s]; try discriminate E. injection E as <-. reflexivity.
  - rewrite last_limit_app. destruct c as [text|text|fuel n w|t]; cbn [perform] in E.
    + unfold load_out in E. destruct (load_program cf text o) as [[]|] eqn:El; [|discriminate E]. injection E as _ <-. rewrite <- IH. eapply load_program_lim; eauto.
    + unfold load_out in E. destruct (load_query cf text o) as [[]|] eqn:El; [|discriminate E]. injection E as _ <-. rewrite <- IH. eapply load_query_lim; eauto.
    + binv E. destruct v as [r1 o1]. injection E as _ <-. rewrite <- IH. eapply answer_lim; eauto.
    + injection E as _ <-. reflexivity.
Qed.

(** --- a case: the third reading of the clock is beyond the limit; later the search goes on --- *)
Definition slow_world : world := {| w_time := fun k => if Nat.ltb k 2 then 3 else 8; w_oom := fun _ => false |}%Z.
Definition limit_calls : list call := [CallLimit 7; CallProgram "p(a). p(b)."; CallQuery "p(X), p(Y)"]%Z.
Fixpoint after (cf : cfg) (cs : list call) (o : org) : out org :=
  match cs with [] => Val o | c :: cs' => '(_, o') <- perform cf c o ;; after cf cs' o' end.
Lemma after_history cf ds : forall cs o o', history cf cs o -> after cf ds o = Val o' -> history cf (cs ++ ds) o'.
Proof.
  induction ds as [|d ds IH]; intros cs o o' H E; cbn [after] in E; [injection E as <-; now rewrite app_nil_r|].
  binv E. destruct v as [r o1]. replace (cs ++ d :: ds) with ((cs ++ [d]) ++ ds) by (rewrite <- app_assoc; reflexivity).
  eapply IH; [|exact E]. econstructor; eauto.
Qed.
Lemma limit_case : exists o o', history cfg0 limit_calls o /\ o_limit o = 7%Z /\ get_answer cfg0 100 100 slow_world o = Val (ROutOfTime, o') /\
  silent_turns cfg0 100 2 o o' /\ exists r o'', get_answer cfg0 100 100 w0 o' = Val (RAnswer r, o'').
Proof.
  destruct (new_org cfg0) as [o0| |] eqn:E0; [|exfalso; vm_compute in E0; discriminate E0..].
  destruct (after cfg0 limit_calls o0) as [o| |] eqn:E1; [|exfalso; vm_compute in E0; injection E0 as <-; vm_compute in E1; discriminate E1..].
  destruct (turn cfg0 100 o) as [[[r|] o1]| |] eqn:E2; [exfalso|idtac|exfalso|exfalso];
    try (vm_compute in E0; injection E0 as <-; vm_compute in E1; injection E1 as <-; vm_compute in E2; discriminate E2).
  destruct (turn cfg0 100 o1) as [[[r|] o2]| |] eqn:E3; [exfalso|idtac|exfalso|exfalso];
    try (vm_compute in E0; injection E0 as <-; vm_compute in E1; injection E1 as <-; vm_compute in E2; injection E2 as <-; vm_compute in E3; discriminate E3).
  exists o, o2. split; [apply (after_history cfg0 limit_calls [] o0); [now constructor|exact E1]|].
  assert (Q : o_limit o = 7%Z /\ o_queue o <> [] /\ o_queue o1 <> [] /\ get_answer cfg0 100 100 slow_world o = Val (ROutOfTime, o2) /\
    exists r o'', get_answer cfg0 100 100 w0 o2 = Val (RAnswer r, o'')).
  { vm_compute in E0. injection E0 as <-. vm_compute in E1. injection E1 as <-. vm_compute in E2. injection E2 as <-. vm_compute in E3. injection E3 as <-.
    split; [reflexivity|]. split; [discriminate|]. split; [discriminate|]. split; [vm_compute; reflexivity|].
    eexists. eexists. vm_compute. reflexivity. }
  destruct Q as (Q1 & Q2 & Q3 & Q4 & Q5). csplit; auto. econstructor; eauto. econstructor; eauto. constructor.
Qed.
