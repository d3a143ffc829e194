(** What a turn that calls a goal does to the queue. *)
From Verif Require Import Base Machine Heap Facts HeapSim Compiler Parser Print Organizer Process Refine Turn Shape Mono Session Search Order Runs Isolation Examples Witness.
Open Scope string_scope.
Open Scope list_scope.

(** The pending branch [id] is about to call a goal for the predicate [f]; [cs]: what is left after it. *)
Definition calls_goal (o : org) (id : nat) (f : fview) (cs : list cptr) : Prop :=
  exists e c a is, nth_error (o_arena o) id = Some e /\ x_codes e = c :: cs /\ follow o c = Val a /\ ca_code a = is ++ [ICall f].

(** [r] is the code tried for the clause [c] of [f] (for is, == and \== with the instruction inserted). *)
Definition code_for (cf : cfg) (sto : storage) (f : fview) (c : list node) (r : rule) : Prop :=
  match special f with
  | Some i => exists r0, clause_code cf sto true c r0 /\
                r = insert_pred i (fst (pred_regs (binary_pred (fv_name f)))) (snd (pred_regs (binary_pred (fv_name f)))) r0
  | None => clause_code cf sto (is_append f) c r
  end.
(** The clauses that define [f]: those of a built-in predicate, or those of the program in textual order. *)
Definition defined_by (P : list (list node)) (f : fview) : list (list node) :=
  match special f with
  | Some _ => [[binary_pred (fv_name f)]]
  | None => if is_append f then append_clauses else clauses_of f P
  end.

Lemma put_conts H (ops : hops H) cf sto fuel i m s m' : is_put i = true -> local_step H ops cf sto fuel i m = Val (s, m') -> s = Cont.
Proof.
  intros P. destruct i; cbn in P; try discriminate P; cbn [local_step push_ref]; intros E;
    repeat match type of E with
    | (x <- ?y ;; _) = _ => destruct y; cbn [bind] in E; try discriminate E
    | Val _ = _ => injection E as <- _; reflexivity
    end.
Qed.
Lemma puts_cont cf sto fuel is : forall m s m', forallb is_put is = true -> run_local cf sto fuel is m = Val (s, m') -> s = Cont.
Proof.
  induction is as [|i is IH]; intros m s m' P E; cbn in E; [injection E as <- _; reflexivity|].
  cbn in P. apply andb_true_iff in P. destruct P as [P1 P2].
  destruct (fstep cf sto fuel i m) as [[s1 m1]| |] eqn:E1; try discriminate. cbn [bind] in E.
  pose proof (put_conts _ _ _ _ _ _ _ _ _ P1 E1) as ->. eauto.
Qed.

Section Call.
Variable cf : cfg.
Variable fuel : nat.
Lemma call_turn o ps id q f cs r o' : refines cf o ps -> o_queue o = id :: q -> calls_goal o id f cs ->
  turn cf fuel o = Val (r, o') ->
  r = None /\ o_stats o' = ((o_stats o + 1) mod 4294967296)%Z /\
  match plookup f (o_prog o) with
  | None => o_queue o' = q /\ List.length (o_arena o') = List.length (o_arena o)
  | Some rs => o_queue o' = q ++ seq (List.length (o_arena o)) (List.length rs) /\
      List.length (o_arena o') = List.length (o_arena o) + List.length rs /\
      forall k r, nth_error rs k = Some r -> exists e', nth_error (o_arena o') (List.length (o_arena o) + k) = Some e' /\
        x_parent e' = Some id /\ x_state e' = SRunning /\ x_codes e' = rule_ptrs (o_pgen o) r ++ cs
  end.
Proof.
  intros HR Hq (e & c & a & is & He & Hxc & Hfo & Hcode). pose proof HR as [Hp Hnd Hch Hpr HF].
  rewrite Hq in HF. destruct ps as [|p ps]; inversion HF as [|? ? ? ? Hid HF']; subst.
  destruct Hid as (e' & He' & Hst & Hm & Hcd & Hk). rewrite He in He'. injection He' as <-.
  assert (Hchid : childless (o_arena o) id) by (apply Hch; rewrite Hq; now left).
  rewrite Hxc in Hcd. inversion Hcd as [|? a' ? rest Hfo' Hrest E0 E1]; subst. rewrite Hfo in Hfo'. injection Hfo' as <-.
  assert (Hsh : query_shape a).
  { assert (Hh : forall b, ~ (p_codes p = a :: b /\ head_shape a)).
    { intros b [_ (is' & Ei & _)]. rewrite Hcode in Ei. apply app_inj_tail in Ei. destruct Ei. discriminate. }
    destruct Hk as [_ _ Hs|? ? ? _ _ _ _ Hs|? h b _ _ Eh Hs _].
    - rewrite <- E1 in Hs. now inversion Hs.
    - rewrite <- E1 in Hs. now inversion Hs.
    - rewrite <- E1 in Eh. injection Eh as <- <-. now elim (Hh rest). }
  assert (Hput : forallb is_put is = true).
  { destruct Hsh as [(is' & f' & Ei & L)|Ei]; rewrite Hcode in Ei.
    - apply app_inj_tail in Ei. destruct Ei as [-> _]. exact L.
    - change [IDealloc] with ([] ++ [IDealloc]) in Ei. apply app_inj_tail in Ei. destruct Ei. discriminate. }
  assert (Hloc : forallb is_local is = true).
  { rewrite forallb_forall in *. intros i Hi. specialize (Hput i Hi). destruct i; auto; discriminate. }
  unfold turn. rewrite Hq. rewrite (get_exec_some (set_queue o q) id e He). cbn [bind]. rewrite Hxc.
  change (follow (set_queue o q) c) with (follow o c). rewrite Hfo. cbn [bind].
  set (o0 := set_queue o q). set (m0 := set_regs (x_m e) (resize (m_regs (x_m e)) (ca_regs a))).
  set (fm0 := set_regs (p_m p) (resize (m_regs (p_m p)) (ca_regs a))).
  assert (Hm0 : mrel (heap_at (o_arena o0) (x_parent e)) m0 fm0).
  { unfold m0, fm0. destruct Hm as (M1 & M2 & M3). rewrite M2. apply mrel_set_regs. split; auto. }
  destruct (put_exec_some o0 id e (with_m e m0) He) as (ar1 & -> & L1 & N1 & J1). cbn [bind].
  rewrite Hcode.
  pose proof (run_locals cf fuel o0 id e Hp Hchid He is [ICall f] ar1 m0 fm0 Hloc L1 N1 J1 Hm0) as Hrun.
  destruct (run_local cf (o_sto o0) fuel is fm0) as [[s fm1]| |] eqn:Erun;
    [|rewrite Hrun; discriminate|rewrite Hrun; discriminate].
  pose proof (puts_cont _ _ _ _ _ _ _ Hput Erun) as ->.
  destruct Hrun as (ar2 & m1 & -> & L2 & N2 & J2 & Hm1). cbn [run_instrs instr_step].
  assert (Hlt : id < List.length (o_arena o)) by (eapply nth_error_lt; eauto).
  unfold do_call. cbn [o_prog o_stats set_stats set_arena o0 set_queue].
  set (z := ((o_stats o + 1) mod 4294967296)%Z).
  change (set_stats (set_arena (set_queue o q) ar2) z) with (set_stats (set_arena o0 ar2) z).
  set (oz := set_stats (set_arena o0 ar2) z).
  destruct (plookup f (o_prog o)) as [rs|] eqn:Elk.
  - destruct (spawn_spec id rs oz (with_m e m1) c cs N2 Hxc) as (ar3 & ks & -> & L3 & N3 & J3). cbn [bind].
    set (children := map _ rs). set (o3 := set_queue _ _).
    assert (N3' : nth_error (o_arena o3) id = Some (with_kids (with_m e m1) ks)).
    { cbn. rewrite nth_error_app1; [assumption|]. rewrite L3. change (id < List.length ar2). rewrite L2. exact Hlt. }
    rewrite (get_exec_some o3 id _ N3'). cbn [bind]. unfold clear_exec. cbn [x_codes with_kids with_m]. rewrite Hxc.
    cbn [bind]. set (e4 := with_state _ SArchived).
    destruct (put_exec_some o3 id _ e4 N3') as (ar4 & -> & L4 & N4 & J4). cbn [bind run_instrs].
    rewrite (get_exec_some (set_arena o3 ar4) id e4 N4). cbn [bind]. cbn [x_state e4 with_state].
    intros E. injection E as <- <-. split; [reflexivity|]. split; [reflexivity|]. 
    assert (Hlen3 : List.length (o_arena oz) = List.length (o_arena o)) by exact L2.
    split; [cbn; rewrite L2; reflexivity|]. split.
    + cbn [o_arena set_arena]. rewrite L4. cbn. rewrite app_length. unfold children. rewrite map_length. lia.
    + intros k r0 Hk0. cbn [o_arena set_arena]. rewrite J4 by lia. cbn. rewrite nth_error_app2 by lia.
      replace (_ - _) with k by lia. unfold children. rewrite nth_error_map, Hk0. cbn.
      eexists. split; [reflexivity|]. cbn. auto.
  - rewrite (get_exec_some oz id (with_m e m1) N2). cbn [bind].
    destruct (put_exec_some oz id _ (with_state (with_m e m1) SFail) N2) as (ar3 & -> & L3 & N3 & J3). cbn [bind].
    rewrite (get_exec_some (set_arena oz ar3) id _ N3). cbn [bind]. unfold clear_exec. cbn [x_codes with_state with_m]. rewrite Hxc. cbn [bind].
    set (e4 := with_codes _ _).
    destruct (put_exec_some (set_arena oz ar3) id _ e4 N3) as (ar4 & -> & L4 & N4 & J4). cbn [bind].
    rewrite (get_exec_some (set_arena (set_arena oz ar3) ar4) id e4 N4). cbn [bind]. cbn [x_state e4 with_codes with_m with_state].
    intros E. injection E as <- <-. cbn. split; [reflexivity|]. split; [reflexivity|]. split; [reflexivity|].
    rewrite L4. cbn. rewrite L3. cbn. exact L2.
Qed.
End Call.

Lemma prog_branches cf sto P pg f : prog_code cf sto P pg ->
  match plookup f pg with
  | Some rs => Forall2 (code_for cf sto f) (defined_by P f) rs
  | None => defined_by P f = []
  end.
Proof.
  intros K. specialize (K f). unfold code_for, defined_by. destruct (special f) as [i|].
  - destruct K as (rs & -> & r & K & ->). constructor; [eauto|constructor].
  - destruct (is_append f).
    + destruct K as (rs & -> & K). exact K.
    + destruct (plookup f pg); [apply K|exact K].
Qed.

(** C09 and C30 *)
Theorem call_order cf o P s fuel id q f cs r o' : session cf o P s -> s <> QStale ->
  o_queue o = id :: q -> calls_goal o id f cs -> turn cf fuel o = Val (r, o') ->
  r = None /\ exists rs, Forall2 (code_for cf (o_sto o) f) (defined_by P f) rs /\
    o_queue o' = q ++ seq (List.length (o_arena o)) (List.length rs) /\
    List.length (o_arena o') = List.length (o_arena o) + List.length rs /\
    forall k r, nth_error rs k = Some r -> exists e', nth_error (o_arena o') (List.length (o_arena o) + k) = Some e' /\
      x_parent e' = Some id /\ x_state e' = SRunning /\ x_codes e' = rule_ptrs (o_pgen o) r ++ cs.
Proof.
  intros HS Hs Hq Hc E. destruct (session_refines _ _ _ _ HS Hs) as [ps HR]. destruct (session_inv _ _ _ _ HS) as [A _].
  destruct (call_turn cf fuel o ps id q f cs r o' HR Hq Hc E) as (-> & _ & K). split; [reflexivity|].
  pose proof (prog_branches cf (o_sto o) P (o_prog o) f (ck_prog _ _ _ A)) as B.
  destruct (plookup f (o_prog o)) as [rs|].
  - exists rs. auto.
  - exists []. rewrite B. cbn [seq List.length]. rewrite app_nil_r. destruct K as [K1 K2].
    split; [constructor|]. split; [exact K1|]. split; [lia|]. intros [|]; discriminate.
Qed.
Theorem call_unknown cf o P s fuel id q f cs r o' : session cf o P s -> s <> QStale ->
  o_queue o = id :: q -> calls_goal o id f cs -> defined_by P f = [] -> turn cf fuel o = Val (r, o') ->
  r = None /\ o_queue o' = q /\ List.length (o_arena o') = List.length (o_arena o) /\
  forall j, j < List.length (o_arena o) -> j <> id -> untouched o o' j.
Proof.
  intros HS Hs Hq Hc D E. destruct (call_order _ _ _ _ _ _ _ _ _ _ _ HS Hs Hq Hc E) as (-> & rs & F & Q & L & _).
  rewrite D in F. inversion F; subst. cbn in Q, L. rewrite app_nil_r in Q. split; [reflexivity|]. split; [exact Q|]. split; [lia|].
  exact (turn_isolates _ _ _ _ _ _ _ _ _ HS Hs Hq E).
Qed.

(** --- counting the goals called --- *)
(** the next thing the branch does is to call a goal *)
Definition calls_next (p : process) : bool :=
  match p_codes p with
  | a :: _ => match last (ca_code a) IProceed with ICall _ => true | _ => false end
  | [] => false
  end.
Definition shaped (p : process) : Prop := Forall (fun a => query_shape a \/ head_shape a) (p_codes p).
Lemma query_shaped l : Forall query_shape l -> Forall (fun a => query_shape a \/ head_shape a) l.
Proof. intros F. eapply Forall_impl; [|exact F]. auto. Qed.
Lemma turn_shaped cf sto fuel pg p r : prog_shape pg -> shaped p -> p_turn cf sto fuel pg p = Val r ->
  Forall shaped (kids_of r).
Proof.
  intros HP S. unfold p_turn, shaped in *. destruct (p_codes p) as [|a rest]; [discriminate|]. inversion S as [|? ? Ha Hr]; subst.
  destruct (run_local _ _ _ _ _) as [[s m]| |]; try discriminate. cbn [bind]. destruct s.
  - destruct (last (ca_code a) IProceed) ; try discriminate.
    all: match goal with
         | |- context [plookup ?f ?g] => destruct (plookup f g) as [rs|] eqn:El; intros E; injection E as <-; cbn; [|constructor];
             apply Forall_forall; intros k Hk; apply in_map_iff in Hk; destruct Hk as (r0 & <- & Hk); cbn;
             specialize (HP _ _ _ El Hk); destruct r0 as [|h b]; [contradiction|]; destruct HP as [H1 H2];
             apply Forall_app; split; [|assumption]; constructor; [now right|now apply query_shaped]
         | |- context [forallb is_dealloc ?l] => destruct (forallb is_dealloc l);
             [destruct (answer_of _ _); try discriminate; cbn [bind]; intros E; injection E as <-; constructor
             |intros E; injection E as <-; repeat constructor; assumption]
         | |- context [m_envs ?m] => destruct (m_envs m); [discriminate|]; intros E; injection E as <-; repeat constructor; assumption
         end.
  - intros E. injection E as <-. constructor.
  - intros E. injection E as <-. constructor.
Qed.
Lemma search_shaped cf sto pg root T Q : prog_shape pg -> shaped root -> search cf sto pg root T Q ->
  (forall pi p r, In (pi, p, r) T -> shaped p) /\ Forall (fun x => shaped (snd x)) Q.
Proof.
  intros HP HR S. induction S as [|T pi p r Q S [IH1 IH2] [fuel E]].
  - split; [intros ? ? ? []|]. repeat constructor. exact HR.
  - inversion IH2 as [|? ? Hp HQ]; subst. cbn in Hp. split.
    + intros pi' p' r' Hin. apply in_app_or in Hin. destruct Hin as [Hin|[Hin|[]]]; [eauto|]. injection Hin as <- <- <-. exact Hp.
    + apply Forall_app. split; [assumption|]. pose proof (turn_shaped _ _ _ _ _ _ HP Hp E) as K.
      apply Forall_forall. intros [s k] Hin. apply in_label in Hin. destruct Hin as (j & _ & Hj).
      rewrite Forall_forall in K. apply K. eapply nth_error_In; eassumption.
Qed.
Lemma called_next cf sto pg p r : shaped p -> turns cf sto pg p r -> (called cf sto pg p <-> calls_next p = true).
Proof.
  intros S [fuel E]. rewrite (called_val _ _ _ _ _ _ E). unfold p_turn, p_calls, calls_next, shaped in *.
  destruct (p_codes p) as [|a rest]; [reflexivity|]. inversion S as [|? ? Ha Hr]; subst.
  destruct (run_local _ _ _ _ _) as [[s m]| |] eqn:El; try discriminate.
  destruct Ha as [[(is & f & Ei & L)|Ei]|(is & Ei & _)].
  - rewrite Ei, removelast_last in El. rewrite Ei, last_last. pose proof (puts_cont _ _ _ _ _ _ _ L El) as ->. reflexivity.
  - rewrite Ei. cbn. destruct s; reflexivity.
  - rewrite Ei, last_last. destruct s; reflexivity.
Qed.
Definition goals_called (T : list (path * process * step_res)) : nat :=
  List.length (filter (fun t => calls_next (snd (fst t))) T).
Lemma goals_count cf sto pg T n : (forall pi p r, In (pi, p, r) T -> shaped p) ->
  (forall pi p r, In (pi, p, r) T -> turns cf sto pg p r) -> goals cf sto pg T n -> n = goals_called T.
Proof.
  intros S U G. induction G as [|T pi p r n G IH C|T pi p r n G IH C1 C]; [reflexivity| |].
  all: assert (Hin : In (pi, p, r) (T ++ [(pi, p, r)])) by (apply in_or_app; right; now left);
    pose proof (called_next _ _ _ _ _ (S _ _ _ Hin) (U _ _ _ Hin)) as K;
    unfold goals_called in *; rewrite filter_app, app_length; cbn [filter fst snd];
    rewrite IH by (intros; first [eapply S | eapply U]; apply in_or_app; left; eassumption).
  - apply K in C. rewrite C. cbn. lia.
  - destruct (calls_next p); [now elim C; apply K|]. cbn. lia.
Qed.
Lemma search_turns cf sto pg root T Q : search cf sto pg root T Q -> forall pi p r, In (pi, p, r) T -> turns cf sto pg p r.
Proof.
  intros S. induction S as [|T pi p r Q S IH E]; [intros ? ? ? []|].
  intros pi' p' r' Hin. apply in_app_or in Hin. destruct Hin as [Hin|[Hin|[]]]; [eauto|]. now injection Hin as <- <- <-.
Qed.

(** An allocation failure looks like a time-out followed by clearing everything but the statistics. *)
Lemma oom_as_timeout cf fuel n : forall k w o ps o', refines cf o ps ->
  answer_loop cf fuel n k w o = Val (ROutOfMemory, o') ->
  exists w' o1, answer_loop cf fuel n k w' o = Val (ROutOfTime, o1) /\ o' = clear_memory o1.
Proof.
  intros k w o ps o' HR E.
  exists {| w_time := fun i => if w_oom w i then (o_limit o + 1)%Z else w_time w i; w_oom := w_oom w |}.
  remember (o_limit o) as lim eqn:Hl. revert k o ps HR Hl E.
  induction n as [|n IH]; intros k o ps HR Hl E; cbn [answer_loop] in E |- *; [discriminate|].
  destruct (o_queue o) as [|id q] eqn:Eq; [discriminate|]. cbn [w_time w_oom]. rewrite Hl in *.
  destruct (o_limit o <? w_time w k)%Z eqn:E1; [discriminate|]. destruct (w_oom w k) eqn:E2.
  - injection E as <-. replace (o_limit o <? o_limit o + 1)%Z with true by (symmetry; apply Z.ltb_lt; lia). eauto.
  - rewrite E1. pose proof (turn_refines cf fuel o ps HR) as TR.
    destruct ps as [|p ps]; [destruct TR as [_ TR]; congruence|].
    destruct (p_turn cf (o_sto o) fuel (o_prog o) p) as [sr|u|] eqn:Et; try (rewrite TR in E; discriminate).
    destruct TR as (o1 & id' & q' & _ & Et1 & HR1 & Hsc & _ & _ & Hs1).
    rewrite Et1 in *. cbn [bind] in *. destruct (result_of sr) as [r1|] eqn:Er.
    + destruct sr; cbn in Er; try discriminate Er; injection Er as <-; discriminate E.
    + eapply IH; [exact HR1| |exact E]. unfold same_code in Hsc. symmetry. apply Hsc.
Qed.

(** C29 *)
Theorem statistics cf o P q rs o1 fuel n w r o' : session cf o P (QFresh q) -> run cf o rs o1 ->
  get_answer cf fuel n w o1 = Val (r, o') ->
  exists root T Q, root_of o root /\ search cf (o_sto o) (o_prog o) root T Q /\
    o_stats o' = (Z.of_nat (goals_called T) mod 4294967296)%Z /\
    exists k, filter (fun r => negb (is_timeout r)) (map fst rs ++ (match r with ROutOfMemory => [] | _ => [r] end)) =
      map snd (outs T) ++ repeat RFalse k /\ (k <> 0 -> Q = []).
Proof.
  intros HS HR E.
  assert (K : exists rs' o2, run cf o rs' o2 /\ o_stats o2 = o_stats o' /\
    filter (fun r => negb (is_timeout r)) (map fst rs ++ (match r with ROutOfMemory => [] | _ => [r] end)) = delivered rs').
  { destruct (run_search _ _ _ _ _ _ HS HR) as (rl & T & Q & g & k & _ & _ & R3 & _).
    assert (K : r <> ROutOfMemory -> exists rs' o2, run cf o rs' o2 /\ o_stats o2 = o_stats o' /\
       filter (fun r => negb (is_timeout r)) (map fst rs ++ [r]) = delivered rs').
    { intros N. exists (rs ++ [(r, o_stats o')]), o'. split; [eapply run_answer; eassumption|]. split; [reflexivity|].
      unfold delivered. now rewrite map_app. }
    destruct r; try (apply K; discriminate). clear K.
    unfold get_answer in E. destruct (oom_as_timeout _ _ _ _ _ _ _ _ R3 E) as (w' & o2 & E' & ->).
    exists (rs ++ [(ROutOfTime, o_stats o2)]), o2. split; [eapply run_answer; [eassumption|exact E'|discriminate]|].
    split; [reflexivity|]. unfold delivered. rewrite map_app, !filter_app. reflexivity. }
  destruct K as (rs' & o2 & HR' & <- & ->).
  destruct (session_inv _ _ _ _ HS) as [A (rl0 & K1 & K2 & K3 & K4 & K5)].
  destruct (run_search _ _ _ _ _ _ HS HR') as (rl & T & Q & g & k & R1 & R2 & R3 & R4 & R5 & R6 & _ & _ & R9 & R10).
  exists (init_proc rl), T, Q. split; [assumption|]. split; [assumption|]. split; [|eauto].
  rewrite R6. f_equal. f_equal.
  assert (HW : shaped (init_proc rl)).
  { destruct R1 as (s0 & s1 & R1 & _). apply query_shaped. exact (compile_query_query_shape _ _ _ _ _ R1). }
  destruct (search_shaped _ _ _ _ _ _ (entries_prog_shape _ (ck_prog_shape _ _ _ A)) HW R4) as [S1 S2].
  eapply goals_count; [exact S1|eapply search_turns; eassumption|exact R5].
Qed.

(** --- concrete instances --- *)
Definition next_goal (o : org) (id : nat) : option fview :=
  match nth_error (o_arena o) id with
  | Some e => match x_codes e with
              | c :: _ => match follow o c with
                          | Val a => match last (ca_code a) IProceed with ICall f => Some f | _ => None end
                          | _ => None
                          end
              | [] => None
              end
  | None => None
  end.
Lemma next_goal_calls o id f : next_goal o id = Some f -> exists cs, calls_goal o id f cs.
Proof.
  unfold next_goal, calls_goal. destruct (nth_error (o_arena o) id) as [e|]; [|discriminate].
  destruct (x_codes e) as [|c cs] eqn:Ec; [discriminate|]. destruct (follow o c) as [a| |] eqn:Ef; try discriminate.
  destruct (last (ca_code a) IProceed) eqn:El; try discriminate. intros K. injection K as ->.
  exists cs, e, c, a, (removelast (ca_code a)). split; [reflexivity|]. split; [exact Ec|]. split; [exact Ef|].
  rewrite <- El. apply app_removelast_last. intros K. rewrite K in El. discriminate.
Qed.
Lemma call_witness program query w f q0 q1 k :
  match loaded program query, parse_program program, parse_query (append_dot query) with
  | Some o, Some (COk P), Some (COk _) =>
      match get_answer cfg0 1000 1000 w o with
      | Val (ROutOfTime, o1) =>
          match o_queue o1 with
          | id :: q' =>
              match turn cfg0 1000 o1 with
              | Val (_, o2) => next_goal o1 id = Some f /\ List.length q' = q0 /\ List.length (o_queue o2) = q1 /\
                  List.length (defined_by P f) = k
              | _ => False
              end
          | [] => False
          end
      | _ => False
      end
  | _, _, _ => False
  end ->
  exists o P s id q cs r o', session cfg0 o P s /\ s <> QStale /\ o_queue o = id :: q /\ calls_goal o id f cs /\
    turn cfg0 1000 o = Val (r, o') /\ List.length q = q0 /\ List.length (o_queue o') = q1 /\
    List.length (defined_by P f) = k /\ parse_program program = Some (COk P).
Proof.
  destruct (loaded program query) as [o|] eqn:E1; [|contradiction].
  destruct (parse_program program) as [[P| |]|] eqn:E2; try contradiction.
  destruct (parse_query (append_dot query)) as [[q| |]|] eqn:E3; try contradiction.
  pose proof (loaded_session _ _ _ _ _ E1 E2 E3) as HS.
  destruct (get_answer cfg0 1000 1000 w o) as [[[] o1]| |] eqn:E4; try contradiction.
  destruct (o_queue o1) as [|id q'] eqn:E5; [contradiction|].
  destruct (turn cfg0 1000 o1) as [[r o2]| |] eqn:E6; try contradiction.
  intros (E7 & E8 & E9 & E10). destruct (next_goal_calls _ _ _ E7) as [cs E11].
  exists o1, P, (QStarted q), id, q', cs, r, o2. csplit; auto; [|discriminate].
  eapply (ss_answer cfg0 o P (QFresh q)); eauto; discriminate.
Qed.
