(** If every turn ends, every call of get_answer returns, at the latest when the clock passes the time limit. *)
From Verif Require Import Base Machine Heap Facts HeapSim Compiler Parser Print Organizer Spec Valuation Process Refine Mono Turn Shape Session
  Search Alloc Atoms Clause Sols Solve Terms Shown Order Runs Answers Complete Clash Examples Witness Finite Total Safe Cyclic Linear LinearCase LockHist Limit Size SizeCase Flat IsEnds.
Open Scope string_scope.
Open Scope list_scope.

(** if every turn ends no call of get_answer goes wrong *)
Theorem ended_no_ub cf o P q rs o' : session cf o P (QFresh q) -> turns_end cf o -> run cf o rs o' -> forall fuel n w, no_ub (get_answer cf fuel n w o').
Proof.
  intros HS TE HR fuel n w. destruct (run_search cf o P q rs o' HS HR) as (rl & T & Q & g & k & R1 & R2 & R3 & R4 & R5 & R6 & R7 & R8 & R9 & R10).
  rewrite <- R7, <- R8 in R4. unfold get_answer. refine (loop_no_ub cf (init_proc rl) fuel n 0 w o' T Q _ R3 R4).
  rewrite R7, R8. intros pi p Hp u E. destruct (TE _ _ _ R2 Hp) as (r & f & Er).
  pose proof (le_val _ _ _ (p_turn_mono cf (o_sto o) (o_prog o) f (Nat.max f fuel) p (Nat.le_max_l _ _)) Er) as E1.
  pose proof (p_turn_mono cf (o_sto o) (o_prog o) fuel (Nat.max f fuel) p (Nat.le_max_r _ _)) as M. rewrite E in M. destruct M as [M|M]; [discriminate|congruence].
Qed.

(** if every turn ends every call of get_answer returns, at the latest when the clock passes the limit *)
Lemma loop_returns cf sto pg root lim w : (forall pi p, at_path cf sto pg root pi p -> exists r, turns cf sto pg p r) ->
  forall j k T Q, search cf sto pg root T Q -> (lim < w_time w (k + j))%Z ->
  exists F, forall fuel n o, F <= fuel -> j < n -> refines cf o (map snd Q) -> o_sto o = sto -> o_prog o = pg -> o_limit o = lim ->
    exists x, answer_loop cf fuel n k w o = Val x.
Proof.
  intros TE. induction j as [|j IH]; intros k T Q HS HT.
  - exists 0. intros fuel n o _ Hn HR _ _ HL. destruct n as [|n]; [lia|]. cbn [answer_loop]. rewrite Nat.add_0_r in HT.
    destruct (o_queue o); [eauto|]. rewrite HL. apply Z.ltb_lt in HT. rewrite HT. eauto.
  - destruct Q as [|[pi p] Q].
    + exists 0. intros fuel n o _ Hn HR _ _ _. destruct n as [|n]; [lia|]. cbn [answer_loop]. destruct (turn_refines cf fuel o [] HR) as [_ Eq]. rewrite Eq. eauto.
    + assert (At : at_path cf sto pg root pi p) by (destruct (search_order _ _ _ _ _ _ HS) as (_ & _ & _ & S4 & _); apply S4; now left).
      destruct (TE _ _ At) as (r & f & Er).
      destruct (IH (S k) (T ++ [(pi, p, r)]) (Q ++ label pi (kids_of r))) as (F & K); [eapply se_turn; [exact HS|now exists f]|now replace (S k + j) with (k + S j) by lia|].
      exists (Nat.max f F). intros fuel n o Hf Hn HR E1 E2 E3. destruct n as [|n]; [lia|]. cbn [answer_loop].
      pose proof (turn_refines cf fuel o _ HR) as TR. cbn [map snd] in TR. rewrite E1, E2 in TR.
      rewrite (le_val _ _ _ (p_turn_mono cf sto pg f fuel p ltac:(lia)) Er) in TR. destruct TR as (o1 & id & q' & Eq & Et & HR1 & Hsc & _). rewrite Eq.
      destruct (o_limit o <? w_time w k)%Z; [eauto|]. destruct (w_oom w k); [eauto|]. rewrite Et. cbn [bind].
      destruct (result_of r); [eauto|]. pose proof Hsc as (S1 & S2 & _). apply K; try lia; try congruence.
      * rewrite map_app, label_snd. exact HR1.
      * rewrite <- E3. apply Hsc.
Qed.
Theorem ended_returns cf o P q rs o' w k : session cf o P (QFresh q) -> turns_end cf o -> run cf o rs o' -> (o_limit o' < w_time w k)%Z ->
  exists N, forall fuel n, N <= fuel -> N <= n -> exists r o2, get_answer cf fuel n w o' = Val (r, o2).
Proof.
  intros HS TE HR HT. destruct (run_search cf o P q rs o' HS HR) as (rl & T & Q & g & j & R1 & R2 & R3 & R4 & R5 & R6 & R7 & R8 & R9 & R10).
  destruct (loop_returns cf (o_sto o) (o_prog o) (init_proc rl) (o_limit o') w (fun pi p Hp => TE _ pi p R2 Hp) k 0 T Q R4 HT) as (F & K).
  exists (Nat.max F (S k)). intros fuel n Hf Hn. destruct (K fuel n o') as ([r o2] & E); auto; try lia. exists r, o2. exact E.
Qed.

Theorem linear_returns cf o P q rs o' w k : ord_ok cf -> session cf o P (QFresh q) -> small_tables (o_sto o) ->
  (Z.of_nat (List.length (s_vars (o_sto o))) <= 32768)%Z -> no_clash cf P -> linear P q -> all_goals no_is P q \/ all_evaluable cf o ->
  run cf o rs o' -> (o_limit o' < w_time w k)%Z ->
  exists N, forall fuel n, N <= fuel -> N <= n -> exists r o2, get_answer cf fuel n w o' = Val (r, o2).
Proof.
  intros OK HS SM SV NC LN NI. apply (ended_returns cf o P q rs o' w k HS). destruct NI as [NI|EV].
  - exact (linear_ends cf OK o P q HS SM NC LN SV NI).
  - exact (is_ends cf o P q OK HS SM SV NC LN EV).
Qed.

Theorem datalog_returns cf o P q rs o' w k : ord_ok cf -> session cf o P (QFresh q) -> small_tables (o_sto o) ->
  (Z.of_nat (List.length (s_vars (o_sto o))) <= 32768)%Z -> no_clash cf P -> datalog P q -> run cf o rs o' -> (o_limit o' < w_time w k)%Z ->
  exists N, forall fuel n, N <= fuel -> N <= n -> exists r o2, get_answer cf fuel n w o' = Val (r, o2).
Proof. intros OK HS SM SV NC DL. exact (ended_returns cf o P q rs o' w k HS (datalog_ends cf OK o P q HS SM SV NC DL)). Qed.
Theorem short_returns cf o P q n rs o' w k : ord_ok cf -> typed cf o P (QFresh q) n -> (Z.of_nat n <= 10000)%Z -> Forall roomy_clause P ->
  linear P q -> all_goals no_is P q -> run cf o rs o' -> (o_limit o' < w_time w k)%Z ->
  exists N, forall fuel n, N <= fuel -> N <= n -> exists r o2, get_answer cf fuel n w o' = Val (r, o2).
Proof.
  intros OK H L R LN NI. exact (ended_returns cf o P q rs o' w k (typed_session cf o P _ n H) (proj2 (short_linear cf o P q n OK H L R LN) NI)).
Qed.

(** the search made by turns without result *)
Lemma silent_search cf fuel root k o o' : silent_turns cf fuel k o o' -> forall T Q, refines cf o (map snd Q) -> search cf (o_sto o) (o_prog o) root T Q ->
  exists T' Q', List.length T' = List.length T + k /\ search cf (o_sto o) (o_prog o) root T' Q'.
Proof.
  intros H. induction H as [o|k o o1 o2 Hq E H IH]; intros T Q HR HS; [exists T, Q; split; [lia|exact HS]|].
  pose proof (turn_refines cf fuel o _ HR) as TR. destruct Q as [|[pi p] Q]; cbn [map snd] in TR; [now destruct TR|].
  destruct (p_turn cf (o_sto o) fuel (o_prog o) p) as [r|u|] eqn:Et; [|congruence|congruence].
  destruct TR as (o1' & id & q & _ & E' & HR1 & Hsc & _). rewrite E in E'. injection E' as _ <-. pose proof Hsc as (S1 & S2 & _).
  destruct (IH (T ++ [(pi, p, r)]) (Q ++ label pi (kids_of r))) as (T' & Q' & L & HS').
  - rewrite map_app, label_snd. exact HR1.
  - rewrite S1, S2. eapply se_turn; [exact HS|now exists fuel].
  - exists T', Q'. rewrite S1, S2 in HS'. split; [|exact HS']. rewrite L, app_length. cbn. lia.
Qed.
Definition late : world := {| w_time := fun k => if Nat.leb k 100 then 0%Z else 1000000%Z; w_oom := fun _ => false |}.
Lemma never_returns : exists o P q,
  parse_program block_text = Some (COk P) /\ parse_query (append_dot "s") = Some (COk q) /\
  session cfg0 o P (QFresh q) /\ no_clash cfg0 P /\ small_tables (o_sto o) /\ (Z.of_nat (List.length (s_vars (o_sto o))) <= 32768)%Z /\
  all_goals no_compare P q /\ all_goals no_is P q /\
  (forall k, 100 < k -> (o_limit o < w_time late k)%Z) /\ forall fuel n, get_answer cfg0 fuel n late o = Fuel.
Proof.
  destruct (loaded_witness block_text "s" (fun o P q => small_b (o_sto o) && noclash_b cfg0 P && goals_b nocompare_b P q && goals_b nois_b P q &&
    block_b o && (Z.of_nat (List.length (s_vars (o_sto o))) <=? 32768)%Z && (0 <=? o_limit o)%Z && (o_limit o <? 1000000)%Z && Nat.leb (List.length (fst (block_search o))) 100))
    as (o & P & q & HS & E1 & E2 & K); [vm_compute; reflexivity|].
  rewrite !andb_true_iff in K. destruct K as ((((((((K1 & K2) & K3) & K4) & K5) & K6) & K7) & K8) & K9).
  apply Z.leb_le in K6. apply Z.leb_le in K7. apply Z.ltb_lt in K8. apply Nat.leb_le in K9.
  assert (A : all_goals no_is P q) by exact (goals_b_ok nois_b no_is _ _ nois_b_ok K4).
  exists o, P, q. csplit; auto using small_b_ok, noclash_b_ok.
  - exact (goals_b_ok nocompare_b no_compare _ _ nocompare_b_ok K3).
  - intros k Hk. cbn [late w_time]. destruct (Nat.leb_spec k 100); [lia|exact K8].
  - intros fuel n. destruct (get_answer cfg0 fuel n late o) as [[r o']|u|] eqn:E; [exfalso| |reflexivity].
    2:{ exfalso. eapply (session_no_ub cfg0 o P (QFresh q) ord_ok_cfg0 HS); eauto using small_b_ok, noclash_b_ok. discriminate. }
    destruct (run_search cfg0 o P q [] o HS (run_nil _ _)) as (rl & T & Q & g & j & R1 & R2 & R3 & R4 & _).
    pose proof R2 as Hr. apply root_proc_ok in Hr. unfold block_b, block_search in K5, K9.
    pose proof (search_n_ok cfg0 (o_sto o) (o_prog o) (root_proc o) 100 100 [] [([], root_proc o)] (se_init _ _ _ _)) as S0.
    destruct (search_n cfg0 (o_sto o) (o_prog o) 100 100 [] [([], root_proc o)]) as [T0 [|[pi p] Q0]]; [discriminate|]. cbn [fst snd] in S0, K9.
    apply andb_true_iff in K5. destruct K5 as [B O]. destruct (outs T0) as [|x l] eqn:Eo; [|discriminate].
    pose proof (stuck _ _ _ _ _ _ _ _ S0 (blocked_turn cfg0 (o_sto o) (o_prog o) _ _ _ p B)) as St. rewrite <- Hr in St.
    assert (Nm : r <> ROutOfMemory).
    { intros ->. destruct (answer_ends _ _ _ _ _ _ _ E) as (k & o1 & Si & _ & _ & F). inversion F as [| |? ? F3|? ? ? ? ? F4]; subst; [discriminate F3|].
      now destruct (LockHist.turn_kept _ _ _ _ _ F4). }
    destruct (sess_search cfg0 o P q HS _ o' (run_answer _ _ _ _ _ _ _ _ _ (run_nil _ _) E Nm)) as (root & T1 & Q1 & k & Hr1 & S1 & D & HQ & _).
    apply root_proc_ok in Hr1. rewrite <- Hr in Hr1. subst root. destruct (St _ _ S1) as ((t & Et) & Ne).
    assert (k = 0) as -> by (destruct k; [reflexivity|exfalso; apply Ne, HQ; discriminate]).
    subst T0. rewrite outs_app in Eo. apply app_eq_nil in Eo. rewrite (proj1 Eo) in D. cbn in D.
    destruct r; [discriminate D|discriminate D|discriminate D| |now elim Nm].
    destruct (proj1 (answer_time _ _ _ _ _ _ _ E) eq_refl) as (k & Si & _ & Lk & _).
    destruct (silent_search _ _ _ _ _ _ Si T Q R3 R4) as (T2 & Q2 & L2 & S2). destruct (St _ _ S2) as ((t2 & Et2) & _).
    apply (f_equal (@List.length _)) in Et2. rewrite (app_length T2) in Et2. cbn [late w_time] in Lk. destruct (Nat.leb_spec k 100); lia.
Qed.

(** cases *)
Definition soon : world := {| w_time := fun k => if Nat.leb k 10 then 0%Z else 1000000%Z; w_oom := fun _ => false |}.
Definition timed (x : out (res * org)) : bool := match x with Val (ROutOfTime, _) => true | _ => false end.
Lemma timed_ok x : timed x = true -> exists o', x = Val (ROutOfTime, o').
Proof. destruct x as [[[| | | |] o']| |]; try discriminate. eauto. Qed.
Lemma returns_case : exists o P q o', session cfg0 o P (QFresh q) /\
  parse_program "p(X) :- p(f(X))." = Some (COk P) /\ parse_query (append_dot "p(Y)") = Some (COk q) /\
  small_tables (o_sto o) /\ (Z.of_nat (List.length (s_vars (o_sto o))) <= 32768)%Z /\ no_clash cfg0 P /\ linear P q /\ all_goals no_is P q /\
  (o_limit o < w_time soon 11)%Z /\ get_answer cfg0 100 100 soon o = Val (ROutOfTime, o').
Proof.
  destruct (loaded_witness "p(X) :- p(f(X))." "p(Y)" (fun o P q => small_b (o_sto o) && (Z.of_nat (List.length (s_vars (o_sto o))) <=? 32768)%Z && noclash_b cfg0 P &&
    linear_b P q && goals_b nois_b P q && (o_limit o <? w_time soon 11)%Z && timed (get_answer cfg0 100 100 soon o)))
    as (o & P & q & HS & E1 & E2 & K); [vm_compute; reflexivity|].
  rewrite !andb_true_iff in K. destruct K as ((((((K1 & K2) & K3) & K4) & K5) & K6) & K7). apply Z.leb_le in K2. apply Z.ltb_lt in K6.
  apply timed_ok in K7. destruct K7 as (o' & K7).
  exists o, P, q, o'. csplit; auto using small_b_ok, noclash_b_ok, linear_b_ok.
  exact (goals_b_ok nois_b no_is _ _ nois_b_ok K5).
Qed.
Lemma datalog_case : exists o P q rs o' o2, session cfg0 o P (QFresh q) /\
  parse_program "e(a,b). e(b,c). t(X,Y) :- t(X,Z), e(Z,Y). t(X,Y) :- e(X,Y)." = Some (COk P) /\ parse_query (append_dot "t(X,c)") = Some (COk q) /\
  small_tables (o_sto o) /\ (Z.of_nat (List.length (s_vars (o_sto o))) <= 32768)%Z /\ no_clash cfg0 P /\ datalog P q /\
  run cfg0 o rs o' /\ delivered rs = [RAnswer [("X", "b")]; RAnswer [("X", "a")]] /\
  (o_limit o' < w_time soon 11)%Z /\ get_answer cfg0 100 100 soon o' = Val (ROutOfTime, o2).
Proof.
  destruct (loaded_witness "e(a,b). e(b,c). t(X,Y) :- t(X,Z), e(Z,Y). t(X,Y) :- e(X,Y)." "t(X,c)" (fun o P q =>
    small_b (o_sto o) && (Z.of_nat (List.length (s_vars (o_sto o))) <=? 32768)%Z && noclash_b cfg0 P && datalog_b P q &&
    match calls [w0; w0] o with
    | Some (rs, o') => answers_eqb (delivered rs) [[("X", "b")]; [("X", "a")]] && (o_limit o' <? w_time soon 11)%Z &&
                       timed (get_answer cfg0 100 100 soon o')
    | None => false
    end)) as (o & P & q & HS & E1 & E2 & K); [vm_compute; reflexivity|].
  rewrite !andb_true_iff in K. destruct K as ((((K1 & K2) & K3) & K4) & K5). apply Z.leb_le in K2.
  destruct (calls [w0; w0] o) as [[rs o']|] eqn:Ec; [|discriminate]. rewrite !andb_true_iff in K5. destruct K5 as ((K5 & K6) & K7). apply Z.ltb_lt in K6.
  apply timed_ok in K7. destruct K7 as (o2 & K7).
  exists o, P, q, rs, o', o2. csplit; auto using small_b_ok, noclash_b_ok, datalog_b_ok.
  - exact (calls_run _ _ _ _ Ec).
  - exact (answers_eqb_ok _ _ K5).
Qed.
Lemma short_returns_case : exists o P q o', typed cfg0 o P (QFresh q) (String.length "p(X) :- p(f(X))." + S (String.length "p(Y)")) /\
  (Z.of_nat (String.length "p(X) :- p(f(X))." + S (String.length "p(Y)")) <= 10000)%Z /\
  parse_program "p(X) :- p(f(X))." = Some (COk P) /\ parse_query (append_dot "p(Y)") = Some (COk q) /\ Forall roomy_clause P /\ linear P q /\ all_goals no_is P q /\
  (o_limit o < w_time soon 11)%Z /\ get_answer cfg0 100 100 soon o = Val (ROutOfTime, o').
Proof.
  destruct (typed_witness "p(X) :- p(f(X))." "p(Y)" (fun o P q => forallb roomy_clause_b P && linear_b P q && goals_b nois_b P q &&
    (o_limit o <? w_time soon 11)%Z && timed (get_answer cfg0 100 100 soon o)))
    as (o & P & q & A & E1 & E2 & K); [vm_compute; reflexivity|].
  rewrite !andb_true_iff in K. destruct K as ((((K3 & K4) & K5) & K6) & K7). apply Z.ltb_lt in K6.
  apply timed_ok in K7. destruct K7 as (o' & K7).
  exists o, P, q, o'. csplit; auto using linear_b_ok.
  - vm_compute. discriminate.
  - apply Forall_forall. intros c Hc. rewrite forallb_forall in K3. now apply roomy_clause_b_ok, K3.
  - exact (goals_b_ok nois_b no_is _ _ nois_b_ok K5).
Qed.
