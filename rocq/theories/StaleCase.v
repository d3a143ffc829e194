(** After load_query the replies do not depend on the history (C23 for every history without OUT_OF_MEMORY); cases for C23 and C31. *)
From Verif Require Import Base Machine Heap Facts HeapSim Mono Turn Builtins Search Compiler Parser Print Organizer Spec Examples Session Atoms Answers Runs LockHist LockInst Independence
  Stale Witness Finite RestCase.
Open Scope string_scope.
Open Scope list_scope.

(** two objects without a query that differ in executors only *)
Lemma idle_same cf cs : forall o o2, beside o o2 -> o_queue o = [] -> o_queue o2 = [] -> o_stats o = o_stats o2 ->
  play cf cs o = play cf cs o2 /\ map o_sto (states cf cs o) = map o_sto (states cf cs o2).
Proof.
  induction cs as [|c cs IH]; intros o o2 B Q1 Q2 St; [split; [reflexivity|]; cbn; f_equal; symmetry; apply B|].
  assert (E0 : o_sto o = o_sto o2) by (symmetry; apply B). cbn [play states map]. rewrite E0.
  destruct c as [text|text|fuel n w|t]; cbn [perform].
  - destruct (load_program cf text o) as [[r o']|] eqn:E.
    + destruct (program_beside _ _ _ _ _ _ B E) as (o2' & E2 & B2). rewrite E2. cbn [load_out].
      assert (K : forall x y, load_program cf text x = Some (r, y) -> o_queue y = o_queue x /\ o_stats y = o_stats x).
      { intros x y F. unfold load_program in F. destruct (parse_program text) as [[cl|e|]|]; try discriminate F.
        - destruct (compile_program cf cl (o_sto x)) as [[p|e|] s]; injection F as _ <-; auto.
        - injection F as _ <-; auto.
        - injection F as _ <-; auto. }
      destruct (K _ _ E) as [K1 K2], (K _ _ E2) as [K3 K4].
      destruct (IH o' o2' B2) as [I1 I2]; try congruence. rewrite I1. cbn [map]. now rewrite I2.
    + assert (E2 : load_program cf text o2 = None).
      { destruct (load_program cf text o2) as [[r o2']|] eqn:E2; [|reflexivity].
        destruct (program_beside _ _ _ _ _ _ (beside_sym _ _ B) E2) as (? & E3 & _). congruence. }
      rewrite E2. now split.
  - destruct (load_query cf text o) as [[r o']|] eqn:E.
    + destruct (query_beside _ _ _ _ _ _ B E) as (o2' & E2 & B2 & Eo). rewrite E2. cbn [load_out].
      assert (K : r <> LOk -> forall x y, load_query cf text x = Some (r, y) -> o_queue y = [] /\ o_stats y = 0%Z).
      { intros Hr x y F. unfold load_query in F. destruct (parse_query (append_dot text)) as [[cl|e|]|]; try discriminate F.
        - destruct (compile_query cf cl (o_sto x)) as [[p|e|] s]; injection F as <- <-; [contradiction| |]; auto.
        - injection F as _ <-; auto.
        - injection F as _ <-; auto. }
      assert (D : r = LOk \/ r <> LOk) by (destruct r; auto; right; discriminate). destruct D as [D|D].
      * rewrite (Eo D). now split.
      * destruct (K D _ _ E) as [K1 K2], (K D _ _ E2) as [K3 K4].
        destruct (IH o' o2' B2) as [I1 I2]; try congruence. rewrite I1. cbn [map]. now rewrite I2.
    + assert (E2 : load_query cf text o2 = None).
      { destruct (load_query cf text o2) as [[r o2']|] eqn:E2; [|reflexivity].
        destruct (query_beside _ _ _ _ _ _ (beside_sym _ _ B) E2) as (? & E3 & _). congruence. }
      rewrite E2. now split.
  - unfold get_answer. destruct n as [|n]; cbn [answer_loop bind]; [now split|]. rewrite Q1, Q2. cbn [bind].
    destruct (IH o o2 B Q1 Q2 St) as [I1 I2]. rewrite I1, St, <- E0, I2. now split.
  - destruct (IH (set_time_limit t o) (set_time_limit t o2)) as [I1 I2]; auto.
    + destruct B as (B1 & B2 & B3 & B4 & B5 & B6 & B7). unfold beside. cbn. csplit; auto.
    + rewrite I1. cbn [map]. now rewrite I2.
Qed.
Lemma query_same cf text cs o o2 : beside o o2 ->
  play cf (CallQuery text :: cs) o = play cf (CallQuery text :: cs) o2 /\
  map o_sto (states cf (CallQuery text :: cs) o) = map o_sto (states cf (CallQuery text :: cs) o2).
Proof.
  intros B. assert (E0 : o_sto o = o_sto o2) by (symmetry; apply B). cbn [play states map perform]. rewrite E0.
  destruct (load_query cf text o) as [[r o']|] eqn:E.
  - destruct (query_beside _ _ _ _ _ _ B E) as (o2' & E2 & B2 & Eo). rewrite E2. cbn [load_out].
    assert (K : r <> LOk -> forall x y, load_query cf text x = Some (r, y) -> o_queue y = [] /\ o_stats y = 0%Z).
    { intros Hr x y F. unfold load_query in F. destruct (parse_query (append_dot text)) as [[cl|e|]|]; try discriminate F.
      - destruct (compile_query cf cl (o_sto x)) as [[p|e|] s]; injection F as <- <-; [contradiction| |]; auto.
      - injection F as _ <-; auto.
      - injection F as _ <-; auto. }
    assert (D : r = LOk \/ r <> LOk) by (destruct r; auto; right; discriminate). destruct D as [D|D].
    + rewrite (Eo D). now split.
    + destruct (K D _ _ E) as [K1 K2], (K D _ _ E2) as [K3 K4].
      destruct (idle_same cf cs o' o2' B2) as [I1 I2]; try congruence. rewrite I1, I2. now split.
  - assert (E2 : load_query cf text o2 = None).
    { destruct (load_query cf text o2) as [[r o2']|] eqn:E2; [|reflexivity].
      destruct (query_beside _ _ _ _ _ _ (beside_sym _ _ B) E2) as (? & E3 & _). congruence. }
    rewrite E2. now split.
Qed.
Lemma Forall_sto (Q : storage -> Prop) l k : map o_sto l = map o_sto k -> Forall (fun x => Q (o_sto x)) l -> Forall (fun x => Q (o_sto x)) k.
Proof. intros E H. apply (proj1 (Forall_map o_sto Q k)). rewrite <- E. now apply Forall_map. Qed.

Theorem history_exact cf1 cf2 o1 o2 P s1 s2 text cs : ord_ok cf1 -> ord_ok cf2 -> (forall a b, c_powf cf1 a b = c_powf cf2 a b) ->
  history cf1 o1 P s1 -> history cf2 o2 P s2 -> o_limit o1 = o_limit o2 ->
  (forall c n, In c P -> In n (tl c) -> no_is n) -> Forall (text_goals no_is) (CallQuery text :: cs) ->
  Forall (fun x => short_tables (o_sto x)) (states cf1 (CallQuery text :: cs) o1) ->
  Forall (fun x => short_tables (o_sto x)) (states cf2 (CallQuery text :: cs) o2) ->
  play cf1 (CallQuery text :: cs) o1 = play cf2 (CallQuery text :: cs) o2.
Proof.
  intros O1 O2 PW H1 H2 Li QP Q L1 L2.
  destruct (history_beside _ _ _ _ H1) as [_ (p1 & t1 & S1 & B1)]. destruct (history_beside _ _ _ _ H2) as [_ (p2 & t2 & S2 & B2)].
  destruct (query_same cf1 text cs _ _ B1) as [E1 F1]. destruct (query_same cf2 text cs _ _ B2) as [E2 F2]. rewrite E1, E2.
  apply (fresh_exact cf1 cf2 p1 p2 P t1 t2 text cs); auto.
  - destruct B1 as [B1 _], B2 as [B2 _]. congruence.
  - exact (Forall_sto _ _ _ F1 L1).
  - exact (Forall_sto _ _ _ F2 L2).
Qed.
Theorem history_alike cf1 cf2 o1 o2 P s1 s2 text cs : ord_ok cf1 -> ord_ok cf2 -> (forall a b, c_powf cf1 a b = c_powf cf2 a b) ->
  history cf1 o1 P s1 -> history cf2 o2 P s2 -> o_limit o1 = o_limit o2 ->
  Forall (fun x => short_tables (o_sto x)) (states cf1 (CallQuery text :: cs) o1) ->
  Forall (fun x => short_tables (o_sto x)) (states cf2 (CallQuery text :: cs) o2) ->
  alike (play cf1 (CallQuery text :: cs) o1) (play cf2 (CallQuery text :: cs) o2).
Proof.
  intros O1 O2 PW H1 H2 Li L1 L2.
  destruct (history_beside _ _ _ _ H1) as [_ (p1 & t1 & S1 & B1)]. destruct (history_beside _ _ _ _ H2) as [_ (p2 & t2 & S2 & B2)].
  destruct (query_same cf1 text cs _ _ B1) as [E1 F1]. destruct (query_same cf2 text cs _ _ B2) as [E2 F2]. rewrite E1, E2.
  apply (fresh_alike cf1 cf2 p1 p2 P t1 t2 text cs); auto.
  - destruct B1 as [B1 _], B2 as [B2 _]. congruence.
  - exact (Forall_sto _ _ _ F1 L1).
  - exact (Forall_sto _ _ _ F2 L2).
Qed.

(** --- cases --- *)
(** a clock that passes the limit after [k] turns *)
Definition w_turns (k : nat) : world := {| w_time := fun i => if Nat.ltb i k then 0%Z else 1000000000%Z; w_oom := fun _ => false |}.
Definition mixed_old : string := "q(a). q(b). p(a).".
Definition mixed_new : string := "p(b).".
(** The program is replaced when only goals of the query wait: the answer X = b of q(X), p(X) follows from neither program. *)
Definition mixed_calls : list call := [CallProgram mixed_old; CallQuery "q(X), p(X)"; CallAnswer 100 100 (w_turns 3); CallProgram mixed_new; ask1].
Definition mixed_P : list (list node) := [[NFun "q" [NCon "a"]]; [NFun "q" [NCon "b"]]; [NFun "p" [NCon "a"]]].
Definition mixed_P' : list (list node) := [[NFun "p" [NCon "b"]]].
Lemma mixed_case : exists o0, new_org cfg0 = Val o0 /\
  play cfg0 mixed_calls o0 =
    [Val (ReplyLoad LOk); Val (ReplyLoad LOk); Val (ReplyAnswer ROutOfTime 1); Val (ReplyLoad LOk); Val (ReplyAnswer (RAnswer [("X", "b")]) 3)] /\
  parse_program mixed_old = Some (COk mixed_P) /\ parse_program mixed_new = Some (COk mixed_P') /\
  parse_query (append_dot "q(X), p(X)") = Some (COk [NFun "q" [NVar "X"]; NFun "p" [NVar "X"]]) /\
  forall v P, P = mixed_P \/ P = mixed_P' -> v "X" = GCon "b" ->
    ~ forall a, In a [NFun "q" [NVar "X"]; NFun "p" [NVar "X"]] -> prov (pow_of cfg0) (P ++ append_prog) (inst v a).
Proof.
  assert (H : match new_org cfg0 with Val o => play cfg0 mixed_calls o | _ => [] end =
    [Val (ReplyLoad LOk); Val (ReplyLoad LOk); Val (ReplyAnswer ROutOfTime 1); Val (ReplyLoad LOk); Val (ReplyAnswer (RAnswer [("X", "b")]) 3)])
    by (vm_compute; reflexivity).
  destruct (new_org cfg0) as [o| |]; try discriminate H. exists o. split; [reflexivity|]. split; [exact H|]. clear H.
  split; [vm_compute; reflexivity|]. split; [vm_compute; reflexivity|]. split; [vm_compute; reflexivity|].
  intros v P [-> | ->] Hv A.
  - specialize (A (NFun "p" [NVar "X"]) ltac:(right; now left)). cbn [inst map] in A. rewrite Hv in A.
    inversion A as [h b w Hi Hb E| | |]. cbn in Hi. repeat (destruct Hi as [Hi|Hi]; [injection Hi as <- <-; discriminate E|]). contradiction.
  - specialize (A (NFun "q" [NVar "X"]) ltac:(now left)). cbn [inst map] in A. rewrite Hv in A.
    inversion A as [h b w Hi Hb E| | |]. cbn in Hi. repeat (destruct Hi as [Hi|Hi]; [injection Hi as <- <-; discriminate E|]). contradiction.
Qed.

(** a waiting goal of the query before one of the old program *)
Definition stuck_old : string := "q(a). q(X) :- p(X). p(a).".
Definition works_b (o : org) (id : nat) : bool :=
  match nth_error (o_arena o) id with
  | Some e => match x_codes e with p :: _ => match cp_src p with SrcProg => true | SrcQuery => false end | [] => false end
  | None => false
  end.
Lemma works_b_ok o id : works_b o id = true -> works_in o SrcProg id.
Proof.
  unfold works_b. intros H. destruct (nth_error (o_arena o) id) as [e|] eqn:Ee; [|discriminate]. destruct (x_codes e) as [|p ps] eqn:Ec; [discriminate|].
  exists e, p, ps. csplit; auto. destruct (cp_src p); [|]; congruence.
Qed.
Lemma works_b_not o id e p ps : works_b o id = false -> nth_error (o_arena o) id = Some e -> x_codes e = p :: ps -> cp_src p = SrcQuery.
Proof. unfold works_b. intros H E1 E2. rewrite E1, E2 in H. destruct (cp_src p); [|]; congruence. Qed.
Lemma stuck_case : exists o P q o1 o2 i id, session cfg0 o P (QFresh q) /\ get_answer cfg0 100 100 (w_turns 3) o = Val (ROutOfTime, o1) /\
  session cfg0 o1 P (QStarted q) /\ load_program cfg0 "p(b)." o1 = Some (LOk, o2) /\ o_queue o1 = [i; id] /\ ~ works_in o1 SrcProg i /\ works_in o1 SrcProg id /\
  get_answer cfg0 100 100 w0 o2 = Ub UDangling /\
  exists o3, get_answer cfg0 100 100 (w_turns 1) o2 = Val (ROutOfTime, o3) /\ run cfg0 o2 [(ROutOfTime, o_stats o3)] o3 /\ o_stats o3 <> o_stats o2.
Proof.
  destruct (loaded_witness stuck_old "q(X), p(X)" (fun o P q =>
    match get_answer cfg0 100 100 (w_turns 3) o with
    | Val (ROutOfTime, o1) =>
        match load_program cfg0 "p(b)." o1, o_queue o1 with
        | Some (LOk, o2), [i; id] => negb (works_b o1 i) && works_b o1 id &&
            match get_answer cfg0 100 100 w0 o2 with Ub UDangling => true | _ => false end &&
            match get_answer cfg0 100 100 (w_turns 1) o2 with Val (ROutOfTime, o3) => negb (o_stats o3 =? o_stats o2)%Z | _ => false end
        | _, _ => false
        end
    | _ => false
    end)) as (o & P & q & S & Ep & Eq & K); [vm_compute; reflexivity|].
  destruct (get_answer cfg0 100 100 (w_turns 3) o) as [[[|b|e| |] o1]| |] eqn:G; try discriminate K.
  destruct (load_program cfg0 "p(b)." o1) as [[[|e|] o2]|] eqn:L; try discriminate K.
  destruct (o_queue o1) as [|i [|id [|]]] eqn:Q; try discriminate K. rewrite !andb_true_iff in K. destruct K as [[[K1 K2] K3] K4].
  destruct (get_answer cfg0 100 100 w0 o2) as [|u|] eqn:G2; try discriminate K3. destruct u; try discriminate K3.
  destruct (get_answer cfg0 100 100 (w_turns 1) o2) as [[[|b|e| |] o3]| |] eqn:G3; try discriminate K4.
  exists o, P, q, o1, o2, i, id. csplit; auto using works_b_ok.
  - change (QStarted q) with (q_run (QFresh q)). eapply ss_answer; [exact S|intros H; discriminate H|exact G|intros H; discriminate H].
  - intros (e & p & ps & H1 & H2 & H3). apply negb_true_iff in K1. rewrite (works_b_not _ _ _ _ _ K1 H1 H2) in H3. discriminate H3.
  - exists o3. csplit; auto.
    + exact (run_answer cfg0 o2 [] o2 100 100 (w_turns 1) ROutOfTime o3 (run_nil cfg0 o2) G3 ltac:(discriminate)).
    + apply negb_true_iff, Z.eqb_neq in K4. exact K4.
Qed.

(** a history with get_answer after the program has been replaced *)
Lemma history_case : exists o1 o2 P s1 s2 cs, history cfg0 o1 P s1 /\ history rev0 o2 P s2 /\ s1 = QStale /\ o_limit o1 = o_limit o2 /\
  (forall c n, In c P -> In n (tl c) -> no_is n) /\ Forall (text_goals no_is) (CallQuery "p(X)" :: cs) /\
  Forall (fun x => short_tables (o_sto x)) (states cfg0 (CallQuery "p(X)" :: cs) o1) /\
  Forall (fun x => short_tables (o_sto x)) (states rev0 (CallQuery "p(X)" :: cs) o2) /\
  play cfg0 (CallQuery "p(X)" :: cs) o1 = [Val (ReplyLoad LOk); Val (ReplyAnswer (RAnswer [("X", "b")]) 1); Val (ReplyAnswer RFalse 1)].
Proof.
  eexists. eexists. eexists. eexists. eexists. exists [ask1; ask1].
  split.
  { eapply hi_answer with (fuel := 100) (n := 100) (w := w0); [eapply hi_program with (text := mixed_new);
      [eapply hi_answer with (fuel := 100) (n := 100) (w := w_turns 3); [eapply hi_query with (text := "q(X), p(X)");
        [eapply hi_program with (text := mixed_old); [eapply hi_new; vm_compute; reflexivity|vm_compute; reflexivity|vm_compute; reflexivity]
        |vm_compute; reflexivity|vm_compute; reflexivity]|vm_compute; reflexivity|discriminate]
      |vm_compute; reflexivity|vm_compute; reflexivity]|vm_compute; reflexivity|discriminate]. }
  split; [eapply hi_program with (text := mixed_new); [eapply hi_new; vm_compute; reflexivity|vm_compute; reflexivity|vm_compute; reflexivity]|].
  split; [reflexivity|]. split; [reflexivity|]. split; [apply calm_prog_ok; vm_compute; reflexivity|]. split; [still|]. split; [short|]. split; [short|].
  vm_compute. reflexivity.
Qed.
