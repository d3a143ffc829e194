(** Replacing the program while a query is loaded (C31): when the next get_answer reads freed memory and when it is safe. *)
From Verif Require Import Base Machine Heap Facts Compiler Parser Organizer Spec Print Valuation HeapSim Process Refine Mono Turn Shape Session Code Put Search PutRun Get Alloc Atoms Clause Stack Ready Heads Builtins Sols Solve Terms Shown Parsed Tables Root Order Cells Runs Answers Complete Total Flat Safe.
Open Scope string_scope.
Open Scope list_scope.

(** Where the goal that get_answer would work on next is stored: in the query or in the program. *)
Definition next_code (o : org) : option csrc :=
  match o_queue o with
  | [] => None
  | id :: _ =>
      match nth_error (o_arena o) id with
      | Some e => match x_codes e with p :: _ => Some (cp_src p) | [] => None end
      | None => None
      end
  end.

Lemma load_program_parts cf text o o' : load_program cf text o = Some (LOk, o') ->
  o_arena o' = o_arena o /\ o_queue o' = o_queue o /\ o_pgen o' = S (o_pgen o) /\ o_qgen o' = o_qgen o /\ o_limit o' = o_limit o.
Proof.
  unfold load_program. destruct (parse_program text) as [[cs|e|]|]; try discriminate.
  destruct (compile_program cf cs (o_sto o)) as [[p|e|] s]; intros E; inversion E; subst o'. cbn. auto.
Qed.

Lemma queue_code cf o P q : session cf o P (QStarted q) -> forall c, next_code o = Some c ->
  exists id l e p ps a, o_queue o = id :: l /\ nth_error (o_arena o) id = Some e /\ x_codes e = p :: ps /\ cp_src p = c /\ follow o p = Val a.
Proof.
  intros HS c Hn. destruct (session_inv _ _ _ _ HS) as [A (r & T & Q & g & Q1 & Q2 & Q3 & _)].
  pose proof (rf_queue _ _ _ Q2) as F. unfold next_code in Hn. destruct (o_queue o) as [|id l]; [discriminate|].
  inversion F as [|? pr ? ? (e & He & _ & _ & Hc & _) _]; subst. rewrite He in Hn.
  destruct (x_codes e) as [|p ps] eqn:Ec; [discriminate|]. injection Hn as Hn.
  inversion Hc as [|? a ? ? Hp _]; subst. exists id, l, e, p, ps, a. auto.
Qed.

Theorem reload_dangles cf o P q text o' fuel n w : session cf o P (QStarted q) -> load_program cf text o = Some (LOk, o') ->
  next_code o = Some SrcProg -> (w_time w 0 <= o_limit o)%Z -> w_oom w 0 = false ->
  get_answer cf fuel (S n) w o' = Ub UDangling.
Proof.
  intros HS HL HN Ht Ho. destruct (queue_code _ _ _ _ HS _ HN) as (id & l & e & p & ps & a & Eq & He & Ec & Ep & Ef).
  destruct (load_program_parts _ _ _ _ HL) as (L1 & L2 & L3 & L4 & L5).
  unfold get_answer. cbn [answer_loop]. rewrite L2, Eq, L5, Ho.
  replace (o_limit o <? w_time w 0)%Z with false by (symmetry; apply Z.ltb_ge; lia).
  unfold turn. rewrite L2, Eq. unfold get_exec. cbn [set_queue o_arena]. rewrite L1, He. cbn [of_opt bind]. rewrite Ec.
  replace (follow (set_queue o' l) p) with (@Ub catom UDangling); [reflexivity|].
  unfold follow in Ef |- *. cbn [set_queue o_pgen o_qgen]. rewrite Ep in *. rewrite L3.
  destruct (Nat.eqb_spec (cp_gen p) (o_pgen o)); [|discriminate]. destruct (Nat.eqb_spec (cp_gen p) (S (o_pgen o))); [lia|reflexivity].
Qed.

Theorem reload_exhausted cf o text o' fuel n w : load_program cf text o = Some (LOk, o') -> o_queue o = [] ->
  get_answer cf fuel (S n) w o' = Val (RFalse, o').
Proof.
  intros HL Eq. destruct (load_program_parts _ _ _ _ HL) as (_ & L2 & _). unfold get_answer. cbn [answer_loop]. now rewrite L2, Eq.
Qed.

(** Before the first answer, and once a query has been loaded again, the new program is used safely. *)
Theorem reload_safe cf o P s text cs o' : ord_ok cf -> session cf o P s -> (forall q, s <> QStarted q) -> s <> QStale ->
  parse_program text = Some (COk cs) -> load_program cf text o = Some (LOk, o') ->
  small_tables (o_sto o') -> (Z.of_nat (List.length (s_vars (o_sto o'))) <= 32768)%Z -> no_clash cf cs -> all_goals no_is cs (qgoals s) ->
  session cf o' cs s /\ forall fuel n w, no_ub (get_answer cf fuel n w o').
Proof.
  intros OK HS N1 N2 Hp HL SM SV NC NI. pose proof (ss_program _ _ _ _ _ _ _ HS Hp HL) as HS'.
  destruct s as [|q|q|]; [| |now elim (N1 q)|contradiction]; cbn [q_reload] in HS'; (split; [assumption|]);
    intros; eapply session_no_ub; eauto; discriminate.
Qed.
Theorem reload_query cf o P s text cs o' qt q o'' : ord_ok cf -> session cf o P s ->
  parse_program text = Some (COk cs) -> load_program cf text o = Some (LOk, o') ->
  parse_query (append_dot qt) = Some (COk q) -> load_query cf qt o' = Some (LOk, o'') ->
  small_tables (o_sto o'') -> (Z.of_nat (List.length (s_vars (o_sto o''))) <= 32768)%Z -> no_clash cf cs -> all_goals no_is cs q ->
  session cf o'' cs (QFresh q) /\ forall fuel n w, no_ub (get_answer cf fuel n w o'').
Proof.
  intros OK HS Hp HL Hq HQ SM SV NC NI. pose proof (ss_program _ _ _ _ _ _ _ HS Hp HL) as HS'.
  pose proof (ss_query _ _ _ _ _ _ _ HS' Hq HQ) as HS''. split; [assumption|].
  intros. eapply session_no_ub; eauto. discriminate.
Qed.
