(** Histories of calls in lock step. *)
From Coq Require Import Permutation.
From Verif Require Import Base Machine Heap Compiler Parser Print Organizer Session Atoms Sim Lock LockComp.
Open Scope string_scope.
Open Scope list_scope.

(** --- calls of the public interface and what comes back --- *)
Inductive call :=
| CallProgram (text : string)
| CallQuery (text : string)
| CallAnswer (fuel n : nat) (w : world)
| CallLimit (t : Z).
Inductive reply :=
| ReplyLoad (r : load_res)
| ReplyAnswer (r : res) (stats : Z)
| ReplyLimit.
Definition load_out (x : option (load_res * org)) : out (reply * org) :=
  match x with Some (r, o) => Val (ReplyLoad r, o) | None => Fuel end.
Definition perform (cf : cfg) (c : call) (o : org) : out (reply * org) :=
  match c with
  | CallProgram text => load_out (load_program cf text o)
  | CallQuery text => load_out (load_query cf text o)
  | CallAnswer fuel n w => '(r, o') <- get_answer cf fuel n w o ;; Val (ReplyAnswer r (o_stats o'), o')
  | CallLimit t => Val (ReplyLimit, set_time_limit t o)
  end.
(** all replies; nothing comes after undefined behaviour or a call that does not return *)
Fixpoint play (cf : cfg) (cs : list call) (o : org) : list (out reply) :=
  match cs with
  | [] => []
  | c :: cs' => match perform cf c o with
                | Val (r, o') => Val r :: play cf cs' o'
                | Ub u => [Ub u]
                | Fuel => [Fuel]
                end
  end.
(** the states in between *)
Fixpoint states (cf : cfg) (cs : list call) (o : org) : list org :=
  o :: match cs with
       | [] => []
       | c :: cs' => match perform cf c o with Val (_, o') => states cf cs' o' | _ => [] end
       end.

(** --- more symbols --- *)
Record kmono (K K' : params) : Prop := {
  km_F : forall i j, pr_F K i j -> pr_F K' i j;
  km_V : forall i j, pr_V K i j -> pr_V K' i j;
  km_lax : pr_lax K -> pr_lax K';
  km_isok : pr_isok K <-> pr_isok K';
  km_sh : forall s, pr_sh K s = pr_sh K' s }.
Section Mono.
Variable K K' : params.
Hypothesis M : kmono K K'.
Lemma crel_up c d : crel K c d -> crel K' c d.
Proof. intros []; constructor; now apply M. Qed.
Lemma optrel_up {A B} (P Q : A -> B -> Prop) x y : (forall a b, P a b -> Q a b) -> optrel P x y -> optrel Q x y.
Proof. intros H []; constructor; auto. Qed.
Lemma env_up R e1 e2 : env_rel K R e1 e2 -> env_rel K' R e1 e2.
Proof. intros (A & B & C). split; [auto|]. split; [auto|]. intros. eapply optrel_up; [apply crel_up|auto]. Qed.
Lemma envs_up rs l1 l2 : envs_rel K rs l1 l2 -> envs_rel K' rs l1 l2.
Proof. induction 1; constructor; auto using env_up. Qed.
Lemma irel_up R i j : irel K R i j -> irel K' R i j.
Proof. intros []; constructor; auto; try (now apply M); now apply crel_up. Qed.
Lemma lastrel_up i j : lastrel K i j -> lastrel K' i j.
Proof. intros [f [H|H]|]; constructor; [left; now apply M|now right]. Qed.
Lemma code_up R c1 c2 : code_rel K R c1 c2 -> code_rel K' R c1 c2.
Proof.
  intros (d1 & d2 & i1 & i2 & A & B & C & D). exists d1, d2, i1, i2. split; [auto|]. split; [auto|]. split; [|now apply lastrel_up].
  eapply Forall2_imp; [apply irel_up|exact C].
Qed.
Lemma plain_up R a1 a2 : plain_rel K R a1 a2 -> plain_rel K' R a1 a2.
Proof. intros [A B]. split; auto using code_up. Qed.
Lemma alloc_up R a1 a2 : alloc_rel K R a1 a2 -> alloc_rel K' R a1 a2.
Proof. intros [A (n & c1 & c2 & B & C & D & E)]. split; auto. exists n, c1, c2. auto using code_up. Qed.
Lemma codes_up {T} (same same' : T -> T -> Prop) atom rs l1 l2 rs' : (forall a b, same a b -> same' a b) ->
  codes_rel K same atom rs l1 l2 rs' -> codes_rel K' same' atom rs l1 l2 rs'.
Proof. intros S. induction 1; [constructor|eapply co_plain|eapply co_alloc|eapply co_end]; eauto using plain_up, alloc_up. Qed.
Lemma rule_up r1 r2 : rule_rel K r1 r2 -> rule_rel K' r1 r2.
Proof. intros H rs. eapply codes_up; [|apply H]. auto. Qed.
Lemma rules_up r1 r2 : rules_rel K r1 r2 -> rules_rel K' r1 r2.
Proof. apply Forall2_imp, rule_up. Qed.
Lemma prog_up p1 p2 : prog_rel K p1 p2 -> prog_rel K' p1 p2.
Proof. intros H f Hf. eapply optrel_up; [apply rules_up|]. apply H. destruct Hf as [Hf|]; [left; now apply M|now right]. Qed.
Lemma pstruct_up p1 p2 : pstruct K p1 p2 -> pstruct K' p1 p2.
Proof.
  apply Forall2_imp. intros a b [E H]. split; [exact E|]. intros Hf. apply rules_up, H. destruct Hf as [Hf|]; [left; now apply M|now right].
Qed.
Lemma lrel_up h1 h2 : lrel K h1 h2 -> lrel K' h1 h2.
Proof.
  intros []. constructor; auto; (eapply Forall2_imp; [|eassumption]); intros; auto using crel_up. destruct H. auto using crel_up.
Qed.
Lemma ptr_up p1 p2 : ptr_same K p1 p2 -> ptr_same K' p1 p2.
Proof. intros [A B]. split; [auto|]. now rewrite <- (km_sh _ _ M). Qed.
Lemma errel_up (P Q : Prop) e1 e2 : (P -> Q) -> errel P e1 e2 -> errel Q e1 e2.
Proof. intros H [E|[L E]]; [now left|right; auto]. Qed.
Lemma xm_up rs e1 e2 : xm K rs e1 e2 -> xm K' rs e1 e2.
Proof.
  intros [A B C D]. constructor; auto.
  - unfold srel in *. destruct (x_state e1), (x_state e2); auto. eapply errel_up; [apply (km_lax _ _ M)|exact C].
  - destruct D. constructor; auto; [now apply lrel_up|eapply Forall2_imp; [apply crel_up|assumption]|now apply envs_up].
Qed.
Lemma xrel_up e1 e2 : xrel K e1 e2 -> xrel K' e1 e2.
Proof.
  intros (rs & A & B). exists rs. split; [now apply xm_up|]. destruct (running e1).
  - destruct B as (rs' & B). exists rs'. eapply codes_up; [apply ptr_up|exact B].
  - eapply Forall2_imp; [|exact B]. intros a b [C D]. split; auto using ptr_up.
Qed.
End Mono.

(** --- the lock step --- *)
Section Hist.
Variable cf1 cf2 : cfg.
Hypothesis O1 : ord_ok cf1.
Hypothesis O2 : ord_ok cf2.
Hypothesis POW : forall a b, c_powf cf1 a b = c_powf cf2 a b.
(** the relation between symbols, depending on the tables *)
Variable KF : storage -> storage -> params.
Variable good : storage -> storage -> Prop.
Variable lim : storage -> Prop.
Variable lax isok : Prop.
Hypothesis KF_ok : forall s1 s2, good s1 s2 -> tables_ok (KF s1 s2) s1 s2.
Hypothesis KF_mono : forall s1 s2 s1' s2', sto_ext s1 s1' -> sto_ext s2 s2' -> kmono (KF s1 s2) (KF s1' s2').
Hypothesis KF_sim : forall s1 s2, lim s1 -> lim s2 -> tables_sim (KF s1 s2) good (fun s => sto_ext s s1) (fun s => sto_ext s s2).
Hypothesis KF_empty : forall s1 s2, good s1 s2 -> good empty_storage empty_storage /\ forall s, pr_sh (KF s1 s2) s = pr_sh (KF empty_storage empty_storage) s.
Hypothesis KF_lax : forall s1 s2, pr_lax (KF s1 s2) = lax.
Hypothesis KF_isok : forall s1 s2, pr_isok (KF s1 s2) = isok.
Notation K_of o1 o2 := (KF (o_sto o1) (o_sto o2)).

Record hrel (o1 o2 : org) : Prop := {
  hr_good : good (o_sto o1) (o_sto o2);
  hr_common : common (K_of o1 o2) o1 o2;
  hr_built : pstruct (K_of o1 o2) (o_built o1) (o_built o2);
  hr_run : o_queue o1 = [] \/ full (K_of o1 o2) o1 o2 }.

Definition goals_quiet (ns : list node) : Prop := forall n, In n ns -> isok \/ to_fview n <> FV "is" 2.
Definition quiet (c : call) : Prop :=
  match c with
  | CallProgram text => forall cs cl, parse_program text = Some (COk cs) -> In cl cs -> goals_quiet (tl cl)
  | CallQuery text => forall q, parse_query (append_dot text) = Some (COk q) -> goals_quiet q
  | _ => True
  end.
Definition reply_rel (r1 r2 : reply) : Prop :=
  match r1, r2 with
  | ReplyAnswer (RError e) n, ReplyAnswer (RError f) m => errel lax e f /\ n = m
  | _, _ => r1 = r2
  end.
Definition step_rel (x y : reply * org) : Prop := reply_rel (fst x) (fst y) /\ hrel (snd x) (snd y).

(** new tables *)
Lemma common_up o1 o2 x1 x2 s1 s2 : good s1 s2 -> sto_ext (o_sto o1) s1 -> sto_ext (o_sto o2) s2 -> hrel o1 o2 ->
  o_sto x1 = s1 -> o_sto x2 = s2 -> o_queue x1 = o_queue x2 -> o_stats x1 = o_stats x2 -> o_limit x1 = o_limit x2 ->
  Z.of_nat (o_pgen x2) = (Z.of_nat (o_pgen x1) + pr_sh (K_of o1 o2) SrcProg)%Z ->
  Z.of_nat (o_qgen x2) = (Z.of_nat (o_qgen x1) + pr_sh (K_of o1 o2) SrcQuery)%Z ->
  prog_rel (KF s1 s2) (o_prog x1) (o_prog x2) -> common (KF s1 s2) x1 x2.
Proof.
  intros G X1 X2 H E1 E2 Q St L Pg Qg Pr. pose proof (KF_mono _ _ _ _ X1 X2) as M. constructor; auto.
  - now rewrite <- (km_sh _ _ M).
  - now rewrite <- (km_sh _ _ M).
  - subst. now apply KF_ok.
Qed.
Lemma full_arena o1 o2 x1 x2 s1 s2 : sto_ext (o_sto o1) s1 -> sto_ext (o_sto o2) s2 -> full (K_of o1 o2) o1 o2 -> common (KF s1 s2) x1 x2 ->
  o_arena x1 = o_arena o1 -> o_arena x2 = o_arena o2 -> o_queue x1 = o_queue o1 -> full (KF s1 s2) x1 x2.
Proof.
  intros X1 X2 (_ & Q & P & A) C A1 A2 Qe. pose proof (KF_mono _ _ _ _ X1 X2) as M. split; [exact C|]. split; [|split].
  - destruct Q as [N I]. split; rewrite Qe; [exact N|]. rewrite A1. exact I.
  - intros j e p. rewrite A1. apply P.
  - rewrite A1, A2. eapply Forall2_imp; [apply (xrel_up _ _ M)|exact A].
Qed.

Lemma program_step text o1 o2 : quiet (CallProgram text) -> hrel o1 o2 ->
  (forall r o, load_program cf1 text o1 = Some (r, o) -> lim (o_sto o)) -> (forall r o, load_program cf2 text o2 = Some (r, o) -> lim (o_sto o)) ->
  orel lax step_rel (load_out (load_program cf1 text o1)) (load_out (load_program cf2 text o2)).
Proof.
  intros Qu H L1 L2. unfold load_program in *. cbn [quiet] in Qu. destruct (parse_program text) as [[cs|e|]|] eqn:Ep; [|constructor; split; [reflexivity|exact H]|constructor; split; [reflexivity|exact H]|constructor].
  unfold compile_program in *. pose proof (compile_clauses_ext cf1 false cs [] (o_sto o1)) as X1. pose proof (compile_clauses_ext cf2 false cs [] (o_sto o2)) as X2.
  assert (lim (snd (compile_clauses cf1 false cs [] (o_sto o1)))) as M1 by (destruct (compile_clauses cf1 false cs [] (o_sto o1)) as [[]]; apply (L1 _ _ eq_refl)).
  assert (lim (snd (compile_clauses cf2 false cs [] (o_sto o2)))) as M2 by (destruct (compile_clauses cf2 false cs [] (o_sto o2)) as [[]]; apply (L2 _ _ eq_refl)).
  set (s1 := snd (compile_clauses cf1 false cs [] (o_sto o1))) in *. set (s2 := snd (compile_clauses cf2 false cs [] (o_sto o2))) in *.
  assert (Qc : clauses_quiet (KF s1 s2) cs) by (intros c n Hc Hn; rewrite KF_isok; eapply Qu; eauto).
  destruct (compile_clauses_sim (KF s1 s2) good _ _ (KF_sim _ _ M1 M2) cf1 cf2 O1 O2 false cs Qc [] [] ltac:(constructor) (o_sto o1) (o_sto o2) (hr_good _ _ H) (sto_ext_refl _) (sto_ext_refl _)) as [G R].
  fold s1 s2 in G. pose proof (KF_mono _ _ _ _ X1 X2) as M. destruct H as [G0 C B Rn].
  assert (Er : hrel (set_sto o1 s1) (set_sto o2 s2)).
  { assert (C' : common (KF s1 s2) (set_sto o1 s1) (set_sto o2 s2)).
    { eapply (common_up o1 o2); eauto; try apply C; [constructor; auto|]. cbn. eapply prog_up; [exact M|apply C]. }
    constructor; cbn; [exact G|exact C'|eapply pstruct_up; [exact M|exact B]|]. destruct Rn as [E|Fu]; [now left|right]. eapply full_arena; eauto. }
  destruct (compile_clauses cf1 false cs [] (o_sto o1)) as [r1 t1], (compile_clauses cf2 false cs [] (o_sto o2)) as [r2 t2]. cbn [fst snd] in *. subst s1 s2.
  destruct R as [p1 p2 Rp|e|]; cbn [load_out]; constructor; (split; [reflexivity|]); [|exact Er|exact Er].
  cbn [snd].
  match goal with |- hrel ?x1 ?x2 => assert (C' : common (KF t1 t2) x1 x2) end.
  { pose proof (cm_pgen _ _ _ C). apply (common_up o1 o2); try apply C; auto; [constructor; auto|cbn [o_pgen]; lia|].
    cbn. apply merge_sim; [eapply pstruct_up; [exact M|exact B]|now apply pstruct_rel]. }
  constructor; cbn; [exact G|exact C'|eapply pstruct_up; [exact M|exact B]|]. destruct Rn as [E|Fu]; [now left|right]. eapply full_arena; eauto.
Qed.
Lemma query_step text o1 o2 : quiet (CallQuery text) -> hrel o1 o2 ->
  (forall r o, load_query cf1 text o1 = Some (r, o) -> lim (o_sto o)) -> (forall r o, load_query cf2 text o2 = Some (r, o) -> lim (o_sto o)) ->
  orel lax step_rel (load_out (load_query cf1 text o1)) (load_out (load_query cf2 text o2)).
Proof.
  intros Qu H L1 L2. unfold load_query in *. cbn [quiet] in Qu. destruct H as [G0 C B Rn].
  assert (E0 : hrel (set_stats (set_queue o1 []) 0) (set_stats (set_queue o2 []) 0)).
  { constructor; cbn; [exact G0| |exact B|now left]. destruct C. constructor; auto. }
  destruct (parse_query (append_dot text)) as [[q|e|]|] eqn:Ep; [|constructor; split; [reflexivity|exact E0]|constructor; split; [reflexivity|exact E0]|constructor].
  pose proof (compile_query_ext cf1 q (o_sto o1)) as X1. pose proof (compile_query_ext cf2 q (o_sto o2)) as X2.
  assert (lim (snd (compile_query cf1 q (o_sto o1)))) as M1 by (destruct (compile_query cf1 q (o_sto o1)) as [[]]; apply (L1 _ _ eq_refl)).
  assert (lim (snd (compile_query cf2 q (o_sto o2)))) as M2 by (destruct (compile_query cf2 q (o_sto o2)) as [[]]; apply (L2 _ _ eq_refl)).
  set (s1 := snd (compile_query cf1 q (o_sto o1))) in *. set (s2 := snd (compile_query cf2 q (o_sto o2))) in *.
  assert (Qc : forall n, In n q -> pr_isok (KF s1 s2) \/ to_fview n <> FV "is" 2) by (intros n Hn; rewrite KF_isok; eapply Qu; eauto).
  destruct (compile_query_sim (KF s1 s2) good _ _ (KF_sim _ _ M1 M2) cf1 cf2 O1 O2 q Qc (o_sto o1) (o_sto o2) G0 (sto_ext_refl _) (sto_ext_refl _)) as [G R].
  fold s1 s2 in G. pose proof (KF_mono _ _ _ _ X1 X2) as M.
  assert (H : hrel o1 o2) by (constructor; auto).
  assert (Er : hrel (set_sto (set_stats (set_queue o1 []) 0) s1) (set_sto (set_stats (set_queue o2 []) 0) s2)).
  { constructor; cbn; [exact G| |eapply pstruct_up; [exact M|exact B]|now left].
    eapply (common_up o1 o2); eauto; try apply C. cbn. eapply prog_up; [exact M|apply C]. }
  destruct (compile_query cf1 q (o_sto o1)) as [r1 t1], (compile_query cf2 q (o_sto o2)) as [r2 t2]. cbn [fst snd] in *. subst s1 s2.
  destruct R as [p1 p2 (rs & Rp)|e|]; cbn [load_out]; constructor; (split; [reflexivity|]); [|exact Er|exact Er].
  cbn [snd]. pose proof (cm_qgen _ _ _ C) as Qg.
  match goal with |- hrel ?x1 ?x2 => assert (C' : common (KF t1 t2) x1 x2) end.
  { apply (common_up o1 o2); try apply C; auto; [cbn [o_qgen]; lia|]. cbn. eapply prog_up; [exact M|apply C]. }
  constructor; cbn [o_sto o_built o_queue]; [exact G|exact C'|eapply pstruct_up; [exact M|exact B]|]. right.
  split; [exact C'|]. split; [|split].
  - split; cbn; [constructor; [intros []|constructor]|]. intros id [<-|[]]. exists (init_exec (S (o_qgen o1)) p1). auto.
  - intros j e p. cbn. destruct j as [|[|j]]; cbn; try discriminate. intros E. injection E as <-. discriminate.
  - cbn. constructor; [|constructor]. exists []. split.
    + constructor; cbn; auto. constructor; cbn; auto; [constructor; cbn; auto|constructor].
    + cbn. exists rs. apply codes_query; [exact Rp|]. rewrite <- (km_sh _ _ M). lia.
Qed.
Lemma stats_full K o1 o2 : full K o1 o2 -> o_stats o1 = o_stats o2.
Proof. intros [C _]. apply C. Qed.
(** a turn changes neither the tables nor the program nor the built-in predicates *)
Definition kept (o o' : org) : Prop := o_sto o' = o_sto o /\ o_built o' = o_built o /\ o_prog o' = o_prog o.
Lemma kept_trans o o1 o2 : kept o o1 -> kept o1 o2 -> kept o o2.
Proof. unfold kept. intuition congruence. Qed.
Lemma bind_inv {A B} (m : out A) (f : A -> out B) b : bind m f = Val b -> exists a, m = Val a /\ f a = Val b.
Proof. destruct m; cbn; try discriminate. eauto. Qed.
Ltac binv E := let a := fresh "v" in let E1 := fresh "Ev" in apply bind_inv in E; destruct E as (a & E1 & E).
Lemma put_kept o id e o' : put_exec o id e = Val o' -> kept o o'.
Proof. unfold put_exec. intros E. binv E. injection E as <-. repeat split. Qed.
Lemma add_kept o id c o' : add_child o id c = Val o' -> kept o o'.
Proof. unfold add_child. intros E. binv E. binv E. apply put_kept in Ev0. injection E as <-. exact Ev0. Qed.
Lemma spawn_kept rs : forall o id o', spawn o id rs = Val o' -> kept o o'.
Proof.
  induction rs as [|r rs IH]; intros o id o' E; cbn in E; [injection E as <-; repeat split|]. binv E. destruct (x_codes v); [discriminate E|]. binv E.
  eapply kept_trans; [eapply add_kept; eauto|eauto].
Qed.
Lemma call_kept o id f st o' : do_call o id f = Val (st, o') -> kept o o'.
Proof.
  unfold do_call. destruct (plookup f _); intros E.
  - binv E. binv E. binv E. binv E. injection E as _ <-. apply spawn_kept in Ev. apply put_kept in Ev2. eapply kept_trans; [exact Ev|exact Ev2].
  - binv E. binv E. injection E as _ <-. apply put_kept in Ev0. exact Ev0.
Qed.
Lemma proceed_kept o id st o' : do_proceed o id = Val (st, o') -> kept o o'.
Proof.
  unfold do_proceed. intros E. binv E. destruct (x_codes v); [discriminate E|]. binv E. destruct v0; binv E; binv E; injection E as _ <-.
  - eapply put_kept; eauto.
  - eapply kept_trans; [eapply put_kept; eauto|eapply add_kept; eauto].
Qed.
Lemma dealloc_kept o id st o' : do_dealloc o id = Val (st, o') -> kept o o'.
Proof.
  unfold do_dealloc. intros E. binv E. destruct (m_envs (x_m v)); [discriminate E|]. destruct (x_codes v); [discriminate E|]. binv E. injection E as _ <-. apply put_kept in Ev0. exact Ev0.
Qed.
Lemma step_kept cf fuel o id i st o' : instr_step cf fuel o id i = Val (st, o') -> kept o o'.
Proof.
  intros E. assert (L : forall j, (e <- get_exec o id ;; '(st, m) <- local_step lheap (lops (heap_at (o_arena o) (x_parent e))) cf (o_sto o) fuel j (x_m e) ;;
      match st with
      | Cont => o1 <- put_exec o id (with_m e m) ;; Val (RCont, o1)
      | Failing => o1 <- put_exec o id (with_state (with_m e m) SFail) ;; Val (RFailing, o1)
      | Raise er => o1 <- put_exec o id (with_state (with_m e m) (SError er)) ;; Val (RRaise er, o1)
      end) = Val (st, o') -> kept o o').
  { clear E. intros j E. binv E. binv E. destruct v0 as [[] m]; binv E; injection E as _ <-; eapply put_kept; eauto. }
  destruct i; try (exact (L _ E)); [eapply call_kept; eauto|eapply proceed_kept; eauto|eapply dealloc_kept; eauto].
Qed.
Lemma run_kept cf fuel is : forall o id st o', run_instrs cf fuel o id is = Val (st, o') -> kept o o'.
Proof.
  induction is as [|i is IH]; intros o id st o' E; cbn [run_instrs] in E; [injection E as _ <-; repeat split|]. binv E. destruct v as [s1 o1]. apply step_kept in Ev.
  eapply kept_trans; [exact Ev|]. destruct s1; [eauto| |]; binv E; binv E; binv E; injection E as _ <-; eapply put_kept; eauto.
Qed.
Lemma turn_kept cf fuel o r o' : turn cf fuel o = Val (r, o') -> kept o o' /\ r <> Some ROutOfMemory.
Proof.
  unfold turn. destruct (o_queue o) as [|id q]; intros E; [injection E as <- <-; split; [repeat split|discriminate]|]. binv E. destruct (x_codes v); [discriminate E|]. binv E. binv E. binv E. destruct v2 as [st o2].
  assert (Kp : kept o o2) by (apply put_kept in Ev1; apply run_kept in Ev2; eapply kept_trans; [exact Ev1|exact Ev2]).
  assert (D : forall a, a <> ROutOfMemory -> Val (Some a, o2) = Val (r, o') -> kept o o' /\ r <> Some ROutOfMemory) by (intros a Ha Ea; injection Ea as <- <-; split; [exact Kp|congruence]).
  assert (D' : Val (None, o2) = Val (r, o') -> kept o o' /\ r <> Some ROutOfMemory) by (intros Ea; injection Ea as <- <-; split; [exact Kp|discriminate]).
  destruct st; [| |apply D in E; [exact E|discriminate]]; binv E; destruct (x_state v2); try (exact (D' E)); binv E; (apply D in E; [exact E|discriminate]).
Qed.
Lemma answer_kept cf fuel n : forall k w o r o', answer_loop cf fuel n k w o = Val (r, o') ->
  (r <> ROutOfMemory /\ kept o o') \/ (r = ROutOfMemory /\ exists o1, o' = clear_memory o1).
Proof.
  induction n as [|n IH]; intros k w o r o' E; cbn [answer_loop] in E; [discriminate E|]. assert (Ko : kept o o) by (repeat split).
  destruct (o_queue o); [injection E as <- <-; left; split; [discriminate|exact Ko]|].
  destruct (_ <? _)%Z; [injection E as <- <-; left; split; [discriminate|exact Ko]|]. destruct (w_oom w k); [injection E as <- <-; right; split; [reflexivity|exists o; reflexivity]|].
  binv E. destruct v as [r1 o1]. cbv beta iota in E. apply turn_kept in Ev. destruct Ev as [Ev N]. destruct r1; [injection E as <- <-; left; split; [congruence|exact Ev]|].
  apply IH in E. destruct E as [[E Kp]|E]; [left; split; [exact E|exact (kept_trans _ _ _ Ev Kp)]|right; exact E].
Qed.
Lemma orel_val {A B} (l : Prop) (R Q : A -> B -> Prop) x y : orel l R x y -> (forall a b, x = Val a -> y = Val b -> R a b -> Q a b) -> orel l Q x y.
Proof. intros [] Hq; constructor; auto. Qed.
Lemma clear_hrel o1 o2 x1 x2 y1 y2 : hrel o1 o2 -> x1 = clear_memory y1 -> x2 = clear_memory y2 -> o_stats x1 = o_stats x2 -> o_limit x1 = o_limit x2 ->
  Z.of_nat (o_pgen x2) = (Z.of_nat (o_pgen x1) + pr_sh (K_of o1 o2) SrcProg)%Z ->
  Z.of_nat (o_qgen x2) = (Z.of_nat (o_qgen x1) + pr_sh (K_of o1 o2) SrcQuery)%Z -> hrel x1 x2.
Proof.
  intros [G C B R] -> -> Es El Pg Qg. destruct (KF_empty _ _ G) as [G0 Sh]. constructor; cbn [o_sto o_built o_queue clear_memory]; [exact G0| |constructor|now left].
  constructor; [reflexivity|exact Es|exact El|now rewrite <- Sh|now rewrite <- Sh|intros f _; constructor|now apply KF_ok].
Qed.
Lemma kept_hrel o1 o2 x1 x2 : hrel o1 o2 -> kept o1 x1 -> kept o2 x2 -> full (K_of o1 o2) x1 x2 -> hrel x1 x2.
Proof.
  intros [G C B R] (S1 & B1 & _) (S2 & B2 & _) Fu. constructor; rewrite ?S1, ?S2, ?B1, ?B2; auto. apply Fu.
Qed.
Lemma answer_step fuel n w : forall o1 o2, hrel o1 o2 ->
  orel lax step_rel (perform cf1 (CallAnswer fuel n w) o1) (perform cf2 (CallAnswer fuel n w) o2).
Proof.
  intros o1 o2 H. cbn [perform]. unfold get_answer. pose proof (hr_common _ _ H) as C. destruct (hr_run _ _ H) as [E|Fu].
  - destruct n; [constructor|]. cbn [answer_loop]. rewrite <- (cm_queue _ _ _ C), E. cbn [bind]. constructor. split; [|exact H]. cbn. now rewrite (cm_stats _ _ _ C).
  - pose proof (answer_sim (K_of o1 o2) cf1 cf2 POW fuel n 0 w o1 o2 Fu) as A. rewrite KF_lax in A.
    eapply orel_bind; [|intros a b Q; exact Q]. eapply orel_val; [exact A|]. clear A. intros [r1 x1] [r2 x2] E1 E2 [R S]. cbn [fst snd] in R, S.
    assert (Rr : forall s, reply_rel (ReplyAnswer r1 s) (ReplyAnswer r2 s)).
    { intros s. unfold res_rel in R. rewrite KF_lax in R. destruct r1, r2; cbn; try discriminate R; try (now injection R as ->); auto. }
    assert (Cm : o_stats x1 = o_stats x2 /\ o_limit x1 = o_limit x2 /\
      Z.of_nat (o_pgen x2) = (Z.of_nat (o_pgen x1) + pr_sh (K_of o1 o2) SrcProg)%Z /\ Z.of_nat (o_qgen x2) = (Z.of_nat (o_qgen x1) + pr_sh (K_of o1 o2) SrcQuery)%Z).
    { destruct S as [[[] _]|(z1 & z2 & -> & -> & [[] _])]; cbn [clear_memory o_stats o_limit o_pgen o_qgen]; repeat split; auto; lia. }
    destruct Cm as (Cs & Cl & Cp & Cq).
    assert (hrel x1 x2) as Hx.
    { destruct (answer_kept _ _ _ _ _ _ _ _ E1) as [[N1 K1]|[N1 (y1 & Y1)]]; destruct (answer_kept _ _ _ _ _ _ _ _ E2) as [[N2 K2]|[N2 (y2 & Y2)]].
      - destruct S as [S|(z1 & z2 & Z1 & Z2 & _)]; [exact (kept_hrel _ _ _ _ H K1 K2 S)|].
        apply (clear_hrel o1 o2 x1 x2 z1 z2); auto.
      - exfalso. unfold res_rel in R. subst r2. destruct r1; try discriminate R. now apply N1.
      - exfalso. unfold res_rel in R. subst r1. destruct r2; try discriminate R. now apply N2.
      - apply (clear_hrel o1 o2 x1 x2 y1 y2); auto. }
    cbn [bind]. constructor. split; [|exact Hx]. cbn [fst]. rewrite Cs. apply Rr.
Qed.
Theorem perform_sim c o1 o2 : quiet c -> hrel o1 o2 -> (forall r o, perform cf1 c o1 = Val (r, o) -> lim (o_sto o)) -> (forall r o, perform cf2 c o2 = Val (r, o) -> lim (o_sto o)) ->
  orel lax step_rel (perform cf1 c o1) (perform cf2 c o2).
Proof.
  intros Q H L1 L2. destruct c as [text|text|fuel n w|t].
  - apply program_step; auto; intros r o E; [apply (L1 (ReplyLoad r) o)|apply (L2 (ReplyLoad r) o)]; cbn [perform]; now rewrite E.
  - apply query_step; auto; intros r o E; [apply (L1 (ReplyLoad r) o)|apply (L2 (ReplyLoad r) o)]; cbn [perform]; now rewrite E.
  - now apply answer_step.
  - constructor. split; [reflexivity|]. destruct H as [G C B R].
    assert (C' : common (K_of o1 o2) (set_time_limit t o1) (set_time_limit t o2)) by (destruct C; constructor; auto).
    constructor; cbn; auto. destruct R as [R|(_ & R)]; [now left|right; split; auto].
Qed.
(** replies are related until undefined behaviour *)
Inductive replies : list (out reply) -> list (out reply) -> Prop :=
| rp_nil : replies [] []
| rp_val r1 r2 l1 l2 : reply_rel r1 r2 -> replies l1 l2 -> replies (Val r1 :: l1) (Val r2 :: l2)
| rp_end x : replies [x] [x]
| rp_left u l : lax -> replies [Ub u] l
| rp_right u l : lax -> replies l [Ub u].
Theorem play_sim cs : forall o1 o2, Forall quiet cs -> hrel o1 o2 -> Forall (fun o => lim (o_sto o)) (states cf1 cs o1) -> Forall (fun o => lim (o_sto o)) (states cf2 cs o2) ->
  replies (play cf1 cs o1) (play cf2 cs o2).
Proof.
  induction cs as [|c cs IH]; intros o1 o2 Q H L1 L2; cbn [play]; [constructor|]. cbn [states] in L1, L2. inversion Q; subst. inversion L1 as [|? ? _ L1']; subst. inversion L2 as [|? ? _ L2']; subst.
  assert (S : orel lax step_rel (perform cf1 c o1) (perform cf2 c o2)).
  { apply perform_sim; auto; intros r o E; rewrite E in *; [destruct cs; cbn [states] in L1'; now inversion L1'|destruct cs; cbn [states] in L2'; now inversion L2']. }
  destruct S as [[r1 x1] [r2 x2] [R Hx]|u| |u y|u x]; try (constructor; auto; fail).
Qed.
End Hist.
