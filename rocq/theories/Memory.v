(** After OUT_OF_MEMORY (C32). *)
From Coq Require Import Permutation.
From Verif Require Import Base Machine Heap Facts Compiler Parser Print Organizer Session Atoms Code Search Tables Answers Sim Lock LockComp LockHist LockInst.
Open Scope string_scope.
Open Scope list_scope.

(** An object without program, query and built-in predicates. *)
Definition bare (limit : Z) : org :=
  {| o_arena := []; o_queue := []; o_stats := 0; o_limit := limit; o_sto := empty_storage; o_prog := []; o_built := []; o_query := [];
     o_pgen := 0; o_qgen := 0 |}.

Lemma oom_cleared cf fuel n w o o1 : get_answer cf fuel n w o = Val (ROutOfMemory, o1) -> exists y, o1 = clear_memory y.
Proof. intros E. destruct (answer_kept _ _ _ _ _ _ _ _ E) as [[K _]|[_ K]]; [now elim K|exact K]. Qed.

(** no answers until something is loaded *)
Lemma oom_false cf fuel n w o o1 : get_answer cf fuel n w o = Val (ROutOfMemory, o1) ->
  forall fuel' n' w', get_answer cf fuel' (S n') w' o1 = Val (RFalse, o1).
Proof. intros E fuel' n' w'. destruct (oom_cleared _ _ _ _ _ _ E) as (y & ->). reflexivity. Qed.

Section Same.
Variable cf : cfg.
Hypothesis OK : ord_ok cf.
Variable sh : csrc -> Z.
Definition KS : params := {| pr_F := eq; pr_V := eq; pr_lax := False; pr_isok := True; pr_sh := sh |}.
Lemma KS_ok s1 s2 : s1 = s2 -> tables_ok KS s1 s2.
Proof. intros <-. constructor; cbn; auto; intros; subst; try tauto; reflexivity. Qed.
Lemma KS_mono : kmono KS KS.
Proof. constructor; auto; reflexivity. Qed.
Lemma KS_sim (fin1 fin2 : storage -> Prop) : (forall s s', sto_ext s s' -> fin1 s' -> fin1 s) -> (forall s s', sto_ext s s' -> fin2 s' -> fin2 s) ->
  tables_sim KS eq fin1 fin2.
Proof. intros D1 D2. constructor; auto; intros x s1 s2 <- _ _; split; reflexivity. Qed.
Lemma cleared_play o1 o2 cs : o_sto o1 = empty_storage -> o_sto o2 = empty_storage -> o_prog o1 = [] -> o_prog o2 = [] -> o_built o1 = [] -> o_built o2 = [] ->
  o_queue o1 = [] -> o_queue o2 = [] -> o_stats o1 = o_stats o2 -> o_limit o1 = o_limit o2 ->
  Z.of_nat (o_pgen o2) = (Z.of_nat (o_pgen o1) + sh SrcProg)%Z -> Z.of_nat (o_qgen o2) = (Z.of_nat (o_qgen o1) + sh SrcQuery)%Z ->
  play cf cs o1 = play cf cs o2.
Proof.
  intros S1 S2 P1 P2 B1 B2 Q1 Q2 St Li Pg Qg. apply replies_eq.
  apply (play_sim cf cf OK OK (fun _ _ => eq_refl) (fun _ _ => KS) eq (fun _ => True) False True); auto.
  - intros. now apply KS_ok.
  - intros. apply KS_mono.
  - intros. apply KS_sim; intros s s' X Y; eapply sto_ext_trans; eauto.
  - apply Forall_forall. intros c _. destruct c; cbn; auto; intros; intros n _; now left.
  - constructor; [congruence| |rewrite B1, B2; constructor|now left].
    constructor; auto; [congruence|rewrite P1, P2; intros f _; constructor|apply KS_ok; congruence].
  - apply Forall_forall. auto.
  - apply Forall_forall. auto.
Qed.
End Same.

Lemma load_program_stats cf text o z : load_program cf text (set_stats o z) = match load_program cf text o with Some (r, o') => Some (r, set_stats o' z) | None => None end.
Proof.
  unfold load_program. destruct (parse_program text) as [[cs|e|]|]; try reflexivity. cbn [o_sto set_stats].
  destruct (compile_program cf cs (o_sto o)) as [[p|e|] s]; reflexivity.
Qed.
Lemma load_query_stats cf text o z : load_query cf text (set_stats o z) = load_query cf text o.
Proof. reflexivity. Qed.

(** The object is as a new one without built-in predicates. *)
Theorem oom_bare cf fuel n w o o1 p t cs : ord_ok cf -> get_answer cf fuel n w o = Val (ROutOfMemory, o1) ->
  play cf (CallProgram p :: CallQuery t :: cs) o1 = play cf (CallProgram p :: CallQuery t :: cs) (bare (o_limit o1)).
Proof.
  intros OK E. destruct (oom_cleared _ _ _ _ _ _ E) as (y & ->).
  transitivity (play cf (CallProgram p :: CallQuery t :: cs) (set_stats (clear_memory y) 0)).
  - cbn [play perform]. rewrite load_program_stats.
    destruct (load_program cf p (clear_memory y)) as [[r x]|]; reflexivity.
  - apply (cleared_play cf OK (fun s => match s with SrcProg => - Z.of_nat (o_pgen (clear_memory y)) | SrcQuery => - Z.of_nat (o_qgen (clear_memory y)) end)%Z); try reflexivity; cbn [bare o_pgen o_qgen set_stats]; lia.
Qed.

(** The built-in predicates do not come back. *)
Definition builtin (f : fview) : bool := redefines (NFun (fv_name f) (repeat (NVar "") (fv_arity f))).
Definition unbuilt (o : org) : Prop := o_built o = [] /\ forall f, builtin f = true -> plookup f (o_prog o) = None.
Lemma clear_unbuilt y : unbuilt (clear_memory y).
Proof. repeat split. Qed.
Lemma program_unbuilt cf text o r o' : load_program cf text o = Some (r, o') -> unbuilt o -> unbuilt o'.
Proof.
  unfold load_program. intros E (B & I). destruct (parse_program text) as [[cs|e|]|]; try discriminate E;
    [|injection E as _ <-; repeat split; auto|injection E as _ <-; repeat split; auto].
  unfold compile_program in E. destruct (compile_clauses cf false cs [] (o_sto o)) as [[p|e|] s] eqn:Ec; injection E as _ <-; try (repeat split; auto; fail).
  destruct (compile_clauses_code _ _ _ _ _ _ _ Ec) as [_ K]. unfold unbuilt. cbn [o_built o_prog]. rewrite B. cbn [merge fold_left].
  split; [reflexivity|]. intros f Hf. apply K. split; [reflexivity|]. now apply K.
Qed.
Lemma perform_unbuilt cf c o r o' : perform cf c o = Val (r, o') -> unbuilt o -> unbuilt o'.
Proof.
  intros E U. destruct c as [text|text|fuel n w|t]; cbn [perform] in E.
  - destruct (load_program cf text o) as [[r' x]|] eqn:El; [|discriminate E]. injection E as _ <-. eapply program_unbuilt; eassumption.
  - destruct (load_query cf text o) as [[r' x]|] eqn:El; [|discriminate E]. injection E as _ <-. unfold load_query in El.
    destruct (parse_query _) as [[q|e|]|]; [destruct (compile_query _ _ _) as [[q'|e|] s]|..]; try discriminate El; injection El as _ <-; exact U.
  - destruct (get_answer cf fuel n w o) as [[r' x]| |] eqn:El; [|discriminate E..]. injection E as _ <-.
    destruct (answer_kept _ _ _ _ _ _ _ _ El) as [[_ K]|[_ (y & ->)]]; [|apply clear_unbuilt]. destruct K as (K1 & K2 & K3). unfold unbuilt in *. rewrite K2, K3. exact U.
  - injection E as _ <-. exact U.
Qed.
Lemma states_unbuilt cf cs : forall o, unbuilt o -> Forall unbuilt (states cf cs o).
Proof.
  induction cs as [|c cs IH]; intros o U; cbn [states]; constructor; auto.
  destruct (perform cf c o) as [[r o']| |] eqn:E; auto. apply IH. eapply perform_unbuilt; eassumption.
Qed.
Theorem oom_no_built_in cf fuel n w o o1 cs o2 f : get_answer cf fuel n w o = Val (ROutOfMemory, o1) ->
  In o2 (states cf cs o1) -> builtin f = true -> plookup f (o_prog o2) = None.
Proof.
  intros E I B. destruct (oom_cleared _ _ _ _ _ _ E) as (y & ->).
  pose proof (states_unbuilt cf cs _ (clear_unbuilt y)) as F. rewrite Forall_forall in F. now apply (F _ I).
Qed.
Theorem oom_gone cf fuel n w o o1 cs o2 f : get_answer cf fuel n w o = Val (ROutOfMemory, o1) ->
  In o2 (states cf cs o1) -> f = FV "is" 2 \/ f = FV "append" 3 -> plookup f (o_prog o2) = None.
Proof. intros E I H. apply (oom_no_built_in cf fuel n w o o1 cs o2 f E I). destruct H as [->| ->]; reflexivity. Qed.
