(** What holds of every atom an executor can come to work on, and the positions of runtime errors. *)
From Verif Require Import Base Machine Heap Facts Compiler Parser ParserFacts Texts Grammar Organizer Examples Spec Print Valuation Process Turn Shape Session Code Put Search PutRun Get Alloc Atoms Clause Parsed Flat Loads Roundtrip Exprs Language Positions CompAt LockHist AnswerText OrgAt.
Open Scope string_scope.
Open Scope list_scope.

Section Kept.
Variable Good : catom_at -> Prop.
Definition code_good (r : code_at) : Prop := Forall Good r.
Definition table_good (p : table_at) : Prop := Forall (fun e => Forall code_good (snd e)) p.
Definition ptr_good (p : ptr_at) : Prop := Good (cp_atom (fst p), snd p).
Definition exec_good (e : exec_at) : Prop := Forall ptr_good (y_codes e).
Record org_good (o : org_at) : Prop := {
  og_prog : table_good (a_prog o);
  og_built : table_good (a_built o);
  og_arena : Forall exec_good (a_arena o) }.
Lemma get_good o id e : org_good o -> get_at o id = Val e -> exec_good e.
Proof. intros W E. unfold get_at in E. destruct (nth_error (a_arena o) id) eqn:Ee; cbn in E; [|discriminate E]. injection E as <-. pose proof (og_arena o W) as F. rewrite Forall_forall in F. apply F. exact (nth_error_In _ _ Ee). Qed.
Lemma put_good o id e o' : org_good o -> exec_good e -> put_at o id e = Val o' -> org_good o'.
Proof.
  intros W He E. unfold put_at in E. destruct (upd (a_arena o) id e) as [a|] eqn:Ea; cbn [of_opt bind] in E; [|discriminate E]. injection E as <-. destruct W as [W2 W3 W4].
  split; cbn; auto. exact (upd_forall _ _ _ _ _ W4 He Ea).
Qed.
Lemma add_child_good o id c o' : org_good o -> exec_good c -> add_child_at o id c = Val o' -> org_good o'.
Proof.
  intros W Hc E. unfold add_child_at in E. destruct (get_at o id) as [e|u|] eqn:Ee; cbn [bind] in E; try discriminate E. pose proof (get_good o id e W Ee) as He.
  destruct (put_at o id _) as [o1|u|] eqn:E1; cbn [bind] in E; try discriminate E. injection E as <-.
  apply put_good in E1; [|exact W|exact He]. destruct E1 as [W2 W3 W4]. split; cbn; auto. apply Forall_app. split; [exact W4|]. constructor; [exact Hc|constructor].
Qed.
Lemma ptrs_good s g r : code_good r -> Forall ptr_good (ptrs_at s g r).
Proof. intros F. unfold ptrs_at. apply Forall_forall. intros x Hx. apply in_map_iff in Hx. destruct Hx as ([a i] & <- & Ha). unfold code_good in F. rewrite Forall_forall in F. exact (F _ Ha). Qed.
Lemma spawn_good id rs : forall o o', org_good o -> Forall code_good rs -> spawn_at o id rs = Val o' -> org_good o'.
Proof.
  induction rs as [|r rs IH]; intros o o' W F E; cbn [spawn_at] in E; [now injection E as <-|]. inversion F as [|? ? Fr Fs]; subst.
  destruct (get_at o id) as [e|u|] eqn:Ee; cbn [bind] in E; try discriminate E. pose proof (get_good o id e W Ee) as He. unfold exec_good in He.
  destruct (y_codes e) as [|p codes]; [discriminate E|]. inversion He; subst. destruct (add_child_at o id _) as [o1|u|] eqn:E1; cbn [bind] in E; try discriminate E.
  apply (IH o1 o'); auto. refine (add_child_good _ _ _ _ W _ E1). unfold exec_good. cbn [y_codes]. apply Forall_app. split; [now apply ptrs_good|assumption].
Qed.
Lemma lookup_good f p rs : table_good p -> tlookup f p = Some rs -> Forall code_good rs.
Proof.
  induction p as [|[g rs'] p IH]; intros F E; [discriminate E|]. inversion F; subst. cbn [tlookup] in E. destruct (fview_eqb f g); [injection E as <-; assumption|auto].
Qed.
Lemma clear_good e e' : exec_good e -> clear_at e = Val e' -> exec_good e'.
Proof. unfold exec_good, clear_at. intros F E. destruct (y_codes e) as [|c l]; [discriminate E|]. injection E as <-. cbn. inversion F; subst. constructor; [assumption|constructor]. Qed.
Lemma queue_good o q : org_good o -> org_good (aset_queue o q).
Proof. intros [? ? ?]. split; assumption. Qed.
Lemma stats_good o n : org_good o -> org_good (aset_stats o n).
Proof. intros [? ? ?]. split; assumption. Qed.
Ltac getx E x Ex := match type of E with context [bind ?m _] => destruct m as [x|?|] eqn:Ex; cbn [bind] in E; try discriminate E end.
Section Turns.
Variable cf : cfg.
Variable fuel : nat.
Lemma instr_good o id i st o' : org_good o -> instr_step_at cf fuel o id i = Val (st, o') -> org_good o'.
Proof.
  intros W E.
  assert (L : forall i, (e <- get_at o id ;;
      '(st, m) <- local_step lheap (lops (heap_at (o_arena (plain o)) (y_parent e))) cf (a_sto o) fuel i (y_m e) ;;
      match st with
      | Cont => o1 <- put_at o id (ywith_m e m) ;; Val (ACont, o1)
      | Failing => o1 <- put_at o id (ywith_state (ywith_m e m) SFail) ;; Val (AFailing, o1)
      | Raise er => o1 <- put_at o id (ywith_state (ywith_m e m) (SError er)) ;; Val (ARaise er (cur_info e), o1)
      end) = Val (st, o') -> org_good o').
  { clear E. intros j E. getx E e Ee. pose proof (get_good o id e W Ee) as He. destruct (local_step _ _ _ _ _ _ _) as [[s m]|u|]; cbn [bind] in E; try discriminate E.
    destruct s as [| |er]; getx E o1 E1; injection E as _ <-; (refine (put_good _ _ _ _ W _ E1); exact He). }
  destruct i; try exact (L _ E); clear L; cbn [instr_step_at] in E.
  - unfold do_call_at in E. pose proof (stats_good o ((a_stats o + 1) mod 4294967296)%Z W) as W0. set (o0 := aset_stats o _) in *.
    destruct (tlookup f (a_prog o0)) as [rs|] eqn:Ep.
    + getx E o1 E1. assert (W1 : org_good o1) by (refine (spawn_good id rs o0 o1 W0 _ E1); exact (lookup_good _ _ _ (og_prog _ W0) Ep)).
      getx E e Ee. getx E e1 Ee1. getx E o2 E2. injection E as _ <-. refine (put_good _ _ _ _ W1 _ E2). exact (clear_good e e1 (get_good _ _ _ W1 Ee) Ee1).
    + getx E e Ee. getx E o1 E1. injection E as _ <-. refine (put_good _ _ _ _ W0 _ E1). exact (get_good _ _ _ W0 Ee).
  - unfold do_proceed_at in E. getx E e Ee. pose proof (get_good o id e W Ee) as He. destruct (y_codes e) as [|c codes] eqn:Ec; [discriminate E|]. unfold exec_good in He. rewrite Ec in He. inversion He; subst.
    getx E d Ed. destruct d.
    + getx E e1 Ee1. getx E o1 E1. injection E as _ <-. refine (put_good _ _ _ _ W _ E1). refine (clear_good _ e1 _ Ee1). unfold exec_good. cbn. now rewrite Ec.
    + getx E o1 E1. getx E o2 E2. injection E as _ <-. refine (add_child_good _ _ _ _ _ _ E2); [|assumption]. refine (put_good _ _ _ _ W _ E1). constructor; [assumption|constructor].
  - unfold do_dealloc_at in E. getx E e Ee. pose proof (get_good o id e W Ee) as He. unfold exec_good in He. destruct (m_envs (y_m e)) as [|v envs]; [discriminate E|].
    destruct (y_codes e) as [|c codes]; [discriminate E|]. inversion He; subst. getx E o1 E1. injection E as _ <-. apply queue_good. refine (put_good _ _ _ _ W _ E1). assumption.
Qed.
Lemma run_good id is : forall o st o', org_good o -> run_instrs_at cf fuel o id is = Val (st, o') -> org_good o'.
Proof.
  induction is as [|i is IH]; intros o st o' W E; cbn [run_instrs_at] in E; [now injection E as _ <-|].
  destruct (instr_step_at cf fuel o id i) as [[s o1]|u|] eqn:E1; cbn [bind] in E; try discriminate E. pose proof (instr_good o id i s o1 W E1) as W1.
  destruct s as [| |er j]; [exact (IH o1 st o' W1 E)| |]; getx E e Ee; getx E e1 Ee1; getx E o2 E2; injection E as _ <-; refine (put_good _ _ _ _ W1 _ E2); exact (clear_good e e1 (get_good _ _ _ W1 Ee) Ee1).
Qed.
Lemma turn_good o r o' : org_good o -> turn_at cf fuel o = Val (r, o') -> org_good o'.
Proof.
  intros W E. unfold turn_at in E. destruct (a_queue o) as [|id q]; [injection E as _ <-; exact W|].
  pose proof (queue_good o q W) as W0. set (o0 := aset_queue o q) in *. getx E e Ee. pose proof (get_good o0 id e W0 Ee) as He. destruct (y_codes e) as [|p codes] eqn:Ec; [discriminate E|].
  getx E a Ea. getx E o1 E1. assert (W1 : org_good o1) by (refine (put_good _ _ _ _ W0 _ E1); exact He).
  destruct (run_instrs_at cf fuel o1 id (ca_code a)) as [[st o2]|u|] eqn:E2; cbn [bind] in E; try discriminate E. pose proof (run_good id _ _ _ _ W1 E2) as W2.
  destruct st as [| |er j]; [| |now injection E as _ <-]; (getx E e2 Ee2; destruct (y_state e2); try (injection E as _ <-; exact W2); getx E b Eb; now injection E as _ <-).
Qed.
Lemma cleared_good o : org_good o -> org_good (clear_memory_at o).
Proof.
  intros [W2 W3 W4]. split; cbn; try constructor; cbn; try contradiction. destruct (a_arena o) as [|e l]; [constructor|]. inversion W4; subst. constructor; [assumption|constructor].
Qed.
Lemma answer_good n : forall k w o r o', org_good o -> answer_loop_at cf fuel n k w o = Val (r, o') -> org_good o'.
Proof.
  induction n as [|n IH]; intros k w o r o' W E; [discriminate E|]. cbn [answer_loop_at] in E.
  assert (G : (if (a_limit o <? w_time w k)%Z then Val ((ROutOfTime, None), o) else if w_oom w k then Val ((ROutOfMemory, None), clear_memory_at o) else
    '(r, o1) <- turn_at cf fuel o ;; match r with Some r => Val (r, o1) | None => answer_loop_at cf fuel n (S k) w o1 end) = Val (r, o') -> org_good o').
  { clear E. intros E. destruct (_ <? _)%Z; [injection E as _ <-; exact W|]. destruct (w_oom w k); [injection E as _ <-; now apply cleared_good|].
    destruct (turn_at cf fuel o) as [[x o1]|u|] eqn:Et; cbn [bind] in E; try discriminate E. pose proof (turn_good o x o1 W Et) as W1.
    destruct x as [y|]; [injection E as _ <-; exact W1|exact (IH _ _ _ _ _ W1 E)]. }
  destruct (a_queue o); [injection E as _ <-; exact W|exact (G E)].
Qed.
End Turns.

(** --- loading --- *)
Definition agives {A} (P : A -> Prop) (m : acomp A) : Prop := forall s a s', m s = (AOk a, s') -> P a.
Lemma agives_bind {A B} (P : A -> Prop) (Q : B -> Prop) (m : acomp A) (f : A -> acomp B) : agives P m -> (forall a, P a -> agives Q (f a)) -> agives Q (abind m f).
Proof. intros Hm Hf s b s' E. unfold abind in E. destruct (m s) as [[a|e i|] s1] eqn:E1; try discriminate E. exact (Hf a (Hm _ _ _ E1) _ _ _ E). Qed.
Lemma agives_ret {A} (P : A -> Prop) a : P a -> agives P (aret a).
Proof. intros K s b s' E. now injection E as <- _. Qed.
Lemma tadd_good f r p : code_good r -> table_good p -> table_good (tadd f r p).
Proof.
  intros R. induction p as [|[g rs] p IH]; intros F; cbn [tadd]; [constructor; [constructor; [exact R|constructor]|constructor]|]. inversion F as [|? ? F1 F2]; subst.
  destruct (fview_eqb f g); constructor; [|exact F2|exact F1|exact (IH F2)]. cbn [snd] in *. apply Forall_app. split; [exact F1|]. constructor; [exact R|constructor].
Qed.
Lemma tset_good f rs p : Forall code_good rs -> table_good p -> table_good (tset f rs p).
Proof.
  intros R. induction p as [|[g rs'] p IH]; intros F; cbn [tset]; [constructor; [exact R|constructor]|]. inversion F as [|? ? F1 F2]; subst. destruct (fview_eqb f g); constructor; [exact R|exact F2|exact F1|exact (IH F2)].
Qed.
Lemma tmerge_good b : forall p, table_good b -> table_good p -> table_good (tmerge b p).
Proof. unfold tmerge. induction b as [|e b IH]; intros p B P; [exact P|]. inversion B; subst. cbn [fold_left]. apply IH; [assumption|]. now apply tset_good. Qed.
Variable cf : cfg.
Hypothesis Clause : forall b c, agives (fun x => code_good (snd x)) (compile_program_term_at cf b c).
Hypothesis Query : forall q, agives code_good (compile_query_at cf q).
Hypothesis Built : agives table_good (compile_built_ins_at cf).
Definition prog_good (p : prog_at) : Prop := Forall (fun e => Forall (fun r => code_good (snd r)) (snd e)) p.
Lemma padd_good f i r p : code_good r -> prog_good p -> prog_good (padd_at f (i, r) p).
Proof.
  intros R. induction p as [|[g rs] p IH]; intros F; cbn [padd_at]; [constructor; [constructor; [exact R|constructor]|constructor]|]. inversion F as [|? ? F1 F2]; subst.
  destruct (fview_eqb f g); constructor; [|exact F2|exact F1|exact (IH F2)]. cbn [snd] in *. apply Forall_app. split; [exact F1|]. constructor; [exact R|constructor].
Qed.
Lemma clauses_good b cs : forall p, prog_good p -> agives prog_good (compile_clauses_at cf b cs p).
Proof.
  induction cs as [|[i c] cs IH]; intros p P; cbn [compile_clauses_at]; [now apply agives_ret|]. eapply agives_bind; [apply Clause|]. intros [f r] Hr. apply IH. now apply padd_good.
Qed.
Lemma table_of_good p : prog_good p -> table_good (table_of p).
Proof.
  intros F. unfold table_of, table_good. apply Forall_forall. intros e He. apply in_map_iff in He. destruct He as (x & <- & Hx). cbn [snd]. unfold prog_good in F. rewrite Forall_forall in F. specialize (F x Hx).
  apply Forall_forall. intros r Hr. apply in_map_iff in Hr. destruct Hr as (y & <- & Hy). rewrite Forall_forall in F. exact (F y Hy).
Qed.
Lemma new_good o : new_at cf = Val o -> org_good o.
Proof.
  unfold new_at. intros E. destruct (compile_built_ins_at cf empty_storage) as [[p|e i|] s] eqn:Eb; try discriminate E. injection E as <-. apply Built in Eb. split; cbn; auto. constructor; [constructor|constructor].
Qed.
Lemma perform_good c o r o' : org_good o -> perform_at cf c o = Val (r, o') -> org_good o'.
Proof.
  intros W E. destruct c as [text|text|fuel n w|t]; cbn [perform_at] in E.
  - unfold load_program_at in E. destruct (parse_program_at text) as [[cs|e|]|]; cbn [load_out_at] in E; try discriminate E; try (injection E as _ <-; exact W).
    pose proof (clauses_good false cs [] (Forall_nil _)) as G. destruct (compile_clauses_at cf false cs [] (a_sto o)) as [[p|e i|] s] eqn:Ec; cbn [load_out_at] in E; injection E as _ <-; destruct W as [W2 W3 W4]; split; cbn; auto.
    apply tmerge_good; [exact W3|]. apply table_of_good. exact (G _ _ _ Ec).
  - unfold load_query_at in E. destruct (parse_query_at (append_dot text)) as [[q|e|]|]; cbn [load_out_at] in E; try discriminate E; try (injection E as _ <-; apply stats_good, queue_good, W).
    pose proof (Query (snd q)) as G. destruct (compile_query_at cf (snd q) (a_sto o)) as [[p|e i|] s] eqn:Ec; cbn [load_out_at] in E; injection E as _ <-; destruct W as [W2 W3 W4]; split; cbn; auto.
    constructor; [|constructor]. unfold exec_good. cbn. apply ptrs_good. exact (G _ _ _ Ec).
  - destruct (get_answer_at cf fuel n w o) as [[x o1]|u|] eqn:Eg; cbn [bind] in E; try discriminate E. injection E as _ <-. exact (answer_good cf fuel n 0 w o x o1 W Eg).
  - injection E as _ <-. destruct W. split; assumption.
Qed.
Theorem states_good cs : forall o o', org_good o -> In o' (states_at cf cs o) -> org_good o'.
Proof.
  induction cs as [|c cs IH]; intros o o' W H; cbn [states_at] in H; [destruct H as [<-|[]]; exact W|]. destruct H as [<-|H]; [exact W|].
  destruct (perform_at cf c o) as [[r o1]|u|] eqn:E; try contradiction. exact (IH o1 o' (perform_good c o r o1 W E) H).
Qed.
End Kept.

(** --- only "is" raises errors --- *)
Definition no_raise {H} (x : out (istat * mst H)) : Prop := forall e m, x <> Val (Raise e, m).
Lemma nr_bind {A H} (m : out A) (f : A -> out (istat * mst H)) : (forall a, no_raise (f a)) -> no_raise (bind m f).
Proof. intros K e m1. destruct m; cbn; try discriminate. apply K. Qed.
Lemma nr_val {H} s (m : mst H) : (forall e, s <> Raise e) -> no_raise (Val (s, m)).
Proof. intros K e m1 E. injection E as E _. exact (K e E). Qed.
Lemma nr_step {H} (x : out (istat * mst H)) g : no_raise x -> no_raise (H := H) ('(s, m1) <- x ;; Val (s, g m1)).
Proof. intros K e m1 E. destruct x as [[s m]|u|]; cbn in E; try discriminate E. injection E as -> _. exact (K e m eq_refl). Qed.
Lemma unify_no_raise {H} (ops : hops H) fuel m a b : no_raise (unify_m H ops fuel m a b).
Proof. unfold unify_m. apply nr_bind. intros [[|] h]; apply nr_val; discriminate. Qed.
Ltac nr := repeat first
  [ apply unify_no_raise
  | apply nr_step; apply unify_no_raise
  | apply nr_bind; intros ?
  | apply nr_val; intros ?; discriminate
  | intros ? ?; discriminate
  | match goal with |- no_raise (match ?x with _ => _ end) => destruct x end
  | match goal with |- no_raise (let '(_, _) := ?x in _) => destruct x end
  | match goal with |- no_raise (Val (match ?b with _ => _ end, _)) => destruct b end ].
Lemma only_is_raises {H} (ops : hops H) cf sto fuel i m : (forall x y, i <> IIs x y) -> no_raise (local_step H ops cf sto fuel i m).
Proof.
  intros N. destruct i; try (exfalso; eapply N; reflexivity); cbn [local_step];
    unfold get_structure, unify_structure, unify_variable, unify_value, get_value, equals_check, not_equals_check; cbv zeta; nr.
Qed.
Definition is_instr (i : instr) : Prop := exists x y, i = IIs x y.
Section Raise.
Variable cf : cfg.
Variable fuel : nat.
Lemma is_raises o id i er j o' : instr_step_at cf fuel o id i = Val (ARaise er j, o') -> is_instr i /\ exists e, nth_error (a_arena o) id = Some e /\ j = cur_info e.
Proof.
  assert (D : is_instr i \/ forall x y, i <> IIs x y) by (destruct i; try (left; eexists _, _; reflexivity); right; discriminate).
  assert (L : forall i, (e <- get_at o id ;;
      '(st, m) <- local_step lheap (lops (heap_at (o_arena (plain o)) (y_parent e))) cf (a_sto o) fuel i (y_m e) ;;
      match st with
      | Cont => o1 <- put_at o id (ywith_m e m) ;; Val (ACont, o1)
      | Failing => o1 <- put_at o id (ywith_state (ywith_m e m) SFail) ;; Val (AFailing, o1)
      | Raise er => o1 <- put_at o id (ywith_state (ywith_m e m) (SError er)) ;; Val (ARaise er (cur_info e), o1)
      end) = Val (ARaise er j, o') -> (is_instr i \/ forall x y, i <> IIs x y) -> is_instr i /\ exists e, nth_error (a_arena o) id = Some e /\ j = cur_info e).
  { intros i0 E D0. unfold get_at in E. destruct (nth_error (a_arena o) id) as [e|]; cbn [of_opt bind] in E; [|discriminate E].
    destruct (local_step _ _ _ _ _ i0 _) as [[s m]|u|] eqn:El; cbn [bind] in E; try discriminate E.
    destruct s as [| |er0]; [destruct (put_at _ _ _); discriminate E|destruct (put_at _ _ _); discriminate E|].
    destruct (put_at _ _ _); cbn [bind] in E; try discriminate E. injection E as _ <- _. split; [|eauto].
    destruct D0 as [K|K]; [exact K|]. elim (only_is_raises _ cf (a_sto o) fuel i0 (y_m e) K er0 m El). }
  intros E. destruct i; try exact (L _ E D); exfalso; cbn [instr_step_at] in E.
  - unfold do_call_at in E. destruct (tlookup _ _).
    + destruct (spawn_at _ _ _) as [o1|u|]; cbn [bind] in E; try discriminate E. destruct (get_at o1 id) as [e1|u|]; cbn [bind] in E; try discriminate E. destruct (clear_at e1) as [e2|u|]; cbn [bind] in E; try discriminate E.
      destruct (put_at _ _ _); discriminate E.
    + destruct (get_at _ id) as [e1|u|]; cbn [bind] in E; try discriminate E. destruct (put_at _ _ _); discriminate E.
  - unfold do_proceed_at in E. destruct (get_at o id) as [e1|u|]; cbn [bind] in E; try discriminate E. destruct (y_codes e1); [discriminate E|]. destruct (all_dealloc _ _) as [[|]|u|]; cbn [bind] in E; try discriminate E.
    + destruct (clear_at _) as [e2|u|]; cbn [bind] in E; try discriminate E. destruct (put_at _ _ _); discriminate E.
    + destruct (put_at _ _ _) as [o1|u|]; cbn [bind] in E; try discriminate E. destruct (add_child_at _ _ _); discriminate E.
  - unfold do_dealloc_at in E. destruct (get_at o id) as [e1|u|]; cbn [bind] in E; try discriminate E. destruct (m_envs _); [discriminate E|]. destruct (y_codes e1); [discriminate E|]. destruct (put_at _ _ _); discriminate E.
Qed.
Lemma put_back o id e o' : put_at o id e = Val o' -> nth_error (a_arena o') id = Some e /\ forall j, j <> id -> nth_error (a_arena o') j = nth_error (a_arena o) j.
Proof.
  unfold put_at. intros E. destruct (upd (a_arena o) id e) as [a|] eqn:Ea; cbn [of_opt bind] in E; [|discriminate E]. injection E as <-. cbn [a_arena aset_arena]. split; [|intros j N]; rewrite (upd_nth _ _ _ _ _ Ea); [now rewrite Nat.eqb_refl|]. apply Nat.eqb_neq in N. now rewrite N.
Qed.
Lemma add_child_back o id e c o' : nth_error (a_arena o) id = Some e -> add_child_at o id c = Val o' -> exists e', nth_error (a_arena o') id = Some e' /\ y_codes e' = y_codes e.
Proof.
  intros He E. unfold add_child_at, get_at in E. rewrite He in E. cbn [of_opt bind] in E. destruct (put_at o id _) as [o1|u|] eqn:E1; cbn [bind] in E; try discriminate E. injection E as <-.
  apply put_back in E1. destruct E1 as [E1 _]. eexists. split; [cbn; rewrite nth_error_app1; [exact E1|apply nth_error_Some; now rewrite E1]|reflexivity].
Qed.
Lemma spawn_back id rs : forall o e o', nth_error (a_arena o) id = Some e -> spawn_at o id rs = Val o' -> exists e', nth_error (a_arena o') id = Some e' /\ y_codes e' = y_codes e.
Proof.
  induction rs as [|r rs IH]; intros o e o' He E; cbn [spawn_at] in E; [injection E as <-; eauto|]. unfold get_at in E. rewrite He in E. cbn [of_opt bind] in E.
  destruct (y_codes e) as [|p codes] eqn:Ec; [discriminate E|]. destruct (add_child_at o id _) as [o1|u|] eqn:E1; cbn [bind] in E; try discriminate E.
  destruct (add_child_back _ _ _ _ _ He E1) as (e1 & H1 & K1). destruct (IH _ _ _ H1 E) as (e2 & H2 & K2). exists e2. split; [exact H2|]. now rewrite K2, K1, Ec.
Qed.
Lemma clear_info e e' : clear_at e = Val e' -> cur_info e' = cur_info e.
Proof. unfold clear_at, cur_info. intros E. destruct (y_codes e) as [|c l]; [discriminate E|]. now injection E as <-. Qed.
(** the executor keeps working on the same atom unless it is a Dealloc *)
Lemma keeps_info o id e i o' : nth_error (a_arena o) id = Some e -> i <> IDealloc -> instr_step_at cf fuel o id i = Val (ACont, o') ->
  exists e', nth_error (a_arena o') id = Some e' /\ cur_info e' = cur_info e.
Proof.
  intros He N.
  assert (L : forall i, (e <- get_at o id ;;
      '(st, m) <- local_step lheap (lops (heap_at (o_arena (plain o)) (y_parent e))) cf (a_sto o) fuel i (y_m e) ;;
      match st with
      | Cont => o1 <- put_at o id (ywith_m e m) ;; Val (ACont, o1)
      | Failing => o1 <- put_at o id (ywith_state (ywith_m e m) SFail) ;; Val (AFailing, o1)
      | Raise er => o1 <- put_at o id (ywith_state (ywith_m e m) (SError er)) ;; Val (ARaise er (cur_info e), o1)
      end) = Val (ACont, o') -> exists e', nth_error (a_arena o') id = Some e' /\ cur_info e' = cur_info e).
  { intros i0 E. unfold get_at in E. rewrite He in E. cbn [of_opt bind] in E. destruct (local_step _ _ _ _ _ i0 _) as [[s m]|u|]; cbn [bind] in E; try discriminate E.
    destruct s as [| |er0]; destruct (put_at _ _ _) as [o1|u|] eqn:E1; cbn [bind] in E; try discriminate E. injection E as <-. apply put_back in E1. destruct E1 as [E1 _]. eexists. split; [exact E1|reflexivity]. }
  intros E. destruct i; try exact (L _ E); clear L; cbn [instr_step_at] in E; [| |now elim N].
  - unfold do_call_at in E. destruct (tlookup _ _).
    + destruct (spawn_at _ _ _) as [o1|u|] eqn:E1; cbn [bind] in E; try discriminate E. destruct (spawn_back _ _ (aset_stats o _) e _ He E1) as (e1 & H1 & K1).
      unfold get_at in E. rewrite H1 in E. cbn [of_opt bind] in E. destruct (clear_at _) as [e2|u|] eqn:E2; cbn [bind] in E; try discriminate E.
      destruct (put_at _ _ _) as [o2|u|] eqn:E3; cbn [bind] in E; try discriminate E. injection E as <-. apply put_back in E3. destruct E3 as [E3 _]. eexists. split; [exact E3|].
      change (cur_info (ywith_state e2 SArchived)) with (cur_info e2). rewrite (clear_info _ _ E2). unfold cur_info. now rewrite K1.
    + unfold get_at in E. change (a_arena (aset_stats o _)) with (a_arena o) in E. rewrite He in E. cbn [of_opt bind] in E. destruct (put_at _ _ _) as [o2|u|] eqn:E3; discriminate E.
  - unfold do_proceed_at, get_at in E. rewrite He in E. cbn [of_opt bind] in E. destruct (y_codes e) as [|p codes] eqn:Ec; [discriminate E|]. destruct (all_dealloc _ _) as [[|]|u|]; cbn [bind] in E; try discriminate E.
    + destruct (clear_at _) as [e2|u|] eqn:E2; cbn [bind] in E; try discriminate E. destruct (put_at _ _ _) as [o2|u|] eqn:E3; cbn [bind] in E; try discriminate E. injection E as <-. apply put_back in E3. destruct E3 as [E3 _].
      exists e2. split; [exact E3|]. rewrite (clear_info _ _ E2). reflexivity.
    + destruct (put_at _ _ _) as [o2|u|] eqn:E3; cbn [bind] in E; try discriminate E. destruct (add_child_at _ _ _) as [o3|u|] eqn:E4; cbn [bind] in E; try discriminate E. injection E as <-.
      apply put_back in E3. destruct E3 as [E3 _]. destruct (add_child_back _ _ _ _ _ E3 E4) as (e4 & H4 & K4). exists e4. split; [exact H4|]. unfold cur_info. rewrite K4, Ec. reflexivity.
Qed.
Lemma run_raises id is : forall o e er j o', nth_error (a_arena o) id = Some e -> run_instrs_at cf fuel o id is = Val (ARaise er j, o') ->
  (exists i, In i is /\ is_instr i) /\ (~ In IDealloc is -> j = cur_info e).
Proof.
  induction is as [|i is IH]; intros o e er j o' He E; cbn [run_instrs_at] in E; [discriminate E|].
  destruct (instr_step_at cf fuel o id i) as [[s o1]|u|] eqn:E1; cbn [bind] in E; try discriminate E. destruct s as [| |er0 j0].
  - assert (D : i = IDealloc \/ i <> IDealloc) by (destruct i; auto; right; discriminate). destruct D as [->|N].
    + assert (S : exists e1, nth_error (a_arena o1) id = Some e1).
      { cbn [instr_step_at] in E1. unfold do_dealloc_at, get_at in E1. rewrite He in E1. cbn [of_opt bind] in E1. destruct (m_envs _); [discriminate E1|]. destruct (y_codes e); [discriminate E1|].
        destruct (put_at _ _ _) as [o2|u|] eqn:E3; cbn [bind] in E1; try discriminate E1. injection E1 as <-. apply put_back in E3. destruct E3 as [E3 _]. eauto. }
      destruct S as (e1 & S). destruct (IH _ _ _ _ _ S E) as [(x & I1 & I2) _]. split; [exists x; split; [now right|exact I2]|]. intros K. elim K. now left.
    + destruct (keeps_info _ _ _ _ _ He N E1) as (e1 & S & K1). destruct (IH _ _ _ _ _ S E) as [(x & I1 & I2) K2]. split; [exists x; split; [now right|exact I2]|].
      intros K. rewrite <- K1. apply K2. intros I. apply K. now right.
  - destruct (get_at o1 id) as [e1|u|]; cbn [bind] in E; try discriminate E. destruct (clear_at e1) as [e2|u|]; cbn [bind] in E; try discriminate E. destruct (put_at _ _ _); discriminate E.
  - destruct (is_raises _ _ _ _ _ _ E1) as (I1 & e1 & S & ->). rewrite He in S. injection S as <-.
    destruct (get_at o1 id) as [e1|u|]; cbn [bind] in E; try discriminate E. destruct (clear_at e1) as [e2|u|]; cbn [bind] in E; try discriminate E. destruct (put_at _ _ _); cbn [bind] in E; try discriminate E. injection E as _ <- _.
    split; [exists i; split; [now left|exact I1]|reflexivity].
Qed.

(** atoms with the instruction of "is" come from the head of "is" *)
Definition is_info : info := built_in_info "Lhs is Rhs".
Definition from_is (a : catom_at) : Prop := (exists i, In i (ca_code (fst a)) /\ is_instr i) -> snd a = Some is_info /\ ~ In IDealloc (ca_code (fst a)).
Lemma turn_error o er j o' : org_good from_is o -> turn_at cf fuel o = Val (Some (RError er, j), o') -> j = Some is_info.
Proof.
  intros W E. unfold turn_at in E. destruct (a_queue o) as [|id q]; [discriminate E|]. pose proof (queue_good from_is o q W) as W0. set (o0 := aset_queue o q) in *.
  destruct (get_at o0 id) as [e|u|] eqn:Ee; cbn [bind] in E; try discriminate E. pose proof (get_good from_is o0 id e W0 Ee) as He. unfold exec_good in He. destruct (y_codes e) as [|p codes] eqn:Ec; [discriminate E|].
  inversion He as [|? ? Hp _]; subst. destruct (follow (plain o0) (fst p)) as [a|u|] eqn:Ea; cbn [bind] in E; try discriminate E. unfold follow in Ea. destruct (Nat.eqb _ _); [|discriminate Ea]. injection Ea as <-.
  destruct (put_at _ _ _) as [o1|u|] eqn:E1; cbn [bind] in E; try discriminate E. apply put_back in E1. destruct E1 as [E1 _].
  destruct (run_instrs_at cf fuel o1 id _) as [[st o2]|u|] eqn:E2; cbn [bind] in E; try discriminate E. destruct st as [| |er1 j1].
  - destruct (get_at o2 id) as [e2|u|]; cbn [bind] in E; try discriminate E. destruct (y_state e2); try discriminate E. destruct (find_subs _ _ _); discriminate E.
  - destruct (get_at o2 id) as [e2|u|]; cbn [bind] in E; try discriminate E. destruct (y_state e2); try discriminate E. destruct (find_subs _ _ _); discriminate E.
  - injection E as <- <- _. destruct (run_raises _ _ _ _ _ _ _ E1 E2) as [I1 I2]. destruct (Hp I1) as [H1 H2]. rewrite (I2 H2). unfold cur_info. cbn [y_codes ywith_m]. rewrite Ec. exact H1.
Qed.
Lemma answer_error n : forall k w o er j o', org_good from_is o -> answer_loop_at cf fuel n k w o = Val ((RError er, j), o') -> j = Some is_info.
Proof.
  induction n as [|n IH]; intros k w o er j o' W E; [discriminate E|]. cbn [answer_loop_at] in E.
  assert (G : (if (a_limit o <? w_time w k)%Z then Val ((ROutOfTime, None), o) else if w_oom w k then Val ((ROutOfMemory, None), clear_memory_at o) else
    '(r, o1) <- turn_at cf fuel o ;; match r with Some r => Val (r, o1) | None => answer_loop_at cf fuel n (S k) w o1 end) = Val ((RError er, j), o') -> j = Some is_info).
  { clear E. intros E. destruct (_ <? _)%Z; [discriminate E|]. destruct (w_oom w k); [discriminate E|].
    destruct (turn_at cf fuel o) as [[x o1]|u|] eqn:Et; cbn [bind] in E; try discriminate E. pose proof (turn_good from_is cf fuel o x o1 W Et) as W1.
    destruct x as [y|]; [injection E as -> <-; exact (turn_error _ _ _ _ W Et)|exact (IH _ _ _ _ _ _ W1 E)]. }
  destruct (a_queue o); [discriminate E|exact (G E)].
Qed.
End Raise.

(** --- what the compiler emits --- *)
Definition quiet (i : instr) : bool := match i with IIs _ _ | IDealloc => false | _ => true end.
Definition quiets (x : list instr * list sreg) : Prop := forallb quiet (fst x) = true.
Lemma put_quiet i : is_put i = true -> quiet i = true.
Proof. destruct i; try reflexivity; discriminate. Qed.
Lemma puts_quiet is : forallb is_put is = true -> forallb quiet is = true.
Proof. induction is as [|i is IH]; [reflexivity|]. cbn. intros E. apply andb_prop in E. destruct E as [E1 E2]. now rewrite (put_quiet i E1), IH. Qed.
Lemma quiets_app c1 c2 s1 s2 s3 : quiets (c1, s1) -> quiets (c2, s2) -> quiets (c1 ++ c2, s3).
Proof. unfold quiets. cbn. intros H1 H2. now rewrite forallb_app, H1, H2. Qed.
Section Quiet.
Variable perm : string -> option nat.
Lemma prog_kid_quiet k seen : cok (prog_kid perm k seen) quiets.
Proof.
  unfold prog_kid. destruct k as [n x].
  destruct n; try (cok; reflexivity);
    try (destruct (seen_in _ seen); [cok|]; [destruct (perm s); reflexivity|];
         eapply cok_bind; [apply cok_any|]; intros v _; destruct (perm s); cok; reflexivity).
  all: destruct (seen_in _ seen); cok; reflexivity.
Qed.
Lemma prog_kids_quiet ks : forall seen, cok (prog_kids perm ks seen) quiets.
Proof.
  induction ks as [|k ks IH]; intros seen; cbn [prog_kids]; [now apply cok_ret|].
  eapply cok_bind; [apply prog_kid_quiet|]. intros [c1 s1] H1.
  eapply cok_bind; [apply IH|]. intros [c2 s2] H2. apply cok_ret. eapply quiets_app; eauto.
Qed.
Lemma prog_ent_quiet e seen : cok (prog_ent perm e seen) quiets.
Proof.
  unfold prog_ent. destruct (en_node e); try (cok; reflexivity).
  - destruct (en_arg e); [|cok; reflexivity]. destruct (seen_in _ seen); destruct (perm s); cok; reflexivity.
  - eapply cok_bind; [apply cok_any|]. intros i _. eapply cok_bind; [apply prog_kids_quiet|]. intros [c s2] H.
    apply cok_ret. exact H.
  - eapply cok_bind; [apply cok_any|]. intros i _. eapply cok_bind; [apply prog_kids_quiet|]. intros [c s2] H.
    apply cok_ret. exact H.
Qed.
Lemma prog_ents_quiet es : forall seen, cok (prog_ents perm es seen) quiets.
Proof.
  induction es as [|e es IH]; intros seen; cbn [prog_ents]; [now apply cok_ret|].
  eapply cok_bind; [apply prog_ent_quiet|]. intros [c1 s1] H1.
  eapply cok_bind; [apply IH|]. intros [c2 s2] H2. apply cok_ret. eapply quiets_app; eauto.
Qed.
Lemma to_program_quiet a seen : cok (to_program perm a seen) quiets.
Proof. unfold to_program. eapply cok_bind; [apply prog_ents_quiet|]. intros [c s] H. apply cok_ret. unfold quiets in *. cbn in *. now rewrite forallb_app, H. Qed.
Lemma to_query_quiet a seen : cok (to_query perm a seen) quiets.
Proof. intros s x s' E. destruct (to_query_shape perm a seen _ _ _ E) as (is & f & K & L). unfold quiets. rewrite K, forallb_app, (puts_quiet is L). reflexivity. Qed.
End Quiet.
(** atoms of compiled code: quiet, or a Dealloc without a position *)
Definition plain_atom (a : catom_at) : Prop := forallb quiet (ca_code (fst a)) = true \/ a = (dealloc_atom, None).
Lemma no_is is : forallb quiet is = true -> ~ exists i, In i is /\ is_instr i.
Proof. intros F (i & I & x & y & ->). rewrite forallb_forall in F. specialize (F _ I). discriminate F. Qed.
Lemma plain_from_is a : plain_atom a -> from_is a.
Proof. intros [F| ->] I; exfalso; [exact (no_is _ F I)|]. destruct I as (i & I & x & y & ->). destruct I as [I|[]]. discriminate I. Qed.
Lemma agives_for {A} (P : A -> Prop) i (m : comp A) : cok m P -> agives P (for_atom i m).
Proof. intros K s a s' E. unfold for_atom in E. destruct (m s) as [[b|e|] s1] eqn:Em; try discriminate E. injection E as <- <-. exact (K _ _ _ Em). Qed.
Lemma query_atoms_quiet perm user ns : forall pre seen, forallb quiet pre = true -> agives (Forall plain_atom) (compile_query_atoms_at perm pre user ns seen).
Proof.
  induction ns as [|n ns IH]; intros pre seen Hp; cbn [compile_query_atoms_at]; [now apply agives_ret|].
  eapply agives_bind with (P := fun x => plain_atom (fst x)).
  - unfold compile_query_atom_at. eapply agives_bind with (P := fun x => forallb quiet (ca_code (fst x)) = true).
    + apply agives_for. unfold compile_query_atom. destruct (assign_one (fst n)) as [a cnt]. eapply cok_bind; [apply to_query_quiet|]. intros [c s] H. apply cok_ret. cbn. unfold quiets in H. cbn in H. now rewrite forallb_app, Hp, H.
    + intros [a s] H. apply agives_ret. left. exact H.
  - intros [a s] H. eapply agives_bind; [apply IH; reflexivity|]. intros r Hr. apply agives_ret. now constructor.
Qed.
Lemma alloc_quiet n : forallb quiet (alloc_code n) = true.
Proof. unfold alloc_code. destruct (Nat.eqb n 0); reflexivity. Qed.
Lemma query_plain cf q : agives (Forall plain_atom) (compile_query_at cf q).
Proof. unfold compile_query_at. apply query_atoms_quiet, alloc_quiet. Qed.
Lemma clause_plain cf b c : agives (fun x => Forall plain_atom (snd x)) (compile_program_term_at cf b c).
Proof.
  unfold compile_program_term_at. destruct c as [|[h hi] body]; [intros s a s' E; discriminate E|]. destruct (negb b && redefines h); [intros s a s' E; discriminate E|].
  set (ps := perm_order cf _ true). set (X := match body with [] => _ | _ => _ end). destruct X as [[ha oba] cnt].
  eapply agives_bind; [apply agives_for; apply to_program_quiet|]. intros [hc s1] Hh. unfold quiets in Hh. cbn in Hh.
  eapply agives_bind with (P := fun x => Forall plain_atom (fst x)).
  - destruct oba as [[ba bi]|]; [|apply agives_ret; constructor]. eapply agives_bind; [apply agives_for; apply to_query_quiet|]. intros [bc s3] Hb. apply agives_ret. constructor; [left; exact Hb|constructor].
  - intros [firsts s3] Hf. eapply agives_bind; [apply query_atoms_quiet; reflexivity|]. intros others Ho. apply agives_ret. cbn [snd fst] in *. constructor.
    + left. cbn. rewrite forallb_app, alloc_quiet. exact Hh.
    + apply Forall_app. split; [exact Hf|]. apply Forall_app. split; [exact Ho|]. destruct (Nat.eqb _ 0); constructor; [now right|constructor].
Qed.
Lemma plains_good l : Forall plain_atom l -> code_good from_is l.
Proof. apply Forall_impl. exact plain_from_is. Qed.
Lemma clause_from_is cf b c : agives (fun x => code_good from_is (snd x)) (compile_program_term_at cf b c).
Proof. intros s a s' E. apply plains_good. exact (clause_plain cf b c _ _ _ E). Qed.
Lemma query_from_is cf q : agives (code_good from_is) (compile_query_at cf q).
Proof. intros s a s' E. apply plains_good. exact (query_plain cf q _ _ _ E). Qed.
Lemma insert_in x l i : In i (insert_before_last x l) -> i = x \/ In i l.
Proof.
  unfold insert_before_last. intros I. apply in_app_or in I. destruct I as [I|I].
  - right. destruct l as [|a l]; [contradiction|]. rewrite (app_removelast_last x (l := a :: l)) by discriminate. apply in_or_app. now left.
  - destruct I as [->|I]; [now left|]. right. rewrite <- (firstn_skipn (List.length l - 1) l). apply in_or_app. now right.
Qed.
Lemma binary_from_is cf nm f p : (forall x y, f x y <> IDealloc) -> ((forall x y, quiet (f x y) = true) \/ binary_text nm = "Lhs is Rhs") -> table_good from_is p -> agives (table_good from_is) (compile_binary_at cf nm f p).
Proof.
  intros Nd D P. unfold compile_binary_at. destruct (pred_regs _) as [xl xr].
  intros s a s' E. unfold abind in E. destruct (compile_program_term_at cf true _ s) as [[[fv r]|e i|] s1] eqn:Ec; try discriminate E. unfold aret in E. injection E as <- _. apply tadd_good; [|exact P].
  destruct r as [|[at_ i] r]; [constructor|]. pose proof (clause_plain cf true _ _ _ _ Ec) as F. cbn [snd] in F. inversion F as [|? ? F1 F2]; subst. cbn [insert_pred_at]. constructor; [|apply plains_good, F2].
  destruct (clause_sources cf true (built_in_info (binary_text nm)) _ _ _ _ _ Ec) as [St _].
  destruct St as (_ & l & St & _). cbn [map fst snd app] in St. injection St as _ Ei _. subst i.
  destruct F1 as [F1|F1]; [|discriminate F1].
  intros (i0 & I & X). cbn [fst snd ca_code] in *. apply insert_in in I.
  destruct I as [->|I]; [|elim (no_is _ F1); eauto]. destruct D as [D|D]; [destruct X as (x & y & X); specialize (D xl xr); rewrite X in D; discriminate D|].
  split; [|intros K; apply insert_in in K; destruct K as [K|K]; [now elim (Nd xl xr)|]; rewrite forallb_forall in F1; specialize (F1 _ K); discriminate F1].
  unfold is_info. now rewrite <- D.
Qed.
Lemma others_from_is cf cs : forall p, table_good from_is p -> agives (table_good from_is) (compile_others_at cf cs p).
Proof.
  induction cs as [|c cs IH]; intros p P; cbn [compile_others_at]; [now apply agives_ret|]. eapply agives_bind; [apply clause_from_is|]. intros [f r] Hr. apply IH. now apply tadd_good.
Qed.
Lemma built_from_is cf : agives (table_good from_is) (compile_built_ins_at cf).
Proof.
  unfold compile_built_ins_at. eapply agives_bind; [apply binary_from_is; [discriminate|now right|constructor]|]. intros p1 P1.
  eapply agives_bind; [apply binary_from_is; [discriminate|now left|exact P1]|]. intros p2 P2.
  eapply agives_bind; [apply binary_from_is; [discriminate|now left|exact P2]|]. intros p3 P3. now apply others_from_is.
Qed.
Lemma perform_error cf c o e n j o' : org_good from_is o -> perform_at cf c o = Val ((ReplyAnswer (RError e) n, j), o') -> j = Some is_info.
Proof.
  intros W E. destruct c as [text|text|fuel k w|t]; cbn [perform_at] in E.
  - destruct (load_program_at cf text o) as [[[r i] o1]|]; discriminate E.
  - destruct (load_query_at cf text o) as [[[r i] o1]|]; discriminate E.
  - destruct (get_answer_at cf fuel k w o) as [[[x i] o1]|u|] eqn:Eg; cbn [bind fst snd] in E; try discriminate E. injection E as -> _ <- _. exact (answer_error cf fuel k 0 w o e i o1 W Eg).
  - discriminate E.
Qed.
Theorem play_error cf cs : forall o e n j, org_good from_is o -> In (Val (ReplyAnswer (RError e) n, j)) (play_at cf cs o) -> j = Some is_info.
Proof.
  induction cs as [|c cs IH]; intros o e n j W I; cbn [play_at] in I; [contradiction|].
  destruct (perform_at cf c o) as [[r o1]|u|] eqn:E; cbn in I; [|destruct I as [I|[]]; discriminate I|destruct I as [I|[]]; discriminate I].
  destruct I as [I|I]; [injection I as ->; exact (perform_error cf c o e n j o1 W E)|].
  refine (IH o1 e n j _ I). exact (perform_good from_is cf (clause_from_is cf) (query_from_is cf) c o r o1 W E).
Qed.
Theorem history_error cf cs o e n j : new_at cf = Val o -> In (Val (ReplyAnswer (RError e) n, j)) (play_at cf cs o) -> j = Some is_info.
Proof. intros E. apply play_error. exact (new_good from_is cf (built_from_is cf) o E). Qed.

(** a program whose second line divides by zero *)
Definition div_text : string := "p(X) :-" +++ String "010" " X is 1 // 0.".
Definition calm : world := {| w_time := fun _ => 0%Z; w_oom := fun _ => false |}.
Definition div_calls : list call := [CallProgram div_text; CallQuery "p(X)"; CallAnswer 100 10 calm].
Definition atoms_at (cs : list (info * list (node * info))) : list (node * info) := flat_map snd cs.
Lemma div_play : match new_at cfg0 with
  | Val o => play_at cfg0 div_calls o = [Val (ReplyLoad LOk, None); Val (ReplyLoad LOk, None); Val (ReplyAnswer (RError EDivBy0) 2, Some is_info)]
  | _ => False end.
Proof. vm_compute. reflexivity. Qed.
Lemma div_error : exists o, new_at cfg0 = Val o /\ In (Val (ReplyAnswer (RError EDivBy0) 2, Some is_info)) (play_at cfg0 div_calls o).
Proof. pose proof div_play as K. destruct (new_at cfg0) as [o|u|]; try contradiction. exists o. split; [reflexivity|]. rewrite K. right. right. left. reflexivity. Qed.
Lemma div_parsed : match parse_program_at div_text, parse_query_at (append_dot "p(X)") with
  | Some (COk cs), Some (COk q) => existsb (fun a => (i_begin (snd a) =? built_in_line)%N) (atoms_at cs ++ snd q) = false
  | _, _ => False end.
Proof. vm_compute. reflexivity. Qed.
Lemma div_not_named : exists cs q o e n j,
  parse_program_at div_text = Some (COk cs) /\ parse_query_at (append_dot "p(X)") = Some (COk q) /\ new_at cfg0 = Val o /\
  In (Val (ReplyAnswer (RError e) n, j)) (play_at cfg0 div_calls o) /\
  forall a i, In (a, i) (atoms_at cs ++ snd q) -> j <> Some i.
Proof.
  pose proof div_parsed as K. destruct div_error as (o & E1 & E2). destruct (parse_program_at div_text) as [[cs|e|]|]; try contradiction.
  destruct (parse_query_at (append_dot "p(X)")) as [[q|e|]|]; try contradiction. exists cs, q, o, EDivBy0, 2%Z, (Some is_info). split; [reflexivity|]. split; [reflexivity|]. split; [exact E1|]. split; [exact E2|].
  intros a i I E. injection E as <-. assert (T : existsb (fun a => (i_begin (snd a) =? built_in_line)%N) (atoms_at cs ++ snd q) = true); [|rewrite T in K; discriminate K].
  apply existsb_exists. exists (a, is_info). split; [exact I|]. reflexivity.
Qed.
