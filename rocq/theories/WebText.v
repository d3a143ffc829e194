(** What the web front end puts into the page contains no markup. *)
From Verif Require Import Base Machine Heap Compiler Parser Print Organizer Session Search Grammar Texts Exprs Language LockHist AnswerText RunAt Terminal Web.
Open Scope string_scope.
Open Scope list_scope.

(** --- names in run-time errors --- *)
Definition err_words (e : rterr) : Prop :=
  match e with EUnbound v => word v = true | ENotArith f => word (fv_name f) = true | _ => True end.
Lemma nthZ_In {A} (l : list A) i x : nthZ l i = Some x -> In x l.
Proof. unfold nthZ. destruct (i <? 0)%Z; [discriminate|]. apply nth_error_In. Qed.
Lemma eval_words {H} (ops : hops H) cf sto : names_ok sto -> forall fuel h a e, eval_reg H ops cf sto fuel h a = Val (EvErr e) -> err_words e.
Proof.
  intros [Nf Nv]. induction fuel as [|fuel IH]; intros h a e E; [discriminate E|]. cbn [eval_reg] in E. getx E d Ed. getx E c Ec.
  assert (F : forall i, (fv <- err_functor H ops sto h i ;; Val (EvErr (ENotArith fv))) = Val (EvErr e) -> err_words e).
  { clear E. intros i E. getx E fv Ef. injection E as <-. unfold err_functor in Ef. destruct (i <? 0)%Z; [discriminate Ef|]. getx Ef x Ex.
    destruct (nthZ (s_functors sto) (raw_index x)) as [f|] eqn:En; cbn [of_opt] in Ef; [|discriminate Ef]. injection Ef as <-. cbn. apply tok_word, ftok_tok, Nf. exact (nthZ_In _ _ _ En). }
  destruct c; try exact (F _ E); try discriminate E.
  - destruct (nthZ (s_vars sto) v) as [x|] eqn:En; cbn [of_opt bind] in E; [|discriminate E]. injection E as <-. cbn. apply tok_word, Nv. exact (nthZ_In _ _ _ En).
  - getx E l El. destruct l as [l|e1]; [|injection E as <-; exact (IH _ _ _ El)]. getx E r Er. destruct r as [r|e1]; [|injection E as <-; exact (IH _ _ _ Er)].
    destruct (_ && _)%bool; [injection E as <-; exact I|]. getx E z Ez.
Qed.
Lemma raise_words {H} (ops : hops H) cf sto fuel i m e m' : names_ok sto -> local_step H ops cf sto fuel i m = Val (Raise e, m') -> err_words e.
Proof.
  intros N E. destruct (match i with IIs _ _ => true | _ => false end) eqn:Ei.
  - destruct i; try discriminate Ei. cbn [local_step] in E. unfold is_pred in E. getx E ry Ey. getx E b Eb. getx E v Ev. destruct v as [n|e1]; [|injection E as <- _; exact (eval_words ops cf sto N _ _ _ _ Ev)].
    getx E rx Ex. getx E a Ea. getx E d Ed. getx E c Ec. destruct c; try discriminate E; [destruct (Z.eqb _ _); discriminate E|]. getx E h' Eh.
  - exfalso. refine (only_is_raises ops cf sto fuel i m _ e m' E). intros x y ->. discriminate Ei.
Qed.
Section Turns.
Variable cf : cfg.
Variable fuel : nat.
Lemma instr_raise o id i er o' : org_words o -> instr_step cf fuel o id i = Val (RRaise er, o') -> err_words er.
Proof.
  intros W E.
  assert (L : forall i, (e <- get_exec o id ;;
      '(st, m) <- local_step lheap (lops (heap_at (o_arena o) (x_parent e))) cf (o_sto o) fuel i (x_m e) ;;
      match st with
      | Cont => o1 <- put_exec o id (with_m e m) ;; Val (RCont, o1)
      | Failing => o1 <- put_exec o id (with_state (with_m e m) SFail) ;; Val (RFailing, o1)
      | Raise er => o1 <- put_exec o id (with_state (with_m e m) (SError er)) ;; Val (RRaise er, o1)
      end) = Val (RRaise er, o') -> err_words er).
  { clear E. intros j E. getx E e Ee. destruct (local_step _ _ _ _ _ _ _) as [[s m]|u|] eqn:El; cbn [bind] in E; try discriminate E.
    destruct s as [| |er1]; getx E o1 E1; try discriminate E. injection E as -> _. exact (raise_words _ _ _ _ _ _ _ _ (ow_sto o W) El). }
  destruct i; try exact (L _ E); clear L; cbn [instr_step] in E.
  - unfold do_call in E. destruct (plookup f _); [getx E o1 E1; getx E e Ee; getx E e1 Ee1; getx E o2 E2; try discriminate E|]. getx E e Ee. getx E o1 E1; try discriminate E.
  - unfold do_proceed in E. getx E e Ee. destruct (x_codes e) as [|c codes]; [discriminate E|]. getx E d Ed. destruct d; [getx E e1 Ee1; getx E o1 E1; try discriminate E|]. getx E o1 E1. getx E o2 E2; try discriminate E.
  - unfold do_dealloc in E. getx E e Ee. destruct (m_envs (x_m e)) as [|v envs]; [discriminate E|]. destruct (x_codes e) as [|c codes]; [discriminate E|]. getx E o1 E1; try discriminate E.
Qed.
Lemma run_raise id is : forall o er o', org_words o -> run_instrs cf fuel o id is = Val (RRaise er, o') -> err_words er.
Proof.
  induction is as [|i is IH]; intros o er o' W E; cbn [run_instrs] in E; [discriminate E|].
  destruct (instr_step cf fuel o id i) as [[s o1]|u|] eqn:E1; cbn [bind] in E; try discriminate E. pose proof (instr_words cf fuel o id i s o1 W E1) as W1.
  destruct s as [| |er1]; [exact (IH o1 er o' W1 E)| |]; getx E e Ee; getx E e1 Ee1; getx E o2 E2; try discriminate E. injection E as -> _. exact (instr_raise o id i er o1 W E1).
Qed.
Lemma turn_raise o er o' : org_words o -> turn cf fuel o = Val (Some (RError er), o') -> err_words er.
Proof.
  intros W E. unfold turn in E. destruct (o_queue o) as [|id q]; [discriminate E|].
  pose proof (queue_words o q W) as W0. set (o0 := set_queue o q) in *. getx E e Ee. pose proof (get_exec_words o0 id e W0 Ee) as He. destruct (x_codes e) as [|p codes] eqn:Ec; [discriminate E|].
  getx E a Ea. getx E o1 E1. assert (W1 : org_words o1) by (refine (put_exec_words _ _ _ _ W0 _ E1); exact He).
  destruct (run_instrs cf fuel o1 id (ca_code a)) as [[st o2]|u|] eqn:E2; cbn [bind] in E; try discriminate E.
  destruct st as [| |e1]; [..|injection E as -> _; exact (run_raise id _ o1 er o2 W1 E2)]; getx E e2 Ee2; destruct (x_state e2); try discriminate E; getx E b Eb; discriminate E.
Qed.
Lemma answer_raise n : forall k w o er o', org_words o -> answer_loop cf fuel n k w o = Val (RError er, o') -> err_words er.
Proof.
  induction n as [|n IH]; intros k w o er o' W E; [discriminate E|]. cbn [answer_loop] in E. destruct (o_queue o); [discriminate E|].
  destruct (_ <? _)%Z; [discriminate E|]. destruct (w_oom w k); [discriminate E|].
  destruct (turn cf fuel o) as [[x o1]|u|] eqn:Et; cbn [bind] in E; try discriminate E. pose proof (proj1 (turn_words cf fuel o x o1 W Et)) as W1.
  destruct x as [y|]; [injection E as -> <-; exact (turn_raise o er o1 W Et)|exact (IH _ _ _ _ _ W1 E)].
Qed.
End Turns.

(** --- no markup --- *)
Definition plain (s : string) : Prop := all_chars (fun c => negb (markup c)) s = true.
Lemma plain_app a b : plain a -> plain b -> plain (a +++ b).
Proof. unfold plain. intros A B. induction a as [|c a IH]; [exact B|]. cbn in *. apply andb_true_iff in A. destruct A as [A1 A2]. now rewrite A1, IH. Qed.
Lemma plain_head a b : plain (a +++ b) -> plain a.
Proof. unfold plain. induction a as [|c a IH]; [reflexivity|]. cbn. rewrite !andb_true_iff. intros [A B]. auto. Qed.
Lemma plain_char c s : markup c = false -> plain s -> plain (String c s).
Proof. unfold plain. intros A B. cbn. now rewrite A, B. Qed.
Lemma chars_plain f s : (forall c, f c = true -> markup c = false) -> all_chars f s = true -> plain s.
Proof. intros F. unfold plain. induction s as [|c s IH]; [reflexivity|]. cbn. rewrite !andb_true_iff. intros [A B]. rewrite (F c A). auto. Qed.
Lemma word_plain s : word s = true -> plain s.
Proof. apply chars_plain. intros c. unfold solid. rewrite andb_true_iff. intros [_ M]. now destruct (markup c). Qed.
Lemma tidy_plain s : tidy s -> plain s.
Proof.
  induction 1 as [|c s Hc T IH|o s Ho T IH]; [reflexivity| |].
  - apply plain_char; [|exact IH]. unfold solid in Hc. apply andb_true_iff in Hc. now destruct (markup c).
  - apply plain_char; [reflexivity|]. apply plain_app; [apply word_plain, (op_word o Ho)|]. now apply plain_char.
Qed.
Lemma bound_plain x : bound_ok x -> plain (binding_str x).
Proof.
  intros [A B]. unfold binding_str. repeat apply plain_app; try reflexivity; [now apply word_plain|now apply tidy_plain].
Qed.
Lemma bindings_plain l : Forall bound_ok l -> plain (bindings_str l).
Proof.
  induction l as [|b l IH]; intros F; [reflexivity|]. inversion F; subst. destruct l as [|c l]; [now apply bound_plain|].
  change (bindings_str (b :: c :: l)) with (binding_str b +++ " " +++ bindings_str (c :: l)). apply plain_app; [now apply bound_plain|]. apply plain_char; [reflexivity|]. now apply IH.
Qed.
Lemma page_plain r : res_words r -> (forall e, r = RError e -> err_words e) -> plain (page_text r).
Proof.
  intros R E. destruct r as [|b|e| |]; try reflexivity.
  - destruct b as [|x b]; [reflexivity|]. cbn [page_text]. change (answer_str (Some (x :: b))) with (bindings_str (x :: b)). now apply bindings_plain.
  - specialize (E e eq_refl). destruct e; cbn [page_text explain] in *; try reflexivity; cbn in E.
    + repeat apply plain_app; try reflexivity. now apply word_plain.
    + repeat apply plain_app; try reflexivity; [now apply word_plain|]. apply word_plain, int_word.
Qed.

(** --- accepted queries --- *)
Lemma blank_plain b : Exprs.blank b -> plain b.
Proof. apply chars_plain. intros c Hc. pose proof (all_ascii (fun c => implb (is_space c) (negb (markup c))) eq_refl c) as K. cbv beta in K. rewrite Hc in K. now destruct (markup c). Qed.
Lemma lower_plain s : name_of is_lower s = true -> plain s.
Proof. intros N. apply word_plain. exact (tok_word _ (name_word is_lower s lower_idc N)). Qed.
Lemma upper_plain s : name_of is_upper s = true -> plain s.
Proof. intros N. apply word_plain. exact (tok_word _ (name_word is_upper s upper_idc N)). Qed.
Ltac plains := repeat first [assumption | reflexivity | apply blank_plain; assumption | apply lower_plain; assumption | apply upper_plain; assumption | apply plain_app | apply plain_char; [reflexivity|]].
Lemma writes_plain p n s : writes p n s -> plain s.
Proof.
  induction 1; plains.
  - apply word_plain. now apply tok_word, number_word.
  - cbn [In] in *. destruct H1 as [<-|[<-|[]]]; reflexivity.
  - cbn [In] in *. destruct H1 as [<-|[<-|[]]]; reflexivity.
Qed.
Lemma lang_plain : (forall n w, term_lang n w -> plain w) /\ (forall n w, head_lang n w -> plain w) /\ (forall n w, list_lang n w -> plain w) /\ (forall l w, terms_lang l w -> plain w).
Proof. apply texts_mut; intros; plains. exact (writes_plain _ _ _ w0). Qed.
Lemma goal_plain n w : goal_lang n w -> plain w.
Proof.
  destruct lang_plain as (A & B & C & D). intros G. destruct G; plains; eauto using writes_plain.
Qed.
Lemma goals_plain l w : goals_lang l w -> plain w.
Proof. induction 1; plains; eauto using goal_plain. Qed.
Lemma query_plain q s : query_lang q s -> plain s.
Proof. intros (u & b & b' & -> & G & B & B'). pose proof (goals_plain _ _ G). plains. Qed.
