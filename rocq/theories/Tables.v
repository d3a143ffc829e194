(** Invariants of the tables of functors and variable names. *)
From Verif Require Import Base Machine Heap Facts Compiler Parser Print Organizer HeapSim Process Refine Mono Turn Shape Session Search Code Alloc Atoms Clause Parsed.
Open Scope string_scope.
Open Scope list_scope.

(** What entering a functor or a variable name preserves, the compiler preserves. *)
Section Inv.
Variable Q : storage -> Prop.
Hypothesis Qf : forall f s, Q s -> Q (snd (cfidx f s)).
Hypothesis Qv : forall nm s, Q s -> Q (snd (cvar nm s)).
Definition cnd {A} (m : comp A) : Prop := forall s, Q s -> Q (snd (m s)).
Lemma cnd_bind {A B} (m : comp A) (f : A -> comp B) : cnd m -> (forall a, cnd (f a)) -> cnd (cbind m f).
Proof.
  intros Hm Hf s. unfold cbind. specialize (Hm s). destruct (m s) as [[a|e|] s1]; cbn in *; auto.
  intros H. apply Hf. auto.
Qed.
Lemma cnd_ret {A} (a : A) : cnd (cret a).
Proof. intros s H. exact H. Qed.
Lemma cnd_throw {A} e : cnd (@cthrow A e).
Proof. intros s H. exact H. Qed.
Lemma cnd_esc {A} : cnd (@cesc A).
Proof. intros s H. exact H. Qed.
Lemma cnd_fidx f : cnd (cfidx f).
Proof. exact (Qf f). Qed.
Lemma cnd_var nm : cnd (cvar nm).
Proof. exact (Qv nm). Qed.
Lemma cnd_stoi s : cnd (cstoi s).
Proof. unfold cstoi. destruct (int_text_val s); [|apply cnd_esc]. destruct (_ && _)%bool; auto using cnd_ret, cnd_esc. Qed.
Lemma cnd_opidx s : cnd (copidx s).
Proof. unfold copidx. destruct (op_index s); auto using cnd_ret, cnd_esc. Qed.
Ltac cnd :=
  repeat first
    [ apply cnd_ret | apply cnd_throw | apply cnd_esc | apply cnd_fidx | apply cnd_var | apply cnd_stoi
    | apply cnd_opidx | solve [auto]
    | apply cnd_bind; [|intros ?]
    | match goal with |- cnd (match ?x with _ => _ end) => destruct x end
    | match goal with |- cnd (let '(_, _) := ?x in _) => destruct x end ].
Lemma query_kid_nd perm k seen : cnd (query_kid perm k seen).
Proof. destruct k as [n x]. unfold query_kid. cnd. Qed.
Lemma query_kids_nd perm ks : forall seen, cnd (query_kids perm ks seen).
Proof. induction ks as [|k ks IH]; intros seen; cbn [query_kids]; cnd. apply query_kid_nd. Qed.
Lemma query_ent_nd perm vx e seen : cnd (query_ent perm vx e seen).
Proof. unfold query_ent. cnd; apply query_kids_nd. Qed.
Lemma query_ents_nd perm vx es : forall seen, cnd (query_ents perm vx es seen).
Proof. induction es as [|e es IH]; intros seen; cbn [query_ents]; cnd. apply query_ent_nd. Qed.
Lemma to_query_nd perm a seen : cnd (to_query perm a seen).
Proof. unfold to_query. cnd. apply query_ents_nd. Qed.
Lemma prog_kid_nd perm k seen : cnd (prog_kid perm k seen).
Proof. destruct k as [n x]. unfold prog_kid. cnd. Qed.
Lemma prog_kids_nd perm ks : forall seen, cnd (prog_kids perm ks seen).
Proof. induction ks as [|k ks IH]; intros seen; cbn [prog_kids]; cnd. apply prog_kid_nd. Qed.
Lemma prog_ent_nd perm e seen : cnd (prog_ent perm e seen).
Proof. unfold prog_ent. cnd; apply prog_kids_nd. Qed.
Lemma prog_ents_nd perm es : forall seen, cnd (prog_ents perm es seen).
Proof. induction es as [|e es IH]; intros seen; cbn [prog_ents]; cnd. apply prog_ent_nd. Qed.
Lemma to_program_nd perm a seen : cnd (to_program perm a seen).
Proof. unfold to_program. cnd. apply prog_ents_nd. Qed.
Lemma compile_query_atom_nd perm pre u n seen : cnd (compile_query_atom perm pre u n seen).
Proof.
  unfold compile_query_atom. destruct (assign_one n) as [a cnt]. apply cnd_bind; [apply to_query_nd|].
  intros [c s]. apply cnd_ret.
Qed.
Lemma compile_query_atoms_nd perm u ns : forall pre seen, cnd (compile_query_atoms perm pre u ns seen).
Proof. induction ns as [|n ns IH]; intros pre seen; cbn [compile_query_atoms]; [apply cnd_ret|].
  apply cnd_bind; [apply compile_query_atom_nd|]. intros [a s]. apply cnd_bind; [apply IH|]. intros r. apply cnd_ret.
Qed.
Lemma compile_query_nd cf q : cnd (compile_query cf q).
Proof. unfold compile_query. apply compile_query_atoms_nd. Qed.
Lemma compile_program_term_nd cf b c : cnd (compile_program_term cf b c).
Proof.
  unfold compile_program_term.
  destruct c as [|h body]; [apply cnd_esc|]. destruct (negb b && redefines h); [apply cnd_throw|].
  destruct (match body with [] => _ | _ => _ end) as [[ha oba] cnt].
  apply cnd_bind; [apply to_program_nd|]. intros [hc s1]. apply cnd_bind.
  - destruct oba; [|apply cnd_ret]. apply cnd_bind; [apply to_query_nd|]. intros [? ?]. apply cnd_ret.
  - intros [firsts s3]. apply cnd_bind; [apply compile_query_atoms_nd|]. intros others. apply cnd_ret.
Qed.
Lemma compile_clauses_nd cf b cs : forall p, cnd (compile_clauses cf b cs p).
Proof. induction cs as [|c cs IH]; intros p; cbn [compile_clauses]; [apply cnd_ret|].
  apply cnd_bind; [apply compile_program_term_nd|]. intros [f r]. apply IH. Qed.
Lemma compile_binary_nd cf nm f p : cnd (compile_binary cf nm f p).
Proof. unfold compile_binary. destruct (pred_regs _).
  apply cnd_bind; [apply compile_program_term_nd|]. intros [fv r]. apply cnd_ret. Qed.
Lemma compile_built_ins_nd cf : cnd (compile_built_ins cf).
Proof.
  unfold compile_built_ins. repeat (apply cnd_bind; [apply compile_binary_nd|intros ?]). apply compile_clauses_nd.
Qed.
End Inv.

(** C24: no functor is entered twice. *)
Lemma nodup_fidx f s : NoDup (s_functors s) -> NoDup (s_functors (snd (cfidx f s))).
Proof.
  unfold cfidx, functor_index_of. intros H. destruct (fv_pos f (s_functors s)) eqn:E; cbn; [assumption|].
  apply fv_pos_none in E. apply NoDup_rev in H. rewrite <- (rev_involutive (s_functors s ++ [f])). apply NoDup_rev.
  rewrite rev_app_distr. cbn. constructor; [|assumption]. now rewrite <- in_rev.
Qed.

Section Sessions.
Variable Q : storage -> Prop.
Hypothesis Qf : forall f s, Q s -> Q (snd (cfidx f s)).
Hypothesis Qv : forall nm s, Q s -> Q (snd (cvar nm s)).
Hypothesis Q0 : Q empty_storage.
Theorem session_tables cf o P s : session cf o P s -> Q (o_sto o).
Proof.
  induction 1 as [o E|o P s text cs o' H IH Ep E|o P s text r o' H IH E Hr|o P s text q o' H IH Ep E
                 |o P s text r o' H IH E Hr|o P s t H IH|o P s fuel n w r o' H IH Hs E Hr].
  - unfold new_org in E. pose proof (compile_built_ins_nd Q Qf Qv cf empty_storage Q0) as K.
    destruct (compile_built_ins cf empty_storage) as [[p|e|] s1]; try discriminate. injection E as <-. exact K.
  - unfold load_program in E. rewrite Ep in E. pose proof (compile_clauses_nd Q Qf Qv cf false cs [] _ IH) as K.
    unfold compile_program in E. destruct (compile_clauses cf false cs [] (o_sto o)) as [[p|e|] s1]; try discriminate. injection E as <-. exact K.
  - unfold load_program in E. destruct (parse_program text) as [[cs|e|]|]; try discriminate.
    + pose proof (compile_clauses_nd Q Qf Qv cf false cs [] _ IH) as K. unfold compile_program in E.
      destruct (compile_clauses cf false cs [] (o_sto o)) as [[p|e|] s1]; injection E as <- <-; exact K.
    + injection E as _ <-. exact IH.
    + injection E as _ <-. exact IH.
  - unfold load_query in E. rewrite Ep in E. pose proof (compile_query_nd Q Qf Qv cf q _ IH) as K.
    destruct (compile_query cf q (o_sto o)) as [[r|e|] s1]; try discriminate. injection E as <-. exact K.
  - unfold load_query in E. destruct (parse_query (append_dot text)) as [[q|e|]|]; try discriminate.
    + pose proof (compile_query_nd Q Qf Qv cf q _ IH) as K.
      destruct (compile_query cf q (o_sto o)) as [[r'|e|] s1]; injection E as <- <-; exact K.
    + injection E as _ <-. exact IH.
    + injection E as _ <-. exact IH.
  - exact IH.
  - destruct (session_inv _ _ _ _ H) as [_ K].
    assert (Es : o_sto o' = o_sto o).
    { assert (G : forall root T Qu g, refines cf o (map snd Qu) -> search cf (o_sto o) (o_prog o) root T Qu ->
                goals cf (o_sto o) (o_prog o) T g -> o_stats o = (Z.of_nat g mod 4294967296)%Z -> o_sto o' = o_sto o).
      { intros root T Qu g A B C D. destruct (answer_loop_search cf _ _ _ _ _ _ _ _ _ _ _ A B C D E Hr) as (? & ? & ? & _ & _ & _ & _ & (S1 & _) & _). exact S1. }
      destruct s as [|q|q|]; [|destruct K as (rl & K1 & K2 & K3 & K4 & K5)|destruct K as (rl & T & Qu & g & K1 & K2 & K3 & K4 & K5)|contradiction].
      - unfold get_answer in E. destruct n as [|n]; cbn in E; [discriminate|]. cbn in K. rewrite K in E. injection E as <- <-. reflexivity.
      - eapply (G (init_proc rl) [] [([], init_proc rl)] 0); auto; try solve [constructor].
        cbn [map snd]. apply init_refines; auto. destruct (session_inv _ _ _ _ H) as [A _]. apply entries_prog_shape. apply A.
      - eapply G; eauto. }
    rewrite Es. exact IH.
Qed.
End Sessions.

Theorem session_nodup cf o P s : session cf o P s -> NoDup (s_functors (o_sto o)).
Proof. apply (session_tables (fun s => NoDup (s_functors s))); [apply nodup_fidx|auto|constructor]. Qed.
