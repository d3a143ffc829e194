(** Histories of calls of the public interface, and what they keep true. *)
From Verif Require Import Base Machine Heap Facts HeapSim Compiler Parser Print Organizer Process Refine Turn Shape Mono.
Open Scope string_scope.
Open Scope list_scope.

(** State of the current query: none, loaded but not yet run, running, or running while the program it was using has
    been replaced. *)
Inductive qstate := QNone | QFresh (q : list node) | QStarted (q : list node) | QStale.
Definition q_reload (s : qstate) : qstate := match s with QStarted _ => QStale | _ => s end.
Definition q_run (s : qstate) : qstate := match s with QFresh q => QStarted q | _ => s end.

(** [session cf o P s]: the object [o] came about by calls of the public interface, [P] is the program loaded last
    and [s] the state of the query. Excluded are only get_answer after replacing the program of a running query
    (C31) and everything after OUT_OF_MEMORY (C32). *)
Inductive session (cf : cfg) : org -> list (list node) -> qstate -> Prop :=
| ss_new o : new_org cf = Val o -> session cf o [] QNone
| ss_program o P s text cs o' : session cf o P s -> parse_program text = Some (COk cs) ->
    load_program cf text o = Some (LOk, o') -> session cf o' cs (q_reload s)
| ss_program_err o P s text r o' : session cf o P s ->
    load_program cf text o = Some (r, o') -> r <> LOk -> session cf o' P s
| ss_query o P s text q o' : session cf o P s -> parse_query (append_dot text) = Some (COk q) ->
    load_query cf text o = Some (LOk, o') -> session cf o' P (QFresh q)
| ss_query_err o P s text r o' : session cf o P s ->
    load_query cf text o = Some (r, o') -> r <> LOk -> session cf o' P QNone
| ss_limit o P s t : session cf o P s -> session cf (set_time_limit t o) P s
| ss_answer o P s fuel n w r o' : session cf o P s -> s <> QStale ->
    get_answer cf fuel n w o = Val (r, o') -> r <> ROutOfMemory -> session cf o' P (q_run s).

(** --- tables only grow --- *)
Definition sto_ext (s s' : storage) : Prop :=
  (exists l, s_functors s' = s_functors s ++ l) /\ (exists l, s_vars s' = s_vars s ++ l).
Lemma sto_ext_refl s : sto_ext s s.
Proof. split; exists []; now rewrite app_nil_r. Qed.
Lemma sto_ext_trans s1 s2 s3 : sto_ext s1 s2 -> sto_ext s2 s3 -> sto_ext s1 s3.
Proof.
  intros [[l E] [k F]] [[l' E'] [k' F']]. split; [exists (l ++ l')|exists (k ++ k')].
  - now rewrite E', E, app_assoc.
  - now rewrite F', F, app_assoc.
Qed.
Definition cext {A} (m : comp A) : Prop := forall s, sto_ext s (snd (m s)).
Lemma cext_bind {A B} (m : comp A) (f : A -> comp B) : cext m -> (forall a, cext (f a)) -> cext (cbind m f).
Proof.
  intros Hm Hf s. unfold cbind. specialize (Hm s). destruct (m s) as [[a|e|] s1]; cbn in *; auto.
  eapply sto_ext_trans; [eassumption|apply Hf].
Qed.
Lemma cext_ret {A} (a : A) : cext (cret a).
Proof. intros s. apply sto_ext_refl. Qed.
Lemma cext_throw {A} e : cext (@cthrow A e).
Proof. intros s. apply sto_ext_refl. Qed.
Lemma cext_esc {A} : cext (@cesc A).
Proof. intros s. apply sto_ext_refl. Qed.
Lemma cext_fidx f : cext (cfidx f).
Proof.
  intros s. unfold cfidx, functor_index_of. destruct (fv_pos f (s_functors s)); cbn; [apply sto_ext_refl|].
  split; [exists [f]|exists []]; cbn; auto. now rewrite app_nil_r.
Qed.
Lemma cext_var nm : cext (cvar nm).
Proof. intros s. cbn. split; [exists []|exists [nm]]; cbn; auto. now rewrite app_nil_r. Qed.
Lemma cext_stoi s : cext (cstoi s).
Proof. unfold cstoi. destruct (int_text_val s); [|apply cext_esc]. destruct (_ && _)%bool; auto using cext_ret, cext_esc. Qed.
Lemma cext_opidx s : cext (copidx s).
Proof. unfold copidx. destruct (op_index s); auto using cext_ret, cext_esc. Qed.
Ltac cext :=
  repeat first
    [ apply cext_ret | apply cext_throw | apply cext_esc | apply cext_fidx | apply cext_var | apply cext_stoi
    | apply cext_opidx | solve [auto]
    | apply cext_bind; [|intros ?]
    | match goal with |- cext (match ?x with _ => _ end) => destruct x end
    | match goal with |- cext (let '(_, _) := ?x in _) => destruct x end ].
Section Ext.
Variable perm : string -> option nat.
Lemma query_kid_ext k seen : cext (query_kid perm k seen).
Proof. destruct k as [n x]. unfold query_kid. cext. Qed.
Lemma query_kids_ext ks : forall seen, cext (query_kids perm ks seen).
Proof. induction ks as [|k ks IH]; intros seen; cbn [query_kids]; cext. apply query_kid_ext. Qed.
Lemma query_ent_ext vx e seen : cext (query_ent perm vx e seen).
Proof. unfold query_ent. cext; apply query_kids_ext. Qed.
Lemma query_ents_ext vx es : forall seen, cext (query_ents perm vx es seen).
Proof. induction es as [|e es IH]; intros seen; cbn [query_ents]; cext. apply query_ent_ext. Qed.
Lemma to_query_ext a seen : cext (to_query perm a seen).
Proof. unfold to_query. cext. apply query_ents_ext. Qed.
Lemma prog_kid_ext k seen : cext (prog_kid perm k seen).
Proof. destruct k as [n x]. unfold prog_kid. cext. Qed.
Lemma prog_kids_ext ks : forall seen, cext (prog_kids perm ks seen).
Proof. induction ks as [|k ks IH]; intros seen; cbn [prog_kids]; cext. apply prog_kid_ext. Qed.
Lemma prog_ent_ext e seen : cext (prog_ent perm e seen).
Proof. unfold prog_ent. cext; apply prog_kids_ext. Qed.
Lemma prog_ents_ext es : forall seen, cext (prog_ents perm es seen).
Proof. induction es as [|e es IH]; intros seen; cbn [prog_ents]; cext. apply prog_ent_ext. Qed.
Lemma to_program_ext a seen : cext (to_program perm a seen).
Proof. unfold to_program. cext. apply prog_ents_ext. Qed.
Lemma compile_query_atom_ext pre u n seen : cext (compile_query_atom perm pre u n seen).
Proof.
  unfold compile_query_atom. destruct (assign_one n) as [a cnt]. apply cext_bind; [apply to_query_ext|].
  intros [c s]. apply cext_ret.
Qed.
Lemma compile_query_atoms_ext u ns : forall pre seen, cext (compile_query_atoms perm pre u ns seen).
Proof. induction ns as [|n ns IH]; intros pre seen; cbn [compile_query_atoms]; [apply cext_ret|].
  apply cext_bind; [apply compile_query_atom_ext|]. intros [a s]. apply cext_bind; [apply IH|]. intros r. apply cext_ret.
Qed.
End Ext.
Lemma compile_query_ext cf q : cext (compile_query cf q).
Proof. unfold compile_query. apply compile_query_atoms_ext. Qed.
Lemma compile_program_term_ext cf b c : cext (compile_program_term cf b c).
Proof.
  unfold compile_program_term.
  destruct c as [|h body]; [apply cext_esc|]. destruct (negb b && redefines h); [apply cext_throw|].
  destruct (match body with [] => _ | _ => _ end) as [[ha oba] cnt].
  apply cext_bind; [apply to_program_ext|]. intros [hc s1]. apply cext_bind.
  - destruct oba; [|apply cext_ret]. apply cext_bind; [apply to_query_ext|]. intros [? ?]. apply cext_ret.
  - intros [firsts s3]. apply cext_bind; [apply compile_query_atoms_ext|]. intros others. apply cext_ret.
Qed.
Lemma compile_clauses_ext cf b cs : forall p, cext (compile_clauses cf b cs p).
Proof. induction cs as [|c cs IH]; intros p; cbn [compile_clauses]; [apply cext_ret|].
  apply cext_bind; [apply compile_program_term_ext|]. intros [f r]. apply IH. Qed.
Lemma compile_binary_ext cf nm f p : cext (compile_binary cf nm f p).
Proof. unfold compile_binary. destruct (pred_regs _).
  apply cext_bind; [apply compile_program_term_ext|]. intros [fv r]. apply cext_ret. Qed.
Lemma compile_built_ins_ext cf : cext (compile_built_ins cf).
Proof.
  unfold compile_built_ins. repeat (apply cext_bind; [apply compile_binary_ext|intros ?]). apply compile_clauses_ext.
Qed.

(** --- the compiled program --- *)
Definition head_fv (c : list node) : option fview := match c with [] => None | h :: _ => Some (to_fview h) end.
Definition has_head (f : fview) (c : list node) : bool :=
  match head_fv c with Some g => fview_eqb g f | None => false end.
(** the clauses of a predicate, in textual order *)
Definition clauses_of (f : fview) (P : list (list node)) : list (list node) := filter (has_head f) P.

(** The rule [r] is the code of the clause [c]. *)
Definition clause_code (cf : cfg) (sto : storage) (b : bool) (c : list node) (r : rule) : Prop :=
  exists s0 s1 f, compile_program_term cf b c s0 = (COk (f, r), s1) /\ sto_ext s1 sto.
(** the three predicates with an instruction of their own *)
Definition special (f : fview) : option (nat -> nat -> instr) :=
  if fview_eqb f (FV "is" 2) then Some IIs
  else if fview_eqb f (FV "==" 2) then Some IEq
  else if fview_eqb f (FV "\==" 2) then Some INeq
  else None.
Definition special_code (cf : cfg) (sto : storage) (f : fview) (i : nat -> nat -> instr) (rs : list rule) : Prop :=
  exists r, clause_code cf sto true [binary_pred (fv_name f)] r /\
    rs = [insert_pred i (fst (pred_regs (binary_pred (fv_name f)))) (snd (pred_regs (binary_pred (fv_name f)))) r].
Definition is_append (f : fview) : bool := fview_eqb f (FV "append" 3).

Definition prog_code (cf : cfg) (sto : storage) (P : list (list node)) (pg : prog) : Prop :=
  forall f,
    match special f with
    | Some i => exists rs, plookup f pg = Some rs /\ special_code cf sto f i rs
    | None =>
        if is_append f then exists rs, plookup f pg = Some rs /\ Forall2 (clause_code cf sto true) append_clauses rs
        else match plookup f pg with
             | Some rs => Forall2 (clause_code cf sto false) (clauses_of f P) rs /\ rs <> []
             | None => clauses_of f P = []
             end
    end.

Lemma clause_code_ext cf sto sto' b c r : sto_ext sto sto' -> clause_code cf sto b c r -> clause_code cf sto' b c r.
Proof. intros H (s0 & s1 & f & E & X). exists s0, s1, f. split; [assumption|]. eapply sto_ext_trans; eassumption. Qed.
Lemma prog_code_ext cf sto sto' P pg : sto_ext sto sto' -> prog_code cf sto P pg -> prog_code cf sto' P pg.
Proof.
  intros H K f. specialize (K f). assert (Q : forall b c r, clause_code cf sto b c r -> clause_code cf sto' b c r)
    by (intros; eapply clause_code_ext; eassumption).
  destruct (special f) as [i|].
  - destruct K as (rs & E & r & K & ->). exists [insert_pred i (fst (pred_regs (binary_pred (fv_name f))))
      (snd (pred_regs (binary_pred (fv_name f)))) r]. split; [assumption|]. exists r. auto.
  - destruct (is_append f).
    + destruct K as (rs & E & K). exists rs. split; [assumption|]. eapply Forall2_impl; [|exact K]. auto.
    + destruct (plookup f pg) as [rs|]; [|assumption]. destruct K as [K N]. split; [|assumption].
      eapply Forall2_impl; [|exact K]. auto.
Qed.

Lemma cbind_ok {A B} (m : comp A) (f : A -> comp B) s b s' : cbind m f s = (COk b, s') ->
  exists a s1, m s = (COk a, s1) /\ f a s1 = (COk b, s').
Proof. unfold cbind. destruct (m s) as [[a|e|] s1]; try discriminate. eauto. Qed.

(** compile_clauses adds the clauses of a predicate in textual order *)
Lemma compile_program_term_fv cf b c s f r s' : compile_program_term cf b c s = (COk (f, r), s') ->
  head_fv c = Some f /\ (b = false -> match c with h :: _ => redefines h = false | [] => True end).
Proof.
  unfold compile_program_term. destruct c as [|h body]; [discriminate|].
  destruct (negb b && redefines h) eqn:R; [discriminate|].
  destruct (match body with [] => _ | _ => _ end) as [[ha oba] cnt].
  intros E. apply cbind_ok in E. destruct E as ([hc s1] & s2 & _ & E).
  apply cbind_ok in E. destruct E as ([fi s3] & s4 & _ & E).
  apply cbind_ok in E. destruct E as (ot & s5 & _ & E).
  injection E as <- _ _. split; [reflexivity|]. intros ->. cbn in R. assumption.
Qed.

Definition rules_of (f : fview) (p : prog) : list rule := match plookup f p with Some rs => rs | None => [] end.

Lemma compile_clauses_code cf b cs : forall p s p' s', compile_clauses cf b cs p s = (COk p', s') ->
  sto_ext s s' /\
  forall f, (exists rs, rules_of f p' = rules_of f p ++ rs /\ Forall2 (clause_code cf s' b) (clauses_of f cs) rs) /\
            (plookup f p' = None <-> plookup f p = None /\ clauses_of f cs = []) /\
            (b = false -> redefines (NFun (fv_name f) (repeat (NVar "") (fv_arity f))) = true -> clauses_of f cs = []).
Proof.
  induction cs as [|c cs IH]; intros p s p' s' E; cbn [compile_clauses] in E.
  - injection E as <- <-. split; [apply sto_ext_refl|]. intros f. split; [|split].
    + exists []. rewrite app_nil_r. split; [reflexivity|constructor].
    + cbn. tauto.
    + reflexivity.
  - unfold cbind in E. destruct (compile_program_term cf b c s) as [[[g r]|e|] s1] eqn:Ec; try discriminate.
    pose proof (compile_program_term_ext cf b c s) as X1. rewrite Ec in X1. cbn in X1.
    destruct (compile_program_term_fv _ _ _ _ _ _ _ Ec) as [Eg Hr].
    destruct (IH _ _ _ _ E) as [X2 K]. split; [eapply sto_ext_trans; eassumption|].
    intros f. destruct (K f) as ((rs & Er & F) & N & R). unfold rules_of in Er.
    rewrite plookup_padd in Er, N.
    assert (Eh : has_head f c = fview_eqb f g).
    { unfold has_head. rewrite Eg. unfold fview_eqb. rewrite (Nat.eqb_sym (fv_arity g)), (String.eqb_sym (fv_name g)).
      reflexivity. }
    unfold clauses_of in *. cbn [filter]. rewrite Eh.
    destruct (fview_eqb f g) eqn:Ef.
    + split; [|split].
      * exists (r :: rs). split.
        -- unfold rules_of. rewrite Er. apply fview_eqb_eq in Ef. subst g. destruct (plookup f p); cbn; [|reflexivity].
           rewrite <- app_assoc. reflexivity.
        -- constructor; [|assumption]. exists s, s1, g. split; assumption.
      * split; [intros Hn; apply N in Hn; destruct Hn as [Hn _]; discriminate|intros [_ ?]; discriminate].
      * intros -> Hd. exfalso. apply fview_eqb_eq in Ef. subst g. specialize (Hr eq_refl).
        destruct c as [|h body]; [discriminate|]. injection Eg as Eg. rewrite <- Eg in Hd. unfold to_fview in Hd.
        unfold redefines in Hr, Hd. cbn [fv_name fv_arity node_name kids] in Hd. rewrite repeat_length in Hd. congruence.
    + split; [|split]; auto. exists rs. split; assumption.
Qed.

Lemma special_eq f i : special f = Some i ->
  (f = FV "is" 2 /\ i = IIs) \/ (f = FV "==" 2 /\ i = IEq) \/ (f = FV "\==" 2 /\ i = INeq).
Proof.
  unfold special. destruct (fview_eqb f (FV "is" 2)) eqn:E1.
  - apply fview_eqb_eq in E1. intros H. injection H as <-. auto.
  - destruct (fview_eqb f (FV "==" 2)) eqn:E2.
    + apply fview_eqb_eq in E2. intros H. injection H as <-. auto.
    + destruct (fview_eqb f (FV "\==" 2)) eqn:E3; [|discriminate].
      apply fview_eqb_eq in E3. intros H. injection H as <-. auto.
Qed.

(** --- the built-in predicates --- *)
Definition built_code (cf : cfg) (sto : storage) (pg : prog) : Prop :=
  exists r1 r2 r3 r4,
    pg = [(FV "is" 2, r1); (FV "==" 2, r2); (FV "\==" 2, r3); (FV "append" 3, r4)] /\
    special_code cf sto (FV "is" 2) IIs r1 /\ special_code cf sto (FV "==" 2) IEq r2 /\
    special_code cf sto (FV "\==" 2) INeq r3 /\ Forall2 (clause_code cf sto true) append_clauses r4.

Lemma special_code_ext cf sto sto' f i rs : sto_ext sto sto' -> special_code cf sto f i rs -> special_code cf sto' f i rs.
Proof. intros H (r & K & E). exists r. split; [eapply clause_code_ext; eassumption|assumption]. Qed.
Lemma clauses_code_ext cf sto sto' b cs rs : sto_ext sto sto' ->
  Forall2 (clause_code cf sto b) cs rs -> Forall2 (clause_code cf sto' b) cs rs.
Proof. intros H. apply Forall2_impl. intros. eapply clause_code_ext; eassumption. Qed.
Lemma built_code_ext cf sto sto' pg : sto_ext sto sto' -> built_code cf sto pg -> built_code cf sto' pg.
Proof.
  intros H (r1 & r2 & r3 & r4 & E & K1 & K2 & K3 & K4). exists r1, r2, r3, r4. split; [assumption|].
  repeat split; eauto using special_code_ext, clauses_code_ext.
Qed.

Lemma compile_binary_code cf nm i p s p' s' : compile_binary cf nm i p s = (COk p', s') ->
  exists rs, p' = match rs with [r] => padd (FV nm 2) r p | _ => p end /\ special_code cf s' (FV nm 2) i rs /\
             exists r, rs = [r].
Proof.
  unfold compile_binary. destruct (pred_regs (binary_pred nm)) as [xl xr] eqn:Ep. intros E.
  apply cbind_ok in E. destruct E as ([fv r] & s1 & E1 & E2). injection E2 as <- <-.
  destruct (compile_program_term_fv _ _ _ _ _ _ _ E1) as [Ef _]. injection Ef as <-.
  exists [insert_pred i xl xr r]. split; [reflexivity|]. split; [|eauto]. exists r. split.
  - exists s, s1, (FV nm 2). split; [exact E1|apply sto_ext_refl].
  - cbn [fv_name]. now rewrite Ep.
Qed.
Lemma built_ins_code cf s p s' : compile_built_ins cf s = (COk p, s') -> built_code cf s' p.
Proof.
  unfold compile_built_ins. intros E.
  apply cbind_ok in E. destruct E as (p1 & s1 & E1 & E).
  apply cbind_ok in E. destruct E as (p2 & s2 & E2 & E).
  apply cbind_ok in E. destruct E as (p3 & s3 & E3 & E).
  pose proof (compile_binary_ext cf "==" IEq p1 s1) as X2. rewrite E2 in X2. cbn in X2.
  pose proof (compile_binary_ext cf "\==" INeq p2 s2) as X3. rewrite E3 in X3. cbn in X3.
  apply compile_binary_code in E1. destruct E1 as (rs1 & -> & K1 & r1 & ->).
  apply compile_binary_code in E2. destruct E2 as (rs2 & -> & K2 & r2 & ->).
  apply compile_binary_code in E3. destruct E3 as (rs3 & -> & K3 & r3 & ->).
  destruct (compile_clauses_code _ _ _ _ _ _ _ E) as [X4 K].
  cbn [append_clauses compile_clauses] in E.
  apply cbind_ok in E. destruct E as ([f4 r4] & s4 & E4 & E).
  apply cbind_ok in E. destruct E as ([f5 r5] & s5 & E5 & E). injection E as <- <-.
  destruct (compile_program_term_fv _ _ _ _ _ _ _ E4) as [Ef4 _]. injection Ef4 as <-.
  destruct (compile_program_term_fv _ _ _ _ _ _ _ E5) as [Ef5 _]. injection Ef5 as <-.
  exists [r1], [r2], [r3], [r4; r5]. split; [reflexivity|].
  pose proof (sto_ext_trans _ _ _ X3 X4) as X34. pose proof (sto_ext_trans _ _ _ X2 X34) as X234.
  repeat split; eauto using special_code_ext.
  destruct (K (FV "append" 3)) as ((rs & Er & F) & _). cbn in Er. subst rs. exact F.
Qed.

Lemma plookup_merge cf sto built p f : built_code cf sto built ->
  plookup f (merge built p) = match plookup f built with Some rs => Some rs | None => plookup f p end.
Proof.
  intros (r1 & r2 & r3 & r4 & -> & _). unfold merge. cbn [fold_left fst snd]. rewrite !plookup_pset. cbn [plookup].
  destruct (fview_eqb f (FV "is" 2)) eqn:E1.
  { apply fview_eqb_eq in E1. subst f. reflexivity. }
  destruct (fview_eqb f (FV "==" 2)) eqn:E2.
  { apply fview_eqb_eq in E2. subst f. reflexivity. }
  destruct (fview_eqb f (FV "\==" 2)) eqn:E3.
  { apply fview_eqb_eq in E3. subst f. reflexivity. }
  destruct (fview_eqb f (FV "append" 3)); reflexivity.
Qed.
Lemma built_lookup cf sto built f : built_code cf sto built ->
  match special f with
  | Some i => exists rs, plookup f built = Some rs /\ special_code cf sto f i rs
  | None => if is_append f then exists rs, plookup f built = Some rs /\ Forall2 (clause_code cf sto true) append_clauses rs
            else plookup f built = None
  end.
Proof.
  intros (r1 & r2 & r3 & r4 & -> & K1 & K2 & K3 & K4). unfold special, is_append. cbn [plookup].
  destruct (fview_eqb f (FV "is" 2)) eqn:E1.
  { apply fview_eqb_eq in E1. subst f. eauto. }
  destruct (fview_eqb f (FV "==" 2)) eqn:E2.
  { apply fview_eqb_eq in E2. subst f. eauto. }
  destruct (fview_eqb f (FV "\==" 2)) eqn:E3.
  { apply fview_eqb_eq in E3. subst f. eauto. }
  destruct (fview_eqb f (FV "append" 3)); eauto.
Qed.

Lemma merge_code cf sto built P p : built_code cf sto built ->
  (forall f, (plookup f p = None <-> clauses_of f P = []) /\
             Forall2 (clause_code cf sto false) (clauses_of f P) (rules_of f p)) ->
  prog_code cf sto P (merge built p).
Proof.
  intros B H f. rewrite (plookup_merge cf sto) by assumption. pose proof (built_lookup cf sto built f B) as L.
  destruct (special f) as [i|].
  - destruct L as (rs & -> & K). eauto.
  - destruct (is_append f).
    + destruct L as (rs & -> & K). eauto.
    + rewrite L. destruct (H f) as [N F]. unfold rules_of in F. destruct (plookup f p) as [rs|].
      * split; [assumption|]. intros ->. inversion F as [E|]. symmetry in E. apply N in E. discriminate.
      * now apply N.
Qed.

Lemma pset_entries f rs p : entries_shape p -> Forall rule_shape rs -> entries_shape (pset f rs p).
Proof.
  intros Hp Hr. induction Hp as [|[g rs'] p K Hp IH]; cbn; [constructor; [assumption|constructor]|].
  destruct (fview_eqb f g); constructor; auto.
Qed.
Lemma merge_entries built : forall p, entries_shape built -> entries_shape p -> entries_shape (merge built p).
Proof.
  unfold merge. induction built as [|[f rs] b IH]; intros p Hb Hp; cbn; [assumption|].
  inversion Hb; subst. apply IH; auto. apply pset_entries; auto.
Qed.

Record code_ok (cf : cfg) (o : org) (P : list (list node)) : Prop := {
  ck_prog_shape : entries_shape (o_prog o);
  ck_built_shape : entries_shape (o_built o);
  ck_prog : prog_code cf (o_sto o) P (o_prog o);
  ck_built : built_code cf (o_sto o) (o_built o)
}.
Lemma code_ok_ext cf o o' P : o_prog o' = o_prog o -> o_built o' = o_built o -> sto_ext (o_sto o) (o_sto o') ->
  code_ok cf o P -> code_ok cf o' P.
Proof.
  intros E1 E2 X [A B C D]. split; rewrite ?E1, ?E2; auto.
  - eapply prog_code_ext; eassumption.
  - eapply built_code_ext; eassumption.
Qed.

Lemma empty_prog_code cf sto p : built_code cf sto p -> prog_code cf sto [] p.
Proof.
  intros B f. pose proof (built_lookup cf sto p f B) as L. destruct (special f); [assumption|].
  destruct (is_append f); [assumption|]. rewrite L. reflexivity.
Qed.
