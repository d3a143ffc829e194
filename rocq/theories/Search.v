(** The search as a sequence of turns of labelled branches. *)
From Verif Require Import Base Machine Heap Facts HeapSim Compiler Parser Print Organizer Process Refine Turn Shape Mono Session.
Open Scope string_scope.
Open Scope list_scope.

Ltac csplit := repeat match goal with |- _ /\ _ => split end.

(** --- larger tables do not change results --- *)
Definition vle {A} (x y : out A) : Prop := forall a, x = Val a -> y = Val a.
Lemma vle_refl {A} (x : out A) : vle x x.
Proof. intros a. auto. Qed.
Lemma vle_bind {A B} (x y : out A) (f g : A -> out B) : vle x y -> (forall a, vle (f a) (g a)) -> vle (bind x f) (bind y g).
Proof. intros H K b E. apply bind_val in E. destruct E as (a & Ea & Eb). rewrite (H _ Ea). cbn. now apply K. Qed.
Lemma nthZ_ext {A} (l k : list A) i u : vle (of_opt u (nthZ l i)) (of_opt u (nthZ (l ++ k) i)).
Proof.
  unfold nthZ. destruct (i <? 0)%Z; [apply vle_refl|]. intros a E. apply of_opt_val in E.
  rewrite nth_error_app1 by (eapply nth_error_lt; eassumption). now rewrite E.
Qed.
Ltac vle :=
  repeat first
    [ apply vle_refl
    | apply vle_bind; [|intros ?]
    | match goal with |- vle (match ?x with _ => _ end) (match ?x with _ => _ end) => destruct x end
    | solve [auto] ].
Section Ext.
Variable H : Type.
Variable ops : hops H.
Variable cf : cfg.
Variables sto sto' : storage.
Hypothesis X : sto_ext sto sto'.

Lemma functors_ext i u : vle (of_opt u (nthZ (s_functors sto) i)) (of_opt u (nthZ (s_functors sto') i)).
Proof. destruct X as [[l E] _]. rewrite E. apply nthZ_ext. Qed.
Lemma vars_ext i u : vle (of_opt u (nthZ (s_vars sto) i)) (of_opt u (nthZ (s_vars sto') i)).
Proof. destruct X as [_ [l E]]. rewrite E. apply nthZ_ext. Qed.
Lemma eval_reg_ext n : forall h a, vle (eval_reg H ops cf sto n h a) (eval_reg H ops cf sto' n h a).
Proof.
  induction n as [|n IH]; intros h a; cbn [eval_reg]; vle; try apply vars_ext;
    unfold err_functor; vle; apply functors_ext.
Qed.
Lemma local_step_ext n i m : vle (local_step H ops cf sto n i m) (local_step H ops cf sto' n i m).
Proof. destruct i; cbn [local_step]; try apply vle_refl. unfold is_pred. vle. apply eval_reg_ext. Qed.
Lemma str_args_ext' p q n : (forall a, vle (p a) (q a)) -> forall k, vle (str_args p n k) (str_args q n k).
Proof. intros Hf. induction n as [|n IH]; intros k; cbn [str_args]; vle. Qed.
Lemma str_of_ext n : forall h us c a, vle (str_of H ops sto n h us c a) (str_of H ops sto' n h us c a).
Proof.
  induction n as [|n IH]; intros h us c a; cbn [str_of]; vle; try apply vars_ext; try apply functors_ext.
  apply str_args_ext'; auto.
Qed.
Lemma bind_names_ext' p q l : (forall a, vle (p a) (q a)) -> forall d, vle (bind_names p l d) (bind_names q l d).
Proof. intros Hf. induction l as [|[nm a] l IH]; intros d; cbn [bind_names]; vle. Qed.
End Ext.
Section ExtP.
Variable cf : cfg.
Variables sto sto' : storage.
Hypothesis X : sto_ext sto sto'.
Lemma run_local_ext n is : forall m, vle (run_local cf sto n is m) (run_local cf sto' n is m).
Proof. induction is as [|i is IH]; intros m; cbn [run_local]; unfold fstep; vle. now apply local_step_ext. Qed.
Lemma p_turn_ext pg n p : vle (p_turn cf sto n pg p) (p_turn cf sto' n pg p).
Proof.
  unfold p_turn. vle; [now apply run_local_ext|].
  unfold answer_of. vle. apply bind_names_ext'. intros k. now apply str_of_ext.
Qed.
Lemma p_calls_ext pg n p r : p_turn cf sto n pg p = Val r -> p_calls cf sto' n p = p_calls cf sto n p.
Proof.
  unfold p_turn, p_calls. destruct (p_codes p) as [|a rest]; auto. intros E.
  apply bind_val in E. destruct E as (v & Ev & _). rewrite Ev.
  now rewrite (run_local_ext n _ _ _ Ev).
Qed.
End ExtP.

(** --- branches as paths --- *)
Definition path := list nat.
Fixpoint label_from (i : nat) (pi : path) (l : list process) : list (path * process) :=
  match l with [] => [] | p :: l' => (pi ++ [i], p) :: label_from (S i) pi l' end.
Definition label (pi : path) (l : list process) := label_from 0 pi l.
Lemma label_from_snd i pi l : map snd (label_from i pi l) = l.
Proof. revert i. induction l as [|p l IH]; intros i; cbn; congruence. Qed.
Lemma label_snd pi l : map snd (label pi l) = l.
Proof. apply label_from_snd. Qed.

(** A turn of a branch, with whatever fuel it needs. *)
Definition turns cf sto pg (p : process) (r : step_res) : Prop := exists fuel, p_turn cf sto fuel pg p = Val r.
Definition called cf sto pg (p : process) : Prop :=
  exists fuel r, p_turn cf sto fuel pg p = Val r /\ p_calls cf sto fuel p = true.

Lemma turns_det cf sto sto' pg p r r' : sto_ext sto sto' -> turns cf sto pg p r -> turns cf sto' pg p r' -> r = r'.
Proof.
  intros X [f E] [f' E']. apply (p_turn_ext cf sto sto' X) in E. eapply p_turn_det; eassumption.
Qed.
Lemma turns_ext cf sto sto' pg p r : sto_ext sto sto' -> turns cf sto pg p r -> turns cf sto' pg p r.
Proof. intros X [f E]. exists f. now apply (p_turn_ext cf sto sto' X). Qed.

(** [search root T Q]: after the turns [T] (branch, process and outcome, in order) the branches [Q] are waiting. *)
Inductive search cf sto pg (root : process) : list (path * process * step_res) -> list (path * process) -> Prop :=
| se_init : search cf sto pg root [] [([], root)]
| se_turn T pi p r Q : search cf sto pg root T ((pi, p) :: Q) -> turns cf sto pg p r ->
    search cf sto pg root (T ++ [(pi, p, r)]) (Q ++ label pi (kids_of r)).

Lemma search_ext cf sto sto' pg root T Q : sto_ext sto sto' -> search cf sto pg root T Q -> search cf sto' pg root T Q.
Proof. intros X S. induction S; [constructor|]. econstructor; eauto using turns_ext. Qed.

(** results and called goals of a sequence of turns *)
Definition out_of (t : path * process * step_res) : list (path * res) :=
  let '(pi, _, r) := t in match result_of r with Some x => [(pi, x)] | None => [] end.
Definition outs (T : list (path * process * step_res)) : list (path * res) := flat_map out_of T.

(** Number of goals called in a sequence of turns *)
Inductive goals cf sto pg : list (path * process * step_res) -> nat -> Prop :=
| go_nil : goals cf sto pg [] 0
| go_call T pi p r n : goals cf sto pg T n -> called cf sto pg p -> goals cf sto pg (T ++ [(pi, p, r)]) (S n)
| go_other T pi p r n : goals cf sto pg T n -> turns cf sto pg p r -> ~ called cf sto pg p ->
    goals cf sto pg (T ++ [(pi, p, r)]) n.

Lemma called_val cf sto pg fuel p r : p_turn cf sto fuel pg p = Val r ->
  (called cf sto pg p <-> p_calls cf sto fuel p = true).
Proof.
  intros E. split.
  - intros (f & r' & E' & C). destruct (Nat.le_ge_cases f fuel) as [L|L].
    + rewrite (p_calls_mono cf sto pg f fuel p L); [assumption|congruence].
    + rewrite <- (p_calls_mono cf sto pg fuel f p L); [assumption|congruence].
  - intros C. exists fuel, r. auto.
Qed.
Lemma called_ext cf sto sto' pg p r : sto_ext sto sto' -> turns cf sto pg p r ->
  (called cf sto' pg p <-> called cf sto pg p).
Proof.
  intros X [f E]. rewrite (called_val _ _ _ _ _ _ E).
  rewrite (called_val cf sto' pg f p r) by now apply (p_turn_ext cf sto sto' X).
  now rewrite (p_calls_ext cf sto sto' X pg f p r E).
Qed.
Lemma goals_ext cf sto sto' pg T n : sto_ext sto sto' -> goals cf sto pg T n -> goals cf sto' pg T n.
Proof.
  intros X G. induction G as [|T pi p r n G IH C|T pi p r n G IH Ht C].
  - constructor.
  - pose proof C as (f & r' & E & _). constructor; [assumption|].
    apply (called_ext cf sto sto' pg p r' X); [exists f; assumption|assumption].
  - constructor; [assumption|eauto using turns_ext|]. now rewrite (called_ext cf sto sto' pg p r X Ht).
Qed.

(** --- get_answer on processes --- *)
Lemma answer_loop_search cf root fuel n : forall k w o T Q g r o',
  refines cf o (map snd Q) -> search cf (o_sto o) (o_prog o) root T Q ->
  goals cf (o_sto o) (o_prog o) T g -> o_stats o = (Z.of_nat g mod 4294967296)%Z ->
  answer_loop cf fuel n k w o = Val (r, o') -> r <> ROutOfMemory ->
  exists T' Q' g', refines cf o' (map snd Q') /\ search cf (o_sto o) (o_prog o) root (T ++ T') Q' /\
    goals cf (o_sto o) (o_prog o) (T ++ T') g' /\ o_stats o' = (Z.of_nat g' mod 4294967296)%Z /\
    same_code o o' /\
    match r with
    | RFalse => outs T' = [] /\ Q' = []
    | ROutOfTime => outs T' = []
    | _ => exists pi, outs T' = [(pi, r)]
    end.
Proof.
  induction n as [|n IH]; intros k w o T Q g r o' HR HS HG Hst E Hoom; cbn [answer_loop] in E; [discriminate|].
  assert (Hsame : same_code o o) by (unfold same_code; csplit; reflexivity).
  pose proof (turn_refines cf fuel o _ HR) as TR.
  destruct Q as [|[pi p] Q]; cbn [map] in TR.
  - destruct TR as [_ Eq]. rewrite Eq in E. injection E as <- <-. exists [], [], g. rewrite app_nil_r. auto 10.
  - cbn [snd] in TR. assert (Hne : o_queue o <> []).
    { intros Eq. pose proof (rf_queue _ _ _ HR) as F. rewrite Eq in F. inversion F. }
    destruct (o_queue o) as [|id q] eqn:Eq; [contradiction|]. clear Hne.
    destruct (o_limit o <? w_time w k)%Z.
    { injection E as <- <-. exists [], ((pi, p) :: Q), g. rewrite app_nil_r. auto 10. }
    destruct (w_oom w k); [injection E as <- <-; contradiction|].
    destruct (p_turn cf (o_sto o) fuel (o_prog o) p) as [sr|u|] eqn:Et; try (rewrite TR in E; discriminate).
    destruct TR as (o1 & id' & q' & _ & Et1 & HR1 & Hsc & _ & _ & Hs1).
    rewrite Et1 in E. cbn [bind] in E.
    assert (Htu : turns cf (o_sto o) (o_prog o) p sr) by (now exists fuel).
    pose proof (se_turn _ _ _ _ _ _ _ _ _ HS Htu) as HS1.
    assert (HR1' : refines cf o1 (map snd (Q ++ label pi (kids_of sr)))).
    { rewrite map_app, label_snd. exact HR1. }
    assert (HG1 : exists g1, goals cf (o_sto o) (o_prog o) (T ++ [(pi, p, sr)]) g1 /\
                             o_stats o1 = (Z.of_nat g1 mod 4294967296)%Z).
    { destruct (p_calls cf (o_sto o) fuel p) eqn:Ec.
      - exists (S g). split; [constructor; [assumption|]; now exists fuel, sr|].
        rewrite Hs1, Hst. rewrite Zplus_mod_idemp_l. f_equal. lia.
      - exists g. split; [|congruence]. constructor; auto. rewrite (called_val _ _ _ _ _ _ Et). congruence. }
    destruct HG1 as (g1 & HG1 & Hst1). pose proof Hsc as (S1 & S2 & S3 & S4 & S5 & S6 & S7).
    destruct (result_of sr) as [r1|] eqn:Er.
    + injection E as <- <-. exists [(pi, p, sr)], (Q ++ label pi (kids_of sr)), g1.
      csplit; auto.
      assert (Ho : outs [(pi, p, sr)] = [(pi, r1)]) by (cbn; now rewrite Er).
      destruct sr; cbn in Er; try discriminate; injection Er as <-; eauto.
    + rewrite <- S1, <- S2 in HS1, HG1 |- *.
      destruct (IH _ _ _ _ _ _ _ _ HR1' HS1 HG1 Hst1 E Hoom) as (T' & Q' & g' & A & B & C & D & F & G).
      rewrite <- app_assoc in B, C.
      exists ([(pi, p, sr)] ++ T'), Q', g'. rewrite S1, S2 in B, C |- *.
      csplit; auto; try (destruct F as (F1 & F2 & F3 & F4 & F5 & F6 & F7); unfold same_code; csplit; congruence).
      assert (Ho : outs ([(pi, p, sr)] ++ T') = outs T') by (cbn; now rewrite Er).
      rewrite Ho. exact G.
Qed.

(** --- what holds after any history of calls --- *)
Definition init_proc (r : rule) : process :=
  {| p_m := {| m_heap := []; m_regs := []; m_mode := None; m_S := 0; m_envs := [] |};
     p_codes := r; p_trail := Val [] |}.
Definition query_code (cf : cfg) (sto : storage) (q : list node) (r : rule) : Prop :=
  exists s0 s1, compile_query cf q s0 = (COk r, s1) /\ sto_ext s1 sto.
Lemma query_code_ext cf sto sto' q r : sto_ext sto sto' -> query_code cf sto q r -> query_code cf sto' q r.
Proof. intros X (s0 & s1 & E & Y). exists s0, s1. split; [assumption|]. eapply sto_ext_trans; eassumption. Qed.

Lemma query_ptrs_follow o r : Forall2 (fun c a => follow o c = Val a) (query_ptrs (o_qgen o) r) r.
Proof.
  unfold query_ptrs. induction r as [|a r IH]; cbn; constructor; [|assumption].
  unfold follow. cbn. now rewrite Nat.eqb_refl.
Qed.
Lemma init_refines cf o r : o_arena o = [init_exec (o_qgen o) r] -> o_queue o = [0] -> prog_shape (o_prog o) ->
  Forall query_shape r -> refines cf o [init_proc r].
Proof.
  intros Ea Eq Hp Hr. split.
  - intros j e q He. rewrite Ea in He. destruct j as [|[|]]; try discriminate. injection He as <-. discriminate.
  - rewrite Eq. repeat constructor; auto.
  - intros id _ j e He. rewrite Ea in He. destruct j as [|[|]]; try discriminate. injection He as <-. discriminate.
  - assumption.
  - rewrite Eq. repeat constructor. exists (init_exec (o_qgen o) r). rewrite Ea. cbn.
    csplit; auto.
    + unfold mrel, hrel. cbn. csplit; auto. intros i. unfold l_at, l_size. cbn. now destruct i.
    + apply query_ptrs_follow.
    + apply pk_init; auto.
Qed.

Definition query_ok (cf : cfg) (o : org) (s : qstate) : Prop :=
  match s with
  | QNone => o_queue o = []
  | QFresh q => exists r, query_code cf (o_sto o) q r /\ Forall query_shape r /\
                  o_arena o = [init_exec (o_qgen o) r] /\ o_queue o = [0] /\ o_stats o = 0%Z
  | QStarted q => exists r T Q g, query_code cf (o_sto o) q r /\
                    refines cf o (map snd Q) /\ search cf (o_sto o) (o_prog o) (init_proc r) T Q /\
                    goals cf (o_sto o) (o_prog o) T g /\ o_stats o = (Z.of_nat g mod 4294967296)%Z
  | QStale => True
  end.

Lemma compile_query_query_shape cf q s r s' : compile_query cf q s = (COk r, s') -> Forall query_shape r.
Proof. intros E. exact (compile_query_shape cf q s r s' E). Qed.

Lemma refines_storage cf o o' ps : o_arena o' = o_arena o -> o_queue o' = o_queue o -> o_prog o' = o_prog o ->
  o_pgen o' = o_pgen o -> o_qgen o' = o_qgen o -> refines cf o ps -> refines cf o' ps.
Proof.
  intros E1 E2 E3 E4 E5 [A B C D F]. split; rewrite ?E1, ?E2, ?E3; auto.
  eapply Forall2_impl; [|exact F]. intros id p (e & He & Hs & Hm & Hc & Hk).
  assert (Ew : forall n g, walk n o' g = walk n o g).
  { induction n as [|n IH]; intros g; cbn [walk]; [reflexivity|]. unfold get_exec. rewrite E1.
    destruct (nth_error (o_arena o) g) as [e'|]; cbn [of_opt bind]; [|reflexivity].
    destruct (x_codes e') as [|c [|]]; auto. rewrite (follow_same o o' c E4 E5).
    destruct (follow o c); cbn [bind]; auto. destruct (if ca_user a then _ else _); cbn [bind]; auto.
    destruct (x_parent e'); auto. destruct (nth_error (o_arena o) n0); cbn [of_opt bind]; auto.
    destruct (x_parent e0); auto. now rewrite IH. }
  exists e. rewrite E1. csplit; auto.
  - eapply Forall2_impl; [|exact Hc]. intros c a Hf. now rewrite (follow_same o o' c E4 E5).
  - destruct Hk as [P0 P1 P2|pid pe gid P0 P1 P2 P3 P4|gid h b P0 P1 P2 P3 P4].
    + apply pk_init; auto.
    + eapply pk_query; eauto; [now rewrite E1|]. intros n Hn. rewrite Ew. now apply P3.
    + eapply pk_head; eauto. intros n Hn. rewrite Ew. now apply P1.
Qed.

Lemma load_program_err cf text o r o' : load_program cf text o = Some (r, o') -> r <> LOk ->
  exists s, o' = set_sto o s /\ sto_ext (o_sto o) s.
Proof.
  unfold load_program. destruct (parse_program text) as [[cs|e|]|]; try discriminate.
  - pose proof (compile_clauses_ext cf false cs [] (o_sto o)) as X. unfold compile_program in *.
    destruct (compile_clauses cf false cs [] (o_sto o)) as [[p|e|] s]; intros E; injection E as <- <-;
      intros N; [contradiction| |]; exists s; split; auto.
  - intros E _. injection E as _ <-. exists (o_sto o). split; [destruct o; reflexivity|apply sto_ext_refl].
  - intros E _. injection E as _ <-. exists (o_sto o). split; [destruct o; reflexivity|apply sto_ext_refl].
Qed.

Theorem session_inv cf o P s : session cf o P s -> code_ok cf o P /\ query_ok cf o s.
Proof.
  induction 1 as [o E|o P s text cs o' H IH Ep E|o P s text r o' H IH E Hr|o P s text q o' H IH Ep E
                 |o P s text r o' H IH E Hr|o P s t H IH|o P s fuel n w r o' H IH Hs E Hr].
  - unfold new_org in E. destruct (compile_built_ins cf empty_storage) as [[p|e|] s1] eqn:Ec; try discriminate.
    injection E as <-. pose proof (compile_built_ins_shape cf _ _ _ Ec) as Sh. apply built_ins_code in Ec. split.
    + split; cbn; auto. now apply empty_prog_code.
    + reflexivity.
  - destruct IH as [[A B C D] K]. unfold load_program in E. rewrite Ep in E.
    destruct (compile_program cf cs (o_sto o)) as [[p|e|] s1] eqn:Ec; try discriminate. injection E as <-.
    destruct (compile_clauses_code _ _ _ _ _ _ _ Ec) as [X L].
    assert (D' : built_code cf s1 (o_built o)) by (eapply built_code_ext; eassumption).
    assert (Sp : entries_shape p).
    { apply (compile_clauses_shape cf false cs [] ltac:(constructor) _ _ _ Ec). }
    split.
    + split; cbn; auto.
      * now apply merge_entries.
      * apply merge_code; auto. intros f. destruct (L f) as ((rs & Er & F) & N & _). cbn in Er, N.
        split; [rewrite N; intuition|]. now rewrite Er.
    + destruct s as [|q|q|]; cbn in K |- *; auto.
      destruct K as (r & K1 & K2 & K3 & K4 & K5). exists r. csplit; auto. eapply query_code_ext; eassumption.
  - destruct (load_program_err _ _ _ _ _ E Hr) as (s1 & -> & X). destruct IH as [A K]. split.
    + eapply code_ok_ext; [..|exact A]; auto.
    + destruct s as [|q|q|]; cbn in K |- *; auto.
      * destruct K as (r' & K1 & K2 & K3 & K4 & K5). exists r'. csplit; auto. eapply query_code_ext; eassumption.
      * destruct K as (r' & T & Q & g & K1 & K2 & K3 & K4 & K5). exists r', T, Q, g. csplit; auto.
        -- eapply query_code_ext; eassumption.
        -- eapply refines_storage; [..|exact K2]; auto.
        -- eapply search_ext; eassumption.
        -- eapply goals_ext; eassumption.
  - destruct IH as [A K]. unfold load_query in E. rewrite Ep in E.
    pose proof (compile_query_ext cf q (o_sto o)) as X.
    destruct (compile_query cf q (o_sto o)) as [[r|e|] s1] eqn:Ec; try discriminate. injection E as <-. split.
    + eapply code_ok_ext; [..|exact A]; auto.
    + cbn. exists r. csplit; auto.
      * exists (o_sto o), s1. split; [assumption|apply sto_ext_refl].
      * eapply compile_query_query_shape; eassumption.
  - destruct IH as [A K]. unfold load_query in E.
    destruct (parse_query (append_dot text)) as [[q|e|]|]; try discriminate.
    + pose proof (compile_query_ext cf q (o_sto o)) as X.
      destruct (compile_query cf q (o_sto o)) as [[r'|e|] s1] eqn:Ec; injection E as <- <-; try contradiction;
        (split; [eapply code_ok_ext; [..|exact A]; auto|reflexivity]).
    + injection E as <- <-. split; [eapply code_ok_ext; [..|exact A]; auto; apply sto_ext_refl|reflexivity].
    + injection E as <- <-. split; [eapply code_ok_ext; [..|exact A]; auto; apply sto_ext_refl|reflexivity].
  - destruct IH as [A K]. split; [eapply code_ok_ext; [..|exact A]; auto; apply sto_ext_refl|].
    destruct s as [|q|q|]; cbn in K |- *; auto.
    destruct K as (r' & T & Q & g & K1 & K2 & K3 & K4 & K5). exists r', T, Q, g. csplit; auto.
    eapply refines_storage; [..|exact K2]; auto.
  - destruct IH as [A K].
    assert (G : forall q rl T Q g, query_code cf (o_sto o) q rl -> refines cf o (map snd Q) ->
              search cf (o_sto o) (o_prog o) (init_proc rl) T Q -> goals cf (o_sto o) (o_prog o) T g ->
              o_stats o = (Z.of_nat g mod 4294967296)%Z -> code_ok cf o' P /\ query_ok cf o' (QStarted q)).
    { intros q rl T Q g K1 K2 K3 K4 K5.
      destruct (answer_loop_search cf _ _ _ _ _ _ _ _ _ _ _ K2 K3 K4 K5 E Hr)
        as (T' & Q' & g' & R1 & R2 & R3 & R4 & (S1 & S2 & S3 & S4 & S5 & S6 & S7) & _). split.
      - eapply code_ok_ext; [..|exact A]; auto. rewrite S1. apply sto_ext_refl.
      - cbn. rewrite S1, S2. exists rl, (T ++ T'), Q', g'. auto. }
    destruct s as [|q|q|]; cbn [q_run]; try contradiction.
    + unfold get_answer in E. destruct n as [|n]; cbn in E; [discriminate|]. cbn in K. rewrite K in E.
      injection E as <- <-. auto.
    + destruct K as (rl & K1 & K2 & K3 & K4 & K5). apply (G q rl [] [([], init_proc rl)] 0); auto; try solve [constructor].
      cbn [map snd]. apply init_refines; auto. apply entries_prog_shape. apply A.
    + destruct K as (rl & T & Q & g & K1 & K2 & K3 & K4 & K5). eapply G; eassumption.
Qed.
