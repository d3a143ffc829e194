(** Completeness of the search: every provable instance is covered after finitely many answers. *)
From Verif Require Import Base Machine Heap Facts Compiler Parser Organizer Spec Print Valuation HeapSim Process Refine Mono Turn Shape Session Code Put Search PutRun Get Alloc Atoms Clause Stack Ready Heads Builtins Sols Solve Terms Shown Parsed Tables Root Order Cells Runs Answers.
Open Scope string_scope.
Open Scope list_scope.

(** --- a search forwards, with a common fuel --- *)
Section Steps.
Variable cf : cfg.
Variable sto : storage.
Variable pg : prog.
Variable F : nat.
Inductive steps : list (path * process) -> list (path * process * step_res) -> list (path * process) -> Prop :=
| st_nil Q : steps Q [] Q
| st_cons pi p Q r T Q' : p_turn cf sto F pg p = Val r -> steps (Q ++ label pi (kids_of r)) T Q' -> steps ((pi, p) :: Q) ((pi, p, r) :: T) Q'.
Lemma steps_app Q T1 T2 Q2 : steps Q (T1 ++ T2) Q2 -> exists Q1, steps Q T1 Q1 /\ steps Q1 T2 Q2.
Proof.
  revert Q. induction T1 as [|t T1 IH]; intros Q H; [exists Q; split; [constructor|assumption]|].
  inversion H as [|pi p Q0 r T Q' E H']; subst. destruct (IH _ H') as (Q1 & A & B). exists Q1. split; [now constructor|assumption].
Qed.
Lemma steps_snoc Q T pi p r Q1 : steps Q T ((pi, p) :: Q1) -> p_turn cf sto F pg p = Val r -> steps Q (T ++ [(pi, p, r)]) (Q1 ++ label pi (kids_of r)).
Proof.
  intros H E. remember ((pi, p) :: Q1) as Q' eqn:EQ. induction H as [Q|pi' p' Q r' T Q' E' H IH]; subst; cbn.
  - constructor; [assumption|constructor].
  - constructor; [assumption|]. now apply IH.
Qed.
End Steps.
Lemma steps_more cf sto pg F F' Q T Q' : F <= F' -> steps cf sto pg F Q T Q' -> steps cf sto pg F' Q T Q'.
Proof.
  intros L H. induction H as [|pi p Q r T Q' E H IH]; constructor; auto.
  exact (le_val _ _ _ (p_turn_mono cf sto pg _ _ p L) E).
Qed.
Lemma search_steps cf sto pg root T Q : search cf sto pg root T Q -> exists F, steps cf sto pg F [([], root)] T Q.
Proof.
  intros H. induction H as [|T pi p r Q H (F & IH) (f & E)]; [exists 0; constructor|]. exists (Nat.max F f). apply steps_snoc.
  - eapply steps_more; [|exact IH]. lia.
  - refine (le_val _ _ _ (p_turn_mono cf sto pg f _ p _) E). lia.
Qed.
Lemma search_prefix cf sto pg root T1 T2 Q : search cf sto pg root (T1 ++ T2) Q -> exists Q1, search cf sto pg root T1 Q1.
Proof.
  intros H. remember (T1 ++ T2) as T eqn:ET. revert T2 ET. induction H as [|T pi p r Q H IH Ht]; intros T2 ET.
  - symmetry in ET. apply app_eq_nil in ET. destruct ET as [-> ->]. eexists. constructor.
  - destruct T2 as [|t T2 _] using rev_ind.
    + rewrite app_nil_r in ET. subst T1. eexists. econstructor; eauto.
    + rewrite app_assoc in ET. apply app_inj_tail in ET. destruct ET as [-> _]. eauto.
Qed.

(** --- get_answer with enough time --- *)
Definition enough_time (w : world) (o : org) : Prop := forall k, (w_time w k <= o_limit o)%Z /\ w_oom w k = false.
Lemma loop_steps cf F T0 : forall k w o Q t pi x Q', steps cf (o_sto o) (o_prog o) F Q (T0 ++ [t]) Q' -> refines cf o (map snd Q) -> enough_time w o ->
  outs T0 = [] -> outs [t] = [(pi, x)] -> exists o', answer_loop cf F (S (List.length T0)) k w o = Val (x, o') /\ refines cf o' (map snd Q') /\ same_code o o'.
Proof.
  induction T0 as [|t0 T0 IH]; intros k w o Q t pi x Q' H HR Hw E0 Et; cbn [app] in H; inversion H as [|pi1 p Q1 r T Q2 Ep H']; subst.
  - inversion H'; subst. cbn [List.length answer_loop]. pose proof (turn_refines cf F o _ HR) as TR. cbn [map snd] in TR. rewrite Ep in TR.
    destruct TR as (o1 & id & q & Eq & Et1 & HR1 & Hsc & _). rewrite Eq. destruct (Hw k) as [W1 W2]. apply Z.ltb_ge in W1. rewrite W1, W2, Et1. cbn [bind].
    cbn in Et. rewrite app_nil_r in Et. destruct (result_of r) as [y|]; [|discriminate]. injection Et as _ ->. exists o1. csplit; auto. rewrite map_app, label_snd. exact HR1.
  - pose proof (turn_refines cf F o _ HR) as TR. cbn [map snd] in TR. rewrite Ep in TR.
    destruct TR as (o1 & id & q & Eq & Et1 & HR1 & Hsc & _). change (answer_loop cf F (S (List.length ((pi1, p, r) :: T0))) k w o) with
      (match o_queue o with [] => Val (RFalse, o) | _ => if (o_limit o <? w_time w k)%Z then Val (ROutOfTime, o) else if w_oom w k then Val (ROutOfMemory, clear_memory o) else
         '(r, o1) <- turn cf F o ;; match r with Some r => Val (r, o1) | None => answer_loop cf F (S (List.length T0)) (S k) w o1 end end).
    rewrite Eq. destruct (Hw k) as [W1 W2]. apply Z.ltb_ge in W1. rewrite W1, W2, Et1. cbn [bind].
    unfold outs in E0. cbn [flat_map out_of] in E0. destruct (result_of r) as [y|] eqn:Er; [discriminate|]. cbn [app] in E0.
    pose proof Hsc as (S1 & S2 & S3 & S4 & S5 & S6 & S7). rewrite <- S1, <- S2 in H'.
    destruct (IH (S k) w o1 _ t pi x Q' H') as (o' & A & B & C); auto.
    + rewrite map_app, label_snd. exact HR1.
    + intros j. rewrite S5. apply Hw.
    + exists o'. csplit; auto. destruct C as (F1 & F2 & F3 & F4 & F5 & F6 & F7). unfold same_code. csplit; congruence.
Qed.
Lemma outs_split T : outs T <> [] -> exists T0 t T1 pi x, T = T0 ++ t :: T1 /\ outs T0 = [] /\ outs [t] = [(pi, x)].
Proof.
  induction T as [|t T IH]; intros H; [contradiction|]. destruct t as [[pi p] r]. destruct (result_of r) as [x|] eqn:Er.
  - exists [], (pi, p, r), T, pi, x. csplit; auto. cbn. now rewrite Er.
  - destruct IH as (T0 & t & T1 & pi' & x & -> & A & B); [unfold outs in *; cbn [flat_map out_of] in H; now rewrite Er in H|].
    exists ((pi, p, r) :: T0), t, T1, pi', x. csplit; auto. unfold outs in *. cbn [flat_map out_of]. now rewrite Er.
Qed.
Definition is_result (t : path * process * step_res) : Prop := outs [t] <> [].
Lemma out_timeout t pi x : outs [t] = [(pi, x)] -> is_timeout x = false /\ x <> ROutOfMemory.
Proof. destruct t as [[pi' p] [|e|b|l]]; cbn; intros E; try discriminate; injection E as _ <-; split; auto; discriminate. Qed.
Lemma outs_app T T' : outs (T ++ T') = outs T ++ outs T'.
Proof. apply flat_map_app. Qed.

Definition slow_enough (o : org) : world := {| w_time := fun _ => o_limit o; w_oom := fun _ => false |}.
Lemma slow_enough_ok o : enough_time (slow_enough o) o.
Proof. intros k. split; [cbn; lia|reflexivity]. Qed.

Lemma steps_run cf F o n : forall T t Q Q' rs o1, List.length T <= n -> steps cf (o_sto o1) (o_prog o1) F Q (T ++ [t]) Q' -> is_result t ->
  run cf o rs o1 -> refines cf o1 (map snd Q) ->
  exists rs' o2, run cf o (rs ++ rs') o2 /\ map fst rs' = map snd (outs (T ++ [t])) /\ refines cf o2 (map snd Q') /\ same_code o1 o2.
Proof.
  induction n as [|n IH]; intros T t Q Q' rs o1 L H Ht HR Rf.
  - assert (T = []) as -> by (destruct T; [reflexivity|cbn in L; lia]). cbn [app] in H.
    destruct (outs [t]) as [|[pi x] l] eqn:Eo; [contradiction|].
    assert (l = []) as ->. { destruct t as [[pi' p] r]. cbn in Eo. destruct (result_of r); [|discriminate]. now injection Eo. }
    destruct (loop_steps cf F [] 0 (slow_enough o1) o1 Q t pi x Q' H Rf (slow_enough_ok o1) eq_refl Eo) as (o2 & E & R2 & Sc).
    destruct (out_timeout _ _ _ Eo) as [_ No]. exists [(x, o_stats o2)], o2. csplit; auto; [|cbn [app]; now rewrite Eo].
    eapply run_answer; eauto.
  - destruct (outs_split (T ++ [t])) as (T0 & t0 & T1 & pi & x & Es & E0 & Et).
    { rewrite outs_app. intros K. apply app_eq_nil in K. destruct K as [_ K]. apply Ht. exact K. }
    rewrite Es in H. replace (T0 ++ t0 :: T1) with ((T0 ++ [t0]) ++ T1) in * by (rewrite <- app_assoc; reflexivity).
    destruct (steps_app _ _ _ _ _ _ _ _ H) as (Q1 & H1 & H2).
    destruct (loop_steps cf F T0 0 (slow_enough o1) o1 Q t0 pi x Q1 H1 Rf (slow_enough_ok o1) E0 Et) as (o2 & E & R2 & Sc).
    destruct (out_timeout _ _ _ Et) as [_ No].
    assert (HR' : run cf o (rs ++ [(x, o_stats o2)]) o2) by (eapply run_answer; eauto).
    pose proof Sc as (S1 & S2 & S3 & S4 & S5 & S6 & S7).
    destruct T1 as [|t1 T1 _] using rev_ind.
    + inversion H2; subst. exists [(x, o_stats o2)], o2. csplit; auto. rewrite Es, app_nil_r, outs_app, E0, Et. reflexivity.
    + rewrite app_assoc in Es. apply app_inj_tail in Es. destruct Es as [-> ->]. rewrite <- S1, <- S2 in H2.
      assert (L1 : List.length T1 <= n) by (rewrite !app_length in L; cbn in L; lia).
      destruct (IH T1 t1 Q1 Q' _ o2 L1 H2 Ht HR' R2) as (rs' & o3 & A & B & C & D).
      { exists ((x, o_stats o2) :: rs'), o3. rewrite <- app_assoc in A. csplit; auto.
        -- cbn [map]. rewrite B, <- !app_assoc, !outs_app, E0. cbn [app map]. rewrite Et. reflexivity.
        -- destruct D as (F1 & F2 & F3 & F4 & F5 & F6 & F7). unfold same_code. csplit; congruence. }
Qed.

(** --- every level is completed --- *)
Section Advance.
Variable cf : cfg.
Variable sto : storage.
Variable pg : prog.
Variable root : process.
Hypothesis TE : forall pi p, at_path cf sto pg root pi p -> exists r, turns cf sto pg p r.
Notation search := (search cf sto pg root).
Lemma advance_level d : forall Qa T Qb, search T (Qa ++ Qb) -> (forall pi p, In (pi, p) Qa -> d <= List.length pi) -> (forall pi p, In (pi, p) Qb -> S d <= List.length pi) ->
  exists T' Q', search (T ++ T') Q' /\ forall pi p, In (pi, p) Q' -> S d <= List.length pi.
Proof.
  induction Qa as [|[pi p] Qa IH]; intros T Qb H Ha Hb.
  - exists [], Qb. rewrite app_nil_r. auto.
  - assert (At : at_path cf sto pg root pi p) by (destruct (search_order _ _ _ _ _ _ H) as (_ & _ & _ & S4 & _); apply S4; now left).
    destruct (TE pi p At) as (r & Ht). pose proof (se_turn _ _ _ _ _ _ _ _ _ H Ht) as H1. rewrite <- app_assoc in H1.
    destruct (IH _ _ H1) as (T' & Q' & A & B).
    + intros pi' p' K. apply (Ha pi' p'). now right.
    + intros pi' p' K. apply in_app_iff in K. destruct K as [K|K]; [now apply (Hb pi' p')|].
      apply in_label in K. destruct K as (j & -> & _). rewrite app_length. cbn. specialize (Ha pi p (or_introl eq_refl)). lia.
    + exists ([(pi, p, r)] ++ T'), Q'. rewrite app_assoc. auto.
Qed.
Lemma advance d : exists T Q, search T Q /\ forall pi p, In (pi, p) Q -> d <= List.length pi.
Proof.
  induction d as [|d (T & Q & H & HQ)]; [exists [], [([], root)]; split; [constructor|intros; lia]|].
  destruct (advance_level d Q T []) as (T' & Q' & A & B).
  - now rewrite app_nil_r.
  - exact HQ.
  - intros pi p [].
  - exists (T ++ T'), Q'. auto.
Qed.
End Advance.

Definition turns_end (cf : cfg) (o : org) : Prop := forall root pi p, root_of o root ->
  at_path cf (o_sto o) (o_prog o) root pi p -> exists r, turns cf (o_sto o) (o_prog o) p r.

Section Session.
Variable cf : cfg.
Hypothesis OK : ord_ok cf.
Variable o : org.
Variable P : list (list node).
Variable q : list node.
Hypothesis HS : session cf o P (QFresh q).
Hypothesis SM : small_tables (o_sto o).
Hypothesis NC : no_clash cf P.
Notation sto := (o_sto o).
Notation pg := (o_prog o).

(** what the search of a tree puts out is delivered *)
Lemma reached root T Q pi p r x : root_of o root -> search cf sto pg root T Q -> In (pi, p, r) T -> result_of r = Some x ->
  exists N, (exists rs o', run cf o rs o' /\ List.length rs = N /\ forall y, In y (map fst rs) -> exists pi' p' r', In (pi', p', r') T /\ result_of r' = Some y) /\
    forall rs o', run cf o rs o' -> N <= List.length (delivered rs) -> In x (delivered rs).
Proof.
  intros Hr S Hin Hx. destruct (session_inv _ _ _ _ HS) as [A (rl & K1 & K2 & K3 & K4 & K5)].
  assert (Er0 : root = init_proc rl) by (destruct Hr as (r' & Er' & ->); rewrite K3 in Er'; injection Er' as E; f_equal; unfold query_ptrs in E; symmetry; clear - E; revert r' E;
      induction rl as [|a x IH]; intros [|y z] E; try discriminate; [reflexivity|]; cbn in E; injection E as -> E; f_equal; now apply IH).
  apply in_split in Hin. destruct Hin as (T0 & T1 & ET).
  assert (S1 : exists Q1, search cf sto pg root (T0 ++ [(pi, p, r)]) Q1).
  { apply (search_prefix cf sto pg root _ T1 Q). rewrite <- app_assoc. cbn [app]. now rewrite <- ET. }
  assert (Ox : forall T, outs (T ++ [(pi, p, r)]) = outs T ++ [(pi, x)]).
  { intros T2. rewrite outs_app. f_equal. unfold outs. cbn [flat_map out_of app]. now rewrite Hx. }
  destruct S1 as (Q1 & S1). exists (List.length (outs (T0 ++ [(pi, p, r)]))). split.
  - destruct (search_steps _ _ _ _ _ _ S1) as (F & St). rewrite Er0 in *.
    destruct (steps_run cf F o (List.length T0) T0 (pi, p, r) _ Q1 [] o (Nat.le_refl _) St) as (rs & o' & Hrun & Ers & _ & _).
    { destruct r; try discriminate Hx; discriminate. } { constructor. } { cbn [map snd]. apply init_refines; auto. apply entries_prog_shape. apply A. }
    exists rs, o'. csplit; auto.
    + apply (f_equal (@List.length _)) in Ers. rewrite !map_length in Ers. exact Ers.
    + intros y Hin. rewrite Ers in Hin. apply in_map_iff in Hin. destruct Hin as ((pi' & x') & <- & Hin). unfold outs in Hin. apply in_flat_map in Hin.
      destruct Hin as (((pi1 & p1) & r1) & Hin & Hx1). exists pi1, p1, r1. split.
      * rewrite ET. apply in_app_iff in Hin. apply in_app_iff. destruct Hin as [Hin|[Hin|[]]]; [now left|]. right. now left.
      * unfold out_of in Hx1. destruct (result_of r1); [|contradiction]. destruct Hx1 as [Hx1|[]]. now injection Hx1 as _ ->.
  - intros rs o' HR HN. destruct (sess_search cf o P q HS rs o' HR) as (root' & T2 & Q2 & k & Hr' & S2 & D & HQ2 & _).
    assert (root' = root) as ->.
    { destruct Hr' as (r' & Er' & ->). rewrite K3 in Er'. injection Er' as E. rewrite Er0. f_equal. unfold query_ptrs in E. symmetry. clear - E. revert r' E.
      induction rl as [|a x IH]; intros [|y z] E; try discriminate; [reflexivity|]. cbn in E. injection E as -> E. f_equal. now apply IH. }
    rewrite D. apply in_app_iff. left. apply in_map_iff. exists (pi, x). split; [reflexivity|].
    destruct (Nat.le_gt_cases (List.length (T0 ++ [(pi, p, r)])) (List.length T2)) as [L|L].
    + destruct (search_det _ _ _ _ _ _ _ _ S1 S2 L) as ((t & ->) & _ & _). rewrite outs_app, Ox. apply in_app_iff. left. apply in_app_iff. right. now left.
    + exfalso. destruct (search_det _ _ _ _ _ _ _ _ S2 S1) as ((t & Et) & _ & Ne); [lia|]. specialize (Ne L).
      assert (k = 0) as -> by (destruct k; [reflexivity|exfalso; apply Ne, HQ2; discriminate]).
      rewrite D in HN. cbn [repeat] in HN. rewrite app_nil_r, map_length in HN.
      destruct t as [|t1 t _] using rev_ind; [rewrite app_nil_r in Et; rewrite Et in L; lia|].
      rewrite app_assoc in Et. apply app_inj_tail in Et. destruct Et as [-> <-]. rewrite Ox, outs_app, !app_length in HN. cbn in HN. lia.
Qed.
Lemma unbound_dec (T : list (path * process * step_res)) : no_unbound T \/ exists pi p x, In (pi, p, PErr (EUnbound x)) T.
Proof.
  induction T as [|((pi & p) & r) T [IH|(pi' & p' & x & IH)]].
  - left. intros pi p x [].
  - destruct r as [|[|x|f]|b|l]; try (left; intros pi' p' y [E|K]; [discriminate E|exact (IH _ _ _ K)]). right. exists pi, p, x. now left.
  - right. exists pi', p', x. now right.
Qed.
(** C04 *)
Theorem complete_or_unbound : all_goals no_compare P q -> turns_end cf o -> forall v,
  (forall a, In a q -> prov (pow_of cf) (P ++ append_prog) (inst v a)) ->
  exists N, (exists rs o', run cf o rs o' /\ List.length rs = N /\ forall r, In r (map fst rs) -> (exists b, r = RAnswer b) \/ exists e, r = RError e) /\
    forall rs o', run cf o rs o' -> N <= List.length (delivered rs) ->
      (exists b, In (RAnswer b) (delivered rs) /\ covers cf o P q b v) \/ exists x, In (RError (EUnbound x)) (delivered rs).
Proof.
  intros Pu TE v Hv. destruct (session_inv _ _ _ _ HS) as [A (rl & K1 & K2 & K3 & K4 & K5)].
  set (root := init_proc rl) in *. assert (Hr : root_of o root) by (exists rl; auto).
  destruct (sess_root cf OK o P q HS SM root Hr) as (_ & S0 & Hp & HS0). destruct (rules_bound pg) as (R & RL).
  assert (Hk : exists k, S0 v k).
  { destruct (proj2 (provs_prov (pow_of cf) (PA P) v q)) as (k' & Hk'); [intros a Ha; apply prov_append; auto|]. exists k'. now apply HS0. }
  destruct Hk as (k0 & Hk0). set (B := List.length (p_codes root) + k0 * R).
  destruct (advance cf sto pg root (fun pi p => TE root pi p Hr) (S B)) as (T & Q & S & HQ).
  assert (Out : forall x, (exists pi' p' r', In (pi', p', r') T /\ result_of r' = Some x) -> (exists b, x = RAnswer b) \/ exists e, x = RError e).
  { intros x (pi' & p' & r' & _ & E). destruct r'; try discriminate E; injection E as <-; eauto. }
  destruct (unbound_dec T) as [NE|(pi & p & x & Hin)].
  - destruct (search_complete cf OK sto (sess_ok cf o P q HS SM) pg P (pure P q) (noarith P q) (sess_PC cf o P q HS) (sess_CW cf OK o P q HS NC)
        (sess_NR cf o P q HS) R RL (flat_map vars_of q) root S0 Hp T Q S Pu NE v k0 Hk0)
      as [(pi & p & b & Si & h & k' & Hb & He & Ha & HSi & _ & _ & Bl)|(pi & p & Si & k' & Hin & _ & _ & L & _)].
    2:{ exfalso. specialize (HQ pi p Hin). fold B in L. lia. }
    assert (Cv : covers cf o P q b v) by (eapply answer_covers; eauto).
    destruct (reached root T Q pi p (PDone b) (RAnswer b) Hr S Hb eq_refl) as (N & (rs & o' & R1 & R2 & R3) & RN). exists N. split; [exists rs, o'; auto|].
    intros rs' o2 HR HN. left. eauto.
  - destruct (reached root T Q pi p _ (RError (EUnbound x)) Hr S Hin eq_refl) as (N & (rs & o' & R1 & R2 & R3) & RN). exists N. split; [exists rs, o'; auto|].
    intros rs' o2 HR HN. right. eauto.
Qed.
Theorem complete : all_goals no_compare P q -> all_goals no_is P q -> turns_end cf o -> forall v,
  (forall a, In a q -> prov (pow_of cf) (P ++ append_prog) (inst v a)) ->
  exists N, (exists rs o', run cf o rs o' /\ List.length rs = N /\ forall r, In r (map fst rs) -> exists b, r = RAnswer b) /\
    forall rs o', run cf o rs o' -> N <= List.length (delivered rs) -> exists b, In (RAnswer b) (delivered rs) /\ covers cf o P q b v.
Proof.
  intros Pu Na TE v Hv.
  assert (NE : forall rs o', run cf o rs o' -> forall e, ~ In (RError e) (delivered rs)).
  { intros rs o' HR e He. destruct (sess_search cf o P q HS rs o' HR) as (root & T & Q & k & Hr & S & D & _). rewrite D in He.
    apply error_turn in He. destruct He as (pi & p & He).
    destruct (sess_root cf OK o P q HS SM root Hr) as (_ & S0 & Hp & HS0). destruct (rules_bound pg) as (R & RL).
    pose proof (search_sound cf OK sto (sess_ok cf o P q HS SM) pg P (pure P q) (noarith P q) (sess_PC cf o P q HS) (sess_CW cf OK o P q HS NC)
      (sess_NR cf o P q HS) R RL (flat_map vars_of q) root S0 Hp T Q S) as (_ & _ & N). exact (N pi p e He Na). }
  destruct (complete_or_unbound Pu TE v Hv) as (N & (rs & o' & R1 & R2 & R3) & K). exists N. split.
  - exists rs, o'. csplit; auto. intros r Hin. destruct (R3 r Hin) as [H|(e & ->)]; [exact H|]. exfalso. apply (NE rs o' R1 e).
    unfold delivered. apply filter_In. auto.
  - intros rs' o2 HR HN. destruct (K rs' o2 HR HN) as [H|(x & H)]; [exact H|]. now elim (NE rs' o2 HR (EUnbound x)).
Qed.
End Session.
