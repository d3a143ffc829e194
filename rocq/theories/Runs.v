(** Sequences of get_answer calls for one query. *)
From Coq Require Import Sorted.
From Verif Require Import Base Machine Heap Facts HeapSim Compiler Parser Print Organizer Process Refine Turn Shape Mono
  Session Search Order.
Open Scope list_scope.

(** [run cf o rs o']: calls of get_answer, and changes of the time limit between them, lead from [o] to [o'] and
    return [rs] (each with the statistics). Each call has its own world (clock). *)
Inductive run (cf : cfg) : org -> list (res * Z) -> org -> Prop :=
| run_nil o : run cf o [] o
| run_limit o rs o1 t : run cf o rs o1 -> run cf o rs (set_time_limit t o1)
| run_answer o rs o1 fuel n w r o2 : run cf o rs o1 -> get_answer cf fuel n w o1 = Val (r, o2) ->
    r <> ROutOfMemory -> run cf o (rs ++ [(r, o_stats o2)]) o2.

Definition is_timeout (r : res) : bool := match r with ROutOfTime => true | _ => false end.
(** all results but the time-outs *)
Definition delivered (rs : list (res * Z)) : list res := filter (fun r => negb (is_timeout r)) (map fst rs).

Definition prefix {A} (l k : list A) : Prop := exists t, k = l ++ t.

(** the process the search starts from *)
Definition root_of (o : org) (root : process) : Prop :=
  exists r, o_arena o = [init_exec (o_qgen o) r] /\ root = init_proc r.

Lemma run_session cf o P q rs o' : session cf o P (QFresh q) -> run cf o rs o' ->
  session cf o' P (QFresh q) \/ session cf o' P (QStarted q).
Proof.
  intros HS HR. induction HR as [o|o rs o1 t HR IH|o rs o1 fuel n w r o2 HR IH E Hr]; auto.
  - destruct (IH HS); [left|right]; now apply ss_limit.
  - right. destruct (IH HS) as [H|H].
    + exact (ss_answer cf _ _ _ fuel n w r o2 H ltac:(discriminate) E Hr).
    + exact (ss_answer cf _ _ _ fuel n w r o2 H ltac:(discriminate) E Hr).
Qed.

Lemma run_search cf o P q rs o' : session cf o P (QFresh q) -> run cf o rs o' ->
  exists rl T Q g k, query_code cf (o_sto o) q rl /\ root_of o (init_proc rl) /\ refines cf o' (map snd Q) /\
    search cf (o_sto o) (o_prog o) (init_proc rl) T Q /\ goals cf (o_sto o) (o_prog o) T g /\
    o_stats o' = (Z.of_nat g mod 4294967296)%Z /\ o_sto o' = o_sto o /\ o_prog o' = o_prog o /\
    delivered rs = map snd (outs T) ++ repeat RFalse k /\ (k <> 0 -> Q = []).
Proof.
  intros HS HR. destruct (session_inv _ _ _ _ HS) as [A (rl & K1 & K2 & K3 & K4 & K5)].
  induction HR as [o|o rs o1 t HR IH|o rs o1 fuel n w r o2 HR IH E Hr].
  - exists rl, [], [([], init_proc rl)], 0, 0. csplit; auto; try solve [constructor].
    + exists rl. auto.
    + cbn [map snd]. apply init_refines; auto. apply entries_prog_shape. apply A.
    + contradiction.
  - destruct (IH HS A K1 K3 K4 K5) as (rl' & T & Q & g & k & R1 & R2 & R3 & R4 & R5 & R6 & R7 & R8 & R9 & R10).
    exists rl', T, Q, g, k. csplit; auto. eapply refines_storage; [..|exact R3]; auto.
  - destruct (IH HS A K1 K3 K4 K5) as (rl' & T & Q & g & k & R1 & R2 & R3 & R4 & R5 & R6 & R7 & R8 & R9 & R10).
    rewrite <- R7, <- R8 in R4, R5.
    destruct (answer_loop_search cf _ _ _ _ _ _ _ _ _ _ _ R3 R4 R5 R6 E Hr)
      as (T' & Q' & g' & B1 & B2 & B3 & B4 & (S1 & S2 & S3 & S4 & S5 & S6 & S7) & B6).
    rewrite R7, R8 in B2, B3.
    assert (Hd : delivered (rs ++ [(r, o_stats o2)]) = delivered rs ++ (if is_timeout r then [] else [r])).
    { unfold delivered. rewrite map_app, filter_app. cbn. destruct (is_timeout r); reflexivity. }
    assert (Ho : outs (T ++ T') = outs T ++ outs T') by apply flat_map_app.
    destruct (Nat.eq_dec k 0) as [->|Hk].
    + cbn [repeat] in R9. rewrite app_nil_r in R9. destruct r; try contradiction.
      * destruct B6 as [B6 ->]. exists rl', (T ++ T'), [], g', 1. csplit; auto; try congruence.
        rewrite Hd, Ho, B6, R9, app_nil_r. reflexivity.
      * destruct B6 as [pi B6]. exists rl', (T ++ T'), Q', g', 0. csplit; auto; try congruence.
        rewrite Hd, Ho, B6, R9, map_app. cbn. now rewrite !app_nil_r.
      * destruct B6 as [pi B6]. exists rl', (T ++ T'), Q', g', 0. csplit; auto; try congruence.
        rewrite Hd, Ho, B6, R9, map_app. cbn. now rewrite !app_nil_r.
      * exists rl', (T ++ T'), Q', g', 0. csplit; auto; try congruence.
        rewrite Hd, Ho, B6, R9, map_app. cbn. now rewrite !app_nil_r.
    + (* the queue was already empty *)
      rewrite (R10 Hk) in *. cbn in R3. unfold get_answer in E. destruct n as [|n]; [discriminate|].
      pose proof (turn_refines cf fuel o1 [] R3) as [_ Eq]. cbn [answer_loop] in E. rewrite Eq in E.
      injection E as <- <-. exists rl', T, [], g, (S k). rewrite R7, R8 in R4, R5. csplit; auto.
      rewrite Hd, R9, <- app_assoc. cbn [is_timeout]. f_equal.
      change [RFalse] with (repeat RFalse 1). rewrite <- repeat_app. f_equal. lia.
Qed.

(** the search is deterministic *)
Lemma search_det cf sto pg root T1 Q1 T2 Q2 : search cf sto pg root T1 Q1 -> search cf sto pg root T2 Q2 ->
  List.length T1 <= List.length T2 -> prefix T1 T2 /\ (List.length T1 = List.length T2 -> Q1 = Q2) /\
  (List.length T1 < List.length T2 -> Q1 <> []).
Proof.
  intros H1 H2. revert T1 Q1 H1. induction H2 as [|T2 pi p r Q2 H2 IH Ht]; intros T1 Q1 H1 L.
  - assert (T1 = []) by (destruct T1; [reflexivity|cbn in L; lia]). subst T1. split; [exists []; reflexivity|].
    split; [|cbn; lia]. intros _. inversion H1 as [|? ? ? ? ? ? ? E]; [reflexivity|]. now destruct T.
  - rewrite app_length in L |- *. cbn in L |- *.
    destruct (Nat.eq_dec (List.length T1) (List.length T2 + 1)) as [E|E].
    + inversion H1 as [|T1' pi' p' r' Q1' H1' Ht']; subst; [cbn in E; lia|].
      rewrite app_length in E. cbn in E.
      destruct (IH _ _ H1' ltac:(lia)) as ((t & Et) & Eq & _). specialize (Eq ltac:(lia)). injection Eq as -> -> ->.
      rewrite (turns_det _ _ _ _ _ _ _ (sto_ext_refl _) Ht' Ht).
      assert (t = []). { apply (f_equal (@List.length _)) in Et. rewrite app_length in Et. destruct t; [reflexivity|cbn in Et; lia]. }
      subst t. rewrite app_nil_r in Et. subst T2. split; [exists []; now rewrite app_nil_r|]. split; [reflexivity|].
      rewrite app_length. cbn. lia.
    + destruct (IH _ _ H1 ltac:(lia)) as ((t & ->) & Eq & Ne). split; [exists (t ++ [(pi, p, r)]); now rewrite app_assoc|].
      split; [lia|]. intros _. destruct (Nat.eq_dec (List.length T1) (List.length (T1 ++ t))) as [E2|E2].
      * rewrite (Eq E2). discriminate.
      * apply Ne. rewrite app_length in *. lia.
Qed.

Lemma prefix_app {A} (l k t : list A) : prefix l k -> prefix l (k ++ t).
Proof. intros [u ->]. exists (u ++ t). now rewrite app_assoc. Qed.

(** C07: time-outs do not change what is delivered *)
Theorem timeouts_pause cf o P q rs1 o1 rs2 o2 : session cf o P (QFresh q) ->
  run cf o rs1 o1 -> run cf o rs2 o2 ->
  prefix (delivered rs1) (delivered rs2) \/ prefix (delivered rs2) (delivered rs1).
Proof.
  intros HS H1 H2.
  destruct (run_search _ _ _ _ _ _ HS H1) as (r1 & T1 & Q1 & g1 & k1 & _ & (x1 & X1 & Y1) & _ & S1 & _ & _ & _ & _ & D1 & E1).
  destruct (run_search _ _ _ _ _ _ HS H2) as (r2 & T2 & Q2 & g2 & k2 & _ & (x2 & X2 & Y2) & _ & S2 & _ & _ & _ & _ & D2 & E2).
  assert (init_proc r1 = init_proc r2).
  { rewrite Y1, Y2. f_equal. rewrite X1 in X2. injection X2 as E. unfold query_ptrs in E.
    clear - E. revert x2 E. induction x1 as [|a x IH]; intros [|b y] E; try discriminate; [reflexivity|].
    cbn in E. injection E as -> E. f_equal. now apply IH. }
  rewrite H in S1. clear - S1 S2 D1 D2 E1 E2.
  assert (G : forall T1 Q1 T2 Q2 k1 k2 d1 d2, search cf (o_sto o) (o_prog o) (init_proc r2) T1 Q1 ->
      search cf (o_sto o) (o_prog o) (init_proc r2) T2 Q2 -> d1 = map snd (outs T1) ++ repeat RFalse k1 ->
      d2 = map snd (outs T2) ++ repeat RFalse k2 -> (k1 <> 0 -> Q1 = []) -> List.length T1 < List.length T2 ->
      prefix d1 d2).
  { clear. intros T1 Q1 T2 Q2 k1 k2 d1 d2 S1 S2 -> -> E1 L.
    destruct (search_det _ _ _ _ _ _ _ _ S1 S2 ltac:(lia)) as ((t & ->) & _ & Ne). specialize (Ne L).
    destruct k1 as [|k1]; [|exfalso; apply Ne, E1; discriminate]. cbn [repeat]. rewrite app_nil_r.
    unfold outs. rewrite flat_map_app, map_app, <- app_assoc. eexists; reflexivity. }
  destruct (Nat.lt_total (List.length T1) (List.length T2)) as [L|[L|L]].
  - left. exact (G _ _ _ _ _ _ _ _ S1 S2 D1 D2 E1 L).
  - destruct (search_det _ _ _ _ _ _ _ _ S1 S2 ltac:(lia)) as ((t & Et) & _ & _).
    assert (t = []). { apply (f_equal (@List.length _)) in Et. rewrite app_length in Et. destruct t; [reflexivity|cbn in Et; lia]. }
    subst t. rewrite app_nil_r in Et. subst T2. rewrite D1, D2.
    destruct (Nat.le_ge_cases k1 k2) as [K|K]; [left|right].
    + exists (repeat RFalse (k2 - k1)). rewrite <- app_assoc, <- repeat_app. do 2 f_equal. lia.
    + exists (repeat RFalse (k1 - k2)). rewrite <- app_assoc, <- repeat_app. do 2 f_equal. lia.
  - right. exact (G _ _ _ _ _ _ _ _ S2 S1 D2 D1 E2 L).
Qed.

(** C05 *)
Theorem breadth_first cf o P q rs o' : session cf o P (QFresh q) -> run cf o rs o' ->
  exists root ps k, root_of o root /\
    delivered rs = map snd ps ++ repeat RFalse k /\
    StronglySorted plt (map fst ps) /\
    (forall pi x, In (pi, x) ps -> answer_at cf (o_sto o) (o_prog o) root pi x) /\
    (forall pi x, answer_at cf (o_sto o) (o_prog o) root pi x ->
       (exists s y, In (s, y) ps /\ plt pi s) \/ k <> 0 -> In (pi, x) ps).
Proof.
  intros HS HR.
  destruct (run_search _ _ _ _ _ _ HS HR) as (rl & T & Q & g & k & _ & Hr & _ & S & _ & _ & _ & _ & D & E).
  destruct (search_order _ _ _ _ _ _ S) as (S1 & S2 & S3 & S4 & S5).
  destruct (sorted_app_inv _ _ S1) as (ST & SQ & SX).
  exists (init_proc rl), (outs T), k. csplit; auto.
  - clear - ST. induction T as [|[[pi p] r] T IH]; [constructor|]. cbn in ST.
    inversion ST as [|? ? A B]; subst. unfold outs. cbn [flat_map out_of].
    assert (Hin : forall s, In s (map fst (outs T)) -> In s (paths_t T)).
    { clear. intros s. unfold outs, paths_t. induction T as [|[[pi p] r] T IH]; cbn; [auto|].
      rewrite map_app, in_app_iff. intros [H|H]; [|auto]. left. destruct (result_of r); [|contradiction].
      destruct H as [H|[]]. exact H. }
    destruct (result_of r); cbn; [|apply IH; assumption]. constructor; [apply IH; assumption|].
    rewrite Forall_forall in B |- *. auto.
  - intros pi x Hin. unfold outs in Hin. apply in_flat_map in Hin. destruct Hin as ([[s p] r] & Hin & Ho). cbn in Ho.
    destruct (result_of r) eqn:Er; [|contradiction]. destruct Ho as [Ho|[]]. injection Ho as <- <-.
    destruct (S3 _ _ _ Hin) as [A B]. exists p, r. auto.
  - intros pi x (p & r & Hat & Ht & Er) C.
    assert (Hd : exists r', In (pi, p, r') T).
    { destruct (S5 _ _ Hat) as [H|(s0 & p0 & t & Hin & ->)]; [assumption|]. exfalso. destruct C as [(s & y & Hs & Hlt)|C].
      - assert (Hst : In s (paths_t T)).
        { unfold outs in Hs. apply in_flat_map in Hs. destruct Hs as ([[s' p'] r'] & Hs & Ho). cbn in Ho.
          destruct (result_of r'); [|contradiction]. destruct Ho as [Ho|[]]. injection Ho as <- _.
          unfold paths_t. apply in_map_iff. exists (s', p', r'). auto. }
        pose proof (SX s s0 Hst (in_map fst _ _ Hin)) as H.
        apply (plt_irrefl s). eapply plt_trans; [exact H|].
        destruct (list_eq_dec Nat.eq_dec t []) as [->|Hne]; [rewrite app_nil_r in Hlt; assumption|].
        eapply plt_trans; [apply (plt_extend _ t Hne)|assumption].
      - rewrite (E C) in Hin. contradiction. }
    destruct Hd as (r' & Hd). destruct (S3 _ _ _ Hd) as [_ Ht'].
    pose proof (turns_det _ _ _ _ _ _ _ (sto_ext_refl _) Ht Ht') as <-.
    unfold outs. apply in_flat_map. exists (pi, p, r). split; [assumption|]. cbn. rewrite Er. left. reflexivity.
Qed.
