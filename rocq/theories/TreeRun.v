(** The invariant of the arena holds in every session. *)
From Verif Require Import Base Machine Heap Facts HeapSim Compiler Parser Print Organizer Process Refine Turn Shape Mono Session
  Search Order Runs TreeTurn TreeInv.
Open Scope list_scope.

Section TreeRun.
Variable cf : cfg.

Definition answers_of (D : list (nat * list (string * string))) : list res := map (fun d => RAnswer (snd d)) D.

Lemma answer_loop_tree rl fuel n : forall k w o ps lv G M D r o',
  refines cf o ps -> tree_inv cf rl o ps lv G M D -> o_stats o = (Z.of_nat (asked o lv) mod 4294967296)%Z ->
  answer_loop cf fuel n k w o = Val (r, o') -> r <> ROutOfMemory ->
  exists ps' lv' G' M' new, refines cf o' ps' /\ tree_inv cf rl o' ps' lv' G' M' (D ++ new) /\
    o_stats o' = (Z.of_nat (asked o' lv') mod 4294967296)%Z /\ same_code o o' /\
    answers_of new = match r with RAnswer b => [RAnswer b] | _ => [] end.
Proof.
  induction n as [|n IH]; intros k w o ps lv G M D r o' HR HT Hst E Hoom; cbn [answer_loop] in E; [discriminate|].
  assert (Hsame : same_code o o) by (unfold same_code; csplit; reflexivity).
  pose proof (turn_refines cf fuel o _ HR) as TR.
  destruct ps as [|p ps].
  - destruct TR as [_ Eq]. rewrite Eq in E. injection E as <- <-. exists [], lv, G, M, []. rewrite app_nil_r. auto 10.
  - assert (Hne : o_queue o <> []).
    { intros Eq. pose proof (rf_queue _ _ _ HR) as F. rewrite Eq in F. inversion F. }
    destruct (o_queue o) as [|id q] eqn:Eq; [contradiction|]. clear Hne.
    destruct (o_limit o <? w_time w k)%Z.
    { injection E as <- <-. exists (p :: ps), lv, G, M, []. rewrite app_nil_r. auto 10. }
    destruct (w_oom w k); [injection E as <- <-; contradiction|].
    destruct (p_turn cf (o_sto o) fuel (o_prog o) p) as [sr|u|] eqn:Et; try (rewrite TR in E; discriminate).
    destruct TR as (o1 & id' & q' & _ & Et1 & HR1 & Hsc & _ & _ & Hs1).
    rewrite Et1 in E. cbn [bind] in E.
    destruct (turn_tree cf rl fuel o p ps lv G M D sr _ o1 HR HT Et Et1) as (lv1 & G1 & M1 & new1 & HT1 & Ha1 & Hn1).
    assert (Hst1 : o_stats o1 = (Z.of_nat (asked o1 lv1) mod 4294967296)%Z).
    { rewrite Hs1, Ha1. destruct (p_calls cf (o_sto o) fuel p).
      - rewrite Hst, Zplus_mod_idemp_l. f_equal. lia.
      - now rewrite Nat.add_0_r. }
    pose proof Hsc as (S1 & S2 & S3 & S4 & S5 & S6 & S7).
    destruct (result_of sr) as [r1|] eqn:Er.
    + injection E as <- <-. exists (ps ++ kids_of sr), lv1, G1, M1, new1. csplit; auto.
      destruct sr; cbn in Er; try discriminate; injection Er as <-; assumption.
    + destruct (IH _ _ _ _ _ _ _ _ _ _ HR1 HT1 Hst1 E Hoom) as (ps' & lv' & G' & M' & new & A & B & C & D' & F).
      exists ps', lv', G', M', (new1 ++ new). rewrite app_assoc. csplit; auto.
      * unfold same_code in *. intuition congruence.
      * unfold answers_of. rewrite map_app, Hn1. destruct sr; try discriminate Er; cbn; assumption.
Qed.

Lemma walk_same o o' : o_arena o' = o_arena o -> o_pgen o' = o_pgen o -> o_qgen o' = o_qgen o ->
  forall n g, walk n o' g = walk n o g.
Proof.
  intros E1 E4 E5. induction n as [|n IH]; intros g; cbn [walk]; [reflexivity|]. unfold get_exec. rewrite E1.
  destruct (nth_error (o_arena o) g) as [e'|]; cbn [of_opt bind]; [|reflexivity].
  destruct (x_codes e') as [|c [|]]; auto. rewrite (follow_same o o' c E4 E5).
  destruct (follow o c); cbn [bind]; auto. destruct (if ca_user a then _ else _); cbn [bind]; auto.
  destruct (x_parent e') as [pid|]; auto. destruct (nth_error (o_arena o) pid) as [pe|]; cbn [of_opt bind]; auto.
  destruct (x_parent pe); auto. now rewrite IH.
Qed.
Lemma answer_of_ext sto sto' fuel h t b : sto_ext sto sto' -> answer_of sto fuel h t = Val b -> answer_of sto' fuel h t = Val b.
Proof.
  intros X. revert b. change (vle (answer_of sto fuel h t) (answer_of sto' fuel h t)). unfold answer_of. vle.
  apply bind_names_ext'. intros k. now apply str_of_ext.
Qed.

Lemma at_path_ext sto sto' pg root pi p : sto_ext sto sto' -> at_path cf sto pg root pi p -> at_path cf sto' pg root pi p.
Proof. intros X H. induction H as [|pi p i l k H IH Ht Hk]; [constructor|]. econstructor; eauto using turns_ext. Qed.

Lemma tree_inv_ext rl o o' ps lv G M D : o_arena o' = o_arena o -> o_queue o' = o_queue o -> o_prog o' = o_prog o ->
  o_pgen o' = o_pgen o -> o_qgen o' = o_qgen o -> sto_ext (o_sto o) (o_sto o') ->
  tree_inv cf rl o ps lv G M D -> tree_inv cf rl o' ps lv G M D.
Proof.
  intros E1 E2 E3 E4 E5 X [A S B C D1 D2 Pt]. split; rewrite ?E1, ?E2; auto.
  2:{ intros id e He. destruct (Pt id e He) as (pi & Hpi). exists pi. rewrite E3. exact (at_path_ext _ _ _ _ _ _ X Hpi). }
  intros id e He. destruct (C id e He) as [U K Dn Co R]. split; rewrite ?E1, ?E2; auto.
  destruct R as [R|[R1 (c & a & rest & s & fu & F1 & F2 & F3 & F4 & F5 & F6)]]; [left; assumption|right].
  split; [assumption|]. exists c, a, rest, s, fu. rewrite (follow_same o o' c E4 E5). csplit; auto.
  - now apply (run_local_ext cf _ _ X).
  - intros Hs. destruct (F5 Hs) as (L1 & L2 & L3). unfold closed. rewrite E1. auto.
  - destruct F6 as [K1 K2 K3 K4|er K1 K2 K3 K4|f K1 K2 K3 K4 K5 K6|f rs K1 K2 K3 K4 K5 K6|pid b fu' K1 K2 K3 K4 K5 K6 K7 K8 K9 K10|k K1 K2 K3 K4 K5 K6 K7].
    + now apply oc_fail.
    + now apply (oc_err cf _ _ _ _ _ _ _ _ _ _ er).
    + apply (oc_unknown cf _ _ _ _ _ _ _ _ _ _ f); auto. now rewrite E3.
    + apply (oc_call cf _ _ _ _ _ _ _ _ _ _ f rs); auto. now rewrite E3.
    + apply (oc_done cf _ _ _ _ _ _ _ _ _ _ pid b fu'); auto.
      * intros n Hn. rewrite (walk_same o o' E1 E4 E5). now apply K8.
      * eapply answer_of_ext; eauto.
    + now apply (oc_next cf _ _ _ _ _ _ _ _ _ _ k).
Qed.

(** The state of a session with a query: the arena is a search tree of it. *)
Definition tree_at (rl : rule) (o : org) (q : list node) (D : list (nat * list (string * string))) : Prop :=
  exists ps lv G M, query_code cf (o_sto o) q rl /\ refines cf o ps /\ tree_inv cf rl o ps lv G M D /\
    o_stats o = (Z.of_nat (asked o lv) mod 4294967296)%Z.
Definition has_tree (o : org) (q : list node) (D : list (nat * list (string * string))) : Prop := exists rl, tree_at rl o q D.

Lemma tree_at_ext rl o o' q D : o_arena o' = o_arena o -> o_queue o' = o_queue o -> o_prog o' = o_prog o ->
  o_pgen o' = o_pgen o -> o_qgen o' = o_qgen o -> sto_ext (o_sto o) (o_sto o') -> o_stats o' = o_stats o ->
  tree_at rl o q D -> tree_at rl o' q D.
Proof.
  intros E1 E2 E3 E4 E5 X Es (ps & lv & G & M & Q & R & T & S). exists ps, lv, G, M. csplit.
  - eapply query_code_ext; eauto.
  - eapply refines_storage; [..|exact R]; auto.
  - eapply tree_inv_ext; [..|exact T]; auto.
  - rewrite Es, S. unfold asked, is_asked. now rewrite E1.
Qed.

Lemma has_tree_ext o o' q D : o_arena o' = o_arena o -> o_queue o' = o_queue o -> o_prog o' = o_prog o ->
  o_pgen o' = o_pgen o -> o_qgen o' = o_qgen o -> sto_ext (o_sto o) (o_sto o') -> o_stats o' = o_stats o ->
  has_tree o q D -> has_tree o' q D.
Proof. intros E1 E2 E3 E4 E5 X Es (rl & H). exists rl. exact (tree_at_ext rl o o' q D E1 E2 E3 E4 E5 X Es H). Qed.

Lemma fresh_at o P q : session cf o P (QFresh q) -> exists rl, tree_at rl o q [] /\ root_of o (init_proc rl).
Proof.
  intros HS. destruct (session_inv _ _ _ _ HS) as [A (rl & K1 & K2 & K3 & K4 & K5)].
  exists rl. split; [|exists rl; auto]. exists [init_proc rl], (fun _ => true), (fun _ => init_proc rl), (fun _ => p_m (init_proc rl)). csplit; auto.
  - apply init_refines; auto. apply entries_prog_shape. apply A.
  - now apply tree_init.
  - assert (Ha : asked o (fun _ => true) = 0); [|rewrite Ha; assumption].
    unfold asked. apply length_zero_iff_nil. apply filter_none. intros j Hj. unfold is_asked. rewrite K3.
    destruct j as [|[|]]; reflexivity.
Qed.

Lemma fresh_tree o P q : session cf o P (QFresh q) -> has_tree o q [].
Proof. intros HS. destruct (fresh_at _ _ _ HS) as (rl & H & _). now exists rl. Qed.

Lemma answer_at rl o q D fuel n w r o' : tree_at rl o q D -> get_answer cf fuel n w o = Val (r, o') -> r <> ROutOfMemory ->
  exists new, tree_at rl o' q (D ++ new) /\ answers_of new = match r with RAnswer b => [RAnswer b] | _ => [] end.
Proof.
  intros (ps & lv & G & M & Q & R & T & S) E Hr. unfold get_answer in E.
  destruct (answer_loop_tree rl _ _ _ _ _ _ _ _ _ _ _ _ R T S E Hr) as (ps' & lv' & G' & M' & new & A & B & C & Sc & F).
  exists new. split; [|assumption]. exists ps', lv', G', M'. csplit; auto.
  destruct Sc as (S1 & _). rewrite S1. exact Q.
Qed.
Lemma answer_tree o q D fuel n w r o' : has_tree o q D -> get_answer cf fuel n w o = Val (r, o') -> r <> ROutOfMemory ->
  exists new, has_tree o' q (D ++ new) /\ answers_of new = match r with RAnswer b => [RAnswer b] | _ => [] end.
Proof.
  intros (rl & H) E Hr. destruct (answer_at _ _ _ _ _ _ _ _ _ H E Hr) as (new & K & L). exists new. split; [now exists rl|assumption].
Qed.

Lemma session_tree o P s : session cf o P s -> match s with QFresh q | QStarted q => exists D, has_tree o q D | _ => True end.
Proof.
  induction 1 as [o E|o P s text cs o' H IH Ep E|o P s text r o' H IH E Hr|o P s text q o' H IH Ep E
                 |o P s text r o' H IH E Hr|o P s t H IH|o P s fuel n w r o' H IH Hs E Hr]; auto.
  - destruct s as [|q|q|]; cbn; auto. exists []. eapply fresh_tree. exact (ss_program cf _ _ _ _ _ _ H Ep E).
  - assert (K : o_arena o' = o_arena o /\ o_queue o' = o_queue o /\ o_prog o' = o_prog o /\ o_pgen o' = o_pgen o /\
        o_qgen o' = o_qgen o /\ sto_ext (o_sto o) (o_sto o') /\ o_stats o' = o_stats o).
    { destruct (load_program_err _ _ _ _ _ E Hr) as (s1 & -> & X). csplit; auto. }
    destruct K as (K1 & K2 & K3 & K4 & K5 & K6 & K7).
    destruct s as [|q|q|]; auto; destruct IH as (D & IH); exists D; exact (has_tree_ext o o' q D K1 K2 K3 K4 K5 K6 K7 IH).
  - exists []. eapply fresh_tree. exact (ss_query cf _ _ _ _ _ _ H Ep E).
  - destruct s as [|q|q|]; auto; destruct IH as (D & IH); exists D; exact (has_tree_ext o (set_time_limit t o) q D eq_refl eq_refl eq_refl eq_refl eq_refl (sto_ext_refl _) eq_refl IH).
  - destruct s as [|q|q|]; cbn; auto; destruct IH as (D & IH);
      destruct (answer_tree _ _ _ _ _ _ _ _ IH E Hr) as (new & K & _); eauto.
Qed.

Definition is_answer (r : res) : bool := match r with RAnswer _ => true | _ => false end.

Lemma run_at o P q rs o' : session cf o P (QFresh q) -> run cf o rs o' ->
  exists rl D, tree_at rl o' q D /\ root_of o (init_proc rl) /\ answers_of D = filter is_answer (map fst rs).
Proof.
  intros HS HR. induction HR as [o|o rs o1 t HR IH|o rs o1 fuel n w r o2 HR IH E Hr].
  - destruct (fresh_at _ _ _ HS) as (rl & H & K). exists rl, []. auto.
  - destruct (IH HS) as (rl & D & H & K & F). exists rl, D. csplit; auto. exact (tree_at_ext rl o1 (set_time_limit t o1) q D eq_refl eq_refl eq_refl eq_refl eq_refl (sto_ext_refl _) eq_refl H).
  - destruct (IH HS) as (rl & D & H & RT & F). destruct (answer_at _ _ _ _ _ _ _ _ _ H E Hr) as (new & K & L).
    exists rl, (D ++ new). csplit; auto. unfold answers_of in *. rewrite !map_app, filter_app, F, L.
    cbn. destruct r; reflexivity.
Qed.
Lemma run_tree o P q rs o' : session cf o P (QFresh q) -> run cf o rs o' ->
  exists D, has_tree o' q D /\ answers_of D = filter is_answer (map fst rs).
Proof. intros HS HR. destruct (run_at _ _ _ _ _ HS HR) as (rl & D & H & _ & F). exists D. split; [now exists rl|assumption]. Qed.
End TreeRun.
