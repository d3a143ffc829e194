(** Positions in the tree: what a turn of the search does. *)
From Verif Require Import Base Machine Heap Facts Compiler Parser ParserFacts Texts Grammar Organizer Examples Spec Print Valuation Process Turn Shape Session Code Put Search PutRun Get Alloc Atoms Clause Parsed Flat Loads Roundtrip Exprs Language Positions CompAt LockHist AnswerText OrgAt RunAt Tree TreeSrc TreeFacts TreeInv Calls TipAt.
Open Scope string_scope.
Open Scope list_scope.

(** [o'] is [o] with the executor [id] changed to [e'] and the executors [new] added *)
Record grown (o o' : org_at) (id : nat) (e' : exec_at) (new : list exec_at) : Prop := {
  gr_at : nth_error (a_arena o') id = Some e';
  gr_len : List.length (a_arena o') = List.length (a_arena o) + List.length new;
  gr_old : forall j, j < List.length (a_arena o) -> j <> id -> nth_error (a_arena o') j = nth_error (a_arena o) j;
  gr_new : forall k, nth_error (a_arena o') (List.length (a_arena o) + k) = nth_error new k;
  gr_prog : a_prog o' = a_prog o;
  gr_built : a_built o' = a_built o
}.
Lemma put_grown o id e o' : put_at o id e = Val o' -> grown o o' id e [] /\ a_queue o' = a_queue o.
Proof.
  intros E. unfold put_at in E. destruct (upd (a_arena o) id e) as [a|] eqn:Ea; cbn [of_opt bind] in E; [|discriminate E]. injection E as <-. split; [|reflexivity].
  pose proof (upd_length _ _ _ _ Ea) as L. split; cbn [a_arena aset_arena a_prog a_built]; auto.
  - rewrite (upd_nth _ _ _ _ _ Ea), Nat.eqb_refl. reflexivity.
  - rewrite L. cbn. lia.
  - intros j _ N. rewrite (upd_nth _ _ _ _ _ Ea). apply Nat.eqb_neq in N. now rewrite N.
  - intros k. rewrite (proj2 (nth_error_None a _)) by lia. now destruct k.
Qed.
Lemma grown_trans o o1 o2 id e1 e2 n1 n2 : id < List.length (a_arena o) -> grown o o1 id e1 n1 -> grown o1 o2 id e2 n2 -> grown o o2 id e2 (n1 ++ n2).
Proof.
  intros L [A1 A2 A3 A4 A5 A6] [B1 B2 B3 B4 B5 B6]. split; try congruence.
  - rewrite B2, A2, app_length. lia.
  - intros j Hj N. rewrite B3 by (auto; lia). now apply A3.
  - intros k. destruct (Nat.lt_ge_cases k (List.length n1)) as [K|K].
    + rewrite nth_error_app1 by exact K. rewrite B3 by lia. apply A4.
    + rewrite nth_error_app2 by exact K. rewrite <- B4. f_equal. lia.
Qed.
Lemma child_grown o id e c o' : nth_error (a_arena o) id = Some e -> add_child_at o id c = Val o' ->
  grown o o' id (ywith_kids e (y_kids e ++ [List.length (a_arena o)])) [c] /\ a_queue o' = a_queue o ++ [List.length (a_arena o)].
Proof.
  intros He E. unfold add_child_at, get_at in E. rewrite He in E. cbn [of_opt bind] in E. destruct (put_at o id _) as [o1|u|] eqn:E1; cbn [bind] in E; try discriminate E. injection E as <-.
  destruct (put_grown _ _ _ _ E1) as [[A1 A2 A3 A4 A5 A6] Q]. pose proof (nth_error_lt _ _ _ He) as L. cbn in A2. split; [|cbn; now rewrite Q].
  split; cbn [a_arena aset_queue aset_arena a_prog a_built]; auto.
  - rewrite nth_error_app1 by lia. exact A1.
  - rewrite app_length, A2. cbn. lia.
  - intros j Hj N. rewrite nth_error_app1 by lia. now apply A3.
  - intros k. rewrite nth_error_app2 by lia. f_equal. lia.
Qed.
Definition newborn (x : exec_at) (l : list catom_at) : Prop := y_state x = SRunning /\ y_kids x = [] /\ atoms_of (y_codes x) = l.
Lemma atoms_app a b : atoms_of (a ++ b) = atoms_of a ++ atoms_of b.
Proof. apply map_app. Qed.
Lemma spawn_grown id rs c cs : forall o e o', nth_error (a_arena o) id = Some e -> y_codes e = c :: cs -> spawn_at o id rs = Val o' ->
  exists e' new, grown o o' id e' new /\ y_kids e' = y_kids e ++ seq (List.length (a_arena o)) (List.length new) /\ y_codes e' = y_codes e /\
    Forall2 (fun x r => newborn x (r ++ atoms_of cs)) new rs /\ a_queue o' = a_queue o ++ seq (List.length (a_arena o)) (List.length new).
Proof.
  induction rs as [|r rs IH]; intros o e o' He Hc E; cbn [spawn_at] in E.
  - injection E as <-. exists e, []. cbn. rewrite !app_nil_r. csplit; auto. split; auto. intros k. rewrite (proj2 (nth_error_None _ _)) by lia. now destruct k.
  - unfold get_at in E. rewrite He in E. cbn [of_opt bind] in E. rewrite Hc in E. destruct (add_child_at o id _) as [o1|u|] eqn:E1; cbn [bind] in E; try discriminate E.
    destruct (child_grown _ _ _ _ _ He E1) as [G1 Q1]. pose proof (gr_len _ _ _ _ _ G1) as L1. cbn in L1.
    destruct (IH o1 _ o' (gr_at _ _ _ _ _ G1) Hc E) as (e' & new & G2 & K2 & C2 & F2 & Q2).
    eexists e', _. split; [exact (grown_trans _ _ _ _ _ _ _ _ (nth_error_lt _ _ _ He) G1 G2)|].
    cbn [y_kids ywith_kids y_codes] in K2, C2. rewrite L1 in K2, Q2. replace (List.length (a_arena o) + 1) with (S (List.length (a_arena o))) in K2, Q2 by lia.
    cbn [app List.length seq]. csplit.
    + rewrite K2, <- app_assoc. reflexivity.
    + exact C2.
    + constructor; [|exact F2]. split; [reflexivity|]. split; [reflexivity|]. cbn [y_codes]. now rewrite atoms_app, atoms_ptrs.
    + rewrite Q2, Q1, <- app_assoc. reflexivity.
Qed.
Lemma all_dealloc_val o l d : all_dealloc o (map fst l) = Val d -> d = forallb (fun a => is_dealloc (fst a)) (atoms_of l).
Proof.
  induction l as [|[p i] l IH]; cbn; [intros E; now injection E as <-|]. intros E. apply bind_val in E. destruct E as (a & Ea & E). unfold follow in Ea. destruct (Nat.eqb _ _); [|discriminate Ea]. injection Ea as <-.
  destruct (is_dealloc (cp_atom p)); [exact (IH E)|]. now injection E as <-.
Qed.
Lemma clear_codes e e' : clear_at e = Val e' -> y_codes e' = firstn 1 (y_codes e) /\ y_kids e' = y_kids e /\ y_state e' = y_state e.
Proof. unfold clear_at. destruct (y_codes e) as [|c l] eqn:Ec; intros E; [discriminate E|]. injection E as <-. auto. Qed.

Section Turn.
Variable cf : cfg.
Variable fuel : nat.
(** the executor [e'] has given up *)
Definition gave_up (e e' : exec_at) : Prop :=
  y_codes e' = firstn 1 (y_codes e) /\ y_kids e' = y_kids e /\ y_state e' <> SRunning /\ y_state e' <> SSuccess /\ y_state e' <> SArchived.
Lemma locals_grown id is rest : forall o e st o', nth_error (a_arena o) id = Some e -> forallb is_local is = true ->
  run_instrs_at cf fuel o id (is ++ rest) = Val (st, o') ->
  (exists m o1, grown o o1 id (ywith_m e m) [] /\ a_queue o1 = a_queue o /\ run_instrs_at cf fuel o1 id rest = Val (st, o')) \/
  (st <> ACont /\ forallb is_put is = false /\ exists e', grown o o' id e' [] /\ a_queue o' = a_queue o /\ gave_up e e').
Proof.
  induction is as [|i is IH]; intros o e st o' He Hl E.
  - left. exists (y_m e), o. csplit; auto. destruct e. split; auto; cbn.
    intros k. rewrite (proj2 (nth_error_None _ _)) by lia. now destruct k.
  - cbn [forallb] in Hl. apply andb_prop in Hl. destruct Hl as [Hi Hl]. cbn [app run_instrs_at] in E.
    destruct (instr_step_at cf fuel o id i) as [[s o1]|u|] eqn:E1; cbn [bind] in E; try discriminate E.
    assert (L : (e <- get_at o id ;;
      '(st, m) <- local_step lheap (lops (heap_at (o_arena (plain o)) (y_parent e))) cf (a_sto o) fuel i (y_m e) ;;
      match st with
      | Cont => o1 <- put_at o id (ywith_m e m) ;; Val (ACont, o1)
      | Failing => o1 <- put_at o id (ywith_state (ywith_m e m) SFail) ;; Val (AFailing, o1)
      | Raise er => o1 <- put_at o id (ywith_state (ywith_m e m) (SError er)) ;; Val (ARaise er (cur_info e), o1)
      end) = Val (s, o1)) by (destruct i; try discriminate Hi; exact E1).
    clear E1. unfold get_at in L. rewrite He in L. cbn [of_opt bind] in L. destruct (local_step _ _ _ _ _ _ _) as [[s0 m]|u|] eqn:El; cbn [bind] in L; try discriminate L.
    assert (Pt : s0 <> Cont -> is_put i = false) by (intros N; destruct (is_put i) eqn:Ep; [|reflexivity]; elim N; exact (put_conts _ _ _ _ _ _ _ _ _ Ep El)).
    assert (Stop : forall ss, ss <> SRunning -> ss <> SSuccess -> ss <> SArchived -> s <> ACont -> put_at o id (ywith_state (ywith_m e m) ss) = Val o1 ->
      (e <- get_at o1 id ;; e1 <- clear_at e ;; o2 <- put_at o1 id e1 ;; Val (s, o2)) = Val (st, o') ->
      st <> ACont /\ exists e', grown o o' id e' [] /\ a_queue o' = a_queue o /\ gave_up e e').
    { intros ss N1 N2 N3 Ns Ep Es. destruct (put_grown _ _ _ _ Ep) as [G1 Q1]. unfold get_at in Es. rewrite (gr_at _ _ _ _ _ G1) in Es. cbn [of_opt bind] in Es.
      destruct (clear_at _) as [e2|u|] eqn:Ec; cbn [bind] in Es; try discriminate Es. destruct (put_at o1 id e2) as [o2|u|] eqn:E2; cbn [bind] in Es; try discriminate Es. injection Es as <- <-.
      destruct (put_grown _ _ _ _ E2) as [G2 Q2]. apply clear_codes in Ec. destruct Ec as (C1 & C2 & C3). split; [exact Ns|]. exists e2. csplit.
      - exact (grown_trans _ _ _ _ _ _ _ _ (nth_error_lt _ _ _ He) G1 G2).
      - congruence.
      - unfold gave_up. rewrite C1, C2, C3. csplit; auto. }
    destruct s0 as [| |er]; destruct (put_at o id _) as [o2|u|] eqn:E2; cbn [bind] in L; try discriminate L; injection L as <- <-.
    + destruct (put_grown _ _ _ _ E2) as [G1 Q1]. destruct (IH _ _ _ _ (gr_at _ _ _ _ _ G1) Hl E) as [(m' & o3 & G3 & Q3 & R)|(N & Np & e' & G3 & Q3 & R)].
      * left. exists m', o3. csplit; [|congruence|exact R]. exact (grown_trans _ _ _ _ _ _ [] [] (nth_error_lt _ _ _ He) G1 G3).
      * right. split; [exact N|]. split; [cbn; rewrite Np; apply andb_false_r|]. exists e'. csplit; [|congruence|exact R]. exact (grown_trans _ _ _ _ _ _ [] [] (nth_error_lt _ _ _ He) G1 G3).
    + right. destruct (Stop SFail) as [N X]; auto; try discriminate. split; [exact N|]. split; [|exact X]. cbn. rewrite Pt by discriminate. reflexivity.
    + right. destruct (Stop (SError er)) as [N X]; auto; try discriminate. split; [exact N|]. split; [|exact X]. cbn. rewrite Pt by discriminate. reflexivity.
Qed.
(** what a turn does for the executor at the front of the queue, if its atom consists of local instructions and one more *)
Inductive turned (o o' : org_at) (id : nat) (q : list nat) (e e' : exec_at) (p : ptr_at) (ps : list ptr_at) (is : list instr) (ctl : instr) : list exec_at -> Prop :=
| td_up : forallb is_put is = false -> gave_up e e' -> a_queue o' = q -> turned o o' id q e e' p ps is ctl []
| td_unknown f : ctl = ICall f -> tlookup f (a_prog o) = None -> gave_up e e' -> a_queue o' = q -> turned o o' id q e e' p ps is ctl []
| td_call f rs new : ctl = ICall f -> tlookup f (a_prog o) = Some rs -> y_codes e' = [p] -> y_state e' = SArchived ->
    y_kids e' = y_kids e ++ seq (List.length (a_arena o)) (List.length new) ->
    Forall2 (fun x r => newborn x (r ++ atoms_of ps)) new rs -> a_queue o' = q ++ seq (List.length (a_arena o)) (List.length new) ->
    turned o o' id q e e' p ps is ctl new
| td_done : ctl = IProceed -> forallb (fun a => is_dealloc (fst a)) (atoms_of ps) = true -> y_codes e' = [p] -> y_state e' = SSuccess -> y_kids e' = y_kids e ->
    a_queue o' = q -> turned o o' id q e e' p ps is ctl []
| td_next x : ctl = IProceed -> forallb (fun a => is_dealloc (fst a)) (atoms_of ps) = false -> y_codes e' = [p] -> y_state e' = SArchived ->
    y_kids e' = y_kids e ++ [List.length (a_arena o)] -> newborn x (atoms_of ps) -> a_queue o' = q ++ [List.length (a_arena o)] ->
    turned o o' id q e e' p ps is ctl [x]
| td_dealloc : ctl = IDealloc -> y_codes e' = ps -> y_state e' = y_state e -> y_kids e' = y_kids e -> a_queue o' = q ++ [id] -> turned o o' id q e e' p ps is ctl [].
Lemma nil_grown o id e : nth_error (a_arena o) id = Some e -> grown o o id e [].
Proof. intros He. split; auto; cbn. intros k. rewrite (proj2 (nth_error_None _ _)) by lia. now destruct k. Qed.
Lemma control_turned o id e p ps is ctl st o' : nth_error (a_arena o) id = Some e -> y_codes e = p :: ps -> is_local ctl = false ->
  run_instrs_at cf fuel o id [ctl] = Val (st, o') -> exists e' new, grown o o' id e' new /\ turned o o' id (a_queue o) e e' p ps is ctl new.
Proof.
  intros He Hc Hl E. pose proof (nth_error_lt _ _ _ He) as Lt. cbn [run_instrs_at] in E. destruct (instr_step_at cf fuel o id ctl) as [[s o1]|u|] eqn:E1; cbn [bind] in E; try discriminate E.
  destruct ctl; try discriminate Hl; cbn [instr_step_at] in E1.
  - unfold do_call_at in E1. set (o0 := aset_stats o _) in *. assert (H0 : nth_error (a_arena o0) id = Some e) by exact He.
    destruct (tlookup f (a_prog o0)) as [rs|] eqn:Et.
    + destruct (spawn_at o0 id rs) as [o2|u|] eqn:E2; cbn [bind] in E1; try discriminate E1. destruct (spawn_grown id rs p ps o0 e o2 H0 Hc E2) as (e2 & new & G2 & K2 & C2 & F2 & Q2).
      unfold get_at in E1. rewrite (gr_at _ _ _ _ _ G2) in E1. cbn [of_opt bind] in E1. destruct (clear_at e2) as [e3|u|] eqn:E3; cbn [bind] in E1; try discriminate E1.
      apply clear_codes in E3. destruct E3 as (C3 & K3 & _). destruct (put_at o2 id _) as [o4|u|] eqn:E4; cbn [bind] in E1; try discriminate E1. injection E1 as <- <-. injection E as _ <-.
      destruct (put_grown _ _ _ _ E4) as [G4 Q4]. pose proof (grown_trans o0 _ _ _ _ _ _ _ Lt G2 G4) as G5. rewrite app_nil_r in G5. eexists _, new. split.
      * destruct G5 as [A1 A2 A3 A4 A5 A6]. split; [exact A1|exact A2|exact A3|exact A4|exact A5|exact A6].
      * apply (td_call o o4 id (a_queue o) e _ p ps is (ICall f) f rs new); auto.
        -- cbn [y_codes ywith_state]. now rewrite C3, C2, Hc.
        -- cbn [y_kids ywith_state]. now rewrite K3.
        -- now rewrite Q4.
    + unfold get_at in E1. rewrite H0 in E1. cbn [of_opt bind] in E1. destruct (put_at o0 id _) as [o2|u|] eqn:E2; cbn [bind] in E1; try discriminate E1. injection E1 as <- <-.
      destruct (put_grown _ _ _ _ E2) as [G2 Q2]. unfold get_at in E. rewrite (gr_at _ _ _ _ _ G2) in E. cbn [of_opt bind] in E. destruct (clear_at _) as [e3|u|] eqn:E3; cbn [bind] in E; try discriminate E.
      apply clear_codes in E3. destruct E3 as (C3 & K3 & S3). destruct (put_at o2 id e3) as [o4|u|] eqn:E4; cbn [bind] in E; try discriminate E. injection E as _ <-. destruct (put_grown _ _ _ _ E4) as [G4 Q4].
      pose proof (grown_trans o0 _ _ _ _ _ _ _ Lt G2 G4) as G5. exists e3, []. split.
      * destruct G5 as [A1 A2 A3 A4 A5 A6]. split; [exact A1|exact A2|exact A3|exact A4|exact A5|exact A6].
      * apply (td_unknown o o4 id (a_queue o) e e3 p ps is (ICall f) f); auto; [|now rewrite Q4].
        unfold gave_up. rewrite C3, K3, S3. cbn. csplit; auto; discriminate.
  - unfold do_proceed_at, get_at in E1. rewrite He in E1. cbn [of_opt bind] in E1. rewrite Hc in E1. destruct (all_dealloc _ _) as [d|u|] eqn:Ed; cbn [bind] in E1; try discriminate E1.
    apply all_dealloc_val in Ed. destruct d.
    + destruct (clear_at _) as [e3|u|] eqn:E3; cbn [bind] in E1; try discriminate E1. apply clear_codes in E3. destruct E3 as (C3 & K3 & S3).
      destruct (put_at o id e3) as [o4|u|] eqn:E4; cbn [bind] in E1; try discriminate E1. injection E1 as <- <-. injection E as _ <-. destruct (put_grown _ _ _ _ E4) as [G4 Q4].
      exists e3, []. split; [exact G4|]. apply td_done; auto. rewrite C3. cbn [y_codes ywith_state]. now rewrite Hc.
    + destruct (put_at o id _) as [o4|u|] eqn:E4; cbn [bind] in E1; try discriminate E1. destruct (put_grown _ _ _ _ E4) as [G4 Q4].
      destruct (add_child_at o4 id _) as [o5|u|] eqn:E5; cbn [bind] in E1; try discriminate E1. injection E1 as <- <-. injection E as _ <-.
      destruct (child_grown _ _ _ _ _ (gr_at _ _ _ _ _ G4) E5) as [G5 Q5]. pose proof (gr_len _ _ _ _ _ G4) as L4. cbn in L4. rewrite Nat.add_0_r in L4. rewrite L4 in G5, Q5.
      pose proof (grown_trans _ _ _ _ _ _ _ _ Lt G4 G5) as G6. cbn [app] in G6. eexists _, _. split; [exact G6|].
      apply td_next; auto; [|congruence]. split; [reflexivity|]. split; reflexivity.
  - unfold do_dealloc_at, get_at in E1. rewrite He in E1. cbn [of_opt bind] in E1. rewrite Hc in E1. destruct (m_envs (y_m e)) as [|v envs]; [discriminate E1|].
    destruct (put_at o id _) as [o4|u|] eqn:E4; cbn [bind] in E1; try discriminate E1. injection E1 as <- <-. injection E as _ <-. destruct (put_grown _ _ _ _ E4) as [G4 Q4].
    eexists _, []. split; [destruct G4 as [A1 A2 A3 A4 A5 A6]; split; [exact A1|exact A2|exact A3|exact A4|exact A5|exact A6]|].
    apply td_dealloc; auto. cbn. now rewrite Q4.
Qed.
Lemma turn_turned o id q e p ps is ctl r o' : a_queue o = id :: q -> nth_error (a_arena o) id = Some e -> y_codes e = p :: ps ->
  ca_code (cp_atom (fst p)) = is ++ [ctl] -> forallb is_local is = true -> is_local ctl = false ->
  turn_at cf fuel o = Val (r, o') -> exists e' new, grown o o' id e' new /\ turned o o' id q e e' p ps is ctl new.
Proof.
  intros Hq He Hc Hcode Hl Hctl E. unfold turn_at in E. rewrite Hq in E. set (o0 := aset_queue o q) in *. unfold get_at at 1 in E. change (a_arena o0) with (a_arena o) in E. rewrite He in E. cbn [of_opt bind] in E.
  rewrite Hc in E. destruct (follow (plain o0) (fst p)) as [a|u|] eqn:Ef; cbn [bind] in E; try discriminate E. unfold follow in Ef. destruct (Nat.eqb _ _); [|discriminate Ef]. injection Ef as <-. rewrite Hcode in E.
  destruct (put_at o0 id _) as [o1|u|] eqn:E1; cbn [bind] in E; try discriminate E. destruct (put_grown _ _ _ _ E1) as [G1 Q1].
  destruct (run_instrs_at cf fuel o1 id _) as [[st o2]|u|] eqn:E2; cbn [bind] in E; try discriminate E.
  assert (Eo : o2 = o').
  { destruct st as [| |er j]; [| |now injection E as _ <-]; destruct (get_at o2 id) as [e2|u|]; cbn [bind] in E; try discriminate E; destruct (y_state e2); try (now injection E as _ <-); destruct (find_subs _ _ _); cbn [bind] in E; try discriminate E; now injection E as _ <-. }
  subst o2. clear E. pose proof (nth_error_lt _ _ _ He) as Lt. assert (Rb : forall o3 e3 n3, grown o0 o3 id e3 n3 -> grown o o3 id e3 n3).
  { intros o3 e3 n3 [A1 A2 A3 A4 A5 A6]. split; [exact A1|exact A2|exact A3|exact A4|exact A5|exact A6]. }
  destruct (locals_grown id is [ctl] _ _ _ _ (gr_at _ _ _ _ _ G1) Hl E2) as [(m & o3 & G3 & Q3 & R)|(N & Np & e' & G3 & Q3 & R)].
  - destruct (control_turned o3 id _ p ps is ctl st o' (gr_at _ _ _ _ _ G3) Hc Hctl R) as (e' & new & G4 & T).
    pose proof (gr_len _ _ _ _ _ G1) as L1. pose proof (gr_len _ _ _ _ _ G3) as L3. cbn [List.length] in L1, L3. change (a_arena o0) with (a_arena o) in L1.
    assert (L : List.length (a_arena o3) = List.length (a_arena o)) by lia. assert (Hp : a_prog o3 = a_prog o) by (rewrite (gr_prog _ _ _ _ _ G3), (gr_prog _ _ _ _ _ G1); reflexivity).
    assert (Hqq : a_queue o3 = q) by (rewrite Q3, Q1; reflexivity).
    exists e', new. split; [apply Rb; exact (grown_trans o0 _ _ _ _ _ [] new Lt (grown_trans o0 _ _ _ _ _ [] [] Lt G1 G3) G4)|].
    rewrite Hqq in T. destruct T as [T0 T1 T2|f T1 T2 T3 T4|f rs new T1 T2 T3 T4 T5 T6 T7|T1 T2 T3 T4 T5 T6|x T1 T2 T3 T4 T5 T6 T7|T1 T2 T3 T4 T5]; rewrite ?L, ?Hp in *.
    + now apply td_up.
    + now apply (td_unknown _ _ _ _ _ _ _ _ _ _ f).
    + now apply (td_call _ _ _ _ _ _ _ _ _ _ f rs).
    + now apply td_done.
    + now apply td_next.
    + now apply td_dealloc.
  - exists e', []. split; [apply Rb; exact (grown_trans o0 _ _ _ _ _ [] [] Lt G1 G3)|]. apply td_up; [exact Np|exact R|]. rewrite Q3, Q1. reflexivity.
Qed.
End Turn.
