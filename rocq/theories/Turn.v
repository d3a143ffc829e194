(** One turn of the queue implements one turn of the process at its front. *)
From Verif Require Import Base Machine Heap Facts HeapSim Compiler Parser Print Organizer Process Refine.

Lemma nth_error_ext {A} (l k : list A) : (forall i, nth_error l i = nth_error k i) -> l = k.
Proof.
  revert k. induction l as [|x l IH]; intros [|y k] H; auto; try (specialize (H 0); discriminate).
  f_equal; [specialize (H 0); cbn in H; congruence|]. apply IH. intros i. exact (H (S i)).
Qed.
Lemma nth_error_skipn {A} n : forall (l : list A) i, nth_error (skipn n l) i = nth_error l (n + i).
Proof. induction n as [|n IH]; intros [|x l] i; cbn; auto. now destruct i. Qed.

Section Turn.
Variable cf : cfg.
Variable fuel : nat.
Notation erel := (Refine.erel cf).
Notation refines := (Refine.refines cf).
(** --- one turn --- *)
Definition result_of (r : step_res) : option res :=
  match r with PFails | PKids _ => None | PErr e => Some (RError e) | PDone b => Some (RAnswer b) end.
Definition kids_of (r : step_res) : list process := match r with PKids l => l | _ => [] end.
Definition same_code (o o' : org) : Prop :=
  o_sto o' = o_sto o /\ o_prog o' = o_prog o /\ o_built o' = o_built o /\ o_query o' = o_query o /\
  o_limit o' = o_limit o /\ o_pgen o' = o_pgen o /\ o_qgen o' = o_qgen o.

Lemma arena_facts ar ar1 id e e1 cs : parents_ok ar -> nth_error ar id = Some e -> x_parent e1 = x_parent e ->
  List.length ar1 = List.length ar -> nth_error ar1 id = Some e1 ->
  (forall j, j <> id -> nth_error ar1 j = nth_error ar j) ->
  (forall c, In c cs -> x_parent c = Some id) ->
  parents_ok (ar1 ++ cs) /\
  (forall j, j <> id -> childless ar j -> j < List.length ar -> childless (ar1 ++ cs) j) /\
  (forall j, List.length ar <= j -> childless (ar1 ++ cs) j) /\
  (cs = [] -> childless ar id -> childless (ar1 ++ cs) id).
Proof.
  intros Hp He Hpe Hl He1 Hj Hcs. pose proof (nth_error_lt _ _ _ He) as Hid.
  assert (Hold : forall j x, nth_error (ar1 ++ cs) j = Some x ->
            (exists y, nth_error ar j = Some y /\ x_parent x = x_parent y) \/
            (List.length ar <= j /\ x_parent x = Some id /\ cs <> [])).
  { intros j x Hx. destruct (Nat.lt_ge_cases j (List.length ar)) as [Hlt|Hge].
    - left. rewrite nth_error_app1 in Hx by lia. destruct (Nat.eq_dec j id) as [->|Hne].
      + exists e. rewrite He1 in Hx. injection Hx as <-. auto.
      + rewrite Hj in Hx by assumption. eauto.
    - right. rewrite nth_error_app2 in Hx by lia. apply nth_error_In in Hx. split; [assumption|].
      split; [auto|]. intros ->. contradiction. }
  repeat split.
  - intros j x q Hx Hq. destruct (Hold _ _ Hx) as [(y & Hy & Hxy)|(Hge & Hpar & _)].
    + rewrite Hxy in Hq. eauto.
    + rewrite Hpar in Hq. injection Hq as <-. lia.
  - intros j Hne Hc Hlt i x Hx Hq. destruct (Hold _ _ Hx) as [(y & Hy & Hxy)|(Hge & Hpar & _)].
    + rewrite Hxy in Hq. exact (Hc _ _ Hy Hq).
    + congruence.
  - intros j Hge i x Hx Hq. destruct (Hold _ _ Hx) as [(y & Hy & Hxy)|(_ & Hpar & _)].
    + rewrite Hxy in Hq. pose proof (Hp _ _ _ Hy Hq). pose proof (nth_error_lt _ _ _ Hy). lia.
    + rewrite Hpar in Hq. injection Hq as <-. lia.
  - intros Hnil Hc i x Hx Hq. destruct (Hold _ _ Hx) as [(y & Hy & Hxy)|(_ & _ & Hn)].
    + rewrite Hxy in Hq. exact (Hc _ _ Hy Hq).
    + contradiction.
Qed.

Lemma queue_lt o ps id : refines o ps -> In id (o_queue o) -> id < List.length (o_arena o).
Proof.
  intros [_ _ _ _ HF] Hin. revert Hin. generalize (o_queue o) ps HF. clear.
  intros q ps H. induction H as [|x p q ps Hx H IH]; intros Hin; [contradiction|].
  destruct Hin as [<-|Hin]; [|auto]. destruct Hx as (e & He & _). eapply nth_error_lt; eauto.
Qed.

Lemma refines_next o id q p ps e e1 ar1 cs news kids o' :
  refines o (p :: ps) -> o_queue o = id :: q ->
  nth_error (o_arena o) id = Some e -> x_parent e1 = x_parent e ->
  List.length ar1 = List.length (o_arena o) -> nth_error ar1 id = Some e1 ->
  (forall j, j <> id -> nth_error ar1 j = nth_error (o_arena o) j) ->
  (forall c, In c cs -> x_parent c = Some id) ->
  o_arena o' = ar1 ++ cs -> o_queue o' = q ++ news -> same_code o o' ->
  (news = seq (List.length (o_arena o)) (List.length cs) \/ (news = [id] /\ cs = [])) ->
  Forall2 (erel o') news kids ->
  agree o o' id /\ refines o' (ps ++ kids).
Proof.
  intros HR Hq He Hpe Hl He1 Hj Hcs Har Hq' Hsc Hnews HF. pose proof HR as [Hp Hnd Hch Hpr HFq].
  destruct (arena_facts _ _ _ _ _ cs Hp He Hpe Hl He1 Hj Hcs) as (A1 & A2 & A3 & A4).
  rewrite Hq in Hnd, Hch, HFq. inversion Hnd as [|? ? Hnin Hnd']; subst. inversion HFq as [|? ? ? ? _ HFq']; subst.
  destruct Hsc as (S1 & S2 & _ & _ & _ & S6 & S7).
  assert (Hag : agree o o' id).
  { split; [assumption|]. split; [assumption|]. rewrite Har. split.
    - rewrite app_length. lia.
    - intros j Hlt Hne. rewrite nth_error_app1 by lia. auto. }
  split; [assumption|].
  assert (Hqlt : forall j, In j q -> j < List.length (o_arena o)).
  { intros j Hin. eapply queue_lt; [exact HR|]. rewrite Hq. now right. }
  assert (Hqne : forall j, In j q -> j <> id) by (intros j Hin ->; contradiction).
  split.
  - now rewrite Har.
  - rewrite Hq'. destruct Hnews as [->|[-> _]].
    + clear - Hnd' Hqlt. induction Hnd' as [|x q Hx Hnd IH]; cbn; [apply seq_NoDup|]. constructor.
      * rewrite in_app_iff. intros [H|H]; [contradiction|]. apply in_seq in H. specialize (Hqlt x (or_introl eq_refl)). lia.
      * apply IH. intros j Hj. apply Hqlt. now right.
    + apply NoDup_rev in Hnd'. rewrite <- (rev_involutive (q ++ [id])). apply NoDup_rev. rewrite rev_app_distr. cbn.
      constructor; [|assumption]. now rewrite <- in_rev.
  - intros j Hin. rewrite Har. rewrite Hq' in Hin. apply in_app_iff in Hin. destruct Hin as [Hin|Hin].
    + apply A2; auto. apply Hch. now right.
    + destruct Hnews as [->|[-> ->]].
      * apply in_seq in Hin. apply A3. lia.
      * destruct Hin as [<-|[]]. apply A4; [reflexivity|]. apply Hch. now left.
  - now rewrite S2.
  - rewrite Hq'. apply Forall2_app; [|assumption].
    assert (HFin : forall j x, In j q -> erel o j x -> erel o' j x).
    { intros j x Hin. apply erel_agree with (id := id); auto. apply Hch. now left. }
    clear - HFq' HFin. induction HFq' as [|j x q ps Hx HF IH]; constructor.
    + apply HFin; [now left|assumption].
    + apply IH. intros i y Hin. apply HFin. now right.
Qed.

Lemma shape_split a : query_shape a \/ head_shape a ->
  exists is c, ca_code a = is ++ [c] /\ forallb is_local is = true /\
               removelast (ca_code a) = is /\ last (ca_code a) IProceed = c /\
               ((exists f, c = ICall f) \/ c = IProceed \/ (is = [] /\ c = IDealloc)).
Proof.
  intros [[(is & f & E & L)|E]|(is & E & L & _)].
  - assert (L' : forallb is_local is = true).
    { rewrite forallb_forall in *. intros i Hi. specialize (L i Hi). destruct i; auto; discriminate. }
    clear L. exists is, (ICall f). rewrite E, removelast_last, last_last. repeat split; eauto.
  - exists [], IDealloc. rewrite E. repeat split; auto.
  - exists is, IProceed. rewrite E, removelast_last, last_last. repeat split; auto.
Qed.

Lemma all_dealloc_spec o cs as_ : Forall2 (fun c a => follow o c = Val a) cs as_ ->
  all_dealloc o cs = Val (forallb is_dealloc as_).
Proof.
  intros H. induction H as [|c a cs as_ Hc H IH]; cbn; [reflexivity|]. rewrite Hc. cbn.
  destruct (is_dealloc a); auto.
Qed.

Lemma rule_ptrs_follow o r : Forall2 (fun c a => follow o c = Val a) (rule_ptrs (o_pgen o) r) r.
Proof.
  unfold rule_ptrs. induction r as [|a r IH]; cbn; constructor; auto.
  unfold follow. cbn. now rewrite Nat.eqb_refl.
Qed.
Lemma Forall2_seq_kids o' (f : rule -> exec) (g : rule -> process) rs : forall n ar,
  (forall k r, nth_error rs k = Some r -> erel o' (n + k) (g r)) ->
  Forall2 (erel o') (seq n (List.length (map f rs))) (map g rs) \/ ar = @nil nat.
Proof.
  induction rs as [|r rs IH]; intros n ar H; cbn; left; constructor.
  - specialize (H 0 r eq_refl). now rewrite Nat.add_0_r in H.
  - destruct (IH (S n) [0]) as [K|K]; [|exact K|discriminate].
    intros k r' Hk. replace (S n + k) with (n + S k) by lia. now apply H.
Qed.

Lemma follow_same o o' c : o_pgen o' = o_pgen o -> o_qgen o' = o_qgen o -> follow o' c = follow o c.
Proof. unfold follow. now intros -> ->. Qed.

Theorem turn_refines o ps : refines o ps ->
  match ps with
  | [] => turn cf fuel o = Val (Some RFalse, o) /\ o_queue o = []
  | p :: ps' =>
      match p_turn cf (o_sto o) fuel (o_prog o) p with
      | Ub u => turn cf fuel o = Ub u
      | Fuel => turn cf fuel o = Fuel
      | Val r => exists o' id q, o_queue o = id :: q /\ turn cf fuel o = Val (result_of r, o') /\
                   refines o' (ps' ++ kids_of r) /\ same_code o o' /\ agree o o' id /\
                   o_queue o' = q ++ skipn (List.length q) (o_queue o') /\
                   o_stats o' = (if p_calls cf (o_sto o) fuel p then (o_stats o + 1) mod 4294967296 else o_stats o)%Z
      end
  end.
Proof.
  intros HR. pose proof HR as [Hp Hnd Hch Hpr HF].
  destruct ps as [|p ps].
  { inversion HF as [Hq|]; subst. unfold turn. rewrite <- Hq. auto. }
  destruct (o_queue o) as [|id q] eqn:Hq; [inversion HF|].
  inversion HF as [|? ? ? ? Hid HF']; subst. destruct Hid as (e & He & Hst & Hm & Hcd & Hk).
  assert (Hchid : childless (o_arena o) id) by (apply Hch; now left).
  unfold turn. rewrite Hq. unfold p_turn, p_calls.
  rewrite (get_exec_some (set_queue o q) id e He). cbn [bind].
  destruct (x_codes e) as [|c cs] eqn:Hxc; inversion Hcd as [E0 E1|? a ? rest Hfo Hrest E0 E1]; subst; [reflexivity|].
  assert (Hcs : p_codes p = a :: rest) by congruence. clear E1.
  assert (Hsh : query_shape a \/ head_shape a).
  { destruct Hk as [_ _ Hs|? ? ? _ _ _ _ Hs|? h b _ _ Hh Hs _]; rewrite Hcs in Hs || rewrite Hcs in Hh.
    - inversion Hs; auto.
    - inversion Hs; auto.
    - injection Hh as -> ->. auto. }
  destruct (shape_split a Hsh) as (is & ctl & Hcode & Hloc & -> & -> & Hctl).
  change (follow (set_queue o q) c) with (follow o c). rewrite Hfo. cbn [bind].
  set (o0 := set_queue o q). set (m0 := set_regs (x_m e) (resize (m_regs (x_m e)) (ca_regs a))).
  set (fm0 := set_regs (p_m p) (resize (m_regs (p_m p)) (ca_regs a))).
  assert (Hm0 : mrel (heap_at (o_arena o0) (x_parent e)) m0 fm0).
  { unfold m0, fm0. destruct Hm as (M1 & M2 & M3). rewrite M2. apply mrel_set_regs. split; auto. }
  destruct (put_exec_some o0 id e (with_m e m0) He) as (ar1 & -> & L1 & N1 & J1). cbn [bind].
  rewrite Hcode.
  pose proof (run_locals cf fuel o0 id e Hp Hchid He is [ctl] ar1 m0 fm0 Hloc L1 N1 J1 Hm0) as Hrun.
  change (o_sto o0) with (o_sto o) in Hrun.
  destruct (run_local cf (o_sto o) fuel is fm0) as [[s fm1]| |] eqn:Erun; cbn [bind];
    [|now rewrite Hrun|now rewrite Hrun].
  assert (Hlt : id < List.length (o_arena o)) by (eapply nth_error_lt; eauto).
  assert (Hsto : forall z ar, same_code o (set_stats (set_arena o0 ar) z)) by (intros; repeat split).
  assert (Hsto' : forall ar, same_code o (set_arena o0 ar)) by (intros; repeat split).
  (* a branch that ends: failure or error *)
  assert (Hend : forall ar2 m1 (st : rstat) ss,
    List.length ar2 = List.length (o_arena o) ->
    nth_error ar2 id = Some (with_state (with_m e m1) ss) ->
    (forall j, j <> id -> nth_error ar2 j = nth_error (o_arena o) j) ->
    forall z, exists ar3 e3,
    (e1 <- clear_exec (with_state (with_m e m1) ss) ;;
     o2 <- put_exec (set_stats (set_arena o0 ar2) z) id e1 ;; Val (st, o2)) =
       Val (st, set_stats (set_arena o0 ar3) z) /\
      nth_error ar3 id = Some e3 /\ x_state e3 = ss /\
      agree o (set_stats (set_arena o0 ar3) z) id /\ refines (set_stats (set_arena o0 ar3) z) (ps ++ [])).
  { intros ar2 m1 st ss L2 N2 J2 z. unfold clear_exec. cbn [x_codes with_state with_m]. rewrite Hxc. cbn [bind].
    set (e3 := with_codes _ _).
    destruct (put_exec_some (set_stats (set_arena o0 ar2) z) id _ e3 N2) as (ar3 & -> & L3 & N3 & J3). cbn [bind].
    cbn in L3, J3.
    exists ar3, e3. split; [reflexivity|]. split; [assumption|]. split; [reflexivity|].
    apply (refines_next o id q p ps e e3 ar3 [] [] []); auto.
    - congruence.
    - intros j Hne. rewrite J3 by assumption. auto.
    - intros ? [].
    - cbn. now rewrite app_nil_r.
    - cbn. now rewrite app_nil_r. }
  assert (Hz : forall ar, set_arena o0 ar = set_stats (set_arena o0 ar) (o_stats o)) by reflexivity.
  assert (Hskip : forall ns : list nat, q ++ ns = q ++ skipn (List.length q) (q ++ ns)).
  { intros ns. rewrite skipn_app, skipn_all, Nat.sub_diag. reflexivity. }
  destruct s as [| |er].
  2:{ destruct Hrun as (ar2 & m1 & st & ss & -> & L2 & N2 & J2 & -> & ->). rewrite Hz.
      destruct (Hend ar2 m1 RFailing SFail L2 N2 J2 (o_stats o)) as (ar3 & e3 & -> & N3 & E3 & Hag & HR3). cbn [bind].
      rewrite (get_exec_some (set_stats (set_arena o0 ar3) (o_stats o)) id e3 N3). cbn [bind]. rewrite E3.
      eexists _, id, q. split; [reflexivity|]. split; [reflexivity|]. split; [exact HR3|]. split; [apply Hsto|].
      split; [assumption|]. split; [|reflexivity]. cbn. now rewrite skipn_all, app_nil_r. }
  2:{ destruct Hrun as (ar2 & m1 & st & ss & -> & L2 & N2 & J2 & -> & ->). rewrite Hz.
      destruct (Hend ar2 m1 (RRaise er) (SError er) L2 N2 J2 (o_stats o)) as (ar3 & e3 & -> & N3 & E3 & Hag & HR3). cbn [bind].
      eexists _, id, q. split; [reflexivity|]. split; [reflexivity|]. split; [exact HR3|]. split; [apply Hsto|].
      split; [assumption|]. split; [|reflexivity]. cbn. now rewrite skipn_all, app_nil_r. }
  destruct Hrun as (ar2 & m1 & -> & L2 & N2 & J2 & Hm1).
  cbn [run_instrs].
  assert (Hm1' : mrel (heap_at ar2 (x_parent e)) m1 fm1).
  { eapply mrel_ext; [|exact Hm1]. intros b. eapply heap_at_frame with (id := id); eauto.
    - lia.
    - destruct (x_parent e) as [g|] eqn:Eq; auto. pose proof (Hp _ _ _ He Eq). split; [cbn; lia|]. intros ->.
      exact (Hchid _ _ He Eq). }
  destruct Hctl as [[f ->]|[->|[-> ->]]]; cbn [instr_step].
  - (* call *)
    unfold do_call. cbn [o_prog o_stats set_stats set_arena o0 set_queue].
    set (z := ((o_stats o + 1) mod 4294967296)%Z).
    change (set_stats (set_arena (set_queue o q) ar2) z) with (set_stats (set_arena o0 ar2) z).
    set (oz := set_stats (set_arena o0 ar2) z).
    destruct (plookup f (o_prog o)) as [rs|] eqn:Elk.
    + destruct (spawn_spec id rs oz (with_m e m1) c cs N2 Hxc) as (ar3 & ks & -> & L3 & N3 & J3). cbn [bind].
      set (children := map _ rs).
      set (o3 := set_queue _ _).
      assert (N3' : nth_error (o_arena o3) id = Some (with_kids (with_m e m1) ks)).
      { cbn. rewrite nth_error_app1; [assumption|]. rewrite L3. change (id < List.length ar2). rewrite L2. exact Hlt. }
      rewrite (get_exec_some o3 id _ N3'). cbn [bind]. unfold clear_exec. cbn [x_codes with_kids with_m]. rewrite Hxc.
      cbn [bind]. set (e4 := with_state _ SArchived).
      destruct (put_exec_some o3 id _ e4 N3') as (ar4 & -> & L4 & N4 & J4). cbn [bind run_instrs].
      rewrite (get_exec_some (set_arena o3 ar4) id e4 N4). cbn [bind]. cbn [x_state e4 with_state].
      set (o4 := set_arena o3 ar4).
      assert (Hlen3 : List.length (o_arena oz) = List.length (o_arena o)) by exact L2.
      set (ar5 := firstn (List.length (o_arena o)) ar4).
      assert (E4 : ar4 = ar5 ++ children).
      { unfold ar5. rewrite <- (firstn_skipn (List.length (o_arena o)) ar4) at 1. f_equal.
        apply nth_error_ext. intros k. rewrite nth_error_skipn. rewrite J4 by lia. cbn.
        rewrite nth_error_app2 by lia. rewrite L3, Hlen3. f_equal. lia. }
      assert (L4' : List.length ar4 = List.length (o_arena o) + List.length children).
      { rewrite L4. cbn. rewrite app_length. lia. }
      assert (L5 : List.length ar5 = List.length (o_arena o)) by (unfold ar5; rewrite firstn_length; lia).
      assert (N5 : nth_error ar5 id = Some e4).
      { rewrite <- N4, E4, nth_error_app1 by lia. reflexivity. }
      assert (J5 : forall j, j <> id -> nth_error ar5 j = nth_error (o_arena o) j).
      { intros j Hne. destruct (Nat.lt_ge_cases j (List.length (o_arena o))) as [Hjl|Hjg].
        - transitivity (nth_error ar4 j); [rewrite E4, nth_error_app1 by lia; reflexivity|].
          rewrite J4 by assumption. cbn. rewrite nth_error_app1 by lia. rewrite J3 by assumption. cbn. auto.
        - rewrite !(proj2 (nth_error_None _ _)); auto; lia. }
      assert (Hpar4 : parents_ok ar4).
      { rewrite E4. apply (arena_facts _ _ id e e4 children Hp He eq_refl L5 N5 J5).
        intros x Hx. apply in_map_iff in Hx. destruct Hx as (r & <- & _). reflexivity. }
      assert (Hkq : Forall query_shape (p_codes p)).
      { destruct Hk as [_ _ Hs|? ? ? _ _ _ _ Hs|? h b _ _ Hh Hs _]; auto.
        rewrite Hcs in Hh. injection Hh as <- <-. destruct Hs as (is' & Ei & _). rewrite Hcode in Ei.
        apply app_inj_tail in Ei. destruct Ei. discriminate. }
      (* reading the archived executor *)
      assert (Hm4 : mrel (heap_at ar4 (x_parent e)) m1 fm1).
      { eapply mrel_ext; [|exact Hm1]. intros b. eapply heap_at_frame with (id := id); eauto.
        - intros j Hjl Hne. rewrite E4, nth_error_app1 by (cbn in Hjl; lia). auto.
        - cbn. lia.
        - destruct (x_parent e) as [g|] eqn:Eq; auto. pose proof (Hp _ _ _ He Eq). split; [cbn; lia|]. intros ->.
          exact (Hchid _ _ He Eq). }
      assert (Hw : walkR cf o4 id (trail_after a fm1 (p_trail p))).
      { intros n Hn. destruct n as [|n]; [lia|]. cbn [walk]. rewrite (get_exec_some o4 id e4 N4). cbn [bind].
        cbn [x_codes e4 with_state with_codes with_m with_kids x_parent x_m].
        change (follow o4 c) with (follow o c). rewrite Hfo. cbn [bind]. unfold trail_after.
        assert (Hsub : sub_addrs (set_envs m1 (firstn 1 (m_envs m1))) (ca_subs a) = fsub_addrs fm1 (ca_subs a)).
        { apply sub_addrs_sim; [apply Hm1|]. cbn [m_envs set_envs]. destruct Hm1 as (_ & _ & _ & _ & ->).
          destruct (m_envs fm1); reflexivity. }
        rewrite Hsub. destruct (if ca_user a then _ else _) as [here| |]; cbn [bind]; auto.
        destruct Hk as [Hpx Ht _|pid pe gid Hpx Hpe Hg Hwk _|gid h b _ _ Hh Hs _].
        - rewrite Hpx, Ht. cbn [bind]. now rewrite app_nil_r.
        - rewrite Hpx. pose proof (Hp _ _ _ He Hpx) as Hpid. pose proof (Hp _ _ _ Hpe Hg) as Hgid.
          assert (Hag4 : agree o o4 id).
          { repeat split; cbn; try lia. intros j Hjl Hne. rewrite E4, nth_error_app1 by lia. auto. }
          assert (Hpidne : pid <> id) by lia.
          assert (Hpe4 : nth_error (o_arena o4) pid = Some pe).
          { destruct Hag4 as (_ & _ & _ & Hag4). rewrite Hag4; auto. lia. }
          rewrite (get_exec_some o4 pid pe Hpe4). cbn [bind]. rewrite Hg.
          rewrite (walk_agree o o4 id Hag4 Hchid Hp) by lia. rewrite Hwk by lia. reflexivity.
        - exfalso. rewrite Hcs in Hh. injection Hh as <- <-. destruct Hs as (is' & Ei & _). rewrite Hcode in Ei.
          apply app_inj_tail in Ei. destruct Ei. discriminate. }
      eexists o4, id, q. split; [reflexivity|]. split; [reflexivity|].
      set (kid := fun r : rule => {| p_m := fresh fm1; p_codes := r ++ rest; p_trail := trail_after a fm1 (p_trail p) |}).
      assert (Hkids : Forall2 (erel o4) (seq (List.length (o_arena o)) (List.length children)) (map kid rs)).
      { destruct (Forall2_seq_kids o4 (fun r => child_of id (with_m e m1) (rule_ptrs (o_pgen oz) r ++ cs)) kid rs
                    (List.length (o_arena o)) [0]) as [K|K]; [|exact K|discriminate].
        intros k r Hkr. unfold erel.
        exists (child_of id (with_m e m1) (rule_ptrs (o_pgen oz) r ++ cs)). split.
        { cbn. rewrite E4, nth_error_app2 by lia. replace (_ - _) with k by lia. unfold children.
          rewrite nth_error_map, Hkr. reflexivity. }
        split; [reflexivity|]. split.
        { change (p_m (kid r)) with (fresh fm1).
          change (x_parent (child_of id (with_m e m1) (rule_ptrs (o_pgen oz) r ++ cs))) with (Some id).
          assert (Hm4e : mrel (heap_at ar4 (x_parent e4)) (x_m e4) (set_envs fm1 (firstn 1 (m_envs fm1)))).
          { cbn [x_parent e4 with_state with_codes with_m with_kids x_m].
            destruct Hm4 as (? & ? & ? & ? & Henv). split; [assumption|]. cbn. now rewrite Henv. }
          pose proof (child_mrel ar4 id e4 _ (rule_ptrs (o_pgen oz) r ++ cs) N4 Hpar4 Hm4e) as (C1 & _).
          split; [exact C1|]. destruct Hm1 as (_ & HR1 & _ & _ & HR5). cbn. auto. }
        split.
        { cbn [x_codes child_of p_codes kid]. apply Forall2_app.
          - eapply Forall2_impl; [|apply (rule_ptrs_follow o)]. intros c' a' <-. apply follow_same; reflexivity.
          - eapply Forall2_impl; [|exact Hrest]. intros c' a' <-. apply follow_same; reflexivity. }
        pose proof (Hpr f rs r Elk (nth_error_In _ _ Hkr)) as Hrs. destruct r as [|h b]; [contradiction|].
        destruct Hrs as [Hh Hb]. cbn [p_codes p_trail kid].
        apply pk_head with (gid := id) (h := h) (b := b ++ rest); auto.
        apply Forall_app. split; [assumption|]. rewrite Hcs in Hkq. now inversion Hkq. }
      assert (Hl : List.length children = List.length rs) by apply map_length.
      destruct (refines_next o id q p ps e e4 ar5 children (seq (List.length (o_arena o)) (List.length children))
                  (map kid rs) o4) as [Hag HR4]; auto.
      { intros x Hx. apply in_map_iff in Hx. destruct Hx as (r & <- & _). reflexivity. }
      { cbn. rewrite Hl, L2. reflexivity. }
      { repeat split. }
      split; [exact HR4|]. split; [repeat split|]. split; [exact Hag|]. split; [|reflexivity].
      cbn. apply Hskip.
    + rewrite (get_exec_some oz id (with_m e m1) N2). cbn [bind].
      destruct (put_exec_some oz id _ (with_state (with_m e m1) SFail) N2) as (ar3 & -> & L3 & N3 & J3). cbn [bind].
      cbn [set_stats o_arena] in L3, J3. change (set_arena oz ar3) with (set_stats (set_arena o0 ar3) z).
      rewrite (get_exec_some (set_stats (set_arena o0 ar3) z) id _ N3). cbn [bind].
      destruct (Hend ar3 m1 RFailing SFail) with (z := z) as (ar4 & e3 & -> & N4 & E4 & Hag & HR4).
      { rewrite L3. exact L2. }
      { assumption. }
      { intros j Hne. rewrite J3 by assumption. cbn. auto. }
      cbn [bind].
      rewrite (get_exec_some (set_stats (set_arena o0 ar4) z) id e3 N4). cbn [bind]. rewrite E4.
      eexists _, id, q. split; [reflexivity|]. split; [reflexivity|]. split; [exact HR4|]. split; [apply Hsto|].
      split; [assumption|]. split; [|reflexivity]. cbn. now rewrite skipn_all, app_nil_r.
  - (* proceed *)
    assert (Hhead : exists gid, x_parent e = Some gid /\ walkR cf o gid (p_trail p) /\ Forall query_shape rest).
    { assert (Hno : ~ query_shape a).
      { intros [(is' & f & Ei & _)|Ei]; rewrite Hcode in Ei.
        - apply app_inj_tail in Ei. destruct Ei. discriminate.
        - destruct is as [|i0 is]; [discriminate|]. destruct is; discriminate. }
      destruct Hk as [_ _ Hs|? ? ? _ _ _ _ Hs|gid h b Hg Hw Hh Hs Hb].
      - rewrite Hcs in Hs. inversion Hs. contradiction.
      - rewrite Hcs in Hs. inversion Hs. contradiction.
      - rewrite Hcs in Hh. injection Hh as <- <-. eauto. }
    destruct Hhead as (gid & Hpx & Hwk & Hrq).
    pose proof (Hp _ _ _ He Hpx) as Hgid.
    unfold do_proceed. rewrite (get_exec_some (set_arena o0 ar2) id (with_m e m1) N2). cbn [bind].
    cbn [x_codes with_m]. rewrite Hxc.
    rewrite (all_dealloc_spec (set_arena o0 ar2) cs rest).
    2:{ eapply Forall2_impl; [|exact Hrest]. intros c' a' <-. apply follow_same; reflexivity. }
    cbn [bind]. destruct (forallb is_dealloc rest) eqn:Ed.
    + (* success *)
      rewrite Hz.
      unfold clear_exec. cbn [x_codes with_state with_m]. rewrite Hxc. cbn [bind].
      set (e3 := with_codes _ _).
      destruct (put_exec_some (set_stats (set_arena o0 ar2) (o_stats o)) id _ e3 N2) as (ar3 & -> & L3 & N3 & J3).
      cbn [bind]. cbn [set_stats set_arena o_arena] in L3, J3. rewrite L2 in L3.
      change (set_arena (set_stats (set_arena o0 ar2) (o_stats o)) ar3) with (set_arena o0 ar3).
      cbn [run_instrs bind].
      rewrite (get_exec_some (set_arena o0 ar3) id e3 N3). cbn [bind]. cbn [x_state e3 with_codes with_m with_state].
      assert (J3' : forall j, j <> id -> nth_error ar3 j = nth_error (o_arena o) j).
      { intros j Hne. rewrite J3 by assumption. now apply J2. }
      destruct (refines_next o id q p ps e e3 ar3 [] [] [] (set_arena o0 ar3)) as [Hag HR3]; auto.
      { intros ? []. }
      { cbn. now rewrite app_nil_r. }
      { cbn. now rewrite app_nil_r. }
      unfold find_subs. rewrite (get_exec_some (set_arena o0 ar3) id e3 N3). cbn [bind].
      cbn [x_parent e3 with_codes with_m with_state]. rewrite Hpx.
      rewrite (walk_agree o (set_arena o0 ar3) id Hag Hchid Hp) by lia.
      rewrite (Hwk _) by (cbn; rewrite L3; cbn; lia).
      unfold answer_of. destruct (p_trail p) as [l| |]; cbn [bind]; auto.
      assert (Hm3 : hrel (heap_at ar3 (Some gid)) (m_heap m1) (m_heap fm1)).
      { eapply hrel_ext; [|exact (proj1 Hm1)]. intros b. rewrite Hpx. eapply heap_at_frame with (id := id); eauto.
        - rewrite L3. cbn. lia.
        - cbn. lia. }
      cbn [o_arena set_arena x_m o_sto o0 set_queue with_m m_heap set_envs].
      rewrite (bind_names_ext (str_of lheap (lops (heap_at ar3 (Some gid))) (o_sto o) fuel (m_heap m1) (map fst l) false)
                 (str_of (list cell) fops (o_sto o) fuel (m_heap fm1) (map fst l) false)).
      2:{ intros k. now apply str_of_sim. }
      destruct (bind_names _ l []) as [b| |]; cbn [bind]; auto.
      eexists _, id, q. split; [reflexivity|]. split; [reflexivity|]. split; [exact HR3|]. split; [apply Hsto'|].
      split; [exact Hag|]. split; [|reflexivity]. cbn. now rewrite skipn_all, app_nil_r.
    + (* next goal *)
      set (e3 := with_state _ SArchived).
      destruct (put_exec_some (set_arena o0 ar2) id _ e3 N2) as (ar3 & -> & L3 & N3 & J3).
      cbn [bind]. cbn [set_arena o_arena] in L3, J3. rewrite L2 in L3.
      change (set_arena (set_arena o0 ar2) ar3) with (set_arena o0 ar3).
      set (ch := {| x_parent := Some id; x_m := _; x_kids := []; x_state := SRunning; x_codes := cs |}).
      destruct (add_child_spec (set_arena o0 ar3) id e3 ch N3) as (ar4 & -> & L4 & N4 & J4).
      set (o4 := set_queue (set_arena _ (ar4 ++ [ch])) _).
      cbn [bind run_instrs]. cbn [set_arena o_arena] in L4, J4. rewrite L3 in L4.
      change (List.length (o_arena o0)) with (List.length (o_arena o)) in *.
      set (e4 := with_kids e3 _) in N4.
      assert (N4' : nth_error (o_arena o4) id = Some e4).
      { cbn. rewrite nth_error_app1 by (rewrite L4; exact Hlt). exact N4. }
      rewrite (get_exec_some o4 id e4 N4'). cbn [bind]. cbn [x_state e4 with_kids e3 with_state].
      assert (J4' : forall j, j <> id -> nth_error ar4 j = nth_error (o_arena o) j).
      { intros j Hne. rewrite J4 by assumption. rewrite J3 by assumption. now apply J2. }
      assert (Hag4 : agree o o4 id).
      { repeat split; cbn.
        - rewrite app_length, L4. lia.
        - intros j Hjl Hne. rewrite nth_error_app1 by lia. auto. }
      assert (Hpar4 : parents_ok (ar4 ++ [ch])).
      { apply (arena_facts (o_arena o) ar4 id e e4 [ch] Hp He eq_refl L4 N4 J4').
        intros x [<-|[]]. reflexivity. }
      set (kid := {| p_m := fresh fm1; p_codes := rest; p_trail := p_trail p |}).
      assert (Hkid : erel o4 (List.length (o_arena o)) kid).
      { exists ch. split.
        { cbn. rewrite nth_error_app2 by lia. rewrite L4, Nat.sub_diag. reflexivity. }
        split; [reflexivity|]. split.
        { assert (Hm4 : mrel (heap_at (ar4 ++ [ch]) (x_parent e4)) (x_m e4) (set_envs fm1 (firstn 1 (m_envs fm1)))).
          { cbn [x_parent e4 e3 with_state with_codes with_m with_kids x_m].
            assert (Hm1'' : mrel (heap_at (ar4 ++ [ch]) (x_parent e)) m1 fm1).
            { eapply mrel_ext; [|exact Hm1]. intros b. eapply heap_at_frame with (id := id); eauto.
              - intros j Hjl Hne. rewrite nth_error_app1 by (cbn in Hjl; lia). auto.
              - rewrite app_length, L4. cbn. lia.
              - rewrite Hpx. cbn. lia. }
            destruct Hm1'' as (? & ? & ? & ? & Henv). split; [assumption|]. cbn. now rewrite Henv. }
          pose proof (child_mrel (ar4 ++ [ch]) id e4 _ cs N4' Hpar4 Hm4) as (C1 & _).
          split; [exact C1|]. destruct Hm1 as (_ & HR1 & _ & _ & HR5). cbn. auto. }
        split.
        { cbn. eapply Forall2_impl; [|exact Hrest]. intros c' a' <-. apply follow_same; reflexivity. }
        cbn [kid p_codes p_trail].
        apply pk_query with (pid := id) (pe := e4) (gid := gid); auto.
        intros n Hn. rewrite (walk_agree o o4 id Hag4 Hchid Hp) by lia. auto. }
      destruct (refines_next o id q p ps e e4 ar4 [ch] [List.length (o_arena o)] [kid] o4) as [_ HR4]; auto.
      { intros x [<-|[]]. reflexivity. }
      { cbn. now rewrite L3. }
      { repeat split. }
      eexists o4, id, q. split; [reflexivity|]. split; [reflexivity|]. split; [exact HR4|]. split; [repeat split|].
      split; [exact Hag4|]. split; [|reflexivity]. cbn. apply Hskip.
  - (* deallocate *)
    unfold do_dealloc. rewrite (get_exec_some (set_arena o0 ar2) id (with_m e m1) N2). cbn [bind].
    cbn [x_codes x_m with_m]. rewrite Hxc.
    destruct Hm1 as (Mh & Mr & Mm & Ms & Me). rewrite Me.
    destruct (m_envs fm1) as [|env es] eqn:Eenv; [reflexivity|].
    set (e3 := with_codes _ cs).
    destruct (put_exec_some (set_arena o0 ar2) id _ e3 N2) as (ar3 & -> & L3 & N3 & J3).
    cbn [bind run_instrs]. cbn [set_arena o_arena] in L3, J3. rewrite L2 in L3.
    change (List.length (o_arena o0)) with (List.length (o_arena o)) in *.
    set (o3 := set_queue _ _).
    rewrite (get_exec_some o3 id e3 N3). cbn [bind]. cbn [x_state e3 with_codes with_m]. rewrite Hst.
    assert (J3' : forall j, j <> id -> nth_error ar3 j = nth_error (o_arena o) j).
    { intros j Hne. rewrite J3 by assumption. now apply J2. }
    set (kid := {| p_m := set_envs fm1 es; p_codes := rest; p_trail := p_trail p |}).
    assert (Hag3 : agree o o3 id).
    { repeat split; cbn; auto. lia. }
    assert (Hkid : erel o3 id kid).
    { exists e3. split; [exact N3|]. split; [exact Hst|]. split.
      { cbn [x_parent e3 with_codes with_m x_m].
        split; [|cbn; auto]. eapply hrel_ext; [|exact Mh]. intros b. eapply heap_at_frame with (id := id); eauto.
        - cbn. rewrite L3. cbn. lia.
        - destruct (x_parent e) as [g|] eqn:Eg; auto. pose proof (Hp _ _ _ He Eg). split; [cbn; lia|]. lia. }
      split.
      { cbn. eapply Forall2_impl; [|exact Hrest]. intros c' a' <-. apply follow_same; reflexivity. }
      cbn [kid p_codes p_trail].
      destruct Hk as [Hx Ht Hs|pid pe gid Hx Hpe Hg Hwk Hs|gid h b Hx Hwk Hh Hs Hb].
      - apply pk_init; auto. rewrite Hcs in Hs. now inversion Hs.
      - pose proof (Hp _ _ _ He Hx). pose proof (Hp _ _ _ Hpe Hg).
        apply pk_query with (pid := pid) (pe := pe) (gid := gid); auto.
        + cbn. rewrite J3' by lia. assumption.
        + intros n Hn. rewrite (walk_agree o o3 id Hag3 Hchid Hp) by lia. auto.
        + rewrite Hcs in Hs. now inversion Hs.
      - exfalso. rewrite Hcs in Hh. injection Hh as <- <-. destruct Hs as (is' & Ei & _). rewrite Hcode in Ei.
        apply (app_inj_tail [] is') in Ei. destruct Ei. discriminate. }
    destruct (refines_next o id q p ps e e3 ar3 [] [id] [kid] o3) as [_ HR3]; auto.
    { intros ? []. }
    { cbn. now rewrite app_nil_r. }
    { repeat split. }
    eexists o3, id, q. split; [reflexivity|]. split; [reflexivity|]. split; [exact HR3|]. split; [repeat split|].
    split; [exact Hag3|]. split; [|reflexivity]. cbn. apply Hskip.
Qed.
End Turn.
