(** What one turn does to the arena of executors. *)
From Verif Require Import Base Machine Heap Facts HeapSim Compiler Parser Print Organizer Process Refine Turn Shape Mono Session Search.
Open Scope list_scope.

Section TreeTurn.
Variable cf : cfg.
Variable fuel : nat.

Lemma spawn_kids id rs : forall o e c codes o', nth_error (o_arena o) id = Some e -> x_codes e = c :: codes ->
  spawn o id rs = Val o' -> exists e', nth_error (o_arena o') id = Some e' /\
    x_kids e' = x_kids e ++ seq (List.length (o_arena o)) (List.length rs).
Proof.
  induction rs as [|r rs IH]; intros o e c codes o' He Hc E; cbn [spawn] in E.
  - injection E as <-. exists e. split; [assumption|]. cbn. now rewrite app_nil_r.
  - rewrite (get_exec_some _ _ _ He) in E. cbn [bind] in E. rewrite Hc in E.
    destruct (add_child_spec o id e (child_of id e (rule_ptrs (o_pgen o) r ++ codes)) He) as (ar1 & E1 & L1 & N1 & J1).
    unfold child_of in E1 at 1. rewrite E1 in E. cbn [bind] in E.
    set (o1 := set_queue _ _) in E.
    assert (He1 : nth_error (o_arena o1) id = Some (with_kids e (x_kids e ++ [List.length (o_arena o)]))).
    { cbn. rewrite nth_error_app1; [assumption|]. rewrite L1. eapply nth_error_lt; eauto. }
    destruct (IH o1 _ c codes o' He1 Hc E) as (e' & N & K). exists e'. split; [assumption|]. rewrite K.
    assert (La1 : List.length (o_arena o1) = S (List.length (o_arena o))).
    { cbn. rewrite app_length, L1. cbn. lia. }
    rewrite La1. cbn [x_kids with_kids List.length seq]. now rewrite <- app_assoc.
Qed.

(** How a turn of executor [id] ends, and the executors it makes. *)
Inductive ended (o : org) (id : nat) (a : catom) (cs : list cptr) (rest : list catom) (s : istat) : xstate -> list exec -> Prop :=
| en_fail : s = Failing -> ended o id a cs rest s SFail []
| en_err er : s = Raise er -> ended o id a cs rest s (SError er) []
| en_unknown f : s = Cont -> last (ca_code a) IProceed = ICall f -> plookup f (o_prog o) = None ->
    ended o id a cs rest s SFail []
| en_call f rs new : s = Cont -> last (ca_code a) IProceed = ICall f -> plookup f (o_prog o) = Some rs ->
    Forall2 (fun x r => x_parent x = Some id /\ x_state x = SRunning /\ x_kids x = [] /\
                        x_codes x = rule_ptrs (o_pgen o) r ++ cs) new rs ->
    ended o id a cs rest s SArchived new
| en_done : s = Cont -> last (ca_code a) IProceed = IProceed -> forallb is_dealloc rest = true ->
    ended o id a cs rest s SSuccess []
| en_next x : s = Cont -> last (ca_code a) IProceed = IProceed -> forallb is_dealloc rest = false ->
    x_parent x = Some id -> x_state x = SRunning -> x_kids x = [] -> x_codes x = cs ->
    ended o id a cs rest s SArchived [x].

(** an executor whose local instructions ended in the flat machine state [m] *)
Definition closed (o : org) (e : exec) (m : mst (list cell)) : Prop :=
  hrel (heap_at (o_arena o) (x_parent e)) (m_heap (x_m e)) (m_heap m) /\ m_regs (x_m e) = m_regs m /\
  m_envs (x_m e) = firstn 1 (m_envs m).

Lemma turn_arena o ps p sr r o' : refines cf o (p :: ps) -> p_turn cf (o_sto o) fuel (o_prog o) p = Val sr ->
  turn cf fuel o = Val (r, o') ->
  exists id q e c cs a rest s m e' new,
    o_queue o = id :: q /\ nth_error (o_arena o) id = Some e /\ x_codes e = c :: cs /\ p_codes p = a :: rest /\
    follow o c = Val a /\
    run_local cf (o_sto o) fuel (removelast (ca_code a)) (set_regs (p_m p) (resize (m_regs (p_m p)) (ca_regs a))) =
      Val (s, m) /\
    nth_error (o_arena o') id = Some e' /\ x_parent e' = x_parent e /\
    x_kids e' = x_kids e ++ seq (List.length (o_arena o)) (List.length new) /\
    List.length (o_arena o') = List.length (o_arena o) + List.length new /\
    (forall j, j < List.length (o_arena o) -> j <> id -> nth_error (o_arena o') j = nth_error (o_arena o) j) /\
    (forall k, nth_error (o_arena o') (List.length (o_arena o) + k) = nth_error new k) /\
    ((s = Cont /\ last (ca_code a) IProceed = IDealloc /\ new = [] /\ x_state e' = SRunning /\ x_codes e' = cs /\
      o_queue o' = q ++ [id]) \/
     (ended o id a cs rest s (x_state e') new /\ x_codes e' = [c] /\ (s = Cont -> closed o' e' m) /\
      o_queue o' = q ++ seq (List.length (o_arena o)) (List.length new))).
Proof.
  intros HR Ep Et. pose proof HR as [Hp Hnd Hch Hpr HF].
  destruct (o_queue o) as [|id q] eqn:Hq; [inversion HF|].
  inversion HF as [|? ? ? ? Hid HF']; subst. destruct Hid as (e & He & Hst & Hm & Hcd & Hk).
  assert (Hchid : childless (o_arena o) id) by (apply Hch; now left).
  unfold turn in Et. rewrite Hq in Et. unfold p_turn in Ep.
  rewrite (get_exec_some (set_queue o q) id e He) in Et. cbn [bind] in Et.
  destruct (x_codes e) as [|c cs] eqn:Hxc; inversion Hcd as [E0 E1|? a ? rest Hfo Hrest E0 E1]; subst; [discriminate|].
  assert (Hcs : p_codes p = a :: rest) by congruence. clear E1. rewrite Hcs in Ep.
  assert (Hsh : query_shape a \/ head_shape a).
  { destruct Hk as [_ _ Hs|? ? ? _ _ _ _ Hs|? h b _ _ Hh Hs _]; rewrite Hcs in Hs || rewrite Hcs in Hh.
    - inversion Hs; auto.
    - inversion Hs; auto.
    - injection Hh as -> ->. auto. }
  destruct (shape_split a Hsh) as (is & ctl & Hcode & Hloc & Er & El & Hctl).
  change (follow (set_queue o q) c) with (follow o c) in Et. rewrite Hfo in Et. cbn [bind] in Et.
  set (o0 := set_queue o q) in *. set (m0 := set_regs (x_m e) (resize (m_regs (x_m e)) (ca_regs a))) in *.
  set (fm0 := set_regs (p_m p) (resize (m_regs (p_m p)) (ca_regs a))) in *.
  assert (Hm0 : mrel (heap_at (o_arena o0) (x_parent e)) m0 fm0).
  { unfold m0, fm0. destruct Hm as (M1 & M2 & M3). rewrite M2. apply mrel_set_regs. split; auto. }
  destruct (put_exec_some o0 id e (with_m e m0) He) as (ar1 & E1 & L1 & N1 & J1). rewrite E1 in Et. cbn [bind] in Et.
  rewrite Hcode in Et.
  pose proof (run_locals cf fuel o0 id e Hp Hchid He is [ctl] ar1 m0 fm0 Hloc L1 N1 J1 Hm0) as Hrun.
  change (o_sto o0) with (o_sto o) in Hrun. rewrite Er in Ep.
  destruct (run_local cf (o_sto o) fuel is fm0) as [[s fm1]| |] eqn:Erun; cbn [bind] in Ep; try discriminate Ep.
  assert (Hlt : id < List.length (o_arena o)) by (eapply nth_error_lt; eauto).
  assert (Hskip : forall ar2 m1 (st : rstat) ss z x, 
    List.length ar2 = List.length (o_arena o) ->
    nth_error ar2 id = Some (with_state (with_m e m1) ss) ->
    (forall j, j <> id -> nth_error ar2 j = nth_error (o_arena o) j) ->
    (e1 <- clear_exec (with_state (with_m e m1) ss) ;;
     o2 <- put_exec (set_stats (set_arena o0 ar2) z) id e1 ;; Val (st, o2)) = Val x ->
    exists ar3, x = (st, set_stats (set_arena o0 ar3) z) /\ List.length ar3 = List.length (o_arena o) /\
      nth_error ar3 id = Some (with_codes (with_m (with_state (with_m e m1) ss) (set_envs m1 (firstn 1 (m_envs m1)))) [c]) /\
      (forall j, j <> id -> nth_error ar3 j = nth_error (o_arena o) j)).
  { intros ar2 m1 st ss z x L2 N2 J2 E. unfold clear_exec in E. cbn [x_codes with_state with_m] in E. rewrite Hxc in E.
    cbn [bind] in E.
    set (e3 := with_codes _ _) in E.
    destruct (put_exec_some (set_stats (set_arena o0 ar2) z) id _ e3 N2) as (ar3 & E3 & L3 & N3 & J3).
    rewrite E3 in E. cbn [bind] in E. cbn in L3, J3. injection E as <-. exists ar3. csplit; auto; try congruence.
    intros j Hne. rewrite J3 by assumption. auto. }
  assert (Hz : forall ar, set_arena o0 ar = set_stats (set_arena o0 ar) (o_stats o)) by reflexivity.
  assert (Hseq : forall n, seq n 0 = @nil nat) by reflexivity.
  (* executors that make no others *)
  assert (Hno : forall ar3, List.length ar3 = List.length (o_arena o) ->
     List.length ar3 = List.length (o_arena o) + @List.length exec [] /\
     forall k, nth_error ar3 (List.length (o_arena o) + k) = nth_error (@nil exec) k).
  { intros ar3 L3. split; [cbn; lia|]. intros k. rewrite (proj2 (nth_error_None ar3 _)) by lia. now destruct k. }
  destruct s as [| |er].
  2:{ destruct Hrun as (ar2 & m1 & st & ss & E2 & L2 & N2 & J2 & -> & ->). rewrite E2, Hz in Et.
      match type of Et with bind ?b _ = _ => destruct b as [x| |] eqn:Ex end; try discriminate Et.
      destruct (Hskip ar2 m1 _ _ _ _ L2 N2 J2 Ex) as (ar3 & -> & L3 & N3 & J3). cbn [bind] in Et.
      rewrite (get_exec_some (set_stats (set_arena o0 ar3) (o_stats o)) id _ N3) in Et. cbn in Et. injection Et as <- <-.
      destruct (Hno ar3 L3) as [A1 A2].
      exists id, q, e, c, cs, a, rest, Failing, fm1. eexists _, []. csplit; try eassumption; try reflexivity; auto.
      - rewrite Er; assumption.
      - cbn. now rewrite app_nil_r.
      - right. csplit; try reflexivity; [now apply en_fail|discriminate|cbn; now rewrite app_nil_r]. }
  2:{ destruct Hrun as (ar2 & m1 & st & ss & E2 & L2 & N2 & J2 & -> & ->). rewrite E2, Hz in Et.
      match type of Et with bind ?b _ = _ => destruct b as [x| |] eqn:Ex end; try discriminate Et.
      destruct (Hskip ar2 m1 _ _ _ _ L2 N2 J2 Ex) as (ar3 & -> & L3 & N3 & J3). cbn [bind] in Et.
      injection Et as <- <-.
      destruct (Hno ar3 L3) as [A1 A2].
      exists id, q, e, c, cs, a, rest, (Raise er), fm1. eexists _, []. csplit; try eassumption; try reflexivity; auto.
      - rewrite Er; assumption.
      - cbn. now rewrite app_nil_r.
      - right. csplit; try reflexivity; [now apply en_err|discriminate|cbn; now rewrite app_nil_r]. }
  destruct Hrun as (ar2 & m1 & E2 & L2 & N2 & J2 & Hm1). rewrite E2 in Et.
  cbn [run_instrs] in Et.
  (* heaps of executors above stay *)
  assert (Hcl : forall ar e', List.length (o_arena o) <= List.length ar ->
     (forall j, j < List.length (o_arena o) -> j <> id -> nth_error ar j = nth_error (o_arena o) j) ->
     x_parent e' = x_parent e -> x_m e' = set_envs m1 (firstn 1 (m_envs m1)) ->
     forall oo, o_arena oo = ar -> closed oo e' fm1).
  { intros ar e' Hl HJ Hpe Hme oo Hoo. destruct Hm1 as (M1 & M2 & M3 & M4 & M5). unfold closed. rewrite Hoo, Hme, Hpe. cbn.
    csplit; auto; [|now rewrite M5].
    eapply hrel_ext; [|exact M1]. intros b. eapply heap_at_frame with (id := id); eauto.
    destruct (x_parent e) as [g|] eqn:Eq; auto. pose proof (Hp _ _ _ He Eq). split; [cbn; lia|]. intros ->.
    exact (Hchid _ _ He Eq). }
  destruct Hctl as [[f ->]|[->|[-> ->]]]; cbn [instr_step] in Et.
  - (* call *)
    unfold do_call in Et. cbn [o_prog o_stats set_stats set_arena o0 set_queue] in Et.
    set (z := ((o_stats o + 1) mod 4294967296)%Z) in *.
    change (set_stats (set_arena (set_queue o q) ar2) z) with (set_stats (set_arena o0 ar2) z) in Et.
    set (oz := set_stats (set_arena o0 ar2) z) in *.
    destruct (plookup f (o_prog o)) as [rs|] eqn:Elk.
    + destruct (spawn_spec id rs oz (with_m e m1) c cs N2 Hxc) as (ar3 & ks & E3 & L3 & N3 & J3). 
      pose proof (spawn_kids id rs oz (with_m e m1) c cs _ N2 Hxc E3) as (ek & Nk & Kk).
      rewrite E3 in Et. cbn [bind] in Et.
      set (children := map _ rs) in Et, E3.
      set (o3 := set_queue _ _) in Et.
      change (nth_error (o_arena o3) id = Some ek) in Nk.
      assert (N3' : nth_error (o_arena o3) id = Some (with_kids (with_m e m1) ks)).
      { cbn. rewrite nth_error_app1; [assumption|]. rewrite L3. change (id < List.length ar2). rewrite L2. exact Hlt. }
      rewrite N3' in Nk. injection Nk as <-. cbn [x_kids with_kids with_m] in Kk.
      rewrite (get_exec_some o3 id _ N3') in Et. cbn [bind] in Et. unfold clear_exec in Et. cbn [x_codes with_kids with_m] in Et.
      rewrite Hxc in Et.
      cbn [bind] in Et. set (e4 := with_state _ SArchived) in Et.
      destruct (put_exec_some o3 id _ e4 N3') as (ar4 & E4 & L4 & N4 & J4). rewrite E4 in Et. cbn [bind run_instrs] in Et.
      rewrite (get_exec_some (set_arena o3 ar4) id e4 N4) in Et. cbn [bind] in Et. cbn [x_state e4 with_state] in Et.
      injection Et as <- <-.
      assert (Hlen3 : List.length (o_arena oz) = List.length (o_arena o)) by exact L2.
      assert (L4' : List.length ar4 = List.length (o_arena o) + List.length children).
      { rewrite L4. cbn. rewrite app_length. lia. }
      assert (J5 : forall j, j < List.length (o_arena o) -> j <> id -> nth_error ar4 j = nth_error (o_arena o) j).
      { intros j Hjl Hne. rewrite J4 by assumption. cbn. rewrite nth_error_app1 by lia. rewrite J3 by assumption. cbn. auto. }
      exists id, q, e, c, cs, a, rest, Cont, fm1, e4, children. csplit; try eassumption; try reflexivity.
      * rewrite Er; assumption.
      * unfold e4. cbn [x_kids with_state with_codes with_m with_kids]. rewrite Kk. rewrite Hlen3. unfold children. now rewrite map_length.
      * intros k. cbn [o_arena set_arena]. rewrite J4 by lia. cbn. rewrite nth_error_app2 by lia. rewrite L3, Hlen3. f_equal. lia.
      * right. csplit; try reflexivity.
        -- apply (en_call _ _ _ _ _ _ f rs); auto. unfold children.
           clear. induction rs as [|r rs IH]; cbn; constructor; auto.
        -- intros _. apply (Hcl ar4); auto. lia.
        -- cbn. rewrite L2. unfold children. now rewrite map_length.
    + rewrite (get_exec_some oz id (with_m e m1) N2) in Et. cbn [bind] in Et.
      destruct (put_exec_some oz id _ (with_state (with_m e m1) SFail) N2) as (ar3 & E3 & L3 & N3 & J3).
      rewrite E3 in Et. cbn [bind] in Et.
      cbn [set_stats o_arena oz] in L3, J3. change (set_arena oz ar3) with (set_stats (set_arena o0 ar3) z) in Et.
      rewrite (get_exec_some (set_stats (set_arena o0 ar3) z) id _ N3) in Et. cbn [bind] in Et.
      assert (L3' : List.length ar3 = List.length (o_arena o)) by (rewrite L3; exact L2).
      assert (J3' : forall j, j <> id -> nth_error ar3 j = nth_error (o_arena o) j).
      { intros j Hne. rewrite J3 by assumption. cbn. auto. }
      match type of Et with bind ?b _ = _ => destruct b as [x| |] eqn:Ex end; try discriminate Et.
      destruct (Hskip ar3 m1 _ _ _ _ L3' N3 J3' Ex) as (ar4 & -> & L4 & N4 & J4). cbn [bind] in Et.
      rewrite (get_exec_some (set_stats (set_arena o0 ar4) z) id _ N4) in Et. cbn in Et. injection Et as <- <-.
      destruct (Hno ar4 L4) as [A1 A2].
      exists id, q, e, c, cs, a, rest, Cont, fm1. eexists _, []. csplit; try eassumption; try reflexivity; auto.
      * rewrite Er; assumption.
      * cbn. now rewrite app_nil_r.
      * right. csplit; try reflexivity; [apply (en_unknown _ _ _ _ _ _ f); auto| |cbn; now rewrite app_nil_r].
        intros _. apply (Hcl ar4); auto. lia.
  - (* proceed *)
    unfold do_proceed in Et. rewrite (get_exec_some (set_arena o0 ar2) id (with_m e m1) N2) in Et. cbn [bind] in Et.
    cbn [x_codes with_m] in Et. rewrite Hxc in Et.
    rewrite (all_dealloc_spec (set_arena o0 ar2) cs rest) in Et.
    2:{ eapply Forall2_impl; [|exact Hrest]. intros c' a' <-. apply follow_same; reflexivity. }
    cbn [bind] in Et. destruct (forallb is_dealloc rest) eqn:Ed.
    + unfold clear_exec in Et. cbn [x_codes with_state with_m] in Et. rewrite Hxc in Et. cbn [bind] in Et.
      set (e3 := with_codes _ _) in Et.
      destruct (put_exec_some (set_arena o0 ar2) id _ e3 N2) as (ar3 & E3 & L3 & N3 & J3).
      rewrite E3 in Et. cbn [bind] in Et. cbn [set_arena o_arena] in L3, J3. rewrite L2 in L3.
      change (set_arena (set_arena o0 ar2) ar3) with (set_arena o0 ar3) in Et.
      cbn [run_instrs bind] in Et.
      rewrite (get_exec_some (set_arena o0 ar3) id e3 N3) in Et. cbn [bind] in Et. cbn [x_state e3 with_codes with_m with_state] in Et.
      destruct (find_subs fuel _ id) as [b| |]; cbn [bind] in Et; try discriminate Et. injection Et as <- <-.
      assert (J3' : forall j, j <> id -> nth_error ar3 j = nth_error (o_arena o) j).
      { intros j Hne. rewrite J3 by assumption. now apply J2. }
      destruct (Hno ar3 L3) as [A1 A2].
      exists id, q, e, c, cs, a, rest, Cont, fm1. eexists _, []. csplit; try eassumption; try reflexivity; auto.
      * rewrite Er; assumption.
      * cbn. now rewrite app_nil_r.
      * right. csplit; try reflexivity; [apply en_done; auto| |cbn; now rewrite app_nil_r].
        intros _. apply (Hcl ar3); auto. rewrite L3. cbn. lia.
    + set (e3 := with_state _ SArchived) in Et.
      destruct (put_exec_some (set_arena o0 ar2) id _ e3 N2) as (ar3 & E3 & L3 & N3 & J3).
      rewrite E3 in Et. cbn [bind] in Et. cbn [set_arena o_arena] in L3, J3. rewrite L2 in L3.
      change (set_arena (set_arena o0 ar2) ar3) with (set_arena o0 ar3) in Et.
      set (ch := {| x_parent := Some id; x_m := _; x_kids := []; x_state := SRunning; x_codes := cs |}) in Et.
      destruct (add_child_spec (set_arena o0 ar3) id e3 ch N3) as (ar4 & E4 & L4 & N4 & J4). rewrite E4 in Et.
      set (o4 := set_queue (set_arena _ (ar4 ++ [ch])) _) in Et.
      cbn [bind run_instrs] in Et. cbn [set_arena o_arena] in L4, J4, N4. rewrite L3 in L4, N4.
      change (List.length (o_arena o0)) with (List.length (o_arena o)) in *.
      set (e4 := with_kids e3 _) in N4.
      assert (N4' : nth_error (o_arena o4) id = Some e4).
      { cbn. rewrite nth_error_app1 by (rewrite L4; exact Hlt). exact N4. }
      rewrite (get_exec_some o4 id e4 N4') in Et. cbn [bind] in Et. cbn [x_state e4 with_kids e3 with_state] in Et.
      injection Et as <- <-.
      assert (J4' : forall j, j <> id -> nth_error ar4 j = nth_error (o_arena o) j).
      { intros j Hne. rewrite J4 by assumption. rewrite J3 by assumption. now apply J2. }
      exists id, q, e, c, cs, a, rest, Cont, fm1, e4, [ch]. csplit; try eassumption; try reflexivity.
      * rewrite Er; assumption.
      * cbn. rewrite app_length, L4. cbn. lia.
      * intros j Hjl Hne. cbn. rewrite nth_error_app1 by lia. auto.
      * intros k. cbn. rewrite nth_error_app2 by lia. f_equal. lia.
      * right. csplit; try reflexivity.
        -- apply en_next; auto.
        -- intros _. apply (Hcl (ar4 ++ [ch])); auto.
           ++ rewrite app_length, L4. cbn. lia.
           ++ intros j Hjl Hne. rewrite nth_error_app1 by lia. auto.
        -- cbn. now rewrite L3.
  - (* deallocate *)
    unfold do_dealloc in Et. rewrite (get_exec_some (set_arena o0 ar2) id (with_m e m1) N2) in Et. cbn [bind] in Et.
    cbn [x_codes x_m with_m] in Et. rewrite Hxc in Et.
    destruct (m_envs m1) as [|env es] eqn:Eenv; [discriminate Et|].
    set (e3 := with_codes _ cs) in Et.
    destruct (put_exec_some (set_arena o0 ar2) id _ e3 N2) as (ar3 & E3 & L3 & N3 & J3). rewrite E3 in Et.
    cbn [bind run_instrs] in Et. cbn [set_arena o_arena] in L3, J3. rewrite L2 in L3.
    change (List.length (o_arena o0)) with (List.length (o_arena o)) in *.
    set (o3 := set_queue _ _) in Et.
    rewrite (get_exec_some o3 id e3 N3) in Et. cbn [bind] in Et. cbn [x_state e3 with_codes with_m] in Et. rewrite Hst in Et.
    injection Et as <- <-.
    assert (J3' : forall j, j <> id -> nth_error ar3 j = nth_error (o_arena o) j).
    { intros j Hne. rewrite J3 by assumption. now apply J2. }
    destruct (Hno ar3 L3) as [A1 A2].
    exists id, q, e, c, cs, a, rest, Cont, fm1. eexists _, []. csplit; try eassumption; try reflexivity; auto.
    + rewrite Er; assumption.
    + cbn. now rewrite app_nil_r.
    + left. csplit; auto.
Qed.
End TreeTurn.
