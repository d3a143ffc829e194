(** The arena of executors implements a first-in first-out queue of independent processes. *)
From Verif Require Import Base Machine Heap Facts HeapSim Compiler Parser Print Organizer Process.

(** --- small facts about the organizer's record --- *)
Lemma set_arena_id o : set_arena o (o_arena o) = o.
Proof. destruct o; reflexivity. Qed.

Lemma get_exec_some o id e : nth_error (o_arena o) id = Some e -> get_exec o id = Val e.
Proof. unfold get_exec. intros ->. reflexivity. Qed.

Lemma put_exec_some o id e0 e : nth_error (o_arena o) id = Some e0 ->
  exists ar, put_exec o id e = Val (set_arena o ar) /\ List.length ar = List.length (o_arena o) /\
             nth_error ar id = Some e /\ forall j, j <> id -> nth_error ar j = nth_error (o_arena o) j.
Proof.
  intros H. unfold put_exec.
  destruct (upd_some (o_arena o) id e) as [ar Hu]; [eapply nth_error_lt; eauto|]. rewrite Hu. cbn.
  exists ar. split; [reflexivity|]. split; [eapply upd_length; eauto|]. split.
  - rewrite (upd_nth _ _ _ _ _ Hu). now rewrite Nat.eqb_refl.
  - intros j Hj. rewrite (upd_nth _ _ _ _ _ Hu). now rewrite (proj2 (Nat.eqb_neq _ _) Hj).
Qed.

(** --- reading heaps through the chain of parents --- *)
Definition parents_ok (ar : list exec) : Prop :=
  forall j e q, nth_error ar j = Some e -> x_parent e = Some q -> q < j.
Definition childless (ar : list exec) (id : nat) : Prop :=
  forall j e, nth_error ar j = Some e -> x_parent e <> Some id.

Lemma l_at_ext p1 p2 h i : (forall a, p1 a = p2 a) -> l_at p1 h i = l_at p2 h i.
Proof. intros H. unfold l_at. now rewrite H. Qed.
Lemma l_set_ext p1 p2 h i c : (forall a, p1 a = p2 a) -> l_set p1 h i c = l_set p2 h i c.
Proof. intros H. unfold l_set. now rewrite (l_at_ext p1 p2) by assumption. Qed.


Lemma heap_at_f_frame ar ar' id : parents_ok ar -> childless ar id ->
  (forall j, j < List.length ar -> j <> id -> nth_error ar' j = nth_error ar j) ->
  forall q f f' a, q < f -> q < f' -> q < List.length ar -> q <> id ->
  heap_at_f f ar (Some q) a = heap_at_f f' ar' (Some q) a.
Proof.
  intros Hp Hc Hag q. induction q as [q IH] using lt_wf_ind. intros [|f] [|f'] a Hf Hf' Hq Hne; try lia.
  cbn [heap_at_f]. rewrite (Hag q Hq Hne). destruct (nth_error ar q) as [e|] eqn:E; [|reflexivity].
  apply l_at_ext. intros b. destruct (x_parent e) as [g|] eqn:Eg.
  - pose proof (Hp _ _ _ E Eg). apply IH; try lia. intros ->. exact (Hc _ _ E Eg).
  - destruct f, f'; reflexivity.
Qed.

Lemma heap_at_frame ar ar' id p a : parents_ok ar -> childless ar id ->
  (forall j, j < List.length ar -> j <> id -> nth_error ar' j = nth_error ar j) ->
  List.length ar <= List.length ar' ->
  match p with Some q => q < List.length ar /\ q <> id | None => True end ->
  heap_at ar p a = heap_at ar' p a.
Proof.
  intros Hp Hc Hag Hl Hq. unfold heap_at. destruct p as [q|]; [|reflexivity].
  destruct Hq. apply heap_at_f_frame with (id := id); auto; lia.
Qed.

Lemma hrel_ext p1 p2 lh fh : (forall a, p1 a = p2 a) -> hrel p1 lh fh -> hrel p2 lh fh.
Proof. intros E [Hs Ha]. split; [assumption|]. intros i. rewrite <- Ha. symmetry. now apply l_at_ext. Qed.
Lemma mrel_ext p1 p2 m fm : (forall a, p1 a = p2 a) -> mrel p1 m fm -> mrel p2 m fm.
Proof. intros E (H & R). split; [eapply hrel_ext; eauto|assumption]. Qed.

(** --- printing on layered and flat heaps --- *)
Lemma str_args_ext (p q : nat -> out string) : (forall k, p k = q k) ->
  forall n k, str_args p n k = str_args q n k.
Proof. intros H n. induction n as [|n IH]; intros k; cbn; rewrite H; [reflexivity|]. now rewrite IH. Qed.
Lemma str_of_sim par sto lh fh users : hrel par lh fh -> forall n contig a,
  str_of lheap (lops par) sto n lh users contig a = str_of (list cell) fops sto n fh users contig a.
Proof.
  intros H n. induction n as [|n IH]; intros contig a; cbn [str_of]; [reflexivity|].
  rewrite (deref_sim par lh fh a H). destruct (deref _ fops fh a) as [d| |]; cbn [bind]; auto.
  rewrite (at_sim par lh fh d H). destruct (at_ _ fops fh d) as [c| |]; cbn [bind]; auto.
  destruct c; auto.
  - destruct (of_opt _ _) as [fv| |]; cbn [bind]; auto.
    destruct (fv_is_empty_list fv); auto. destruct (fv_is_append fv); auto. destruct (fv_is_list fv).
    + rewrite IH. destruct (str_of _ fops sto n fh users false _); cbn [bind]; auto.
      rewrite (deref_sim par lh fh _ H). destruct (deref _ fops fh (d + 2)) as [rd| |]; cbn [bind]; auto.
      rewrite (at_sim par lh fh rd H). destruct (at_ _ fops fh rd) as [rc| |]; cbn [bind]; auto.
      rewrite IH. reflexivity.
    + destruct (fv_arity fv) as [|k]; [now rewrite IH|].
      rewrite (str_args_ext _ (str_of (list cell) fops sto n fh users false)); auto.
  - destruct (of_opt _ _); cbn [bind]; auto. now rewrite !IH.
Qed.
Lemma bind_names_ext (p q : nat -> out string) : (forall k, p k = q k) ->
  forall l d, bind_names p l d = bind_names q l d.
Proof.
  intros H l. induction l as [|[nm a] l IH]; intros d; cbn; [reflexivity|]. destruct (existsb _ d); auto.
  rewrite H. destruct (q a); cbn; auto.
Qed.

Lemma sub_addrs_sim m fm ss : m_regs m = m_regs fm -> firstn 1 (m_envs m) = firstn 1 (m_envs fm) ->
  sub_addrs m ss = fsub_addrs fm ss.
Proof.
  intros Hr He. induction ss as [|[[nm r] p] ss IH]; cbn [sub_addrs fsub_addrs]; [reflexivity|].
  assert (E : sub_addr m (nm, r, p) = fsub_addr fm (nm, r, p)).
  { unfold sub_addr, fsub_addr, rperm, rreg. rewrite Hr.
    destruct (m_envs m) as [|x l], (m_envs fm) as [|y k]; cbn in He; try discriminate; try reflexivity.
    injection He as ->. reflexivity. }
  rewrite E, IH. reflexivity.
Qed.

(** --- the invariant --- *)
Definition walkR (cf : cfg) (o : org) (id : nat) (t : out (list (string * nat))) : Prop :=
  forall n, id < n -> walk n o id = t.

Section Refine.
Variable cf : cfg.
Variable fuel : nat.

(** Kinds of pending executors, by their parents. *)
Inductive pkind (o : org) (e : exec) (cs : list catom) (t : out (list (string * nat))) : Prop :=
| pk_init : x_parent e = None -> t = Val [] -> Forall query_shape cs -> pkind o e cs t
| pk_query pid pe gid : x_parent e = Some pid -> nth_error (o_arena o) pid = Some pe ->
    x_parent pe = Some gid -> walkR cf o gid t -> Forall query_shape cs -> pkind o e cs t
| pk_head gid h b : x_parent e = Some gid -> walkR cf o gid t -> cs = h :: b -> head_shape h ->
    Forall query_shape b -> pkind o e cs t.

Definition erel (o : org) (id : nat) (p : process) : Prop :=
  exists e, nth_error (o_arena o) id = Some e /\ x_state e = SRunning /\
    mrel (heap_at (o_arena o) (x_parent e)) (x_m e) (p_m p) /\
    Forall2 (fun c a => follow o c = Val a) (x_codes e) (p_codes p) /\
    pkind o e (p_codes p) (p_trail p).

Record refines (o : org) (ps : list process) : Prop := {
  rf_parents : parents_ok (o_arena o);
  rf_nodup : NoDup (o_queue o);
  rf_childless : forall id, In id (o_queue o) -> childless (o_arena o) id;
  rf_prog : prog_shape (o_prog o);
  rf_queue : Forall2 (erel o) (o_queue o) ps
}.

(** o' differs from o only in executor [id], in new executors, the queue and the statistics *)
Definition agree (o o' : org) (id : nat) : Prop :=
  o_pgen o' = o_pgen o /\ o_qgen o' = o_qgen o /\
  List.length (o_arena o) <= List.length (o_arena o') /\
  forall j, j < List.length (o_arena o) -> j <> id -> nth_error (o_arena o') j = nth_error (o_arena o) j.

Lemma follow_agree o o' id c : agree o o' id -> follow o' c = follow o c.
Proof. intros (H1 & H2 & _). unfold follow. now rewrite H1, H2. Qed.

Lemma walk_agree o o' id : agree o o' id -> childless (o_arena o) id -> parents_ok (o_arena o) ->
  forall n g, g < List.length (o_arena o) -> g <> id -> walk n o' g = walk n o g.
Proof.
  intros Ha Hc Hp n. induction n as [|n IH]; intros g Hg Hne; cbn [walk]; [reflexivity|].
  pose proof Ha as (_ & _ & Hl & Hag).
  unfold get_exec. rewrite (Hag g Hg Hne). destruct (nth_error (o_arena o) g) as [e|] eqn:E; [|reflexivity].
  cbn [of_opt bind]. destruct (x_codes e) as [|p [|]]; auto. rewrite (follow_agree _ _ _ _ Ha).
  destruct (follow o p); cbn [bind]; auto. destruct (if ca_user a then _ else _); cbn [bind]; auto.
  destruct (x_parent e) as [pid|] eqn:Ep; auto.
  pose proof (Hp _ _ _ E Ep) as Hpid. assert (Hpne : pid <> id) by (intros ->; exact (Hc _ _ E Ep)).
  rewrite (Hag pid) by (auto; lia). destruct (nth_error (o_arena o) pid) as [pe|] eqn:Epe; [|reflexivity].
  cbn [of_opt bind]. destruct (x_parent pe) as [gid|] eqn:Eg; auto.
  pose proof (Hp _ _ _ Epe Eg). rewrite IH; auto; [lia|]. intros ->. exact (Hc _ _ Epe Eg).
Qed.

Lemma erel_agree o o' id j p : agree o o' id -> childless (o_arena o) id -> parents_ok (o_arena o) ->
  j <> id -> erel o j p -> erel o' j p.
Proof.
  intros Ha Hc Hp Hne (e & He & Hst & Hm & Hcd & Hk). pose proof Ha as (_ & _ & Hl & Hag).
  pose proof (nth_error_lt _ _ _ He) as Hj. exists e. split; [now rewrite Hag|]. split; [assumption|]. split.
  { eapply mrel_ext; [|exact Hm]. intros a. eapply heap_at_frame; eauto. destruct (x_parent e) as [q|] eqn:Eq; auto.
    pose proof (Hp _ _ _ He Eq). split; [lia|]. intros ->. exact (Hc _ _ He Eq). }
  split. { eapply Forall2_impl; [|exact Hcd]. intros c a. now rewrite (follow_agree _ _ _ _ Ha). }
  destruct Hk as [Hq Ht Hs|pid pe gid Hq Hpe Hg Hw Hs|gid h b Hq Hw Hcs Hh Hs].
  - now apply pk_init.
  - pose proof (Hp _ _ _ He Hq). assert (pid <> id) by (intros ->; exact (Hc _ _ He Hq)).
    pose proof (Hp _ _ _ Hpe Hg). assert (gid <> id) by (intros ->; exact (Hc _ _ Hpe Hg)).
    apply pk_query with (pid := pid) (pe := pe) (gid := gid); auto.
    + rewrite Hag; auto. lia.
    + intros n Hn. rewrite (walk_agree _ _ _ Ha Hc Hp); auto. lia.
  - pose proof (Hp _ _ _ He Hq). assert (gid <> id) by (intros ->; exact (Hc _ _ He Hq)).
    apply pk_head with (gid := gid) (h := h) (b := b); auto.
    intros n Hn. rewrite (walk_agree _ _ _ Ha Hc Hp); auto. lia.
Qed.

(** --- running the local instructions of one executor --- *)
Lemma run_locals o0 id e0 : parents_ok (o_arena o0) -> childless (o_arena o0) id ->
  nth_error (o_arena o0) id = Some e0 ->
  forall is tl_ ar m fm,
    forallb is_local is = true ->
    List.length ar = List.length (o_arena o0) ->
    nth_error ar id = Some (with_m e0 m) ->
    (forall j, j <> id -> nth_error ar j = nth_error (o_arena o0) j) ->
    mrel (heap_at (o_arena o0) (x_parent e0)) m fm ->
    match run_local cf (o_sto o0) fuel is fm with
    | Val (Cont, fm') =>
        exists ar' m', run_instrs cf fuel (set_arena o0 ar) id (is ++ tl_) =
                       run_instrs cf fuel (set_arena o0 ar') id tl_ /\
          List.length ar' = List.length (o_arena o0) /\
          nth_error ar' id = Some (with_m e0 m') /\
          (forall j, j <> id -> nth_error ar' j = nth_error (o_arena o0) j) /\
          mrel (heap_at (o_arena o0) (x_parent e0)) m' fm'
    | Val (s, fm') =>
        exists ar' m' st ss, run_instrs cf fuel (set_arena o0 ar) id (is ++ tl_) =
           (e1 <- clear_exec (with_state (with_m e0 m') ss) ;;
            o2 <- put_exec (set_arena o0 ar') id e1 ;; Val (st, o2)) /\
          List.length ar' = List.length (o_arena o0) /\
          nth_error ar' id = Some (with_state (with_m e0 m') ss) /\
          (forall j, j <> id -> nth_error ar' j = nth_error (o_arena o0) j) /\
          match s with Raise er => st = RRaise er /\ ss = SError er
                     | _ => st = RFailing /\ ss = SFail end
    | Ub u => run_instrs cf fuel (set_arena o0 ar) id (is ++ tl_) = Ub u
    | Fuel => run_instrs cf fuel (set_arena o0 ar) id (is ++ tl_) = Fuel
    end.
Proof.
  intros Hp Hc He0 is tl_. induction is as [|i is IH]; intros ar m fm Hl Hlen Hid Hj Hm.
  { cbn [run_local app]. exists ar, m. auto. }
  cbn [forallb] in Hl. apply andb_prop in Hl. destruct Hl as [Hi Hl].
  cbn [run_local app run_instrs]. 
  assert (Hstep : instr_step cf fuel (set_arena o0 ar) id i =
     ('(st, m1) <- local_step lheap (lops (heap_at ar (x_parent e0))) cf (o_sto o0) fuel i m ;;
      match st with
      | Cont => o1 <- put_exec (set_arena o0 ar) id (with_m e0 m1) ;; Val (RCont, o1)
      | Failing => o1 <- put_exec (set_arena o0 ar) id (with_state (with_m e0 m1) SFail) ;; Val (RFailing, o1)
      | Raise er => o1 <- put_exec (set_arena o0 ar) id (with_state (with_m e0 m1) (SError er)) ;; Val (RRaise er, o1)
      end)).
  { unfold instr_step. destruct i; try discriminate; unfold get_exec; cbn [o_arena set_arena]; rewrite Hid;
      cbn [of_opt bind x_parent x_m with_m]; reflexivity. }
  rewrite Hstep. clear Hstep.
  assert (Hm' : mrel (heap_at ar (x_parent e0)) m fm).
  { eapply mrel_ext; [|exact Hm]. intros a. eapply heap_at_frame with (id := id); eauto.
    - lia.
    - destruct (x_parent e0) as [q|] eqn:Eq; auto.
      pose proof (Hp _ _ _ He0 Eq). pose proof (nth_error_lt _ _ _ He0). split; [lia|]. intros ->.
      exact (Hc _ _ He0 Eq). }
  pose proof (local_step_sim _ cf (o_sto o0) fuel i m fm Hm') as Hsim. unfold fstep.
  destruct (local_step lheap _ cf (o_sto o0) fuel i m) as [[st m1]| |] eqn:E1;
    destruct (local_step (list cell) fops cf (o_sto o0) fuel i fm) as [[st' fm1]| |] eqn:E2;
    cbn [out_rel] in Hsim; try contradiction; cbn [bind]; [|congruence|reflexivity].
  destruct Hsim as [Est Hm1]. cbn in Est, Hm1. subst st'.
  assert (Hm1' : mrel (heap_at (o_arena o0) (x_parent e0)) m1 fm1).
  { eapply mrel_ext; [|exact Hm1]. intros a. symmetry. eapply heap_at_frame with (id := id); eauto.
    - lia.
    - destruct (x_parent e0) as [q|] eqn:Eq; auto.
      pose proof (Hp _ _ _ He0 Eq). pose proof (nth_error_lt _ _ _ He0). split; [lia|]. intros ->.
      exact (Hc _ _ He0 Eq). }
  assert (Hid' : nth_error (o_arena (set_arena o0 ar)) id = Some (with_m e0 m)) by exact Hid.
  destruct st as [| |er].
  - destruct (put_exec_some (set_arena o0 ar) id _ (with_m e0 m1) Hid') as (ar1 & -> & L1 & N1 & J1).
    cbn [bind]. cbn [o_arena set_arena] in L1, J1.
    apply (IH ar1 m1 fm1); auto; [congruence|]. intros j Hne. rewrite J1 by assumption. auto.
  - destruct (put_exec_some (set_arena o0 ar) id _ (with_state (with_m e0 m1) SFail) Hid') as (ar1 & -> & L1 & N1 & J1).
    cbn [bind]. cbn [o_arena set_arena] in L1, J1. exists ar1, m1, RFailing, SFail.
    unfold get_exec. cbn [o_arena set_arena]. rewrite N1. cbn [of_opt bind].
    split; [reflexivity|]. split; [congruence|]. split; [auto|]. split; [|auto].
    intros j Hne. rewrite J1 by assumption. auto.
  - destruct (put_exec_some (set_arena o0 ar) id _ (with_state (with_m e0 m1) (SError er)) Hid') as (ar1 & -> & L1 & N1 & J1).
    cbn [bind]. cbn [o_arena set_arena] in L1, J1. exists ar1, m1, (RRaise er), (SError er).
    unfold get_exec. cbn [o_arena set_arena]. rewrite N1. cbn [of_opt bind].
    split; [reflexivity|]. split; [congruence|]. split; [auto|]. split; [|auto].
    intros j Hne. rewrite J1 by assumption. auto.
Qed.

(** --- spawning --- *)
Definition child_of (id : nat) (e : exec) (cs : list cptr) : exec :=
  {| x_parent := Some id; x_m := new_m (l_size (m_heap (x_m e))) (m_regs (x_m e)) (m_envs (x_m e));
     x_kids := []; x_state := SRunning; x_codes := cs |}.

Lemma add_child_spec o id e c : nth_error (o_arena o) id = Some e ->
  exists ar, add_child o id c = Val (set_queue (set_arena o (ar ++ [c])) (o_queue o ++ [List.length (o_arena o)])) /\
    List.length ar = List.length (o_arena o) /\
    nth_error ar id = Some (with_kids e (x_kids e ++ [List.length (o_arena o)])) /\
    forall j, j <> id -> nth_error ar j = nth_error (o_arena o) j.
Proof.
  intros H. unfold add_child. rewrite (get_exec_some _ _ _ H). cbn [bind].
  destruct (put_exec_some o id _ (with_kids e (x_kids e ++ [List.length (o_arena o)])) H) as (ar & -> & L & N & J).
  cbn [bind]. exists ar. auto.
Qed.

Lemma spawn_spec id rs : forall o e c codes, nth_error (o_arena o) id = Some e -> x_codes e = c :: codes ->
  exists ar ks, spawn o id rs =
      Val (set_queue (set_arena o (ar ++ map (fun r => child_of id e (rule_ptrs (o_pgen o) r ++ codes)) rs))
                     (o_queue o ++ seq (List.length (o_arena o)) (List.length rs))) /\
    List.length ar = List.length (o_arena o) /\
    nth_error ar id = Some (with_kids e ks) /\
    forall j, j <> id -> nth_error ar j = nth_error (o_arena o) j.
Proof.
  induction rs as [|r rs IH]; intros o e c codes He Hc; cbn [spawn].
  - exists (o_arena o), (x_kids e). cbn [map seq List.length]. rewrite !app_nil_r.
    split; [destruct o; reflexivity|]. split; [reflexivity|]. split; [|auto]. destruct e; exact He.
  - rewrite (get_exec_some _ _ _ He). cbn [bind]. rewrite Hc.
    destruct (add_child_spec o id e (child_of id e (rule_ptrs (o_pgen o) r ++ codes)) He) as (ar1 & E1 & L1 & N1 & J1).
    unfold child_of in E1 at 1. rewrite E1. cbn [bind].
    set (o1 := set_queue _ _).
    assert (He1 : nth_error (o_arena o1) id = Some (with_kids e (x_kids e ++ [List.length (o_arena o)]))).
    { cbn. rewrite nth_error_app1; [assumption|]. rewrite L1. eapply nth_error_lt; eauto. }
    destruct (IH o1 _ c codes He1 Hc) as (ar2 & ks & E2 & L2 & N2 & J2). rewrite E2.
    assert (La1 : List.length (o_arena o1) = S (List.length (o_arena o))).
    { cbn. rewrite app_length, L1. cbn. lia. }
    exists (firstn (List.length (o_arena o)) ar2), ks.
    assert (Har2 : ar2 = firstn (List.length (o_arena o)) ar2 ++ [child_of id e (rule_ptrs (o_pgen o) r ++ codes)]).
    { rewrite <- (firstn_skipn (List.length (o_arena o)) ar2) at 1. f_equal.
      assert (Hs : List.length (skipn (List.length (o_arena o)) ar2) = 1) by (rewrite skipn_length; lia).
      destruct (skipn (List.length (o_arena o)) ar2) as [|x [|]] eqn:Es; cbn in Hs; try lia. f_equal.
      assert (Hn : nth_error ar2 (List.length (o_arena o)) = Some x).
      { rewrite <- (firstn_skipn (List.length (o_arena o)) ar2), Es. rewrite nth_error_app2; rewrite firstn_length; [|lia].
        replace (_ - _) with 0 by lia. reflexivity. }
      rewrite J2 in Hn by (apply nth_error_lt in He; lia). cbn in Hn. rewrite nth_error_snoc, L1, Nat.eqb_refl in Hn.
      congruence. }
    split.
    { cbn [map seq List.length]. rewrite Har2 at 1. rewrite <- app_assoc. cbn [app].
      rewrite La1. unfold o1. cbn. rewrite <- app_assoc. cbn [app]. reflexivity. }
    split; [rewrite firstn_length; lia|]. split.
    + transitivity (nth_error ar2 id); [|exact N2]. apply nth_error_lt in He. rewrite Har2 at 2.
      rewrite nth_error_app1; [reflexivity|]. rewrite firstn_length. lia.
    + intros j Hj. destruct (Nat.lt_ge_cases j (List.length (o_arena o))) as [Hlt|Hge].
      * specialize (J2 j Hj). rewrite Har2 in J2. rewrite nth_error_app1 in J2 by (rewrite firstn_length; lia).
        rewrite J2. cbn. rewrite nth_error_app1 by lia. auto.
      * rewrite (proj2 (nth_error_None _ _)) by (rewrite firstn_length; lia).
        symmetry. now apply nth_error_None.
Qed.

(** --- a child executor right after its creation --- *)
Lemma child_mrel ar id e fm cs : nth_error ar id = Some e -> parents_ok ar ->
  mrel (heap_at ar (x_parent e)) (x_m e) fm ->
  mrel (heap_at ar (Some id)) (x_m (child_of id e cs)) (fresh fm).
Proof.
  intros He Hp (Hh & Hr & _ & _ & Hen). split; [|cbn; auto].
  destruct Hh as [Hs Ha]. cbn. split.
  - unfold l_size in *. cbn. lia.
  - intros i. unfold l_at at 1. unfold l_size at 1. cbn [l_start l_own l_changes List.length find_change].
    rewrite Nat.add_0_r.
    destruct (Nat.ltb_spec i (l_size (m_heap (x_m e)))) as [Hlt|Hge].
    + rewrite (proj2 (Nat.leb_gt _ _)) by assumption. rewrite <- Ha. unfold heap_at at 1. cbn [heap_at_f]. rewrite He.
      apply l_at_ext. intros a. unfold heap_at. destruct (x_parent e) as [q|] eqn:Eq; [|now destruct (List.length ar)].
      pose proof (Hp _ _ _ He Eq) as Hq. pose proof (nth_error_lt _ _ _ He).
      apply heap_at_f_frame with (id := S (List.length ar)); auto; try lia.
      intros j e' He' Hx. apply nth_error_lt in He' as Hl. specialize (Hp _ _ _ He' Hx). lia.
    + symmetry. apply nth_error_None. lia.
Qed.

End Refine.
