(** The arena of executors is the search tree: an invariant of every run. *)
From Verif Require Import Base Machine Heap Facts HeapSim Compiler Parser Print Organizer Process Refine Turn Shape Mono Session
  Search Order Calls TreeTurn.
Open Scope list_scope.

(** code of a goal with what follows it ([true]), or of a clause head with what follows it *)
Definition codes_ok (lv : bool) (cs : list catom) : Prop :=
  if lv then Forall query_shape cs
  else exists h b, cs = h :: b /\ head_shape h /\ Forall query_shape b.

(** [p] goes on from the heap of [m] with the code [rest], having at most removed environments *)
Definition later (m : mst (list cell)) (rest : list catom) (t : out (list (string * nat))) (p : process) : Prop :=
  m_heap (p_m p) = m_heap m /\ p_trail p = t /\ exists ds, forallb is_dealloc ds = true /\ rest = ds ++ p_codes p.

(** called goals: query nodes that are no longer pending *)
Definition is_asked (o : org) (lv : nat -> bool) (id : nat) : bool :=
  lv id && match nth_error (o_arena o) id with Some e => match x_state e with SRunning => false | _ => true end | None => false end.
Definition asked (o : org) (lv : nat -> bool) : nat :=
  List.length (filter (is_asked o lv) (seq 0 (List.length (o_arena o)))).

Section TreeInv.
Variable cf : cfg.

(** How executor [id] ended. [G]: the process it ran last, [M]: the state in which its local instructions ended. *)
Inductive outcome (o : org) (lv : nat -> bool) (G : nat -> process) (M : nat -> mst (list cell)) (D : list (nat * list (string * string)))
  (id : nat) (e : exec) (a : catom) (rest : list catom) (s : istat) : Prop :=
| oc_fail : s = Failing -> lv id = false -> x_state e = SFail -> x_kids e = [] -> outcome o lv G M D id e a rest s
| oc_err er : s = Raise er -> lv id = false -> x_state e = SError er -> x_kids e = [] -> outcome o lv G M D id e a rest s
| oc_unknown f : s = Cont -> lv id = true -> last (ca_code a) IProceed = ICall f -> plookup f (o_prog o) = None ->
    x_state e = SFail -> x_kids e = [] -> outcome o lv G M D id e a rest s
| oc_call f rs : s = Cont -> lv id = true -> last (ca_code a) IProceed = ICall f -> plookup f (o_prog o) = Some rs ->
    x_state e = SArchived ->
    Forall2 (fun k r => G k = {| p_m := fresh (M id); p_codes := r ++ rest; p_trail := trail_after a (M id) (p_trail (G id)) |})
            (x_kids e) rs ->
    outcome o lv G M D id e a rest s
| oc_done pid b fuel : s = Cont -> lv id = false -> last (ca_code a) IProceed = IProceed -> forallb is_dealloc rest = true ->
    x_state e = SSuccess -> x_kids e = [] -> x_parent e = Some pid -> walkR cf o pid (p_trail (G id)) ->
    answer_of (o_sto o) fuel (m_heap (M id)) (p_trail (G id)) = Val b -> In (id, b) D ->
    outcome o lv G M D id e a rest s
| oc_next k : s = Cont -> lv id = false -> last (ca_code a) IProceed = IProceed -> forallb is_dealloc rest = false ->
    x_state e = SArchived -> x_kids e = [k] -> later (M id) rest (p_trail (G id)) (G k) ->
    outcome o lv G M D id e a rest s.

Definition finished (o : org) (lv : nat -> bool) (G : nat -> process) (M : nat -> mst (list cell)) (D : list (nat * list (string * string)))
  (id : nat) (e : exec) : Prop :=
  exists c a rest s fuel, x_codes e = [c] /\ follow o c = Val a /\ p_codes (G id) = a :: rest /\
    run_local cf (o_sto o) fuel (removelast (ca_code a))
      (set_regs (p_m (G id)) (resize (m_regs (p_m (G id))) (ca_regs a))) = Val (s, M id) /\
    (s = Cont -> closed o e (M id)) /\ outcome o lv G M D id e a rest s.

Record tnode (o : org) (lv : nat -> bool) (G : nat -> process) (M : nat -> mst (list cell)) (D : list (nat * list (string * string)))
  (id : nat) (e : exec) : Prop := {
  tn_up : (id = 0 /\ x_parent e = None /\ lv 0 = true) \/
          exists pid pe, x_parent e = Some pid /\ nth_error (o_arena o) pid = Some pe /\ In id (x_kids pe) /\
                         lv id = negb (lv pid);
  tn_kids : exists s, id < s /\ x_kids e = seq s (List.length (x_kids e));
  tn_down : forall k, In k (x_kids e) -> exists ke, nth_error (o_arena o) k = Some ke /\ x_parent ke = Some id;
  tn_codes : codes_ok (lv id) (p_codes (G id));
  tn_run : (x_state e = SRunning /\ x_kids e = [] /\ In id (o_queue o)) \/
           (x_state e <> SRunning /\ finished o lv G M D id e)
}.

Record tree_inv (rl : rule) (o : org) (ps : list process) (lv : nat -> bool) (G : nat -> process) (M : nat -> mst (list cell))
  (D : list (nat * list (string * string))) : Prop := {
  ti_root : o_arena o <> [];
  ti_start : exists ds, forallb is_dealloc ds = true /\ rl = ds ++ p_codes (G 0);
  ti_queue : map G (o_queue o) = ps;
  ti_node : forall id e, nth_error (o_arena o) id = Some e -> tnode o lv G M D id e;
  ti_done : NoDup (map fst D);
  ti_doneb : forall id b, In (id, b) D -> exists e, nth_error (o_arena o) id = Some e /\ x_state e = SSuccess;
  ti_path : forall id e, nth_error (o_arena o) id = Some e -> exists pi, at_path cf (o_sto o) (o_prog o) (init_proc rl) pi (G id)
}.

Lemma shape_ctl_true a : query_shape a -> (exists is f, ca_code a = is ++ [ICall f] /\ forallb is_put is = true /\
    removelast (ca_code a) = is /\ last (ca_code a) IProceed = ICall f) \/
  (ca_code a = [IDealloc] /\ removelast (ca_code a) = [] /\ last (ca_code a) IProceed = IDealloc).
Proof.
  intros [(is & f & E & L)|E]; [left|right]; rewrite E.
  - exists is, f. rewrite removelast_last, last_last. auto.
  - auto.
Qed.
Lemma shape_ctl_false a : head_shape a -> last (ca_code a) IProceed = IProceed.
Proof. intros (is & E & _). now rewrite E, last_last. Qed.

Lemma tree_init o r : o_arena o = [init_exec (o_qgen o) r] -> o_queue o = [0] -> Forall query_shape r ->
  tree_inv r o [init_proc r] (fun _ => true) (fun _ => init_proc r) (fun _ => p_m (init_proc r)) [].
Proof.
  intros Ea Eq Hr. split.
  - rewrite Ea. discriminate.
  - exists []. auto.
  - rewrite Eq. reflexivity.
  - intros id e He. rewrite Ea in He. destruct id as [|[|]]; try discriminate. injection He as <-. split; cbn.
    + left. auto.
    + exists 1. auto.
    + intros k [].
    + exact Hr.
    + left. rewrite Eq. cbn. auto.
  - constructor.
  - intros id b [].
  - intros id e _. exists []. constructor.
Qed.

Lemma forall2_seq {A} (R : nat -> A -> Prop) l : forall n, (forall k x, nth_error l k = Some x -> R (n + k) x) ->
  Forall2 R (seq n (List.length l)) l.
Proof.
  induction l as [|y l IH]; intros n H; cbn; constructor.
  - specialize (H 0 y eq_refl). now rewrite Nat.add_0_r in H.
  - apply IH. intros k x Hk. replace (S n + k) with (n + S k) by lia. now apply H.
Qed.

Lemma filter_none {A} (f : A -> bool) l : (forall x, In x l -> f x = false) -> filter f l = [].
Proof. induction l as [|x l IH]; intros H; [reflexivity|]. cbn. rewrite H by now left. apply IH. intros. apply H. now right. Qed.
Lemma filter_one {A} (f g : A -> bool) l x : NoDup l -> In x l -> f x = false -> g x = true ->
  (forall y, In y l -> y <> x -> g y = f y) -> List.length (filter g l) = List.length (filter f l) + 1.
Proof.
  intros Hn. induction Hn as [|y l Hy Hn IH]; intros Hx Hf Hg H; [contradiction|]. cbn. destruct Hx as [->|Hx].
  - rewrite Hf, Hg. cbn. rewrite Nat.add_1_r. f_equal. f_equal. apply filter_ext_in. intros z Hz. apply H; [now right|].
    intros ->. contradiction.
  - rewrite (H y) by (try (now left); intros ->; contradiction). destruct (f y); cbn; rewrite IH; auto; intros; apply H; auto; now right.
Qed.

Lemma forall2_head {A B} (R : A -> B -> Prop) x l y k : Forall2 R (x :: l) (y :: k) -> R x y.
Proof. intros H. now inversion H. Qed.

Lemma in_queue_lt rl o ps lv G M D id e : refines cf o ps -> tree_inv rl o ps lv G M D -> nth_error (o_arena o) id = Some e ->
  x_state e = SRunning -> In id (o_queue o).
Proof.
  intros _ HT He Hs. destruct (tn_run _ _ _ _ _ _ _ (ti_node _ _ _ _ _ _ _ HT id e He)) as [(_ & _ & H)|[H _]]; [assumption|].
  contradiction.
Qed.

(** what stays as it was for the other executors *)
Lemma closed_agree o o' id j e m : agree o o' id -> childless (o_arena o) id -> parents_ok (o_arena o) ->
  nth_error (o_arena o) j = Some e -> closed o e m -> closed o' e m.
Proof.
  intros Ha Hc Hp He (H1 & H2 & H3). pose proof Ha as (_ & _ & Hl & Hag). pose proof (nth_error_lt _ _ _ He).
  split; [|split; assumption]. eapply hrel_ext; [|exact H1]. intros a. eapply heap_at_frame with (id := id); eauto.
  destruct (x_parent e) as [q|] eqn:Eq; auto. pose proof (Hp _ _ _ He Eq). split; [lia|]. intros ->. exact (Hc _ _ He Eq).
Qed.

Lemma turn_tree rl fuel o p ps lv G M D sr r o' : refines cf o (p :: ps) -> tree_inv rl o (p :: ps) lv G M D ->
  p_turn cf (o_sto o) fuel (o_prog o) p = Val sr -> turn cf fuel o = Val (r, o') ->
  exists lv' G' M' new, tree_inv rl o' (ps ++ kids_of sr) lv' G' M' (D ++ new) /\
    asked o' lv' = asked o lv + (if p_calls cf (o_sto o) fuel p then 1 else 0) /\
    map (fun d => RAnswer (snd d)) new = (match sr with PDone b => [RAnswer b] | _ => [] end).
Proof.
  intros HR HT Ep Et. pose proof HR as [Hp Hnd Hch Hpr HF].
  pose proof (turn_refines cf fuel o _ HR) as TR. cbn in TR. rewrite Ep in TR.
  destruct TR as (o1 & id1 & q1 & Eq1 & Et1 & HR' & Hsc & Hag & _ & _).
  rewrite Et in Et1. injection Et1 as Er <-.
  destruct (turn_arena cf fuel o ps p sr r o' HR Ep Et)
    as (id & q & e & c & cs & a & rest & s & m & e' & new & Eq & He & Hxc & Hpc & Hfo & Hrun & He' & Hpar & Hkids & Hlen & Hoth & Hnew & Hcase).
  rewrite Eq in Eq1. injection Eq1 as <- <-.
  pose proof (nth_error_lt _ _ _ He) as Hid.
  assert (Hchid : childless (o_arena o) id) by (apply Hch; rewrite Eq; now left).
  pose proof (ti_node _ _ _ _ _ _ _ HT id e He) as HN.
  pose proof (ti_queue _ _ _ _ _ _ _ HT) as HQ. rewrite Eq in HQ. cbn [map] in HQ. injection HQ as HG HQ.
  assert (Hqlt : forall j, In j q -> j < List.length (o_arena o) /\ j <> id).
  { intros j Hj. split; [eapply queue_lt; [exact HR|]; rewrite Eq; now right|].
    rewrite Eq in Hnd. inversion Hnd as [|? ? Hni _]; subst. intros ->. contradiction. }
  destruct Hsc as (S1 & S2 & S3 & S4 & S5 & S6 & S7).
  assert (Hrunning : x_state e = SRunning /\ x_kids e = []).
  { rewrite Eq in HF. inversion HF as [|? ? ? ? (e0 & He0 & Hst & _) _]; subst. rewrite He in He0. injection He0 as <-.
    split; [assumption|]. destruct (tn_run _ _ _ _ _ _ _ HN) as [(_ & K & _)|[K _]]; [assumption|contradiction]. }
  destruct Hrunning as [Hst Hk0]. rewrite Hk0 in Hkids. cbn [app] in Hkids.
  pose proof (tn_codes _ _ _ _ _ _ _ HN) as Hco. rewrite HG, Hpc in Hco.
  assert (Hfo' : forall c', follow o' c' = follow o c') by (intros c'; apply follow_same; assumption).
  assert (Hw' : forall j x, nth_error (o_arena o) j = Some x -> forall pid, x_parent x = Some pid -> forall t, walkR cf o pid t -> walkR cf o' pid t).
  { intros j x Hx pid Hpx t Hw n Hn. pose proof (Hp _ _ _ Hx Hpx). pose proof (nth_error_lt _ _ _ Hx).
    rewrite (walk_agree o o' id Hag Hchid Hp); [now apply Hw|lia|]. intros ->. exact (Hchid _ _ Hx Hpx). }
  (* other executors *)
  assert (Hold : forall lv' G' M' new', (forall j, j < List.length (o_arena o) -> lv' j = lv j) ->
     (forall j, j < List.length (o_arena o) -> j <> id -> G' j = G j /\ M' j = M j) ->
     (lv id = false -> G' id = G id) -> (forall m0 rest0 t0, later m0 rest0 t0 (G id) -> later m0 rest0 t0 (G' id)) ->
     forall j x, j <> id -> nth_error (o_arena o) j = Some x -> In j q \/ x_state x <> SRunning ->
     (forall i, In i q -> In i (o_queue o')) -> tnode o' lv' G' M' (D ++ new') j x).
  { intros lv' G' M' new' Hlv HGM HGid Hhid j x Hne Hx Hqj Hqq.
    pose proof (nth_error_lt _ _ _ Hx) as Hj. destruct (HGM j Hj Hne) as [EG EM].
    destruct (ti_node _ _ _ _ _ _ _ HT j x Hx) as [U K Dn C R]. split.
    - destruct U as [(-> & U1 & U2)|(pid & pe & U1 & U2 & U3 & U4)].
      + left. rewrite (Hlv 0) by assumption. auto.
      + right. pose proof (nth_error_lt _ _ _ U2) as Hpl.
        assert (pid <> id) by (intros ->; exact (Hchid _ _ Hx U1)).
        exists pid, pe. rewrite (Hoth pid), !Hlv by assumption. auto.
    - exact K.
    - intros k Hk. destruct (Dn k Hk) as (ke & D1 & D2). destruct (Nat.eq_dec k id) as [->|Hkne].
      + rewrite He in D1. injection D1 as <-. exists e'. split; [assumption|congruence].
      + exists ke. rewrite Hoth; auto. eapply nth_error_lt; eauto.
    - now rewrite Hlv, EG by assumption.
    - destruct R as [(R1 & R2 & R3)|[R1 (c0 & a0 & rest0 & s0 & fu & F1 & F2 & F3 & F4 & F5 & F6)]].
      + left. csplit; auto. destruct Hqj as [Hqj|Hqj]; [auto|contradiction].
      + right. split; [assumption|]. exists c0, a0, rest0, s0, fu. rewrite EG, EM, S1, Hfo'. csplit; auto.
        * intros Hs. eapply closed_agree; eauto.
        * destruct F6 as [K1 K2 K3 K4|er K1 K2 K3 K4|f K1 K2 K3 K4 K5 K6|f rs K1 K2 K3 K4 K5 K6|pid b fu' K1 K2 K3 K4 K5 K6 K7 K8 K9 K10|k K1 K2 K3 K4 K5 K6 K7].
          -- apply oc_fail; auto. now rewrite Hlv.
          -- apply (oc_err _ _ _ _ _ _ _ _ _ _ er); auto. now rewrite Hlv.
          -- apply (oc_unknown _ _ _ _ _ _ _ _ _ _ f); auto; [now rewrite Hlv|now rewrite S2].
          -- apply (oc_call _ _ _ _ _ _ _ _ _ _ f rs); auto; [now rewrite Hlv|now rewrite S2|]. rewrite EG, EM.
             assert (Hks : forall k, In k (x_kids x) -> G' k = G k).
             { intros k Hk. destruct (Dn k Hk) as (ke & D1 & D2). pose proof (nth_error_lt _ _ _ D1) as Hkl.
               destruct (Nat.eq_dec k id) as [->|Hkne]; [|now apply HGM].
               apply HGid. rewrite He in D1. injection D1 as <-.
               destruct (tn_up _ _ _ _ _ _ _ HN) as [(_ & U1 & _)|(pid & pe & U1 & U2 & U3 & U4)]; [congruence|].
               rewrite D2 in U1. injection U1 as <-. rewrite U4, K2. reflexivity. }
             clear - K6 Hks. induction K6 as [|k r ks rs Hk H IH]; constructor.
             ++ rewrite Hks; [assumption|now left].
             ++ apply IH. intros i Hi. apply Hks. now right.
          -- apply (oc_done _ _ _ _ _ _ _ _ _ _ pid b fu'); auto; rewrite ?EG, ?EM, ?S1; auto; [now rewrite Hlv|eauto|].
             apply in_or_app. now left.
          -- apply (oc_next _ _ _ _ _ _ _ _ _ _ k); auto; [now rewrite Hlv|]. rewrite EM, EG.
             assert (Hkin : In k (x_kids x)) by (rewrite K6; now left).
             destruct (Dn k Hkin) as (ke & D1 & D2). pose proof (nth_error_lt _ _ _ D1) as Hkl.
             destruct (Nat.eq_dec k id) as [->|Hkne]; [auto|]. now rewrite (proj1 (HGM k Hkl Hkne)). }
  (* the executor itself: its place in the tree *)
  assert (Hplace : forall lv', (forall j, j < List.length (o_arena o) -> lv' j = lv j) ->
     (id = 0 /\ x_parent e' = None /\ lv' 0 = true) \/
          exists pid pe, x_parent e' = Some pid /\ nth_error (o_arena o') pid = Some pe /\ In id (x_kids pe) /\
                         lv' id = negb (lv' pid)).
  { intros lv' Hlv. rewrite Hpar. destruct (tn_up _ _ _ _ _ _ _ HN) as [(E0 & U1 & U2)|(pid & pe & U1 & U2 & U3 & U4)].
    - left. rewrite (Hlv 0) by lia. auto.
    - right. pose proof (nth_error_lt _ _ _ U2) as Hpl.
      assert (pid <> id) by (intros ->; exact (Hchid _ _ He U1)).
      exists pid, pe. rewrite (Hoth pid), !Hlv by assumption. auto. }
  assert (Hrunq : forall j x, j <> id -> nth_error (o_arena o) j = Some x -> In j q \/ x_state x <> SRunning).
  { intros j x Hne Hx. destruct (tn_run _ _ _ _ _ _ _ (ti_node _ _ _ _ _ _ _ HT j x Hx)) as [(_ & _ & K)|[K _]]; [|now right].
    left. rewrite Eq in K. destruct K as [K|K]; [congruence|assumption]. }
  assert (Hold_done : forall i b, In (i, b) D -> exists x, nth_error (o_arena o') i = Some x /\ x_state x = SSuccess).
  { intros i b Hi. destruct (ti_doneb _ _ _ _ _ _ _ HT i b Hi) as (x & Hx & Hs).
    assert (i <> id) by (intros ->; rewrite He in Hx; injection Hx as <-; congruence).
    exists x. rewrite Hoth; auto. eapply nth_error_lt; eauto. }
  assert (Hkid : forall k pr, nth_error (kids_of sr) k = Some pr -> exists pi, at_path cf (o_sto o') (o_prog o') (init_proc rl) pi pr).
  { intros k pr Hk. rewrite S1, S2. destruct (ti_path _ _ _ _ _ _ _ HT id e He) as (pi & Hpi). rewrite HG in Hpi.
    destruct sr as [l| | |]; cbn [kids_of] in Hk; try (destruct k; discriminate Hk).
    exists (pi ++ [k]). apply (ap_kid _ _ _ _ pi p k l pr Hpi); [exists fuel; exact Ep|exact Hk]. }
  assert (Hpath : forall j x, nth_error (o_arena o) j = Some x -> exists pi, at_path cf (o_sto o') (o_prog o') (init_proc rl) pi (G j)).
  { rewrite S1, S2. exact (ti_path _ _ _ _ _ _ _ HT). }
  unfold p_turn in Ep. rewrite Hpc, Hrun in Ep. cbn [bind] in Ep.
  destruct Hcase as [(-> & Hctl & -> & Hst' & Hxc' & Hq')|(Hend & Hxc' & Hcl & Hq')].
  - (* deallocate *)
    rewrite Hctl in Ep. destruct (m_envs m) as [|env es] eqn:Een; [discriminate|]. injection Ep as <-.
    set (kid := {| p_m := set_envs m es; p_codes := rest; p_trail := p_trail p |}).
    assert (Hlvid : lv id = true).
    { destruct (lv id) eqn:El; [reflexivity|]. destruct Hco as (h & b & E & Hh & _). injection E as <- <-.
      rewrite (shape_ctl_false _ Hh) in Hctl. discriminate. }
    assert (Hdcode : ca_code a = [IDealloc] /\ m_heap m = m_heap (p_m p)).
    { rewrite Hlvid in Hco. pose proof (Forall_inv (Hco : Forall query_shape (a :: rest))) as Hqs.
      destruct (shape_ctl_true _ Hqs) as [(is & f & _ & _ & _ & El)|(Ecd & Erl & _)]; [rewrite El in Hctl; discriminate|].
      rewrite Erl in Hrun. injection Hrun as <-. auto. }
    destruct Hdcode as [Hdcode Hheap].
    assert (Hnotcall : p_calls cf (o_sto o) fuel p = false) by (unfold p_calls; rewrite Hpc, Hrun, Hctl; reflexivity).
    set (G' := fun j => if Nat.eqb j id then kid else G j).
    assert (HGo : forall j, j <> id -> G' j = G j) by (intros j Hj; unfold G'; now rewrite (proj2 (Nat.eqb_neq _ _) Hj)).
    assert (HGi : G' id = kid) by (unfold G'; now rewrite Nat.eqb_refl).
    assert (Hlat : forall m0 rest0 t0, later m0 rest0 t0 (G id) -> later m0 rest0 t0 (G' id)).
    { intros m0 rest0 t0 (L1 & L2 & ds & L3 & L4). rewrite HG in L1, L2, L4. rewrite HGi. unfold later, kid. cbn [p_m p_trail p_codes]. csplit.
      - exact (eq_trans Hheap L1).
      - assumption.
      - exists (ds ++ [a]). rewrite forallb_app, L3, <- app_assoc. cbn. rewrite L4, Hpc. split; [|reflexivity].
        unfold is_dealloc. rewrite Hdcode. reflexivity. }
    assert (Hrunid : forall o1 e1, nth_error (o_arena o1) id = Some e1 -> x_state e1 = SRunning -> is_asked o1 lv id = false).
    { intros o1 e1 E1 E2. unfold is_asked. rewrite E1, E2. now rewrite andb_false_r. }
    exists lv, G', M, []. csplit; [|rewrite Hnotcall, Nat.add_0_r; unfold asked; rewrite Hlen; cbn [List.length]; rewrite Nat.add_0_r; f_equal; apply filter_ext_in; intros j Hj; apply in_seq in Hj; destruct (Nat.eq_dec j id) as [->|Hne]; [now rewrite (Hrunid o' e'), (Hrunid o e)|unfold is_asked; now rewrite Hoth by (assumption || lia)]|reflexivity].
    rewrite app_nil_r. split.
    + intros E. rewrite E in He'. destruct id; discriminate.
    + destruct (ti_start _ _ _ _ _ _ _ HT) as (ds & L3 & L4). destruct (Nat.eq_dec 0 id) as [<-|Hne].
      * rewrite HG, Hpc in L4. exists (ds ++ [a]). rewrite HGi, forallb_app, L3, <- app_assoc. cbn. split; [|exact L4].
        unfold is_dealloc. rewrite Hdcode. reflexivity.
      * exists ds. rewrite HGo by congruence. auto.
    + rewrite Hq', map_app. cbn [map kids_of]. rewrite HGi. f_equal. rewrite <- HQ. apply map_ext_in. intros j Hj.
      apply HGo. now apply Hqlt.
    + intros j x Hx. destruct (Nat.eq_dec j id) as [->|Hne].
      * rewrite He' in Hx. injection Hx as <-. split; auto.
        -- exists (S id). rewrite Hkids. cbn. auto.
        -- rewrite Hkids. intros k [].
        -- rewrite HGi, Hlvid. cbn. rewrite Hlvid in Hco. now inversion Hco.
        -- left. rewrite Hkids, Hq'. csplit; auto. apply in_or_app. right. now left.
      * assert (Hj : j < List.length (o_arena o)).
        { apply nth_error_lt in Hx. rewrite Hlen in Hx. cbn in Hx. lia. }
        rewrite Hoth in Hx by assumption. rewrite <- (app_nil_r D). apply Hold; auto.
        -- intros E. congruence.
        -- intros i Hi. rewrite Hq'. apply in_or_app. now left.
    + exact (ti_done _ _ _ _ _ _ _ HT).
    + exact Hold_done.
    + intros j x Hx. destruct (Nat.eq_dec j id) as [->|Hne]; [rewrite HGi; exact (Hkid 0 kid eq_refl)|]. rewrite HGo by assumption.
      apply (Hpath j x). rewrite <- Hoth; auto. apply nth_error_lt in Hx. rewrite Hlen in Hx. cbn in Hx. lia.
  - set (N := List.length (o_arena o)) in *.
    set (lv' := fun j => if Nat.ltb j N then lv j else negb (lv id)).
    set (G' := fun j => if Nat.ltb j N then G j else nth (j - N) (kids_of sr) p).
    set (M' := fun j => if Nat.eqb j id then m else M j).
    assert (Hlv : forall j, j < N -> lv' j = lv j) by (intros j Hj; unfold lv'; now rewrite (proj2 (Nat.ltb_lt _ _) Hj)).
    assert (HGo : forall j, j < N -> G' j = G j) by (intros j Hj; unfold G'; now rewrite (proj2 (Nat.ltb_lt _ _) Hj)).
    assert (Hlvn : forall k, lv' (N + k) = negb (lv id)) by (intros k; unfold lv'; now rewrite (proj2 (Nat.ltb_ge _ _)) by lia).
    assert (HGn : forall k, G' (N + k) = nth k (kids_of sr) p).
    { intros k. unfold G'. rewrite (proj2 (Nat.ltb_ge _ _)) by lia. f_equal. lia. }
    assert (HMo : forall j, j <> id -> M' j = M j) by (intros j Hj; unfold M'; now rewrite (proj2 (Nat.eqb_neq _ _) Hj)).
    assert (HMi : M' id = m) by (unfold M'; now rewrite Nat.eqb_refl).
    set (dn := match sr with PDone b => [(id, b)] | _ => [] end).
    (* kids of the process and new executors *)
    assert (Hlk : List.length (kids_of sr) = List.length new).
    { destruct Hend as [Es|er Es|f Es El Ek|f rs nw Es El Ek HFn|Es El Ed|x Es El Ed X1 X2 X3 X4]; subst s;
        try rewrite El in Ep; try rewrite Ek in Ep; try rewrite Ed in Ep.
      - injection Ep as <-. reflexivity.
      - injection Ep as <-. reflexivity.
      - injection Ep as <-. reflexivity.
      - injection Ep as <-. cbn. rewrite map_length. clear - HFn. induction HFn; cbn; congruence.
      - destruct (answer_of _ _ _ _) as [b| |]; try discriminate Ep. injection Ep as <-. reflexivity.
      - injection Ep as <-. reflexivity. }
    assert (Hrestq : Forall query_shape rest).
    { destruct (lv id); [now inversion Hco|]. destruct Hco as (h & b & E & _ & Hb). now injection E as <- <-. }
    assert (Hgood : forall k x, nth_error new k = Some x -> exists pr, nth_error (kids_of sr) k = Some pr /\
              x_parent x = Some id /\ x_state x = SRunning /\ x_kids x = [] /\ codes_ok (negb (lv id)) (p_codes pr)).
    { intros k x Hx.
      destruct Hend as [Es|er Es|f Es El Ek|f rs nw Es El Ek HFn|Es El Ed|y Es El Ed X1 X2 X3 X4];
        try (destruct k; discriminate Hx).
      - rewrite Es in Ep. rewrite El, Ek in Ep. injection Ep as <-. cbn [kids_of].
        assert (Hr : exists r0, nth_error rs k = Some r0 /\ x_parent x = Some id /\ x_state x = SRunning /\ x_kids x = []).
        { clear - HFn Hx. revert k Hx. induction HFn as [|y r0 nw rs (Y1 & Y2 & Y3 & Y4) H IH]; intros k Hx; [destruct k; discriminate|].
          destruct k as [|k]; cbn in *; [injection Hx as <-; eauto 10|eauto]. }
        destruct Hr as (r0 & Hr0 & Hrs). eexists. split; [apply map_nth_error; exact Hr0|]. csplit; try apply Hrs.
        cbn [p_codes].
        assert (Hlvid : lv id = true).
        { destruct (lv id) eqn:E0; [reflexivity|]. destruct Hco as (h & b & E & Hh & _). injection E as <- <-.
          rewrite (shape_ctl_false _ Hh) in El. discriminate. }
        rewrite Hlvid. cbn. pose proof (Hpr f rs r0 Ek (nth_error_In _ _ Hr0)) as Hrsh. destruct r0 as [|h b]; [contradiction|].
        destruct Hrsh as [Hh Hb]. exists h, (b ++ rest). csplit; auto. apply Forall_app. auto.
      - rewrite Es in Ep. rewrite El, Ed in Ep. injection Ep as <-. cbn [kids_of].
        destruct k as [|k]; [|destruct k; discriminate Hx]. injection Hx as <-. eexists. split; [reflexivity|]. csplit; auto.
        cbn [p_codes].
        assert (Hlvid : lv id = false).
        { destruct (lv id) eqn:E0; [|reflexivity]. pose proof (Forall_inv (Hco : Forall query_shape (a :: rest))) as Hqs.
          destruct (shape_ctl_true _ Hqs) as [(is & f & _ & _ & _ & E)|(_ & _ & E)]; rewrite E in El; discriminate. }
        rewrite Hlvid. exact Hrestq. }
    assert (Hputs : lv id = true -> s = Cont).
    { intros E0. rewrite E0 in Hco. pose proof (Forall_inv (Hco : Forall query_shape (a :: rest))) as Hqs.
      destruct (shape_ctl_true _ Hqs) as [(is & f & _ & Hput & E1 & _)|(_ & E1 & _)]; rewrite E1 in Hrun.
      - eapply puts_cont; eauto.
      - injection Hrun as <-. reflexivity. }
    assert (Hpx : lv id = false -> exists pid, x_parent e = Some pid /\ walkR cf o pid (p_trail p)).
    { intros E0. rewrite Eq in HF. destruct (forall2_head _ _ _ _ _ HF) as (e0 & He0 & _ & _ & _ & Hk). rewrite He in He0. injection He0 as <-.
      rewrite E0 in Hco. destruct Hco as (h & b & E & Hh & _). injection E as <- <-.
      destruct Hk as [_ _ Hs|? ? ? _ _ _ _ Hs|gid h' b' K1 K2 K3 K4 K5]; [| |eauto].
      - rewrite Hpc in Hs. pose proof (Forall_inv Hs) as Hqs. pose proof (shape_ctl_false _ Hh) as El.
        destruct (shape_ctl_true _ Hqs) as [(is & f & _ & _ & _ & E)|(_ & _ & E)]; rewrite E in El; discriminate.
      - rewrite Hpc in Hs. pose proof (Forall_inv Hs) as Hqs. pose proof (shape_ctl_false _ Hh) as El.
        destruct (shape_ctl_true _ Hqs) as [(is & f & _ & _ & _ & E)|(_ & _ & E)]; rewrite E in El; discriminate. }
    assert (Hnst : x_state e' <> SRunning) by (intros E; rewrite E in Hend; inversion Hend).
    assert (Hcalls : p_calls cf (o_sto o) fuel p = lv id).
    { unfold p_calls. rewrite Hpc, Hrun. destruct (lv id) eqn:E0.
      - rewrite (Hputs eq_refl). pose proof (Forall_inv (Hco : Forall query_shape (a :: rest))) as Hqs.
        destruct (shape_ctl_true _ Hqs) as [(is & f & _ & _ & _ & E)|(_ & _ & E)]; [now rewrite E|]. exfalso.
        pose proof (Hputs eq_refl) as Hs0. destruct Hend; congruence.
      - destruct Hco as (h & b & E & Hh & _). injection E as <- <-. rewrite (shape_ctl_false _ Hh). destruct s; reflexivity. }
    assert (Hasked : asked o' lv' = asked o lv + (if p_calls cf (o_sto o) fuel p then 1 else 0)).
    { rewrite Hcalls. unfold asked. rewrite Hlen. fold N. rewrite seq_app, filter_app, app_length. cbn [plus].
      replace (filter (is_asked o' lv') (seq N (List.length new))) with (@nil nat).
      2:{ symmetry. apply filter_none. intros j Hj. apply in_seq in Hj. unfold is_asked.
          replace j with (N + (j - N)) by lia. rewrite Hnew.
          destruct (nth_error new (j - N)) as [y|] eqn:Ey; [|now rewrite andb_false_r].
          destruct (Hgood _ _ Ey) as (pr & _ & _ & Y & _). rewrite Y. now rewrite andb_false_r. }
      cbn [List.length]. rewrite Nat.add_0_r. destruct (lv id) eqn:E0.
      - apply filter_one with (x := id).
        + apply seq_NoDup.
        + apply in_seq. lia.
        + unfold is_asked. rewrite He, Hst. now rewrite andb_false_r.
        + unfold is_asked. rewrite He', Hlv, E0 by assumption. destruct (x_state e'); [contradiction|..]; reflexivity.
        + intros j Hj Hne. apply in_seq in Hj. unfold is_asked. rewrite Hlv, Hoth by (assumption || lia). reflexivity.
      - rewrite Nat.add_0_r. f_equal. apply filter_ext_in. intros j Hj. apply in_seq in Hj. unfold is_asked.
        rewrite Hlv by lia. destruct (Nat.eq_dec j id) as [->|Hne]; [now rewrite E0|]. now rewrite Hoth by (assumption || lia). }
    exists lv', G', M', dn. csplit.
    2:{ exact Hasked. }
    2:{ unfold dn. destruct sr; reflexivity. }
    split.
    + intros E. rewrite E in He'. destruct id; discriminate.
    + destruct (ti_start _ _ _ _ _ _ _ HT) as (ds & L3 & L4). exists ds. rewrite HGo by lia. auto.
    + rewrite Hq', map_app. f_equal.
      * rewrite <- HQ. apply map_ext_in. intros j Hj. apply HGo. now apply Hqlt.
      * rewrite <- Hlk. apply nth_error_ext. intros k. destruct (nth_error (kids_of sr) k) as [x|] eqn:Ek.
        -- rewrite nth_error_map. pose proof (nth_error_lt _ _ _ Ek) as Hkl.
           rewrite (nth_error_nth' (seq N (List.length (kids_of sr))) 0) by (rewrite seq_length; exact Hkl).
           rewrite seq_nth by assumption. cbn. rewrite HGn. f_equal. now apply nth_error_nth.
        -- apply nth_error_None. rewrite map_length, seq_length. now apply nth_error_None.
    + intros j x Hx. destruct (Nat.lt_ge_cases j N) as [Hj|Hj].
      * destruct (Nat.eq_dec j id) as [->|Hne].
        -- rewrite He' in Hx. injection Hx as <-. split.
           ++ now apply Hplace.
           ++ exists N. split; [assumption|]. rewrite Hkids. now rewrite seq_length.
           ++ rewrite Hkids. intros k Hk. apply in_seq in Hk. replace k with (N + (k - N)) by lia. rewrite Hnew.
              destruct (nth_error new (k - N)) as [y|] eqn:Ey.
              ** exists y. split; [reflexivity|]. destruct (Hgood _ _ Ey) as (pr & _ & Y & _). exact Y.
              ** apply nth_error_None in Ey. lia.
           ++ rewrite Hlv, HGo, HG, Hpc by assumption. exact Hco.
           ++ right. split; [assumption|]. exists c, a, rest, s, fuel. rewrite HMi, HGo, HG, S1, Hfo' by assumption. csplit; auto.
              rename Hend into En. remember (x_state e') as xs eqn:Exs.
              destruct En as [Es|er Es|f Es El Ek|f rs nw Es El Ek HFn|Es El Ed|y Es El Ed X1 X2 X3 X4].
              ** apply oc_fail; auto. rewrite Hlv by assumption. destruct (lv id); [|reflexivity]. rewrite Hputs in Es; [discriminate|reflexivity].
              ** apply (oc_err _ _ _ _ _ _ _ _ _ _ er); auto. rewrite Hlv by assumption. destruct (lv id); [|reflexivity]. rewrite Hputs in Es; [discriminate|reflexivity].
              ** apply (oc_unknown _ _ _ _ _ _ _ _ _ _ f); auto; [|now rewrite S2]. rewrite Hlv by assumption.
                 destruct (lv id) eqn:E0; [reflexivity|]. destruct Hco as (h & b & E & Hh & _). injection E as <- <-.
                 rewrite (shape_ctl_false _ Hh) in El. discriminate.
              ** assert (Hlvid : lv id = true).
                 { destruct (lv id) eqn:E0; [reflexivity|]. destruct Hco as (h & b & E & Hh & _). injection E as <- <-.
                   rewrite (shape_ctl_false _ Hh) in El. discriminate. }
                 apply (oc_call _ _ _ _ _ _ _ _ _ _ f rs); auto; [now rewrite Hlv|now rewrite S2|].
                 rewrite HMi, (HGo id), HG, Hkids by assumption.
                 rewrite Es in Ep. rewrite El, Ek in Ep. injection Ep as <-. cbn [kids_of] in *. rewrite map_length in Hlk.
                 rewrite <- Hlk. apply forall2_seq. intros k r0 Hk. rewrite HGn. apply nth_error_nth.
                 exact (map_nth_error (fun r1 => {| p_m := fresh m; p_codes := r1 ++ rest; p_trail := trail_after a m (p_trail p) |}) k rs Hk).
              ** assert (Hlvid : lv id = false).
                 { destruct (lv id) eqn:E0; [|reflexivity]. pose proof (Forall_inv (Hco : Forall query_shape (a :: rest))) as Hqs.
                   destruct (shape_ctl_true _ Hqs) as [(is & f & _ & _ & _ & E)|(_ & _ & E)]; rewrite E in El; discriminate. }
                 destruct (Hpx Hlvid) as (pid & P1 & P2). rewrite Es in Ep. rewrite El, Ed in Ep.
                 destruct (answer_of (o_sto o) fuel (m_heap m) (p_trail p)) as [b| |] eqn:Ea; try discriminate Ep.
                 injection Ep as <-.
                 apply (oc_done _ _ _ _ _ _ _ _ _ _ pid b fuel); auto; rewrite ?HMi, ?(HGo id), ?HG, ?S1 by assumption; auto.
                 --- now rewrite Hlv.
                 --- congruence.
                 --- eauto.
                 --- apply in_or_app. right. now left.
              ** assert (Hlvid : lv id = false).
                 { destruct (lv id) eqn:E0; [|reflexivity]. pose proof (Forall_inv (Hco : Forall query_shape (a :: rest))) as Hqs.
                   destruct (shape_ctl_true _ Hqs) as [(is & f & _ & _ & _ & E)|(_ & _ & E)]; rewrite E in El; discriminate. }
                 apply (oc_next _ _ _ _ _ _ _ _ _ _ N); auto; [now rewrite Hlv|].
                 rewrite HMi, (HGo id), HG by assumption. replace N with (N + 0) by lia. rewrite HGn.
                 rewrite Es in Ep. rewrite El, Ed in Ep. injection Ep as <-. unfold later. cbn. csplit; auto. exists []. auto.
        -- rewrite Hoth in Hx by assumption. apply Hold; [exact Hlv|intros; split; auto|intros _; now apply HGo|intros; now rewrite HGo by assumption|assumption|assumption|eauto|].
           intros i Hi. rewrite Hq'. apply in_or_app. now left.
      * replace j with (N + (j - N)) in * by lia. set (k := j - N) in *. rewrite Hnew in Hx.
        destruct (Hgood k x Hx) as (pr & K1 & K2 & K3 & K4 & K5). split.
        -- right. exists id, e'. rewrite Hlvn, (Hlv id) by assumption. csplit; auto. rewrite Hkids. apply in_seq.
           apply nth_error_lt in Hx. lia.
        -- exists (S (N + k)). rewrite K4. cbn. auto.
        -- rewrite K4. intros i [].
        -- rewrite Hlvn, HGn, (nth_error_nth _ _ p K1). exact K5.
        -- left. csplit; auto. rewrite Hq'. apply in_or_app. right. apply in_seq. apply nth_error_lt in Hx. lia.
    + rewrite map_app. unfold dn. destruct sr; cbn [map]; try (rewrite app_nil_r; exact (ti_done _ _ _ _ _ _ _ HT)).
      pose proof (ti_done _ _ _ _ _ _ _ HT) as Hnd0. apply NoDup_rev in Hnd0. cbn [fst]. rewrite <- (rev_involutive (map fst D ++ [id])).
      apply NoDup_rev. rewrite rev_app_distr. cbn. constructor; [|assumption]. rewrite <- in_rev. intros Hin.
      apply in_map_iff in Hin. destruct Hin as ([i b0] & E & Hin). cbn in E. subst i.
      destruct (ti_doneb _ _ _ _ _ _ _ HT id b0 Hin) as (x & Hx & Hs). rewrite He in Hx. injection Hx as <-. congruence.
    + intros i b0 Hi. apply in_app_or in Hi. destruct Hi as [Hi|Hi]; [now apply (Hold_done i b0)|].
      unfold dn in Hi. destruct sr; try contradiction. destruct Hi as [Hi|[]]. injection Hi as <- <-.
      exists e'. split; [assumption|].
      destruct Hend as [Es|er Es|f Es El Ek|f rs nw Es El Ek HFn|Es El Ed|y Es El Ed X1 X2 X3 X4]; try reflexivity;
        rewrite Es in Ep; try rewrite El in Ep; try rewrite Ek in Ep; try rewrite Ed in Ep; discriminate Ep.
    + intros j x Hx. destruct (Nat.lt_ge_cases j N) as [Hj|Hj].
      * rewrite HGo by assumption. destruct (nth_error (o_arena o) j) as [y|] eqn:Ey; [exact (Hpath j y Ey)|].
        apply nth_error_None in Ey. unfold N in Hj. lia.
      * replace j with (N + (j - N)) in * by lia. set (k := j - N) in *. rewrite Hnew in Hx.
        destruct (Hgood k x Hx) as (pr & K1 & _). rewrite HGn, (nth_error_nth _ _ p K1). exact (Hkid k pr K1).
Qed.
End TreeInv.
