(** Whole turns of two organizers in lock step. *)
From Coq Require Import Permutation.
From Verif Require Import Base Machine Heap Compiler Parser Print Organizer Sim.
Open Scope string_scope.
Open Scope list_scope.

Section Lock.
Variable K : params.
Notation lax := (pr_lax K). Notation isok := (pr_isok K).
Notation crel := (crel K). Notation orel := (orel lax).
Ltac obind R := eapply (orel_bind lax R).

(** --- layered heaps --- *)
Record lrel (h1 h2 : lheap) : Prop := {
  lr_start : l_start h1 = l_start h2;
  lr_own : Forall2 crel (l_own h1) (l_own h2);
  lr_changes : Forall2 (fun x y => fst x = fst y /\ crel (snd x) (snd y)) (l_changes h1) (l_changes h2) }.
Lemma lrel_size h1 h2 : lrel h1 h2 -> l_size h1 = l_size h2.
Proof. intros [A B C]. unfold l_size. now rewrite A, (Forall2_len _ _ _ B). Qed.
Lemma find_sim l1 l2 i : Forall2 (fun x y => fst x = fst y /\ crel (snd x) (snd y)) l1 l2 -> optrel crel (find_change i l1) (find_change i l2).
Proof. induction 1 as [|[a c] [b d] l1 l2 [E Q] _ IH]; cbn; [constructor|]. cbn in E, Q. subst b. destruct (Nat.eqb i a); [now constructor|assumption]. Qed.
Section Par.
Variable par1 par2 : nat -> option cell.
Hypothesis P : forall i, optrel crel (par1 i) (par2 i).
Lemma l_at_sim h1 h2 i : lrel h1 h2 -> optrel crel (l_at par1 h1 i) (l_at par2 h2 i).
Proof.
  intros L. pose proof (lrel_size _ _ L) as S. destruct L as [A B C]. unfold l_at. rewrite S, A. destruct (Nat.ltb i (l_size h2)); [|constructor].
  destruct (Nat.leb (l_start h2) i); [now apply Forall2_nth|]. destruct (find_sim _ _ i C); [now constructor|apply P].
Qed.
Lemma lops_sim : heaps_ok K (lops par1) (lops par2) lrel.
Proof.
  constructor; cbn.
  - apply lrel_size.
  - intros h1 h2 L i. now apply l_at_sim.
  - intros h1 h2 c d [A B C] Q. constructor; cbn; auto. apply Forall2_app; auto.
  - intros h1 h2 c d L Q i. unfold l_set. destruct (l_at_sim h1 h2 i L); [|constructor]. destruct L as [A B C]. rewrite A. destruct (Nat.leb (l_start h2) i).
    + destruct (Forall2_upd _ _ _ c d B Q (i - l_start h2)); cbn; constructor. constructor; auto.
    + constructor. constructor; cbn; auto.
Qed.
End Par.

(** --- executors --- *)
Definition ptr_same (p1 p2 : cptr) : Prop := cp_src p1 = cp_src p2 /\ Z.of_nat (cp_gen p2) = (Z.of_nat (cp_gen p1) + pr_sh K (cp_src p1))%Z.
Definition srel (s1 s2 : xstate) : Prop := match s1, s2 with SError e, SError f => errel lax e f | _, _ => s1 = s2 end.
Definition running (e : exec) : bool := match x_state e with SRunning => true | _ => false end.
Record xm (rs : list yrel) (e1 e2 : exec) : Prop := {
  xm_parent : x_parent e1 = x_parent e2;
  xm_kids : x_kids e1 = x_kids e2;
  xm_state : srel (x_state e1) (x_state e2);
  xm_m : mrel K lrel rs (x_m e1) (x_m e2) }.
Notation codes_of := (codes_rel K ptr_same cp_atom).
Definition kept_ptr (rs : list yrel) (p1 p2 : cptr) : Prop := ptr_same p1 p2 /\ kept_rel (top rs) (cp_atom p1) (cp_atom p2).
Definition xrel (e1 e2 : exec) : Prop := exists rs, xm rs e1 e2 /\
  if running e1 then exists rs', codes_of rs (x_codes e1) (x_codes e2) rs' else Forall2 (kept_ptr rs) (x_codes e1) (x_codes e2).
Lemma srel_running s1 s2 : srel s1 s2 -> s1 = SRunning <-> s2 = SRunning.
Proof. destruct s1, s2; cbn; intros E; split; intros H; try discriminate; auto. Qed.
(** the part of an executor that heap accesses of others go through *)
Definition xbase (e1 e2 : exec) : Prop := x_parent e1 = x_parent e2 /\ lrel (m_heap (x_m e1)) (m_heap (x_m e2)).
Lemma xm_base rs e1 e2 : xm rs e1 e2 -> xbase e1 e2.
Proof. intros [A B C D]. split; auto. apply D. Qed.
Definition bases (ar1 ar2 : list exec) : Prop := List.length ar1 = List.length ar2 /\ forall j, optrel xbase (nth_error ar1 j) (nth_error ar2 j).
Lemma heap_at_sim ar1 ar2 : bases ar1 ar2 -> forall p a, optrel crel (heap_at ar1 p a) (heap_at ar2 p a).
Proof.
  intros [L B]. unfold heap_at. rewrite L. generalize (S (List.length ar2)). induction n as [|n IH]; intros p a; cbn; [constructor|].
  destruct p as [id|]; [|constructor]. destruct (B id) as [e1 e2 [Pe He]|]; [|constructor]. rewrite Pe. apply l_at_sim; auto.
Qed.

(** --- organizers --- *)
Record common (o1 o2 : org) : Prop := {
  cm_queue : o_queue o1 = o_queue o2;
  cm_stats : o_stats o1 = o_stats o2;
  cm_limit : o_limit o1 = o_limit o2;
  cm_pgen : Z.of_nat (o_pgen o2) = (Z.of_nat (o_pgen o1) + pr_sh K SrcProg)%Z;
  cm_qgen : Z.of_nat (o_qgen o2) = (Z.of_nat (o_qgen o1) + pr_sh K SrcQuery)%Z;
  cm_prog : prog_rel K (o_prog o1) (o_prog o2);
  cm_tables : tables_ok K (o_sto o1) (o_sto o2) }.
Definition queued (o : org) : Prop :=
  NoDup (o_queue o) /\ forall id, In id (o_queue o) -> exists e, nth_error (o_arena o) id = Some e /\ x_state e = SRunning.
(** parents do not run any more; [cur]: the executor whose turn it is *)
Definition parents (cur : option nat) (o : org) : Prop :=
  forall j e p, nth_error (o_arena o) j = Some e -> x_parent e = Some p ->
    Some p = cur \/ exists pe, nth_error (o_arena o) p = Some pe /\ x_state pe <> SRunning.
Definition full (o1 o2 : org) : Prop :=
  common o1 o2 /\ queued o1 /\ parents None o1 /\ Forall2 xrel (o_arena o1) (o_arena o2).
(** during the turn of [id] *)
Definition mid (id : nat) (o1 o2 : org) : Prop :=
  common o1 o2 /\ queued o1 /\ ~ In id (o_queue o1) /\ parents (Some id) o1 /\ List.length (o_arena o1) = List.length (o_arena o2) /\
  (forall j, j <> id -> optrel xrel (nth_error (o_arena o1) j) (nth_error (o_arena o2) j)).
Definition cur (rs : list yrel) (e1 e2 : exec) : Prop := xm rs e1 e2 /\ x_state e1 = SRunning /\
  exists p1 p2 l1 l2 rs', x_codes e1 = p1 :: l1 /\ x_codes e2 = p2 :: l2 /\ kept_ptr rs p1 p2 /\ codes_of rs l1 l2 rs'.
Definition at_id (id : nat) (R : exec -> exec -> Prop) (o1 o2 : org) : Prop :=
  exists e1 e2, nth_error (o_arena o1) id = Some e1 /\ nth_error (o_arena o2) id = Some e2 /\ R e1 e2.

Lemma mid_bases id rs o1 o2 : mid id o1 o2 -> at_id id (xm rs) o1 o2 -> bases (o_arena o1) (o_arena o2).
Proof.
  intros (_ & _ & _ & _ & L & A) (e1 & e2 & E1 & E2 & X). split; auto. intros j. destruct (Nat.eq_dec j id) as [->|N].
  - rewrite E1, E2. constructor. eapply xm_base; eauto.
  - destruct (A j N) as [a b (rs0 & Xj & _)|]; constructor. eapply xm_base; eauto.
Qed.
Lemma put_common o1 o2 a1 a2 : common o1 o2 -> common (set_arena o1 a1) (set_arena o2 a2).
Proof. intros []. constructor; auto. Qed.
(** changing only the executor [id] *)
Lemma put_mid id o1 o2 e1 e2 x1 x2 : mid id o1 o2 -> nth_error (o_arena o1) id = Some x1 -> nth_error (o_arena o2) id = Some x2 ->
  x_parent e1 = x_parent x1 ->
  exists a1 a2, put_exec o1 id e1 = Val (set_arena o1 a1) /\ put_exec o2 id e2 = Val (set_arena o2 a2) /\
    upd (o_arena o1) id e1 = Some a1 /\ upd (o_arena o2) id e2 = Some a2 /\
    mid id (set_arena o1 a1) (set_arena o2 a2) /\ nth_error a1 id = Some e1 /\ nth_error a2 id = Some e2.
Proof.
  intros (C & [Nq Q] & Ni & Pa & L & A) E1 E2 Ep. unfold put_exec.
  assert (L1 : id < List.length (o_arena o1)) by (apply nth_error_Some; congruence).
  destruct (upd (o_arena o1) id e1) as [a1|] eqn:U1; [|apply upd_none in U1; lia]. destruct (upd (o_arena o2) id e2) as [a2|] eqn:U2; [|apply upd_none in U2; lia].
  exists a1, a2. cbn. split; [reflexivity|]. split; [reflexivity|]. split; [reflexivity|]. split; [reflexivity|].
  assert (N1 : forall j, nth_error a1 j = if Nat.eqb id j then Some e1 else nth_error (o_arena o1) j) by (intros; now apply nth_upd).
  assert (N2 : forall j, nth_error a2 j = if Nat.eqb id j then Some e2 else nth_error (o_arena o2) j) by (intros; now apply nth_upd).
  split; [|now rewrite N1, N2, Nat.eqb_refl].
  split; [now apply put_common|]. split; [split; auto|].
  { cbn. intros k Hk. destruct (Q k Hk) as (e & Ek & Sk). exists e. rewrite N1. destruct (Nat.eqb_spec id k) as [->|]; [contradiction|auto]. }
  split; [exact Ni|]. split; [|split].
  - intros j e p. cbn. rewrite N1. destruct (Nat.eqb_spec id j) as [<-|Nj].
    + intros E. injection E as <-. rewrite Ep. intros Hp. destruct (Pa _ _ _ E1 Hp) as [|(pe & Epe & Sp)]; auto.
      destruct (Nat.eq_dec p id) as [->|Np]; auto. right. exists pe. rewrite N1. destruct (Nat.eqb_spec id p); [congruence|auto].
    + intros E Hp. destruct (Pa _ _ _ E Hp) as [|(pe & Epe & Sp)]; auto.
      destruct (Nat.eq_dec p id) as [->|Np]; auto. right. exists pe. rewrite N1. destruct (Nat.eqb_spec id p); [congruence|auto].
  - cbn. rewrite (upd_length _ _ _ _ U1), (upd_length _ _ _ _ U2). exact L.
  - cbn. intros j Nj. rewrite N1, N2. destruct (Nat.eqb_spec id j); [congruence|auto].
Qed.
(** ending the turn of [id]: it is not running any more, or goes to the end of the queue *)
Lemma mid_full id o1 o2 e1 e2 : mid id o1 o2 -> nth_error (o_arena o1) id = Some e1 -> nth_error (o_arena o2) id = Some e2 -> xrel e1 e2 ->
  x_state e1 <> SRunning -> full o1 o2.
Proof.
  intros (C & Q & Ni & Pa & L & A) E1 E2 X S. split; [exact C|]. split; [exact Q|]. split.
  - intros j e p Ej Hp. destruct (Pa _ _ _ Ej Hp) as [E|K0]; auto. injection E as ->. right. eauto.
  - assert (B : forall j, optrel xrel (nth_error (o_arena o1) j) (nth_error (o_arena o2) j)).
    { intros j. destruct (Nat.eq_dec j id) as [->|N]; auto. rewrite E1, E2. now constructor. }
    clear -L B. revert L B. generalize (o_arena o1), (o_arena o2). intros l1. induction l1 as [|x l1 IH]; intros [|y l2] L B; try discriminate L; auto.
    constructor; [pose proof (B 0) as B0; inversion B0; auto|]. apply IH; [now injection L|]. intros j. exact (B (S j)).
Qed.

(** --- local instructions --- *)
Variable cf1 cf2 : cfg.
Hypothesis POW : forall a b, c_powf cf1 a b = c_powf cf2 a b.
Variable fuel : nat.

Definition rsrel (s1 s2 : rstat) : Prop :=
  match s1, s2 with RCont, RCont => True | RFailing, RFailing => True | RRaise e1, RRaise e2 => errel lax e1 e2 | _, _ => False end.
Definition run_rel (x y : rstat * org) : Prop := rsrel (fst x) (fst y) /\ full (snd x) (snd y).

Lemma xm_with_m rs rs' e1 e2 m1 m2 : xm rs e1 e2 -> mrel K lrel rs' m1 m2 -> xm rs' (with_m e1 m1) (with_m e2 m2).
Proof. intros [A B C D] M. constructor; auto. Qed.
Lemma envs_first rs l1 l2 n : envs_rel K rs l1 l2 -> envs_rel K (firstn n rs) (firstn n l1) (firstn n l2).
Proof. intros H. revert n. induction H; intros [|n]; cbn; constructor; auto. Qed.
Lemma kept_top rs p1 p2 : kept_ptr rs p1 p2 -> kept_ptr (firstn 1 rs) p1 p2.
Proof. destruct rs; auto. Qed.
(** clear() leaves an executor that is not used any more but for the addresses of the query variables *)
Lemma clear_sim rs e1 e2 p1 p2 l1 l2 : xm rs e1 e2 -> x_state e1 <> SRunning -> x_codes e1 = p1 :: l1 -> x_codes e2 = p2 :: l2 -> kept_ptr rs p1 p2 ->
  exists c1 c2, clear_exec e1 = Val c1 /\ clear_exec e2 = Val c2 /\ xrel c1 c2 /\ x_state c1 = x_state e1 /\ x_parent c1 = x_parent e1 /\ x_state c2 = x_state e2.
Proof.
  intros X S C1 C2 Kp. unfold clear_exec. rewrite C1, C2. do 2 eexists. split; [reflexivity|]. split; [reflexivity|]. split; [|auto].
  exists (firstn 1 rs). split.
  - destruct X as [A B C D]. constructor; auto. cbn. destruct D. constructor; auto. cbn. now apply (envs_first _ _ _ 1).
  - unfold running. cbn. destruct (x_state e1); try contradiction; (constructor; [exact (kept_top rs _ _ Kp)|constructor]).
Qed.
(** leaving the turn after a failure or an error *)
Lemma leave_sim id o1 o2 rs e1 e2 st1 st2 : mid id o1 o2 -> nth_error (o_arena o1) id = Some e1 -> nth_error (o_arena o2) id = Some e2 -> xm rs e1 e2 ->
  x_state e1 <> SRunning -> (exists p1 p2 l1 l2, x_codes e1 = p1 :: l1 /\ x_codes e2 = p2 :: l2 /\ kept_ptr rs p1 p2) -> rsrel st1 st2 ->
  orel run_rel (e <- get_exec o1 id ;; e1 <- clear_exec e ;; o2 <- put_exec o1 id e1 ;; Val (st1, o2))
               (e <- get_exec o2 id ;; e1 <- clear_exec e ;; o2 <- put_exec o2 id e1 ;; Val (st2, o2)).
Proof.
  intros M E1 E2 X S (p1 & p2 & l1 & l2 & C1 & C2 & Kp) R. unfold get_exec. rewrite E1, E2. cbn.
  destruct (clear_sim rs e1 e2 p1 p2 l1 l2 X S C1 C2 Kp) as (c1 & c2 & -> & -> & Xc & Sc & Pc & _). cbn.
  destruct (put_mid id o1 o2 c1 c2 e1 e2 M E1 E2 Pc) as (a1 & a2 & -> & -> & _ & _ & M' & N1 & N2). cbn. constructor. split; [exact R|]. cbn.
  eapply (mid_full id); eauto. congruence.
Qed.

Lemma xm_state' rs e1 e2 s1 s2 : xm rs e1 e2 -> srel s1 s2 -> xm rs (with_state e1 s1) (with_state e2 s2).
Proof. intros [A B C D] S. constructor; auto. Qed.
Lemma local_run id rs d1 d2 k1 k2 : Forall2 (irel K (top rs)) d1 d2 ->
  (forall o1 o2, mid id o1 o2 -> at_id id (cur rs) o1 o2 -> orel run_rel (run_instrs cf1 fuel o1 id k1) (run_instrs cf2 fuel o2 id k2)) ->
  forall o1 o2, mid id o1 o2 -> at_id id (cur rs) o1 o2 -> orel run_rel (run_instrs cf1 fuel o1 id (d1 ++ k1)) (run_instrs cf2 fuel o2 id (d2 ++ k2)).
Proof.
  intros HF Hk. induction HF as [|i1 i2 d1 d2 I _ IH]; intros o1 o2 M A; [now apply Hk|].
  destruct A as (e1 & e2 & E1 & E2 & X & S & p1 & p2 & l1 & l2 & rs' & C1 & C2 & Kp & Co). cbn [app run_instrs].
  assert (Lo : forall o, instr_step cf1 fuel o id i1 = (e <- get_exec o id ;;
      '(st, m) <- local_step lheap (lops (heap_at (o_arena o) (x_parent e))) cf1 (o_sto o) fuel i1 (x_m e) ;;
      match st with
      | Cont => o1 <- put_exec o id (with_m e m) ;; Val (RCont, o1)
      | Failing => o1 <- put_exec o id (with_state (with_m e m) SFail) ;; Val (RFailing, o1)
      | Raise er => o1 <- put_exec o id (with_state (with_m e m) (SError er)) ;; Val (RRaise er, o1)
      end)) by (intros o; destruct I; reflexivity).
  assert (Ro : forall o, instr_step cf2 fuel o id i2 = (e <- get_exec o id ;;
      '(st, m) <- local_step lheap (lops (heap_at (o_arena o) (x_parent e))) cf2 (o_sto o) fuel i2 (x_m e) ;;
      match st with
      | Cont => o1 <- put_exec o id (with_m e m) ;; Val (RCont, o1)
      | Failing => o1 <- put_exec o id (with_state (with_m e m) SFail) ;; Val (RFailing, o1)
      | Raise er => o1 <- put_exec o id (with_state (with_m e m) (SError er)) ;; Val (RRaise er, o1)
      end)) by (intros o; destruct I; reflexivity).
  rewrite Lo, Ro. clear Lo Ro. assert (G1 : get_exec o1 id = Val e1) by (unfold get_exec; now rewrite E1).
  assert (G2 : get_exec o2 id = Val e2) by (unfold get_exec; now rewrite E2). rewrite G1, G2. cbn [bind].
  rewrite (xm_parent _ _ _ X).
  assert (B : bases (o_arena o1) (o_arena o2)) by (eapply mid_bases; eauto; exists e1, e2; eauto).
  pose proof (lops_sim _ _ (heap_at_sim _ _ B (x_parent e2))) as HO.
  pose proof (local_sim K _ _ _ HO cf1 cf2 POW (o_sto o1) (o_sto o2) (cm_tables _ _ (proj1 M)) fuel rs i1 i2 _ _ I (xm_m _ _ _ X)) as L.
  destruct L as [[s1 m1] [s2 m2] [Ss Mm]|u| |u x l|u x l]; cbn [bind]; try (now constructor). cbn [fst snd] in Ss, Mm.
  pose proof (xm_with_m _ _ _ _ _ _ X Mm) as X'.
  destruct s1, s2; cbn in Ss; try contradiction.
  - destruct (put_mid id o1 o2 (with_m e1 m1) (with_m e2 m2) e1 e2 M E1 E2 eq_refl) as (a1 & a2 & -> & -> & _ & _ & M' & N1 & N2). cbn [bind].
    apply IH; auto. exists (with_m e1 m1), (with_m e2 m2). cbn. split; [auto|]. split; [auto|]. split; [exact X'|]. split; [exact S|]. exists p1, p2, l1, l2, rs'. auto.
  - destruct (put_mid id o1 o2 (with_state (with_m e1 m1) SFail) (with_state (with_m e2 m2) SFail) e1 e2 M E1 E2 eq_refl) as (a1 & a2 & -> & -> & _ & _ & M' & N1 & N2).
    cbn [bind]. eapply (leave_sim id _ _ rs); [exact M'|exact N1|exact N2|apply xm_state'; [exact X'|reflexivity]|discriminate|exists p1, p2, l1, l2; auto|constructor].
  - destruct (put_mid id o1 o2 (with_state (with_m e1 m1) (SError e)) (with_state (with_m e2 m2) (SError e0)) e1 e2 M E1 E2 eq_refl) as (a1 & a2 & -> & -> & _ & _ & M' & N1 & N2).
    cbn [bind]. eapply (leave_sim id _ _ rs); [exact M'|exact N1|exact N2|apply xm_state'; [exact X'|exact Ss]|discriminate|exists p1, p2, l1, l2; auto|exact Ss].
Qed.

(** --- call --- *)
Lemma codes_ptrs g g2 rs r1 r2 rs' : codes_rel K (fun _ _ => True) (fun a => a) rs r1 r2 rs' -> Z.of_nat g2 = (Z.of_nat g + pr_sh K SrcProg)%Z -> codes_of rs (rule_ptrs g r1) (rule_ptrs g2 r2) rs'.
Proof.
  intros H G. induction H; cbn; [constructor|eapply co_plain|eapply co_alloc|eapply co_end]; eauto; split; auto.
Qed.
Lemma get_val o id e : nth_error (o_arena o) id = Some e -> get_exec o id = Val e.
Proof. intros E. unfold get_exec. now rewrite E. Qed.
Lemma common_queue o1 o2 a1 a2 q : common o1 o2 -> common (set_queue (set_arena o1 a1) q) (set_queue (set_arena o2 a2) q).
Proof. intros []. constructor; auto. Qed.
Lemma mid_kids id rs o1 o2 e1 e2 c1 c2 : mid id o1 o2 -> nth_error (o_arena o1) id = Some e1 -> nth_error (o_arena o2) id = Some e2 -> xm rs e1 e2 ->
  xrel c1 c2 -> x_parent c1 = Some id -> x_state c1 = SRunning ->
  exists o1' o2' f1 f2, add_child o1 id c1 = Val o1' /\ add_child o2 id c2 = Val o2' /\ mid id o1' o2' /\
    nth_error (o_arena o1') id = Some f1 /\ nth_error (o_arena o2') id = Some f2 /\ xm rs f1 f2 /\
    f1 = with_kids e1 (x_kids e1 ++ [List.length (o_arena o1)]) /\ f2 = with_kids e2 (x_kids e2 ++ [List.length (o_arena o2)]) /\
    o_pgen o1' = o_pgen o1 /\ o_pgen o2' = o_pgen o2.
Proof.
  intros M E1 E2 X Xc Pc Sc. unfold add_child. rewrite (get_val _ _ _ E1), (get_val _ _ _ E2). cbn [bind].
  set (f1 := with_kids e1 _). set (f2 := with_kids e2 _).
  destruct (put_mid id o1 o2 f1 f2 e1 e2 M E1 E2 eq_refl) as (a1 & a2 & -> & -> & U1 & U2 & M' & N1 & N2). cbn [bind].
  assert (LL : List.length (o_arena o1) = List.length (o_arena o2)) by apply M.
  assert (L1 : List.length a1 = List.length (o_arena o1)) by (eapply upd_length; eauto). assert (L2 : List.length a2 = List.length (o_arena o2)) by (eapply upd_length; eauto).
  do 4 eexists. split; [reflexivity|]. split; [reflexivity|]. cbn.
  assert (Ex1 : forall j e, nth_error a1 j = Some e -> nth_error (a1 ++ [c1]) j = Some e)
    by (intros j e Ej; rewrite nth_error_app1; auto; apply nth_error_Some; congruence).
  assert (Ex2 : forall j e, nth_error a2 j = Some e -> nth_error (a2 ++ [c2]) j = Some e)
    by (intros j e Ej; rewrite nth_error_app1; auto; apply nth_error_Some; congruence).
  split; [|split; [apply Ex1, N1|split; [apply Ex2, N2|split; [|split; [reflexivity|split; [reflexivity|split; reflexivity]]]]]].
  - destruct M' as (C & [Nq Q] & Ni & Pa & L & A). cbn in *.
    assert (Nx : forall k, In k (o_queue o1) -> k < List.length a1) by (intros k Hk; destruct (Q k Hk) as (e & Ek & _); apply nth_error_Some; congruence).
    assert (Lid : id < List.length a1) by (apply nth_error_Some; congruence).
    split.
    { rewrite <- LL. destruct C; constructor; cbn in *; auto. congruence. }
    split; [split|].
    + cbn. clear -Nq Nx L1. rewrite <- L1.
      assert (~ In (List.length a1) (o_queue o1)) by (intros K0; specialize (Nx _ K0); lia).
      revert Nq H. generalize (o_queue o1). induction l as [|x l IH]; cbn; intros N H; [repeat constructor; auto|]. inversion N; subst.
      constructor; [|apply IH; auto]. rewrite in_app_iff. cbn. intros [K0|[K0|[]]]; [auto|subst; apply H; auto].
    + cbn. intros k Hk. apply in_app_iff in Hk. destruct Hk as [Hk|[<-|[]]].
      * destruct (Q k Hk) as (e & Ek & Sk). exists e. auto.
      * exists c1. rewrite <- L1, nth_error_app2, Nat.sub_diag by lia. auto.
    + split; [|split; [|split]].
      * cbn. rewrite in_app_iff. intros [K0|[K0|[]]]; [auto|lia].
      * intros j e p. cbn. intros Ej Hp. destruct (Nat.lt_ge_cases j (List.length a1)) as [Lt|Ge].
        -- rewrite nth_error_app1 in Ej by lia. destruct (Pa j e p Ej Hp) as [|(pe & Epe & Sp)]; auto. right. exists pe. auto.
        -- rewrite nth_error_app2 in Ej by lia. destruct (j - List.length a1) as [|z]; cbn in Ej; [|destruct z; discriminate Ej]. injection Ej as <-. left. congruence.
      * cbn. rewrite !app_length. cbn. lia.
      * cbn. intros j Nj. destruct (Nat.lt_ge_cases j (List.length a1)) as [Lt|Ge].
        -- rewrite !nth_error_app1 by lia. auto.
        -- rewrite !nth_error_app2 by lia. replace (List.length a2) with (List.length a1) by lia.
           destruct (j - List.length a1) as [|z]; cbn; [constructor; exact Xc|]. destruct z; constructor.
  - destruct X as [A B C D]. constructor; auto. cbn. now rewrite B, LL.
Qed.
Lemma new_m_sim rs m1 m2 : mrel K lrel rs m1 m2 ->
  mrel K lrel rs (new_m (l_size (m_heap m1)) (m_regs m1) (m_envs m1)) (new_m (l_size (m_heap m2)) (m_regs m2) (m_envs m2)).
Proof. intros [A B C D E]. constructor; cbn; auto. constructor; cbn; auto. now apply lrel_size. Qed.

Lemma spawn_sim id rs rs1 rs2 : rules_rel K rs1 rs2 -> forall o1 o2, mid id o1 o2 -> at_id id (cur rs) o1 o2 ->
  exists o1' o2', spawn o1 id rs1 = Val o1' /\ spawn o2 id rs2 = Val o2' /\ mid id o1' o2' /\ at_id id (cur rs) o1' o2'.
Proof.
  induction 1 as [|r1 r2 rs1 rs2 R _ IH]; intros o1 o2 M A; cbn [spawn]; [eauto 6|].
  destruct A as (e1 & e2 & E1 & E2 & X & S & p1 & p2 & l1 & l2 & rs' & C1 & C2 & Kp & Co).
  rewrite (get_val _ _ _ E1), (get_val _ _ _ E2). cbn [bind]. rewrite C1, C2.
  pose proof (cm_pgen _ _ (proj1 M)) as G.
  match goal with |- context [add_child o1 id ?c1] => match goal with |- context [add_child o2 id ?c2] =>
    destruct (mid_kids id rs o1 o2 e1 e2 c1 c2 M E1 E2 X) as (o1' & o2' & f1 & f2 & -> & -> & M' & N1 & N2 & X' & -> & -> & _) end end; auto.
  { exists rs. split.
    - constructor; cbn; auto. apply new_m_sim, X.
    - cbn. exists rs'. eapply codes_app; [apply codes_ptrs; [apply R|exact G]|exact Co]. }
  cbn [bind]. apply IH; auto. do 2 eexists. split; [exact N1|]. split; [exact N2|]. split; [exact X'|]. split; [exact S|]. exists p1, p2, l1, l2, rs'. auto.
Qed.
Lemma call_sim id rs f o1 o2 : isok \/ f <> FV "is" 2 -> mid id o1 o2 -> at_id id (cur rs) o1 o2 ->
  orel run_rel (run_instrs cf1 fuel o1 id [ICall f]) (run_instrs cf2 fuel o2 id [ICall f]).
Proof.
  intros Hf M A. cbn [run_instrs instr_step]. unfold do_call.
  assert (St : ((o_stats o1 + 1) mod 4294967296 = (o_stats o2 + 1) mod 4294967296)%Z) by (f_equal; f_equal; apply M). rewrite St.
  set (n := ((o_stats o2 + 1) mod 4294967296)%Z).
  assert (M0 : mid id (set_stats o1 n) (set_stats o2 n)).
  { destruct M as (C & R). split; [|exact R]. destruct C; constructor; auto. }
  change (at_id id (cur rs) (set_stats o1 n) (set_stats o2 n)) in A. revert M0 A. clear M. generalize (set_stats o1 n), (set_stats o2 n). clear -Hf. intros o1 o2 M A.
  assert (Hp := cm_prog _ _ (proj1 M) f Hf). destruct Hp as [rs1 rs2 R|].
  - destruct (spawn_sim id rs rs1 rs2 R o1 o2 M A) as (o1' & o2' & -> & -> & M' & e1 & e2 & E1 & E2 & X & S & p1 & p2 & l1 & l2 & rs' & C1 & C2 & Kp & Co). cbn [bind].
    rewrite (get_val _ _ _ E1), (get_val _ _ _ E2). cbn [bind]. unfold clear_exec. rewrite C1, C2. cbn [bind].
    match goal with |- context [put_exec o1' id ?c1] => match goal with |- context [put_exec o2' id ?c2] =>
      destruct (put_mid id o1' o2' c1 c2 e1 e2 M' E1 E2 eq_refl) as (a1 & a2 & -> & -> & _ & _ & M2 & N1 & N2) end end. cbn [bind run_instrs].
    constructor. split; [exact I|]. cbn. eapply (mid_full id); eauto; [|discriminate].
    exists (firstn 1 rs). split.
    + destruct X as [A1 B1 C3 D1]. constructor; auto; [reflexivity|]. cbn. destruct D1. constructor; auto. cbn. now apply (envs_first _ _ _ 1).
    + cbn. constructor; [exact (kept_top rs _ _ Kp)|constructor].
  - destruct A as (e1 & e2 & E1 & E2 & X & S & p1 & p2 & l1 & l2 & rs' & C1 & C2 & Kp & Co). rewrite (get_val _ _ _ E1), (get_val _ _ _ E2). cbn [bind].
    destruct (put_mid id o1 o2 (with_state e1 SFail) (with_state e2 SFail) e1 e2 M E1 E2 eq_refl) as (a1 & a2 & -> & -> & _ & _ & M2 & N1 & N2). cbn [bind].
    eapply (leave_sim id _ _ rs); [exact M2|exact N1|exact N2|apply xm_state'; [exact X|reflexivity]|discriminate|exists p1, p2, l1, l2; auto|constructor].
Qed.

(** --- proceed and deallocate --- *)
Lemma follow_sim o1 o2 p1 p2 : common o1 o2 -> ptr_same p1 p2 ->
  (follow o1 p1 = Val (cp_atom p1) /\ follow o2 p2 = Val (cp_atom p2)) \/ (follow o1 p1 = Ub UDangling /\ follow o2 p2 = Ub UDangling).
Proof.
  intros C [A B]. unfold follow. rewrite <- A. pose proof (cm_pgen _ _ C). pose proof (cm_qgen _ _ C).
  destruct (cp_src p1); match goal with |- context [Nat.eqb (cp_gen p1) ?x] => match goal with |- context [Nat.eqb (cp_gen p2) ?y] =>
    destruct (Nat.eqb_spec (cp_gen p1) x), (Nat.eqb_spec (cp_gen p2) y); auto; exfalso; lia end end.
Qed.
Lemma dealloc_sim o1 o2 rs l1 l2 rs' : common o1 o2 -> codes_of rs l1 l2 rs' -> orel eq (all_dealloc o1 l1) (all_dealloc o2 l2).
Proof.
  intros C. assert (Q : forall p1 p2 l1 l2, ptr_same p1 p2 -> List.length (ca_code (cp_atom p1)) = List.length (ca_code (cp_atom p2)) ->
    orel eq (all_dealloc o1 l1) (all_dealloc o2 l2) -> orel eq (all_dealloc o1 (p1 :: l1)) (all_dealloc o2 (p2 :: l2))).
  { intros p1 p2 k1 k2 S L IH. cbn. destruct (follow_sim o1 o2 p1 p2 C S) as [[-> ->]|[-> ->]]; cbn; [|constructor].
    unfold is_dealloc. rewrite L. destruct (Nat.eqb _ 1); [exact IH|constructor; auto]. }
  induction 1 as [|rs p1 p2 l1 l2 rs' S [(_ & _ & L & _) _] _ IH|rs R p1 p2 l1 l2 rs' S [(_ & _ & L & _) _] _ IH|rs p1 p2 l1 l2 rs' S [Kk _] _ IH].
  - constructor; auto.
  - apply Q; auto.
  - apply Q; auto.
  - apply Q; auto. apply (Kk (fun _ _ => True)).
Qed.
Lemma proceed_sim id rs o1 o2 : mid id o1 o2 -> at_id id (cur rs) o1 o2 ->
  orel run_rel (run_instrs cf1 fuel o1 id [IProceed]) (run_instrs cf2 fuel o2 id [IProceed]).
Proof.
  intros M (e1 & e2 & E1 & E2 & X & S & p1 & p2 & l1 & l2 & rs' & C1 & C2 & Kp & Co). cbn [run_instrs instr_step]. unfold do_proceed.
  rewrite (get_val _ _ _ E1), (get_val _ _ _ E2). cbn [bind]. rewrite C1, C2.
  pose proof (dealloc_sim o1 o2 rs l1 l2 rs' (proj1 M) Co) as D. destruct D as [d d' <-|u| |u x l|u x l]; cbn [bind]; try (now constructor). destruct d.
  - unfold clear_exec. cbn [x_codes with_state]. rewrite C1, C2. cbn [bind].
    match goal with |- context [put_exec o1 id ?c1] => match goal with |- context [put_exec o2 id ?c2] =>
      destruct (put_mid id o1 o2 c1 c2 e1 e2 M E1 E2 eq_refl) as (a1 & a2 & -> & -> & _ & _ & M2 & N1 & N2) end end. cbn [bind run_instrs].
    constructor. split; [exact I|]. cbn. eapply (mid_full id); eauto; [|discriminate].
    exists (firstn 1 rs). split.
    + destruct X as [A1 B1 C3 D1]. constructor; auto; [reflexivity|]. cbn. destruct D1. constructor; auto. cbn. now apply (envs_first _ _ _ 1).
    + cbn. constructor; [exact (kept_top rs _ _ Kp)|constructor].
  - match goal with |- context [put_exec o1 id ?c1] => match goal with |- context [put_exec o2 id ?c2] =>
      destruct (put_mid id o1 o2 c1 c2 e1 e2 M E1 E2 eq_refl) as (a1 & a2 & -> & -> & _ & _ & M2 & N1 & N2); set (x1 := c1) in *; set (x2 := c2) in * end end. cbn [bind].
    assert (X2 : xm (firstn 1 rs) x1 x2).
    { destruct X as [A1 B1 C3 D1]. constructor; auto; [reflexivity|]. cbn. destruct D1. constructor; auto. cbn. now apply (envs_first _ _ _ 1). }
    match goal with |- context [add_child (set_arena o1 a1) id ?c1] => match goal with |- context [add_child (set_arena o2 a2) id ?c2] =>
      destruct (mid_kids id (firstn 1 rs) (set_arena o1 a1) (set_arena o2 a2) x1 x2 c1 c2 M2 N1 N2 X2) as (o1' & o2' & f1 & f2 & -> & -> & M' & N1' & N2' & X' & -> & -> & _) end end; auto.
    { exists rs. split.
      - constructor; cbn; auto. apply new_m_sim, X.
      - cbn. exists rs'. exact Co. }
    cbn [bind run_instrs]. constructor. split; [exact I|]. cbn. eapply (mid_full id); eauto; [|discriminate].
    exists (firstn 1 rs). split; [exact X'|]. cbn. constructor; [exact (kept_top rs _ _ Kp)|constructor].
Qed.
Lemma end_sim id rs o1 o2 e1 e2 p1 p2 l1 l2 rs' : mid id o1 o2 -> parents None o1 -> nth_error (o_arena o1) id = Some e1 -> nth_error (o_arena o2) id = Some e2 -> xm rs e1 e2 ->
  x_state e1 = SRunning -> x_codes e1 = p1 :: l1 -> x_codes e2 = p2 :: l2 -> codes_of (tl rs) l1 l2 rs' ->
  orel run_rel (run_instrs cf1 fuel o1 id [IDealloc]) (run_instrs cf2 fuel o2 id [IDealloc]).
Proof.
  intros M Pn E1 E2 X S C1 C2 Co. cbn [run_instrs instr_step]. unfold do_dealloc. rewrite (get_val _ _ _ E1), (get_val _ _ _ E2). cbn [bind].
  pose proof (mr_envs _ _ _ _ _ (xm_m _ _ _ X)) as En. rewrite C1, C2. destruct (m_envs (x_m e1)) as [|v1 vs1] eqn:Q1; destruct (m_envs (x_m e2)) as [|v2 vs2] eqn:Q2; inversion En; subst.
  { constructor. }
  cbn [tl] in Co.
  match goal with |- context [put_exec o1 id ?c1] => match goal with |- context [put_exec o2 id ?c2] =>
      destruct (put_mid id o1 o2 c1 c2 e1 e2 M E1 E2 eq_refl) as (a1 & a2 & -> & -> & U1 & U2 & M2 & N1 & N2); set (x1 := c1) in *; set (x2 := c2) in * end end. cbn [bind run_instrs].
  constructor. split; [exact I|]. cbn [fst snd].
  assert (X2 : xrel x1 x2).
  { exists rs0. split; [|unfold running; cbn; rewrite S; eauto]. destruct X as [A1 B1 C3 D1]. constructor; auto. cbn. destruct D1. constructor; auto. }
  destruct M2 as (C & [Nq Q] & Ni & Pa & L & A). cbn [set_arena o_arena o_queue] in *.
  split; [|split; [split|split]].
  - destruct C. constructor; cbn in *; auto. now rewrite cm_queue0.
  - cbn. clear -Nq Ni. revert Nq Ni. generalize (o_queue o1). induction l as [|x l IH]; cbn; intros N H; [repeat constructor; auto|]. inversion N; subst.
    constructor; [|apply IH; auto]. rewrite in_app_iff. cbn. intros [K0|[K0|[]]]; [auto|subst; apply H; auto].
  - cbn. intros k Hk. apply in_app_iff in Hk. destruct Hk as [Hk|[<-|[]]]; auto. exists x1. split; auto.
  - intros j e p Ej Hp. cbn in Ej. right.
    assert (exists e0, nth_error (o_arena o1) j = Some e0 /\ x_parent e0 = Some p) as (e0 & Ej0 & Hp0).
    { rewrite (nth_upd _ _ _ _ j U1) in Ej. destruct (Nat.eqb_spec id j) as [<-|]; [|eauto]. injection Ej as <-. eauto. }
    destruct (Pn _ _ _ Ej0 Hp0) as [K0|(pe & Epe & Sp)]; [discriminate K0|]. exists pe. cbn. rewrite (nth_upd _ _ _ _ p U1).
    destruct (Nat.eqb_spec id p) as [<-|]; [congruence|auto].
  - cbn. assert (B : forall j, optrel xrel (nth_error a1 j) (nth_error a2 j)).
    { intros j. destruct (Nat.eq_dec j id) as [->|N]; auto. rewrite N1, N2. now constructor. }
    clear -L B. revert L B. generalize a1, a2. intros l1. induction l1 as [|x l1 IH]; intros [|y l2] L B; try discriminate L; auto.
    constructor; [pose proof (B 0) as B0; inversion B0; auto|]. apply IH; [now injection L|]. intros j. exact (B (S j)).
Qed.

(** --- the answer --- *)
Lemma sub_addr_sim rs m1 m2 s1 s2 : mrel K lrel rs m1 m2 -> sub_rel (top rs) s1 s2 -> orel eq (sub_addr m1 s1) (sub_addr m2 s2).
Proof.
  destruct s1 as [[n1 r1] b1], s2 as [[n2 r2] b2]. intros M (A & B & C). cbn in A, B, C. subst n2 b2. cbn.
  obind (Sim.crel K).
  - destruct b1; [eapply rperm_sim; eauto|]. subst r2. eapply rreg_sim; eauto.
  - intros c d Q. obind (@eq nat); [now apply crel_idx|]. intros a a' <-. constructor; auto.
Qed.
Lemma sub_addrs_sim rs m1 m2 ss1 ss2 : mrel K lrel rs m1 m2 -> Forall2 (sub_rel (top rs)) ss1 ss2 -> orel eq (sub_addrs m1 ss1) (sub_addrs m2 ss2).
Proof.
  intros M. induction 1 as [|s1 s2 ss1 ss2 S _ IH]; cbn; [constructor; auto|]. obind (@eq (string * nat)); [eapply sub_addr_sim; eauto|]. intros a a' <-.
  obind (@eq (list (string * nat))); [exact IH|]. intros r r' <-. constructor; auto.
Qed.
Lemma Forall2_get o1 o2 id : Forall2 xrel (o_arena o1) (o_arena o2) -> orel xrel (get_exec o1 id) (get_exec o2 id).
Proof. intros H. apply orel_opt, Forall2_nth, H. Qed.
Lemma get_full o1 o2 id : full o1 o2 -> orel (fun e1 e2 => xrel e1 e2 /\ nth_error (o_arena o1) id = Some e1) (get_exec o1 id) (get_exec o2 id).
Proof. intros (_ & _ & _ & A). unfold get_exec. destruct (Forall2_nth _ _ _ A id); cbn; constructor; auto. Qed.
Lemma walk_sim o1 o2 : full o1 o2 -> forall n id, (forall e, nth_error (o_arena o1) id = Some e -> x_state e <> SRunning) -> orel eq (walk n o1 id) (walk n o2 id).
Proof.
  intros Fu. induction n as [|n IH]; intros id St; cbn [walk]; [constructor|]. eapply orel_bind; [now apply get_full|]. intros e1 e2 [(rs & X & Co) E1].
  specialize (St _ E1). unfold running in Co. assert (Co' : Forall2 (kept_ptr rs) (x_codes e1) (x_codes e2)) by (destruct (x_state e1); auto; contradiction). clear Co.
  destruct Co' as [|p1 p2 l1 l2 [Sp (U & Su & _)] Co']; [constructor|]. destruct Co' as [|? ? ? ? _ _]; [|constructor].
  destruct (follow_sim o1 o2 p1 p2 (proj1 Fu) Sp) as [[-> ->]|[-> ->]]; cbn [bind]; [|constructor]. rewrite U.
  obind (@eq (list (string * nat))).
  { destruct (ca_user (cp_atom p2)); [eapply sub_addrs_sim; eauto; apply X|constructor; auto]. }
  intros here here' <-. rewrite <- (xm_parent _ _ _ X). destruct (x_parent e1) as [pid|]; [|constructor; auto].
  eapply orel_bind; [now apply get_full|]. intros pe1 pe2 [(rs2 & X2 & _) Ep]. rewrite <- (xm_parent _ _ _ X2). destruct (x_parent pe1) as [gid|] eqn:Eg; [|constructor].
  obind (@eq (list (string * nat))); [|intros r r' <-; constructor; auto]. apply IH. intros ge Ege.
  destruct (proj1 (proj2 (proj2 Fu)) _ _ _ Ep Eg) as [K0|(ge' & Ege' & Sg)]; [discriminate K0|congruence].
Qed.
Lemma full_bases o1 o2 : full o1 o2 -> bases (o_arena o1) (o_arena o2).
Proof.
  intros (_ & _ & _ & A). split; [eapply Forall2_len; eauto|]. intros j. destruct (Forall2_nth _ _ _ A j) as [a b (rs & X & _)|]; constructor. eapply xm_base; eauto.
Qed.
Lemma find_subs_sim o1 o2 id : full o1 o2 -> orel eq (find_subs fuel o1 id) (find_subs fuel o2 id).
Proof.
  intros Fu. unfold find_subs. eapply orel_bind; [now apply get_full|]. intros e1 e2 [(rs & X & _) E1]. rewrite <- (xm_parent _ _ _ X).
  destruct (x_parent e1) as [pid|] eqn:Ep; [|constructor]. rewrite (proj1 (full_bases _ _ Fu)).
  obind (@eq (list (string * nat))).
  - apply walk_sim; auto. intros pe Epe. destruct (proj1 (proj2 (proj2 Fu)) _ _ _ E1 Ep) as [K0|(pe' & Epe' & Sp)]; [discriminate K0|congruence].
  - intros l l' <-. apply bind_names_sim. intros a. eapply str_sim; [exact (lops_sim _ _ (heap_at_sim _ _ (full_bases _ _ Fu) (Some pid)))|apply Fu|apply X].
Qed.

(** --- turns --- *)
Definition res_rel (r1 r2 : res) : Prop := match r1, r2 with RError e, RError f => errel lax e f | _, _ => r1 = r2 end.
Definition turn_rel (x y : option res * org) : Prop := optrel res_rel (fst x) (fst y) /\ full (snd x) (snd y).
Lemma resize_sim l1 l2 n : crel cell0 cell0 -> Forall2 crel l1 l2 -> Forall2 crel (resize l1 n) (resize l2 n).
Proof. intros Z H. unfold resize. rewrite (Forall2_len _ _ _ H). apply Forall2_app; [now apply Forall2_first|now apply Forall2_rep]. Qed.
Lemma code_run id rs c1 c2 o1 o2 : code_rel K (top rs) c1 c2 -> mid id o1 o2 -> at_id id (cur rs) o1 o2 ->
  orel run_rel (run_instrs cf1 fuel o1 id c1) (run_instrs cf2 fuel o2 id c2).
Proof.
  intros (d1 & d2 & i1 & i2 & -> & -> & HF & La) M A. eapply local_run; eauto. clear o1 o2 M A. intros o1 o2 M A.
  destruct La; [eapply call_sim; eauto|eapply proceed_sim; eauto].
Qed.
Lemma start_sim id q o1 o2 e1 e2 rs p1 p2 l1 l2 rs' : full o1 o2 -> o_queue o1 = id :: q -> nth_error (o_arena o1) id = Some e1 -> nth_error (o_arena o2) id = Some e2 ->
  xm rs e1 e2 -> x_state e1 = SRunning -> x_codes e1 = p1 :: l1 -> x_codes e2 = p2 :: l2 -> codes_of rs (p1 :: l1) (p2 :: l2) rs' ->
  ca_regs (cp_atom p1) = ca_regs (cp_atom p2) /\
  orel run_rel
    (o <- put_exec (set_queue o1 q) id (with_m e1 (set_regs (x_m e1) (resize (m_regs (x_m e1)) (ca_regs (cp_atom p2))))) ;; run_instrs cf1 fuel o id (ca_code (cp_atom p1)))
    (o <- put_exec (set_queue o2 q) id (with_m e2 (set_regs (x_m e2) (resize (m_regs (x_m e2)) (ca_regs (cp_atom p2))))) ;; run_instrs cf2 fuel o id (ca_code (cp_atom p2))).
Proof.
  intros (C & [Nq Q] & Pa & A) Eq E1 E2 X S C1 C2 Co. set (n := ca_regs (cp_atom p2)).
  assert (M : mid id (set_queue o1 q) (set_queue o2 q)).
  { rewrite Eq in *. inversion Nq; subst. split; [destruct C; constructor; auto|]. split; [split; cbn; auto|]. { intros k Hk. apply Q. now right. }
    split; [assumption|]. split; [|split; [eapply Forall2_len; eauto|]].
    - intros j e p Ej Hp. destruct (Pa j e p Ej Hp) as [K0|]; [discriminate K0|auto].
    - intros j _. cbn. now apply Forall2_nth. }
  assert (Pn : parents None (set_queue o1 q)) by exact Pa.
  assert (Z : crel cell0 cell0) by (constructor; apply (to_zero _ _ _ (cm_tables _ _ C))).
  set (x1 := with_m e1 _). set (x2 := with_m e2 _).
  assert (X' : xm rs x1 x2).
  { apply (xm_with_m rs rs); auto. destruct X as [A1 B1 D1 M1]. destruct M1. constructor; auto. cbn. now apply resize_sim. }
  destruct (put_mid id _ _ x1 x2 e1 e2 M E1 E2 eq_refl) as (a1 & a2 & -> & -> & U1 & U2 & M2 & N1 & N2). cbn [bind].
  inversion Co as [|? ? ? ? ? ? Sp Pl Co1|? R ? ? ? ? ? Sp Al Co1|? ? ? ? ? ? Sp En Co1]; subst.
  - split; [apply Pl|]. eapply (code_run id rs); [apply Pl|exact M2|]. exists x1, x2. split; [exact N1|]. split; [exact N2|]. split; [exact X'|]. split; [exact S|].
    exists p1, p2, l1, l2, rs'. split; [exact C1|]. split; [exact C2|]. split; [split; [exact Sp|apply Pl]|exact Co1].
  - destruct Al as (Kp & m & c1 & c2 & -> & -> & Cr & B). split; [apply Kp|].
    cbn [run_instrs instr_step]. rewrite (get_val (set_arena (set_queue o1 q) a1) id x1 N1), (get_val (set_arena (set_queue o2 q) a2) id x2 N2). cbn [bind local_step].
    set (y1 := with_m x1 _). set (y2 := with_m x2 _).
    destruct (put_mid id _ _ y1 y2 x1 x2 M2 N1 N2 eq_refl) as (b1 & b2 & -> & -> & _ & _ & M3 & N1' & N2'). cbn [bind].
    eapply (code_run id (R :: rs)); [exact Cr|exact M3|]. exists y1, y2. split; [exact N1'|]. split; [exact N2'|]. split; [|split; [exact S|]].
    + apply (xm_with_m rs (R :: rs)); [exact X'|]. destruct X' as [A1 B1 D1 M1]. destruct M1. constructor; auto. cbn. constructor; [|assumption].
      split; [now rewrite !repeat_length|]. rewrite repeat_length. split; [exact B|]. intros u1 u2 Ru. destruct (bj_in _ _ B _ _ Ru) as [K1 K2].
      rewrite !nth_error_repeat by assumption. now constructor.
    + exists p1, p2, l1, l2, rs'. split; [exact C1|]. split; [exact C2|]. split; [split; [exact Sp|exact Kp]|exact Co1].
  - destruct En as (Kp & Ed1 & Ed2). split; [apply (Kp (fun _ _ => True))|]. rewrite Ed1, Ed2. eapply (end_sim id rs); [exact M2| |exact N1|exact N2|exact X'|exact S|exact C1|exact C2|exact Co1].
    intros j e p Ej Hp. right. cbn in Ej.
    assert (exists e0, nth_error (o_arena o1) j = Some e0 /\ x_parent e0 = Some p) as (e0 & Ej0 & Hp0).
    { rewrite (nth_upd _ _ _ _ j U1) in Ej. destruct (Nat.eqb_spec id j) as [<-|]; [|eauto]. injection Ej as <-. eauto. }
    destruct (Pa _ _ _ Ej0 Hp0) as [K0|(pe & Epe & Spe)]; [discriminate K0|]. exists pe. cbn. rewrite (nth_upd _ _ _ _ p U1).
    destruct (Nat.eqb_spec id p) as [<-|]; [congruence|auto].
Qed.
Theorem turn_sim o1 o2 : full o1 o2 -> orel turn_rel (turn cf1 fuel o1) (turn cf2 fuel o2).
Proof.
  intros Fu. unfold turn. rewrite <- (cm_queue _ _ (proj1 Fu)). destruct (o_queue o1) as [|id q] eqn:Eq.
  { constructor. split; [constructor; reflexivity|exact Fu]. }
  destruct (proj2 (proj1 (proj2 Fu)) id) as (e1 & E1 & S1); [rewrite Eq; now left|].
  pose proof (Forall2_nth _ _ _ (proj2 (proj2 (proj2 Fu))) id) as N. rewrite E1 in N. inversion N as [? e2 Xr Ee E2|]; subst. symmetry in E2. clear N.
  rewrite (get_val (set_queue o1 q) id e1 E1), (get_val (set_queue o2 q) id e2 E2). cbn [bind].
  destruct Xr as (rs & X & Co). unfold running in Co. rewrite S1 in Co. destruct Co as (rs' & Co).
  destruct (x_codes e1) as [|p1 l1] eqn:C1; destruct (x_codes e2) as [|p2 l2] eqn:C2; try (inversion Co; fail); [constructor|].
  assert (Sp : ptr_same p1 p2) by (inversion Co; auto).
  assert (C0 : common (set_queue o1 q) (set_queue o2 q)) by (destruct (proj1 Fu); constructor; auto).
  destruct (follow_sim _ _ p1 p2 C0 Sp) as [[-> ->]|[-> ->]]; cbn [bind]; [|constructor].
  destruct (start_sim id q o1 o2 e1 e2 rs p1 p2 l1 l2 rs' Fu Eq E1 E2 X S1 C1 C2 Co) as [Er R]. rewrite Er.
  assert (forall A B C (m : out A) (f : A -> out B) (g : B -> out C), bind m (fun a => bind (f a) g) = bind (bind m f) g) as As by (intros A B C [] f g; reflexivity).
  rewrite As. rewrite As. clear As. eapply orel_bind; [exact R|]. clear R. intros [st1 x1] [st2 x2] [Rs Fx]. cbn [fst snd] in Rs, Fx.
  assert (G : orel turn_rel (e2 <- get_exec x1 id ;; match x_state e2 with SSuccess => b <- find_subs fuel x1 id ;; Val (Some (RAnswer b), x1) | _ => Val (None, x1) end)
      (e2 <- get_exec x2 id ;; match x_state e2 with SSuccess => b <- find_subs fuel x2 id ;; Val (Some (RAnswer b), x2) | _ => Val (None, x2) end)).
  { eapply orel_bind; [now apply get_full|]. intros y1 y2 [(rs2 & Y & _) _]. pose proof (xm_state _ _ _ Y) as Sy.
    destruct (x_state y1), (x_state y2); cbn in Sy; try discriminate Sy; try (constructor; split; [constructor|exact Fx]).
    eapply orel_bind; [now apply find_subs_sim|]. intros b b' <-. constructor. split; [constructor; reflexivity|exact Fx]. }
  destruct st1, st2; cbn in Rs; try contradiction; auto. constructor. split; [constructor; exact Rs|exact Fx].
Qed.
Definition answer_rel (x y : res * org) : Prop := res_rel (fst x) (fst y) /\
  (full (snd x) (snd y) \/ exists o1 o2, snd x = clear_memory o1 /\ snd y = clear_memory o2 /\ full o1 o2).
Theorem answer_sim n : forall k w o1 o2, full o1 o2 -> orel answer_rel (answer_loop cf1 fuel n k w o1) (answer_loop cf2 fuel n k w o2).
Proof.
  induction n as [|n IH]; intros k w o1 o2 Fu; cbn [answer_loop]; [constructor|]. rewrite <- (cm_queue _ _ (proj1 Fu)), <- (cm_limit _ _ (proj1 Fu)).
  destruct (o_queue o1) as [|id q]; [constructor; split; [reflexivity|left; exact Fu]|].
  destruct (o_limit o1 <? w_time w k)%Z; [constructor; split; [reflexivity|left; exact Fu]|].
  destruct (w_oom w k); [constructor; split; [reflexivity|right; cbn; eauto]|].
  eapply orel_bind; [now apply turn_sim|]. intros [r1 x1] [r2 x2] [R Fx]. cbn [fst snd] in R, Fx. destruct R as [r1 r2 R|]; [|now apply IH].
  constructor. split; [exact R|]. left. exact Fx.
Qed.
End Lock.
