(** Entering a clause: matching its head. *)
From Verif Require Import Base Machine Heap Facts Compiler Organizer Spec Print Valuation Process Shape Session Code Put Search PutRun Get Alloc Atoms Clause Stack Ready.
Open Scope list_scope.

Lemma resize_length l n : List.length (resize l n) = n.
Proof. unfold resize. rewrite app_length, firstn_length, repeat_length. lia. Qed.
Lemma resize_id l n : List.length l = n -> resize l n = l.
Proof. intros <-. unfold resize. now rewrite firstn_all, Nat.sub_diag, app_nil_r. Qed.
Lemma resize_nth l n i c : nth_error l i = Some c -> i < n -> nth_error (resize l n) i = Some c.
Proof.
  intros E L. pose proof (nth_error_lt _ _ _ E) as Ll. unfold resize. rewrite nth_error_app1 by (rewrite firstn_length; lia).
  revert n L. revert i E Ll. induction l as [|a l IH]; intros i E Ll n L; [destruct i; discriminate|].
  destruct n as [|n]; [lia|]. destruct i as [|i]; [exact E|]. cbn in *. apply IH; auto; lia.
Qed.

Lemma argq_from {A} (R : nat -> node -> A -> Prop) l : forall i0 TA, List.length TA = List.length l ->
  (forall i n a, nth_error l i = Some n -> nth_error TA i = Some a -> R (i0 + i) n a) ->
  Forall2 (fun xn a => R (fst xn) (snd xn) a) (combine (seq i0 (List.length l)) l) TA.
Proof.
  induction l as [|n l IH]; intros i0 TA E H; destruct TA as [|a TA]; try discriminate; cbn [List.length seq combine]; constructor.
  - cbn [fst snd]. rewrite <- (Nat.add_0_r i0). apply H; reflexivity.
  - apply IH; [cbn in E; lia|]. intros i m b Em Eb. replace (S i0 + i) with (i0 + S i) by lia. apply H; assumption.
Qed.
Lemma argq_inst rho v l : forall i0 TA,
  Forall2 (fun (xn : nat * node) a => rho a = inst v (snd xn)) (combine (seq i0 (List.length l)) l) TA <->
  Forall2 (fun (a : nat) n => rho a = inst v n) TA l.
Proof.
  induction l as [|n l IH]; intros i0 TA; cbn [List.length seq combine].
  - split; intros H; inversion H; constructor.
  - split; intros H; inversion H; subst; constructor; auto; eapply IH; eauto.
Qed.

Section Heads.
Variable cf : cfg.
Hypothesis OK : ord_ok cf.
Variable sto : storage.
Hypothesis ok : sto_ok sto.
Variable good : node -> Prop.
Variable pw : Z -> Z -> option Z.
Variable P : list (list node).
Notation Pend := (Pend pw P).
Notation provs := (provs pw P).
Notation hp m := (m_heap (H := list cell) m).
Notation len := (@List.length cell).
Notation sat := (sat sto).
Notation stk := (stk sto good).
Notation tail := (tail sto good).
Notation hle := (hle sto).
Variable lab : Prop.
Notation ready := (ready cf sto lab good).

(** Solutions of a branch: valuations of the query variables, with the number of calls needed. *)
Definition sols := (string -> gterm) -> nat -> Prop.
Definition SolG (h : list cell) (fs : list frame_) : sols := fun v k => exists rho, sat rho h /\ Pend fs rho v k.
Definition SolH (h : list cell) (hd : node) (body : list node) (TA : list nat) (fs : list frame_) : sols := fun v k =>
  exists rho vc k1 k2, sat rho h /\ Forall2 (fun a n => rho a = inst vc n) TA (targs hd) /\ provs vc body k1 /\
    Pend fs rho v k2 /\ k = k1 + k2.

(** Before the head of a clause. *)
Record at_clause (p : process) (hd : node) (body : list node) (TA : list nat) (fs : list frame_) : Prop := {
  ac_ex : exists b r rest, clause_code cf sto b (hd :: body) r /\ clause_wf (hd :: body) /\ clause_ok cf (hd :: body) = true /\
    (lab -> clause_labels cf (hd :: body) = true) /\ Forall good body /\ p_codes p = r ++ rest /\ wfh sto 0 (hp (p_m p)) /\ stk (hp (p_m p)) (m_envs (p_m p)) rest fs /\
    List.length TA = List.length (targs hd) /\ argreg (p_m p) TA
}.

Lemma goal_is_ready p a rest fs : p_codes p = a :: rest -> wfh sto 0 (hp (p_m p)) ->
  top_goal sto good (hp (p_m p)) (m_envs (p_m p)) a rest fs -> ready p fs.
Proof.
  intros Ep W T. inversion T as [perm V n gs fs0 D D' seen s1 is u cs tl Hi Ha Ht Ec Er Es Eu En Q HD GC Hx Hs Dv Lv Ev Hg TL Erest Efs]. subst rest fs u.
  destruct (assign_one n) as [aa nr] eqn:Ea. cbn [fst snd] in *.
  destruct (goal_ready perm Hi n aa nr D seen Ha Ea Ht Hx Hs) as (st' & C & F & HD' & SS & Tv & Ln).
  apply (ready_intro cf sto lab good p perm V n gs fs0 a [] is cs tl (ca_user a)
    (set_regs (p_m p) (resize (m_regs (p_m p)) nr)) (flatten_query aa) {| k_seen := seen; k_F := []; k_D := D |} st' s1 nr); auto.
  - eapply (goal_code_long sto perm n D seen); eauto. rewrite Ea. exact Q.
  - split; cbn [m_heap m_regs m_envs set_regs k_D k_F k_seen nassoc]; auto; [discriminate|apply resize_length].
  - eapply goals_code_D; [exact GC|]. intros s. rewrite HD, HD'. reflexivity.
  - intros _. rewrite Ea. auto.
  - apply flatq_in. pose proof (assign_one_in n) as K. rewrite Ea in K. exact K.
  - exists aa. split; [pose proof (aa_top_one n) as K; rewrite Ea in K; exact K|]. split; [exact Es|]. intros _ s Hv Hp. now apply Tv.
Qed.

Lemma step_alloc n fuel m : fstep cf sto fuel (IAlloc n) m = Val (Cont, set_envs m (repeat cell0 n :: m_envs m)).
Proof. reflexivity. Qed.

Lemma head_run fuel p hd body TA fs : at_clause p hd body TA fs ->
  exists a rest, p_codes p = a :: rest /\ last (ca_code a) IProceed = IProceed /\
  match run_local cf sto fuel (removelast (ca_code a)) (set_regs (p_m p) (resize (m_regs (p_m p)) (ca_regs a))) with
  | Val (Cont, m') => wfh sto 0 (hp m') /\ hle (hp (p_m p)) (hp m') /\
      match body with
      | [] => stk (hp m') (m_envs m') rest fs /\ forall v k, SolH (hp (p_m p)) hd body TA fs v k <-> SolG (hp m') fs v k
      | b1 :: bs => forallb is_dealloc rest = false /\
          exists fr, (forall tr, ready {| p_m := fresh m'; p_codes := rest; p_trail := tr |} (fr :: fs)) /\
            forall v k, SolH (hp (p_m p)) hd body TA fs v k <-> SolG (hp m') (fr :: fs) v k
      end
  | Val (Failing, _) => forall v k, ~ SolH (hp (p_m p)) hd body TA fs v k
  | Fuel => True
  | _ => False
  end.
Proof.
  intros [(b & r & rest & CC & CW & CK & CLb & Hg & Ep & W & SK & LT & AR)].
  destruct (clause_code_split cf OK sto ok b (hd :: body) r CC CW CK)
    as (h & body' & ha & rs & hc & nr & st & Ec & -> & Ecode & Er & Eu & HE & CH & GT & GD & SY & Ln & HB).
  injection Ec as <- <-. cbv zeta in *. set (perm := permof cf (hd :: body) true) in *.
  set (np := List.length (perm_order cf (hd :: body) true)) in *.
  assert (PI : pinj perm) by (intros s t y; apply permof_inj).
  exists ha, (rs ++ rest). rewrite Ep. csplit; [reflexivity|rewrite Ecode; apply last_app_one|].
  rewrite Ecode, removelast_last, run_app, Er. set (m0 := set_regs (p_m p) (resize (m_regs (p_m p)) nr)).
  set (m1 := if Nat.eqb np 0 then m0 else set_envs m0 (repeat cell0 np :: m_envs m0)).
  assert (R1 : run_local cf sto fuel (alloc_code np) m0 = Val (Cont, m1)).
  { unfold alloc_code, m1. destruct (Nat.eqb np 0); [reflexivity|]. cbn [run_local]. rewrite step_alloc. reflexivity. }
  rewrite R1. cbn [bind].
  assert (H1 : hp m1 = hp (p_m p)) by (unfold m1; destruct (Nat.eqb np 0); reflexivity).
  assert (G1 : m_regs m1 = resize (m_regs (p_m p)) nr) by (unfold m1; destruct (Nat.eqb np 0); reflexivity).
  assert (E1 : m_envs m1 = if Nat.eqb np 0 then m_envs (p_m p) else repeat cell0 np :: m_envs (p_m p))
    by (unfold m1; destruct (Nat.eqb np 0); reflexivity).
  assert (Pn : forall s y, perm s = Some y -> y < np) by (intros s y; apply permof_lt).
  set (V0 := fun _ : string => @None nat).
  assert (HI : hinv sto perm nr 0 (ginit hd) m1 V0 TA).
  { split; cbn [ginit g_D g_F g_T g_seen].
    - rewrite H1. exact W.
    - intros s. split; [intros []|]. intros K. now apply K.
    - discriminate.
    - discriminate.
    - rewrite H1, G1. apply (argq_from (fun x n a => exists c, nth_error (resize (m_regs (p_m p)) nr) x = Some c /\ addr_of c = Some a /\ a < len (hp (p_m p)))); [assumption|].
      intros i n a En Ea. cbn [Nat.add]. destruct (AR i a Ea) as (c & A1 & A2 & A3). exists c. csplit; auto. apply resize_nth; [assumption|].
      apply nth_error_lt in En. lia.
    - intros s y _. split; [discriminate|intros []].
    - intros s y Ey. specialize (Pn s y Ey). rewrite E1. destruct (Nat.eqb_spec np 0) as [->|]; [lia|].
      exists (repeat cell0 np), (m_envs (p_m p)). rewrite repeat_length. csplit; auto. discriminate.
    - rewrite G1. apply resize_length. }
  pose proof (hents_run cf sto ok fuel perm PI nr _ (ginit hd) st m1 V0 TA hc (g_seen st) HE CH HI) as HR.
  rewrite H1 in HR. cbn [ginit g_T] in HR.
  assert (EqH : forall rho v, Eqs sto (hp (p_m p)) V0 (argq (targs hd)) TA 0 [] rho v <->
    sat rho (hp (p_m p)) /\ Forall2 (fun a n => rho a = inst v n) TA (targs hd)).
  { intros rho v. unfold Eqs, argq. rewrite argq_inst. split.
    - intros (A & _ & B & _). auto.
    - intros [A B]. csplit; auto; [intros s a; discriminate|]. intros [|j] n; discriminate. }
  destruct (run_local cf sto fuel hc m1) as [[[| |e] m']|u|]; cbn [hres] in HR; auto; try contradiction.
  2:{ intros v k (rho & vc & k1 & k2 & A & B & _). apply (HR rho vc). apply EqH. auto. }
  destruct HR as (_ & V' & TA' & I' & FR & LD). rewrite GT in LD.
  assert (TA' = []) as -> by (pose proof (hi_T _ _ _ _ _ _ _ _ I') as K; rewrite GT in K; inversion K; reflexivity).
  rewrite H1 in LD.
  assert (EqC : forall rho v, Eqs sto (hp m') V' [] [] 0 [] rho v <-> sat rho (hp m') /\ cons_on rho V' v).
  { intros rho v. unfold Eqs. split; [intros (A & B & _); auto|]. intros [A B]. csplit; auto. intros [|j] n; discriminate. }
  destruct LD as [LB LF]. cbn [ginit g_T] in LB, LF.
  assert (HL : hle (hp (p_m p)) (hp m')).
  { split; [destruct FR as (_ & L & _); rewrite H1 in L; exact L|]. intros rho Hs.
    refine (proj1 (proj1 (EqH rho (vof rho V')) _)). apply LB, EqC. split; [assumption|apply vof_cons]. }
  pose proof (hi_wf _ _ _ _ _ _ _ _ I') as W'.
  csplit; auto.
  assert (Nf : fs <> []) by (eapply stk_ne; eauto).
  destruct body as [|b1 bs].
  - destruct HB as [-> Hnp]. cbn [app].
    assert (Pno : forall s, perm s = None). { intros s. destruct (perm s) as [y|] eqn:Ey; [|reflexivity]. specialize (Pn s y Ey). lia. }
    destruct FR as (_ & _ & _ & FR). rewrite (FR Pno), E1, Hnp. cbn [Nat.eqb]. split; [eapply stk_hle; eauto|].
    intros v k. split.
    + intros (rho & vc & k1 & k2 & A & B & D & E & ->). apply provs_nil in D. subst k1.
      destruct (LF rho vc) as (rho' & Ag & Q); [now apply EqH|]. apply EqC in Q. destruct Q as [Q1 Q2].
      exists rho'. split; [assumption|]. eapply stk_agree; eauto.
    + intros (rho & A & B). pose proof (LB rho (vof rho V')) as K. rewrite EqC, EqH in K. destruct K as [K1 K2]; [split; [assumption|apply vof_cons]|].
      exists rho, (vof rho V'), 0, k. csplit; auto. now apply provs_nil.
  - destruct HB as [(ba & fa & isb & s3 & st' & others & Ers & Ecf & Nis & Erf & Euf & QB & CB & KT & KD & GC & Nfa & Tfa & Sfa & Lfa & Ifa)].
    subst rs. cbn [app]. rewrite <- app_assoc. split.
    { cbn [forallb]. unfold is_dealloc at 1. rewrite Ecf, app_length. destruct isb; [contradiction|]. cbn.
      rewrite Nat.add_1_r. reflexivity. }
    exists {| f_perm := perm; f_V := V'; f_gs := b1 :: bs |}. split.
    + intros tr. assert (RL : List.length (m_regs m') = nr) by (exact (hi_regs _ _ _ _ _ _ _ _ I')).
      assert (Rz : set_regs (fresh m') (resize (m_regs (fresh m')) nr) = fresh m').
      { cbn [fresh m_regs]. rewrite resize_id by assumption. reflexivity. }
      apply (ready_intro cf sto lab good _ perm V' b1 bs fs fa [] isb others (dealloc_code np ++ rest) false (fresh m') (flatten_query ba)
        {| k_seen := erase_head_regs (fst (assign_one hd)) (g_seen st); k_F := g_F st; k_D := g_D st |} st' s3 nr); auto.
      * cbn in CW. inversion CW as [|? ? _ Hb]; subst. inversion Hb; assumption.
      * intros fuel'. cbn [p_m]. rewrite Rz. reflexivity.
      * split; cbn [m_heap m_regs m_envs fresh k_D k_F k_seen].
        -- exact (hi_dom _ _ _ _ _ _ _ _ I').
        -- exact (hi_lt _ _ _ _ _ _ _ _ I').
        -- intros x n En. destruct (hi_F _ _ _ _ _ _ _ _ I' x n En) as (s & c & a & -> & Ec & Ea & Ev).
           exists c, a. csplit; auto; [eapply (hi_lt _ _ _ _ _ _ _ _ I'); eauto|]. left. eauto.
        -- intros s y Ey. apply (sy_erase perm (g_D st) (fst (assign_one hd)) (g_seen st) SY s y Ey).
        -- intros s y Ey. destruct (hi_env _ _ _ _ _ _ _ _ I' s y Ey) as (e & es & Ee & Ly & He). exists e, es. csplit; auto.
           intros Hs. apply (hi_dom _ _ _ _ _ _ _ _ I') in Hs. destruct (V' s) as [a|] eqn:Ev; [|contradiction].
           destruct (He a eq_refl) as (c & Ec & Ea). exists c, a. csplit; auto; [eapply (hi_lt _ _ _ _ _ _ _ _ I'); eauto|]. left. eauto.
        -- assumption.
      * cbn [m_heap m_envs fresh]. destruct FR as (_ & _ & FE & FN). rewrite E1 in FE, FN. unfold dealloc_code.
        destruct (Nat.eqb np 0) eqn:En.
        -- apply Nat.eqb_eq in En. assert (Pno : forall s, perm s = None). { intros s. destruct (perm s) as [y|] eqn:Ey; [|reflexivity]. specialize (Pn s y Ey). lia. }
           cbn [app]. rewrite (FN Pno). apply tl_plain; [exact Pno|]. eapply stk_hle; eauto.
        -- destruct FE as (e' & -> & _). cbn [app]. apply tl_env. eapply stk_hle; eauto.
      * discriminate.
      * exists ba. auto.
    + intros v k. split.
      * intros (rho & vc & k1 & k2 & A & B & D & E & ->).
        destruct (LF rho vc) as (rho' & Ag & Q); [now apply EqH|]. apply EqC in Q. destruct Q as [Q1 Q2].
        exists rho'. split; [assumption|]. exists vc, k1, k2. csplit; auto; [intros K; contradiction|]. eapply stk_agree; eauto.
      * intros (rho & A & v' & k1 & k2 & _ & B & D & E & ->). pose proof (LB rho v') as K. rewrite EqC, EqH in K.
        destruct K as [K1 K2]; [auto|]. exists rho, v', k1, k2. csplit; auto.
Qed.
End Heads.
