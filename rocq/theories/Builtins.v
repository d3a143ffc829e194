(** The predicates with instructions of their own: is, == and \==. *)
From Verif Require Import Base Machine Heap Facts Compiler Organizer Spec Print Valuation Process Shape Session Code Put Search PutRun Get Alloc Atoms Clause Stack Ready Heads.
From Coq Require Import Sorting.Permutation.
Open Scope list_scope.

(** The meaning of ^: the truncated float power, if it is an int. *)
Definition pow_of (cf : cfg) (a b : Z) : option Z :=
  match trunc_fval (c_powf cf a b) with
  | Some z => if ((-2147483648 <=? z) && (z <=? 2147483647))%Z then Some z else None
  | None => None
  end.

Section Builtins.
Variable cf : cfg.
Hypothesis OK : ord_ok cf.
Variable sto : storage.
Hypothesis ok : sto_ok sto.
Variable good : node -> Prop.
Variable P : list (list node).
Notation pw := (pow_of cf).
Notation Pend := (Pend pw P).
Notation hp m := (m_heap (H := list cell) m).
Notation len := (@List.length cell).
Notation sat := (sat sto).
Notation stk := (stk sto good).
Notation hle := (hle sto).
Notation SolG := (SolG sto pw P).

Lemma at_nth (h : list cell) a c : at_ (list cell) fops h a = Val c <-> nth_error h a = Some c.
Proof. unfold at_. cbn [h_at fops]. destruct (nth_error h a); cbn; split; congruence. Qed.

Lemma to_int_val z n : to_int z = Val n -> n = z.
Proof. unfold to_int. destruct (_ && _)%bool; congruence. Qed.
Lemma eval_sound rho h : sat rho h -> wfh sto 0 h -> forall fuel a n, eval_reg (list cell) fops cf sto fuel h a = Val (EvInt n) ->
  aeval pw (rho a) = Some n.
Proof.
  intros Hs W. induction fuel as [|f IH]; intros a n E; cbn [eval_reg] in E; [discriminate|].
  destruct (deref (list cell) fops h a) as [d| |] eqn:Ed; cbn [bind] in E; try discriminate.
  destruct (at_ (list cell) fops h d) as [c| |] eqn:Ec; cbn [bind] in E; try discriminate.
  apply deref_derefs in Ed. destruct Ed as (k & Ed). rewrite (sat_derefs sto rho h k a d Hs Ed). apply at_nth in Ec.
  pose proof (Hs d c Ec) as Sc. pose proof (proj1 W d c Ec) as Wc. destruct c as [i|m|b v|i m|i m|b]; try discriminate.
  - destruct (err_functor (list cell) fops sto h i); cbn [bind] in E; discriminate.
  - injection E as <-. cbn in Sc. rewrite Sc. reflexivity.
  - destruct (nthZ (s_vars sto) v); cbn [of_opt bind] in E; discriminate.
  - destruct (err_functor (list cell) fops sto h i); cbn [bind] in E; discriminate.
  - cbn in Wc. destruct Wc as (-> & Wi & _). cbn in Sc. change (Pos.to_nat 2) with 2 in Sc. cbn [seq map] in Sc.
    destruct (eval_reg (list cell) fops cf sto f h (d + 1)) as [[l|e]| |] eqn:El; cbn [bind] in E; try discriminate.
    destruct (eval_reg (list cell) fops cf sto f h (d + 2)) as [[r|e]| |] eqn:Er; cbn [bind] in E; try discriminate.
    apply IH in El, Er. replace (d + 1) with (S d) in El by lia. replace (d + 2) with (S (S d)) in Er by lia.
    destruct (Z.eqb i 4 && Z.eqb r 0)%bool eqn:Ez; cbn [bind] in E; [discriminate|].
    destruct (apply_op cf i l r) as [v| |] eqn:Ea; cbn [bind] in E; try discriminate. injection E as <-.
    rewrite Sc. cbn [aeval]. rewrite El, Er.
    assert (Ci : (i = 0 \/ i = 1 \/ i = 2 \/ i = 3 \/ i = 4)%Z) by lia.
    destruct Ci as [->|[->|[->|[->| ->]]]]; unfold apply_op in Ea.
    + cbn. unfold pow_of. destruct (trunc_fval (c_powf cf l r)) as [z|] eqn:Et; [|discriminate Ea].
      revert Ea. unfold to_int. destruct ((-2147483648 <=? z) && (z <=? 2147483647))%Z; congruence.
    + cbn. apply to_int_val in Ea. congruence.
    + cbn. apply to_int_val in Ea. congruence.
    + cbn. apply to_int_val in Ea. congruence.
    + cbn in Ez |- *. rewrite Ez. apply to_int_val in Ea. congruence.
Qed.

(** of the errors only that of a variable without value leaves the expression a value *)
Lemma eval_error rho h : sat rho h -> wfh sto 0 h -> forall fuel a e, eval_reg (list cell) fops cf sto fuel h a = Val (EvErr e) ->
  (forall x, e <> EUnbound x) -> aeval pw (rho a) = None.
Proof.
  intros Hs W. induction fuel as [|f IH]; intros a e E NU; cbn [eval_reg] in E; [discriminate|].
  destruct (deref (list cell) fops h a) as [d| |] eqn:Ed; cbn [bind] in E; try discriminate.
  destruct (at_ (list cell) fops h d) as [c| |] eqn:Ec; cbn [bind] in E; try discriminate.
  apply deref_derefs in Ed. destruct Ed as (k & Ed). rewrite (sat_derefs sto rho h k a d Hs Ed). apply at_nth in Ec.
  pose proof (Hs d c Ec) as Sc. pose proof (proj1 W d c Ec) as Wc. destruct c as [i|m|b v|i m|i m|b]; try discriminate.
  - cbn in Sc. now rewrite Sc.
  - destruct (nthZ (s_vars sto) v); cbn [of_opt bind] in E; [|discriminate]. injection E as <-. now elim (NU s).
  - cbn in Sc. now rewrite Sc.
  - cbn in Wc. destruct Wc as (-> & Wi & _). cbn in Sc. change (Pos.to_nat 2) with 2 in Sc. cbn [seq map] in Sc. rewrite Sc. cbn [aeval].
    destruct (eval_reg (list cell) fops cf sto f h (d + 1)) as [[l|e1]| |] eqn:El; cbn [bind] in E; try discriminate.
    2:{ injection E as ->. apply IH in El; [|exact NU]. replace (d + 1) with (S d) in El by lia. now rewrite El. }
    destruct (eval_reg (list cell) fops cf sto f h (d + 2)) as [[r|e1]| |] eqn:Er; cbn [bind] in E; try discriminate.
    2:{ injection E as ->. apply IH in Er; [|exact NU]. replace (d + 2) with (S (S d)) in Er by lia. rewrite Er. now destruct (aeval pw (rho (S d))). }
    apply (eval_sound rho h Hs W) in El, Er. replace (d + 1) with (S d) in El by lia. replace (d + 2) with (S (S d)) in Er by lia. rewrite El, Er.
    destruct (Z.eqb i 4 && Z.eqb r 0)%bool eqn:Ez; [|destruct (apply_op cf i l r); cbn [bind] in E; discriminate].
    apply andb_true_iff in Ez. destruct Ez as [Ei Ez]. apply Z.eqb_eq in Ei. subst i. cbn. now rewrite Ez.
Qed.

Lemma args_equal_sound rho f n : forall a b, (forall x y, f x y = Val true -> rho x = rho y :> gterm) ->
  args_equal f n a b = Val true -> map rho (seq a n) = map rho (seq b n).
Proof.
  induction n as [|n IH]; intros a b Hf E; [reflexivity|]. cbn [args_equal] in E.
  destruct (f a b) as [[|]| |] eqn:Ef; cbn [bind] in E; try discriminate. cbn [seq map]. rewrite (Hf _ _ Ef), (IH _ _ Hf E). reflexivity.
Qed.
Lemma equals_sound rho h : sat rho h -> wfh sto 0 h -> forall fuel a b, heap_reg_equals (list cell) fops fuel h a b = Val true -> rho a = rho b.
Proof.
  intros Hs W. induction fuel as [|f IH]; intros a b E; cbn [heap_reg_equals] in E; [discriminate|].
  destruct (deref (list cell) fops h a) as [d1| |] eqn:Ed1; cbn [bind] in E; try discriminate.
  destruct (deref (list cell) fops h b) as [d2| |] eqn:Ed2; cbn [bind] in E; try discriminate.
  destruct (at_ (list cell) fops h d1) as [c1| |] eqn:Ec1; cbn [bind] in E; try discriminate.
  destruct (at_ (list cell) fops h d2) as [c2| |] eqn:Ec2; cbn [bind] in E; try discriminate.
  apply deref_derefs in Ed1, Ed2. destruct Ed1 as (k1 & Ed1). destruct Ed2 as (k2 & Ed2).
  rewrite (sat_derefs sto rho h k1 a d1 Hs Ed1), (sat_derefs sto rho h k2 b d2 Hs Ed2). apply at_nth in Ec1, Ec2.
  pose proof (Hs d1 c1 Ec1) as S1. pose proof (Hs d2 c2 Ec2) as S2.
  pose proof (proj1 W d1 c1 Ec1) as W1. pose proof (proj1 W d2 c2 Ec2) as W2.
  destruct (derefs_root _ _ _ _ Ed1) as [L1 N1]. destruct (derefs_root _ _ _ _ Ed2) as [L2 N2].
  destruct (cell_eqb c1 c2) eqn:Eq; [|discriminate].
  destruct c1 as [i|m|x v|i m|i m|x], c2 as [j|m'|x' v'|j m'|j m'|x']; try discriminate; cbn in Eq.
  - apply Z.eqb_eq in Eq. subst j. cbn in S1, S2. congruence.
  - apply Z.eqb_eq in Eq. subst m'. cbn in S1, S2. congruence.
  - injection E as E. apply Nat.eqb_eq in E. congruence.
  - apply andb_true_iff in Eq. destruct Eq as [Ei En]. apply Z.eqb_eq in Ei, En. subst j m'. cbn in S1, S2. rewrite S1, S2.
    rewrite !Nat.add_1_r in E. rewrite (args_equal_sound rho _ _ _ _ IH E). reflexivity.
  - apply andb_true_iff in Eq. destruct Eq as [Ei En]. apply Z.eqb_eq in Ei, En. subst j m'. cbn in S1, S2. rewrite S1, S2.
    rewrite !Nat.add_1_r in E. rewrite (args_equal_sound rho _ _ _ _ IH E). reflexivity.
  - unfold next in N1. rewrite Ec1 in N1. cbn in W1. destruct (Nat.eqb_spec x d1); [lia|discriminate].
Qed.

Lemma args_equal_ub f n : forall a b, (forall i u, i < n -> f (a + i) (b + i) <> Ub u) -> forall u, args_equal f n a b <> Ub u.
Proof.
  induction n as [|n IH]; intros a b H u; cbn [args_equal]; [discriminate|].
  destruct (f a b) as [[|]|u'|] eqn:E; cbn [bind]; try discriminate.
  - apply IH. intros i u' Hi. specialize (H (S i) u'). rewrite !Nat.add_succ_r in H. apply H. lia.
  - exfalso. apply (H 0 u'); [lia|]. now rewrite !Nat.add_0_r.
Qed.
Lemma equals_ub h : wfh sto 0 h -> forall fuel a b, a < List.length h -> b < List.length h ->
  forall u, heap_reg_equals (list cell) fops fuel h a b <> Ub u.
Proof.
  intros W. induction fuel as [|f IH]; intros a b La Lb u; cbn [heap_reg_equals]; [discriminate|].
  destruct (wfh_deref sto 0 h a W La) as (d1 & -> & L1 & N1 & _). destruct (wfh_deref sto 0 h b W Lb) as (d2 & -> & L2 & N2 & _). cbn [bind].
  destruct (root_cases sto 0 h d1 W L1 N1) as (c1 & E1 & H1). destruct (root_cases sto 0 h d2 W L2 N2) as (c2 & E2 & H2).
  rewrite (proj2 (at_nth _ _ _) E1), (proj2 (at_nth _ _ _) E2). cbn [bind].
  pose proof (proj1 W _ _ E1) as W1. pose proof (proj1 W _ _ E2) as W2.
  destruct (cell_eqb c1 c2) eqn:Eq; [|discriminate].
  destruct c1 as [i|n|x v|i n|i n|x], c2 as [j|m|y w|j m|j m|y]; cbn in Eq; try discriminate;
    apply andb_true_iff in Eq; destruct Eq as [_ Eq]; apply Z.eqb_eq in Eq; subst m; cbn in W1, W2;
    apply args_equal_ub; intros k u' Hk; apply IH; lia.
Qed.

(** --- the code of these predicates --- *)
Lemma special_shape f i rs : special f = Some i -> special_code cf sto f i rs ->
  exists a, rs = [[a]] /\ ca_code a = [IGetVar 2 0; IGetVar 3 1; i 2 3; IProceed] /\ ca_regs a = 4.
Proof.
  intros Hf (r & (s0 & s1 & g & E & X) & ->).
  assert (Hc : c_ord cf [] = []) by (apply Permutation_nil; symmetry; apply OK).
  unfold compile_program_term, binary_pred in E. cbn in E. unfold perm_order in E. cbn [perm_vars] in E.
  rewrite Hc in E. unfold to_program, cbind in E. cbn in E. unfold cret in E. injection E as <- <- <-.
  eexists. cbn. csplit; reflexivity.
Qed.

(** What such a goal asks of its arguments. *)
Definition holds_special (nm : string) (t u : gterm) : Prop :=
  if (nm =? "is")%string then exists n, t = GInt n /\ aeval pw u = Some n
  else if (nm =? "==")%string then t = u
  else True.
Definition SolS (h : list cell) (nm : string) (a1 a2 : nat) (fs : list frame_) : sols := fun v k =>
  exists rho, sat rho h /\ holds_special nm (rho a1) (rho a2) /\ Pend fs rho v k.

Record at_special (p : process) (nm : string) (a1 a2 : nat) (fs : list frame_) : Prop := {
  as_ex : exists i rs r rest, special (FV nm 2) = Some i /\ special_code cf sto (FV nm 2) i rs /\ In r rs /\
    p_codes p = r ++ rest /\ wfh sto 0 (hp (p_m p)) /\ stk (hp (p_m p)) (m_envs (p_m p)) rest fs /\
    argreg (p_m p) [a1; a2]
}.

Lemma upd_two {A} (l : list A) x c d : upd l x c = Some d -> nth_error d x = Some c.
Proof. intros E. rewrite (upd_nth _ _ _ _ _ E), Nat.eqb_refl. reflexivity. Qed.

Lemma special_run fuel p nm a1 a2 fs : at_special p nm a1 a2 fs ->
  exists a rest, p_codes p = a :: rest /\ last (ca_code a) IProceed = IProceed /\
  match run_local cf sto fuel (removelast (ca_code a)) (set_regs (p_m p) (resize (m_regs (p_m p)) (ca_regs a))) with
  | Val (Cont, m') => wfh sto 0 (hp m') /\ hle (hp (p_m p)) (hp m') /\
      stk (hp m') (m_envs m') rest fs /\ forall v k, SolS (hp (p_m p)) nm a1 a2 fs v k <-> SolG (hp m') fs v k
  | Val (Failing, _) => nm = "is" -> forall v k, ~ SolS (hp (p_m p)) nm a1 a2 fs v k
  | Val (Raise e, _) => nm = "is" /\ ((forall x, e <> EUnbound x) -> forall v k, ~ SolS (hp (p_m p)) nm a1 a2 fs v k)
  | Ub _ => nm = "is"
  | Fuel => True
  end.
Proof.
  intros [(i & rs & r & rest & Hf & SC & Ir & Ep & W & SK & AR)].
  destruct (special_shape _ _ _ Hf SC) as (a & -> & Ecode & Er). destruct Ir as [<-|[]].
  exists a, rest. rewrite Ep, Ecode, Er. csplit; [reflexivity|reflexivity|].
  cbn [removelast]. set (m0 := set_regs (p_m p) (resize (m_regs (p_m p)) 4)).
  destruct (AR 0 a1 eq_refl) as (c1 & E1 & A1 & L1). destruct (AR 1 a2 eq_refl) as (c2 & E2 & A2 & L2).
  apply (resize_nth _ 4) in E1, E2; try lia. change (resize (m_regs (p_m p)) 4) with (m_regs m0) in E1, E2.
  assert (Lm : List.length (m_regs m0) = 4) by apply resize_length.
  destruct (upd_some (m_regs m0) 2 c1) as (l1 & U1); [lia|]. pose proof (upd_length _ _ _ _ U1) as Ll1.
  destruct (upd_some l1 3 c2) as (l2 & U2); [lia|].
  cbn [run_local]. unfold fstep. cbn [local_step].
  rewrite (rreg_get _ _ _ E1). cbn [bind]. unfold wreg at 1. rewrite U1. cbn [of_opt bind].
  assert (E2' : nth_error l1 1 = Some c2) by (rewrite (upd_nth _ _ _ _ _ U1); exact E2).
  rewrite (rreg_get (set_regs m0 l1) 1 c2 E2'). cbn [bind]. unfold wreg at 1. cbn [m_regs set_regs]. rewrite U2. cbn [of_opt bind].
  set (m2 := set_regs (set_regs m0 l1) l2).
  assert (R2 : rreg (list cell) m2 2 = Val c1).
  { apply rreg_get. change (nth_error l2 2 = Some c1). rewrite (upd_nth _ _ _ _ _ U2). cbn [Nat.eqb]. exact (upd_two _ _ _ _ U1). }
  assert (R3 : rreg (list cell) m2 3 = Val c2) by (apply rreg_get; exact (upd_two _ _ _ _ U2)).
  apply addr_of_get in A1, A2.
  assert (H2 : hp m2 = hp (p_m p)) by reflexivity.
  assert (V2 : m_envs m2 = m_envs (p_m p)) by reflexivity.
  assert (Same : forall Q : gterm -> gterm -> Prop, (forall rho, sat rho (hp (p_m p)) -> Q (rho a1) (rho a2)) ->
     forall v k, (exists rho, sat rho (hp (p_m p)) /\ Q (rho a1) (rho a2) /\ Pend fs rho v k) <-> SolG (hp (p_m p)) fs v k).
  { intros Q HQ v k. split; intros (rho & Hs & H); exists rho; [tauto|]. csplit; auto. }
  destruct (special_eq _ _ Hf) as [[Ef ->]|[[Ef ->]|[Ef ->]]]; injection Ef as ->; cbn [local_step].
  - unfold is_pred. rewrite R3. cbn [bind]. rewrite A2. cbn [bind]. rewrite H2.
    destruct (eval_reg (list cell) fops cf sto fuel (hp (p_m p)) a2) as [[n|e]| |] eqn:Ee; cbn [bind]; auto.
    2:{ split; [reflexivity|]. intros NU v k (rho & Hs & (n' & _ & H3) & _). rewrite (eval_error rho _ Hs W _ _ _ Ee NU) in H3. discriminate H3. }
    rewrite R2. cbn [bind]. rewrite A1. cbn [bind].
    destruct (wfh_deref sto 0 _ a1 W L1) as (d & Ed & Ld & Nd & (kd & Dd)). rewrite Ed. cbn [bind].
    destruct (root_cases sto 0 _ d W Ld Nd) as (c & Ec & Hc). rewrite (proj2 (at_nth _ _ _) Ec). cbn [bind].
    assert (EV : forall rho, sat rho (hp (p_m p)) -> aeval pw (rho a2) = Some n) by (intros rho Hs; eapply eval_sound; eauto).
    assert (DR : forall rho, sat rho (hp (p_m p)) -> rho a1 = rho d) by (intros rho Hs; eapply sat_derefs; eauto).
    assert (NO : (forall rho, sat rho (hp (p_m p)) -> rho a1 <> GInt n) ->
      forall v k, ~ SolS (hp (p_m p)) "is" a1 a2 fs v k).
    { intros HN v k (rho & Hs & (n' & H1 & H3) & _). rewrite (EV rho Hs) in H3. injection H3 as <-. now apply (HN rho). }
    destruct c as [j|m|b w|j m|j m|b]; try contradiction; cbn [bind].
    + intros _. apply NO. intros rho Hs. rewrite (DR rho Hs), (Hs d _ Ec). discriminate.
    + destruct (Z.eqb_spec m n) as [->|Nm].
      * rewrite H2, V2. csplit; auto; [apply hle_refl|]. apply (Same (fun t u => exists n, t = GInt n /\ aeval pw u = Some n)).
        intros rho Hs. exists n. split; [|auto]. rewrite (DR rho Hs). exact (Hs d _ Ec).
      * intros _. apply NO. intros rho Hs. rewrite (DR rho Hs), (Hs d _ Ec). congruence.
    + subst b. unfold push, hsize. cbn [h_push h_size fops m_heap set_heap]. rewrite H2, app_length. cbn [List.length].
      rewrite Nat.add_sub.
      destruct (push_bind sto (hp (p_m p)) d w (CInt n) 0 W Ec eq_refl I) as (h' & Eb & W' & Lh & Sh). rewrite Eb. cbn [bind].
      cbn [m_heap m_envs set_heap].
      assert (HL : hle (hp (p_m p)) h') by (split; [lia|intros rho Hs; now apply Sh]).
      csplit; auto; [rewrite V2; eapply stk_hle; eauto|]. intros v k. split.
      * intros (rho & Hs & (n' & H1 & H3) & Hp). rewrite (EV rho Hs) in H3. injection H3 as <-.
        set (rho' := fun a => if Nat.eqb a (len (hp (p_m p))) then GInt n else rho a).
        assert (Ag : forall a, a < len (hp (p_m p)) -> rho' a = rho a).
        { intros b Hb. unfold rho'. destruct (Nat.eqb_spec b (len (hp (p_m p)))); [lia|reflexivity]. }
        exists rho'. split.
        -- apply Sh. csplit.
           ++ eapply sat_agree; eauto.
           ++ cbn. unfold rho'. now rewrite Nat.eqb_refl.
           ++ rewrite Ag by assumption. unfold rho'. rewrite Nat.eqb_refl, <- (DR rho Hs). assumption.
        -- eapply stk_agree; eauto.
      * intros (rho & Hs & Hp). apply Sh in Hs. destruct Hs as (Hs & Hc1 & Hd). exists rho. csplit; auto. cbn.
        exists n. split; [|auto]. rewrite (DR rho Hs), Hd. exact Hc1.
    + intros _. apply NO. intros rho Hs. rewrite (DR rho Hs), (Hs d _ Ec). discriminate.
    + intros _. apply NO. intros rho Hs. rewrite (DR rho Hs), (Hs d _ Ec). discriminate.
  - unfold equals_check. rewrite R2. cbn [bind]. rewrite A1. cbn [bind]. rewrite R3. cbn [bind]. rewrite A2. cbn [bind]. rewrite H2.
    destruct (heap_reg_equals (list cell) fops fuel (hp (p_m p)) a1 a2) as [[|]|u|] eqn:Ee; cbn [bind]; auto; [|discriminate|now elim (equals_ub _ W _ _ _ L1 L2 u Ee)].
    rewrite H2, V2. csplit; auto; [apply hle_refl|]. apply (Same (fun t u => t = u)). intros rho Hs. eapply equals_sound; eauto.
  - unfold not_equals_check, equals_check. rewrite R2. cbn [bind]. rewrite A1. cbn [bind]. rewrite R3. cbn [bind]. rewrite A2. cbn [bind]. rewrite H2.
    destruct (heap_reg_equals (list cell) fops fuel (hp (p_m p)) a1 a2) as [[|]|u|] eqn:Ee; cbn [bind]; auto; [discriminate| |now elim (equals_ub _ W _ _ _ L1 L2 u Ee)].
    rewrite H2, V2. csplit; auto; [apply hle_refl|]. apply (Same (fun t u => True)). auto.
Qed.
End Builtins.
