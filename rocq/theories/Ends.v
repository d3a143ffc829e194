(** Following references ends in every state of every history of calls, whatever the sizes of the tables. *)
From Verif Require Import Base Machine Heap HeapSim Facts Compiler Parser Print Organizer Examples Spec Valuation Process Refine Mono Turn Shape Session Code Put Search
  Get Alloc Atoms Clause Tables Root Order Runs Answers Settle.
Open Scope string_scope.
Open Scope list_scope.

(** --- flat heaps --- *)
(** arguments behind a cell, for terms with less than 65536 of them *)
Definition args_of (c : cell) : nat := match c with CFun _ n | CEval _ n => Z.to_nat (n mod 65536) | _ => 0 end.
Definition inb (s : nat) (c : cell) : Prop := match c with CRef a _ | CStr a => a < s | _ => True end.
(** cells in registers *)
Definition okr (s : nat) (c : cell) : Prop := inb s c /\ args_of c = 0.
Definition okc (len k a : nat) (c : cell) : Prop := inb len c /\ (forall b, c = CStr b -> b <> a) /\ a + args_of c < len + k.
(** all cells refer into the heap and chains end; [k] arguments of the structure being written are still missing *)
Definition okh (k : nat) (h : list cell) : Prop :=
  (forall a c, nth_error h a = Some c -> okc (List.length h) k a c) /\ (forall a, a < List.length h -> exists n d, derefs h n a d).

Lemma inb_up s s' c : s <= s' -> inb s c -> inb s' c.
Proof. destruct c; cbn; lia. Qed.
Lemma okr_up s s' c : s <= s' -> okr s c -> okr s' c.
Proof. intros L [A B]. split; [eapply inb_up; eauto|exact B]. Qed.
Lemma okh_mono k k' h : k <= k' -> okh k h -> okh k' h.
Proof. intros L [A B]. split; [|exact B]. intros a c E. destruct (A a c E) as (X & Y & Z). split; [exact X|]. split; [exact Y|lia]. Qed.
Lemma okh_nil k : okh k [].
Proof. split; [intros a c E; destruct a; discriminate|cbn; intros; lia]. Qed.
Lemma okh_push k k' h c : okh k h -> k <= S k' -> (args_of c = 0 \/ args_of c <= k') -> inb (S (List.length h)) c -> (forall b, c = CStr b -> b < List.length h) -> okh k' (h ++ [c]).
Proof.
  intros [A B] Hk Ha Hi Hs. split.
  - intros a d E. rewrite app_length. cbn [List.length]. destruct (Nat.lt_ge_cases a (List.length h)) as [L|L].
    + rewrite nth_error_app1 in E by exact L. destruct (A a d E) as (X & Y & Z). split; [eapply inb_up; [|exact X]; lia|]. split; [exact Y|lia].
    + rewrite nth_error_app2 in E by exact L. destruct (a - List.length h) as [|q] eqn:Eq; [|destruct q; discriminate]. injection E as <-.
      split; [eapply inb_up; [|exact Hi]; lia|]. split; [intros b Eb; specialize (Hs b Eb); lia|lia].
  - intros a L. rewrite app_length in L. cbn in L. destruct (Nat.lt_ge_cases a (List.length h)) as [L1|L1].
    + destruct (B a L1) as (n & d & D). exists n, d. now apply derefs_app.
    + assert (a = List.length h) by lia. subst a. destruct (next (h ++ [c]) (List.length h)) as [b|] eqn:En.
      * assert (Hb : b < List.length h).
        { unfold next in En. rewrite nth_error_app2, Nat.sub_diag in En by lia. cbn in En. destruct c; try discriminate; destruct (Nat.eqb_spec a (List.length h)); try discriminate;
            injection En as <-; cbn in Hi; lia. }
        destruct (B b Hb) as (n & d & D). exists (S n), d. eapply dr_step; [exact En|now apply derefs_app].
      * exists 0, (List.length h). constructor; [rewrite app_length; cbn; lia|exact En].
Qed.
Lemma at_nth_ h a c : at_ (list cell) fops h a = Val c -> nth_error h a = Some c.
Proof. unfold at_. cbn. apply of_opt_val. Qed.
(** the end of a chain *)
Lemma okh_root k h a d c : okh k h -> deref (list cell) fops h a = Val d -> nth_error h d = Some c ->
  d < List.length h /\ next h d = None /\ match c with CRef b _ => b = d | CStr _ => False | _ => True end.
Proof.
  intros [A B] E Ec. apply deref_derefs in E. destruct E as [n D]. destruct (derefs_root _ _ _ _ D) as [L N]. csplit; auto.
  pose proof N as N'. unfold next in N'. rewrite Ec in N'. destruct (A d c Ec) as (_ & Y & _).
  destruct c; auto; destruct (Nat.eqb_spec a0 d); try discriminate; auto. exact (Y _ eq_refl e).
Qed.
Lemma okh_bind k h d t v h' : okh k h -> nth_error h d = Some (CRef d v) -> t < List.length h -> next h t = None -> t <> d ->
  bind_ref (list cell) fops h d t = Val h' -> okh k h' /\ List.length h' = List.length h.
Proof.
  intros [A B] Hd Lt Nt Ne E. destruct (bind_ref_eq h d t v Hd) as (h1 & E1 & U). rewrite E in E1. injection E1 as <-.
  pose proof (upd_length _ _ _ _ U) as Hl. split; [|exact Hl]. split.
  - intros a c Ha. rewrite Hl. rewrite (upd_nth _ _ _ _ _ U) in Ha. destruct (Nat.eqb_spec a d) as [->|Na]; [|apply A; exact Ha].
    injection Ha as <-. destruct (A d _ Hd) as (_ & _ & Z). split; [exact Lt|]. split; [discriminate|exact Z].
  - intros a La. rewrite Hl in La. destruct (B a La) as (n & r & D).
    destruct (bind_derefs h d t v h' Hd ltac:(congruence) Lt Nt U n a r D) as [m D']. eauto.
Qed.

Lemma unify_okh n : forall k h pdl b h', okh k h -> unify_loop (list cell) fops n h pdl = Val (b, h') -> okh k h' /\ List.length h' = List.length h.
Proof.
  induction n as [|n IH]; intros k h pdl b h' K E.
  { destruct pdl as [|x [|y r]]; cbn in E; try discriminate. injection E as <- <-. auto. }
  destruct pdl as [|x [|y r]]; cbn [unify_loop] in E; try discriminate; [injection E as <- <-; auto|].
  inv_bind E. rename v into d1, Hv into E1. inv_bind E. rename v into d2, Hv into E2.
  destruct (Nat.eqb_spec d1 d2) as [|Ne]; [eapply IH; eauto|].
  inv_bind E. rename v into c1, Hv into F1. inv_bind E. rename v into c2, Hv into F2. apply at_nth_ in F1, F2.
  destruct (okh_root k h x d1 c1 K E1 F1) as (L1 & N1 & R1). destruct (okh_root k h y d2 c2 K E2 F2) as (L2 & N2 & R2).
  assert (B1 : forall v h1, c1 = CRef d1 v -> bind_ref (list cell) fops h d1 d2 = Val h1 -> okh k h1 /\ List.length h1 = List.length h).
  { intros v h1 -> E'. exact (okh_bind k h d1 d2 v h1 K F1 L2 N2 ltac:(congruence) E'). }
  assert (B2 : forall v h1, c2 = CRef d2 v -> bind_ref (list cell) fops h d2 d1 = Val h1 -> okh k h1 /\ List.length h1 = List.length h).
  { intros v h1 -> E'. exact (okh_bind k h d2 d1 v h1 K F2 L1 N1 ltac:(congruence) E'). }
  assert (G : forall h1, okh k h1 /\ List.length h1 = List.length h -> unify_loop (list cell) fops n h1 r = Val (b, h') -> okh k h' /\ List.length h' = List.length h).
  { intros h1 [K1 L3] E'. destruct (IH k h1 r b h' K1 E') as [X Y]. split; [exact X|congruence]. }
  destruct c1 as [i|z|a1 v1|i m|i m|a1]; [| |subst a1; inv_bind E; eapply G; [eapply B1; eauto|exact E]| | |];
    (destruct c2 as [j|w|a2 v2|j q|j q|a2]; [| |subst a2; inv_bind E; eapply G; [eapply B2; eauto|exact E]| | |]);
    try discriminate E; try contradiction; try (injection E as <- <-; auto; fail);
    match type of E with (if ?x then _ else _) = _ => destruct x end; try (injection E as <- <-; auto; fail); eapply IH; eauto.
Qed.

(** --- one executor, flat --- *)
Definition fmst := mst (list cell).
Definition okregs (m : fmst) : Prop :=
  Forall (okr (List.length (m_heap m))) (m_regs m) /\ Forall (Forall (okr (List.length (m_heap m)))) (m_envs m).
(** while building the arguments of a call *)
Definition pst (k : nat) (m : fmst) : Prop := okregs m /\ okh k (m_heap m).
(** while matching a head *)
Definition gst (k : nat) (m : fmst) : Prop :=
  okregs m /\ match m_mode m with
              | Some MRead => okh 0 (m_heap m) /\ (0 < k -> m_S m + k <= List.length (m_heap m))
              | Some MWrite => okh k (m_heap m)
              | None => okh 0 (m_heap m)
              end.
Lemma pst_gst m : pst 0 m -> gst 0 m.
Proof. intros [A B]. split; [exact A|]. destruct (m_mode m) as [[]|]; auto. split; [exact B|lia]. Qed.
Lemma gst_pst m : gst 0 m -> pst 0 m.
Proof. intros [A B]. split; [exact A|]. destruct (m_mode m) as [[]|]; tauto. Qed.
Lemma gst_okh k m : gst k m -> okh k (m_heap m).
Proof. intros [A B]. destruct (m_mode m) as [[]|]; auto; (eapply okh_mono; [|apply B]; lia) || (eapply okh_mono; [|exact B]; lia). Qed.

(** The instructions that build arguments: [k] arguments of the last structure are still to come. *)
Fixpoint dput (k : nat) (is : list instr) : Prop :=
  match is with
  | [] => False
  | i :: is' =>
      match i with
      | IPutStruct c _ => (match k with 0 => dput (args_of c) is' | S k' => args_of c = 0 /\ dput k' is' end) /\ inb 0 c
      | ISetVar _ _ | ISetPVar _ _ | ISetVal _ | ISetPVal _ => dput (pred k) is'
      | IPutVar _ _ _ | IPutPVar _ _ _ | IPutVal _ _ | IPutPVal _ _ => k = 0 /\ dput 0 is'
      | IAlloc _ => k = 0 /\ dput 0 is'
      | ICall _ | IDealloc => k = 0 /\ is' = []
      | _ => False
      end
  end.
(** The same for heads. *)
Fixpoint dget (k : nat) (is : list instr) : Prop :=
  match is with
  | [] => False
  | i :: is' =>
      match i with
      | IGetStruct c _ => k = 0 /\ dget (args_of c) is' /\ inb 0 c
      | IUniStruct c _ => 0 < k /\ args_of c = 0 /\ inb 0 c /\ dget (pred k) is'
      | IUniVar _ _ | IUniPVar _ _ | IUniVal _ | IUniPVal _ => 0 < k /\ dget (pred k) is'
      | IGetVar _ _ | IGetPVar _ _ | IGetVal _ _ | IGetPVal _ _ | IIs _ _ | IEq _ _ | INeq _ _ => k = 0 /\ dget 0 is'
      | IAlloc _ => k = 0 /\ dget 0 is'
      | IProceed => k = 0 /\ is' = []
      | _ => False
      end
  end.

Notation wregf := (wreg (list cell)).
Notation wpermf := (wperm (list cell)).
Notation lenh m := (List.length (m_heap m)).
Lemma upd_all {A} (Q : A -> Prop) l i x l' : upd l i x = Some l' -> Forall Q l -> Q x -> Forall Q l'.
Proof.
  intros U F H. apply Forall_forall. intros y Hy. apply In_nth_error in Hy. destruct Hy as [j Hj]. rewrite (upd_nth _ _ _ _ _ U) in Hj.
  destruct (Nat.eqb j i); [injection Hj as <-; exact H|]. rewrite Forall_forall in F. apply F. eapply nth_error_In; eauto.
Qed.
(** a write to a register, of either kind *)
Definition wr_ok (wr : fmst -> nat -> cell -> out fmst) : Prop :=
  forall m x c m', wr m x c = Val m' -> okregs m -> okr (lenh m) c -> okregs m' /\ m_heap m' = m_heap m /\ m_mode m' = m_mode m /\ m_S m' = m_S m.
Lemma wreg_okw : wr_ok wregf.
Proof.
  intros m x c m' E [A B] C. unfold wreg in E. inv_bind E. injection E as <-. apply of_opt_val in Hv. cbn. csplit; auto. split; cbn; [|exact B].
  eapply upd_all; eauto.
Qed.
Lemma wperm_okw : wr_ok wpermf.
Proof.
  intros m x c m' E [A B] C. unfold wperm in E. destruct (m_envs m) as [|e es] eqn:Ee; [discriminate|]. inv_bind E. injection E as <-. apply of_opt_val in Hv.
  cbn. csplit; auto. split; cbn; [exact A|]. inversion B; subst. constructor; [|assumption]. eapply upd_all; eauto.
Qed.
Lemma rreg_okr m x c : rreg (list cell) m x = Val c -> okregs m -> okr (lenh m) c.
Proof. intros E [A _]. unfold rreg in E. apply of_opt_val in E. rewrite Forall_forall in A. apply A. eapply nth_error_In; eauto. Qed.
Lemma rperm_okr m x c : rperm (list cell) m x = Val c -> okregs m -> okr (lenh m) c.
Proof.
  intros E [_ B]. unfold rperm in E. destruct (m_envs m) as [|e es]; [discriminate|]. apply of_opt_val in E. inversion B; subst.
  rewrite Forall_forall in H1. apply H1. eapply nth_error_In; eauto.
Qed.
Lemma okregs_len m h : okregs m -> lenh m <= List.length h -> okregs (set_heap m h).
Proof.
  intros [A B] L. split; cbn; [eapply Forall_impl; [|exact A]|eapply Forall_impl; [|exact B]].
  - intros c. now apply okr_up.
  - intros e. apply Forall_impl. intros c. now apply okr_up.
Qed.
Lemma okregs_push m c : okregs m -> okregs (push (list cell) fops m c).
Proof. intros H. apply okregs_len; [exact H|]. cbn. rewrite app_length. lia. Qed.
Lemma len_push m c : lenh (push (list cell) fops m c) = S (lenh m).
Proof. cbn. rewrite app_length. cbn. lia. Qed.
Lemma size_push m c : hsize (list cell) fops (push (list cell) fops m c) - 1 = lenh m.
Proof. unfold hsize. cbn. rewrite app_length. cbn. lia. Qed.

Definition after (Q : Prop) (st : istat) (m' : fmst) : Prop := match st with Cont => Q | _ => exists k, okh k (m_heap m') end.

Section Local.
Variable cf : cfg.
Variable sto : storage.
Variable fuel : nat.
Notation step := (local_step (list cell) fops cf sto fuel).

Lemma put_step k i is m st m' : dput k (i :: is) -> is_local i = true -> pst k m -> step i m = Val (st, m') ->
  after (exists k', pst k' m' /\ dput k' is) st m'.
Proof.
  intros D Hi [R H] E.
  assert (P : forall wr x v m1, wr_ok wr -> wr (push (list cell) fops m (CRef (lenh m) v)) x (CRef (lenh m) v) = Val m1 -> pst (pred k) m1).
  { intros wr x v m1 W E1. destruct (W _ _ _ _ E1 (okregs_push _ _ R)) as (R1 & H1 & _).
    { split; [cbn; rewrite app_length; cbn; lia|reflexivity]. }
    split; [exact R1|]. rewrite H1. cbn. eapply okh_push; [exact H|lia|left; reflexivity|cbn; lia|discriminate]. }
  assert (V : forall c, okr (lenh m) c -> pst (pred k) (push (list cell) fops m c)).
  { intros c [C1 C2]. split; [now apply okregs_push|]. cbn. eapply okh_push; [exact H|lia|left; exact C2|eapply inb_up; [|exact C1]; lia|]. intros b ->. exact C1. }
  destruct i; try discriminate Hi; cbn [dput] in D; try contradiction; cbn [local_step] in E.
  - destruct D as [D Di]. inv_bind E. injection E as <- <-. rewrite size_push in Hv. cbn [after].
    destruct (wreg_okw _ _ _ _ Hv (okregs_push _ _ R)) as (R1 & H1 & _); [rewrite len_push; split; [cbn; lia|reflexivity]|].
    assert (G : forall k', k <= S k' -> args_of c = 0 \/ args_of c <= k' -> pst k' v).
    { intros k' L1 L2. split; [exact R1|]. rewrite H1. cbn. eapply okh_push; [exact H|exact L1|exact L2|eapply inb_up; [|exact Di]; lia|]. intros b ->. cbn in Di. lia. }
    destruct k as [|k]; [exists (args_of c); split; [apply G; lia|exact D]|]. destruct D as [D1 D2]. exists k. split; [apply G; auto; lia|exact D2].
  - cbn [push_ref] in E. inv_bind E. injection E as <- <-. exists (pred k). split; [|exact D]. eapply P; [exact wreg_okw|exact Hv].
  - cbn [push_ref] in E. inv_bind E. injection E as <- <-. exists (pred k). split; [|exact D]. eapply P; [exact wperm_okw|exact Hv].
  - inv_bind E. injection E as <- <-. exists (pred k). split; [|exact D]. apply V. eapply rreg_okr; eauto.
  - inv_bind E. injection E as <- <-. exists (pred k). split; [|exact D]. apply V. eapply rperm_okr; eauto.
  - destruct D as [-> D]. cbn [push_ref] in E. inv_bind E. rename v0 into m2, Hv into E2. inv_bind E. injection E as <- <-. exists 0. split; [|exact D].
    pose proof (P _ _ _ _ wreg_okw E2) as [R2 H2]. destruct (wreg_okw _ _ _ _ E2 (okregs_push _ _ R)) as (_ & L2 & _); [rewrite len_push; split; [cbn; lia|reflexivity]|].
    destruct (wreg_okw _ _ _ _ Hv R2) as (R3 & H3 & _); [rewrite L2, len_push; split; [cbn; lia|reflexivity]|]. split; [exact R3|rewrite H3; exact H2].
  - destruct D as [-> D]. cbn [push_ref] in E. inv_bind E. rename v0 into m2, Hv into E2. inv_bind E. injection E as <- <-. exists 0. split; [|exact D].
    pose proof (P _ _ _ _ wperm_okw E2) as [R2 H2]. destruct (wperm_okw _ _ _ _ E2 (okregs_push _ _ R)) as (_ & L2 & _); [rewrite len_push; split; [cbn; lia|reflexivity]|].
    destruct (wreg_okw _ _ _ _ Hv R2) as (R3 & H3 & _); [rewrite L2, len_push; split; [cbn; lia|reflexivity]|]. split; [exact R3|rewrite H3; exact H2].
  - destruct D as [-> D]. inv_bind E. rename v into c, Hv into E2. inv_bind E. injection E as <- <-. exists 0. split; [|exact D].
    destruct (wreg_okw _ _ _ _ Hv R (rreg_okr _ _ _ E2 R)) as (R3 & H3 & _). split; [exact R3|rewrite H3; exact H].
  - destruct D as [-> D]. inv_bind E. rename v into c, Hv into E2. inv_bind E. injection E as <- <-. exists 0. split; [|exact D].
    destruct (wreg_okw _ _ _ _ Hv R (rperm_okr _ _ _ E2 R)) as (R3 & H3 & _). split; [exact R3|rewrite H3; exact H].
  - destruct D as [-> D]. injection E as <- <-. exists 0. split; [|exact D]. split; [|exact H]. split; cbn; [apply R|]. constructor; [|apply R].
    apply Forall_forall. intros c Hc. apply repeat_spec in Hc. subst. split; [exact I|reflexivity].
Qed.

(** binding the end of a chain to a cell just written *)
Lemma bind_new k h addr c v st k' h' : okh k h -> nth_error h addr = Some c -> c = CRef addr v -> inb 0 st ->
  k <= S k' -> (args_of st = 0 \/ args_of st <= k') -> bind_ref (list cell) fops (h ++ [st]) addr (List.length h) = Val h' ->
  okh k' h' /\ List.length h' = S (List.length h).
Proof.
  intros K Ec -> Hi L1 L2 E. pose proof (nth_error_lt _ _ _ Ec) as La.
  assert (K1 : okh k' (h ++ [st])).
  { eapply okh_push; [exact K|exact L1|exact L2|eapply inb_up; [|exact Hi]; lia|]. intros b ->. cbn in Hi. lia. }
  destruct (okh_bind k' (h ++ [st]) addr (List.length h) v h' K1) as [X Y]; auto.
  - rewrite nth_error_app1 by exact La. exact Ec.
  - rewrite app_length. cbn. lia.
  - unfold next. rewrite nth_error_app2, Nat.sub_diag by lia. cbn. destruct st; auto; cbn in Hi; lia.
  - lia.
  - split; [exact X|]. rewrite Y, app_length. cbn. lia.
Qed.
Lemma get_addr c a s : get_heap_i c = Val a -> okr s c -> a < s.
Proof. destruct c; cbn; try discriminate; intros E [H _]; injection E as <-; exact H. Qed.

Lemma get_step k i is m st m' : dget k (i :: is) -> is_local i = true -> gst k m -> step i m = Val (st, m') ->
  after (exists k', gst k' m' /\ dget k' is) st m'.
Proof.
  intros D Hi G E. pose proof (proj1 G) as R. pose proof (gst_okh _ _ G) as H0.
  assert (UV : forall wr x v, wr_ok wr -> 0 < k -> dget (pred k) is -> unify_variable (list cell) fops wr m x v = Val (st, m') ->
    after (exists k', gst k' m' /\ dget k' is) st m').
  { intros wr x v W Hk D1 E1. unfold unify_variable in E1. destruct G as [_ G]. destruct (m_mode m) as [[]|] eqn:Em; [| |discriminate].
    - inv_bind E1. injection E1 as <- <-. destruct G as [G1 G2]. specialize (G2 Hk).
      destruct (W _ _ _ _ Hv R) as (R1 & H1 & M1 & S1); [split; [cbn; lia|reflexivity]|]. exists (pred k). split; [|exact D1].
      split; [exact R1|]. cbn. rewrite M1, Em, H1, S1. split; [exact G1|lia].
    - cbn [push_ref] in E1. inv_bind E1. injection E1 as <- <-. destruct (W _ _ _ _ Hv (okregs_push _ _ R)) as (R1 & H1 & M1 & S1);
        [rewrite len_push; split; [cbn; lia|reflexivity]|]. exists (pred k). split; [|exact D1]. split; [exact R1|]. cbn. rewrite M1, H1. cbn. rewrite Em.
      eapply okh_push; [exact G|lia|left; reflexivity|cbn; lia|discriminate]. }
  assert (VV : forall c, okr (lenh m) c -> 0 < k -> dget (pred k) is -> unify_value (list cell) fops fuel m c = Val (st, m') ->
    after (exists k', gst k' m' /\ dget k' is) st m').
  { intros c Hc Hk D1 E1. unfold unify_value in E1. destruct G as [_ G]. destruct (m_mode m) as [[]|] eqn:Em; [| |discriminate].
    - inv_bind E1. inv_bind E1. destruct v0 as [s1 m1]. unfold unify_m in Hv0. inv_bind Hv0. destruct v0 as [b h1]. injection Hv0 as <- <-. injection E1 as <- <-.
      destruct G as [G1 G2]. destruct (unify_okh _ _ _ _ _ _ G1 Hv1) as [K1 L1]. destruct b; cbn [after]; [|exists 0; exact K1].
      exists (pred k). split; [|exact D1]. split; [apply (okregs_len m h1 R); lia|]. cbn. rewrite Em. split; [exact K1|]. specialize (G2 Hk). lia.
    - inv_bind E1. inv_bind E1. inv_bind E1. apply at_nth_ in Hv1. destruct (okh_root _ _ _ _ _ G Hv0 Hv1) as (Ld & Nd & Rd).
      assert (Q : forall c1, okr (lenh m) c1 -> gst (pred k) (inc_S (push (list cell) fops m c1))).
      { intros c1 [C1 C2]. split; [exact (okregs_push m c1 R)|]. cbn. rewrite Em.
        eapply okh_push; [exact G|lia|left; exact C2|eapply inb_up; [|exact C1]; lia|]. intros b ->. exact C1. }
      destruct v1; try discriminate E1; injection E1 as <- <-; exists (pred k); (split; [apply Q|exact D1]); split; cbn; auto. lia. }
  assert (GV : forall c d, get_value (list cell) fops fuel m c d = Val (st, m') -> k = 0 -> dget 0 is -> after (exists k', gst k' m' /\ dget k' is) st m').
  { intros c d E1 -> D1. unfold get_value, unify_m in E1. inv_bind E1. inv_bind E1. inv_bind E1. destruct v1 as [b h1]. injection E1 as <- <-.
    destruct (gst_pst _ G) as [_ K0]. destruct (unify_okh _ _ _ _ _ _ K0 Hv1) as [K1 L1]. destruct b; cbn [after]; [|exists 0; exact K1].
    exists 0. split; [|exact D1]. apply pst_gst. split; [apply (okregs_len m h1 R); lia|exact K1]. }
  assert (SAME : forall b, st = (if b : bool then Cont else Failing) -> m' = m -> k = 0 -> dget 0 is -> after (exists k', gst k' m' /\ dget k' is) st m').
  { intros b -> -> -> D1. destruct b; cbn [after]; [exists 0; auto|exists 0; exact H0]. }
  destruct i; try discriminate Hi; cbn [dget] in D; try contradiction; cbn [local_step] in E.
  - destruct D as (-> & D & Di). unfold get_structure in E. inv_bind E. inv_bind E. inv_bind E. inv_bind E. apply at_nth_ in Hv2.
    destruct (gst_pst _ G) as [_ K0]. destruct (okh_root _ _ _ _ _ K0 Hv1 Hv2) as (Ld & Nd & Rd).
    assert (G0 : forall b : bool, (b = true -> exists q, v2 = q /\ cell_eqb q c = true) ->
       (if b then Val (Cont, set_mode m MRead (v1 + 1)) else Val (Failing, m)) = Val (st, m') -> after (exists k', gst k' m' /\ dget k' is) st m').
    { intros b Hb E1. destruct b; injection E1 as <- <-; cbn [after]; [|exists 0; exact K0]. destruct (Hb eq_refl) as (q & <- & Eq).
      exists (args_of c). split; [|exact D]. split; [exact R|]. cbn. split; [exact K0|]. intros _. destruct K0 as [A _]. destruct (A _ _ Hv2) as (_ & _ & Z).
      assert (args_of v2 = args_of c); [|lia]. destruct v2, c; cbn in Eq; try discriminate; try reflexivity; apply andb_prop in Eq; destruct Eq as [_ Eq]; apply Z.eqb_eq in Eq; subst; reflexivity. }
    destruct v2 as [i|z|b w|i n|i n|b]; try (eapply G0; [|exact E]; intros; eexists; split; [reflexivity|eassumption]).
    subst b. inv_bind E. injection E as <- <-. rewrite size_push in Hv3. cbn in Hv3.
    destruct (bind_new 0 (m_heap m) v1 _ w c (args_of c) v2 K0 Hv2 eq_refl Di ltac:(lia) ltac:(lia) Hv3) as [K1 L1].
    exists (args_of c). split; [|exact D]. split; [apply (okregs_len m v2 R); lia|exact K1].
  - destruct D as (Hk & Da & Di & D). unfold unify_structure in E. destruct (m_mode m) as [[]|] eqn:Em; [| |discriminate].
    + inv_bind E. inv_bind E. apply at_nth_ in Hv0. destruct G as [_ G]. rewrite Em in G. destruct G as [G1 G2]. specialize (G2 Hk).
      destruct (okh_root _ _ _ _ _ G1 Hv Hv0) as (Ld & Nd & Rd).
      assert (G0 : forall b : bool, (if b then Val (Cont, inc_S m) else Val (Failing, inc_S m)) = Val (st, m') -> after (exists k', gst k' m' /\ dget k' is) st m').
      { intros b E1. destruct b; injection E1 as <- <-; cbn [after]; [|exists 0; exact G1]. exists (pred k). split; [|exact D]. split; [exact R|]. cbn. rewrite Em.
        split; [exact G1|lia]. }
      destruct v0 as [i|z|b w|i n|i n|b]; try (eapply G0; exact E). subst b. inv_bind E. injection E as <- <-. rewrite size_push in Hv1. cbn in Hv1.
      destruct (bind_new 0 (m_heap m) v _ w c 0 v0 G1 Hv0 eq_refl Di ltac:(lia) ltac:(lia) Hv1) as [K1 L1].
      exists (pred k). split; [|exact D]. split; [apply (okregs_len m v0 R); lia|]. cbn. rewrite Em. split; [exact K1|lia].
    + inv_bind E. injection E as <- <-. rewrite size_push in Hv. destruct (wreg_okw _ _ _ _ Hv (okregs_push _ _ R)) as (R1 & H1 & M1 & S1);
        [rewrite len_push; split; [cbn; lia|reflexivity]|]. exists (pred k). split; [|exact D]. split; [exact R1|]. cbn. rewrite M1, H1. cbn. rewrite Em.
      destruct G as [_ G]. rewrite Em in G. eapply okh_push; [exact G|lia|left; exact Da|eapply inb_up; [|exact Di]; lia|]. intros b ->. cbn in Di. lia.
  - destruct D as (Hk & D). eapply UV; [exact wreg_okw|exact Hk|exact D|exact E].
  - destruct D as (Hk & D). eapply UV; [exact wperm_okw|exact Hk|exact D|exact E].
  - destruct D as (Hk & D). inv_bind E. eapply VV; [eapply rreg_okr; eauto|exact Hk|exact D|exact E].
  - destruct D as (Hk & D). inv_bind E. eapply VV; [eapply rperm_okr; eauto|exact Hk|exact D|exact E].
  - destruct D as [-> D]. inv_bind E. rename v into c, Hv into E2. inv_bind E. injection E as <- <-. exists 0. split; [|exact D]. destruct (gst_pst _ G) as [_ K0].
    destruct (wreg_okw _ _ _ _ Hv R (rreg_okr _ _ _ E2 R)) as (R3 & H3 & _). apply pst_gst. split; [exact R3|rewrite H3; exact K0].
  - destruct D as [-> D]. inv_bind E. rename v into c, Hv into E2. inv_bind E. injection E as <- <-. exists 0. split; [|exact D]. destruct (gst_pst _ G) as [_ K0].
    destruct (wperm_okw _ _ _ _ Hv R (rreg_okr _ _ _ E2 R)) as (R3 & H3 & _). apply pst_gst. split; [exact R3|rewrite H3; exact K0].
  - destruct D as [-> D]. inv_bind E. inv_bind E. eapply GV; eauto.
  - destruct D as [-> D]. inv_bind E. inv_bind E. eapply GV; eauto.
  - destruct D as [-> D]. injection E as <- <-. exists 0. split; [|exact D]. destruct (gst_pst _ G) as [_ K0]. apply pst_gst. split; [|exact K0]. split; cbn; [apply R|]. constructor; [|apply R].
    apply Forall_forall. intros c Hc. apply repeat_spec in Hc. subst. split; [exact I|reflexivity].
  - destruct D as [-> D]. unfold is_pred in E. inv_bind E. inv_bind E. inv_bind E. destruct v1 as [z|er]; [|injection E as <- <-; exists 0; exact H0].
    inv_bind E. inv_bind E. inv_bind E. inv_bind E. apply at_nth_ in Hv5. destruct (gst_pst _ G) as [_ K0].
    destruct (okh_root _ _ _ _ _ K0 Hv4 Hv5) as (Ld & Nd & Rd). destruct v4 as [i|z'|b w|i n|i n|b]; try (injection E as <- <-; exists 0; exact H0).
    + injection E as E1 E2. eapply SAME; [symmetry; exact E1|symmetry; exact E2|reflexivity|exact D].
    + subst b. inv_bind E. injection E as <- <-. rewrite size_push in Hv6. cbn in Hv6.
      destruct (bind_new 0 (m_heap m) v3 _ w (CInt z) 0 v4 K0 Hv5 eq_refl I ltac:(lia) ltac:(left; reflexivity) Hv6) as [K1 L1].
      exists 0. split; [|exact D]. apply pst_gst. split; [apply (okregs_len m v4 R); lia|exact K1].
  - destruct D as [-> D]. unfold equals_check in E. repeat inv_bind E. injection E as E1 E2. eapply SAME; [symmetry; exact E1|symmetry; exact E2|reflexivity|exact D].
  - destruct D as [-> D]. unfold not_equals_check, equals_check in E. inv_bind E. destruct v as [s1 m1]. repeat inv_bind Hv. injection Hv as <- <-. injection E as E1 E2.
    eapply (SAME (match (if v3 then Cont else Failing) with Failing => true | _ => false end)); [|symmetry; exact E2|reflexivity|exact D]. rewrite <- E1. destruct v3; reflexivity.
Qed.
End Local.

(** --- all executors --- *)
Definition dcode (a : catom) : Prop := dput 0 (ca_code a) \/ dget 0 (ca_code a).
Definition drule (r : rule) : Prop := Forall dcode r.
Definition dprog (p : prog) : Prop := Forall (fun e => Forall drule (snd e)) p.
Definition hs (ar : list exec) (e : exec) : Prop := exists fh k, hrel (heap_at ar (x_parent e)) (m_heap (x_m e)) fh /\ okh k fh.
Definition ready (ar : list exec) (e : exec) : Prop := exists fm, mrel (heap_at ar (x_parent e)) (x_m e) fm /\ pst 0 fm.
Definition dptrs (ps : list cptr) : Prop := Forall (fun p => dcode (cp_atom p)) ps.

Record ok_org (o : org) : Prop := {
  ao_par : parents_ok (o_arena o);
  ao_all : forall id e, nth_error (o_arena o) id = Some e -> hs (o_arena o) e;
  ao_codes : forall id e, nth_error (o_arena o) id = Some e -> dptrs (x_codes e);
  ao_nodup : NoDup (o_queue o);
  ao_queue : forall id, In id (o_queue o) -> childless (o_arena o) id /\ exists e, nth_error (o_arena o) id = Some e /\ ready (o_arena o) e;
  ao_prog : dprog (o_prog o);
  ao_built : dprog (o_built o)
}.
(** Executor [id], taken off the queue, still has to execute [is]. *)
Definition busy (o : org) (id : nat) (is : list instr) : Prop :=
  ok_org o /\ ~ In id (o_queue o) /\ childless (o_arena o) id /\ exists e fm k, nth_error (o_arena o) id = Some e /\
    mrel (heap_at (o_arena o) (x_parent e)) (x_m e) fm /\ (pst k fm /\ dput k is \/ gst k fm /\ dget k is).

(** executors are added, or changed in other parts than their heap *)
Definition grows (ar ar' : list exec) : Prop := List.length ar <= List.length ar' /\
  forall j e, nth_error ar j = Some e -> exists e', nth_error ar' j = Some e' /\ x_parent e' = x_parent e /\ m_heap (x_m e') = m_heap (x_m e).
Lemma grows_heap_f ar ar' : parents_ok ar -> grows ar ar' -> forall q f f' a, q < f -> q < f' -> q < List.length ar ->
  heap_at_f f ar (Some q) a = heap_at_f f' ar' (Some q) a.
Proof.
  intros Hp [_ G] q. induction q as [q IH] using lt_wf_ind. intros [|f] [|f'] a Hf Hf' Hq; try lia. cbn [heap_at_f].
  destruct (nth_error ar q) as [e|] eqn:E; [|apply nth_error_None in E; lia]. destruct (G q e E) as (e' & -> & Px & ->). rewrite Px.
  apply l_at_ext. intros b. destruct (x_parent e) as [g|] eqn:Eg.
  - pose proof (Hp _ _ _ E Eg). apply IH; lia.
  - destruct f, f'; reflexivity.
Qed.
Lemma grows_heap ar ar' p a : parents_ok ar -> grows ar ar' -> match p with Some q => q < List.length ar | None => True end -> heap_at ar p a = heap_at ar' p a.
Proof.
  intros Hp G Hq. unfold heap_at. destruct p as [q|]; [|reflexivity]. apply grows_heap_f; auto; destruct G; lia.
Qed.
Lemma parent_lt ar j e : parents_ok ar -> nth_error ar j = Some e -> match x_parent e with Some q => q < List.length ar | None => True end.
Proof. intros Hp He. destruct (x_parent e) as [q|] eqn:Eq; auto. pose proof (Hp _ _ _ He Eq). pose proof (nth_error_lt _ _ _ He). lia. Qed.
Lemma grows_hs ar ar' j e e' : parents_ok ar -> grows ar ar' -> nth_error ar j = Some e -> x_parent e' = x_parent e -> m_heap (x_m e') = m_heap (x_m e) -> hs ar e -> hs ar' e'.
Proof.
  intros Hp G He Px Hm (fh & k & H & K). exists fh, k. split; [|exact K]. rewrite Px, Hm. eapply hrel_ext; [|exact H]. intros a. apply grows_heap; auto. eapply parent_lt; eauto.
Qed.
Lemma grows_ready ar ar' j e : parents_ok ar -> grows ar ar' -> nth_error ar j = Some e -> ready ar e -> ready ar' e.
Proof.
  intros Hp G He (fm & H & K). exists fm. split; [|exact K]. eapply mrel_ext; [|exact H]. intros a. apply grows_heap; auto. eapply parent_lt; eauto.
Qed.

Lemma put_arena o id e o' : put_exec o id e = Val o' -> exists ar, o' = set_arena o ar /\ upd (o_arena o) id e = Some ar.
Proof. unfold put_exec. intros E. inv_bind E. injection E as <-. apply of_opt_val in Hv. eauto. Qed.

(** the executor changes its heap *)
Lemma put_own o id e e' fh k o1 : ok_org o -> ~ In id (o_queue o) -> childless (o_arena o) id -> nth_error (o_arena o) id = Some e ->
  x_parent e' = x_parent e -> x_codes e' = x_codes e -> hrel (heap_at (o_arena o) (x_parent e)) (m_heap (x_m e')) fh -> okh k fh ->
  put_exec o id e' = Val o1 ->
  ok_org o1 /\ ~ In id (o_queue o1) /\ childless (o_arena o1) id /\ nth_error (o_arena o1) id = Some e' /\
  (forall a, heap_at (o_arena o) (x_parent e) a = heap_at (o_arena o1) (x_parent e) a).
Proof.
  intros K Nq Hc He Px Pc H Kh E. destruct (put_arena _ _ _ _ E) as (ar & -> & U). pose proof (ao_par _ K) as Hp. pose proof (upd_length _ _ _ _ U) as Hl.
  assert (N : forall j, nth_error ar j = if Nat.eqb j id then Some e' else nth_error (o_arena o) j) by (intros j; exact (upd_nth _ _ _ _ _ U)).
  assert (Nid : nth_error ar id = Some e') by (rewrite N, Nat.eqb_refl; reflexivity).
  assert (Nj : forall j, j <> id -> nth_error ar j = nth_error (o_arena o) j) by (intros j Hj; rewrite N, (proj2 (Nat.eqb_neq _ _) Hj); reflexivity).
  assert (FR : forall p a, match p with Some q => q < List.length (o_arena o) /\ q <> id | None => True end -> heap_at (o_arena o) p a = heap_at ar p a).
  { intros p a Hq. eapply heap_at_frame with (id := id); eauto. lia. }
  assert (PL : forall j x, nth_error (o_arena o) j = Some x -> match x_parent x with Some q => q < List.length (o_arena o) /\ q <> id | None => True end).
  { intros j x Hx. pose proof (parent_lt _ _ _ Hp Hx). destruct (x_parent x) as [q|] eqn:Eq; auto. split; [assumption|]. intros ->. exact (Hc _ _ Hx Eq). }
  assert (OLD : forall j x, nth_error ar j = Some x -> j <> id -> nth_error (o_arena o) j = Some x) by (intros j x Hx Hj; rewrite <- Nj; assumption).
  cbn [o_arena set_arena o_queue]. csplit; auto.
  - split; cbn.
    + intros j x q Hx Hq. destruct (Nat.eq_dec j id) as [->|Ne]; [|eapply Hp; eauto]. rewrite Nid in Hx. injection Hx as <-. rewrite Px in Hq. eapply Hp; eauto.
    + intros j x Hx. destruct (Nat.eq_dec j id) as [->|Ne].
      * rewrite Nid in Hx. injection Hx as <-. exists fh, k. split; [|exact Kh]. rewrite Px. eapply hrel_ext; [|exact H]. intros a. apply FR, (PL id e He).
      * specialize (OLD _ _ Hx Ne). destruct (ao_all _ K _ _ OLD) as (fh1 & k1 & H1 & K1). exists fh1, k1. split; [|exact K1]. eapply hrel_ext; [|exact H1]. intros a. apply FR, (PL _ _ OLD).
    + intros j x Hx. destruct (Nat.eq_dec j id) as [->|Ne]; [|eapply (ao_codes _ K); eauto]. rewrite Nid in Hx. injection Hx as <-. rewrite Pc. eapply (ao_codes _ K); eauto.
    + apply (ao_nodup _ K).
    + intros j Hj. destruct (ao_queue _ K j Hj) as (Cj & x & Hx & fm & M & P). assert (Ne : j <> id) by congruence. split.
      * intros g y Hy. destruct (Nat.eq_dec g id) as [->|Ng]; [|eapply Cj; eauto]. rewrite Nid in Hy. injection Hy as <-. rewrite Px. eapply Cj; eauto.
      * exists x. rewrite Nj by exact Ne. split; [exact Hx|]. exists fm. split; [|exact P]. eapply mrel_ext; [|exact M]. intros a. apply FR, (PL _ _ Hx).
    + apply (ao_prog _ K).
    + apply (ao_built _ K).
  - intros g y Hy. destruct (Nat.eq_dec g id) as [->|Ng]; [|eapply Hc; eauto]. rewrite Nid in Hy. injection Hy as <-. rewrite Px. eapply Hc; eauto.
  - intros a. apply FR, (PL id e He).
Qed.

(** the executor changes, but not its heap *)
Lemma put_same o id e e' o1 : ok_org o -> ~ In id (o_queue o) -> nth_error (o_arena o) id = Some e ->
  x_parent e' = x_parent e -> m_heap (x_m e') = m_heap (x_m e) -> dptrs (x_codes e') -> put_exec o id e' = Val o1 ->
  ok_org o1 /\ ~ In id (o_queue o1) /\ nth_error (o_arena o1) id = Some e' /\ grows (o_arena o) (o_arena o1) /\ o_queue o1 = o_queue o /\
  (childless (o_arena o) id -> childless (o_arena o1) id).
Proof.
  intros K Nq He Px Ph Dc E. destruct (put_arena _ _ _ _ E) as (ar & -> & U). pose proof (ao_par _ K) as Hp. pose proof (upd_length _ _ _ _ U) as Hl.
  assert (N : forall j, nth_error ar j = if Nat.eqb j id then Some e' else nth_error (o_arena o) j) by (intros j; exact (upd_nth _ _ _ _ _ U)).
  assert (Nid : nth_error ar id = Some e') by (rewrite N, Nat.eqb_refl; reflexivity).
  assert (Nj : forall j, j <> id -> nth_error ar j = nth_error (o_arena o) j) by (intros j Hj; rewrite N, (proj2 (Nat.eqb_neq _ _) Hj); reflexivity).
  assert (OLD : forall j x, nth_error ar j = Some x -> j <> id -> nth_error (o_arena o) j = Some x) by (intros j x Hx Hj; rewrite <- Nj; assumption).
  assert (G : grows (o_arena o) ar).
  { split; [lia|]. intros j x Hx. destruct (Nat.eq_dec j id) as [->|Ne]; [rewrite He in Hx; injection Hx as <-; exists e'; auto|]. exists x. rewrite Nj by exact Ne. auto. }
  assert (CH : forall j, childless (o_arena o) j -> childless ar j).
  { intros j Cj g y Hy. destruct (Nat.eq_dec g id) as [->|Ng]; [|eapply Cj; eauto]. rewrite Nid in Hy. injection Hy as <-. rewrite Px. eapply Cj; eauto. }
  cbn [o_arena set_arena o_queue]. csplit; auto. split; cbn.
  - intros j x q Hx Hq. destruct (Nat.eq_dec j id) as [->|Ne]; [|eapply Hp; eauto]. rewrite Nid in Hx. injection Hx as <-. rewrite Px in Hq. eapply Hp; eauto.
  - intros j x Hx. destruct (Nat.eq_dec j id) as [->|Ne].
    + rewrite Nid in Hx. injection Hx as <-. eapply grows_hs; eauto. eapply (ao_all _ K); eauto.
    + specialize (OLD _ _ Hx Ne). eapply grows_hs; eauto. eapply (ao_all _ K); eauto.
  - intros j x Hx. destruct (Nat.eq_dec j id) as [->|Ne]; [|eapply (ao_codes _ K); eauto]. rewrite Nid in Hx. injection Hx as <-. exact Dc.
  - apply (ao_nodup _ K).
  - intros j Hj. destruct (ao_queue _ K j Hj) as (Cj & x & Hx & R). assert (Ne : j <> id) by congruence. split; [apply CH, Cj|].
    exists x. rewrite Nj by exact Ne. split; [exact Hx|]. eapply grows_ready; eauto.
  - apply (ao_prog _ K).
  - apply (ao_built _ K).
Qed.

Lemma NoDup_app_intro_ends {A} (l : list A) x : NoDup l -> ~ In x l -> NoDup (l ++ [x]).
Proof.
  induction 1 as [|y l Hy Hl IH]; intros Hx; cbn; [repeat constructor; auto|]. constructor.
  - rewrite in_app_iff. intros [H|[<-|[]]]; [contradiction|]. apply Hx. left. reflexivity.
  - apply IH. intros H. apply Hx. right. exact H.
Qed.
(** a child *)
Lemma child_heap ar id e : parents_ok ar -> nth_error ar id = Some e -> forall fh, hrel (heap_at ar (x_parent e)) (m_heap (x_m e)) fh ->
  hrel (heap_at ar (Some id)) {| l_start := l_size (m_heap (x_m e)); l_changes := []; l_own := [] |} fh.
Proof.
  intros Hp He fh [Hs Ha]. split; [unfold l_size at 1; cbn; lia|]. intros a. unfold l_at, l_size at 1. cbn [l_start l_changes l_own List.length find_change].
  rewrite Nat.add_0_r. destruct (Nat.ltb_spec a (l_size (m_heap (x_m e)))) as [L|L].
  - rewrite (proj2 (Nat.leb_gt _ _) L). pose proof (reads_at {| o_arena := ar; o_queue := []; o_stats := 0; o_limit := 0; o_sto := empty_storage; o_prog := []; o_built := []; o_query := []; o_pgen := 0; o_qgen := 0 |} id e a Hp He) as Q.
    unfold Isolation.reads in Q. cbn [o_arena] in Q. rewrite Q. apply Ha.
  - symmetry. apply nth_error_None. lia.
Qed.
Lemma add_ok o id e fh regs envs codes o' : ok_org o -> ~ In id (o_queue o) -> nth_error (o_arena o) id = Some e ->
  hrel (heap_at (o_arena o) (x_parent e)) (m_heap (x_m e)) fh -> okh 0 fh -> Forall (okr (List.length fh)) regs -> Forall (Forall (okr (List.length fh))) envs ->
  dptrs codes ->
  add_child o id {| x_parent := Some id; x_m := new_m (l_size (m_heap (x_m e))) regs envs; x_kids := []; x_state := SRunning; x_codes := codes |} = Val o' ->
  ok_org o' /\ ~ In id (o_queue o') /\ (exists ks, nth_error (o_arena o') id = Some (with_kids e ks)) /\ grows (o_arena o) (o_arena o').
Proof.
  intros K Nq He Hh Ko Ho Hen Dc E. unfold add_child in E. set (c := Build_exec _ _ _ _ _) in E. inv_bind E. apply get_some in Hv. rewrite He in Hv. injection Hv as <-.
  inv_bind E. rename v into o1, Hv into E1. injection E as <-.
  destruct (put_same o id e (with_kids e (x_kids e ++ [List.length (o_arena o)])) o1 K Nq He eq_refl eq_refl (ao_codes _ K _ _ He) E1) as (K1 & Nq1 & N1 & G1 & Q1 & _).
  pose proof (ao_par _ K1) as Hp1. pose proof (nth_error_lt _ _ _ N1) as Lid. set (ar := o_arena o1) in *.
  assert (Len : List.length (o_arena o) = List.length ar) by (symmetry; exact (Isolation.put_len _ _ _ _ E1)).
  assert (G2 : grows ar (ar ++ [c])).
  { split; [rewrite app_length; lia|]. intros j x Hx. exists x. csplit; auto. rewrite nth_error_app1; [exact Hx|eapply nth_error_lt; eauto]. }
  assert (CASE : forall j x, nth_error (ar ++ [c]) j = Some x -> nth_error ar j = Some x \/ j = List.length ar /\ x = c).
  { intros j x Hx. destruct (Nat.lt_ge_cases j (List.length ar)) as [L|L]; [rewrite nth_error_app1 in Hx by exact L; auto|].
    rewrite nth_error_app2 in Hx by exact L. destruct (j - List.length ar) as [|q] eqn:Eq; [|destruct q; discriminate]. injection Hx as <-. right. split; [lia|reflexivity]. }
  assert (Hc : hrel (heap_at ar (Some id)) {| l_start := l_size (m_heap (x_m e)); l_changes := []; l_own := [] |} fh).
  { apply (child_heap ar id _ Hp1 N1 fh). cbn [with_kids x_parent x_m]. eapply hrel_ext; [|exact Hh]. intros a. apply grows_heap; auto; [apply (ao_par _ K)|]. eapply parent_lt; eauto. apply (ao_par _ K). }
  assert (Hc' : hrel (heap_at (ar ++ [c]) (Some id)) {| l_start := l_size (m_heap (x_m e)); l_changes := []; l_own := [] |} fh).
  { eapply hrel_ext; [|exact Hc]. intros a. apply grows_heap; auto. }
  assert (Rc : ready (ar ++ [c]) c).
  { exists {| m_heap := fh; m_regs := regs; m_mode := None; m_S := 0; m_envs := envs |}. split; [|split; [split; assumption|exact Ko]]. split; [exact Hc'|]. cbn. auto. }
  cbn [o_arena set_queue set_arena o_queue]. rewrite Q1, Len. csplit; auto.
  - split; cbn.
    + intros j x q Hx Hq. destruct (CASE _ _ Hx) as [Hx'|[-> ->]]; [eapply Hp1; eauto|]. injection Hq as <-. exact Lid.
    + intros j x Hx. destruct (CASE _ _ Hx) as [Hx'|[-> ->]]; [eapply grows_hs; eauto; eapply (ao_all _ K1); eauto|]. exists fh, 0. split; [exact Hc'|exact Ko].
    + intros j x Hx. destruct (CASE _ _ Hx) as [Hx'|[-> ->]]; [eapply (ao_codes _ K1); eauto|exact Dc].
    + apply NoDup_app_intro_ends; [apply (ao_nodup _ K)|]. intros Hin. destruct (ao_queue _ K _ Hin) as (_ & x & Hx & _). apply nth_error_lt in Hx. lia.
    + intros j Hj. apply in_app_iff in Hj. destruct Hj as [Hj|[<-|[]]].
      * rewrite <- Q1 in Hj. destruct (ao_queue _ K1 j Hj) as (Cj & x & Hx & R). split.
        -- intros g y Hy. destruct (CASE _ _ Hy) as [Hy'|[-> ->]]; [eapply Cj; eauto|]. cbn. intros F. injection F as ->. rewrite Q1 in Hj. contradiction.
        -- exists x. split; [rewrite nth_error_app1; [exact Hx|eapply nth_error_lt; eauto]|]. eapply grows_ready; eauto.
      * split.
        -- intros g y Hy F. destruct (CASE _ _ Hy) as [Hy'|[-> ->]].
           ++ pose proof (Hp1 _ _ _ Hy' F). apply nth_error_lt in Hy'. lia.
           ++ cbn in F. injection F as F. lia.
        -- exists c. split; [|exact Rc]. rewrite nth_error_app2, Nat.sub_diag by lia. reflexivity.
    + apply (ao_prog _ K1).
    + apply (ao_built _ K1).
  - rewrite in_app_iff. intros [H|[H|[]]]; [contradiction|lia].
  - eexists. rewrite nth_error_app1 by exact Lid. exact N1.
  - destruct G1 as [A1 B1], G2 as [A2 B2]. split; [lia|]. intros j x Hx. destruct (B1 j x Hx) as (x1 & H1 & P1 & M1). destruct (B2 j x1 H1) as (x2 & H2 & P2 & M2). exists x2. csplit; congruence.
Qed.

(** --- control instructions --- *)
Definition ctl (o : org) (id : nat) : Prop :=
  ok_org o /\ ~ In id (o_queue o) /\ exists e fm, nth_error (o_arena o) id = Some e /\ mrel (heap_at (o_arena o) (x_parent e)) (x_m e) fm /\ pst 0 fm.
Lemma stats_ok o n : ok_org o -> ok_org (set_stats o n).
Proof. intros [A B C D E F G]. split; assumption. Qed.
Lemma rule_dptrs g r : drule r -> dptrs (rule_ptrs g r).
Proof. unfold drule, dptrs, rule_ptrs. intros H. rewrite Forall_map. exact H. Qed.
Lemma query_dptrs g r : drule r -> dptrs (query_ptrs g r).
Proof. unfold drule, dptrs, query_ptrs. intros H. rewrite Forall_map. exact H. Qed.
Lemma plookup_d f p rs : dprog p -> plookup f p = Some rs -> Forall drule rs.
Proof.
  induction 1 as [|[g l] p Hl Hp IH]; cbn; [discriminate|]. destruct (fview_eqb f g); [|exact IH]. intros E. injection E as <-. exact Hl.
Qed.
Lemma spawn_ctl id rs : forall o o', ctl o id -> Forall drule rs -> spawn o id rs = Val o' -> ctl o' id.
Proof.
  induction rs as [|r rs IH]; intros o o' (K & Nq & e & fm & He & M & P) F E; cbn [spawn] in E; [injection E as <-; split; [exact K|]; split; [exact Nq|]; exists e, fm; auto|].
  inv_bind E. apply get_some in Hv. rewrite He in Hv. injection Hv as <-. destruct (x_codes e) as [|c codes] eqn:Ec; [discriminate|]. inv_bind E.
  inversion F as [|? ? F1 F2]; subst. pose proof M as (M1 & M2 & M3 & M4 & M5). destruct P as [[P1 P2] P3].
  destruct (add_ok o id e (m_heap fm) (m_regs (x_m e)) (m_envs (x_m e)) (rule_ptrs (o_pgen o) r ++ codes) v K Nq He M1 P3 ltac:(rewrite M2; exact P1) ltac:(rewrite M5; exact P2)) with (2 := Hv) as (K1 & Nq1 & (ks & N1) & G1).
  { apply Forall_app. split; [now apply rule_dptrs|]. pose proof (ao_codes _ K _ _ He) as D. rewrite Ec in D. inversion D; assumption. }
  apply (IH v o'); auto. split; [exact K1|]. split; [exact Nq1|]. exists (with_kids e ks), fm. split; [exact N1|]. split; [|split; [split; assumption|exact P3]].
  cbn [with_kids x_parent x_m]. eapply mrel_ext; [|exact M]. intros a. apply grows_heap; [apply (ao_par _ K)|exact G1|]. eapply parent_lt; eauto. apply (ao_par _ K).
Qed.
Lemma clear_ok o id e e1 o' : ok_org o -> ~ In id (o_queue o) -> nth_error (o_arena o) id = Some e -> forall s, clear_exec e = Val e1 ->
  put_exec o id (with_state e1 s) = Val o' -> ok_org o' /\ ~ In id (o_queue o').
Proof.
  intros K Nq He s Ec Ep. destruct (clear_same _ _ Ec) as [P1 M1]. assert (D : dptrs (x_codes e1)).
  { unfold clear_exec in Ec. pose proof (ao_codes _ K _ _ He) as D. destruct (x_codes e); [discriminate|]. injection Ec as <-. cbn. inversion D; subst. constructor; [assumption|constructor]. }
  destruct (put_same o id e (with_state e1 s) o' K Nq He P1 M1 D Ep) as (A & B & _). auto.
Qed.

Section Run.
Variable cf : cfg.
Variable fuel : nat.

Lemma instr_busy o id i is st o' : busy o id (i :: is) -> instr_step cf fuel o id i = Val (st, o') ->
  match st with RCont => busy o' id is \/ is = [] /\ ok_org o' | _ => ok_org o' /\ ~ In id (o_queue o') end.
Proof.
  intros (K & Nq & Hc & e & fm & k & He & M & S) E. pose proof (ao_par _ K) as Hp.
  assert (CT : is_local i = false -> is = [] /\ pst 0 fm /\ ((exists f, i = ICall f) \/ i = IProceed \/ i = IDealloc)).
  { intros Hi. destruct S as [[S D]|[S D]]; destruct i; try discriminate Hi; cbn in D; try contradiction; destruct D as [-> ->]; csplit; eauto; now apply gst_pst. }
  destruct (is_local i) eqn:Hi.
  - assert (Hstep : instr_step cf fuel o id i =
     ('(st, m1) <- local_step lheap (lops (heap_at (o_arena o) (x_parent e))) cf (o_sto o) fuel i (x_m e) ;;
      match st with
      | Cont => o1 <- put_exec o id (with_m e m1) ;; Val (RCont, o1)
      | Failing => o1 <- put_exec o id (with_state (with_m e m1) SFail) ;; Val (RFailing, o1)
      | Raise er => o1 <- put_exec o id (with_state (with_m e m1) (SError er)) ;; Val (RRaise er, o1)
      end)).
    { unfold instr_step. destruct i; try discriminate; unfold get_exec; rewrite He; reflexivity. }
    rewrite Hstep in E. clear Hstep. pose proof (local_step_sim _ cf (o_sto o) fuel i (x_m e) fm M) as Hsim.
    destruct (local_step lheap _ cf (o_sto o) fuel i (x_m e)) as [[s1 m1]| |] eqn:E1; cbn [bind] in E; try discriminate E.
    destruct (local_step (list cell) fops cf (o_sto o) fuel i fm) as [[s2 fm1]| |] eqn:E2; cbn [out_rel] in Hsim; try contradiction.
    destruct Hsim as [Es Hm1]. cbn in Es, Hm1. subst s2.
    assert (A : after (exists k', pst k' fm1 /\ dput k' is \/ gst k' fm1 /\ dget k' is) s1 fm1).
    { destruct S as [[S D]|[S D]].
      - pose proof (put_step cf (o_sto o) fuel k i is fm s1 fm1 D Hi S E2) as A. destruct s1; cbn [after] in A |- *; auto. destruct A as (k' & A & B). eauto.
      - pose proof (get_step cf (o_sto o) fuel k i is fm s1 fm1 D Hi S E2) as A. destruct s1; cbn [after] in A |- *; auto. destruct A as (k' & A & B). eauto. }
    destruct s1 as [| |er]; cbn [after] in A.
    + inv_bind E. injection E as <- <-. destruct A as (k' & A). assert (Kh : okh k' (m_heap fm1)) by (destruct A as [[A _]|[A _]]; [apply A|now apply gst_okh]).
      destruct (put_own o id e (with_m e m1) (m_heap fm1) k' v K Nq Hc He eq_refl eq_refl (proj1 Hm1) Kh Hv) as (K1 & Nq1 & C1 & N1 & FR).
      left. split; [exact K1|]. split; [exact Nq1|]. split; [exact C1|]. exists (with_m e m1), fm1, k'. csplit; auto. eapply mrel_ext; [|exact Hm1]. exact FR.
    + inv_bind E. injection E as <- <-. destruct A as (k' & Kh).
      destruct (put_own o id e (with_state (with_m e m1) SFail) (m_heap fm1) k' v K Nq Hc He eq_refl eq_refl (proj1 Hm1) Kh Hv) as (K1 & Nq1 & _). auto.
    + inv_bind E. injection E as <- <-. destruct A as (k' & Kh).
      destruct (put_own o id e (with_state (with_m e m1) (SError er)) (m_heap fm1) k' v K Nq Hc He eq_refl eq_refl (proj1 Hm1) Kh Hv) as (K1 & Nq1 & _). auto.
  - destruct (CT eq_refl) as (-> & P & [[f ->]|[->| ->]]); cbn [instr_step] in E.
    + unfold do_call in E. set (o0 := set_stats o _) in E. assert (K0 : ok_org o0) by now apply stats_ok.
      assert (C0 : ctl o0 id) by (split; [exact K0|]; split; [exact Nq|]; exists e, fm; auto).
      destruct (plookup f (o_prog o0)) as [rs|] eqn:Epl.
      * inv_bind E. inv_bind E. inv_bind E. inv_bind E. injection E as <- <-.
        destruct (spawn_ctl id rs o0 v C0 (plookup_d _ _ _ (ao_prog _ K0) Epl) Hv) as (K1 & Nq1 & _). apply get_some in Hv0.
        right. split; [reflexivity|]. eapply clear_ok; [exact K1|exact Nq1|exact Hv0|exact Hv1|exact Hv2].
      * inv_bind E. inv_bind E. injection E as <- <-. apply get_some in Hv.
        destruct (put_same o0 id v (with_state v SFail) v0 K0 Nq Hv eq_refl eq_refl (ao_codes _ K0 _ _ Hv) Hv0) as (A & B & _). auto.
    + unfold do_proceed in E. inv_bind E. apply get_some in Hv. rewrite He in Hv. injection Hv as <-. destruct (x_codes e) as [|c codes] eqn:Ec; [discriminate|].
      pose proof (ao_codes _ K _ _ He) as D. rewrite Ec in D. inversion D as [|? ? D1 D2]; subst. inv_bind E. destruct v.
      * inv_bind E. inv_bind E. injection E as <- <-. destruct (clear_same _ _ Hv0) as [P1 M1]. cbn in P1, M1.
        assert (Dc : dptrs (x_codes v)). { unfold clear_exec in Hv0. cbn [with_state x_codes] in Hv0. rewrite Ec in Hv0. injection Hv0 as <-. cbn. constructor; [assumption|constructor]. }
        destruct (put_same o id e v v0 K Nq He P1 M1 Dc Hv1) as (A & B & _). auto.
      * inv_bind E. inv_bind E. injection E as <- <-. set (e1 := with_state _ SArchived) in Hv0.
        assert (Dc : dptrs (x_codes e1)) by (cbn; constructor; [assumption|constructor]).
        destruct (put_same o id e e1 v K Nq He eq_refl eq_refl Dc Hv0) as (K1 & Nq1 & N1 & G1 & _).
        destruct M as (M1 & M2 & M3 & M4 & M5). destruct P as [[P1 P2] P3].
        destruct (add_ok v id e1 (m_heap fm) (m_regs (x_m e)) (m_envs (x_m e)) codes v0 K1 Nq1 N1) with (6 := Hv1) as (A & _); auto.
        -- eapply hrel_ext; [|exact M1]. intros a. apply (grows_heap _ _ _ _ Hp G1). exact (parent_lt _ _ _ Hp He).
        -- rewrite M2. exact P1.
        -- rewrite M5. exact P2.
    + unfold do_dealloc in E. inv_bind E. apply get_some in Hv. rewrite He in Hv. injection Hv as <-. destruct (m_envs (x_m e)) as [|en envs] eqn:Ee; [discriminate|].
      destruct (x_codes e) as [|c codes] eqn:Ec; [discriminate|]. inv_bind E. injection E as <- <-. rename v into o1, Hv into Ep. right. split; [reflexivity|].
      pose proof (ao_codes _ K _ _ He) as D. rewrite Ec in D. inversion D as [|? ? D1 D2]; subst. set (e1 := with_codes _ codes) in Ep.
      destruct (put_same o id e e1 o1 K Nq He eq_refl eq_refl D2 Ep) as (K1 & Nq1 & N1 & G1 & Q1 & Ch1). specialize (Ch1 Hc).
      assert (R1 : ready (o_arena o1) e1).
      { destruct M as (M1 & M2 & M3 & M4 & M5). destruct P as [[P1 P2] P3]. exists (set_envs fm envs). split; [|split; [split; cbn; [exact P1|]|exact P3]].
        - split; [|cbn; auto]. cbn [e1 with_codes with_m x_parent x_m set_envs m_heap]. eapply hrel_ext; [|exact M1]. intros a. apply (grows_heap _ _ _ _ Hp G1). exact (parent_lt _ _ _ Hp He).
        - rewrite <- M5, Ee in P2. inversion P2; assumption. }
      destruct K1 as [A1 A2 A3 A4 A5 A6 A7]. split; cbn; auto; [now apply NoDup_app_intro_ends|]. intros j Hj. apply in_app_iff in Hj. destruct Hj as [Hj|[<-|[]]]; [auto|].
      split; [exact Ch1|]. exists e1. auto.
Qed.

Lemma run_ok is : forall o id st o', busy o id is -> run_instrs cf fuel o id is = Val (st, o') -> ok_org o'.
Proof.
  induction is as [|i is IH]; intros o id st o' B E; cbn [run_instrs] in E; [injection E as _ <-; apply B|].
  inv_bind E. destruct v as [s1 o1]. pose proof (instr_busy _ _ _ _ _ _ B Hv) as K.
  assert (G : ok_org o1 /\ ~ In id (o_queue o1) -> (e <- get_exec o1 id ;; e1 <- clear_exec e ;; o2 <- put_exec o1 id e1 ;; Val (s1, o2)) = Val (st, o') -> ok_org o').
  { intros [K1 N1] F. inv_bind F. inv_bind F. inv_bind F. injection F as _ <-. apply get_some in Hv0.
    assert (Es : v0 = with_state v0 (x_state v0)) by (destruct v0; reflexivity). rewrite Es in Hv2. eapply clear_ok; [exact K1|exact N1|exact Hv0|exact Hv1|exact Hv2]. }
  destruct s1; [|now apply G|now apply G]. destruct K as [K|[-> K]]; [eapply IH; eauto|]. cbn in E. injection E as _ <-. exact K.
Qed.
Lemma steps_ok id o is1 o2 : steps cf fuel id o is1 o2 -> forall i is2, busy o id (is1 ++ i :: is2) -> ok_org o2.
Proof.
  induction 1 as [o|o j is o1 o2 E S IH|o j st o1 E N]; intros i is2 B; [apply B| |].
  - cbn [app] in B. destruct (instr_busy _ _ _ _ _ _ B E) as [K|[K _]]; [eapply IH; eauto|]. destruct is; discriminate.
  - cbn [app] in B. pose proof (instr_busy _ _ _ _ _ _ B E) as K. destruct st; [congruence|apply K|apply K].
Qed.
Lemma turn_busy o id q e p ps a o1 : ok_org o -> o_queue o = id :: q -> nth_error (o_arena o) id = Some e -> x_codes e = p :: ps -> follow o p = Val a ->
  put_exec (set_queue o q) id (with_m e (set_regs (x_m e) (resize (m_regs (x_m e)) (ca_regs a)))) = Val o1 -> busy o1 id (ca_code a).
Proof.
  intros K Hq He Hc Hf Hp1. pose proof (ao_nodup _ K) as ND. rewrite Hq in ND. inversion ND as [|? ? Nq ND']; subst.
  destruct (ao_queue _ K id) as (Ch & e' & He' & fm & M & P); [rewrite Hq; left; reflexivity|]. rewrite He in He'. injection He' as <-.
  assert (K0 : ok_org (set_queue o q)).
  { destruct K as [A1 A2 A3 A4 A5 A6 A7]. split; auto. intros j Hj. apply A5. rewrite Hq. right. exact Hj. }
  assert (Da : dcode a).
  { unfold follow in Hf. destruct (Nat.eqb _ _); [|discriminate]. injection Hf as <-. pose proof (ao_codes _ K _ _ He) as D. rewrite Hc in D. inversion D; assumption. }
  destruct (put_same (set_queue o q) id e (with_m e (set_regs (x_m e) (resize (m_regs (x_m e)) (ca_regs a)))) o1 K0 Nq He eq_refl eq_refl (ao_codes _ K _ _ He) Hp1) as (K1 & Nq1 & N1 & G1 & Q1 & Ch1).
  split; [exact K1|]. split; [exact Nq1|]. split; [exact (Ch1 Ch)|]. set (m0 := set_regs (x_m e) _) in *. exists (with_m e m0), (set_regs fm (resize (m_regs fm) (ca_regs a))), 0.
  assert (P0 : pst 0 (set_regs fm (resize (m_regs fm) (ca_regs a)))).
  { destruct P as [[P1 P2] P3]. split; [|exact P3]. split; [|exact P2]. cbn. unfold resize. apply Forall_app. split.
    - apply Forall_forall. intros c Hin. rewrite Forall_forall in P1. apply P1. rewrite <- (firstn_skipn (ca_regs a) (m_regs fm)). apply in_app_iff. left. exact Hin.
    - apply Forall_forall. intros c Hin. apply repeat_spec in Hin. subst. split; [exact I|reflexivity]. }
  csplit.
  - exact N1.
  - destruct M as (M1 & M2 & M3). unfold m0. rewrite M2. cbn [with_m x_parent x_m]. apply mrel_set_regs. eapply mrel_ext; [|split; [exact M1|auto]].
    intros b. exact (grows_heap _ _ _ _ (ao_par _ K) G1 (parent_lt _ _ _ (ao_par _ K) He)).
  - destruct Da as [D|D]; [left; auto|right; split; [now apply pst_gst|exact D]].
Qed.
Lemma turn_ok o r o' : ok_org o -> turn cf fuel o = Val (r, o') -> ok_org o'.
Proof.
  intros K E. unfold turn in E. destruct (o_queue o) as [|id q] eqn:Hq; [injection E as _ <-; exact K|]. inv_bind E. apply get_some in Hv.
  destruct (x_codes v) as [|p ps] eqn:Hc; [discriminate|]. inv_bind E. rename v0 into a, Hv0 into Hf. inv_bind E. rename v0 into o1, Hv0 into Hp1. inv_bind E. destruct v0 as [st o2].
  pose proof (turn_busy o id q v p ps a o1 K Hq Hv Hc Hf Hp1) as B. pose proof (run_ok _ _ _ _ _ B Hv0) as K2.
  assert (G : forall x, (e2 <- get_exec o2 id ;; match x_state e2 with SSuccess => b <- x ;; Val (Some (RAnswer b), o2) | _ => Val (None, o2) end) = Val (r, o') -> ok_org o').
  { intros x F. inv_bind F. destruct (x_state v0); try (injection F as _ <-; exact K2). inv_bind F. injection F as _ <-. exact K2. }
  destruct st; [eapply G; exact E|eapply G; exact E|injection E as _ <-; exact K2].
Qed.
Lemma inside_ok o o2 : ok_org o -> inside cf fuel o o2 -> ok_org o2.
Proof.
  intros K (id & q & e & c & cs & a & is1 & i & is2 & o1 & Hq & He & Hc & Hf & Ha & Hp1 & St).
  pose proof (turn_busy o id q e c cs a o1 K Hq He Hc Hf Hp1) as B. rewrite Ha in B. eapply steps_ok; eauto.
Qed.
Lemma clear_memory_ok o : ok_org o -> ok_org (clear_memory o).
Proof.
  intros K. pose proof (ao_par _ K) as Hp. destruct (o_arena o) as [|e0 es] eqn:Ea.
  - split; unfold clear_memory; cbn [o_arena o_queue o_prog o_built]; rewrite ?Ea.
    + intros [|j] x g Hx; discriminate.
    + intros [|j] x Hx; discriminate.
    + intros [|j] x Hx; discriminate.
    + constructor.
    + intros j [].
    + constructor.
    + constructor.
  - assert (H0 : nth_error (o_arena o) 0 = Some e0) by (rewrite Ea; reflexivity).
    assert (P0 : x_parent e0 = None) by (destruct (x_parent e0) as [g|] eqn:Eg; [pose proof (Hp 0 e0 g eq_refl Eg); lia|reflexivity]).
    assert (ONE : forall j x, nth_error [with_kids e0 []] j = Some x -> j = 0 /\ x = with_kids e0 []) by (intros [|[|j]] x Hx; try discriminate; injection Hx as <-; auto).
    split; unfold clear_memory; cbn [o_arena o_queue o_prog o_built]; rewrite ?Ea.
    + intros j x g Hx Hg. destruct (ONE _ _ Hx) as [-> ->]. cbn in Hg. congruence.
    + intros j x Hx. destruct (ONE _ _ Hx) as [-> ->]. destruct (ao_all _ K _ _ H0) as (fh & k & H & Kh). exists fh, k. split; [|exact Kh]. cbn [with_kids x_parent x_m].
      rewrite P0 in *. eapply hrel_ext; [|exact H]. reflexivity.
    + intros j x Hx. destruct (ONE _ _ Hx) as [-> ->]. exact (ao_codes _ K _ _ H0).
    + constructor.
    + intros j [].
    + constructor.
    + constructor.
Qed.
Lemma answer_ok n : forall k w o r o', ok_org o -> answer_loop cf fuel n k w o = Val (r, o') -> ok_org o'.
Proof.
  induction n as [|n IH]; intros k w o r o' K E; cbn [answer_loop] in E; [discriminate|]. destruct (o_queue o) eqn:Hq; [injection E as _ <-; exact K|].
  destruct (o_limit o <? w_time w k)%Z; [injection E as _ <-; exact K|]. destruct (w_oom w k); [injection E as _ <-; now apply clear_memory_ok|].
  inv_bind E. destruct v as [[r1|] o1]; pose proof (turn_ok _ _ _ K Hv) as K1; [injection E as _ <-; exact K1|eapply IH; eauto].
Qed.
End Run.

Lemma ok_settles o : ok_org o -> all_settle o.
Proof.
  intros K id a (e & He & La). pose proof (ao_par _ K) as Hp. destruct (ao_all _ K id e He) as (fh & k & [Hs Ha] & W).
  assert (R : forall b, Isolation.reads o id b = nth_error fh b) by (intros b; rewrite (reads_at o id e b Hp He); apply Ha).
  rewrite Hs in La. destruct (proj2 W a La) as (n & d & D). exists d. induction D as [a L N|n a b d N D IH].
  - destruct (nth_error fh a) as [c|] eqn:Ec; [|apply nth_error_None in Ec; lia]. eapply sl_here; [rewrite R; exact Ec|].
    unfold next in N. rewrite Ec in N. destruct (proj1 W a c Ec) as (_ & Y & _). destruct c; auto; destruct (Nat.eqb_spec a0 a); try discriminate; auto. exact (Y _ eq_refl e0).
  - pose proof N as N'. unfold next in N'. destruct (nth_error fh a) as [c|] eqn:Ec; [|discriminate].
    assert (Kc : match c with CRef t _ | CStr t => t = b | _ => False end /\ b <> a).
    { destruct c; try discriminate N'; destruct (Nat.eqb_spec a0 a); try discriminate N'; injection N' as <-; auto. }
    eapply sl_next; [rewrite R; exact Ec|apply Kc|apply Kc|]. apply IH. eapply derefs_lt; eauto.
Qed.
