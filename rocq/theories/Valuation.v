(** Valuations of heap addresses, well-formed heaps, dereferencing and unification on flat heaps. *)
From Verif Require Import Base Machine Heap Facts Compiler Spec Print.

Definition fn (sto : storage) (i : Z) : string :=
  match nthZ (s_functors sto) i with Some f => fv_name f | None => EmptyString end.
Definition opn (i : Z) : string := match op_name i with Some s => s | None => EmptyString end.

Section Val.
Variable sto : storage.

(** What a valuation of the addresses by ground terms has to satisfy at a cell. *)
Definition cell_sat (rho : nat -> gterm) (a : nat) (c : cell) : Prop :=
  match c with
  | CCons i => rho a = GCon (fn sto i)
  | CInt n => rho a = GInt n
  | CRef b _ | CStr b => rho a = rho b
  | CFun i n => rho a = GFun (fn sto i) (map rho (seq (S a) (Z.to_nat n)))
  | CEval i n => rho a = GEv (opn i) (map rho (seq (S a) (Z.to_nat n)))
  end.
Definition sat (rho : nat -> gterm) (h : list cell) : Prop :=
  forall a c, nth_error h a = Some c -> cell_sat rho a c.

(** Well-formed cell at address [a] in a heap of size [len] whose last [pend] cells are still to come. *)
Definition wf_cell (len pend a : nat) (c : cell) : Prop :=
  match c with
  | CCons i => exists s, nthZ (s_functors sto) i = Some (FV s 0)
  | CInt n => True
  | CRef b _ => b < len
  | CStr b => b < a
  | CFun i n => (0 <= n)%Z /\ (exists s, nthZ (s_functors sto) i = Some (FV s (Z.to_nat n))) /\
                a + Z.to_nat n < len + pend
  | CEval i n => n = 2%Z /\ (0 <= i <= 4)%Z /\ a + 2 < len + pend
  end.

(** Where following references from an address ends. *)
Definition next (h : list cell) (a : nat) : option nat :=
  match nth_error h a with
  | Some (CRef b _) | Some (CStr b) => if Nat.eqb b a then None else Some b
  | _ => None
  end.
Inductive derefs (h : list cell) : nat -> nat -> nat -> Prop :=
| dr_here a : a < List.length h -> next h a = None -> derefs h 0 a a
| dr_step n a b d : next h a = Some b -> derefs h n b d -> derefs h (S n) a d.

Definition wfh (pend : nat) (h : list cell) : Prop :=
  (forall a c, nth_error h a = Some c -> wf_cell (List.length h) pend a c) /\
  (forall a, a < List.length h -> exists n d, derefs h n a d).

(** A cell that refers to a heap term: what registers contain. *)
Definition addr_of (c : cell) : option nat := match c with CRef a _ | CStr a => Some a | _ => None end.
Lemma addr_of_get c a : addr_of c = Some a <-> get_heap_i c = Val a.
Proof. destruct c; cbn; split; congruence. Qed.

Lemma next_lt h a b : next h a = Some b -> a < List.length h.
Proof. unfold next. intros H. destruct (nth_error h a) eqn:E; [|discriminate]. eapply nth_error_lt, E. Qed.
Lemma derefs_det h n a d : derefs h n a d -> forall m e, derefs h m a e -> n = m /\ d = e.
Proof.
  intros H. induction H as [a Ha Hn|n a b d Hn H IH]; intros m e K; inversion K; subst; try congruence; auto.
  rewrite Hn in H0. injection H0 as <-. apply IH in H1. destruct H1. auto.
Qed.
Lemma derefs_root h n a d : derefs h n a d -> d < List.length h /\ next h d = None.
Proof. intros H. induction H; auto. Qed.
Lemma derefs_lt h n a d : derefs h n a d -> a < List.length h.
Proof. intros H. destruct H; auto. eapply next_lt; eauto. Qed.

Lemma nodup_bound (l : list nat) n : NoDup l -> (forall x, In x l -> x < n) -> List.length l <= n.
Proof.
  intros Hn Hb. rewrite <- (seq_length n 0). apply NoDup_incl_length; [assumption|].
  intros x Hx. apply in_seq. specialize (Hb x Hx). lia.
Qed.
Lemma derefs_bound h n a d : derefs h n a d -> n < List.length h.
Proof.
  intros H.
  assert (K : exists l, List.length l = S n /\ NoDup l /\ forall x, In x l -> exists m, m <= n /\ derefs h m x d).
  { induction H as [a Ha Hn|n a b d Hn H IH].
    - exists [a]. split; [reflexivity|]. split; [repeat constructor; auto|].
      intros x [<-|[]]. exists 0. split; [lia|]. now constructor.
    - destruct IH as (l & Hl & Hnd & Hx). exists (a :: l). cbn. rewrite Hl. split; [reflexivity|]. split.
      + constructor; [|assumption]. intros Hin. destruct (Hx _ Hin) as (m & Hm & Hd).
        destruct (derefs_det _ _ _ _ Hd _ _ (dr_step h n a b d Hn H)). lia.
      + intros x [<-|Hin]; [exists (S n); split; [lia|]; econstructor; eauto|].
        destruct (Hx _ Hin) as (m & Hm & Hd). exists m. split; [lia|assumption]. }
  destruct K as (l & Hl & Hnd & Hx). apply (nodup_bound l (List.length h)) in Hnd; [lia|].
  intros x Hin. destruct (Hx _ Hin) as (m & _ & Hd). eapply derefs_lt; eauto.
Qed.

Lemma deref_aux_unfold n h a :
  deref_aux (list cell) fops (S n) h a =
  if Nat.ltb a (List.length h) then
    match next h a with None => Val a | Some b => deref_aux (list cell) fops n h b end
  else Ub UHeap.
Proof.
  cbn [deref_aux]. unfold at_, next. cbn [h_at fops].
  destruct (Nat.ltb_spec a (List.length h)) as [Hlt|Hge].
  - destruct (nth_error h a) as [c|] eqn:E; [|apply nth_error_None in E; lia].
    cbn [of_opt bind]. destruct c; auto; destruct (Nat.eqb _ _); auto.
  - rewrite (proj2 (nth_error_None h a)) by assumption. reflexivity.
Qed.
Lemma deref_aux_derefs h n a d : derefs h n a d -> forall f, n < f -> deref_aux (list cell) fops f h a = Val d.
Proof.
  intros H. induction H as [a Ha Hn|n a b d Hn H IH]; intros [|f] Hf; try lia; rewrite deref_aux_unfold.
  - rewrite (proj2 (Nat.ltb_lt _ _)) by assumption. now rewrite Hn.
  - rewrite (proj2 (Nat.ltb_lt _ _)) by (eapply next_lt; eauto). rewrite Hn. apply IH. lia.
Qed.
Lemma derefs_deref h n a d : derefs h n a d -> deref (list cell) fops h a = Val d.
Proof.
  intros H. unfold deref. apply (deref_aux_derefs _ _ _ _ H). cbn [h_size fops].
  pose proof (derefs_bound _ _ _ _ H). lia.
Qed.
Lemma deref_derefs h a d : deref (list cell) fops h a = Val d -> exists n, derefs h n a d.
Proof.
  unfold deref. generalize (S (h_size fops h)). intros f. revert a.
  induction f as [|f IH]; intros a H; [discriminate|]. rewrite deref_aux_unfold in H.
  destruct (Nat.ltb_spec a (List.length h)) as [Hlt|]; [|discriminate].
  destruct (next h a) as [b|] eqn:E.
  - destruct (IH _ H) as [n Hn]. exists (S n). econstructor; eauto.
  - injection H as <-. exists 0. now constructor.
Qed.
Lemma wfh_deref p h a : wfh p h -> a < List.length h ->
  exists d, deref (list cell) fops h a = Val d /\ d < List.length h /\ next h d = None /\
            (exists n, derefs h n a d).
Proof.
  intros [_ Hd] Ha. destruct (Hd a Ha) as (n & d & H). exists d.
  split; [eapply derefs_deref; eauto|]. destruct (derefs_root _ _ _ _ H). eauto.
Qed.

Lemma sat_next rho h a b : sat rho h -> next h a = Some b -> rho a = rho b.
Proof.
  intros Hs Hn. unfold next in Hn. destruct (nth_error h a) as [c|] eqn:E; [|discriminate].
  specialize (Hs a c E). destruct c; try discriminate; cbn in Hs;
  destruct (Nat.eqb _ _); try discriminate; congruence.
Qed.
Lemma sat_derefs rho h n a d : sat rho h -> derefs h n a d -> rho a = rho d.
Proof.
  intros Hs H. induction H; [reflexivity|]. rewrite (sat_next _ _ _ _ Hs H). assumption.
Qed.

(** Binding an unbound root to another root. *)
Definition unbound (h : list cell) (d : nat) : Prop := exists v, nth_error h d = Some (CRef d v).

Lemma root_cases p h d : wfh p h -> d < List.length h -> next h d = None ->
  exists c, nth_error h d = Some c /\
    match c with CRef b _ => b = d | CStr _ => False | _ => True end.
Proof.
  intros [Hw _] Hd Hn. unfold next in Hn. destruct (nth_error h d) as [c|] eqn:E.
  - exists c. split; [reflexivity|]. specialize (Hw d c E).
    destruct c; auto; destruct (Nat.eqb_spec a d); try discriminate; cbn in Hw; lia.
  - apply nth_error_None in E. lia.
Qed.

Lemma bind_derefs h d1 d2 v h' : nth_error h d1 = Some (CRef d1 v) -> d1 <> d2 ->
  d2 < List.length h -> next h d2 = None -> upd h d1 (CRef d2 v) = Some h' ->
  forall n a r, derefs h n a r -> exists m, derefs h' m a (if Nat.eqb r d1 then d2 else r).
Proof.
  intros H1 Hne Hd2 Hn2 Hu.
  pose proof (upd_length _ _ _ _ Hu) as Hlen.
  assert (Hnext : forall a, a <> d1 -> next h' a = next h a).
  { intros a Ha. unfold next. rewrite (upd_nth _ _ _ _ _ Hu). now rewrite (proj2 (Nat.eqb_neq _ _) Ha). }
  assert (Hd2' : derefs h' 0 d2 d2). { constructor; [congruence|]. rewrite Hnext; auto. }
  assert (H1' : next h' d1 = Some d2).
  { unfold next. rewrite (upd_nth _ _ _ _ _ Hu), Nat.eqb_refl. now rewrite (proj2 (Nat.eqb_neq _ _)) by auto. }
  intros n a r H. induction H as [a Ha Hn|n a b d Hn H IH].
  - destruct (Nat.eqb_spec a d1) as [->|Hne1].
    + exists 1. econstructor; eauto.
    + exists 0. constructor; [congruence|]. now rewrite Hnext.
  - destruct IH as [m IH]. exists (S m). econstructor; [|exact IH]. rewrite Hnext; [assumption|].
    intros ->. unfold next in Hn. rewrite H1, Nat.eqb_refl in Hn. discriminate.
Qed.

Lemma bind_wfh p h d1 d2 v h' : wfh p h -> nth_error h d1 = Some (CRef d1 v) -> d1 <> d2 ->
  d2 < List.length h -> next h d2 = None -> upd h d1 (CRef d2 v) = Some h' -> wfh p h'.
Proof.
  intros [Hw Hd] H1 Hne Hd2 Hn2 Hu. pose proof (upd_length _ _ _ _ Hu) as Hlen. split.
  - intros a c Ha. rewrite (upd_nth _ _ _ _ _ Hu) in Ha. rewrite Hlen.
    destruct (Nat.eqb_spec a d1) as [->|Hne1]; [|now apply Hw]. injection Ha as <-. exact Hd2.
  - intros a Ha. rewrite Hlen in Ha. destruct (Hd a Ha) as (n & r & Hr).
    destruct (bind_derefs h d1 d2 v h' H1 Hne Hd2 Hn2 Hu _ _ _ Hr) as [m Hm]. eauto.
Qed.

Lemma bind_sat rho h d1 d2 v h' : nth_error h d1 = Some (CRef d1 v) -> upd h d1 (CRef d2 v) = Some h' ->
  (sat rho h' <-> sat rho h /\ rho d1 = rho d2).
Proof.
  intros H1 Hu. split.
  - intros Hs. split.
    + intros a c Ha. destruct (Nat.eqb_spec a d1) as [->|Hne].
      * rewrite H1 in Ha. injection Ha as <-. reflexivity.
      * apply Hs. rewrite (upd_nth _ _ _ _ _ Hu). now rewrite (proj2 (Nat.eqb_neq _ _) Hne).
    + apply (Hs d1 (CRef d2 v)). rewrite (upd_nth _ _ _ _ _ Hu). now rewrite Nat.eqb_refl.
  - intros [Hs He] a c Ha. rewrite (upd_nth _ _ _ _ _ Hu) in Ha. destruct (Nat.eqb_spec a d1) as [->|Hne].
    + injection Ha as <-. exact He.
    + now apply Hs.
Qed.

Lemma bind_ref_eq h d t v : nth_error h d = Some (CRef d v) ->
  exists h', bind_ref (list cell) fops h d t = Val h' /\ upd h d (CRef t v) = Some h'.
Proof.
  intros H. unfold bind_ref, at_, hset. cbn [h_at h_set fops]. rewrite H. cbn [of_opt bind].
  destruct (upd_some h d (CRef t v)) as [h' Hh]; [eapply nth_error_lt; eauto|]. exists h'. rewrite Hh. auto.
Qed.

(** Functor table *)
Hypothesis nodup : NoDup (s_functors sto).
Lemma nthZ_inj i j f : nthZ (s_functors sto) i = Some f -> nthZ (s_functors sto) j = Some f -> i = j.
Proof.
  unfold nthZ. destruct (Z.ltb_spec i 0); [discriminate|]. destruct (Z.ltb_spec j 0); [discriminate|].
  intros Hi Hj. assert (Z.to_nat i = Z.to_nat j); [|lia].
  eapply (proj1 (NoDup_nth_error _) nodup); [eapply nth_error_lt; eauto|congruence].
Qed.
Lemma fn_inj i j s t n m : nthZ (s_functors sto) i = Some (FV s n) -> nthZ (s_functors sto) j = Some (FV t m) ->
  fn sto i = fn sto j -> n = m -> i = j.
Proof. unfold fn. intros Hi Hj He ->. rewrite Hi, Hj in He. cbn in He. subst t. eapply nthZ_inj; eauto. Qed.
Lemma opn_inj i j : (0 <= i <= 4)%Z -> (0 <= j <= 4)%Z -> opn i = opn j -> i = j.
Proof.
  intros Hi Hj.
  assert (Ci : (i = 0 \/ i = 1 \/ i = 2 \/ i = 3 \/ i = 4)%Z) by lia.
  assert (Cj : (j = 0 \/ j = 1 \/ j = 2 \/ j = 3 \/ j = 4)%Z) by lia.
  destruct Ci as [->|[->|[->|[->| ->]]]], Cj as [->|[->|[->|[->| ->]]]]; cbn; intros H; try reflexivity; discriminate.
Qed.

(** The equations on the push-down list. *)
Fixpoint eqs (rho : nat -> gterm) (pdl : list nat) : Prop :=
  match pdl with
  | a :: b :: r => rho a = rho b /\ eqs rho r
  | _ => True
  end.
Fixpoint even_list (pdl : list nat) : Prop :=
  match pdl with
  | [] => True
  | [_] => False
  | _ :: _ :: r => even_list r
  end.
Definition pdl_ok (h : list cell) (pdl : list nat) : Prop :=
  even_list pdl /\ forall a, In a pdl -> a < List.length h.

Lemma push_args_eqs rho n : forall i d1 d2 pdl,
  eqs rho (push_args n i d1 d2 pdl) <->
  map rho (seq (d1 + i) n) = map rho (seq (d2 + i) n) /\ eqs rho pdl.
Proof.
  induction n as [|n IH]; intros i d1 d2 pdl; cbn [push_args seq map].
  - tauto.
  - rewrite IH. cbn [eqs]. replace (d1 + S i) with (S (d1 + i)) by lia. replace (d2 + S i) with (S (d2 + i)) by lia.
    split.
    + intros [A [B C]]. split; [|assumption]. f_equal; auto.
    + intros [A C]. injection A as A B. auto.
Qed.
Lemma push_args_even n : forall i d1 d2 pdl, even_list pdl -> even_list (push_args n i d1 d2 pdl).
Proof. induction n as [|n IH]; intros i d1 d2 pdl H; cbn; auto. Qed.
Lemma push_args_in n : forall i d1 d2 pdl x, In x (push_args n i d1 d2 pdl) ->
  In x pdl \/ exists k, i <= k < i + n /\ (x = d1 + k \/ x = d2 + k).
Proof.
  induction n as [|n IH]; intros i d1 d2 pdl x H; cbn in H; auto.
  apply IH in H. destruct H as [[<-|[<-|H]]|(k & Hk & Hx)]; auto.
  - right. exists i. split; [lia|auto].
  - right. exists i. split; [lia|auto].
  - right. exists k. split; [lia|auto].
Qed.

Lemma seq_shift_1 d n : seq (S d) n = seq (d + 1) n.
Proof. f_equal. lia. Qed.

Definition same_shape (h h' : list cell) : Prop :=
  List.length h' = List.length h /\
  forall a c, nth_error h a = Some c ->
    match c with
    | CRef b v => exists b', nth_error h' a = Some (CRef b' v) /\ (b <> a -> b' = b)
    | _ => nth_error h' a = Some c
    end.
Lemma same_shape_refl h : same_shape h h.
Proof. split; [reflexivity|]. intros a c H. destruct c; eauto. Qed.
Lemma same_shape_trans h1 h2 h3 : same_shape h1 h2 -> same_shape h2 h3 -> same_shape h1 h3.
Proof.
  intros [L1 S1] [L2 S2]. split; [congruence|]. intros a c H. specialize (S1 a c H).
  destruct c as [| |b v| | |]; try (now apply (S2 a _ S1)).
  destruct S1 as (b' & Hb & Hk). destruct (S2 _ _ Hb) as (b'' & Hb' & Hk'). exists b''. split; [assumption|].
  intros Hne. specialize (Hk Hne). subst b'. now apply Hk'.
Qed.
Lemma bind_same_shape h d1 d2 v h' : nth_error h d1 = Some (CRef d1 v) -> upd h d1 (CRef d2 v) = Some h' ->
  same_shape h h'.
Proof.
  intros H1 Hu. split; [eapply upd_length; eauto|]. intros a c Ha. rewrite (upd_nth _ _ _ _ _ Hu).
  destruct (Nat.eqb_spec a d1) as [->|Hne].
  - rewrite H1 in Ha. injection Ha as <-. exists d2. split; [reflexivity|]. congruence.
  - destruct c; eauto.
Qed.

(** Both directions of unification, and no undefined behaviour. *)
Lemma unify_loop_spec fuel : forall h pdl, wfh 0 h -> pdl_ok h pdl ->
  match unify_loop (list cell) fops fuel h pdl with
  | Val (ok, h') =>
      wfh 0 h' /\ same_shape h h' /\
      if ok then forall rho, sat rho h' <-> sat rho h /\ eqs rho pdl
      else forall rho, sat rho h -> ~ eqs rho pdl
  | Ub _ => False
  | Fuel => True
  end.
Proof.
  induction fuel as [|fuel IH]; intros h pdl Hw [He Hin]; destruct pdl as [|a [|b rest]]; cbn [unify_loop];
    cbn [even_list] in He; try contradiction; auto.
  1,2: split; [assumption|]; split; [apply same_shape_refl|]; intros rho; cbn [eqs]; tauto.
  destruct (wfh_deref _ _ a Hw) as (d1 & -> & Hd1 & Hn1 & n1 & Hr1); [apply Hin; cbn; auto|].
  destruct (wfh_deref _ _ b Hw) as (d2 & -> & Hd2 & Hn2 & n2 & Hr2); [apply Hin; cbn; auto|].
  cbn [bind].
  assert (Hrest : pdl_ok h rest) by (split; [assumption|]; intros x Hx; apply Hin; cbn; auto).
  assert (Hab : forall rho, sat rho h -> (rho a = rho b <-> rho d1 = rho d2)).
  { intros rho Hs. rewrite (sat_derefs _ _ _ _ _ Hs Hr1), (sat_derefs _ _ _ _ _ Hs Hr2). tauto. }
  destruct (Nat.eqb_spec d1 d2) as [->|Hne].
  { specialize (IH h rest Hw Hrest). destruct (unify_loop _ _ fuel h rest) as [[ok h']| |]; auto.
    destruct IH as (A & B & C). split; [assumption|]. split; [assumption|]. cbn [eqs]. destruct ok.
    - intros rho. rewrite C. split; [intros [Hs Hq]; split; auto; split; auto; apply Hab; auto|tauto].
    - intros rho Hs [_ Hq]. exact (C rho Hs Hq). }
  destruct (root_cases _ _ d1 Hw Hd1 Hn1) as (c1 & Hc1 & Hk1).
  destruct (root_cases _ _ d2 Hw Hd2 Hn2) as (c2 & Hc2 & Hk2).
  unfold at_. cbn [h_at fops]. rewrite Hc1, Hc2. cbn [of_opt bind].
  assert (Hbind1 : forall v, c1 = CRef d1 v ->
    match (h' <- bind_ref (list cell) fops h d1 d2 ;; unify_loop (list cell) fops fuel h' rest) with
    | Val (ok, h') =>
        wfh 0 h' /\ same_shape h h' /\
        if ok then forall rho, sat rho h' <-> sat rho h /\ eqs rho (a :: b :: rest)
        else forall rho, sat rho h -> ~ eqs rho (a :: b :: rest)
    | Ub _ => False
    | Fuel => True
    end).
  { intros v ->. destruct (bind_ref_eq h d1 d2 v Hc1) as (h1 & -> & Hu). cbn [bind].
    pose proof (bind_wfh _ _ _ _ _ _ Hw Hc1 Hne Hd2 Hn2 Hu) as Hw1.
    pose proof (bind_same_shape _ _ _ _ _ Hc1 Hu) as Hsh1.
    assert (Hrest1 : pdl_ok h1 rest).
    { destruct Hrest as [R1 R2]. split; [assumption|]. rewrite (upd_length _ _ _ _ Hu). assumption. }
    specialize (IH h1 rest Hw1 Hrest1). destruct (unify_loop _ _ fuel h1 rest) as [[ok h']| |]; auto.
    destruct IH as (A & B & C). split; [assumption|]. split; [eapply same_shape_trans; eauto|].
    pose proof (fun rho => bind_sat rho _ _ _ _ _ Hc1 Hu) as Hbs. cbn [eqs]. destruct ok.
    - intros rho. rewrite C, Hbs. split.
      + intros [[Hs Hq] Hr]. split; [assumption|]. split; [apply Hab; assumption|assumption].
      + intros [Hs [Hq Hr]]. split; [split; [assumption|apply Hab; assumption]|assumption].
    - intros rho Hs [Hq Hr]. apply (C rho); [|assumption]. apply Hbs. split; [assumption|]. now apply Hab. }
  assert (Hbind2 : forall v, c2 = CRef d2 v ->
    match (h' <- bind_ref (list cell) fops h d2 d1 ;; unify_loop (list cell) fops fuel h' rest) with
    | Val (ok, h') =>
        wfh 0 h' /\ same_shape h h' /\
        if ok then forall rho, sat rho h' <-> sat rho h /\ eqs rho (a :: b :: rest)
        else forall rho, sat rho h -> ~ eqs rho (a :: b :: rest)
    | Ub _ => False
    | Fuel => True
    end).
  { intros v ->. destruct (bind_ref_eq h d2 d1 v Hc2) as (h1 & -> & Hu). cbn [bind].
    pose proof (bind_wfh _ _ _ _ _ _ Hw Hc2 (not_eq_sym Hne) Hd1 Hn1 Hu) as Hw1.
    pose proof (bind_same_shape _ _ _ _ _ Hc2 Hu) as Hsh1.
    assert (Hrest1 : pdl_ok h1 rest).
    { destruct Hrest as [R1 R2]. split; [assumption|]. rewrite (upd_length _ _ _ _ Hu). assumption. }
    specialize (IH h1 rest Hw1 Hrest1). destruct (unify_loop _ _ fuel h1 rest) as [[ok h']| |]; auto.
    destruct IH as (A & B & C). split; [assumption|]. split; [eapply same_shape_trans; eauto|].
    pose proof (fun rho => bind_sat rho _ _ _ _ _ Hc2 Hu) as Hbs. cbn [eqs]. destruct ok.
    - intros rho. rewrite C, Hbs. split.
      + intros [[Hs Hq] Hr]. split; [assumption|]. split; [apply Hab; auto|assumption].
      + intros [Hs [Hq Hr]]. split; [split; [assumption|symmetry; apply Hab; assumption]|assumption].
    - intros rho Hs [Hq Hr]. apply (C rho); [|assumption]. apply Hbs. split; [assumption|]. symmetry. now apply Hab. }
  assert (Hfail : (forall rho, sat rho h -> rho d1 <> rho d2) ->
        wfh 0 h /\ same_shape h h /\ forall rho, sat rho h -> ~ eqs rho (a :: b :: rest)).
  { intros K. split; [assumption|]. split; [apply same_shape_refl|]. intros rho Hs [Hq _].
    apply (K rho Hs). now apply Hab. }
  assert (Hsame : (forall rho, sat rho h -> rho d1 = rho d2) ->
    match unify_loop (list cell) fops fuel h rest with
    | Val (ok, h') =>
        wfh 0 h' /\ same_shape h h' /\
        if ok then forall rho, sat rho h' <-> sat rho h /\ eqs rho (a :: b :: rest)
        else forall rho, sat rho h -> ~ eqs rho (a :: b :: rest)
    | Ub _ => False
    | Fuel => True
    end).
  { intros K. specialize (IH h rest Hw Hrest). destruct (unify_loop _ _ fuel h rest) as [[ok h']| |]; auto.
    destruct IH as (A & B & C). split; [assumption|]. split; [assumption|]. cbn [eqs]. destruct ok.
    - intros rho. rewrite C. split; [intros [Hs Hq]; split; auto; split; auto; apply Hab; auto|tauto].
    - intros rho Hs [_ Hq]. exact (C rho Hs Hq). }
  assert (Hpush : forall n, (forall rho, sat rho h ->
        (rho d1 = rho d2 <-> map rho (seq (S d1) n) = map rho (seq (S d2) n))) ->
        d1 + n < List.length h -> d2 + n < List.length h ->
    match unify_loop (list cell) fops fuel h (push_args n 1 d1 d2 rest) with
    | Val (ok, h') =>
        wfh 0 h' /\ same_shape h h' /\
        if ok then forall rho, sat rho h' <-> sat rho h /\ eqs rho (a :: b :: rest)
        else forall rho, sat rho h -> ~ eqs rho (a :: b :: rest)
    | Ub _ => False
    | Fuel => True
    end).
  { intros n K L1 L2. assert (Hok : pdl_ok h (push_args n 1 d1 d2 rest)).
    { destruct Hrest as [R1 R2]. split; [now apply push_args_even|]. intros x Hx. apply push_args_in in Hx.
      destruct Hx as [Hx|(k & Hk & [->| ->])]; [auto|lia|lia]. }
    specialize (IH h _ Hw Hok). destruct (unify_loop _ _ fuel h _) as [[ok h']| |]; auto.
    destruct IH as (A & B & C). split; [assumption|]. split; [assumption|]. cbn [eqs].
    assert (E : forall rho, sat rho h -> (eqs rho (push_args n 1 d1 d2 rest) <-> rho a = rho b /\ eqs rho rest)).
    { intros rho Hs. rewrite push_args_eqs, Hab, K by assumption. rewrite !seq_shift_1. tauto. }
    destruct ok.
    - intros rho. rewrite C. split; intros [Hs Hq]; (split; [assumption|]); apply (E rho Hs); assumption.
    - intros rho Hs Hq. apply (C rho Hs). now apply (E rho Hs). }
  destruct Hw as [Hwc _]. pose proof (Hwc _ _ Hc1) as W1. pose proof (Hwc _ _ Hc2) as W2.
  assert (S1 : forall rho, sat rho h -> cell_sat rho d1 c1) by (intros rho Hs; apply Hs; assumption).
  assert (S2 : forall rho, sat rho h -> cell_sat rho d2 c2) by (intros rho Hs; apply Hs; assumption).
  destruct c1 as [i1|z1|r1 v1|i1 n1'|i1 n1'|r1]; [| |subst r1; exact (Hbind1 _ eq_refl)| | |contradiction];
    (destruct c2 as [i2|z2|r2 v2|i2 n2'|i2 n2'|r2]; [| |subst r2; exact (Hbind2 _ eq_refl)| | |contradiction]);
    cbn in W1, W2;
    try (apply Hfail; intros rho Hs E; specialize (S1 rho Hs); specialize (S2 rho Hs); cbn in S1, S2; congruence).
  - destruct (Z.eqb_spec i1 i2) as [->|Hi].
    + apply Hsame. intros rho Hs. rewrite (S1 rho Hs), (S2 rho Hs). reflexivity.
    + apply Hfail. intros rho Hs E. specialize (S1 rho Hs). specialize (S2 rho Hs). cbn in S1, S2.
      rewrite S1, S2 in E. injection E as E. destruct W1 as [s1 W1], W2 as [s2 W2].
      apply Hi. eapply fn_inj; eauto.
  - destruct (Z.eqb_spec z1 z2) as [->|Hi].
    + apply Hsame. intros rho Hs. rewrite (S1 rho Hs), (S2 rho Hs). reflexivity.
    + apply Hfail. intros rho Hs E. specialize (S1 rho Hs). specialize (S2 rho Hs). cbn in S1, S2.
      rewrite S1, S2 in E. congruence.
  - destruct W1 as (P1 & (s1 & W1) & B1), W2 as (P2 & (s2 & W2) & B2).
    destruct (Z.eqb_spec i1 i2) as [->|Hi].
    + rewrite W1 in W2. injection W2 as _ W2. apply Hpush; try lia. intros rho Hs.
      rewrite (S1 rho Hs), (S2 rho Hs). rewrite W2. split; [intros E; injection E; auto|intros ->; reflexivity].
    + apply Hfail. intros rho Hs E. rewrite (S1 rho Hs), (S2 rho Hs) in E. injection E as E1 E2.
      apply Hi. eapply fn_inj; eauto. apply (f_equal (@List.length _)) in E2.
      rewrite !map_length, !seq_length in E2. assumption.
  - destruct W1 as (P1 & O1 & B1), W2 as (P2 & O2 & B2). subst n1' n2'.
    destruct (Z.eqb_spec i1 i2) as [->|Hi].
    + apply Hpush; try (cbn; lia). intros rho Hs. rewrite (S1 rho Hs), (S2 rho Hs).
      split; [intros E; change (Z.to_nat 2) with 2 in *; cbn in E |- *; inversion E; congruence|intros E; f_equal; exact E].
    + apply Hfail. intros rho Hs E. rewrite (S1 rho Hs), (S2 rho Hs) in E. injection E as E1 E2.
      apply Hi. now apply opn_inj.
Qed.

(** Termination when a solution exists. *)
Fixpoint gsize (t : gterm) : nat :=
  match t with
  | GFun _ l | GEv _ l => S (fold_right (fun t n => gsize t + n) 0 l)
  | _ => 1
  end.
Definition gsizes (l : list gterm) : nat := fold_right (fun t n => gsize t + n) 0 l.
Fixpoint pdl_size (rho : nat -> gterm) (pdl : list nat) : nat :=
  match pdl with
  | a :: _ :: r => gsize (rho a) + pdl_size rho r
  | _ => 0
  end.
Lemma gsize_pos t : 0 < gsize t.
Proof. destruct t; cbn; lia. Qed.
Lemma push_args_size rho n : forall i d1 d2 pdl,
  pdl_size rho (push_args n i d1 d2 pdl) = gsizes (map rho (seq (d2 + i) n)) + pdl_size rho pdl.
Proof.
  induction n as [|n IH]; intros i d1 d2 pdl; cbn [push_args seq map gsizes fold_right]; [reflexivity|].
  rewrite IH. cbn [pdl_size]. replace (d2 + S i) with (S (d2 + i)) by lia. unfold gsizes. lia.
Qed.

Lemma unify_loop_terminates rho fuel : forall h pdl, wfh 0 h -> pdl_ok h pdl -> sat rho h -> eqs rho pdl ->
  pdl_size rho pdl <= fuel ->
  exists h', unify_loop (list cell) fops fuel h pdl = Val (true, h') /\ sat rho h'.
Proof.
  intros h pdl Hw Hok Hs Hq Hf.
  assert (K : unify_loop (list cell) fops fuel h pdl <> Fuel).
  { revert h pdl Hw Hok Hs Hq Hf.
    induction fuel as [|fuel IH]; intros h pdl Hw Hok Hs Hq Hf; pose proof Hok as [He Hin];
      destruct pdl as [|a [|b rest]]; cbn [unify_loop]; cbn [even_list] in He; try contradiction; try discriminate.
    { cbn [pdl_size] in Hf. pose proof (gsize_pos (rho a)). lia. }
    destruct (wfh_deref _ _ a Hw) as (d1 & E1 & Hd1 & Hn1 & n1 & Hr1); [apply Hin; cbn; auto|]. rewrite E1.
    destruct (wfh_deref _ _ b Hw) as (d2 & E2 & Hd2 & Hn2 & n2 & Hr2); [apply Hin; cbn; auto|]. rewrite E2.
    cbn [bind].
    assert (Hrest : pdl_ok h rest) by (split; [assumption|]; intros x Hx; apply Hin; cbn; auto).
    cbn [eqs] in Hq. destruct Hq as [Hq0 Hq]. cbn [pdl_size] in Hf. pose proof (gsize_pos (rho a)) as Hpos.
    assert (Ha1 : rho a = rho d1) by (eapply sat_derefs; eauto).
    assert (Hb2 : rho b = rho d2) by (eapply sat_derefs; eauto).
    destruct (Nat.eqb_spec d1 d2) as [->|Hne]; [apply IH; auto; lia|].
    destruct (root_cases _ _ d1 Hw Hd1 Hn1) as (c1 & Hc1 & Hk1).
    destruct (root_cases _ _ d2 Hw Hd2 Hn2) as (c2 & Hc2 & Hk2).
    unfold at_. cbn [h_at fops]. rewrite Hc1, Hc2. cbn [of_opt bind].
    assert (Hb : forall d e v, nth_error h d = Some (CRef d v) -> d <> e -> e < List.length h -> next h e = None ->
       rho d = rho e -> (h' <- bind_ref (list cell) fops h d e ;; unify_loop (list cell) fops fuel h' rest) <> Fuel).
    { intros d e v Hd Hde Hel Hen Heq. destruct (bind_ref_eq h d e v Hd) as (h1 & -> & Hu). cbn [bind].
      apply IH; auto; try lia.
      - eapply bind_wfh; eauto.
      - destruct Hrest. split; auto. now rewrite (upd_length _ _ _ _ Hu).
      - apply (bind_sat rho _ _ _ _ _ Hd Hu). auto. }
    assert (Hpush : forall n, d1 + n < List.length h -> d2 + n < List.length h ->
       map rho (seq (S d1) n) = map rho (seq (S d2) n) -> gsize (rho d2) = S (gsizes (map rho (seq (S d2) n))) ->
       unify_loop (list cell) fops fuel h (push_args n 1 d1 d2 rest) <> Fuel).
    { intros n L1 L2 Em Eg. apply IH; auto.
      - destruct Hrest as [R1 R2]. split; [now apply push_args_even|]. intros x Hx. apply push_args_in in Hx.
        destruct Hx as [Hx|(k & Hk & [->| ->])]; [auto|lia|lia].
      - rewrite push_args_eqs. rewrite <- !seq_shift_1. auto.
      - rewrite push_args_size. rewrite <- seq_shift_1.
        replace (rho a) with (rho d2) in Hf by congruence. lia. }
    assert (S1 : cell_sat rho d1 c1) by (apply Hs; assumption).
    assert (S2 : cell_sat rho d2 c2) by (apply Hs; assumption).
    pose proof (proj1 Hw _ _ Hc1) as W1. pose proof (proj1 Hw _ _ Hc2) as W2.
    destruct c1 as [i1|z1|r1 v1|i1 n1'|i1 n1'|r1]; [| |subst r1; apply (Hb d1 d2 v1); auto; congruence| | |contradiction];
      (destruct c2 as [i2|z2|r2 v2|i2 n2'|i2 n2'|r2]; [| |subst r2; apply (Hb d2 d1 v2); auto; congruence| | |contradiction]);
      cbn in S1, S2, W1, W2; try discriminate.
    - destruct (Z.eqb i1 i2); [apply IH; auto; lia|discriminate].
    - destruct (Z.eqb z1 z2); [apply IH; auto; lia|discriminate].
    - destruct (Z.eqb_spec i1 i2) as [->|]; [|discriminate].
      destruct W1 as (P1 & (s1 & W1) & B1), W2 as (P2 & (s2 & W2) & B2).
      rewrite W1 in W2. injection W2 as _ W2. apply Hpush; try lia.
      + rewrite <- Ha1, Hq0, Hb2, S2 in S1. injection S1 as S1. rewrite W2 in *. symmetry. assumption.
      + rewrite S2. cbn. rewrite W2. reflexivity.
    - destruct (Z.eqb_spec i1 i2) as [->|]; [|discriminate].
      destruct W1 as (P1 & O1 & B1), W2 as (P2 & O2 & B2). subst n1' n2'. apply Hpush; try (cbn; lia).
      + rewrite <- Ha1, Hq0, Hb2, S2 in S1. change (Z.to_nat 2) with 2 in *. cbn in S1 |- *. inversion S1. congruence.
      + rewrite S2. reflexivity. }
  pose proof (unify_loop_spec fuel h pdl Hw Hok) as Sp.
  destruct (unify_loop (list cell) fops fuel h pdl) as [[[] h']| |]; try contradiction; try congruence.
  - exists h'. split; [reflexivity|]. apply Sp. auto.
  - destruct Sp as (_ & _ & Sp). exfalso. exact (Sp rho Hs Hq).
Qed.
End Val.
