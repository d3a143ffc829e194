(** The terms on a heap, and their printing. *)
From Verif Require Import Base Machine Heap Facts Compiler Spec Print Valuation.
Open Scope string_scope.
Open Scope list_scope.

Section Terms.
Variable sto : storage.
Variable h : list cell.
Notation len := (@List.length cell).

(** [rd a t]: address [a] holds the term [t]; an unbound variable is identified by its address, its name is left open. *)
Inductive rd : nat -> tm -> Prop :=
| rd_next a b t : next h a = Some b -> rd b t -> rd a t
| rd_var a v nm : nth_error h a = Some (CRef a v) -> rd a (TVar a nm)
| rd_con a i : nth_error h a = Some (CCons i) -> rd a (TCon (fn sto i))
| rd_int a n : nth_error h a = Some (CInt n) -> rd a (TInt n)
| rd_fun a i n l : nth_error h a = Some (CFun i n) -> rds (S a) (Z.to_nat n) l -> rd a (TFun (fn sto i) l)
| rd_ev a i n l : nth_error h a = Some (CEval i n) -> rds (S a) (Z.to_nat n) l -> rd a (TEv (opn i) l)
with rds : nat -> nat -> list tm -> Prop :=
| rds_nil a : rds a 0 []
| rds_cons a n t l : rd a t -> rds (S a) n l -> rds a (S n) (t :: l).
Scheme rd_mut := Minimality for rd Sort Prop with rds_mut := Minimality for rds Sort Prop.

Lemma next_ref a b : next h a = Some b -> (exists v, nth_error h a = Some (CRef b v) /\ b <> a) \/ (nth_error h a = Some (CStr b) /\ b <> a).
Proof.
  unfold next. destruct (nth_error h a) as [[i|n|x v|i n|i n|x]|]; try discriminate; destruct (Nat.eqb_spec x a); try discriminate;
  intros E; injection E as <-; eauto.
Qed.

Lemma sat_rd rho : sat sto rho h -> forall a t, rd a t -> rho a = ginst rho t.
Proof.
  intros Hs. apply (rd_mut (fun a t => rho a = ginst rho t) (fun a n l => map rho (seq a n) = map (ginst rho) l)); intros; auto.
  - rewrite (sat_next _ _ _ _ _ Hs H). assumption.
  - apply (Hs _ _ H).
  - apply (Hs _ _ H).
  - pose proof (Hs _ _ H) as E. cbn [cell_sat] in E. rewrite E, H1. reflexivity.
  - pose proof (Hs _ _ H) as E. cbn [cell_sat] in E. rewrite E, H1. reflexivity.
  - cbn. congruence.
Qed.

Lemma rd_inv a t : rd a t -> next h a = None ->
  match nth_error h a with
  | Some (CCons i) => t = TCon (fn sto i)
  | Some (CInt n) => t = TInt n
  | Some (CRef b v) => b = a -> exists nm, t = TVar a nm
  | Some (CFun i n) => exists l, t = TFun (fn sto i) l /\ rds (S a) (Z.to_nat n) l
  | Some (CEval i n) => exists l, t = TEv (opn i) l /\ rds (S a) (Z.to_nat n) l
  | _ => True
  end.
Proof. intros H N. inversion H; subst; try congruence; match goal with E : nth_error h _ = _ |- _ => rewrite E end; eauto. Qed.
Lemma rd_step a b t : next h a = Some b -> rd a t -> rd b t.
Proof.
  intros N H. inversion H as [x y u E R|x v nm E|x i E|x n E|x i n l E R|x i n l E R]; subst;
  try (unfold next in N; rewrite E in N; try rewrite Nat.eqb_refl in N; discriminate). congruence.
Qed.

Lemma rd_agree g a t : rd a t -> forall t', rd a t' -> ginst g t = ginst g t'.
Proof.
  revert a t. apply (rd_mut (fun a t => forall t', rd a t' -> ginst g t = ginst g t')
    (fun a n l => forall l', rds a n l' -> map (ginst g) l = map (ginst g) l')).
  - intros a b t N R IH t' R'. apply IH. eapply rd_step; eauto.
  - intros a v nm E t' R'. apply rd_inv in R'; [|unfold next; now rewrite E, Nat.eqb_refl]. rewrite E in R'.
    destruct (R' eq_refl) as (nm' & ->). reflexivity.
  - intros a i E t' R'. apply rd_inv in R'; [|unfold next; now rewrite E]. rewrite E in R'. now subst.
  - intros a n E t' R'. apply rd_inv in R'; [|unfold next; now rewrite E]. rewrite E in R'. now subst.
  - intros a i n l E R IH t' R'. apply rd_inv in R'; [|unfold next; now rewrite E]. rewrite E in R'.
    destruct R' as (l' & -> & R'). cbn. now rewrite (IH l' R').
  - intros a i n l E R IH t' R'. apply rd_inv in R'; [|unfold next; now rewrite E]. rewrite E in R'.
    destruct R' as (l' & -> & R'). cbn. now rewrite (IH l' R').
  - intros a l' R. inversion R. reflexivity.
  - intros a n t l R IH Rs IHs l' R'. inversion R' as [|? ? t' l1 R1 R2]; subst. cbn. now rewrite (IH t' R1), (IHs l1 R2).
Qed.

Hypothesis W : wfh sto 0 h.

Lemma rd_derefs n a d t : derefs h n a d -> rd d t -> rd a t.
Proof. intros D R. induction D as [|n a b d N D IH]; [assumption|]. eapply rd_next; eauto. Qed.
Lemma rd_derefs_inv n a d t : derefs h n a d -> rd a t -> rd d t.
Proof. intros D R. induction D as [|n a b d N D IH]; [assumption|]. apply IH. eapply rd_step; eauto. Qed.

Lemma gsizes_in t l : In t l -> gsize t <= gsizes l.
Proof. induction l as [|u l IH]; [intros []|]. intros [->|H]; cbn; [lia|]. specialize (IH H). unfold gsizes in IH. lia. Qed.

Lemma rd_exists rho : sat sto rho h -> forall a, a < len h -> exists t, rd a t.
Proof.
  intros Hs. assert (G : forall k a, gsize (rho a) <= k -> a < len h -> exists t, rd a t).
  { induction k as [|k IH]; intros a Hk Ha; [pose proof (gsize_pos (rho a)); lia|].
    destruct (proj2 W a Ha) as (n & d & D). rewrite (sat_derefs sto _ _ _ _ _ Hs D) in Hk.
    destruct (derefs_root _ _ _ _ D) as [Ld Nd]. destruct (root_cases sto 0 h d W Ld Nd) as (c & Ec & Hc).
    assert (K : forall m b, (forall x, b <= x < b + m -> x < len h /\ gsize (rho x) <= k) -> exists l, rds b m l).
    { induction m as [|m IHm]; intros b Hb; [exists []; constructor|].
      destruct (Hb b) as [B1 B2]; [lia|]. destruct (IH b B2 B1) as (t & Rt).
      destruct (IHm (S b)) as (l & Rl); [intros x Hx; apply Hb; lia|]. exists (t :: l). now constructor. }
    assert (KS : forall m, gsizes (map rho (seq (S d) m)) <= k -> d + m < len h -> exists l, rds (S d) m l).
    { intros m Hm Lm. apply K. intros x Hx. split; [lia|]. eapply Nat.le_trans; [|exact Hm]. apply gsizes_in, in_map, in_seq. lia. }
    pose proof (Hs d c Ec) as Sc. pose proof (proj1 W d c Ec) as Wc.
    assert (exists t, rd d t) as (t & Rt).
    { destruct c as [i|m|b v|i m|i m|b]; try contradiction.
      - eexists. apply rd_con. eassumption.
      - eexists. apply rd_int. eassumption.
      - subst b. exists (TVar d ""). eapply rd_var. eassumption.
      - destruct Wc as (_ & _ & Wc). cbn in Sc. rewrite Sc in Hk. cbn [gsize] in Hk.
        destruct (KS (Z.to_nat m)) as (l & Rl); [unfold gsizes; lia|lia|]. eexists. eapply rd_fun; eassumption.
      - destruct Wc as (-> & _ & Wc). cbn [cell_sat] in Sc. rewrite Sc in Hk. cbn [gsize] in Hk.
        destruct (KS (Z.to_nat 2)) as (l & Rl); [unfold gsizes; lia|change (Z.to_nat 2) with 2; lia|]. eexists. eapply rd_ev; eassumption. }
    exists t. eapply rd_derefs; eauto. }
  intros a Ha. eapply G; [reflexivity|assumption].
Qed.

Lemma choose_list (Q : nat -> tm -> Prop) n : (forall a, a < n -> exists t, Q a t) ->
  exists ts, forall a, a < n -> exists t, nth_error ts a = Some t /\ Q a t.
Proof.
  induction n as [|n IH]; intros H; [exists []; intros; lia|].
  destruct IH as (ts & Ht); [intros a Ha; apply H; lia|]. destruct (H n) as (t & Qt); [lia|].
  exists (firstn n ts ++ [t]).
  assert (Lf : List.length (firstn n ts) = n).
  { rewrite firstn_length. destruct (Nat.le_gt_cases n (List.length ts)) as [L|L]; [lia|].
    destruct (Ht (List.length ts) L) as (u & Eu & _). apply nth_error_lt in Eu. lia. }
  intros a Ha. destruct (Nat.eq_dec a n) as [->|Ne].
  - exists t. rewrite nth_error_app2 by lia. rewrite Lf, Nat.sub_diag. auto.
  - destruct (Ht a) as (u & Eu & Qu); [lia|]. exists u. split; [|assumption]. rewrite nth_error_app1 by lia.
    rewrite <- (firstn_skipn n ts) in Eu. now rewrite nth_error_app1 in Eu by lia.
Qed.

(** Every address holds a finite term: there are no cyclic terms. *)
Definition finite_terms : Prop := forall a, a < len h -> exists t, rd a t.
(** Every grounding of the unbound variables is part of a valuation. *)
Lemma ground_fin : finite_terms -> forall g, exists rho, sat sto rho h /\ forall a t, rd a t -> a < len h -> rho a = ginst g t.
Proof.
  intros Fin g. destruct (choose_list rd (len h) Fin) as (ts & Ht).
  set (rho := fun a => match nth_error ts a with Some t => ginst g t | None => GInt 0 end).
  assert (G : forall a t, rd a t -> a < len h -> rho a = ginst g t).
  { intros a t R Ha. destruct (Ht a Ha) as (u & Eu & Ru). unfold rho. rewrite Eu. eapply rd_agree; eauto. }
  exists rho. split; [|exact G]. intros a c Ec. pose proof (nth_error_lt _ _ _ Ec) as La. pose proof (proj1 W a c Ec) as Wc.
  destruct (Ht a La) as (t & _ & Rt).
  assert (Args : forall m b l, rds b m l -> b + m <= len h -> map rho (seq b m) = map (ginst g) l).
  { clear - G. induction m as [|m IH]; intros b l R L; inversion R as [|? ? t l' R1 R2]; subst; [reflexivity|].
    cbn [seq map]. rewrite (G b t R1) by lia. rewrite (IH (S b) l' R2) by lia. reflexivity. }
  destruct c as [i|m|b v|i m|i m|b]; cbn [cell_sat].
  - apply (G a (TCon (fn sto i))); auto. now apply rd_con.
  - apply (G a (TInt m)); auto. now apply rd_int.
  - cbn in Wc. destruct (Nat.eq_dec b a) as [->|Ne]; [reflexivity|].
    destruct (Ht b Wc) as (u & _ & Ru). rewrite (G b u Ru Wc). apply G; [|assumption]. eapply rd_next; [|exact Ru].
    unfold next. rewrite Ec. destruct (Nat.eqb_spec b a); [contradiction|reflexivity].
  - destruct Wc as (_ & _ & Wc). pose proof (rd_inv a t Rt) as K. unfold next in K. rewrite Ec in K. destruct (K eq_refl) as (l & -> & Rl).
    rewrite (G a _ Rt La). cbn [ginst]. f_equal. symmetry. apply Args; [assumption|lia].
  - destruct Wc as (-> & _ & Wc). pose proof (rd_inv a t Rt) as K. unfold next in K. rewrite Ec in K. destruct (K eq_refl) as (l & -> & Rl).
    rewrite (G a _ Rt La). cbn [ginst]. f_equal. symmetry. apply Args; [assumption|]. change (Z.to_nat 2) with 2. lia.
  - cbn in Wc. assert (Lb : b < len h) by lia. destruct (Ht b Lb) as (u & _ & Ru). rewrite (G b u Ru Lb). apply G; [|assumption].
    eapply rd_next; [|exact Ru]. unfold next. rewrite Ec. destruct (Nat.eqb_spec b a); [lia|reflexivity].
Qed.
Lemma ground_ext : (exists rho, sat sto rho h) -> forall g, exists rho, sat sto rho h /\ forall a t, rd a t -> a < len h -> rho a = ginst g t.
Proof. intros (rho0 & Hs0). apply ground_fin. exact (rd_exists rho0 Hs0). Qed.
End Terms.
