(** ==, \== and is on the terms of a heap. *)
From Verif Require Import Base Machine Heap Facts Compiler Parser Organizer Spec Print Valuation Process Shape Mono Session Search Code Put PutRun Get Alloc Atoms Clause Stack Ready Heads Builtins Terms Order Runs Examples Witness Tables Finite.
Open Scope string_scope.
Open Scope list_scope.

(** Identical terms; a variable is identified by its address. *)
Fixpoint ident (t u : tm) : bool :=
  let fix idents (l k : list tm) : bool :=
    match l, k with
    | [], [] => true
    | x :: l', y :: k' => ident x y && idents l' k'
    | _, _ => false
    end in
  match t, u with
  | TVar a _, TVar b _ => Nat.eqb a b
  | TCon s, TCon s' => s =? s'
  | TInt n, TInt n' => Z.eqb n n'
  | TFun s l, TFun s' l' => (s =? s') && idents l l'
  | TEv s l, TEv s' l' => (s =? s') && idents l l'
  | _, _ => false
  end.
Fixpoint idents (l k : list tm) : bool :=
  match l, k with
  | [], [] => true
  | x :: l', y :: k' => ident x y && idents l' k'
  | _, _ => false
  end.
Lemma ident_fun s l s' l' : ident (TFun s l) (TFun s' l') = ((s =? s') && idents l l')%bool.
Proof. cbn [ident]. f_equal. Qed.
Lemma ident_ev s l s' l' : ident (TEv s l) (TEv s' l') = ((s =? s') && idents l l')%bool.
Proof. cbn [ident]. f_equal. Qed.

(** What [is] makes of a term: a number, or the first problem met from left to right; None: some value does not fit. *)
Inductive problem := PrDiv0 | PrUnbound (a : nat) | PrNotArith.
Definition fits (z : Z) : bool := ((-2147483648 <=? z) && (z <=? 2147483647))%Z.
Definition operate (pw : Z -> Z -> option Z) (op : string) (a b : Z) : option (Z + problem) :=
  let ok z := if fits z then Some (inl z) else None in
  if op =? "+" then ok (a + b)%Z
  else if op =? "-" then ok (a - b)%Z
  else if op =? "*" then ok (a * b)%Z
  else if op =? "//" then if (b =? 0)%Z then Some (inr PrDiv0) else ok (Z.quot a b)
  else if op =? "^" then match pw a b with Some z => ok z | None => None end
  else None.
Fixpoint calc (pw : Z -> Z -> option Z) (t : tm) : option (Z + problem) :=
  match t with
  | TInt n => Some (inl n)
  | TVar a _ => Some (inr (PrUnbound a))
  | TEv op [l; r] =>
      match calc pw l with
      | Some (inl a) =>
          match calc pw r with
          | Some (inl b) => operate pw op a b
          | x => x
          end
      | x => x
      end
  | TEv _ _ => None
  | _ => Some (inr PrNotArith)
  end.

(** The value of an expression of + - * and // when every intermediate result fits and no divisor is 0. *)
Fixpoint exact_value (t : tm) : option Z :=
  match t with
  | TInt n => Some n
  | TEv op [l; r] =>
      match exact_value l, exact_value r with
      | Some a, Some b =>
          let v := if op =? "+" then Some (a + b)%Z
                   else if op =? "-" then Some (a - b)%Z
                   else if op =? "*" then Some (a * b)%Z
                   else if op =? "//" then if (b =? 0)%Z then None else Some (Z.quot a b)
                   else None in
          match v with
          | Some z => if ((-2147483648 <=? z) && (z <=? 2147483647))%Z then Some z else None
          | None => None
          end
      | _, _ => None
      end
  | _ => None
  end.
Lemma exact_calc pw : forall t n, exact_value t = Some n -> calc pw t = Some (inl n).
Proof.
  fix IH 1. intros [a nm|s|m|s l|s l] n E; try discriminate E.
  - cbn in E |- *. congruence.
  - destruct l as [|tl [|tr [|? ?]]]; try discriminate E. cbn [exact_value calc] in E |- *.
    pose proof (IH tl) as Hl. pose proof (IH tr) as Hr. clear IH.
    destruct (exact_value tl) as [a|]; [|discriminate E]. destruct (exact_value tr) as [b|]; [|discriminate E].
    rewrite (Hl a eq_refl), (Hr b eq_refl). unfold operate, fits.
    repeat match type of E with context [if ?b then _ else _] => destruct b; try discriminate E end; congruence.
Qed.

Section Arith.
Variable cf : cfg.
Variable sto : storage.
Hypothesis ND : NoDup (s_functors sto).
Notation pw := (pow_of cf).
Notation len := (@List.length cell).

Section Heap.
Variable h : list cell.
Hypothesis W : wfh sto 0 h.
Notation rd := (rd sto h).
Notation rds := (rds sto h).

Lemma rd_lt a t : rd a t -> a < len h.
Proof.
  intros R. inversion R; subst; try (eapply nth_error_lt; eassumption).
  unfold next in *. destruct (nth_error h a) eqn:E; [eapply nth_error_lt; eassumption|discriminate].
Qed.
(** the cell where a term starts *)
Lemma rd_root a t : rd a t -> exists d, deref (list cell) fops h a = Val d /\ d < len h /\ next h d = None /\ rd d t.
Proof.
  intros R. destruct (wfh_deref sto 0 h a W (rd_lt _ _ R)) as (d & Ed & Ld & Nd & (n & D)).
  exists d. csplit; auto. eapply rd_derefs_inv; eassumption.
Qed.

Definition equals n := heap_reg_equals (list cell) fops n h.

Lemma args_equal_spec n f : forall a b l k, rds a n l -> rds b n k ->
  (forall i t u, i < n -> nth_error l i = Some t -> nth_error k i = Some u -> f (a + i) (b + i) = Val (ident t u)) ->
  args_equal f n a b = Val (idents l k).
Proof.
  induction n as [|n IH]; intros a b l k Rl Rk Hf; inversion Rl; inversion Rk; subst; [reflexivity|].
  match goal with H1 : Terms.rd sto h a ?t, H2 : Terms.rd sto h b ?u |- _ => pose proof (Hf 0 t u ltac:(lia) eq_refl eq_refl) as E0 end.
  rewrite !Nat.add_0_r in E0. cbn [args_equal idents]. rewrite E0. cbn [bind].
  destruct (ident _ _); cbn [andb]; [|reflexivity]. eapply IH; [eassumption|eassumption|].
  intros i t' u' Hi Et Eu. specialize (Hf (S i) t' u' ltac:(lia) Et Eu). now rewrite !Nat.add_succ_r in Hf.
Qed.
Lemma rds_len a n l : rds a n l -> List.length l = n.
Proof. revert a l. induction n as [|n IH]; intros a l R; inversion R; subst; cbn; eauto. Qed.
Lemma rds_nth a n l i t : rds a n l -> nth_error l i = Some t -> rd (a + i) t.
Proof.
  intros R. revert i. induction R; intros i E; [destruct i; discriminate|]. destruct i as [|i].
  - injection E as <-. now rewrite Nat.add_0_r.
  - rewrite Nat.add_succ_r. now apply IHR.
Qed.

Definition eq_spec a t := forall b u, rd b u -> exists n0, forall n, n0 <= n -> equals n a b = Val (ident t u).
Lemma all_spec (l : list tm) : forall (a b m : nat) (k : list tm), List.length k = List.length l ->
  (forall i t, nth_error l i = Some t -> eq_spec (a + i) t) -> rds b m k ->
  exists n0, forall n, n0 <= n -> forall i t u, nth_error l i = Some t -> nth_error k i = Some u -> equals n (a + i) (b + i) = Val (ident t u).
Proof.
  induction l as [|t l IH]; intros a b m k Lk Hl Rk.
  - exists 0. intros n _ [|i] ? ? E; discriminate E.
  - destruct k as [|u k]; [discriminate|]. inversion Rk as [|? m' ? ? Ru Rk']; subst.
    destruct (Hl 0 t eq_refl b u Ru) as (n1 & H1).
    destruct (IH (S a) (S b) m' k) as (n2 & H2); [cbn in Lk; lia| |assumption|].
    { intros i t' E. specialize (Hl (S i) t' E). now rewrite Nat.add_succ_r in Hl. }
    exists (Nat.max n1 n2). intros n Hn [|i] t' u' Et Eu.
    + injection Et as <-. injection Eu as <-. rewrite Nat.add_0_r, Nat.add_0_r. rewrite Nat.add_0_r in H1. apply H1. lia.
    + rewrite !Nat.add_succ_r. apply H2; [lia|assumption|assumption].
Qed.

Lemma cell_at d c : nth_error h d = Some c -> at_ (list cell) fops h d = Val c.
Proof. intros E. now apply at_nth. Qed.

Lemma deref_step a b : next h a = Some b -> a < len h -> exists d, deref (list cell) fops h a = Val d /\ deref (list cell) fops h b = Val d.
Proof.
  intros N L. assert (Lb : b < len h).
  { pose proof (proj1 W a) as Wa. apply next_ref in N. destruct N as [(v & E & _)|(E & _)]; specialize (Wa _ E); cbn in Wa; lia. }
  destruct (wfh_deref sto 0 h b W Lb) as (d & Ed & Ld & Nd & (n & D)). exists d. split; [|assumption].
  destruct (wfh_deref sto 0 h a W L) as (d' & Ed' & Ld' & Nd' & (n' & D')). rewrite Ed'. f_equal.
  inversion D' as [|? ? b' ? N' D'']; subst; [congruence|]. rewrite N in N'. injection N' as <-.
  exact (proj2 (derefs_det h _ _ _ D'' _ _ D)).
Qed.

(** Comparing two terms ends and decides identity. *)
Lemma equals_spec a t : rd a t -> eq_spec a t.
Proof.
  revert a t. apply (rd_mut sto h eq_spec (fun a n l => forall i t, nth_error l i = Some t -> eq_spec (a + i) t)).
  - intros a b t N R IH x u Ru. destruct (IH x u Ru) as (n0 & H). exists n0. intros n Hn. rewrite <- (H n Hn).
    destruct (deref_step a b N) as (d & E1 & E2).
    { apply next_ref in N. destruct N as [(v & E & _)|(E & _)]; eapply nth_error_lt; eassumption. }
    unfold equals. destruct n; [reflexivity|]. cbn [heap_reg_equals]. rewrite E1, E2. reflexivity.
  - intros a v nm E b u Ru. exists 1. intros [|n] Hn; [lia|]. unfold equals. cbn [heap_reg_equals].
    destruct (rd_root b u Ru) as (d & Ed & Ld & Nd & Rd).
    assert (Ea : deref (list cell) fops h a = Val a).
    { unfold deref. cbn [deref_aux]. rewrite (cell_at _ _ E). cbn [bind]. now rewrite Nat.eqb_refl. }
    rewrite Ea, Ed. cbn [bind]. destruct (root_cases sto 0 h d W Ld Nd) as (c & Ec & Hc).
    rewrite (cell_at _ _ E), (cell_at _ _ Ec). cbn [bind]. pose proof (rd_inv sto h d u Rd Nd) as K. rewrite Ec in K.
    destruct c as [i|m|x w|i m|i m|x]; cbn [cell_eqb]; try contradiction.
    + subst u. reflexivity.
    + subst u. reflexivity.
    + destruct (K Hc) as (nm' & ->). subst x. cbn [ident]. destruct (Nat.eqb_spec a d) as [->|N].
      * rewrite E in Ec. injection Ec as <-. now rewrite Z.eqb_refl.
      * reflexivity.
    + destruct K as (l & -> & _). reflexivity.
    + destruct K as (l & -> & _). reflexivity.
  - intros a i E b u Ru. exists 1. intros [|n] Hn; [lia|]. unfold equals. cbn [heap_reg_equals].
    destruct (rd_root b u Ru) as (d & Ed & Ld & Nd & Rd).
    assert (Ea : deref (list cell) fops h a = Val a) by (unfold deref; cbn [deref_aux]; now rewrite (cell_at _ _ E)).
    rewrite Ea, Ed. cbn [bind]. destruct (root_cases sto 0 h d W Ld Nd) as (c & Ec & Hc).
    rewrite (cell_at _ _ E), (cell_at _ _ Ec). cbn [bind]. pose proof (rd_inv sto h d u Rd Nd) as K. rewrite Ec in K.
    destruct c as [j|m|x w|j m|j m|x]; cbn [cell_eqb]; try contradiction; try (subst u; reflexivity);
      try (destruct K as (l & -> & _); reflexivity); [|destruct (K Hc) as (nm' & ->); reflexivity].
    subst u. cbn [ident]. destruct (proj1 W _ _ E) as (s1 & F1). destruct (proj1 W _ _ Ec) as (s2 & F2).
    destruct (Z.eqb_spec i j) as [->|N]; [now rewrite String.eqb_refl|].
    destruct (String.eqb_spec (fn sto i) (fn sto j)) as [Es|]; [|reflexivity].
    elim N. eapply (fn_inj sto ND); [exact F1|exact F2|exact Es|reflexivity].
  - intros a m E b u Ru. exists 1. intros [|n] Hn; [lia|]. unfold equals. cbn [heap_reg_equals].
    destruct (rd_root b u Ru) as (d & Ed & Ld & Nd & Rd).
    assert (Ea : deref (list cell) fops h a = Val a) by (unfold deref; cbn [deref_aux]; now rewrite (cell_at _ _ E)).
    rewrite Ea, Ed. cbn [bind]. destruct (root_cases sto 0 h d W Ld Nd) as (c & Ec & Hc).
    rewrite (cell_at _ _ E), (cell_at _ _ Ec). cbn [bind]. pose proof (rd_inv sto h d u Rd Nd) as K. rewrite Ec in K.
    destruct c as [j|m'|x w|j m'|j m'|x]; cbn [cell_eqb]; try contradiction; try (subst u; reflexivity);
      try (destruct K as (l & -> & _); reflexivity); [|destruct (K Hc) as (nm' & ->); reflexivity].
    subst u. cbn [ident]. now destruct (Z.eqb m m').
  - intros a i m l E R IH b u Ru. destruct (rd_root b u Ru) as (d & Ed & Ld & Nd & Rd).
    assert (Ea : deref (list cell) fops h a = Val a) by (unfold deref; cbn [deref_aux]; now rewrite (cell_at _ _ E)).
    destruct (root_cases sto 0 h d W Ld Nd) as (c & Ec & Hc). pose proof (rd_inv sto h d u Rd Nd) as K. rewrite Ec in K.
    assert (G : forall n, equals (S n) a b = (if cell_eqb (CFun i m) c then args_equal (equals n) (Z.to_nat m) (a + 1) (d + 1) else Val false)).
    { intros n. unfold equals at 1. cbn [heap_reg_equals]. rewrite Ea, Ed. cbn [bind].
      rewrite (cell_at _ _ E), (cell_at _ _ Ec). cbn [bind]. reflexivity. }
    destruct c as [j|m'|x w|j m'|j m'|x]; try contradiction;
      try (exists 1; intros [|n] Hn; [lia|]; rewrite G; cbn [cell_eqb];
           first [subst u; reflexivity | destruct (K Hc) as (nm' & ->); reflexivity | destruct K as (l' & -> & _); reflexivity]).
    destruct K as (l' & -> & R'). destruct (proj1 W _ _ E) as (P1 & (s1 & F1) & _). destruct (proj1 W _ _ Ec) as (P2 & (s2 & F2) & _).
    rewrite ident_fun. cbn [cell_eqb] in G. pose proof (rds_len _ _ _ R) as Ll. pose proof (rds_len _ _ _ R') as Ll'.
    destruct (Z.eqb_spec i j) as [<-|Nij]; [destruct (Z.eqb_spec m m') as [<-|Nm]|].
    + rewrite String.eqb_refl. cbn [andb] in G |- *.
      destruct (all_spec l (S a) (S d) (Z.to_nat m) l' ltac:(lia) IH R') as (n0 & H0).
      exists (S n0). intros [|n] Hn; [lia|]. rewrite G, !Nat.add_1_r. eapply args_equal_spec; [exact R|exact R'|].
      intros k t u _ Et Eu. apply H0; [lia|assumption|assumption].
    + exfalso. rewrite F1 in F2. injection F2 as _ F2. lia.
    + exists 1. intros [|n] Hn; [lia|]. rewrite G. cbn [andb]. f_equal. symmetry.
      destruct (String.eqb_spec (fn sto i) (fn sto j)) as [Es|]; [|reflexivity]. cbn [andb].
      destruct (Nat.eq_dec (Z.to_nat m) (Z.to_nat m')) as [Em|Em].
      * elim Nij. eapply (fn_inj sto ND); [exact F1|exact F2|exact Es|exact Em].
      * clear - Ll Ll' Em. rewrite <- Ll, <- Ll' in Em. clear Ll Ll'. revert l' Em. induction l as [|t l IHl]; intros [|u l'] Em; cbn in Em |- *; try lia; auto.
        rewrite IHl by lia. apply andb_false_r.
  - intros a i m l E R IH b u Ru. destruct (rd_root b u Ru) as (d & Ed & Ld & Nd & Rd).
    assert (Ea : deref (list cell) fops h a = Val a) by (unfold deref; cbn [deref_aux]; now rewrite (cell_at _ _ E)).
    destruct (root_cases sto 0 h d W Ld Nd) as (c & Ec & Hc). pose proof (rd_inv sto h d u Rd Nd) as K. rewrite Ec in K.
    assert (G : forall n, equals (S n) a b = (if cell_eqb (CEval i m) c then args_equal (equals n) (Z.to_nat m) (a + 1) (d + 1) else Val false)).
    { intros n. unfold equals at 1. cbn [heap_reg_equals]. rewrite Ea, Ed. cbn [bind].
      rewrite (cell_at _ _ E), (cell_at _ _ Ec). cbn [bind]. reflexivity. }
    destruct c as [j|m'|x w|j m'|j m'|x]; try contradiction;
      try (exists 1; intros [|n] Hn; [lia|]; rewrite G; cbn [cell_eqb];
           first [subst u; reflexivity | destruct (K Hc) as (nm' & ->); reflexivity | destruct K as (l' & -> & _); reflexivity]).
    destruct K as (l' & -> & R'). destruct (proj1 W _ _ E) as (-> & P1 & _). destruct (proj1 W _ _ Ec) as (-> & P2 & _).
    rewrite ident_ev. cbn [cell_eqb] in G. pose proof (rds_len _ _ _ R) as Ll. pose proof (rds_len _ _ _ R') as Ll'.
    rewrite Z.eqb_refl in G. destruct (Z.eqb_spec i j) as [<-|Nij].
    + rewrite String.eqb_refl. cbn [andb] in G |- *.
      destruct (all_spec l (S a) (S d) (Z.to_nat 2) l' ltac:(lia) IH R') as (n0 & H0).
      exists (S n0). intros [|n] Hn; [lia|]. rewrite G, !Nat.add_1_r. eapply args_equal_spec; [exact R|exact R'|].
      intros k t u _ Et Eu. apply H0; [lia|assumption|assumption].
    + exists 1. intros [|n] Hn; [lia|]. rewrite G. cbn [andb]. f_equal. symmetry.
      destruct (String.eqb_spec (opn i) (opn j)) as [Es|]; [|reflexivity]. elim Nij. now apply opn_inj.
  - intros a [|i] t E; discriminate E.
  - intros a n t l R IH Rs IHs [|i] t' E.
    + injection E as <-. now rewrite Nat.add_0_r.
    + rewrite Nat.add_succ_r. now apply IHs.
Qed.

(** What evaluation makes of a term. *)
Definition eval n := eval_reg (list cell) fops cf sto n h.
Definition result_ok (x : Z + problem) (r : out evres) : Prop :=
  match x with
  | inl n => r = Val (EvInt n)
  | inr PrDiv0 => r = Val (EvErr EDivBy0)
  | inr (PrUnbound a) => exists v, nth_error h a = Some (CRef a v) /\
      r = match nthZ (s_vars sto) v with Some nm => Val (EvErr (EUnbound nm)) | None => Ub UStorage end
  | inr PrNotArith => (exists f, r = Val (EvErr (ENotArith f))) \/ r = Ub UHeap \/ r = Ub UStorage
  end.
Lemma eval_spec a t : rd a t -> forall x, calc pw t = Some x -> exists n0 r, (forall n, n0 <= n -> eval n a = r) /\ result_ok x r.
Proof.
  revert a t. apply (rd_mut sto h (fun a t => forall x, calc pw t = Some x -> exists n0 r, (forall n, n0 <= n -> eval n a = r) /\ result_ok x r)
    (fun a n l => forall i t, nth_error l i = Some t -> forall x, calc pw t = Some x -> exists n0 r, (forall n, n0 <= n -> eval n (a + i) = r) /\ result_ok x r)).
  - intros a b t N R IH x Ex. destruct (IH x Ex) as (n0 & r & H & Hr). exists n0, r. split; [|assumption]. intros n Hn. rewrite <- (H n Hn).
    destruct (deref_step a b N) as (d & E1 & E2).
    { apply next_ref in N. destruct N as [(v & E & _)|(E & _)]; eapply nth_error_lt; eassumption. }
    unfold eval. destruct n; [reflexivity|]. cbn [eval_reg]. rewrite E1, E2. reflexivity.
  - intros a v nm E x Ex. injection Ex as <-. eexists 1, _. split.
    + intros [|n] Hn; [lia|]. unfold eval. cbn [eval_reg].
      assert (Ea : deref (list cell) fops h a = Val a).
      { unfold deref. cbn [deref_aux]. rewrite (cell_at _ _ E). cbn [bind]. now rewrite Nat.eqb_refl. }
      rewrite Ea. cbn [bind]. rewrite (cell_at _ _ E). cbn [bind]. reflexivity.
    + exists v. split; [assumption|]. now destruct (nthZ (s_vars sto) v).
  - intros a i E x Ex. injection Ex as <-. eexists 1, _. split.
    + intros [|n] Hn; [lia|]. unfold eval. cbn [eval_reg].
      assert (Ea : deref (list cell) fops h a = Val a) by (unfold deref; cbn [deref_aux]; now rewrite (cell_at _ _ E)).
      rewrite Ea. cbn [bind]. rewrite (cell_at _ _ E). cbn [bind]. reflexivity.
    + cbn. unfold err_functor. destruct (i <? 0)%Z; cbn [bind]; auto.
      destruct (at_ (list cell) fops h (Z.to_nat i)) as [c| |] eqn:Ea; cbn [bind].
      * destruct (nthZ (s_functors sto) (raw_index c)); cbn; eauto.
      * revert Ea. unfold at_. cbn [h_at fops]. destruct (nth_error h (Z.to_nat i)); cbn; [discriminate|]. intros K. injection K as <-. auto.
      * revert Ea. unfold at_. cbn [h_at fops]. destruct (nth_error h (Z.to_nat i)); cbn; discriminate.
  - intros a m E x Ex. injection Ex as <-. exists 1, (Val (EvInt m)). split; [|reflexivity]. intros [|n] Hn; [lia|]. unfold eval. cbn [eval_reg].
    assert (Ea : deref (list cell) fops h a = Val a) by (unfold deref; cbn [deref_aux]; now rewrite (cell_at _ _ E)).
    rewrite Ea. cbn [bind]. rewrite (cell_at _ _ E). reflexivity.
  - intros a i m l E R IH x Ex. injection Ex as <-. eexists 1, _. split.
    + intros [|n] Hn; [lia|]. unfold eval. cbn [eval_reg].
      assert (Ea : deref (list cell) fops h a = Val a) by (unfold deref; cbn [deref_aux]; now rewrite (cell_at _ _ E)).
      rewrite Ea. cbn [bind]. rewrite (cell_at _ _ E). cbn [bind]. reflexivity.
    + cbn. unfold err_functor. destruct (i <? 0)%Z; cbn [bind]; auto.
      destruct (at_ (list cell) fops h (Z.to_nat i)) as [c| |] eqn:Ea; cbn [bind].
      * destruct (nthZ (s_functors sto) (raw_index c)); cbn; eauto.
      * revert Ea. unfold at_. cbn [h_at fops]. destruct (nth_error h (Z.to_nat i)); cbn; [discriminate|]. intros K. injection K as <-. auto.
      * revert Ea. unfold at_. cbn [h_at fops]. destruct (nth_error h (Z.to_nat i)); cbn; discriminate.
  - intros a i m l E R IH x Ex. destruct (proj1 W _ _ E) as (-> & Pi & _). pose proof (rds_len _ _ _ R) as Ll.
    destruct l as [|tl [|tr [|? ?]]]; try discriminate Ll. cbn [calc] in Ex.
    assert (Ea : deref (list cell) fops h a = Val a) by (unfold deref; cbn [deref_aux]; now rewrite (cell_at _ _ E)).
    pose proof (IH 0 tl eq_refl) as IHl. pose proof (IH 1 tr eq_refl) as IHr.
    replace (S a + 0) with (a + 1) in IHl by lia. replace (S a + 1) with (a + 2) in IHr by lia.
    destruct (calc pw tl) as [[lv|pl]|]; [| |discriminate].
    2:{ injection Ex as <-. destruct (IHl _ eq_refl) as (n0 & r & H & Hr).
        exists (S n0), r. split; [|assumption]. intros [|n] Hn; [lia|]. unfold eval. cbn [eval_reg]. rewrite Ea. cbn [bind]. rewrite (cell_at _ _ E). cbn [bind].
        change (eval_reg (list cell) fops cf sto n h (a + 1)) with (eval n (a + 1)). rewrite H by lia.
        destruct pl; cbn in Hr.
        - now rewrite Hr.
        - destruct Hr as (v & _ & ->). now destruct (nthZ (s_vars sto) v).
        - destruct Hr as [(f & ->)|[->| ->]]; reflexivity. }
    destruct (IHl _ eq_refl) as (n1 & r1 & H1 & Hr1). cbn in Hr1. subst r1.
    destruct (calc pw tr) as [[rv|pr]|]; [| |discriminate].
    2:{ injection Ex as <-. destruct (IHr _ eq_refl) as (n2 & r & H2 & Hr).
        exists (S (Nat.max n1 n2)), r. split; [|assumption]. intros [|n] Hn; [lia|]. unfold eval. cbn [eval_reg]. rewrite Ea. cbn [bind]. rewrite (cell_at _ _ E). cbn [bind].
        change (eval_reg (list cell) fops cf sto n h (a + 1)) with (eval n (a + 1)). rewrite H1 by lia. cbn [bind].
        change (eval_reg (list cell) fops cf sto n h (a + 2)) with (eval n (a + 2)). rewrite H2 by lia.
        destruct pr; cbn in Hr.
        - now rewrite Hr.
        - destruct Hr as (v & _ & ->). now destruct (nthZ (s_vars sto) v).
        - destruct Hr as [(f & ->)|[->| ->]]; reflexivity. }
    destruct (IHr _ eq_refl) as (n2 & r2 & H2 & Hr2). cbn in Hr2. subst r2.
    assert (Ci : (i = 0 \/ i = 1 \/ i = 2 \/ i = 3 \/ i = 4)%Z) by lia.
    eexists (S (Nat.max n1 n2)), _. split.
    + intros [|n] Hn; [lia|]. unfold eval. cbn [eval_reg]. rewrite Ea. cbn [bind]. rewrite (cell_at _ _ E). cbn [bind].
      change (eval_reg (list cell) fops cf sto n h (a + 1)) with (eval n (a + 1)). rewrite H1 by lia. cbn [bind].
      change (eval_reg (list cell) fops cf sto n h (a + 2)) with (eval n (a + 2)). rewrite H2 by lia. cbn [bind]. reflexivity.
    + unfold operate, fits in Ex.
      destruct Ci as [->|[->|[->|[->| ->]]]]; cbn in Ex |- *; unfold to_int.
      * unfold pow_of in Ex. destruct (trunc_fval (c_powf cf lv rv)) as [z|]; [|discriminate].
        destruct (_ && _)%bool eqn:Ez; [|discriminate]. rewrite Ez in Ex. injection Ex as <-. reflexivity.
      * destruct (_ && _)%bool; [|discriminate]. injection Ex as <-. reflexivity.
      * destruct (_ && _)%bool; [|discriminate]. injection Ex as <-. reflexivity.
      * destruct (_ && _)%bool; [|discriminate]. injection Ex as <-. reflexivity.
      * destruct (Z.eqb_spec rv 0) as [->|Nz]; [injection Ex as <-; reflexivity|].
        destruct (_ && _)%bool; [|discriminate]. injection Ex as <-. reflexivity.
  - intros a [|i] t E; discriminate E.
  - intros a n t l R IH Rs IHs [|i] t' E.
    + injection E as <-. now rewrite Nat.add_0_r.
    + rewrite Nat.add_succ_r. now apply IHs.
Qed.
End Heap.
End Arith.

(** --- one turn of a branch that has called one of these predicates --- *)
(** The branch [p] runs the code of the built-in predicate [nm] with its arguments at the addresses [a1] and [a2]. *)
Definition at_builtin (cf : cfg) (sto : storage) (p : process) (nm : string) (a1 a2 : nat) : Prop :=
  exists i a rest, special (FV nm 2) = Some i /\ special_code cf sto (FV nm 2) i [[a]] /\ p_codes p = a :: rest /\
    wfh sto 0 (m_heap (p_m p)) /\ argreg (p_m p) [a1; a2].
(** The goal has succeeded: the branch goes on with what is left to do and the heap [h], or it is an answer. *)
Definition succeeds (sto : storage) (fuel : nat) (p : process) (h : list cell) (x : out step_res) : Prop :=
  if forallb is_dealloc (tl (p_codes p)) then x = (b <- answer_of sto fuel h (p_trail p) ;; Val (PDone b))
  else exists k, x = Val (PKids [k]) /\ m_heap (p_m k) = h /\ m_envs (p_m k) = m_envs (p_m p) /\
    p_codes k = tl (p_codes p) /\ p_trail k = p_trail p.

Section Turn.
Variable cf : cfg.
Hypothesis OK : ord_ok cf.
Variable sto : storage.
Hypothesis ND : NoDup (s_functors sto).
Notation pw := (pow_of cf).
Notation hp m := (m_heap (H := list cell) m).
Notation len := (@List.length cell).

Lemma builtin_run p nm a1 a2 : at_builtin cf sto p nm a1 a2 ->
  exists i m2 c1 c2, special (FV nm 2) = Some i /\ hp m2 = hp (p_m p) /\ m_envs m2 = m_envs (p_m p) /\
    rreg (list cell) m2 2 = Val c1 /\ get_heap_i c1 = Val a1 /\ rreg (list cell) m2 3 = Val c2 /\ get_heap_i c2 = Val a2 /\
    a1 < len (hp (p_m p)) /\ a2 < len (hp (p_m p)) /\
    (forall fuel pg r m', fstep cf sto fuel (i 2 3) m2 = Val (r, m') ->
      match r with
      | Failing => p_turn cf sto fuel pg p = Val PFails
      | Raise e => p_turn cf sto fuel pg p = Val (PErr e)
      | Cont => m_envs m' = m_envs m2 -> succeeds sto fuel p (hp m') (p_turn cf sto fuel pg p)
      end) /\
    forall fuel pg w, fstep cf sto fuel (i 2 3) m2 = Ub w -> p_turn cf sto fuel pg p = Ub w.
Proof.
  intros (i & a & rest & Hf & SC & Ep & W & AR).
  destruct (special_shape cf OK sto _ _ _ Hf SC) as (a' & Ea & Ecode & Er). injection Ea as E0. subst a'.
  set (m0 := set_regs (p_m p) (resize (m_regs (p_m p)) 4)).
  destruct (AR 0 a1 eq_refl) as (c1 & E1 & A1 & L1). destruct (AR 1 a2 eq_refl) as (c2 & E2 & A2 & L2).
  apply (resize_nth _ 4) in E1, E2; try lia. change (resize (m_regs (p_m p)) 4) with (m_regs m0) in E1, E2.
  assert (Lm : List.length (m_regs m0) = 4) by apply resize_length.
  destruct (upd_some (m_regs m0) 2 c1) as (l1 & U1); [lia|]. pose proof (upd_length _ _ _ _ U1) as Ll1.
  destruct (upd_some l1 3 c2) as (l2 & U2); [lia|].
  assert (E2' : nth_error l1 1 = Some c2) by (rewrite (upd_nth _ _ _ _ _ U1); exact E2).
  set (m2 := set_regs (set_regs m0 l1) l2).
  assert (R2 : rreg (list cell) m2 2 = Val c1).
  { apply rreg_get. change (nth_error l2 2 = Some c1). rewrite (upd_nth _ _ _ _ _ U2). cbn [Nat.eqb]. exact (upd_two _ _ _ _ U1). }
  assert (R3 : rreg (list cell) m2 3 = Val c2) by (apply rreg_get; exact (upd_two _ _ _ _ U2)).
  apply addr_of_get in A1, A2. exists i, m2, c1, c2. csplit; auto.
  all: assert (Er' : forall fuel, run_local cf sto fuel (removelast (ca_code a)) (set_regs (p_m p) (resize (m_regs (p_m p)) (ca_regs a))) =
    (x <- fstep cf sto fuel (i 2 3) m2 ;; Val x)).
  1,3: intros fuel; rewrite Ecode, Er; cbn [removelast]; fold m0; cbn [run_local]; unfold fstep at 1; cbn [local_step];
    rewrite (rreg_get _ _ _ E1); cbn [bind]; unfold wreg at 1; rewrite U1; cbn [of_opt bind];
    unfold fstep at 1; cbn [local_step];
    rewrite (rreg_get (set_regs m0 l1) 1 c2 E2'); cbn [bind]; unfold wreg at 1; cbn [m_regs set_regs]; rewrite U2; cbn [of_opt bind];
    fold m2; destruct (fstep cf sto fuel (i 2 3) m2) as [[[] ?]| |]; reflexivity.
  2:{ intros fuel pg w Es. unfold p_turn. rewrite Ep, Er', Es. reflexivity. }
  intros fuel pg r m' Es. specialize (Er' fuel). rewrite Es in Er'. cbn [bind] in Er'.
  unfold p_turn, succeeds. rewrite Ep. cbn [tl]. rewrite Er'. cbn [bind]. rewrite Ecode. cbn [last].
  destruct r; try reflexivity. intros Ev. destruct (forallb is_dealloc rest); [reflexivity|].
  eexists. split; [reflexivity|]. cbn. rewrite Ev. auto.
Qed.

Theorem eq_turn p a1 a2 t u : at_builtin cf sto p "==" a1 a2 -> rd sto (hp (p_m p)) a1 t -> rd sto (hp (p_m p)) a2 u ->
  exists n0, forall fuel pg, n0 <= fuel ->
    if ident t u then succeeds sto fuel p (hp (p_m p)) (p_turn cf sto fuel pg p) else p_turn cf sto fuel pg p = Val PFails.
Proof.
  intros A R1 R2. pose proof A as (_ & _ & _ & _ & _ & _ & W & _).
  destruct (builtin_run _ _ _ _ A) as (i & m2 & c1 & c2 & Hi & Hh & He & G1 & G2 & G3 & G4 & L1 & L2 & K & KU).
  injection Hi as <-. destruct (equals_spec sto ND _ W _ _ R1 _ _ R2) as (n0 & H0). exists n0. intros fuel pg Hn.
  specialize (K fuel pg (if ident t u then Cont else Failing) m2). rewrite <- Hh. destruct (ident t u) eqn:Ei; cbn beta iota in K |- *; [|apply K; clear K].
  - apply K; [|reflexivity]. unfold fstep. cbn [local_step]. unfold equals_check. rewrite G1. cbn [bind]. rewrite G2. cbn [bind]. rewrite G3. cbn [bind]. rewrite G4. cbn [bind].
    rewrite Hh. change (heap_reg_equals (list cell) fops fuel (hp (p_m p)) a1 a2) with (equals (hp (p_m p)) fuel a1 a2). rewrite (H0 _ Hn). reflexivity.
  - unfold fstep. cbn [local_step]. unfold equals_check. rewrite G1. cbn [bind]. rewrite G2. cbn [bind]. rewrite G3. cbn [bind]. rewrite G4. cbn [bind].
    rewrite Hh. change (heap_reg_equals (list cell) fops fuel (hp (p_m p)) a1 a2) with (equals (hp (p_m p)) fuel a1 a2). rewrite (H0 _ Hn). reflexivity.
Qed.

(** == and \== with the same arguments in the same state *)
Theorem neq_turn p p' a1 a2 fuel pg : at_builtin cf sto p "==" a1 a2 -> at_builtin cf sto p' "\==" a1 a2 -> p_m p' = p_m p ->
  heap_reg_equals (list cell) fops fuel (hp (p_m p)) a1 a2 <> Fuel ->
  (succeeds sto fuel p (hp (p_m p)) (p_turn cf sto fuel pg p) /\ p_turn cf sto fuel pg p' = Val PFails) \/
  (p_turn cf sto fuel pg p = Val PFails /\ succeeds sto fuel p' (hp (p_m p')) (p_turn cf sto fuel pg p')).
Proof.
  intros A A' Em NF. pose proof A as (_ & _ & _ & _ & _ & _ & W & _).
  destruct (builtin_run _ _ _ _ A) as (i & m2 & c1 & c2 & Hi & Hh & He & G1 & G2 & G3 & G4 & L1 & L2 & K & KU).
  destruct (builtin_run _ _ _ _ A') as (i' & m2' & c1' & c2' & Hi' & Hh' & He' & G1' & G2' & G3' & G4' & _ & _ & K' & _).
  assert (i = IEq) by (unfold special in Hi; cbn in Hi; congruence). assert (i' = INeq) by (unfold special in Hi'; cbn in Hi'; congruence). subst i i'. rewrite Em in *.
  destruct (heap_reg_equals (list cell) fops fuel (hp (p_m p)) a1 a2) as [b|u|] eqn:Eb; [| |contradiction].
  2:{ now elim (equals_ub sto _ W fuel a1 a2 L1 L2 u). }
  assert (S1 : fstep cf sto fuel (IEq 2 3) m2 = Val (if b then Cont else Failing, m2)).
  { unfold fstep. cbn [local_step]. unfold equals_check. rewrite G1. cbn [bind]. rewrite G2. cbn [bind]. rewrite G3. cbn [bind]. rewrite G4. cbn [bind].
    rewrite Hh, Eb. reflexivity. }
  assert (S2 : fstep cf sto fuel (INeq 2 3) m2' = Val (if b then Failing else Cont, m2')).
  { unfold fstep. cbn [local_step]. unfold not_equals_check, equals_check. rewrite G1'. cbn [bind]. rewrite G2'. cbn [bind]. rewrite G3'. cbn [bind]. rewrite G4'. cbn [bind].
    rewrite Hh', Eb. now destruct b. }
  pose proof (K fuel pg _ _ S1) as T1. pose proof (K' fuel pg _ _ S2) as T2. destruct b.
  - left. split; [|exact T2]. rewrite <- Hh. exact (T1 eq_refl).
  - right. split; [exact T1|]. rewrite <- Hh'. exact (T2 eq_refl).
Qed.

Theorem is_turn p a1 a2 t x u : at_builtin cf sto p "is" a1 a2 -> rd sto (hp (p_m p)) a2 t -> calc pw t = Some x ->
  rd sto (hp (p_m p)) a1 u ->
  exists n0, forall fuel pg, n0 <= fuel ->
    match x with
    | inl n =>
        match u with
        | TInt k => if Z.eqb k n then succeeds sto fuel p (hp (p_m p)) (p_turn cf sto fuel pg p) else p_turn cf sto fuel pg p = Val PFails
        | TVar d _ => exists h', succeeds sto fuel p h' (p_turn cf sto fuel pg p) /\ rd sto h' d (TInt n) /\ rd sto h' a1 (TInt n) /\
            forall b, b < len (hp (p_m p)) -> b <> d -> nth_error h' b = nth_error (hp (p_m p)) b
        | _ => p_turn cf sto fuel pg p = Val PFails
        end
    | inr PrDiv0 => p_turn cf sto fuel pg p = Val (PErr EDivBy0)
    | inr (PrUnbound a) => forall v nm, nth_error (hp (p_m p)) a = Some (CRef a v) -> nthZ (s_vars sto) v = Some nm ->
        p_turn cf sto fuel pg p = Val (PErr (EUnbound nm))
    | inr PrNotArith => forall r, p_turn cf sto fuel pg p = Val r -> exists f, r = PErr (ENotArith f)
    end.
Proof.
  intros A R2 Ex R1. pose proof A as (_ & _ & _ & _ & _ & _ & W & _).
  destruct (builtin_run _ _ _ _ A) as (i & m2 & c1 & c2 & Hi & Hh & He & G1 & G2 & G3 & G4 & L1 & L2 & K & KU).
  injection Hi as <-. destruct (eval_spec cf sto _ W _ _ R2 _ Ex) as (n0 & r & H0 & Hr). exists n0. intros fuel pg Hn.
  specialize (H0 fuel Hn).
  assert (Es : fstep cf sto fuel (IIs 2 3) m2 = (v <- r ;;
     match v with
     | EvErr e => Val (Raise e, m2)
     | EvInt n => rx <- rreg (list cell) m2 2 ;; a <- get_heap_i rx ;; d <- deref (list cell) fops (m_heap m2) a ;; c <- at_ (list cell) fops (m_heap m2) d ;;
         match c with
         | CInt k => Val (if Z.eqb k n then Cont else Failing, m2)
         | CRef _ _ => let m1 := push (list cell) fops m2 (CInt n) in
            h' <- bind_ref (list cell) fops (m_heap m1) d (hsize (list cell) fops m1 - 1) ;; Val (Cont, set_heap m1 h')
         | _ => Val (Failing, m2)
         end
     end)).
  { unfold fstep. cbn [local_step]. unfold is_pred. rewrite G3. cbn [bind]. rewrite G4. cbn [bind]. rewrite Hh.
    change (eval_reg (list cell) fops cf sto fuel (hp (p_m p)) a2) with (eval cf sto (hp (p_m p)) fuel a2). now rewrite H0. }
  clear H0. destruct x as [n|[| |]]; cbn in Hr.
  - subst r. cbn [bind] in Es. rewrite G1 in Es. cbn [bind] in Es. rewrite G2 in Es. cbn [bind] in Es. rewrite Hh in Es.
    destruct (rd_root sto _ W _ _ R1) as (d & Ed & Ld & Nd & Rd). rewrite Ed in Es. cbn [bind] in Es.
    destruct (root_cases sto 0 _ d W Ld Nd) as (c & Ec & Hc). rewrite (proj2 (at_nth _ _ _) Ec) in Es. cbn [bind] in Es.
    pose proof (rd_inv sto _ d u Rd Nd) as Ku. rewrite Ec in Ku.
    destruct c as [j|m|b w|j m|j m|b]; try contradiction.
    + subst u. exact (K _ pg _ _ Es).
    + subst u. pose proof (K _ pg _ _ Es) as T. destruct (Z.eqb m n); [|exact T]. rewrite <- Hh. exact (T eq_refl).
    + subst b. destruct (Ku eq_refl) as (nm & ->).
      unfold push, hsize in Es. cbn [h_push h_size fops m_heap set_heap] in Es. rewrite Hh, app_length in Es. cbn [List.length] in Es. rewrite Nat.add_sub in Es.
      destruct (push_bind sto (hp (p_m p)) d w (CInt n) 0 W Ec eq_refl I) as (h' & Eb & W' & Lh & Sh). rewrite Eb in Es. cbn [bind] in Es.
      pose proof (K _ pg _ _ Es eq_refl) as T. cbn [m_heap set_heap] in T. exists h'. split; [exact T|].
      assert (Nh : forall b, nth_error h' b = if Nat.eqb b d then Some (CRef (len (hp (p_m p))) w) else nth_error (hp (p_m p) ++ [CInt n]) b).
      { unfold bind_ref in Eb. rewrite (proj2 (at_nth (hp (p_m p) ++ [CInt n]) d (CRef d w))) in Eb by (rewrite nth_error_app1; assumption).
        cbn [bind] in Eb. unfold hset in Eb. cbn [h_set fops] in Eb.
        destruct (upd (hp (p_m p) ++ [CInt n]) d (CRef (len (hp (p_m p))) w)) as [l|] eqn:Eu; cbn in Eb; [|discriminate]. injection Eb as <-.
        intros b. rewrite (upd_nth _ _ _ _ _ Eu). reflexivity. }
      assert (Rn : rd sto h' d (TInt n)).
      { eapply rd_next with (b := len (hp (p_m p))).
        - unfold next. rewrite Nh, Nat.eqb_refl. destruct (Nat.eqb_spec (len (hp (p_m p))) d); [lia|reflexivity].
        - apply rd_int. rewrite Nh. destruct (Nat.eqb_spec (len (hp (p_m p))) d); [lia|]. rewrite nth_error_app2, Nat.sub_diag by lia. reflexivity. }
      csplit; auto.
      * assert (Hd : forall k a d0, derefs (hp (p_m p)) k a d0 -> rd sto h' d0 (TInt n) -> nth_error (hp (p_m p)) d0 = Some (CRef d w) -> rd sto h' a (TInt n)).
        { intros k a d0 D R Hd0. induction D as [a La Na|k a b d0 Na D IH]; [assumption|].
          apply rd_next with (b := b); [|now apply IH].
          assert (Nad : a <> d). { intros ->. unfold next in Na. rewrite Ec, Nat.eqb_refl in Na. discriminate. }
          unfold next. rewrite Nh. destruct (Nat.eqb_spec a d); [contradiction|].
          assert (La : a < len (hp (p_m p))). { unfold next in Na. destruct (nth_error (hp (p_m p)) a) eqn:Ea; [eapply nth_error_lt; eassumption|discriminate]. }
          rewrite nth_error_app1 by assumption. exact Na. }
        destruct (wfh_deref sto 0 _ a1 W L1) as (d' & Ed' & _ & _ & (k & D)). rewrite Ed in Ed'. injection Ed' as <-.
        eapply Hd; eassumption.
      * intros b Lb Nb. rewrite Nh. destruct (Nat.eqb_spec b d); [contradiction|]. now rewrite nth_error_app1.
    + destruct Ku as (l & -> & _). exact (K _ pg _ _ Es).
    + destruct Ku as (l & -> & _). exact (K _ pg _ _ Es).
  - subst r. cbn [bind] in Es. exact (K _ pg _ _ Es).
  - destruct Hr as (v & Ev & ->). intros v' nm Ev' En. rewrite Ev in Ev'. injection Ev' as <-. rewrite En in Es. cbn [bind] in Es. exact (K _ pg _ _ Es).
  - intros r' Er'. destruct Hr as [(f & ->)|Hr].
    + cbn [bind] in Es. rewrite (K _ pg _ _ Es) in Er'. injection Er' as <-. eauto.
    + exfalso. assert (Ef : exists w, fstep cf sto fuel (IIs 2 3) m2 = Ub w) by (destruct Hr as [-> | ->]; cbn [bind] in Es; eauto).
      destruct Ef as [w Ef]. rewrite (KU _ pg _ Ef) in Er'. discriminate.
Qed.
Theorem is_exact p a1 a2 t n u : at_builtin cf sto p "is" a1 a2 -> rd sto (hp (p_m p)) a2 t -> exact_value t = Some n ->
  rd sto (hp (p_m p)) a1 u ->
  exists n0, forall fuel pg, n0 <= fuel ->
    match u with
    | TInt k => if Z.eqb k n then succeeds sto fuel p (hp (p_m p)) (p_turn cf sto fuel pg p) else p_turn cf sto fuel pg p = Val PFails
    | TVar d _ => exists h', succeeds sto fuel p h' (p_turn cf sto fuel pg p) /\ rd sto h' d (TInt n) /\ rd sto h' a1 (TInt n) /\
        forall b, b < len (hp (p_m p)) -> b <> d -> nth_error h' b = nth_error (hp (p_m p)) b
    | _ => p_turn cf sto fuel pg p = Val PFails
    end.
Proof. intros A R E Ru. exact (is_turn p a1 a2 t (inl n) u A R (exact_calc _ _ _ E) Ru). Qed.
Theorem is_div0 p a1 a2 t u : at_builtin cf sto p "is" a1 a2 -> rd sto (hp (p_m p)) a2 t -> calc pw t = Some (inr PrDiv0) ->
  rd sto (hp (p_m p)) a1 u ->
  exists n0, forall fuel pg, n0 <= fuel -> p_turn cf sto fuel pg p = Val (PErr EDivBy0).
Proof. intros A R E Ru. exact (is_turn p a1 a2 t (inr PrDiv0) u A R E Ru). Qed.
Theorem is_unbound p a1 a2 t u a v nm : at_builtin cf sto p "is" a1 a2 -> rd sto (hp (p_m p)) a2 t -> calc pw t = Some (inr (PrUnbound a)) ->
  rd sto (hp (p_m p)) a1 u -> nth_error (hp (p_m p)) a = Some (CRef a v) -> nthZ (s_vars sto) v = Some nm ->
  exists n0, forall fuel pg, n0 <= fuel -> p_turn cf sto fuel pg p = Val (PErr (EUnbound nm)).
Proof.
  intros A R E Ru Ea En. destruct (is_turn p a1 a2 t (inr (PrUnbound a)) u A R E Ru) as (n0 & H). exists n0. intros fuel pg Hn. exact (H fuel pg Hn v nm Ea En).
Qed.
Theorem is_not_arith p a1 a2 t u : at_builtin cf sto p "is" a1 a2 -> rd sto (hp (p_m p)) a2 t -> calc pw t = Some (inr PrNotArith) ->
  rd sto (hp (p_m p)) a1 u ->
  exists n0, forall fuel pg r, n0 <= fuel -> p_turn cf sto fuel pg p = Val r -> exists f, r = PErr (ENotArith f).
Proof.
  intros A R E Ru. destruct (is_turn p a1 a2 t (inr PrNotArith) u A R E Ru) as (n0 & H). exists n0. intros fuel pg r Hn. exact (H fuel pg Hn r).
Qed.

End Turn.

(** --- concrete instances --- *)
Definition wf_cell_b (sto : storage) (len a : nat) (c : cell) : bool :=
  match c with
  | CCons i => match nthZ (s_functors sto) i with Some f => Nat.eqb (fv_arity f) 0 | None => false end
  | CInt n => true
  | CRef b _ => Nat.ltb b len
  | CStr b => Nat.ltb b a
  | CFun i n => (0 <=? n)%Z && match nthZ (s_functors sto) i with Some f => Nat.eqb (fv_arity f) (Z.to_nat n) | None => false end &&
                Nat.ltb (a + Z.to_nat n) len
  | CEval i n => (n =? 2)%Z && (0 <=? i)%Z && (i <=? 4)%Z && Nat.ltb (a + 2) len
  end.
Definition wfh_b (sto : storage) (h : list cell) : bool :=
  forallb (fun a => match nth_error h a with Some c => wf_cell_b sto (List.length h) a c | None => false end) (seq 0 (List.length h)) &&
  forallb (fun a => match deref (list cell) fops h a with Val _ => true | _ => false end) (seq 0 (List.length h)).
Lemma wfh_b_ok sto h : wfh_b sto h = true -> wfh sto 0 h.
Proof.
  unfold wfh_b. rewrite andb_true_iff, !forallb_forall. intros [H1 H2]. split.
  - intros a c E. specialize (H1 a). rewrite E in H1. specialize (H1 ltac:(apply in_seq; pose proof (nth_error_lt _ _ _ E); lia)).
    destruct c as [i|n|b v|i n|i n|b]; cbn in H1 |- *; auto.
    + destruct (nthZ (s_functors sto) i) as [[s k]|]; [|discriminate]. apply Nat.eqb_eq in H1. cbn in H1. subst. eauto.
    + now apply Nat.ltb_lt in H1.
    + apply andb_true_iff in H1. destruct H1 as [H1 H3]. apply andb_true_iff in H1. destruct H1 as [H1 H4].
      apply Z.leb_le in H1. apply Nat.ltb_lt in H3. destruct (nthZ (s_functors sto) i) as [[s k]|]; [|discriminate].
      apply Nat.eqb_eq in H4. cbn in H4. subst. split; [lia|]. split; [eauto|lia].
    + rewrite !andb_true_iff in H1. destruct H1 as [[[H1 H3] H4] H5]. apply Nat.ltb_lt in H5.
      apply Z.eqb_eq in H1. apply Z.leb_le in H3, H4. lia.
    + now apply Nat.ltb_lt in H1.
  - intros a L. specialize (H2 a ltac:(apply in_seq; lia)). destruct (deref (list cell) fops h a) as [d| |] eqn:E; try discriminate.
    apply deref_derefs in E. destruct E as (n & E). eauto.
Qed.
Definition argreg_b (m : mst (list cell)) (a1 a2 : nat) : bool :=
  match m_regs m with
  | c1 :: c2 :: _ => match addr_of c1, addr_of c2 with
                     | Some x, Some y => Nat.eqb x a1 && Nat.eqb y a2 && Nat.ltb x (List.length (m_heap m)) && Nat.ltb y (List.length (m_heap m))
                     | _, _ => false
                     end
  | _ => false
  end.
Lemma argreg_b_ok m a1 a2 : argreg_b m a1 a2 = true -> argreg m [a1; a2].
Proof.
  unfold argreg_b, argreg. destruct (m_regs m) as [|c1 [|c2 l]]; try discriminate.
  destruct (addr_of c1) as [x|] eqn:E1; [|discriminate]. destruct (addr_of c2) as [y|] eqn:E2; [|discriminate].
  rewrite !andb_true_iff, !Nat.eqb_eq, !Nat.ltb_lt. intros [[[-> ->] H1] H2] [|[|[|i]]] a E; try discriminate; injection E as <-; cbn; eauto.
Qed.
(** the branch that is next after [n] turns of a query *)
Definition next_branch (o : org) (n : nat) : option process :=
  match snd (search_n cfg0 (o_sto o) (o_prog o) 1000 n [] [([], root_proc o)]) with
  | (_, p) :: _ => Some p
  | [] => None
  end.
Lemma builtin_witness program query n nm a1 a2 t u :
  match loaded program query, parse_program program, parse_query (append_dot query) with
  | Some o, Some (COk _), Some (COk _) =>
      match next_branch o n, plookup (FV nm 2) (o_prog o) with
      | Some p, Some [[a]] =>
          match p_codes p with a' :: _ => a' = a | [] => False end /\
          (special (FV nm 2) <> None /\ wfh_b (o_sto o) (m_heap (p_m p)) = true /\ argreg_b (p_m p) a1 a2 = true) /\
          rdb (o_sto o) 100 (m_heap (p_m p)) a1 = Some t /\ rdb (o_sto o) 100 (m_heap (p_m p)) a2 = Some u
      | _, _ => False
      end
  | _, _, _ => False
  end ->
  exists o P q p, session cfg0 o P (QFresh q) /\ NoDup (s_functors (o_sto o)) /\
    (exists T pi Q root, root_of o root /\ search cfg0 (o_sto o) (o_prog o) root T ((pi, p) :: Q)) /\
    at_builtin cfg0 (o_sto o) p nm a1 a2 /\
    rd (o_sto o) (m_heap (p_m p)) a1 t /\ rd (o_sto o) (m_heap (p_m p)) a2 u /\
    parse_program program = Some (COk P) /\ parse_query (append_dot query) = Some (COk q).
Proof.
  destruct (loaded program query) as [o|] eqn:E1; [|contradiction].
  destruct (parse_program program) as [[P| |]|] eqn:E2; try contradiction.
  destruct (parse_query (append_dot query)) as [[q| |]|] eqn:E3; try contradiction.
  pose proof (loaded_session _ _ _ _ _ E1 E2 E3) as HS.
  destruct (next_branch o n) as [p|] eqn:E4; [|contradiction].
  destruct (plookup (FV nm 2) (o_prog o)) as [[|[|a []] []]|] eqn:E5; try contradiction.
  intros (Ha & (Hs & Hw & Hr) & R1 & R2). destruct (p_codes p) as [|a' rest] eqn:E6; [contradiction|]. subst a'.
  clear E1. exists o, P, q, p. csplit; try assumption; try reflexivity.
  - exact (session_nodup _ _ _ _ HS).
  - unfold next_branch in E4. assert (RO : root_of o (root_proc o)).
    { destruct (session_inv _ _ _ _ HS) as [_ (rl & _ & _ & K & _)]. assert (RO : root_of o (init_proc rl)) by (exists rl; split; [exact K|reflexivity]). rewrite <- (root_proc_ok _ _ RO). exact RO. }
    pose proof (search_n_ok cfg0 (o_sto o) (o_prog o) (root_proc o) 1000 n [] [([], root_proc o)] (se_init _ _ _ _)) as S.
    destruct (snd (search_n _ _ _ _ _ _ _)) as [|[pi p'] Q]; [discriminate E4|]. injection E4 as ->. exists (fst (search_n cfg0 (o_sto o) (o_prog o) 1000 n [] [([], root_proc o)])), pi, Q, (root_proc o). split; assumption.
  - destruct (session_inv _ _ _ _ HS) as [A _]. pose proof (ck_prog _ _ _ A (FV nm 2)) as K.
    destruct (special (FV nm 2)) as [i|] eqn:Ei; [|contradiction]. destruct K as (rs & K1 & K2). rewrite E5 in K1. injection K1 as <-.
    exists i, a, rest. csplit; try assumption; try reflexivity; [exact (wfh_b_ok _ _ Hw)|exact (argreg_b_ok _ _ _ Hr)].
  - eapply rdb_sound; eassumption.
  - eapply rdb_sound; eassumption.
Qed.
