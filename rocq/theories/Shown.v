(** Printed terms. *)
From Verif Require Import Base Machine Heap Facts Compiler Spec Print Valuation Session Search Alloc Terms.
Open Scope string_scope.
Open Scope list_scope.

Lemma append_assoc (a b c : string) : ((a ++ b) ++ c)%string = (a ++ b ++ c)%string.
Proof. induction a as [|x a IH]; cbn; congruence. Qed.
Lemma append_nil_r (a : string) : (a ++ "")%string = a.
Proof. induction a as [|x a IH]; cbn; congruence. Qed.
Lemma set_last_snoc s c d : set_last (s ++ String c "") d = Val (s ++ String d "")%string.
Proof.
  induction s as [|x s IH]; [reflexivity|]. cbn [append set_last]. rewrite IH. destruct s; reflexivity.
Qed.
Lemma show_plain b s l : s <> "[" -> show_at b (TFun s l) =
  ((if b then "|" else "") ++ s ++ "(" ++ String.concat "," (map (show_at false) l) ++ ")")%string.
Proof.
  intros N. cbn [show_at]. apply String.eqb_neq in N. rewrite N. destruct l as [|x [|y [|]]]; destruct b; reflexivity.
Qed.
Lemma show_list b x r : show_at b (TFun "[" [x; r]) =
  if b then ("," ++ show_at false x ++ show_at true r)%string else ("[" ++ show_at false x ++ show_at true r ++ "]")%string.
Proof. reflexivity. Qed.
Lemma show_nil b : show_at b (TFun "[" []) = if b then "" else "[]".
Proof. reflexivity. Qed.
Lemma proper_fun s l : proper (TFun s l) = true -> Forall (fun t => proper t = true) l /\ (s = "[" -> l = [] \/ exists x r, l = [x; r] /\ ends_list r = true).
Proof.
  cbn [proper]. rewrite andb_true_iff, forallb_forall. intros [A B]. split; [now apply Forall_forall|]. intros ->. cbn in B.
  destruct l as [|x [|y [|]]]; try discriminate; eauto.
Qed.
Lemma proper_list s l : Forall (fun t => proper t = true) l -> (s = "[" -> ends_list (TFun s l) = true) -> proper (TFun s l) = true.
Proof.
  intros A B. cbn [proper]. apply andb_true_iff. split; [now apply forallb_forall, Forall_forall|].
  destruct (String.eqb_spec s "["); auto.
Qed.

Lemma set_last_relast s c r : set_last s c = Val r -> r = relast s c.
Proof.
  revert r. induction s as [|x s IH]; intros r E; [discriminate|]. destruct s as [|y s]; [cbn in E; now injection E as <-|].
  cbn [set_last] in E. cbn [relast]. cbn [set_last] in IH.
  destruct (match s with EmptyString => Val (String c "") | _ => _ end) as [r'| |] eqn:E'; cbn [bind] in E; try discriminate.
  injection E as <-. f_equal. now apply IH.
Qed.
Lemma relast_snoc s c d : relast (s ++ String c "") d = (s ++ String d "")%string.
Proof. symmetry. apply set_last_relast, set_last_snoc. Qed.
Lemma printed_plain contig s l : s <> "[" -> l <> [] -> printed contig (TFun s l) = (s ++ "(" ++ String.concat "," (map (printed false) l) ++ ")")%string.
Proof. intros N L. cbn [printed]. apply String.eqb_neq in N. rewrite N. destruct l as [|x [|y [|]]]; [contradiction|reflexivity..]. Qed.

(** On terms whose lists are proper it is the standard notation. *)
Lemma printed_show t : proper t = true ->
  printed false t = show t /\ (ends_list t = true -> ("," ++ printed true t)%string = (show_at true t ++ ",")%string).
Proof.
  revert t. fix IH 1. intros [a nm|s|n|s l|s l] Pt.
  - split; [reflexivity|discriminate].
  - split; [reflexivity|discriminate].
  - split; [reflexivity|discriminate].
  - apply proper_fun in Pt. destruct Pt as [Pl Pn].
    assert (Hl : Forall (fun t => printed false t = show t /\ (ends_list t = true -> ("," ++ printed true t)%string = (show_at true t ++ ",")%string)) l).
    { clear Pn. induction l as [|t l IHl]; [constructor|]. inversion Pl as [|? ? P1 P2]; subst. constructor; [apply IH; exact P1|apply IHl; exact P2]. }
    destruct (String.eqb_spec s "[") as [Es|Ns]; [rewrite Es in *; clear Es s|].
    + destruct (Pn eq_refl) as [->|(x & r & -> & Er)]; [split; [reflexivity|intros _; reflexivity]|].
      inversion Hl as [|? ? [X1 _] Hl2]; subst. inversion Hl2 as [|? ? [_ R2] _]; subst. specialize (R2 Er).
      assert (Hsep : (match r with TVar _ _ => "|" | _ => "," end ++ printed true r)%string = (show_at true r ++ ",")%string)
        by (rewrite <- R2; destruct r; try reflexivity; discriminate).
      unfold show in *. rewrite !show_list. cbn [printed]. change ("[" =? "[") with true. cbv iota. rewrite Hsep, X1. split.
      * rewrite <- !append_assoc. rewrite relast_snoc. now rewrite !append_assoc.
      * intros _. now rewrite !append_assoc.
    + destruct l as [|x l].
      * split; [unfold show; cbn [show_at printed]; apply String.eqb_neq in Ns; now rewrite Ns|]. intros E. cbn [ends_list] in E.
        apply String.eqb_eq in E. contradiction.
      * split; [|intros E; exfalso; cbn [ends_list] in E; destruct l as [|y [|]]; try discriminate; apply andb_true_iff in E; destruct E as [E _]; apply String.eqb_eq in E; contradiction].
        rewrite printed_plain by (auto; discriminate). unfold show. rewrite show_plain by assumption. cbn [append]. do 4 f_equal.
        apply map_ext_in. intros t Ht. rewrite Forall_forall in Hl. apply (Hl t Ht).
  - cbn [proper] in Pt. split; [|discriminate]. destruct l as [|x [|y [|]]]; try reflexivity.
    cbn [forallb] in Pt. apply andb_true_iff in Pt. destruct Pt as [P1 P2]. apply andb_true_iff in P2. destruct P2 as [P2 _].
    destruct (IH x P1) as [E1 _]. destruct (IH y P2) as [E2 _]. unfold show in *. cbn [printed show_at]. now rewrite E1, E2.
Qed.

Section Shown.
Variable sto : storage.
Variable h : list cell.
Variable users : list string.
Hypothesis W : wfh sto 0 h.
Hypothesis FO : forall d i n nm k, nth_error h d = Some (CFun i n) -> nthZ (s_functors sto) i = Some (FV nm k) -> fun_ok nm k.
Notation len := (@List.length cell).
Notation rd := (rd sto h).
Notation rds := (rds sto h).
Notation str f := (str_of (list cell) fops sto f h users).

Lemma deref_rd a d : deref (list cell) fops h a = Val d -> next h d = None /\ (forall u, rd d u -> rd a u) /\ (forall u, rd a u -> rd d u).
Proof.
  intros E. apply deref_derefs in E. destruct E as (n & D). split; [apply (derefs_root _ _ _ _ D)|].
  split; intros u Ru; [eapply rd_derefs|eapply rd_derefs_inv]; eauto.
Qed.

Lemma rds_nil_inv k n : rds k n [] -> n = 0.
Proof. intros R. now inversion R. Qed.
Lemma rds_cons_inv k n t l : rds k n (t :: l) -> exists n', n = S n' /\ rd k t /\ rds (S k) n' l.
Proof. intros R. inversion R; subst. eauto. Qed.
Lemma rds_S_inv k n l : rds k (S n) l -> exists t l', l = t :: l' /\ rd k t /\ rds (S k) n l'.
Proof. intros R. inversion R; subst. eauto. Qed.
Lemma rds_0_inv k l : rds k 0 l -> l = [].
Proof. intros R. now inversion R. Qed.

Lemma str_args_printed p : (forall a s, p a = Val s -> exists t, rd a t /\ s = printed false t) -> forall n k s,
  str_args p n k = Val s -> exists l, rds k (S n) l /\ s = String.concat "," (map (printed false) l).
Proof.
  intros Hp. induction n as [|n IH]; intros k s E; cbn [str_args] in E.
  - destruct (Hp _ _ E) as (t & Rt & ->). exists [t]. csplit; auto. constructor; [assumption|constructor].
  - destruct (p k) as [a| |] eqn:Ea; cbn [bind] in E; try discriminate.
    destruct (str_args p n (S k)) as [r| |] eqn:Er; cbn [bind] in E; try discriminate. injection E as <-.
    destruct (Hp _ _ Ea) as (t & Rt & ->). destruct (IH _ _ Er) as (l & Rl & ->).
    exists (t :: l). csplit; auto; [now constructor|]. apply rds_S_inv in Rl. destruct Rl as (u & l2 & -> & _ & _). reflexivity.
Qed.

(** Whatever is printed is the print of the (finite) term at the address. *)
Lemma str_printed : forall fuel contig a s, str fuel contig a = Val s -> exists t, rd a t /\ s = printed contig t.
Proof.
  induction fuel as [|f IH]; intros contig a s E; [discriminate|]. cbn [str_of] in E.
  destruct (deref (list cell) fops h a) as [d| |] eqn:Ed; cbn [bind] in E; try discriminate.
  destruct (deref_rd a d Ed) as (Nd & Back & _).
  destruct (at_ (list cell) fops h d) as [c| |] eqn:Ec; cbn [bind] in E; try discriminate.
  assert (Hd : nth_error h d = Some c) by (unfold at_ in Ec; cbn [h_at fops] in Ec; destruct (nth_error h d); cbn in Ec; congruence).
  pose proof (proj1 W d c Hd) as Wc.
  destruct c as [i|m|b v|i m|i m|b]; try discriminate.
  - destruct Wc as (nm & Ei). rewrite Ei in E. cbn [of_opt bind fv_name] in E. injection E as <-.
    eexists. split; [apply Back, rd_con; eassumption|]. unfold fn. rewrite Ei. reflexivity.
  - injection E as <-. eexists. split; [apply Back, rd_int; eassumption|reflexivity].
  - assert (b = d) as -> by (unfold next in Nd; rewrite Hd in Nd; destruct (Nat.eqb_spec b d); [assumption|discriminate]).
    destruct (nthZ (s_vars sto) v) as [x|]; cbn [of_opt bind] in E; [|discriminate]. injection E as <-.
    eexists (TVar d _). split; [apply Back; eapply rd_var; eassumption|reflexivity].
  - destruct Wc as (Hm & (nm & Ei) & Lm). rewrite Ei in E. cbn [of_opt bind] in E.
    assert (Efn : fn sto i = nm) by (unfold fn; now rewrite Ei).
    assert (Mk : forall l, rds (S d) (Z.to_nat m) l -> rd a (TFun nm l)) by (intros l Rl; apply Back; rewrite <- Efn; eapply rd_fun; eassumption).
    pose proof (FO _ _ _ _ _ Hd Ei) as Fk.
    unfold fv_is_empty_list, fv_is_append, fv_is_list in E. cbn [fv_name fv_arity] in E.
    destruct (Z.to_nat m) as [|n1] eqn:Em.
    { destruct Fk as [[-> _]|(_ & _ & K)]; [|now elim K]. cbn in E. injection E as <-.
      exists (TFun "[" []). split; [apply Mk; constructor|reflexivity]. }
    cbn [Nat.eqb] in E. rewrite andb_false_r in E. replace (d + 1) with (S d) in E by lia.
    destruct Fk as [[-> Fk]|(Nl & Nb & _)].
    + destruct Fk as [Fk|Fk]; [discriminate|]. injection Fk as ->. cbn [String.eqb] in E.
      replace (d + 2) with (S (S d)) in E by lia.
      destruct (str f false (S d)) as [hd| |] eqn:E1; cbn [bind] in E; try discriminate.
      destruct (deref (list cell) fops h (S (S d))) as [rdd| |] eqn:E2; cbn [bind] in E; try discriminate.
      destruct (at_ (list cell) fops h rdd) as [rc| |] eqn:E3; cbn [bind] in E; try discriminate.
      destruct (str f true (S (S d))) as [rest| |] eqn:E4; cbn [bind] in E; try discriminate.
      destruct (IH _ _ _ E1) as (t1 & S1 & ->). destruct (IH _ _ _ E4) as (t2 & S3 & ->).
      assert (Hrc : match rc with CRef _ _ => "|" | _ => "," end = match t2 with TVar _ _ => "|" | _ => "," end).
      { destruct (deref_rd _ _ E2) as (Nr & _ & Fw). pose proof (rd_inv sto h rdd _ (Fw _ S3) Nr) as K.
        assert (Hr : nth_error h rdd = Some rc) by (unfold at_ in E3; cbn [h_at fops] in E3; destruct (nth_error h rdd); cbn in E3; congruence).
        rewrite Hr in K. destruct rc as [j|m1|b v|j m1|j m1|b].
        - now subst t2.
        - now subst t2.
        - assert (b = rdd) as -> by (unfold next in Nr; rewrite Hr in Nr; destruct (Nat.eqb_spec b rdd); [assumption|discriminate]).
          destruct (K eq_refl) as (nm & ->). reflexivity.
        - destruct K as (l & -> & _). reflexivity.
        - destruct K as (l & -> & _). reflexivity.
        - exfalso. destruct (root_cases sto 0 h rdd W (nth_error_lt _ _ _ Hr) Nr) as (c & Ec' & Hc). rewrite Hr in Ec'. injection Ec' as <-. exact Hc. }
      rewrite Hrc in E. exists (TFun "[" [t1; t2]). split; [apply Mk; repeat (constructor; auto)|].
      cbn [printed]. change ("[" =? "[") with true. cbv iota. destruct contig; [now injection E as <-|]. now apply set_last_relast.
    + apply String.eqb_neq in Nb. rewrite Nb in E. assert (Nl' := Nl). apply String.eqb_neq in Nl'. rewrite Nl' in E.
      destruct (str_args (str f false) n1 (S d)) as [args| |] eqn:Ea; cbn [bind] in E; try discriminate. injection E as <-.
      destruct (str_args_printed (str f false) (IH false) n1 (S d) args Ea) as (l & Rl & ->).
      exists (TFun nm l). split; [auto|].
      apply rds_S_inv in Rl. destruct Rl as (x & l1 & -> & _ & _). symmetry. apply printed_plain; [assumption|discriminate].
  - destruct Wc as (-> & Hi & Lm).
    replace (d + 1) with (S d) in E by lia. replace (d + 2) with (S (S d)) in E by lia.
    destruct (op_name i) as [nm|] eqn:Eo; cbn [of_opt bind] in E; [|discriminate].
    destruct (str f false (S d)) as [s1| |] eqn:E1; cbn [bind] in E; try discriminate.
    destruct (str f false (S (S d))) as [s2| |] eqn:E2; cbn [bind] in E; try discriminate. injection E as <-.
    destruct (IH false _ _ E1) as (t1 & S1 & ->). destruct (IH false _ _ E2) as (t2 & S3 & ->).
    exists (TEv (opn i) [t1; t2]). split.
    + apply Back. eapply rd_ev; [exact Hd|]. change (Z.to_nat 2) with 2. repeat (constructor; auto).
    + unfold opn. cbn [printed]. rewrite Eo. reflexivity.
Qed.
End Shown.
