(** Instances of the lock step: other orders of permanent variables, and other tables. *)
From Coq Require Import Permutation.
From Verif Require Import Base Machine Heap Facts Compiler Parser Print Organizer Session Atoms Code Search Tables Answers Sim Lock LockComp LockHist.
Open Scope string_scope.
Open Scope list_scope.

Lemma replies_eq l1 l2 : replies False l1 l2 -> l1 = l2.
Proof.
  induction 1 as [|r1 r2 l1 l2 R _ IH| | |]; try contradiction; auto. rewrite IH. f_equal. f_equal.
  destruct r1 as [|[]|], r2 as [|[]|]; cbn in R; auto; try discriminate R. destruct R as [[->|[[] _]] ->]. reflexivity.
Qed.

(** --- the order of the permanent variables --- *)
Definition K0 : params := {| pr_F := eq; pr_V := eq; pr_lax := False; pr_isok := True; pr_sh := fun _ => 0%Z |}.
Lemma K0_ok s1 s2 : s1 = s2 -> tables_ok K0 s1 s2.
Proof. intros <-. constructor; cbn; auto; intros; subst; try tauto; reflexivity. Qed.
Lemma K0_mono : kmono K0 K0.
Proof. constructor; auto; reflexivity. Qed.
Lemma K0_sim (fin1 fin2 : storage -> Prop) : (forall s s', sto_ext s s' -> fin1 s' -> fin1 s) -> (forall s s', sto_ext s s' -> fin2 s' -> fin2 s) ->
  tables_sim K0 eq fin1 fin2.
Proof. intros D1 D2. constructor; auto; intros x s1 s2 <- _ _; split; reflexivity. Qed.
Section Order.
Variable cf1 cf2 : cfg.
Hypothesis O1 : ord_ok cf1.
Hypothesis O2 : ord_ok cf2.
Lemma built_same : snd (compile_built_ins cf1 empty_storage) = snd (compile_built_ins cf2 empty_storage) /\
  resrel (pstruct K0) (fst (compile_built_ins cf1 empty_storage)) (fst (compile_built_ins cf2 empty_storage)).
Proof.
  exact (built_ins_sim K0 eq (fun _ => True) (fun _ => True) (K0_sim _ _ (fun _ _ _ _ => I) (fun _ _ _ _ => I)) cf1 cf2 O1 O2 empty_storage empty_storage eq_refl I I).
Qed.
Hypothesis POW : forall a b, c_powf cf1 a b = c_powf cf2 a b.
Theorem order_same o1 o2 cs : new_org cf1 = Val o1 -> new_org cf2 = Val o2 -> play cf1 cs o1 = play cf2 cs o2.
Proof.
  intros N1 N2. apply replies_eq.
  apply (play_sim cf1 cf2 O1 O2 POW (fun _ _ => K0) eq (fun _ => True) False True); auto.
  - intros. apply K0_ok. assumption.
  - intros. apply K0_mono.
  - intros. apply K0_sim; intros s s' X Y; eapply sto_ext_trans; eauto.
  - apply Forall_forall. intros c _. destruct c; cbn; auto; intros; intros n _; now left.
  - unfold new_org in N1, N2. destruct built_same as [S R]. destruct (compile_built_ins cf1 empty_storage) as [r1 s1], (compile_built_ins cf2 empty_storage) as [r2 s2]. cbn in S, R. subst s2.
    destruct R as [p1 p2 R| |]; try discriminate N1. injection N1 as <-. injection N2 as <-. constructor; cbn; auto.
    constructor; cbn; auto; [now apply pstruct_rel|now apply K0_ok].
  - apply Forall_forall. auto.
  - apply Forall_forall. auto.
Qed.
End Order.

(** --- other tables --- *)
Definition same_at {A} (l1 l2 : list A) (i j : Z) : Prop := exists x, nthZ l1 i = Some x /\ nthZ l2 j = Some x.
Definition KT (lax isok : Prop) (sh : csrc -> Z) (s1 s2 : storage) : params :=
  {| pr_F := fun i j => same_at (s_functors s1) (s_functors s2) i j \/ (i = 0 /\ j = 0)%Z;
     pr_V := same_at (s_vars s1) (s_vars s2); pr_lax := lax; pr_isok := isok; pr_sh := sh |}.
Definition tables_good (s1 s2 : storage) : Prop :=
  NoDup (s_functors s1) /\ NoDup (s_functors s2) /\ hd_error (s_functors s1) = hd_error (s_functors s2).
(** indices fit in 16 bits *)
Definition short_tables (s : storage) : Prop :=
  (Z.of_nat (List.length (s_functors s)) <= 32768)%Z /\ (Z.of_nat (List.length (s_vars s)) <= 32768)%Z.
Lemma nthZ_inj {A} (l : list A) i j x : NoDup l -> nthZ l i = Some x -> nthZ l j = Some x -> i = j.
Proof.
  unfold nthZ. intros N. destruct (Z.ltb_spec i 0); [discriminate|]. destruct (Z.ltb_spec j 0); [discriminate|]. intros A1 A2.
  assert (Z.to_nat i = Z.to_nat j); [|lia]. eapply NoDup_nth_error; eauto; [|congruence]. apply nth_error_Some. congruence.
Qed.
Lemma nthZ_hd {A} (l : list A) : nthZ l 0 = hd_error l.
Proof. destruct l; reflexivity. Qed.
Lemma nthZ_ext {A} (l e : list A) i x : nthZ l i = Some x -> nthZ (l ++ e) i = Some x.
Proof. unfold nthZ. destruct (i <? 0)%Z; [discriminate|]. intros E. rewrite nth_error_app1; [exact E|]. apply nth_error_Some. congruence. Qed.
Section Tab.
Variable lax isok : Prop.
Hypothesis IL : isok -> lax.
Variable sh : csrc -> Z.
Notation KF := (KT lax isok sh).
Lemma KT_ok s1 s2 : tables_good s1 s2 -> tables_ok (KF s1 s2) s1 s2.
Proof.
  intros (N1 & N2 & H). constructor; cbn.
  - intros i j [(f & A & B)|[-> ->]]; [congruence|]. now rewrite !nthZ_hd.
  - intros i j (f & A & B). congruence.
  - assert (Z : forall i j, same_at (s_functors s1) (s_functors s2) i j -> (i = 0 <-> j = 0)%Z).
    { intros i j (f & A & B). split; intros ->.
      - rewrite nthZ_hd, H, <- nthZ_hd in A. exact (nthZ_inj _ _ _ _ N2 B A).
      - rewrite nthZ_hd, <- H, <- nthZ_hd in B. exact (nthZ_inj _ _ _ _ N1 A B). }
    intros i j i' j' [Q|[-> ->]] [Q'|[-> ->]]; try tauto; try (now apply Z).
    + destruct Q as (f & A & B), Q' as (g & A' & B'). split; intros ->.
      * assert (f = g) by congruence. subst. exact (nthZ_inj _ _ _ _ N2 B B').
      * assert (f = g) by congruence. subst. exact (nthZ_inj _ _ _ _ N1 A A').
    + apply Z in Q'. split; intros; symmetry; apply Q'; auto.
  - auto.
  - auto.
Qed.
Lemma same_ext {A} (l1 l2 e1 e2 : list A) i j : same_at l1 l2 i j -> same_at (l1 ++ e1) (l2 ++ e2) i j.
Proof. intros (x & P & Q). exists x. split; now apply nthZ_ext. Qed.
Lemma KT_mono s1 s2 s1' s2' : sto_ext s1 s1' -> sto_ext s2 s2' -> kmono (KF s1 s2) (KF s1' s2').
Proof.
  intros [[e1 E1] [v1 V1]] [[e2 E2] [v2 V2]]. constructor; cbn; try tauto; try reflexivity.
  - intros i j [Q|Q]; [left|now right]. rewrite E1, E2. now apply same_ext.
  - intros i j Q. rewrite V1, V2. now apply same_ext.
Qed.
Lemma fidx_in f s fs : sto_ext (snd (functor_index_of f s)) fs -> short_tables fs -> nthZ (s_functors fs) (fst (functor_index_of f s)) = Some f.
Proof.
  intros [[e E] _] [L _]. unfold functor_index_of in *.
  assert (G : forall k, nth_error (s_functors fs) k = Some f -> nthZ (s_functors fs) (wrap16 (Z.of_nat k)) = Some f).
  { intros k Hk. assert (k < List.length (s_functors fs)) by (apply nth_error_Some; congruence). rewrite wrap16_small by lia.
    unfold nthZ. destruct (Z.ltb_spec (Z.of_nat k) 0); [lia|]. now rewrite Nat2Z.id. }
  destruct (fv_pos f (s_functors s)) as [k|] eqn:Ep; cbn [fst snd] in *; apply G; rewrite E.
  - pose proof (fv_pos_some _ _ _ Ep) as Hk. rewrite nth_error_app1; [exact Hk|]. apply nth_error_Some. congruence.
  - cbn. rewrite nth_error_app1 by (rewrite app_length; cbn; lia). rewrite nth_error_app2, Nat.sub_diag by lia. reflexivity.
Qed.
Lemma var_in x s fs : sto_ext (snd (push_back_var x s)) fs -> short_tables fs -> nthZ (s_vars fs) (fst (push_back_var x s)) = Some x.
Proof.
  intros [_ [e E]] [_ L]. cbn in E |- *. assert (Hk : nth_error (s_vars fs) (List.length (s_vars s)) = Some x).
  { rewrite E, nth_error_app1 by (rewrite app_length; cbn; lia). rewrite nth_error_app2, Nat.sub_diag by lia. reflexivity. }
  assert (List.length (s_vars s) < List.length (s_vars fs)) by (apply nth_error_Some; congruence). rewrite wrap16_small by lia.
  unfold nthZ. destruct (Z.ltb_spec (Z.of_nat (List.length (s_vars s))) 0); [lia|]. now rewrite Nat2Z.id.
Qed.
Lemma fidx_nodup f s : NoDup (s_functors s) -> NoDup (s_functors (snd (functor_index_of f s))).
Proof. apply functor_nodup. Qed.
Lemma fidx_hd f s1 s2 : hd_error (s_functors s1) = hd_error (s_functors s2) ->
  hd_error (s_functors (snd (functor_index_of f s1))) = hd_error (s_functors (snd (functor_index_of f s2))).
Proof.
  intros H. assert (Q : forall s, hd_error (s_functors (snd (functor_index_of f s))) = match hd_error (s_functors s) with Some g => Some g | None => Some f end).
  { intros s. unfold functor_index_of. destruct (s_functors s) as [|g l] eqn:E; [reflexivity|]. destruct (fv_pos f (g :: l)); cbn; [now rewrite E|reflexivity]. }
  now rewrite !Q, H.
Qed.
Lemma KT_sim s1 s2 : short_tables s1 -> short_tables s2 -> tables_sim (KF s1 s2) tables_good (fun s => sto_ext s s1) (fun s => sto_ext s s2).
Proof.
  intros L1 L2. constructor.
  - intros s s' X Y. eapply sto_ext_trans; eauto.
  - intros s s' X Y. eapply sto_ext_trans; eauto.
  - intros f t1 t2 (N1 & N2 & H) X1 X2. split; [split; [now apply fidx_nodup|split; [now apply fidx_nodup|now apply fidx_hd]]|].
    left. exists f. split; now apply fidx_in.
  - intros x t1 t2 G X1 X2. split; [exact G|]. exists x. split; now apply var_in.
Qed.
Lemma KT_sim_any s1 s2 : short_tables s1 -> short_tables s2 -> tables_sim (KF s1 s2) (fun _ _ => True) (fun s => sto_ext s s1) (fun s => sto_ext s s2).
Proof.
  intros L1 L2. constructor; auto.
  - intros s s' X Y. eapply sto_ext_trans; eauto.
  - intros s s' X Y. eapply sto_ext_trans; eauto.
  - intros f t1 t2 _ X1 X2. split; [exact I|]. left. exists f. split; now apply fidx_in.
  - intros x t1 t2 _ X1 X2. split; [exact I|]. exists x. split; now apply var_in.
Qed.

(** --- two sessions with the same program --- *)
Variable cf1 cf2 : cfg.
Hypothesis O1 : ord_ok cf1.
Hypothesis O2 : ord_ok cf2.
Section Two.
Variable s1 s2 : storage.
Hypothesis L1 : short_tables s1.
Hypothesis L2 : short_tables s2.
Notation K := (KF s1 s2).
Lemma clause_same b c r1 r2 : goals_quiet isok (tl c) -> clause_code cf1 s1 b c r1 -> clause_code cf2 s2 b c r2 -> rule_rel K r1 r2.
Proof.
  intros Q (a1 & b1 & f1 & E1 & X1) (a2 & b2 & f2 & E2 & X2).
  pose proof (compile_clause_sim K (fun _ _ => True) _ _ (KT_sim_any s1 s2 L1 L2) cf1 cf2 O1 O2 b c Q a1 a2 I) as H.
  rewrite E1, E2 in H. cbn in H. destruct (H X1 X2) as [_ R]. inversion R as [? ? [_ Rr]| |]; subst. exact Rr.
Qed.
Lemma clauses_same b cs : (forall c, In c cs -> goals_quiet isok (tl c)) -> forall rs1 rs2, Forall2 (clause_code cf1 s1 b) cs rs1 -> Forall2 (clause_code cf2 s2 b) cs rs2 -> rules_rel K rs1 rs2.
Proof.
  intros Q rs1 rs2 H. revert rs2. induction H as [|c r1 cs rs1 H _ IH]; intros rs2 H2; inversion H2; subst; constructor.
  - eapply clause_same; eauto. apply Q. now left.
  - apply IH; auto. intros c' Hc. apply Q. now right.
Qed.
Lemma special_same f i rs1 rs2 : (forall R x y, irel K R (i x y) (i x y)) -> special_code cf1 s1 f i rs1 -> special_code cf2 s2 f i rs2 -> rules_rel K rs1 rs2.
Proof.
  intros Hi (r1 & C1 & ->) (r2 & C2 & ->). constructor; [|constructor]. assert (Q : goals_quiet isok (tl [binary_pred (fv_name f)])) by (intros n []).
  pose proof (clause_same _ _ _ _ Q C1 C2) as R. destruct C1 as (a1 & b1 & f1 & E1 & _). destruct C2 as (a2 & b2 & f2 & E2 & _).
  destruct (single _ _ _ _ _ _ _ O1 E1) as (_ & x1 & ->). destruct (single _ _ _ _ _ _ _ O2 E2) as (_ & x2 & ->). now apply insert_sim.
Qed.
Lemma append_quiet c : In c append_clauses -> goals_quiet isok (tl c).
Proof. intros [<-|[<-|[]]] n Hn; [destruct Hn|]. destruct Hn as [<-|[]]. right. discriminate. Qed.
Lemma special_irel f i : special f = Some i -> isok \/ f <> FV "is" 2 -> forall R x y, irel K R (i x y) (i x y).
Proof.
  intros E H R x y. destruct (special_eq _ _ E) as [[-> ->]|[[-> ->]|[-> ->]]]; constructor. destruct H as [H|H]; [exact H|now destruct H].
Qed.
Lemma prog_same P p1 p2 : (forall c, In c P -> goals_quiet isok (tl c)) -> prog_code cf1 s1 P p1 -> prog_code cf2 s2 P p2 -> prog_rel K p1 p2.
Proof.
  intros Q H1 H2 f Hf. specialize (H1 f). specialize (H2 f). destruct (special f) as [i|] eqn:Es.
  - destruct H1 as (rs1 & -> & C1), H2 as (rs2 & -> & C2). constructor. eapply special_same; eauto. eapply special_irel; eauto.
  - destruct (is_append f).
    + destruct H1 as (rs1 & -> & C1), H2 as (rs2 & -> & C2). constructor. exact (clauses_same true append_clauses append_quiet _ _ C1 C2).
    + assert (Qf : forall c, In c (clauses_of f P) -> goals_quiet isok (tl c)) by (intros c Hc; apply Q; unfold clauses_of in Hc; apply filter_In in Hc; apply Hc).
      destruct (plookup f p1) as [rs1|], (plookup f p2) as [rs2|]; [constructor|exfalso|exfalso|constructor].
      * exact (clauses_same false _ Qf _ _ (proj1 H1) (proj1 H2)).
      * destruct H1 as [H1 N]. rewrite H2 in H1. inversion H1. congruence.
      * destruct H2 as [H2 N]. rewrite H1 in H2. inversion H2. congruence.
Qed.
Lemma built_same_tables b1 b2 : built_code cf1 s1 b1 -> built_code cf2 s2 b2 -> pstruct K b1 b2.
Proof.
  intros (r1 & r2 & r3 & r4 & -> & A1 & A2 & A3 & A4) (q1 & q2 & q3 & q4 & -> & B1 & B2 & B3 & B4).
  repeat constructor; cbn [fst snd]; intros H.
  - eapply special_same; eauto. exact (special_irel (FV "is" 2) IIs eq_refl H).
  - eapply special_same; eauto. intros; constructor.
  - eapply special_same; eauto. intros; constructor.
  - exact (clauses_same true append_clauses append_quiet _ _ A4 B4).
Qed.
End Two.
Lemma session_built cf o P s : session cf o P s -> exists o0, new_org cf = Val o0 /\ sto_ext (o_sto o0) (o_sto o).
Proof.
  induction 1 as [o N|o P s text cs o' H (o0 & N & X) Ep E|o P s text r o' H (o0 & N & X) E _|o P s text q o' H (o0 & N & X) Ep E|o P s text r o' H (o0 & N & X) E _|o P s t H (o0 & N & X)|o P s fuel n w r o' H (o0 & N & X) _ E R].
  - exists o. split; [exact N|apply sto_ext_refl].
  - exists o0. split; [exact N|]. eapply sto_ext_trans; [exact X|]. unfold load_program in E. rewrite Ep in E. pose proof (compile_clauses_ext cf false cs [] (o_sto o)) as Y. unfold compile_program in E.
    destruct (compile_clauses cf false cs [] (o_sto o)) as [[] t]; try discriminate E; injection E as <-; exact Y.
  - exists o0. split; [exact N|]. eapply sto_ext_trans; [exact X|]. unfold load_program in E. destruct (parse_program text) as [[cs|e|]|]; try discriminate E; try (injection E as _ <-; apply sto_ext_refl).
    pose proof (compile_clauses_ext cf false cs [] (o_sto o)) as Y. unfold compile_program in E. destruct (compile_clauses cf false cs [] (o_sto o)) as [[] t]; injection E as _ <-; exact Y.
  - exists o0. split; [exact N|]. eapply sto_ext_trans; [exact X|]. unfold load_query in E. rewrite Ep in E. pose proof (compile_query_ext cf q (o_sto o)) as Y.
    destruct (compile_query cf q (o_sto o)) as [[] t]; try discriminate E; injection E as <-; exact Y.
  - exists o0. split; [exact N|]. eapply sto_ext_trans; [exact X|]. unfold load_query in E. destruct (parse_query (append_dot text)) as [[q|e|]|]; try discriminate E; try (injection E as _ <-; apply sto_ext_refl).
    pose proof (compile_query_ext cf q (o_sto o)) as Y. destruct (compile_query cf q (o_sto o)) as [[] t]; injection E as _ <-; exact Y.
  - exists o0. split; [exact N|exact X].
  - exists o0. split; [exact N|]. destruct (answer_kept _ _ _ _ _ _ _ _ E) as [[_ [Y _]]|[Y _]]; [now rewrite Y|contradiction].
Qed.
End Tab.
Lemma session_good cf1 cf2 o1 o2 P1 P2 s1 s2 : ord_ok cf1 -> ord_ok cf2 -> session cf1 o1 P1 s1 -> session cf2 o2 P2 s2 -> tables_good (o_sto o1) (o_sto o2).
Proof.
  intros O1 O2 H1 H2. split; [eapply session_nodup; eauto|]. split; [eapply session_nodup; eauto|].
  destruct (session_built _ _ _ _ H1) as (n1 & N1 & [[l1 ->] _]). destruct (session_built _ _ _ _ H2) as (n2 & N2 & [[l2 ->] _]).
  assert (OC : ord_ok {| c_ord := fun l => l; c_powf := c_powf cf1 |}) by (intros l; reflexivity).
  assert (Q : forall cf n, ord_ok cf -> new_org cf = Val n -> s_functors (o_sto n) = s_functors (snd (compile_built_ins {| c_ord := fun l => l; c_powf := c_powf cf1 |} empty_storage))).
  { intros cf n Oc N. rewrite <- (proj1 (built_same cf _ Oc OC)). unfold new_org in N. destruct (compile_built_ins cf empty_storage) as [[p| |] t]; try discriminate N. injection N as <-. reflexivity. }
  rewrite (Q _ _ O1 N1), (Q _ _ O2 N2). reflexivity.
Qed.

(** A query behaves the same in all sessions with the same program. *)
Lemma reset_query cf text o : load_query cf text (set_stats (set_queue o []) 0) = load_query cf text o.
Proof. unfold load_query. cbn. destruct (parse_query (append_dot text)) as [[q|e|]|]; reflexivity. Qed.
Section Fresh.
Variable lax isok : Prop.
Hypothesis IL : isok -> lax.
Variable cf1 cf2 : cfg.
Hypothesis O1 : ord_ok cf1.
Hypothesis O2 : ord_ok cf2.
Hypothesis POW : forall a b, c_powf cf1 a b = c_powf cf2 a b.
Theorem sessions_same o1 o2 P st1 st2 text cs : session cf1 o1 P st1 -> session cf2 o2 P st2 -> o_limit o1 = o_limit o2 ->
  (forall c, In c P -> goals_quiet isok (tl c)) -> quiet isok (CallQuery text) -> Forall (quiet isok) cs ->
  Forall (fun o => short_tables (o_sto o)) (states cf1 (CallQuery text :: cs) o1) -> Forall (fun o => short_tables (o_sto o)) (states cf2 (CallQuery text :: cs) o2) ->
  replies lax (play cf1 (CallQuery text :: cs) o1) (play cf2 (CallQuery text :: cs) o2).
Proof.
  intros H1 H2 Li QP Qt Qc T1 T2.
  set (x1 := set_stats (set_queue o1 []) 0). set (x2 := set_stats (set_queue o2 []) 0).
  assert (Pl : forall cf o, play cf (CallQuery text :: cs) (set_stats (set_queue o []) 0) = play cf (CallQuery text :: cs) o) by (intros; cbn [play perform]; now rewrite reset_query).
  rewrite <- (Pl cf1 o1), <- (Pl cf2 o2). clear Pl. fold x1 x2.
  set (sh := fun s => match s with SrcQuery => (Z.of_nat (o_qgen o2) - Z.of_nat (o_qgen o1))%Z | SrcProg => (Z.of_nat (o_pgen o2) - Z.of_nat (o_pgen o1))%Z end).
  assert (S1 : short_tables (o_sto o1)) by (cbn [states] in T1; now inversion T1). assert (S2 : short_tables (o_sto o2)) by (cbn [states] in T2; now inversion T2).
  apply (play_sim cf1 cf2 O1 O2 POW (KT lax isok sh) tables_good short_tables lax isok); auto.
  - intros. now apply KT_ok.
  - intros. now apply KT_mono.
  - intros. now apply KT_sim.
  - intros s1 s2 _. split; [|reflexivity]. split; [constructor|]. split; [constructor|reflexivity].
  - pose proof (session_good _ _ _ _ _ _ _ _ O1 O2 H1 H2) as G. destruct (session_inv _ _ _ _ H1) as [[_ _ P1 B1] _]. destruct (session_inv _ _ _ _ H2) as [[_ _ P2 B2] _].
    constructor; cbn; [exact G| |apply (built_same_tables lax isok sh cf1 cf2 O1 O2); auto|now left].
    constructor; cbn; auto; try lia; [apply (prog_same lax isok sh cf1 cf2 O1 O2 _ _ S1 S2 P); auto|now apply KT_ok].
  - cbn [states perform] in T1 |- *. unfold x1. rewrite reset_query. inversion T1; subst. constructor; auto.
  - cbn [states perform] in T2 |- *. unfold x2. rewrite reset_query. inversion T2; subst. constructor; auto.
Qed.
End Fresh.

(** --- a rejected program --- *)
Section Rejected.
Variable lax isok : Prop.
Hypothesis IL : isok -> lax.
Variable cf : cfg.
Hypothesis O : ord_ok cf.
Notation KF := (KT lax isok (fun _ => 0%Z)).
Notation hrel := (hrel KF tables_good).
Lemma KT_empty s1 s2 : tables_good s1 s2 -> tables_good empty_storage empty_storage /\ forall s, pr_sh (KF s1 s2) s = pr_sh (KF empty_storage empty_storage) s.
Proof. intros _. split; [|reflexivity]. split; [constructor|]. split; [constructor|reflexivity]. Qed.
Lemma orel_self {A} (R : A -> A -> Prop) a : orel lax R (Val a) (Val a) -> R a a.
Proof. intros H. inversion H; subst; auto. Qed.
Lemma hist_self cs : forall o0, Forall (quiet isok) cs -> hrel o0 o0 -> Forall (fun o => short_tables (o_sto o)) (states cf cs o0) ->
  forall o, In o (states cf cs o0) -> hrel o o.
Proof.
  induction cs as [|c cs IH]; intros o0 Q H L o Ho; cbn [states] in *; [destruct Ho as [<-|[]]; exact H|]. destruct Ho as [<-|Ho]; [exact H|].
  inversion Q; subst. inversion L as [|? ? _ L']; subst. destruct (perform cf c o0) as [[r o1]| |] eqn:E; try contradiction.
  assert (S : orel lax (step_rel KF tables_good lax) (perform cf c o0) (perform cf c o0)).
  { apply (perform_sim cf cf O O (fun _ _ => eq_refl) KF tables_good short_tables lax isok); auto.
    - intros. now apply KT_ok.
    - intros. now apply KT_mono.
    - intros. now apply KT_sim.
    - apply KT_empty.
    - intros r' o' E'. rewrite E in E'. injection E' as <- <-. destruct cs; cbn [states] in L'; now inversion L'.
    - intros r' o' E'. rewrite E in E'. injection E' as <- <-. destruct cs; cbn [states] in L'; now inversion L'. }
  rewrite E in S. apply orel_self in S. destruct S as [_ S]. eapply IH; eauto.
Qed.
Lemma new_self o0 : new_org cf = Val o0 -> short_tables (o_sto o0) -> hrel o0 o0.
Proof.
  intros N S. pose proof (ss_new cf o0 N) as H. pose proof (session_good _ _ _ _ _ _ _ _ O O H H) as G. destruct (session_inv _ _ _ _ H) as [[_ _ P B] _].
  assert (Q : o_queue o0 = []) by (unfold new_org in N; destruct (compile_built_ins cf empty_storage) as [[]]; try discriminate N; injection N as <-; reflexivity).
  constructor; [exact G| |apply (built_same_tables lax isok (fun _ => 0%Z) cf cf O O); auto|now left].
  constructor; auto; [cbn; lia|cbn; lia|apply (prog_same lax isok _ cf cf O O _ _ S S []); auto; intros c []|].
  now apply KT_ok.
Qed.
Theorem rejected_same o0 hs o text r o' cs : new_org cf = Val o0 -> Forall (quiet isok) hs -> Forall (fun x => short_tables (o_sto x)) (states cf hs o0) ->
  In o (states cf hs o0) -> s_functors (o_sto o) <> [] -> load_program cf text o = Some (r, o') -> r <> LOk ->
  Forall (quiet isok) cs -> Forall (fun x => short_tables (o_sto x)) (states cf cs o) -> Forall (fun x => short_tables (o_sto x)) (states cf cs o') ->
  replies lax (play cf cs o) (play cf cs o').
Proof.
  intros N Qh Lh Ho Ne E Hr Qc L1 L2. assert (hrel o o) as [G C B R].
  { apply (hist_self hs o0); auto. apply new_self; auto. destruct hs; cbn [states] in Lh; now inversion Lh. }
  assert (exists s, o' = set_sto o s /\ sto_ext (o_sto o) s /\ NoDup (s_functors s)) as (s & -> & X & Nd).
  { unfold load_program in E. assert (So : o = set_sto o (o_sto o)) by (destruct o; reflexivity).
    destruct (parse_program text) as [[P|e|]|]; try discriminate E.
    - unfold compile_program in E. pose proof (compile_clauses_ext cf false P [] (o_sto o)) as X.
      pose proof (compile_clauses_nd (fun s => NoDup (s_functors s)) nodup_fidx (fun _ _ H => H) cf false P [] (o_sto o) (proj1 G)) as Nd.
      destruct (compile_clauses cf false P [] (o_sto o)) as [[p|e|] s]; injection E as <- <-; [now destruct Hr|exists s; auto|exists s; auto].
    - injection E as <- <-. exists (o_sto o). split; [exact So|]. split; [apply sto_ext_refl|apply G].
    - injection E as <- <-. exists (o_sto o). split; [exact So|]. split; [apply sto_ext_refl|apply G]. }
  pose proof (KT_mono lax isok IL (fun _ => 0%Z) _ _ _ _ (sto_ext_refl (o_sto o)) X) as M.
  assert (G' : tables_good (o_sto o) s).
  { split; [apply G|]. split; [exact Nd|]. destruct X as [[l ->] _]. destruct (s_functors (o_sto o)); [now destruct Ne|reflexivity]. }
  apply (play_sim cf cf O O (fun _ _ => eq_refl) KF tables_good short_tables lax isok); auto.
  - intros. now apply KT_ok.
  - intros. now apply KT_mono.
  - intros. now apply KT_sim.
  - apply KT_empty.
  - assert (C' : common (KF (o_sto o) s) o (set_sto o s)).
    { destruct C. constructor; auto; [eapply prog_up; [exact M|assumption]|now apply KT_ok]. }
    constructor; cbn [o_sto set_sto o_built]; [exact G'|exact C'|eapply pstruct_up; [exact M|exact B]|].
    destruct R as [R|(_ & Rq & Rp & Ra)]; [now left|right]. split; [exact C'|]. split; [exact Rq|]. split; [exact Rp|]. eapply Forall2_imp; [apply (xrel_up _ _ M)|exact Ra].
Qed.
End Rejected.

(** --- statements without parameters --- *)
Definition text_goals (Q : node -> Prop) (c : call) : Prop :=
  match c with
  | CallProgram text => forall P cl n, parse_program text = Some (COk P) -> In cl P -> In n (tl cl) -> Q n
  | CallQuery text => forall q n, parse_query (append_dot text) = Some (COk q) -> In n q -> Q n
  | _ => True
  end.
Lemma quiet_true c : quiet True c.
Proof. destruct c; cbn; auto; intros; intros n _; now left. Qed.
Lemma quiet_no_is c : text_goals no_is c -> quiet False c.
Proof. destruct c as [t|t| |]; cbn; auto. - intros H P cl E Hc n Hn. right. exact (H P cl n E Hc Hn). - intros H q E n Hn. right. exact (H q n E Hn). Qed.
(** the same replies, but errors may name another functor and nothing is said once one of both has undefined behaviour *)
Inductive alike : list (out reply) -> list (out reply) -> Prop :=
| al_nil : alike [] []
| al_same r l1 l2 : alike l1 l2 -> alike (Val r :: l1) (Val r :: l2)
| al_error f g n l1 l2 : alike l1 l2 -> alike (Val (ReplyAnswer (RError (ENotArith f)) n) :: l1) (Val (ReplyAnswer (RError (ENotArith g)) n) :: l2)
| al_stop : alike [Fuel] [Fuel]
| al_left u l : alike [Ub u] l
| al_right u l : alike l [Ub u].
Lemma replies_alike l1 l2 : replies True l1 l2 -> alike l1 l2.
Proof.
  induction 1 as [|r1 r2 l1 l2 R H IH|x|u l _|u l _]; [constructor| | |constructor|constructor].
  - destruct r1 as [|[| |e| |] n|], r2 as [|[| |f| |] m|]; cbn in R; try discriminate R; try (injection R; intros; subst; constructor; exact IH); try (constructor; exact IH).
    destruct R as [[->|[_ (a & b & -> & ->)]] ->]; constructor; exact IH.
  - destruct x; constructor. constructor.
Qed.
