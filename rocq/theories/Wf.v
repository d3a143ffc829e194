(** Every heap a branch reaches is well formed, whatever its registers hold: every reference points to an allocated
    cell and following references ends. Unlike the results of Sols.v this needs no condition on the register
    allocation of the clauses. *)
From Verif Require Import Base Machine Heap Facts Compiler Parser Print Organizer Spec Valuation Process Shape Turn Session Code Put Search Get Alloc Atoms Clause Order Cells Loads.
Open Scope string_scope.
Open Scope list_scope.

Section Wf.
Variable cf : cfg.
Variable sto : storage.
Hypothesis ok : sto_ok sto.
Hypothesis C0 : exists s, nthZ (s_functors sto) 0 = Some (FV s 0).
Notation hp m := (m_heap (H := list cell) m).
Notation len := (@List.length cell).
Notation mstate := (mst (list cell)).

(** --- what registers hold --- *)
Definition rin (n : nat) (c : cell) : Prop :=
  match c with CRef a _ | CStr a => a < n | _ => c = cell0 end.
Definition minr (m : mstate) : Prop := Forall (rin (len (hp m))) (m_regs m) /\ Forall (Forall (rin (len (hp m)))) (m_envs m).
Lemma rin_le n k c : n <= k -> rin n c -> rin k c.
Proof. intros L. destruct c; cbn; auto; lia. Qed.
Lemma rins_le n k l : n <= k -> Forall (rin n) l -> Forall (rin k) l.
Proof. intros L. apply Forall_impl. intros c. now apply rin_le. Qed.
Lemma upd_rin n l i c l' : upd l i c = Some l' -> Forall (rin n) l -> rin n c -> Forall (rin n) l'.
Proof.
  intros U F C. apply Forall_forall. intros d Hd. apply In_nth_error in Hd. destruct Hd as [j Hj].
  rewrite (upd_nth _ _ _ _ _ U) in Hj. destruct (Nat.eqb_spec j i).
  - injection Hj as <-. assumption.
  - rewrite Forall_forall in F. apply F. eapply nth_error_In; eauto.
Qed.
Lemma repeat_rin n k : Forall (rin n) (repeat cell0 k).
Proof. apply Forall_forall. intros c Hc. apply repeat_spec in Hc. subst c. reflexivity. Qed.
Lemma heap_minr m h : minr m -> len (hp m) <= len h -> minr (set_heap m h).
Proof.
  intros [A B] L. split; cbn; [eapply rins_le; eauto|]. revert B. apply Forall_impl. intros e. now apply rins_le.
Qed.
Lemma wreg_in m i c m' : wreg (list cell) m i c = Val m' -> minr m -> rin (len (hp m)) c -> minr m' /\ hp m' = hp m /\ m_mode m' = m_mode m /\ m_S m' = m_S m.
Proof.
  unfold wreg. destruct (upd (m_regs m) i c) eqn:U; cbn; [|discriminate]. intros E [A B] C. injection E as <-.
  csplit; auto. split; [eapply upd_rin; eauto|exact B].
Qed.
Lemma wperm_in m i c m' : wperm (list cell) m i c = Val m' -> minr m -> rin (len (hp m)) c -> minr m' /\ hp m' = hp m /\ m_mode m' = m_mode m /\ m_S m' = m_S m.
Proof.
  unfold wperm. destruct (m_envs m) as [|e es] eqn:Ee; [discriminate|]. destruct (upd e i c) eqn:U; cbn; [|discriminate].
  intros E [A B] C. injection E as <-. csplit; auto. split; [exact A|]. cbn. rewrite Ee in B.
  inversion B; subst. constructor; [eapply upd_rin; eauto|assumption].
Qed.
Lemma rreg_in m i c : rreg (list cell) m i = Val c -> minr m -> rin (len (hp m)) c.
Proof.
  unfold rreg. destruct (nth_error (m_regs m) i) eqn:E; cbn; [|discriminate]. intros K [A _]. injection K as <-.
  rewrite Forall_forall in A. apply A. eapply nth_error_In; eauto.
Qed.
Lemma rperm_in m i c : rperm (list cell) m i = Val c -> minr m -> rin (len (hp m)) c.
Proof.
  unfold rperm. destruct (m_envs m) as [|e es] eqn:Ee; [discriminate|]. destruct (nth_error e i) eqn:E; cbn; [|discriminate].
  intros K [_ B]. injection K as <-. rewrite Ee in B. inversion B; subst. rewrite Forall_forall in H1. apply H1. eapply nth_error_In; eauto.
Qed.
Lemma get_in n c a : get_heap_i c = Val a -> rin n c -> a < n.
Proof. destruct c; cbn; try discriminate; intros E; injection E as <-; auto. Qed.

(** --- literal cells --- *)
Definition lit (c : cell) (k : nat) : Prop :=
  match c with
  | CInt _ => k = 0
  | CCons i => k = 0 /\ exists s, nthZ (s_functors sto) i = Some (FV s 0)
  | CFun i n => (0 <= n)%Z /\ k = Z.to_nat n /\ exists s, nthZ (s_functors sto) i = Some (FV s (Z.to_nat n))
  | CEval i n => n = 2%Z /\ (0 <= i <= 4)%Z /\ k = 2
  | _ => False
  end.
Lemma lit_addr c k : lit c k -> addr_of c = None.
Proof. destruct c; cbn; tauto. Qed.
Lemma lit_wf c k l p a : lit c k -> a + k < l + p -> wf_cell sto l p a c.
Proof.
  destruct c; cbn; auto.
  - tauto.
  - intros H; contradiction.
  - intros (A & -> & B) L. auto.
  - intros (-> & A & ->) L. auto.
  - intros H; contradiction.
Qed.

(** --- pushing --- *)
Lemma push_one p p' h c : wfh sto p h -> p <= S p' -> wf_cell sto (len h + 1) p' (len h) c ->
  match addr_of c with Some b => b <= len h | None => True end -> wfh sto p' (h ++ [c]).
Proof.
  intros W L Hc Ha. apply (wf_block sto p); [assumption|cbn; lia|].
  intros [|[|j]] c0 E; cbn in E; try discriminate. injection E as <-. rewrite Nat.add_0_r. auto.
Qed.
Lemma push_reg p h c : wfh sto (S p) h -> rin (len h) c -> wfh sto p (h ++ [c]).
Proof.
  intros W R. apply (push_one (S p)); [exact W|lia| |].
  - destruct c; cbn in R |- *; try discriminate R; try lia. injection R as ->. exact C0.
  - destruct c; cbn in R |- *; try discriminate R; auto; lia.
Qed.
Lemma push_new p p' h v : wfh sto p h -> p <= S p' -> wfh sto p' (h ++ [CRef (len h) v]).
Proof. intros W L. apply (push_one p); cbn; auto; lia. Qed.
Lemma push_lit p k h c : wfh sto p h -> lit c k -> p <= S k -> wfh sto k (h ++ [c]).
Proof.
  intros W H L. apply (push_one p); auto; [eapply lit_wf; eauto; lia|]. now rewrite (lit_addr _ _ H).
Qed.
Lemma push_lit0 p h c : wfh sto (S p) h -> lit c 0 -> wfh sto p (h ++ [c]).
Proof.
  intros W H. apply (push_one (S p)); auto; [eapply lit_wf; eauto; lia|]. now rewrite (lit_addr _ _ H).
Qed.

(** --- code that builds arguments: [k] cells of the current structure are still to come --- *)
Fixpoint pcode (k : nat) (is : list instr) : Prop :=
  match is with
  | [] => k = 0
  | i :: is' =>
      match i with
      | IPutStruct c _ => match k with 0 => exists n, lit c n /\ pcode n is' | S k' => lit c 0 /\ pcode k' is' end
      | ISetVar _ _ | ISetPVar _ _ | ISetVal _ | ISetPVal _ => match k with S k' => pcode k' is' | 0 => False end
      | IPutVar _ _ _ | IPutPVar _ _ _ | IPutVal _ _ | IPutPVal _ _ | IAlloc _ => k = 0 /\ pcode 0 is'
      | _ => False
      end
  end.
Definition pw (k : nat) (m : mstate) : Prop := wfh sto k (hp m) /\ minr m.
Ltac bd E x Hx :=
  match type of E with
  | bind ?m _ = Val _ => destruct m as [x| |] eqn:Hx; cbn [bind] in E; try discriminate E
  end.
Lemma len_app h c : len (h ++ [c]) = S (len h).
Proof. rewrite app_length. cbn. lia. Qed.
Lemma push_minr m c : minr m -> minr (push (list cell) fops m c).
Proof. intros M. apply heap_minr; [exact M|]. cbn. rewrite app_length. lia. Qed.
Lemma put_step fuel i is k m s m' : fstep cf sto fuel i m = Val (s, m') -> pcode k (i :: is) -> pw k m ->
  s = Cont /\ exists k', pcode k' is /\ pw k' m'.
Proof.
  unfold fstep, local_step, push_ref. intros E C [W M].
  destruct i; cbn [pcode] in C; try contradiction.
  - bd E m1 E1. injection E as <- <-. split; [reflexivity|].
    apply wreg_in in E1; [|now apply push_minr|cbn; rewrite len_app; lia]. destruct E1 as (M1 & H1 & _).
    destruct k as [|k].
    + destruct C as (n & L & C). exists n. split; [exact C|]. split; [|exact M1]. rewrite H1. cbn. eapply push_lit; eauto. lia.
    + destruct C as (L & C). exists k. split; [exact C|]. split; [|exact M1]. rewrite H1. cbn. now apply push_lit0.
  - destruct k as [|k]; [contradiction|]. bd E m1 E1. injection E as <- <-. split; [reflexivity|]. exists k. split; [exact C|].
    apply wreg_in in E1; [|now apply push_minr|cbn; rewrite len_app; lia]. destruct E1 as (M1 & H1 & _).
    split; [|exact M1]. rewrite H1. cbn. eapply push_new; eauto.
  - destruct k as [|k]; [contradiction|]. bd E m1 E1. injection E as <- <-. split; [reflexivity|]. exists k. split; [exact C|].
    apply wperm_in in E1; [|now apply push_minr|cbn; rewrite len_app; lia]. destruct E1 as (M1 & H1 & _).
    split; [|exact M1]. rewrite H1. cbn. eapply push_new; eauto.
  - destruct k as [|k]; [contradiction|]. bd E r E1. injection E as <- <-. split; [reflexivity|]. exists k. split; [exact C|].
    split; [|now apply push_minr]. cbn. apply push_reg; [exact W|]. eapply rreg_in; eauto.
  - destruct k as [|k]; [contradiction|]. bd E r E1. injection E as <- <-. split; [reflexivity|]. exists k. split; [exact C|].
    split; [|now apply push_minr]. cbn. apply push_reg; [exact W|]. eapply rperm_in; eauto.
  - destruct C as [-> C]. bd E m1 E1. bd E m2 E2. injection E as <- <-. split; [reflexivity|]. exists 0. split; [exact C|].
    apply wreg_in in E1; [|now apply push_minr|cbn; rewrite len_app; lia]. destruct E1 as (M1 & H1 & _).
    apply wreg_in in E2; [|exact M1|rewrite H1; cbn; rewrite len_app; lia]. destruct E2 as (M2 & H2 & _).
    split; [|exact M2]. rewrite H2, H1. cbn. eapply push_new; eauto.
  - destruct C as [-> C]. bd E m1 E1. bd E m2 E2. injection E as <- <-. split; [reflexivity|]. exists 0. split; [exact C|].
    apply wperm_in in E1; [|now apply push_minr|cbn; rewrite len_app; lia]. destruct E1 as (M1 & H1 & _).
    apply wreg_in in E2; [|exact M1|rewrite H1; cbn; rewrite len_app; lia]. destruct E2 as (M2 & H2 & _).
    split; [|exact M2]. rewrite H2, H1. cbn. eapply push_new; eauto.
  - destruct C as [-> C]. bd E r Er. bd E m1 E1. injection E as <- <-. split; [reflexivity|]. exists 0. split; [exact C|].
    apply wreg_in in E1; [|exact M|eapply rreg_in; eauto]. destruct E1 as (M1 & H1 & _). split; [now rewrite H1|exact M1].
  - destruct C as [-> C]. bd E r Er. bd E m1 E1. injection E as <- <-. split; [reflexivity|]. exists 0. split; [exact C|].
    apply wreg_in in E1; [|exact M|eapply rperm_in; eauto]. destruct E1 as (M1 & H1 & _). split; [now rewrite H1|exact M1].
  - destruct C as [-> C]. injection E as <- <-. split; [reflexivity|]. exists 0. split; [exact C|]. split; [exact W|].
    destruct M as [A B]. split; [exact A|]. cbn. constructor; [apply repeat_rin|exact B].
Qed.

(** --- code that matches a head --- *)
Fixpoint hcode (k : nat) (is : list instr) : Prop :=
  match is with
  | [] => k = 0
  | i :: is' =>
      match i with
      | IGetStruct c _ => k = 0 /\ exists n, lit c n /\ hcode n is'
      | IUniStruct c _ => match k with S k' => lit c 0 /\ hcode k' is' | 0 => False end
      | IUniVar _ _ | IUniPVar _ _ | IUniVal _ | IUniPVal _ => match k with S k' => hcode k' is' | 0 => False end
      | IGetVar _ _ | IGetPVar _ _ | IGetVal _ _ | IGetPVal _ _ | IAlloc _ | IIs _ _ | IEq _ _ | INeq _ _ => k = 0 /\ hcode 0 is'
      | _ => False
      end
  end.
Definition hw (k : nat) (m : mstate) : Prop :=
  minr m /\
  match k with
  | 0 => wfh sto 0 (hp m)
  | _ => match m_mode m with
         | Some MRead => wfh sto 0 (hp m) /\ m_S m + k <= len (hp m)
         | Some MWrite => wfh sto k (hp m)
         | None => False
         end
  end.
Lemma hw_wf k m : hw k m -> exists p, wfh sto p (hp m).
Proof. intros [_ H]. destruct k; [eauto|]. destruct (m_mode m) as [[]|]; [destruct H; eauto|eauto|contradiction]. Qed.
Lemma hw_keep k m m' : hw (S k) m -> minr m' -> hp m' = hp m -> m_mode m' = m_mode m -> m_S m' = S (m_S m) ->
  match m_mode m with Some MWrite => False | _ => True end -> hw k m'.
Proof.
  intros [_ H] M Eh Em Es N. split; [exact M|]. rewrite Eh, Em, Es. destruct (m_mode m) as [[]|]; try contradiction.
  destruct H as [W L]. destruct k; [exact W|]. split; [exact W|lia].
Qed.
Lemma hw_write k m : wfh sto k (hp m) -> minr m -> m_mode m = Some MWrite -> hw k m.
Proof. intros W M E. split; [exact M|]. destruct k; [exact W|]. rewrite E. exact W. Qed.

Lemma bind_lit h d w c k h' : wfh sto 0 h -> nth_error h d = Some (CRef d w) -> lit c k ->
  bind_ref (list cell) fops (h ++ [c]) d (len (h ++ [c]) - 1) = Val h' -> wfh sto k h' /\ len h' = S (len h).
Proof.
  intros W Hd L E. rewrite len_app in E. replace (S (len h) - 1) with (len h) in E by lia.
  pose proof (nth_error_lt _ _ _ Hd) as Ld.
  assert (Hd1 : nth_error (h ++ [c]) d = Some (CRef d w)) by (rewrite nth_error_app1; assumption).
  assert (Hl : nth_error (h ++ [c]) (len h) = Some c) by (rewrite nth_error_app2, Nat.sub_diag by lia; reflexivity).
  destruct (bind_ref_eq (h ++ [c]) d (len h) w Hd1) as (h1 & E1 & U). rewrite E1 in E. injection E as <-.
  assert (Hn : next (h ++ [c]) (len h) = None) by (unfold next; rewrite Hl; destruct c; auto; contradiction).
  split.
  - apply (bind_wfh sto k (h ++ [c]) d (len h) w h1); auto; [|lia|rewrite len_app; lia]. eapply push_lit; eauto. lia.
  - rewrite (upd_length _ _ _ _ U). apply len_app.
Qed.
Lemma unify_in fuel m a b s m' : unify_m (list cell) fops fuel m a b = Val (s, m') -> wfh sto 0 (hp m) -> minr m ->
  a < len (hp m) -> b < len (hp m) -> wfh sto 0 (hp m') /\ minr m' /\ len (hp m') = len (hp m) /\ m_mode m' = m_mode m /\ m_S m' = m_S m.
Proof.
  unfold unify_m, unify. intros E W M La Lb. bd E r Er. destruct r as [t h']. injection E as _ <-.
  pose proof (unify_loop_spec sto (so_nodup _ ok) fuel (hp m) [a; b] W) as K. rewrite Er in K.
  destruct K as (K1 & [K2 _] & _). { split; [exact I|]. intros x [<-|[<-|[]]]; assumption. }
  csplit; auto. apply heap_minr; [exact M|]. now rewrite K2.
Qed.
Lemma root_ref p h a d b v : wfh sto p h -> a < len h -> deref (list cell) fops h a = Val d ->
  at_ (list cell) fops h d = Val (CRef b v) -> nth_error h d = Some (CRef d v).
Proof.
  intros W L E A. destruct (wfh_deref sto _ _ a W L) as (d' & E' & Ld & Nd & _). rewrite E in E'. injection E' as <-.
  destruct (root_cases sto _ _ d W Ld Nd) as (c & Ec & Hc). unfold at_ in A. cbn [h_at fops] in A. rewrite Ec in A. cbn in A. injection A as ->. now subst b.
Qed.
Lemma at_nth h d c : at_ (list cell) fops h d = Val c -> nth_error h d = Some c.
Proof. unfold at_. cbn [h_at fops]. destruct (nth_error h d); cbn; [|discriminate]. intros E. now injection E as ->. Qed.
Lemma lit_read h d c k : wfh sto 0 h -> nth_error h d = Some c -> lit c k -> d + 1 + k <= len h.
Proof.
  intros [W _] E L. pose proof (nth_error_lt _ _ _ E) as Ld. specialize (W d c E). destruct c; cbn in L, W; try lia; try contradiction.
Qed.
Lemma inc_minr m : minr m -> minr (inc_S m).
Proof. intros [A B]. split; assumption. Qed.
Lemma unify_value_in fuel m c k s m' : unify_value (list cell) fops fuel m c = Val (s, m') -> hw (S k) m -> rin (len (hp m)) c ->
  s <> Cont /\ (exists p, wfh sto p (hp m')) \/ hw k m'.
Proof.
  unfold unify_value. intros E [M H] R. destruct (m_mode m) as [[]|] eqn:Em; [| |contradiction].
  - destruct H as [W L]. bd E a Ea. bd E r Er. destruct r as [s1 m1]. injection E as <- <-.
    apply unify_in in Er; [|exact W|exact M|eapply get_in; eauto|lia]. destruct Er as (W1 & M1 & L1 & E1 & E2).
    right. split; [now apply inc_minr|]. destruct k; [exact W1|]. cbn. rewrite E1, Em. split; [exact W1|lia].
  - bd E a Ea. bd E d Ed. bd E r Er. pose proof (get_in _ _ _ Ea R) as La. right.
    assert (Ld : d < len (hp m)) by (destruct (wfh_deref sto _ _ a H La) as (d' & E' & Ld & _); congruence).
    assert (G : forall c', rin (len (hp m)) c' \/ lit c' 0 -> hw k (inc_S (push (list cell) fops m c'))).
    { intros c' Hc. apply hw_write; [|now apply inc_minr, push_minr|exact Em]. cbn. destruct Hc as [Hc|Hc]; [now apply push_reg|now apply push_lit0]. }
    pose proof (at_nth _ _ _ Er) as En. pose proof (proj1 H d r En) as Wr.
    destruct r; try discriminate E; injection E as _ <-; apply G; cbn; auto.
Qed.
Lemma unify_variable_in wr m x v k s m' :
  (forall m i c m', wr m i c = Val m' -> minr m -> rin (len (hp m)) c -> minr m' /\ hp m' = hp m /\ m_mode m' = m_mode m /\ m_S m' = m_S m) ->
  unify_variable (list cell) fops wr m x v = Val (s, m') -> hw (S k) m -> hw k m'.
Proof.
  intros Hw. unfold unify_variable, push_ref. intros E HW. pose proof HW as [M H]. destruct (m_mode m) as [[]|] eqn:Em; [| |contradiction].
  - bd E m1 E1. injection E as _ <-. apply Hw in E1; [|exact M|cbn; lia]. destruct E1 as (M1 & H1 & H2 & H3).
    apply (hw_keep k m); [exact HW|now apply inc_minr|exact H1|cbn; congruence|cbn; congruence|rewrite Em; exact I].
  - bd E m1 E1. injection E as _ <-. apply Hw in E1; [|now apply push_minr|cbn; rewrite len_app; lia]. destruct E1 as (M1 & H1 & H2 & H3).
    apply hw_write; [|now apply inc_minr|cbn; rewrite H2; exact Em]. cbn. rewrite H1. cbn. eapply push_new; eauto.
Qed.
Lemma head_step fuel i is k m s m' : fstep cf sto fuel i m = Val (s, m') -> hcode k (i :: is) -> hw k m ->
  (exists p, wfh sto p (hp m')) /\ (s = Cont -> exists k', hcode k' is /\ hw k' m').
Proof.
  intros E C HW.
  assert (F : (s <> Cont /\ (exists p, wfh sto p (hp m'))) \/ (exists k', hcode k' is /\ hw k' m')).
  2: { destruct F as [[N F]|(k' & F1 & F2)]; [split; [exact F|contradiction]|]. split; [eapply hw_wf; eauto|eauto]. }
  unfold fstep, local_step in E.
  destruct i; cbn [hcode] in C; try contradiction.
  - destruct C as (-> & n & L & C). destruct HW as [M W]. unfold get_structure in E. bd E r Er. bd E a0 E0. bd E d Ed. bd E c0 Ec.
    pose proof (get_in _ _ _ E0 (rreg_in _ _ _ Er M)) as La.
    assert (K : (if cell_eqb c0 c then Val (Cont, set_mode m MRead (d + 1)) else Val (Failing, m)) = Val (s, m') ->
      (s <> Cont /\ (exists p, wfh sto p (hp m'))) \/ (exists k', hcode k' is /\ hw k' m')).
    { destruct (cell_eqb c0 c) eqn:Eq; intros K; injection K as <- <-; [right|left; split; [discriminate|eauto]].
      apply cell_eqb_eq in Eq. subst c0. exists n. split; [exact C|]. split; [exact M|].
      pose proof (lit_read _ _ _ _ W (at_nth _ _ _ Ec) L). cbn. destruct n; [exact W|]. split; [exact W|lia]. }
    destruct c0 as [i0|z|b w|i0 ar|i0 ar|b]; try (apply K; exact E).
    bd E h' Eh. injection E as <- <-. right. exists n. split; [exact C|].
    destruct (bind_lit (hp m) d w c n h' W (root_ref 0 _ _ _ _ _ W La Ed Ec) L Eh) as (W1 & L1).
    apply hw_write; [exact W1| |reflexivity]. apply (heap_minr m h'); [exact M|lia].
  - destruct k as [|k]; [contradiction|]. destruct C as [L C]. destruct HW as [M H]. unfold unify_structure in E.
    destruct (m_mode m) as [[]|] eqn:Em; [| |contradiction].
    + destruct H as [W LS]. bd E d Ed. bd E c0 Ec. assert (La : m_S m < len (hp m)) by lia.
      assert (K : (if cell_eqb c0 c then Val (Cont, inc_S m) else Val (Failing, inc_S m)) = Val (s, m') ->
        (s <> Cont /\ (exists p, wfh sto p (hp m'))) \/ (exists k', hcode k' is /\ hw k' m')).
      { destruct (cell_eqb c0 c) eqn:Eq; intros K; injection K as <- <-; [right|left; split; [discriminate|exists 0; exact W]].
        exists k. split; [exact C|]. apply (hw_keep k m); auto; [split; [exact M|rewrite Em; auto]|rewrite Em; exact I]. }
      destruct c0 as [i0|z|b w|i0 ar|i0 ar|b]; try (apply K; exact E).
      bd E h' Eh. injection E as <- <-. right. exists k. split; [exact C|].
      destruct (bind_lit (hp m) d w c 0 h' W (root_ref 0 _ _ _ _ _ W La Ed Ec) L Eh) as (W1 & L1).
      split; [apply inc_minr, (heap_minr m h'); [exact M|lia]|]. cbn. destruct k; [exact W1|]. rewrite Em. split; [exact W1|lia].
    + bd E m2 E2. injection E as <- <-. right. exists k. split; [exact C|].
      apply wreg_in in E2; [|now apply push_minr|cbn; rewrite len_app; lia]. destruct E2 as (M1 & H1 & H2 & H3).
      apply hw_write; [|now apply inc_minr|cbn; rewrite H2; exact Em]. cbn. rewrite H1. cbn. now apply push_lit0.
  - destruct k as [|k]; [contradiction|]. right. exists k. split; [exact C|]. eapply unify_variable_in; eauto using wreg_in.
  - destruct k as [|k]; [contradiction|]. right. exists k. split; [exact C|]. eapply unify_variable_in; eauto using wperm_in.
  - destruct k as [|k]; [contradiction|]. bd E r Er. destruct (unify_value_in _ _ _ _ _ _ E HW (rreg_in _ _ _ Er (proj1 HW))); [now left|right; eauto].
  - destruct k as [|k]; [contradiction|]. bd E r Er. destruct (unify_value_in _ _ _ _ _ _ E HW (rperm_in _ _ _ Er (proj1 HW))); [now left|right; eauto].
  - destruct C as [-> C]. destruct HW as [M W]. bd E r Er. bd E m1 E1. injection E as <- <-. right. exists 0. split; [exact C|].
    apply wreg_in in E1; [|exact M|eapply rreg_in; eauto]. destruct E1 as (M1 & H1 & _). split; [exact M1|now rewrite H1].
  - destruct C as [-> C]. destruct HW as [M W]. bd E r Er. bd E m1 E1. injection E as <- <-. right. exists 0. split; [exact C|].
    apply wperm_in in E1; [|exact M|eapply rreg_in; eauto]. destruct E1 as (M1 & H1 & _). split; [exact M1|now rewrite H1].
  - destruct C as [-> C]. destruct HW as [M W]. bd E r Er. bd E r2 Er2. unfold get_value in E. bd E ga Ga. bd E gb Gb.
    apply unify_in in E; auto; [|eapply get_in; eauto; eapply rreg_in; eauto|eapply get_in; eauto; eapply rreg_in; eauto].
    destruct E as (W1 & M1 & _). right. exists 0. split; [exact C|]. split; assumption.
  - destruct C as [-> C]. destruct HW as [M W]. bd E r Er. bd E r2 Er2. unfold get_value in E. bd E ga Ga. bd E gb Gb.
    apply unify_in in E; auto; [|eapply get_in; eauto; eapply rperm_in; eauto|eapply get_in; eauto; eapply rreg_in; eauto].
    destruct E as (W1 & M1 & _). right. exists 0. split; [exact C|]. split; assumption.
  - destruct C as [-> C]. destruct HW as [M W]. injection E as <- <-. right. exists 0. split; [exact C|]. split; [|exact W].
    destruct M as [A B]. split; [exact A|]. cbn. constructor; [apply repeat_rin|exact B].
  - destruct C as [-> C]. pose proof HW as [M W]. unfold is_pred in E. bd E r Er. bd E rb Eb. bd E v Ev.
    destruct v; [|injection E as <- <-; left; split; [discriminate|eauto]].
    bd E rx Ex. bd E xa Ea. bd E d Ed. bd E c Ec.
    destruct c as [i0|z|b0 w|i0 ar|i0 ar|b0]; try (injection E as <- <-; left; split; [discriminate|exists 0; exact W]).
    + destruct (Z.eqb z n); injection E as <- <-; [right; eauto|left; split; [discriminate|exists 0; exact W]].
    + bd E h' Eh. injection E as <- <-. right. exists 0. split; [exact C|].
      pose proof (get_in _ _ _ Ea (rreg_in _ _ _ Ex M)) as La.
      destruct (bind_lit (hp m) d w (CInt n) 0 h' W (root_ref 0 _ _ _ _ _ W La Ed Ec) eq_refl Eh) as (W1 & L1).
      split; [apply (heap_minr m h'); [exact M|lia]|exact W1].
  - destruct C as [-> C]. unfold equals_check in E. bd E c Ec. bd E xa Ea. bd E d Ed. bd E xb Eb. bd E r Er. injection E as <- <-.
    destruct r; [right; eauto|left; split; [discriminate|eapply hw_wf; eauto]].
  - destruct C as [-> C]. unfold not_equals_check, equals_check in E. bd E x0 Ex0. bd Ex0 c Ec. bd Ex0 xa Ea. bd Ex0 d Ed. bd Ex0 xb Eb. bd Ex0 r Er.
    injection Ex0 as <-. injection E as <- <-. destruct r; [left; split; [discriminate|eapply hw_wf; eauto]|right; eauto].
Qed.

(** --- whole pieces of code, cut anywhere --- *)
Lemma put_run fuel is1 : forall is2 k m s m', run_local cf sto fuel is1 m = Val (s, m') -> pcode k (is1 ++ is2) -> pw k m ->
  s = Cont /\ exists k', pcode k' is2 /\ pw k' m'.
Proof.
  induction is1 as [|i is1 IH]; intros is2 k m s m' E C W; cbn [run_local] in E.
  - injection E as <- <-. eauto.
  - bd E r E1. destruct r as [s1 m1]. cbn [app] in C. destruct (put_step _ _ _ _ _ _ _ E1 C W) as (-> & k' & C' & W'). eapply IH; eauto.
Qed.
Lemma head_run fuel is1 : forall is2 k m s m', run_local cf sto fuel is1 m = Val (s, m') -> hcode k (is1 ++ is2) -> hw k m ->
  (exists p, wfh sto p (hp m')) /\ (s = Cont -> exists k', hcode k' is2 /\ hw k' m').
Proof.
  induction is1 as [|i is1 IH]; intros is2 k m s m' E C W; cbn [run_local] in E.
  - injection E as <- <-. split; [eapply hw_wf; eauto|eauto].
  - bd E r E1. destruct r as [s1 m1]. cbn [app] in C. destruct (head_step _ _ _ _ _ _ _ E1 C W) as (Wp & K).
    destruct s1; [|injection E as <- <-; split; [exact Wp|discriminate]|injection E as <- <-; split; [exact Wp|discriminate]].
    destruct (K eq_refl) as (k' & C' & W'). eapply IH; eauto.
Qed.

(** --- compiled code --- *)
Lemma pcode_app a : forall k b, pcode k a -> pcode 0 b -> pcode k (a ++ b).
Proof.
  induction a as [|i a IH]; intros k b A B; [cbn in A; subst k; exact B|]. cbn [app pcode] in *.
  destruct i; try contradiction; try (destruct A as [A1 A2]; split; [exact A1|now apply IH]); try (destruct k; [contradiction|now apply IH]).
  destruct k.
  - destruct A as (n & L & A). exists n. split; [exact L|now apply IH].
  - destruct A as [L A]. split; [exact L|now apply IH].
Qed.
Lemma hcode_app a : forall k b, hcode k a -> hcode 0 b -> hcode k (a ++ b).
Proof.
  induction a as [|i a IH]; intros k b A B; [cbn in A; subst k; exact B|]. cbn [app hcode] in *.
  destruct i; try contradiction; try (destruct A as [A1 A2]; split; [exact A1|now apply IH]); try (destruct k; [contradiction|now apply IH]).
  - destruct A as (-> & n & L & A). split; [reflexivity|]. exists n. split; [exact L|now apply IH].
  - destruct k; [contradiction|]. destruct A as [L A]. split; [exact L|now apply IH].
Qed.
Definition ent_wf (e : ent) : Prop :=
  map fst (en_kids e) = kids (en_node e) /\ match en_node e with NEv _ l => List.length l = 2 | _ => True end.
Definition atom_wf (a : aatom) : Prop := Forall ent_wf (aa_ents a).
Lemma scell_lit n c : scell sto n c -> match n with NEv _ l => List.length l = 2 | _ => True end -> lit c (List.length (kids n)).
Proof.
  intros [t l i Hi|t l i Hi] K; cbn.
  - assert (S1 : short_arity (FV t (List.length l)) = Z.of_nat (List.length l)).
    { unfold short_arity. cbn. rewrite wrap16_small; [reflexivity|]. assert (In (FV t (List.length l)) (s_functors sto)).
      { unfold cidx, nthZ in Hi. destruct (Z.ltb i 0); [discriminate|]. eapply nth_error_In; eauto. }
      pose proof (so_arity _ ok _ H) as L. cbn in L. lia. }
    rewrite S1, Nat2Z.id. split; [lia|]. split; [reflexivity|]. eauto.
  - cbn in K. rewrite K. split; [reflexivity|]. split; [|reflexivity]. eapply op_index_name; eauto.
Qed.
Section Code.
Variable perm : string -> option nat.
Lemma qkids_code ks s0 is s1 : qkids sto perm ks s0 is s1 -> pcode (List.length ks) is.
Proof.
  induction 1 as [|k ks s0 c1 s1 c2 s2 Hk H IH]; [reflexivity|]. cbn [List.length].
  destruct Hk; cbn; try exact IH; (split; [|exact IH]); cbn; eauto.
Qed.
Lemma qents_code es s0 is s1 : qents sto perm es s0 is s1 -> Forall ent_wf es -> pcode 0 is.
Proof.
  induction 1 as [|k ks s0 c1 s1 c2 s2 Hk H IH]; intros F; [reflexivity|]. inversion F as [|? ? F1 F2]; subst.
  apply pcode_app; [|auto]. destruct Hk; cbn; auto; try (exists 0; cbn; eauto; fail).
  destruct F1 as [K1 K2]. cbn in K1, K2. exists (List.length (kids n)). split; [now apply scell_lit|].
  rewrite <- K1, map_length. eapply qkids_code; eauto.
Qed.
Lemma hkids_code ks s0 is s1 : hkids sto perm ks s0 is s1 -> hcode (List.length ks) is.
Proof.
  induction 1 as [|k ks s0 c1 s1 c2 s2 Hk H IH]; [reflexivity|]. cbn [List.length].
  destruct Hk; cbn; try exact IH; (split; [|exact IH]); cbn; eauto.
Qed.
Lemma hents_code es s0 is s1 : hents sto perm es s0 is s1 -> Forall ent_wf es -> hcode 0 is.
Proof.
  induction 1 as [|k ks s0 c1 s1 c2 s2 Hk H IH]; intros F; [reflexivity|]. inversion F as [|? ? F1 F2]; subst.
  apply hcode_app; [|auto]. destruct Hk; cbn; auto; try (split; [reflexivity|]; exists 0; cbn; eauto; fail).
  destruct F1 as [K1 K2]. cbn in K1, K2. split; [reflexivity|]. exists (List.length (kids n)). split; [now apply scell_lit|].
  rewrite <- K1, map_length. eapply hkids_code; eauto.
Qed.
Lemma flat_wf a : atom_wf a -> Forall ent_wf (flatten_program a).
Proof. intros F. unfold flatten_program. apply Forall_forall. intros e He. apply filter_In in He. unfold atom_wf in F. rewrite Forall_forall in F. apply F, He. Qed.
Lemma flatq_wf a : atom_wf a -> Forall ent_wf (flatten_query a).
Proof.
  intros F. apply flat_wf in F. unfold flatten_query. destruct (is_constant (aa_top a)); [assumption|].
  rewrite <- (firstn_skipn (List.length (kids (aa_top a))) (flatten_program a)) in F. apply Forall_app in F.
  apply Forall_app. split; [apply Forall_rev|]; apply F.
Qed.
End Code.
Definition atom_code (c : list instr) : Prop :=
  (exists is f, c = is ++ [ICall f] /\ pcode 0 is) \/ (exists is, c = is ++ [IProceed] /\ hcode 0 is) \/ c = [IDealloc].
Lemma to_query_code perm pre a seen s c seen' s' : to_query perm a seen s = (COk (c, seen'), s') -> sto_ext s' sto -> atom_wf a ->
  pcode 0 pre -> atom_code (pre ++ c).
Proof.
  intros E X F P. destruct (to_query_rel sto perm ok _ _ _ _ _ _ E X) as (is & -> & Q). left. eexists (pre ++ is), _.
  split; [now rewrite app_assoc|]. apply pcode_app; [exact P|]. eapply qents_code; [exact Q|now apply flatq_wf].
Qed.
Lemma to_program_code perm pre a seen s c seen' s' : to_program perm a seen s = (COk (c, seen'), s') -> sto_ext s' sto -> atom_wf a ->
  hcode 0 pre -> exists is, pre ++ c = is ++ [IProceed] /\ hcode 0 is.
Proof.
  intros E X F P. destruct (to_program_rel sto perm ok _ _ _ _ _ _ E X) as (is & -> & Q). exists (pre ++ is).
  split; [now rewrite app_assoc|]. apply hcode_app; [exact P|]. eapply hents_code; [exact Q|now apply flat_wf].
Qed.
Lemma assign_term_wf n m : (forall k, In k (kids n) -> node_ok k) -> atom_wf (fst (fst (assign_term n m))).
Proof.
  intros H. destruct (assign_term n m) as [[a c] m'] eqn:E. cbn [fst]. destruct (assign_term_gen _ _ _ _ _ E) as (lx & Hm & He & _).
  pose proof (lx_ents2 n a lx Hm He) as EO. apply Forall_forall. intros e Hi. apply In_nth_error in Hi. destruct Hi as [i Hi].
  destruct (eo_at _ _ _ EO i e Hi) as (k & x & Hl & En & _ & _ & Ek & _). split; [now rewrite En|]. rewrite En.
  assert (Ok : node_ok k).
  { apply (bfs_ok _ (kids n) (Nat.le_refl _) H). change (bfs (kids n)) with (bfs_below n). rewrite <- Hm, in_map_iff.
    exists (k, x). split; [reflexivity|]. eapply nth_error_In; eauto. }
  destruct k; try exact I. apply Ok.
Qed.
Lemma const_wf n : is_constant n = true -> atom_wf (const_atom n).
Proof. intros C. destruct n; try discriminate. repeat constructor. Qed.
Lemma assign_one_wf n : atom_ok n -> atom_wf (fst (assign_one n)).
Proof.
  intros A. unfold assign_one. destruct (is_constant n) eqn:C; [now apply const_wf|].
  pose proof (assign_term_wf n [] (atom_kids_ok n A)) as K. destruct (assign_term n []) as [[a c] m]. exact K.
Qed.
Lemma assign_two_wf h b : atom_ok h -> atom_ok b -> let '(ha, ba, _) := assign_two h b in atom_wf ha /\ atom_wf ba.
Proof.
  intros A B. unfold assign_two. pose proof (assign_one_wf h A) as Fh. pose proof (assign_one_wf b B) as Fb.
  destruct (is_constant b) eqn:Cb.
  - destruct (assign_one h) as [ha c]. split; [assumption|now apply const_wf].
  - destruct (is_constant h) eqn:Ch.
    + destruct (assign_one b) as [ba c]. split; [now apply const_wf|assumption].
    + pose proof (assign_term_wf h [] (atom_kids_ok h A)) as K1. destruct (assign_term h []) as [[ha c1] m1].
      pose proof (assign_term_wf b m1 (atom_kids_ok b B)) as K2. destruct (assign_term b m1) as [[ba c2] m2]. split; assumption.
Qed.
Definition cok (a : catom) : Prop := atom_code (ca_code a).
Lemma alloc_pcode n : pcode 0 (alloc_code n).
Proof. unfold alloc_code. destruct (Nat.eqb n 0); cbn; auto. Qed.
Lemma alloc_hcode n : hcode 0 (alloc_code n).
Proof. unfold alloc_code. destruct (Nat.eqb n 0); cbn; auto. Qed.
Lemma query_atoms_code perm u ns : forall pre seen s r s', compile_query_atoms perm pre u ns seen s = (COk r, s') -> sto_ext s' sto ->
  pcode 0 pre -> Forall atom_ok ns -> Forall cok r.
Proof.
  induction ns as [|n ns IH]; intros pre seen s r s' E X P F; cbn [compile_query_atoms] in E; [injection E as <- <-; constructor|].
  apply cbind_ok in E. destruct E as ([a sa] & t1 & E1 & E). apply cbind_ok in E. destruct E as (r' & t2 & E2 & E).
  injection E as <- <-. inversion F as [|? ? Hn Hns]; subst.
  assert (X1 : sto_ext t1 t2) by (pose proof (compile_query_atoms_ext perm u ns [] sa t1) as K; rewrite E2 in K; exact K).
  constructor; [|eapply IH; eauto; reflexivity]. unfold compile_query_atom in E1. pose proof (assign_one_wf n Hn) as Fa.
  destruct (assign_one n) as [aa cnt]. cbn [fst] in Fa.
  apply cbind_ok in E1. destruct E1 as ([c sq] & t3 & E1 & E1'). injection E1' as <- <- <-. unfold cok. cbn [ca_code].
  eapply to_query_code; [exact E1|eapply sto_ext_trans; eauto|assumption|assumption].
Qed.
Lemma clause_code_code b c r : clause_code cf sto b c r -> clause_wf c -> Forall cok r /\ exists a r', r = a :: r' /\ exists is, ca_code a = is ++ [IProceed] /\ hcode 0 is.
Proof.
  intros (s0 & sE & f & E & X) W. unfold compile_program_term in E. destruct c as [|h body]; [contradiction|].
  destruct (negb b && redefines h)%bool; [discriminate|]. inversion W as [|? ? Wh Wb]; subst.
  set (perm := fun s => pos_of s (perm_order cf (h :: body) true)) in *.
  assert (A : exists ha oba cnt, (match body with [] => let '(ha, c) := assign_one h in (ha, None, c) | b :: _ => let '(ha, ba, c) := assign_two h b in (ha, Some ba, c) end) = (ha, oba, cnt)
    /\ atom_wf ha /\ match oba with None => True | Some ba => atom_wf ba end).
  { destruct body as [|b1 bs].
    - pose proof (assign_one_wf h Wh) as K. destruct (assign_one h) as [ha c]. eauto 6.
    - inversion Wb as [|? ? W1 _]; subst. pose proof (assign_two_wf h b1 Wh W1) as K. destruct (assign_two h b1) as [[ha ba] c].
      exists ha, (Some ba), c. split; [reflexivity|exact K]. }
  destruct A as (ha & oba & cnt & EA & Fh & Fb). rewrite EA in E.
  apply cbind_ok in E. destruct E as ([hc s1] & t1 & E1 & E). apply cbind_ok in E. destruct E as ([firsts s3] & t2 & E2 & E).
  apply cbind_ok in E. destruct E as (others & t3 & E3 & E). injection E as <- <- <-.
  assert (X3 : sto_ext t2 t3) by (pose proof (compile_query_atoms_ext perm false (tl body) [] (remove_x_a_regs s3) t2) as K; rewrite E3 in K; exact K).
  assert (X2 : sto_ext t1 t2).
  { destruct oba as [ba|]; [|injection E2 as <- <- <-; apply sto_ext_refl]. apply cbind_ok in E2. destruct E2 as ([bc s4] & t4 & E4 & E5). injection E5 as <- <- <-.
    pose proof (to_query_ext perm ba (erase_head_regs ha s1) t1) as K. rewrite E4 in K. exact K. }
  assert (Xt2 : sto_ext t2 sto) by (eapply sto_ext_trans; eauto). assert (Xt1 : sto_ext t1 sto) by (eapply sto_ext_trans; eauto).
  match goal with |- Forall cok (?a0 :: ?r0) /\ _ => assert (H0 : exists is, ca_code a0 = is ++ [IProceed] /\ hcode 0 is) end.
  { cbn [ca_code]. eapply to_program_code; eauto. apply alloc_hcode. }
  split; [|eauto]. constructor; [right; left; exact H0|].
  apply Forall_app. split.
  - destruct oba as [ba|]; [|injection E2 as <- _ _; constructor]. apply cbind_ok in E2. destruct E2 as ([bc s4] & t4 & E4 & E5). injection E5 as <- <- <-.
    constructor; [|constructor]. unfold cok. cbn [ca_code]. eapply (to_query_code perm []); eauto. reflexivity.
  - apply Forall_app. split; [eapply query_atoms_code; eauto; [reflexivity|destruct body; [constructor|]; now inversion Wb]|].
    destruct (Nat.eqb _ 0); constructor; [right; right; reflexivity|constructor].
Qed.
Lemma special_code_code f i rs : special f = Some i -> special_code cf sto f i rs -> Forall (Forall cok) rs.
Proof.
  intros Hs (r & Hr & ->). constructor; [|constructor]. destruct (clause_code_code _ _ _ Hr (binary_pred_wf _)) as (F & a & r' & -> & is & Ea & Hi).
  inversion F as [|? ? F1 F2]; subst. cbn [insert_pred]. constructor; [|assumption].
  unfold cok. cbn [ca_code]. rewrite Ea. unfold insert_before_last. rewrite removelast_last, app_length. cbn [List.length].
  replace (List.length is + 1 - 1) with (List.length is) by lia. rewrite skipn_app, skipn_all, Nat.sub_diag. cbn [skipn app].
  right. left. exists (is ++ [i (fst (pred_regs (binary_pred (fv_name f)))) (snd (pred_regs (binary_pred (fv_name f))))]).
  split; [now rewrite <- app_assoc|]. apply hcode_app; [exact Hi|].
  unfold special in Hs. destruct (fview_eqb f _); [injection Hs as <-; cbn; auto|]. destruct (fview_eqb f _); [injection Hs as <-; cbn; auto|].
  destruct (fview_eqb f _); [injection Hs as <-; cbn; auto|discriminate].
Qed.

(** --- whole branches --- *)
Definition pwf (p : process) : Prop := wfh sto 0 (hp (p_m p)) /\ minr (p_m p) /\ Forall cok (p_codes p).
Lemma resize_rin n l k : Forall (rin n) l -> Forall (rin n) (resize l k).
Proof.
  intros F. unfold resize. apply Forall_app. split; [|apply repeat_rin].
  rewrite <- (firstn_skipn k l) in F. apply Forall_app in F. apply F.
Qed.
(** the registers and environments before the first instruction of a turn *)
Definition start (p : process) (a : catom) : mstate := set_regs (p_m p) (resize (m_regs (p_m p)) (ca_regs a)).
Lemma start_pw p a : pwf p -> pw 0 (start p a) /\ hw 0 (start p a).
Proof.
  intros (W & [A B] & _). assert (M : minr (start p a)) by (split; [apply resize_rin; exact A|exact B]). split; split; assumption.
Qed.
Lemma turn_runs p a fuel is1 is2 s m : pwf p -> cok a -> removelast (ca_code a) = is1 ++ is2 ->
  run_local cf sto fuel is1 (start p a) = Val (s, m) -> exists k, wfh sto k (hp m).
Proof.
  intros P C E R. destruct (start_pw p a P) as [S1 S2]. destruct C as [(is & f & C & K)|[(is & C & K)|C]]; rewrite C in E.
  - rewrite removelast_last in E. subst is. destruct (put_run _ _ _ _ _ _ _ R K S1) as (_ & k & _ & W & _). eauto.
  - rewrite removelast_last in E. subst is. apply (proj1 (head_run _ _ _ _ _ _ _ R K S2)).
  - cbn in E. symmetry in E. apply app_eq_nil in E. destruct E as [-> ->]. cbn in R. injection R as _ <-. exists 0. apply S1.
Qed.
Lemma turn_ends p a fuel m : pwf p -> cok a -> run_local cf sto fuel (removelast (ca_code a)) (start p a) = Val (Cont, m) ->
  wfh sto 0 (hp m) /\ minr m.
Proof.
  intros P C R. destruct (start_pw p a P) as [S1 S2]. destruct C as [(is & f & C & K)|[(is & C & K)|C]]; rewrite C in R.
  - rewrite removelast_last in R. rewrite <- (app_nil_r is) in K. destruct (put_run _ _ _ _ _ _ _ R K S1) as (_ & k & E & W). cbn in E. subst k. exact W.
  - rewrite removelast_last in R. rewrite <- (app_nil_r is) in K. destruct (proj2 (head_run _ _ _ _ _ _ _ R K S2) eq_refl) as (k & E & M & W). cbn in E. subst k. split; assumption.
  - cbn in R. injection R as <-. exact S1.
Qed.
Section Branches.
Variable P : list (list node).
Variable pg : prog.
Hypothesis PC : prog_code cf sto P pg.
Hypothesis CW : Forall clause_wf P.
Hypothesis AW : Forall clause_wf append_clauses.
Lemma prog_cok f rs : plookup f pg = Some rs -> Forall (Forall cok) rs.
Proof.
  intros E. pose proof (PC f) as K.
  assert (G : forall b cs rs, Forall2 (clause_code cf sto b) cs rs -> Forall clause_wf cs -> Forall (Forall cok) rs).
  { induction 1 as [|c r cs' rs' Hc H IH]; intros F; [constructor|]. inversion F; subst. constructor; [eapply clause_code_code; eauto|auto]. }
  destruct (special f) as [i|] eqn:Es.
  - destruct K as (rs' & E' & K). rewrite E in E'. injection E' as <-. eapply special_code_code; eauto.
  - destruct (is_append f).
    + destruct K as (rs' & E' & K). rewrite E in E'. injection E' as <-. eapply G; eauto.
    + rewrite E in K. destruct K as [K _]. eapply G; [exact K|]. unfold clauses_of. apply Forall_forall. intros c Hc. apply filter_In in Hc.
      rewrite Forall_forall in CW. apply CW, Hc.
Qed.
Lemma turn_pwf fuel p l : pwf p -> p_turn cf sto fuel pg p = Val (PKids l) -> Forall pwf l.
Proof.
  intros F E. unfold p_turn in E. destruct (p_codes p) as [|a rest] eqn:Ec; [discriminate|].
  destruct (run_local cf sto fuel (removelast (ca_code a)) _) as [[s m]| |] eqn:Er; cbn [bind] in E; try discriminate.
  pose proof (proj2 (proj2 F)) as FC. rewrite Ec in FC. inversion FC as [|? ? F1 F2]; subst.
  destruct s; try discriminate. destruct (turn_ends p a fuel m F F1 Er) as [W M].
  destruct (last (ca_code a) IProceed); try discriminate.
  - destruct (plookup f pg) as [rs|] eqn:Ep; try discriminate. injection E as <-. apply prog_cok in Ep.
    apply Forall_forall. intros q Hq. apply in_map_iff in Hq. destruct Hq as (r & <- & Hr). split; [exact W|]. split; [exact M|]. cbn [p_codes].
    apply Forall_app. split; [|assumption]. rewrite Forall_forall in Ep. auto.
  - destruct (forallb is_dealloc rest).
    + destruct (answer_of _ _ _ _); discriminate.
    + injection E as <-. constructor; [|constructor]. split; [exact W|]. split; assumption.
  - destruct (m_envs m) as [|e es] eqn:Ee; [discriminate|]. injection E as <-. constructor; [|constructor]. split; [exact W|]. split; [|assumption].
    destruct M as (A & B). split; [exact A|]. cbn. rewrite Ee in B. now inversion B.
Qed.
Lemma path_pwf root pi p : pwf root -> at_path cf sto pg root pi p -> pwf p.
Proof.
  intros R H. induction H as [|pi p i l k H IH [fuel E] Hn]; [assumption|].
  pose proof (turn_pwf fuel p l IH E) as F. rewrite Forall_forall in F. apply F. eapply nth_error_In; eauto.
Qed.
End Branches.
Lemma root_pwf q r : query_code cf sto q r -> Forall atom_ok q -> pwf (init_proc r).
Proof.
  intros (s0 & s1 & E & X) F. split; [split; [intros [|a] c H; discriminate H|intros a H; inversion H]|]. split; [split; constructor|]. cbn [p_codes init_proc]. unfold compile_query in E.
  eapply query_atoms_code; eauto. apply alloc_pcode.
Qed.
End Wf.
