(** Soundness and completeness of a whole search. *)
From Verif Require Import Base Machine Heap Facts Compiler Organizer Spec Print Valuation Process Shape Turn Session Code Put Search PutRun Get Alloc Atoms Clause Stack Ready Heads Builtins Sols.
Open Scope list_scope.

Section Solve.
Variable cf : cfg.
Hypothesis OK : ord_ok cf.
Variable sto : storage.
Hypothesis ok : sto_ok sto.
Variable pg : prog.
Variable P : list (list node).
Variable pure noarith : Prop.
Hypothesis PC : prog_code cf sto P pg.
Hypothesis CW : forall c, In c (PA P) -> clause_wf c /\ clause_ok cf c = true /\ Forall (good pure noarith) (tl c).
Hypothesis NR : pure -> forall f, special f <> None \/ is_append f = true -> clauses_of f P = [].
Variable R : nat.
Hypothesis RL : forall f rs r, plookup f pg = Some rs -> In r rs -> List.length r <= R.
Variable qv : list string.
Variable root : process.
Variable S0 : sols.
Hypothesis Hroot : pok cf sto P pure noarith qv root S0.

Notation pok := (pok cf sto P pure noarith qv).
Notation search := (search cf sto pg root).
Notation answer_for := (answer_for sto qv).

Definition below (Si : sols) (n : nat) : Prop := forall v k, Si v k -> exists k', S0 v k' /\ 2 * k' <= 2 * k + n.

Lemma label_length pi ps pi' (p' : process) : In (pi', p') (label pi ps) -> List.length pi' = S (List.length pi).
Proof.
  unfold label. generalize 0 as k. induction ps as [|q ps IH]; intros k H; [contradiction|]. destruct H as [E|H].
  - injection E as <- _. rewrite app_length. cbn. lia.
  - eapply IH; eauto.
Qed.
Lemma search_sound T Q : search T Q ->
  (forall pi p, In (pi, p) Q -> exists Si, pok p Si /\ below Si (List.length pi + phase p)) /\
  (forall pi p b, In (pi, p, PDone b) T -> exists Si h, ends_with cf sto p h /\ answer_for Si h b /\ below Si (List.length pi + phase p)) /\
  (forall pi p e, In (pi, p, PErr e) T -> ~ noarith).
Proof.
  intros H. induction H as [|T pi p r Q H (IQ & IT & IE) [fuel E]].
  - csplit; try contradiction. intros pi p [Eq|[]]. injection Eq as <- <-. exists S0. split; [assumption|]. intros v k Hv. exists k. split; [assumption|lia].
  - destruct (IQ pi p (or_introl eq_refl)) as (Si & Hp & Hb).
    pose proof (turn_sols cf OK sto ok pg P pure noarith PC CW NR R RL qv fuel p Si r Hp E) as K. csplit.
    + intros pi' p' Hin. apply in_app_iff in Hin. destruct Hin as [Hin|Hin]; [apply (IQ pi'); now right|].
      destruct r as [|e|b|ps]; cbn [kids_of label label_from] in Hin; try contradiction.
      destruct K as (Ss & F & KB & _).
      assert (Hl : List.length pi' = S (List.length pi)) by (eapply label_length; exact Hin).
      assert (Hp' : In p' ps) by (rewrite <- (label_snd pi ps); apply (in_map snd) in Hin; exact Hin).
      apply In_nth_error in Hp'. destruct Hp' as (i & Ei). destruct (F2_nth_l _ _ _ F i _ Ei) as (Sj & Ej & Pj).
      exists Sj. split; [assumption|]. intros v k Hv. destruct (KB i p' Sj v k Ei Ej Hv) as (k' & Hk' & L').
      destruct (Hb v k' Hk') as (k2 & Hk2 & L2). exists k2. split; [assumption|]. lia.
    + intros pi' p' b Hin. apply in_app_iff in Hin. destruct Hin as [Hin|[Eq|[]]]; [eauto|]. injection Eq as -> -> ->.
      destruct K as (h & K1 & K2). exists Si, h. auto.
    + intros pi' p' e Hin. apply in_app_iff in Hin. destruct Hin as [Hin|[Eq|[]]]; [eauto|]. injection Eq as -> -> ->. apply K.
Qed.

Definition no_unbound (T : list (path * process * step_res)) : Prop := forall pi p x, ~ In (pi, p, PErr (EUnbound x)) T.

Lemma label_nth pi ps i p' : nth_error ps i = Some p' -> In (pi ++ [i], p') (label pi ps).
Proof.
  unfold label. assert (G : forall ps k i, nth_error ps i = Some p' -> In (pi ++ [k + i], p') (label_from k pi ps)).
  { clear. induction ps as [|q ps IH]; intros k [|i] E; try discriminate; cbn [label_from].
    - injection E as ->. left. now rewrite Nat.add_0_r.
    - right. replace (k + S i) with (S k + i) by lia. apply IH. exact E. }
  intros E. apply (G ps 0 i E).
Qed.

Lemma search_complete T Q : search T Q -> pure -> no_unbound T -> forall v k, S0 v k ->
  (exists pi p b Si h k', In (pi, p, PDone b) T /\ ends_with cf sto p h /\ answer_for Si h b /\ Si v k' /\
     List.length pi < List.length (p_codes root) + k * R /\
     (forall d, few_leave pg d -> List.length pi + phase p <= dn (p_codes root) + (2 + d) * k + phase root) /\
     below Si (List.length pi + phase p)) \/
  (exists pi p Si k', In (pi, p) Q /\ pok p Si /\ Si v k' /\
     List.length pi + (List.length (p_codes p) + k' * R) <= List.length (p_codes root) + k * R /\
     (forall d, few_leave pg d -> List.length pi + (dn (p_codes p) + (2 + d) * k' + phase p) <= dn (p_codes root) + (2 + d) * k + phase root) /\
     below Si (List.length pi + phase p)).
Proof.
  intros H Pu. induction H as [|T pi p r Q H IH [fuel E]]; intros NE v k Hv.
  - right. exists [], root, S0, k. csplit; auto; first [now left|intros d _; cbn [List.length]; lia|intros v' k1 Hk; exists k1; split; [exact Hk|lia]].
  - destruct (IH ltac:(intros pi' p' e Hin; apply (NE pi' p' e); apply in_app_iff; auto) v k Hv)
      as [(pi' & p' & b & Si & h & k' & Hin & A0 & A & B & C)|(pi' & p' & Si & k' & [Eq|Hin] & Hp & HS & HL & HD & HB)].
    + left. exists pi', p', b, Si, h, k'. destruct C as (C & C' & C2). csplit; auto. apply in_app_iff. auto.
    + injection Eq as <- <-.
      pose proof (turn_sols cf OK sto ok pg P pure noarith PC CW NR R RL qv fuel p Si r Hp E) as K.
      destruct r as [|e|b|ps].
      * exfalso. eapply K; eauto.
      * exfalso. destruct K as [_ K]. apply (K) with (v := v) (k := k'); [|exact HS]. intros x ->. apply (NE pi p x). apply in_app_iff. right. now left.
      * destruct K as (h & K0 & K). left. exists pi, p, b, Si, h, k'.
        assert (Lp : 0 < List.length (p_codes p)).
        { destruct (p_codes p) as [|a l] eqn:Ec; [|cbn; lia]. unfold p_turn in E. rewrite Ec in E. discriminate E. }
        csplit; auto; [apply in_app_iff; right; now left|lia|]. intros d Hd. specialize (HD d Hd). lia.
      * destruct K as (Ss & F & KB & KC). destruct (KC Pu v k' HS) as (i & p1 & S1 & k1 & E1 & E2 & HS1 & HL1 & HD1).
        right. exists (pi ++ [i]), p1, S1, k1. csplit; auto.
        -- apply in_app_iff. right. cbn [kids_of]. now apply label_nth.
        -- destruct (F2_nth_l _ _ _ F i _ E1) as (Sj & Ej & Pj). congruence.
        -- rewrite app_length. cbn [List.length]. lia.
        -- intros d Hd. specialize (HD d Hd). specialize (HD1 d Hd). rewrite app_length. cbn [List.length]. lia.
        -- intros v' k2 H2. destruct (KB i p1 S1 v' k2 E1 E2 H2) as (k3 & H3 & L3). destruct (HB v' k3 H3) as (k4 & H4 & L4). exists k4. split; [exact H4|]. rewrite app_length. cbn [List.length]. lia.
    + right. exists pi', p', Si, k'. csplit; auto. apply in_app_iff. auto.
Qed.
End Solve.
