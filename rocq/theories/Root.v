(** The initial state of a query, and the hypotheses about the program in a session. *)
From Verif Require Import Base Machine Heap Facts Compiler Parser Organizer Spec Print Valuation HeapSim Process Refine Mono Turn Shape Session Code Put Search PutRun Get Alloc Atoms Clause Stack Ready Heads Builtins Sols Solve Parsed Tables.
From Coq Require Import Sorting.Permutation.
Open Scope string_scope.
Open Scope list_scope.

Lemma ord_nil cf : ord_ok cf -> c_ord cf [] = [].
Proof. intros OK. apply Permutation_nil. symmetry. apply OK. Qed.

Lemma append_ok cf : ord_ok cf -> forall c, In c append_clauses -> clause_wf c /\ clause_ok cf c = true /\
  forall pure noarith, Forall (good pure noarith) (tl c).
Proof.
  intros OK c Hc. pose proof (ord_nil cf OK) as Hn.
  destruct Hc as [<-|[<-|[]]].
  - csplit; [|reflexivity|constructor]. constructor; [|constructor]. cbn. intros m [<-|[<-|[<-|[]]]]; cbn; auto.
    split; [|exact I]. left. auto.
  - csplit.
    + assert (L : fun_ok "[" 2) by (left; auto).
      constructor; [|constructor; [|constructor]]; cbn; intros m [<-|[<-|[<-|[]]]]; cbn; auto.
    + unfold clause_ok, permof, perm_order. match goal with |- context [perm_vars ?a ?b] => change (perm_vars a b) with (@nil string) end.
      rewrite Hn. vm_compute. reflexivity.
    + intros pure noarith. constructor; [|constructor]. split; [left; reflexivity|discriminate].
Qed.

Record session_prog (P : list (list node)) : Prop := {
  sp_wf : Forall clause_wf P;
  sp_nr : forall f, special f <> None \/ is_append f = true -> clauses_of f P = [] }.
Definition session_query (s : qstate) : Prop :=
  match s with QFresh q | QStarted q => q <> [] /\ Forall atom_ok q | _ => True end.

Lemma session_parsed cf o P s : session cf o P s -> session_prog P /\ session_query s.
Proof.
  induction 1 as [o E|o P s text cs o' H IH Ep E|o P s text r o' H IH E Hr|o P s text q o' H IH Ep E
                 |o P s text r o' H IH E Hr|o P s t H IH|o P s fuel n w r o' H IH Hs E Hr]; auto.
  - split; [|exact I]. split; [constructor|reflexivity].
  - destruct IH as [_ IH]. split; [|destruct s; first [exact IH|exact I]]. split; [eapply parse_program_wf; eauto|].
    unfold load_program in E. rewrite Ep in E. unfold compile_program in E.
    destruct (compile_clauses cf false cs [] (o_sto o)) as [[p|e|] s1] eqn:Ec; try discriminate.
    destruct (compile_clauses_code _ _ _ _ _ _ _ Ec) as [_ K]. pose proof (parse_program_lower _ _ Ep) as L.
    assert (NL : forall nm k, (forall c s', nm = String c s' -> is_lower c = false) -> clauses_of (FV nm k) cs = []).
    { intros nm k Hnm. unfold clauses_of. clear - L Hnm. induction L as [|c cs Hc L IH]; [reflexivity|]. cbn [filter].
      destruct c as [|h b]; [contradiction|]. destruct (has_head (FV nm k) (h :: b)) eqn:Eh; [|exact IH]. exfalso.
      apply has_head_eq in Eh. destruct Hc as (c & s' & E1 & E2). unfold to_fview in Eh. injection Eh as Eh _.
      rewrite E1 in Eh. rewrite (Hnm c s' (eq_sym Eh)) in E2. discriminate. }
    intros f [Hf|Hf].
    + destruct (special f) as [i|] eqn:Ef; [|contradiction].
      destruct (special_eq _ _ Ef) as [[-> _]|[[-> _]|[-> _]]].
      * destruct (K (FV "is" 2)) as (_ & _ & K3). apply K3; reflexivity.
      * apply NL. intros c s' H1. injection H1 as <- _. reflexivity.
      * apply NL. intros c s' H1. injection H1 as <- _. reflexivity.
    + unfold is_append in Hf. apply fview_eqb_eq in Hf. subst f. destruct (K (FV "append" 3)) as (_ & _ & K3). apply K3; reflexivity.
  - destruct IH as [A _]. split; [assumption|]. cbn. eapply parse_query_wf; eauto.
  - destruct IH as [A _]. split; [assumption|exact I].
  - destruct IH as [A B]. split; [assumption|]. destruct s; first [exact B|exact I].
Qed.

(** longest rule *)
Lemma rules_bound (pg : prog) : exists R, forall f rs r, plookup f pg = Some rs -> In r rs -> List.length r <= R.
Proof.
  induction pg as [|[g rs0] pg (R & IH)]; [exists 0; discriminate|].
  assert (B : exists B, forall r : rule, In r rs0 -> List.length r <= B).
  { clear. induction rs0 as [|r rs0 (B & IH)]; [exists 0; intros r []|]. exists (Nat.max (List.length r) B).
    intros r' [<-|H]; [lia|]. specialize (IH r' H). lia. }
  destruct B as (B & HB). exists (Nat.max R B). intros f rs r E Hr. cbn in E. destruct (fview_eqb f g).
  - injection E as ->. specialize (HB r Hr). lia.
  - specialize (IH f rs r E Hr). lia.
Qed.

Section Root.
Variable cf : cfg.
Hypothesis OK : ord_ok cf.
Variable sto : storage.
Hypothesis ok : sto_ok sto.
Variable P : list (list node).
Variable pure noarith : Prop.
Notation good := (good pure noarith).

(** The state before the first turn. *)
Lemma root_pok q r : query_code cf sto q r -> Forall atom_ok q -> q <> [] -> Forall good q ->
  exists S0, pok cf sto P pure noarith (flat_map vars_of q) (init_proc r) S0 /\
    forall v k, S0 v k <-> provs (pow_of cf) (PA P) v q k.
Proof.
  intros Hq Ha Hne Hg. destruct (query_code_split cf OK sto ok q r Hq Ha) as [[E _]|(n & ns & a & as_ & -> & -> & a' & is & GC & Ec & Ec' & Er & Es & Eu & En)]; [contradiction|].
  set (perm := permof cf (n :: ns) false) in *. set (np := List.length (perm_order cf (n :: ns) false)) in *.
  exists (SolG sto (pow_of cf) (PA P) [] [{| f_perm := perm; f_V := fun _ => None; f_gs := n :: ns |}]). split.
  - apply (pok_ready cf sto P pure noarith (flat_map vars_of (n :: ns)) (init_proc (a :: as_)) _ []); auto.
    + inversion GC as [|n0 ns0 D0 D' seen0 s1 a0 is0 r0 Ha0 Ht0 Ec0 Er0 Es0 Eu0 En0 Q HD GC' K1 K2 K3]; subst n0 ns0 D0 seen0 a0 r0.
      assert (is0 = is) as ->. { rewrite Ec in Ec0. apply app_inj_tail in Ec0. symmetry. apply Ec0. }
      destruct (assign_one n) as [aa nr] eqn:Ea. cbn [fst snd] in *.
      assert (Hi : pinj perm) by (intros s t y; apply permof_inj).
      destruct (goal_ready perm Hi n aa nr [] [] Ha0 Ea) as (st' & C & F & HD' & SS & Tv & Ln).
      { intros s _ _ []. } { intros x. reflexivity. } { intros s y _. cbn. split; [discriminate|intros []]. }
      assert (Nis : is <> []).
      { eapply (goal_code_long sto perm n [] []); eauto; [intros x; reflexivity|intros s y _; cbn; split; [discriminate|intros []]|]. rewrite Ea. exact Q. }
      assert (RA : exists m1 : mstate, (forall fuel, run_local cf sto fuel (alloc_code np)
          (set_regs (p_m (init_proc (a :: as_))) (resize (m_regs (p_m (init_proc (a :: as_)))) nr)) = Val (Cont, m1)) /\
        m_heap m1 = [] /\ List.length (m_regs m1) = nr /\ (forall y, y < np -> exists e es, m_envs m1 = e :: es /\ y < List.length e)).
      { unfold alloc_code. destruct (Nat.eqb_spec np 0) as [E0|E0]; eexists; (split; [intros fuel; reflexivity|]).
        - cbn [m_heap m_regs m_envs set_regs init_proc p_m]. csplit; auto; [apply resize_length|lia].
        - cbn [m_heap m_regs m_envs set_regs set_envs init_proc p_m]. csplit; auto; [apply resize_length|].
          intros y Hy. exists (repeat cell0 np), []. rewrite repeat_length. auto. }
      destruct RA as (m1 & RA & Hm & Lm & Em).
      apply (ready_intro cf sto (labelled cf (PA P)) good (init_proc (a :: as_)) perm (fun _ => None) n ns [] a (alloc_code np) is as_ [] true m1
        (flatten_query aa) {| k_seen := []; k_F := []; k_D := [] |} st' s1 nr); cbn [k_seen k_D]; auto.
      * cbn [p_codes init_proc]. now rewrite app_nil_r.
      * congruence.
      * split; cbn [k_D k_F k_seen nassoc]; auto; try discriminate.
        -- intros s. split; [intros []|congruence].
        -- intros s y _. cbn. split; [discriminate|intros []].
        -- intros s y Hp. destruct (Em y (permof_lt _ _ _ _ _ Hp)) as (e & es & E1 & E2). exists e, es. csplit; auto. intros [].
      * rewrite Hm. split; [intros b c Hc; destruct b; discriminate|cbn; intros; lia].
      * eapply goals_code_D; [exact GC'|]. intros s. rewrite HD, HD'. reflexivity.
      * apply tl_bot.
      * congruence.
      * intros _. rewrite Ea, Es. auto.
      * congruence.
      * apply flatq_in. pose proof (assign_one_in n) as K. rewrite Ea in K. exact K.
      * exists aa. csplit; [pose proof (aa_top_one n) as K; rewrite Ea in K; exact K|congruence|]. intros _ s Hs Hp. now apply Tv.
    + split; [split|]. 
      * intros s b [].
      * intros s. cbn. split; [intros []|congruence].
      * intros s. cbn. split; [intros [K|K]; [congruence|exact K]|auto].
  - intros v k. unfold SolG. split.
    + intros (rho & _ & v' & k1 & k2 & Ev & _ & Hp & Hk & ->). rewrite <- (Ev eq_refl). cbn in Hk. subst k2. rewrite Nat.add_0_r. exact Hp.
    + intros Hp. exists (fun _ => GInt 0). split; [intros b c Hc; destruct b; discriminate|]. exists v, k, 0. csplit; auto; [discriminate|reflexivity].
Qed.
End Root.
