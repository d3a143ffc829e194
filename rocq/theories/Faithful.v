(** What the generated code does: head matching, and the arguments with which the goals are called. *)
From Verif Require Import Base Machine Heap Facts Compiler Organizer Spec Print Valuation Process Shape Session Code Put Search PutRun Get Alloc Atoms Clause Stack Ready Heads Loads.
From Coq Require Import Sorting.Permutation.
Open Scope list_scope.

Section Faithful.
Variable cf : cfg.
Hypothesis OK : ord_ok cf.
Variable sto : storage.
Hypothesis ok : sto_ok sto.
Notation hp m := (m_heap (H := list cell) m).
Notation len := (@List.length cell).
Notation sat := (sat sto).
Notation hle := (hle sto).
Notation run := (run_local cf sto).

(** The registers are resized before the code of an atom runs. *)
Definition enter (a : catom) (m : mstate) : mstate := set_regs m (resize (m_regs m) (ca_regs a)).
(** The argument registers refer to the instances of the arguments. *)
Definition passes (m : mstate) (V : string -> option nat) (n : node) : Prop :=
  forall i t, nth_error (targs n) i = Some t -> exists c a, nth_error (m_regs m) i = Some c /\ addr_of c = Some a /\
    a < len (hp m) /\ vals sto (hp m) V a t.
(** From [m] to [m'] the goal [n] has been built: the heap only grew, variables met before keep their places, the
    other variables of [n] are new and may take any value. *)
Definition called (n : node) (m : mstate) (V : string -> option nat) (m' : mstate) (V' : string -> option nat) : Prop :=
  wfh sto 0 (hp m') /\ (exists ex, hp m' = hp m ++ ex) /\ vle_on V V' /\
  (forall s, V' s <> None <-> V s <> None \/ In s (vars_of n)) /\ fwd sto (hp m) V (hp m') V' /\ passes m' V' n.
(** What a goal called at [m] may leave behind when it has been solved: registers are arbitrary, variables may be
    bound, the environments are those of the caller. *)
Definition resumes (m m2 : mstate) : Prop :=
  m_envs m2 = m_envs m /\ hle (hp m) (hp m2) /\ wfh sto 0 (hp m2).
Fixpoint faithful (ns : list node) (cs : list catom) (m : mstate) (V : string -> option nat) : Prop :=
  match ns, cs with
  | [], _ => True
  | n :: ns', a :: cs' => last (ca_code a) IProceed = ICall (to_fview n) /\
      forall fuel, exists m' V', run fuel (removelast (ca_code a)) (enter a m) = Val (Cont, m') /\ called n m V m' V' /\
        forall m2, resumes m' m2 -> faithful ns' cs' m2 V'
  | _ :: _, [] => False
  end.

Lemma goal_called fuel perm nr n a pre is es st st' s1 m m1 V :
  pinj perm -> ca_code a = (pre ++ is) ++ [ICall (to_fview n)] -> ca_regs a = nr ->
  run fuel pre (enter a m) = Val (Cont, m1) -> hp m1 = hp m ->
  qents sto perm es (k_seen st) is s1 -> chk_ents perm nr es st = Some st' ->
  pinv sto perm nr (hp m1) st m1 V -> wfh sto 0 (hp m1) ->
  (forall i m, nth_error (targs n) i = Some m -> nassoc i (k_F st') = Some m) ->
  (forall s, In s (k_D st') <-> In s (k_D st) \/ In s (vars_of n)) ->
  exists m' V', run fuel (removelast (ca_code a)) (enter a m) = Val (Cont, m') /\ called n m V m' V' /\
    pinv sto perm nr (hp m') st' m' V' /\ k_seen st' = s1 /\ frame perm m1 m'.
Proof.
  intros Hi Ea Er Rp Eh Q C I W HT HD.
  destruct (ents_run cf sto ok fuel perm Hi nr es st st' m1 V is s1 Q C I W) as (m' & V' & ex & R & Hh & Es & LV & I' & W' & FW & FR & _).
  exists m', V'. csplit; auto.
  - rewrite Ea, removelast_last, run_app, Rp. exact R.
  - rewrite Eh in *. unfold called. csplit; auto; [eauto| |].
    + intros s. rewrite <- (pi_dom _ _ _ _ _ _ _ I'), HD, (pi_dom _ _ _ _ _ _ _ I). reflexivity.
    + intros i t Ei. destruct (pi_F _ _ _ _ _ _ _ I' i t (HT i t Ei)) as (c & b & Eb & Ab & Lb & Fb). exists c, b. csplit; auto.
      eapply fact_vals; eauto.
Qed.

(** [frame_of]: where the variables [D] are, between two goals *)
Record between (perm : string -> option nat) (D : list string) (seen : list sreg) (m : mstate) (V : string -> option nat) : Prop := {
  bt_x : no_x seen;
  bt_y : sy_seen perm D seen;
  bt_dom : forall s, In s D <-> V s <> None;
  bt_lt : forall s a, V s = Some a -> a < len (hp m);
  bt_env : env_ok sto (hp m) perm V D (m_envs m);
  bt_wf : wfh sto 0 (hp m)
}.
Lemma between_resumes perm nr st m V m2 s1 D : k_seen st = s1 -> pinv sto perm nr (hp m) st m V -> (forall s, In s D <-> In s (k_D st)) -> resumes m m2 ->
  between perm D (remove_x_a_regs s1) m2 V.
Proof.
  intros Es I HD (E & L & W). split; auto.
  - intros x. apply no_x_remove.
  - intros s y Ey. rewrite HD. rewrite <- Es. eapply (sy_remove perm (k_D st)); eauto. intros s0 y0. apply (pi_seen _ _ _ _ _ _ _ I).
  - intros s. rewrite HD. apply (pi_dom _ _ _ _ _ _ _ I).
  - intros s a Ea. pose proof (pi_lt _ _ _ _ _ _ _ I s a Ea). destruct L. lia.
  - rewrite E. eapply env_ok_hle; [exact L|]. intros s y Ey. destruct (pi_env _ _ _ _ _ _ _ I s y Ey) as (e & es & A & B & C).
    exists e, es. csplit; auto. intros H. apply C. now apply HD.
Qed.
Lemma goals_faithful perm u ns : pinj perm -> forall D seen cs tl m V, goals_code sto perm u ns D seen cs ->
  between perm D seen m V -> faithful ns (cs ++ tl) m V.
Proof.
  intros Hi. induction ns as [|n ns IH]; intros D seen cs tl m V GC B; [exact I|].
  inversion GC as [|? ? ? D' ? s1 a is r Ha Ht Ec Er Es Eu En Q HD G]; clear En; subst. cbn [app faithful]. split; [rewrite Ec; apply Ready.last_app_one|]. intros fuel.
  destruct (assign_one n) as [aa nr] eqn:Ea. cbn [fst snd] in *. destruct B as [Bx By Bd Bl Be Bw].
  destruct (goal_ready perm Hi n aa nr D seen Ha Ea Ht Bx By) as (st' & C & F & HD' & SS & Tv & Ln).
  destruct (goal_called fuel perm nr n a [] is (flatten_query aa) {| k_seen := seen; k_F := []; k_D := D |} st' s1 m (enter a m) V)
    as (m' & V' & R & K & I' & S' & FR); auto.
  - unfold enter. rewrite Er. split; cbn [m_heap m_regs m_envs set_regs k_D k_F k_seen nassoc]; auto; [discriminate|apply resize_length].
  - exists m', V'. csplit; auto. intros m2 Hm2. eapply IH; [exact G|]. eapply between_resumes; eauto. intros s. rewrite HD, HD'. reflexivity.
Qed.

Lemma alloc_run fuel np m : exists m1, run fuel (alloc_code np) m = Val (Cont, m1) /\ hp m1 = hp m /\ m_regs m1 = m_regs m /\
  m_envs m1 = if Nat.eqb np 0 then m_envs m else repeat cell0 np :: m_envs m.
Proof.
  unfold alloc_code. destruct (Nat.eqb np 0); [exists m; auto|]. cbn [run_local]. rewrite (step_alloc cf sto). cbn [bind]. eexists. split; [reflexivity|]. auto.
Qed.
Theorem query_faithful q r m : query_code cf sto q r -> Forall atom_ok q -> wfh sto 0 (hp m) -> faithful q r m (fun _ => None).
Proof.
  intros Hq Ha W. destruct (query_code_split cf OK sto ok q r Hq Ha) as [[-> ->]|(n & ns & a & as_ & -> & -> & a' & is & GC & Ec' & Ec & Er & _)]; [exact I|].
  set (perm := permof cf (n :: ns) false) in *. set (np := List.length (perm_order cf (n :: ns) false)) in *.
  assert (PI : pinj perm) by (intros s t y; apply permof_inj).
  assert (Pn : forall s y, perm s = Some y -> y < np) by (intros s y; apply permof_lt).
  inversion GC as [|? ? ? D' ? s1 ? is' r0 Ha1 Ht Ec2 Er' Es Eu En Q HD G]; clear En; subst. rewrite Ec' in Ec2. apply app_inj_tail in Ec2. destruct Ec2 as [<- _].
  cbn [faithful]. split; [rewrite Ec; apply last_app_one|]. intros fuel.
  destruct (assign_one n) as [aa nr] eqn:Ea. cbn [fst snd] in *.
  destruct (goal_ready perm PI n aa nr [] [] Ha1 Ea Ht) as (st' & C & F & HD' & SS & Tv & Ln).
  { intros x. reflexivity. }
  { intros s y _. cbn. split; [discriminate|intros []]. }
  destruct (alloc_run fuel np (enter a m)) as (m1 & R1 & H1 & G1 & E1).
  destruct (goal_called fuel perm nr n a (alloc_code np) is (flatten_query aa) {| k_seen := []; k_F := []; k_D := [] |} st' s1 m m1 (fun _ => None))
    as (m' & V' & R & K & I' & S' & FR); auto; [congruence| |rewrite H1; exact W|].
  - split; cbn [k_D k_F k_seen nassoc]; auto.
    + intros s. split; [intros []|]. intros K. now apply K.
    + discriminate.
    + discriminate.
    + intros s y _. cbn. split; [discriminate|intros []].
    + intros s y Ey. specialize (Pn s y Ey). rewrite E1. destruct (Nat.eqb_spec np 0) as [->|]; [lia|].
      exists (repeat cell0 np), (m_envs (enter a m)). rewrite repeat_length. csplit; auto. intros [].
    + rewrite G1. unfold enter. cbn [m_regs set_regs]. rewrite resize_length. congruence.
  - exists m', V'. csplit; auto. intros m2 Hm2. rewrite <- (app_nil_r as_). eapply goals_faithful; [exact PI|exact G|].
    eapply between_resumes; eauto. intros s. rewrite HD, HD'. reflexivity.
Qed.

(** --- clauses --- *)
(** The code of a clause, whether or not there is a clash. *)
Lemma clause_code_parts b c r : clause_code cf sto b c r -> clause_wf c ->
  exists h body hatom rest hc nr st, c = h :: body /\ r = hatom :: rest /\
    let perm := permof cf c true in
    let np := List.length (perm_order cf c true) in
    let ha := fst (assign_one h) in
    ca_code hatom = (alloc_code np ++ hc) ++ [IProceed] /\ ca_regs hatom = nr /\
    hents sto perm (flatten_program ha) [] hc (g_seen st) /\
    chk_hents perm nr (flatten_program ha) (ginit h) = Some st /\ g_T st = [] /\
    (forall s, In s (g_D st) <-> In s (vars_of h)) /\ sy_seen perm (g_D st) (g_seen st) /\
    List.length (targs h) <= nr /\
    match body with
    | [] => rest = [] /\ np = 0
    | b1 :: bs => exists ba fa isb s3 others, assign_two h b1 = (ha, ba, nr) /\ rest = fa :: others ++ dealloc_code np /\
        ca_code fa = isb ++ [ICall (to_fview b1)] /\ ca_regs fa = nr /\
        qents sto perm (flatten_query ba) (erase_head_regs ha (g_seen st)) isb s3 /\
        forall D, (forall s, In s D -> In s (vars_of h) \/ In s (vars_of b1)) ->
          goals_code sto perm false bs D (remove_x_a_regs s3) others
    end.
Proof.
  intros (s0 & sE & f & E & X) Hw. unfold compile_program_term in E. destruct c as [|h body]; [contradiction|].
  cbn [clause_wf] in Hw. inversion Hw as [|? ? Hh Hb]; subst.
  set (perm := permof cf (h :: body) true) in *. set (np := List.length (perm_order cf (h :: body) true)) in *.
  change (fun s => pos_of s (perm_order cf (h :: body) true)) with perm in E. cbv zeta in E.
  destruct (negb b && redefines h)%bool; [discriminate|]. fold np in E.
  destruct (assign_hb_head h body) as (A1 & A2 & A3).
  replace (match body with [] => let '(ha, c) := assign_one h in (ha, None, c)
           | b0 :: _ => let '(ha, ba, c) := assign_two h b0 in (ha, Some ba, c) end)
    with (assign_hb (h :: body)) in E by (destruct body; reflexivity).
  destruct (assign_hb (h :: body)) as [[ha oba] nr] eqn:Eab. cbn [fst snd] in A1, A2, A3.
  apply cbind_ok in E. destruct E as ([hc0 s1] & t1 & E1 & E).
  apply cbind_ok in E. destruct E as ([firsts s3] & t2 & E2 & E).
  apply cbind_ok in E. destruct E as (others & t3 & E3 & E). injection E as <- <- <-.
  assert (X3 : sto_ext t2 t3) by (pose proof (compile_query_atoms_ext perm false (tl body) [] (remove_x_a_regs s3) t2) as K;
    rewrite E3 in K; exact K).
  assert (X2 : sto_ext t1 t2).
  { destruct oba as [ba|].
    - pose proof (to_query_ext perm ba (erase_head_regs ha s1) t1) as K.
      apply cbind_ok in E2. destruct E2 as ([bc s4] & t4 & E4 & E5). rewrite E4 in K. injection E5 as _ _ <-. exact K.
    - injection E2 as _ _ <-. apply sto_ext_refl. }
  destruct (to_program_rel sto perm ok _ _ _ _ _ _ E1) as (hc & -> & QH).
  { eapply sto_ext_trans; [exact X2|]. eapply sto_ext_trans; eauto. }
  assert (PI : forall s t y, perm s = Some y -> perm t = Some y -> s = t) by (intros s t y; apply permof_inj).
  destruct (head_ready_any perm h nr PI Hh A2) as (st & C1 & C2 & C3 & C4 & C5).
  rewrite <- A1 in C1.
  assert (Es : g_seen st = s1) by (eapply (chk_hents_seen0 sto perm nr (flatten_program ha) (ginit h)); eauto).
  eexists h, body, _, _, hc, nr, st. csplit; [reflexivity|reflexivity|]. cbv zeta. fold perm np. rewrite <- A1.
  cbn [ca_code ca_regs ca_user]. csplit; auto.
  - now rewrite app_assoc.
  - rewrite Es. exact QH.
  - destruct body as [|b1 bs].
    + rewrite A3 in E2. injection E2 as <- <- <-. cbn in E3. injection E3 as <- <-.
      unfold np, perm_order. cbn [perm_vars].
      assert (Hn : c_ord cf [] = []) by (apply Permutation_nil; symmetry; apply OK). rewrite Hn. auto.
    + destruct A3 as (ba & A3 & A4). rewrite A3 in E2. apply cbind_ok in E2. destruct E2 as ([bc s4] & t4 & E4 & E5).
      injection E5 as <- <- <-. destruct (to_query_rel sto perm ok _ _ _ _ _ _ E4) as (isb & -> & QB);
        [eapply sto_ext_trans; eauto|]. rewrite A4.
      assert (Etwo : assign_two h b1 = (ha, ba, nr)).
      { cbn [assign_hb] in Eab. destruct (assign_two h b1) as [[x y] z]. injection Eab as <- <- <-. injection A3 as <-. reflexivity. }
      exists ba. eexists _, isb, s4, others. cbn [app ca_code ca_regs ca_user]. csplit; auto; [now rewrite Es|].
      intros D HD. eapply query_atoms_code; eauto; [inversion Hb; assumption|]. cbn [tl]. intros ns1 m ns2 t Em Hs Hp. subst bs.
      pose proof (temp_clause cf h b1 ns1 m ns2 t OK Hp Hs) as K. split.
      * intros K'. apply HD in K'. apply K. rewrite !occ_cons. tauto.
      * intros K'. apply K. rewrite !occ_cons. tauto.
Qed.

(** A head has matched: the variables are where [V] says; the values they may take are those for which the arguments are
    instances of those of the head. *)
Definition matched (h : node) (TA : list nat) (m m' : mstate) (V : string -> option nat) : Prop :=
  wfh sto 0 (hp m') /\ hle (hp m) (hp m') /\ (forall s, V s <> None <-> In s (vars_of h)) /\
  (forall s a, V s = Some a -> a < len (hp m')) /\
  (forall rho v, sat rho (hp m') -> cons_on rho V v -> Forall2 (fun a n => rho a = inst v n) TA (targs h)) /\
  forall rho v, sat rho (hp m) -> Forall2 (fun a n => rho a = inst v n) TA (targs h) ->
    exists rho', (forall a, a < len (hp m) -> rho' a = rho a) /\ sat rho' (hp m') /\ cons_on rho' V v.
Definition no_match (h : node) (TA : list nat) (m : mstate) : Prop :=
  forall rho v, sat rho (hp m) -> ~ Forall2 (fun a n => rho a = inst v n) TA (targs h).

Lemma head_match fuel b h body ha r m TA : clause_code cf sto b (h :: body) (ha :: r) -> clause_wf (h :: body) ->
  wfh sto 0 (hp m) -> argreg m TA -> List.length TA = List.length (targs h) ->
  last (ca_code ha) IDealloc = IProceed /\
  match run fuel (removelast (ca_code ha)) (enter ha m) with
  | Val (Cont, m') => exists V st, matched h TA m m' V /\ hinv sto (permof cf (h :: body) true) (ca_regs ha) 0 st m' V [] /\ g_T st = [] /\
      chk_hents (permof cf (h :: body) true) (ca_regs ha) (flatten_program (fst (assign_one h))) (ginit h) = Some st /\
      sy_seen (permof cf (h :: body) true) (g_D st) (g_seen st)
  | Val (Failing, _) => no_match h TA m
  | Fuel => True
  | _ => False
  end.
Proof.
  intros CC CW W AR LT.
  destruct (clause_code_parts b (h :: body) _ CC CW) as (h' & body' & ha' & rs & hc & nr & st & Ec & Er0 & Ecode & Er & HE & CH & GT & GD & SY & Ln & _).
  injection Ec as <- <-. injection Er0 as <- <-. cbv zeta in *. set (perm := permof cf (h :: body) true) in *.
  set (np := List.length (perm_order cf (h :: body) true)) in *.
  assert (PI : pinj perm) by (intros s t y; apply permof_inj).
  assert (Pn : forall s y, perm s = Some y -> y < np) by (intros s y; apply permof_lt).
  split; [rewrite Ecode; apply last_app_one|].
  rewrite Ecode, removelast_last, run_app. destruct (alloc_run fuel np (enter ha m)) as (m1 & R1 & H1 & G1 & E1). rewrite R1. cbn [bind].
  change (hp (enter ha m)) with (hp m) in H1. change (m_envs (enter ha m)) with (m_envs m) in E1.
  change (m_regs (enter ha m)) with (resize (m_regs m) (ca_regs ha)) in G1. rewrite Er in *.
  set (V0 := fun _ : string => @None nat).
  assert (HI : hinv sto perm nr 0 (ginit h) m1 V0 TA).
  { split; cbn [ginit g_D g_F g_T g_seen].
    - rewrite H1. exact W.
    - intros s. split; [intros []|]. intros K. now apply K.
    - discriminate.
    - discriminate.
    - rewrite H1, G1. apply (argq_from (fun x n a => exists c, nth_error (resize (m_regs m) nr) x = Some c /\ addr_of c = Some a /\ a < len (hp m))); [assumption|].
      intros i n a En Ea. cbn [Nat.add]. destruct (AR i a Ea) as (c & A1 & A2 & A3). exists c. csplit; auto. apply resize_nth; [assumption|].
      apply nth_error_lt in En. lia.
    - intros s y _. split; [discriminate|intros []].
    - intros s y Ey. specialize (Pn s y Ey). rewrite E1. destruct (Nat.eqb_spec np 0) as [->|]; [lia|].
      exists (repeat cell0 np), (m_envs m). rewrite repeat_length. csplit; auto. discriminate.
    - rewrite G1. apply resize_length. }
  pose proof (hents_run cf sto ok fuel perm PI nr _ (ginit h) st m1 V0 TA hc (g_seen st) HE CH HI) as HR.
  rewrite H1 in HR. cbn [ginit g_T] in HR.
  assert (EqH : forall rho v, Eqs sto (hp m) V0 (argq (targs h)) TA 0 [] rho v <->
    sat rho (hp m) /\ Forall2 (fun a n => rho a = inst v n) TA (targs h)).
  { intros rho v. unfold Eqs, argq. rewrite argq_inst. split.
    - intros (A & _ & B & _). auto.
    - intros [A B]. csplit; auto; [intros s a; discriminate|]. intros [|j] n; discriminate. }
  destruct (run fuel hc m1) as [[[| |e] m']|u|]; cbn [hres] in HR; auto; try contradiction.
  2:{ intros rho v A B. apply (HR rho v). apply EqH. auto. }
  destruct HR as (_ & V' & TA' & I' & FR & LD). rewrite GT in LD.
  assert (TA' = []) as -> by (pose proof (hi_T _ _ _ _ _ _ _ _ I') as K; rewrite GT in K; inversion K; reflexivity).
  rewrite H1 in LD.
  assert (EqC : forall rho v, Eqs sto (hp m') V' [] [] 0 [] rho v <-> sat rho (hp m') /\ cons_on rho V' v).
  { intros rho v. unfold Eqs. split; [intros (A & B & _); auto|]. intros [A B]. csplit; auto. intros [|j] n; discriminate. }
  destruct LD as [LB LF]. cbn [ginit g_T] in LB, LF.
  exists V', st. split; [|csplit; auto]. unfold matched. csplit.
  - exact (hi_wf _ _ _ _ _ _ _ _ I').
  - split; [destruct FR as (_ & L & _); rewrite H1 in L; exact L|]. intros rho Hs.
    refine (proj1 (proj1 (EqH rho (vof rho V')) _)). apply LB, EqC. split; [assumption|apply vof_cons].
  - intros s. rewrite <- (hi_dom _ _ _ _ _ _ _ _ I'). apply GD.
  - exact (hi_lt _ _ _ _ _ _ _ _ I').
  - intros rho v Hs Hc. apply (EqH rho v). apply LB, EqC. auto.
  - intros rho v Hs HF. destruct (LF rho v) as (rho' & Ag & Q); [now apply EqH|]. apply EqC in Q. destruct Q as [Q1 Q2]. exists rho'. auto.
Qed.

Lemma hinv_pinv perm nr st m V ha : hinv sto perm nr 0 st m V [] -> sy_seen perm (g_D st) (g_seen st) -> g_T st = [] ->
  pinv sto perm nr (hp m) {| k_seen := erase_head_regs ha (g_seen st); k_F := g_F st; k_D := g_D st |} m V.
Proof.
  intros I' SY GT. split; cbn [k_D k_F k_seen].
  - exact (hi_dom _ _ _ _ _ _ _ _ I').
  - exact (hi_lt _ _ _ _ _ _ _ _ I').
  - intros x n En. destruct (hi_F _ _ _ _ _ _ _ _ I' x n En) as (s & c & a & -> & Ec & Ea & Ev).
    exists c, a. csplit; auto; [eapply (hi_lt _ _ _ _ _ _ _ _ I'); eauto|]. left. eauto.
  - intros s y Ey. apply (sy_erase perm (g_D st) ha (g_seen st) SY s y Ey).
  - intros s y Ey. destruct (hi_env _ _ _ _ _ _ _ _ I' s y Ey) as (e & es & Ee & Ly & He). exists e, es. csplit; auto.
    intros Hs. apply (hi_dom _ _ _ _ _ _ _ _ I') in Hs. destruct (V s) as [a|] eqn:Ev; [|contradiction].
    destruct (He a eq_refl) as (c & Ec & Ea). exists c, a. csplit; auto; [eapply (hi_lt _ _ _ _ _ _ _ _ I'); eauto|]. left. eauto.
  - exact (hi_regs _ _ _ _ _ _ _ _ I').
Qed.
(** Rules without clash. *)
Lemma body_faithful b h body ha r m V st : clause_code cf sto b (h :: body) (ha :: r) -> clause_wf (h :: body) -> clause_ok cf (h :: body) = true ->
  hinv sto (permof cf (h :: body) true) (ca_regs ha) 0 st m V [] -> g_T st = [] ->
  chk_hents (permof cf (h :: body) true) (ca_regs ha) (flatten_program (fst (assign_one h))) (ginit h) = Some st ->
  sy_seen (permof cf (h :: body) true) (g_D st) (g_seen st) -> faithful body r (fresh m) V.
Proof.
  intros CC CW CK I GT CH SY.
  destruct (clause_code_split cf OK sto ok b (h :: body) _ CC CW CK)
    as (h' & body' & ha' & rs & hc & nr & st2 & Ec & Er0 & Ecode & Er & Eu & HE & CH' & _ & GD & _ & Ln & HB).
  injection Ec as <- <-. injection Er0 as <- <-. cbv zeta in *. set (perm := permof cf (h :: body) true) in *. rewrite Er in *.
  rewrite CH in CH'. injection CH' as <-.
  assert (PI : pinj perm) by (intros s t y; apply permof_inj).
  destruct body as [|b1 bs]; [exact Logic.I|].
  destruct HB as [(ba & fa & isb & s3 & st' & others & Ers & Ecf & Nis & Erf & Euf & QB & CB & KT & KD & GC)]. subst r.
  cbn [faithful]. split; [rewrite Ecf; apply last_app_one|]. intros fuel.
  pose proof (hinv_pinv perm nr st m V (fst (assign_one h)) I SY GT) as PV.
  assert (Rz : enter fa (fresh m) = fresh m).
  { unfold enter. rewrite Erf. cbn [fresh m_regs]. rewrite resize_id by exact (hi_regs _ _ _ _ _ _ _ _ I). reflexivity. }
  destruct (goal_called fuel perm nr b1 fa [] isb (flatten_query ba) {| k_seen := erase_head_regs (fst (assign_one h)) (g_seen st); k_F := g_F st; k_D := g_D st |}
    st' s3 (fresh m) (fresh m) V) as (m' & V' & R & K & I' & S' & FR); auto.
  - rewrite Rz. reflexivity.
  - destruct PV as [P1 P2 P3 P4 P5 P6]. split; assumption.
  - exact (hi_wf _ _ _ _ _ _ _ _ I).
  - exists m', V'. csplit; auto. intros m2 Hm2. eapply goals_faithful; [exact PI|exact (proj1 GC)|]. eapply between_resumes; eauto. reflexivity.
Qed.
(** Matching the head and calling the goals of a rule without clash. *)
Theorem rule_faithful fuel b h body ha r m TA : clause_code cf sto b (h :: body) (ha :: r) -> clause_wf (h :: body) -> clause_ok cf (h :: body) = true ->
  wfh sto 0 (hp m) -> argreg m TA -> List.length TA = List.length (targs h) ->
  match run fuel (removelast (ca_code ha)) (enter ha m) with
  | Val (Cont, m') => exists V, matched h TA m m' V /\ faithful body r (fresh m') V
  | Val (Failing, _) => no_match h TA m
  | Fuel => True
  | _ => False
  end.
Proof.
  intros CC CW CK W AR LT. pose proof (proj2 (head_match fuel b h body ha r m TA CC CW W AR LT)) as K.
  destruct (run fuel (removelast (ca_code ha)) (enter ha m)) as [[[| |e] m']|u|]; auto.
  destruct K as (V & st & K1 & K2 & K3 & K4 & K5). exists V. split; [assumption|]. exact (body_faithful b h body ha r m' V st CC CW CK K2 K3 K4 K5).
Qed.

(** --- later atoms of any rule --- *)
Definition is_put (i : instr) : bool :=
  match i with
  | IPutStruct _ _ | ISetVar _ _ | ISetPVar _ _ | ISetVal _ | ISetPVal _ | IPutVar _ _ _ | IPutPVar _ _ _ | IPutVal _ _ | IPutPVal _ _ => true
  | _ => false
  end.
Definition wr1 (i : instr) : list nat := match i with ISetPVar y _ | IPutPVar y _ _ => [y] | _ => [] end.
Definition wr (c : list instr) : list nat := flat_map wr1 c.
(** Environments after such code. *)
Definition env_after (h : list cell) (h' : list cell) (ys : list nat) (E E' : list (list cell)) : Prop :=
  match E with
  | [] => E' = []
  | e :: es => exists e', E' = e' :: es /\ List.length e' = List.length e /\ (forall y, ~ In y ys -> nth_error e' y = nth_error e y) /\
      forall y, In y ys -> exists a v, nth_error e' y = Some (CRef a v) /\ len h <= a /\ nth_error h' a = Some (CRef a v)
  end.
Lemma wreg_inv (m : mstate) x c m' : wreg (list cell) m x c = Val m' -> hp m' = hp m /\ m_envs m' = m_envs m.
Proof. unfold wreg. destruct (upd (m_regs m) x c); cbn; [|discriminate]. intros E. injection E as <-. auto. Qed.
Lemma wperm_inv (m : mstate) y c m' : wperm (list cell) m y c = Val m' -> hp m' = hp m /\ exists e es e', m_envs m = e :: es /\ upd e y c = Some e' /\ m_envs m' = e' :: es.
Proof.
  unfold wperm. destruct (m_envs m) as [|e es]; [discriminate|]. destruct (upd e y c) as [e'|] eqn:U; cbn; [|discriminate]. intros E. injection E as <-.
  split; [reflexivity|]. exists e, es, e'. auto.
Qed.
Lemma bind_inv {A B} (o : out A) (f : A -> out B) b : bind o f = Val b -> exists a, o = Val a /\ f a = Val b.
Proof. destruct o; cbn; try discriminate. eauto. Qed.
Lemma env_same h h' E : env_after h h' [] E E.
Proof. destruct E as [|e es]; cbn; [reflexivity|]. exists e. csplit; auto. intros y []. Qed.
Lemma env_write h ex y v e es e' : upd e y (CRef (len h) v) = Some e' -> env_after h (h ++ CRef (len h) v :: ex) [y] (e :: es) (e' :: es).
Proof.
  intros U. cbn. exists e'. csplit; auto; [eapply upd_length; eauto| |].
  - intros z Hz. rewrite (upd_nth _ _ _ _ z U). destruct (Nat.eqb_spec z y) as [->|]; [exfalso; apply Hz; now left|reflexivity].
  - intros z [<-|[]]. exists (len h), v. csplit; auto; [rewrite (upd_nth _ _ _ _ _ U), Nat.eqb_refl; reflexivity|].
    rewrite nth_error_app2, Nat.sub_diag by lia. reflexivity.
Qed.
Lemma put_step fuel i m s m' : is_put i = true -> fstep cf sto fuel i m = Val (s, m') -> s = Cont /\ exists ex, hp m' = hp m ++ ex /\
  env_after (hp m) (hp m') (wr1 i) (m_envs m) (m_envs m').
Proof.
  intros P E. destruct i; try discriminate P; cbn [fstep local_step] in E; unfold push_ref, push, hsize in E; cbn [h_push h_size fops m_heap set_heap] in E;
    cbn [wr1].
  - apply bind_inv in E. destruct E as (m1 & E & K). injection K as <- <-. apply wreg_inv in E. cbn in E. destruct E as [E1 E2]. split; [reflexivity|].
    rewrite E1, E2. eexists. split; [reflexivity|]. apply env_same.
  - apply bind_inv in E. destruct E as (m1 & E & K). injection K as <- <-. apply wreg_inv in E. cbn in E. destruct E as [E1 E2]. split; [reflexivity|].
    rewrite E1, E2. eexists. split; [reflexivity|]. apply env_same.
  - apply bind_inv in E. destruct E as (m1 & E & K). injection K as <- <-. apply wperm_inv in E. cbn in E. destruct E as (E1 & e & es & e' & E2 & U & E3). split; [reflexivity|].
    rewrite E1, E2, E3. eexists. split; [reflexivity|]. now apply env_write.
  - apply bind_inv in E. destruct E as (c & E & K). injection K as <- <-. split; [reflexivity|]. cbn. eexists. split; [reflexivity|]. apply env_same.
  - apply bind_inv in E. destruct E as (c & E & K). injection K as <- <-. split; [reflexivity|]. cbn. eexists. split; [reflexivity|]. apply env_same.
  - apply bind_inv in E. destruct E as (m1 & E & K). apply bind_inv in K. destruct K as (m2 & E' & K). injection K as <- <-. apply wreg_inv in E, E'. cbn in E. destruct E as [E1 E2], E' as [E3 E4].
    split; [reflexivity|]. rewrite E3, E4, E1, E2. eexists. split; [reflexivity|]. apply env_same.
  - apply bind_inv in E. destruct E as (m1 & E & K). apply bind_inv in K. destruct K as (m2 & E' & K). injection K as <- <-. apply wreg_inv in E'. apply wperm_inv in E. cbn in E.
    destruct E as (E1 & e & es & e' & E2 & U & E3), E' as [E4 E5]. split; [reflexivity|]. rewrite E4, E5, E1, E2, E3. eexists. split; [reflexivity|]. now apply env_write.
  - apply bind_inv in E. destruct E as (c & E & K). apply bind_inv in K. destruct K as (m2 & E' & K). injection K as <- <-. apply wreg_inv in E'. destruct E' as [E3 E4].
    split; [reflexivity|]. rewrite E3, E4. exists []. rewrite app_nil_r. split; [reflexivity|]. apply env_same.
  - apply bind_inv in E. destruct E as (c & E & K). apply bind_inv in K. destruct K as (m2 & E' & K). injection K as <- <-. apply wreg_inv in E'. destruct E' as [E3 E4].
    split; [reflexivity|]. rewrite E3, E4. exists []. rewrite app_nil_r. split; [reflexivity|]. apply env_same.
Qed.
Lemma env_after_trans h ex h1 ex1 ys zs E1 E2 E3 : h1 = h ++ ex -> env_after h h1 ys E1 E2 -> env_after h1 (h1 ++ ex1) zs E2 E3 -> env_after h (h1 ++ ex1) (ys ++ zs) E1 E3.
Proof.
  intros Eh A B. destruct E1 as [|e es]; cbn [env_after] in A.
  - subst E2. cbn [env_after] in B. subst E3. reflexivity.
  - destruct A as (e1 & -> & L1 & N1 & W1). cbn [env_after] in B. destruct B as (e2 & -> & L2 & N2 & W2). cbn [env_after].
    exists e2. csplit; auto; [congruence| |].
    + intros y Hy. rewrite in_app_iff in Hy. rewrite N2, N1; tauto.
    + intros y Hy. destruct (in_dec Nat.eq_dec y zs) as [Hz|Hz].
      * destruct (W2 y Hz) as (a & v & A1 & A2 & A3). exists a, v. csplit; auto. rewrite Eh, app_length in A2. lia.
      * apply in_app_iff in Hy. destruct Hy as [Hy|Hy]; [|contradiction]. destruct (W1 y Hy) as (a & v & A1 & A2 & A3). exists a, v. csplit; auto; [rewrite N2; assumption|].
        rewrite nth_error_app1; [assumption|eapply nth_error_lt; eassumption].
Qed.
Lemma puts_run fuel c : forall m s m', forallb is_put c = true -> run fuel c m = Val (s, m') -> s = Cont /\ exists ex, hp m' = hp m ++ ex /\
  env_after (hp m) (hp m') (wr c) (m_envs m) (m_envs m').
Proof.
  induction c as [|i c IH]; intros m s m' P E; cbn [run_local] in E.
  - injection E as <- <-. split; [reflexivity|]. exists []. rewrite app_nil_r. split; [reflexivity|]. apply env_same.
  - cbn in P. apply andb_prop in P as [P1 P2]. apply bind_inv in E. destruct E as ([s1 m1] & E1 & E2). destruct (put_step fuel i m s1 m1 P1 E1) as (-> & ex & H1 & V1).
    destruct (IH m1 s m' P2 E2) as (-> & ex2 & H2 & V2). split; [reflexivity|]. exists (ex ++ ex2). rewrite H2, H1, app_assoc. split; [reflexivity|].
    rewrite H2 in V2. change (wr (i :: c)) with (wr1 i ++ wr c). rewrite <- H1. eapply env_after_trans; eauto.
Qed.

(** the variables met by the code of an atom *)
Definition met (es : list ent) (s : string) : Prop :=
  exists e, In e es /\ ((en_node e = NVar s /\ en_arg e <> None) \/ (is_str (en_node e) = true /\ exists x, In (NVar s, x) (en_kids e))).
Section Met.
Variable perm : string -> option nat.
Definition tracked (S : string -> Prop) (seen : list sreg) (c : list instr) (seen' : list sreg) : Prop :=
  forallb is_put c = true /\
  (forall y, seen_in (SY y) seen' = true <-> seen_in (SY y) seen = true \/ In y (wr c)) /\
  (forall y, In y (wr c) -> seen_in (SY y) seen = false /\ exists s, perm s = Some y /\ S s) /\
  (forall s y, S s -> perm s = Some y -> seen_in (SY y) seen' = true).
Lemma seen_y_cons y r l : seen_in (SY y) (r :: l) = true <-> r = SY y \/ seen_in (SY y) l = true.
Proof.
  unfold seen_in. cbn. rewrite orb_true_iff. destruct r as [x|z]; cbn; [split; [intros [K|K]; [discriminate|auto]|intros [K|K]; [discriminate|auto]]|].
  rewrite Nat.eqb_eq. split; (intros [K|K]; [|right; exact K]); left; [now rewrite K|now injection K].
Qed.
Lemma tracked_none (S : string -> Prop) seen c seen' : forallb is_put c = true -> wr c = [] -> (forall y, seen_in (SY y) seen' = seen_in (SY y) seen) ->
  (forall s y, S s -> perm s = Some y -> seen_in (SY y) seen = true) -> tracked S seen c seen'.
Proof.
  intros P W E K. unfold tracked. rewrite W. csplit; auto.
  - intros y. rewrite E. cbn. tauto.
  - intros y [].
  - intros s y Hs Hp. rewrite E. eauto.
Qed.
Lemma tracked_app (S1 S2 S : string -> Prop) s0 c1 s1 c2 s2 : (forall s, S s <-> S1 s \/ S2 s) -> tracked S1 s0 c1 s1 -> tracked S2 s1 c2 s2 -> tracked S s0 (c1 ++ c2) s2.
Proof.
  intros ES (A1 & A2 & A3 & A4) (B1 & B2 & B3 & B4). unfold tracked. assert (W : wr (c1 ++ c2) = wr c1 ++ wr c2) by apply flat_map_app. rewrite W. csplit.
  - rewrite forallb_app, A1, B1. reflexivity.
  - intros y. rewrite B2, A2, in_app_iff. tauto.
  - intros y. rewrite in_app_iff. intros [H|H].
    + destruct (A3 y H) as (K & s & Hp & Hs). split; [assumption|]. exists s. rewrite ES. auto.
    + destruct (B3 y H) as (K & s & Hp & Hs). split; [|exists s; rewrite ES; auto]. destruct (seen_in (SY y) s0) eqn:E; [|reflexivity].
      assert (seen_in (SY y) s1 = true) by (apply A2; auto). congruence.
  - intros s y Hs Hp. apply ES in Hs. destruct Hs as [Hs|Hs]; [|eauto]. apply B2. left. eauto.
Qed.
Lemma tracked_y (S : string -> Prop) seen c y s : forallb is_put c = true -> wr c = [y] -> perm s = Some y -> seen_in (SY y) seen = false ->
  (forall t, S t <-> t = s) -> tracked S seen c (SY y :: seen).
Proof.
  intros P W Hp Hs ES. unfold tracked. rewrite W. csplit; auto.
  - intros z. rewrite seen_y_cons. cbn. split; [intros [K|K]; [injection K as ->|]; auto|intros [K|[K|[]]]; [auto|subst; auto]].
  - intros z [<-|[]]. split; [assumption|]. exists s. rewrite ES. auto.
  - intros t z Ht Hz. apply ES in Ht. subst t. rewrite Hp in Hz. injection Hz as <-. apply seen_y_cons. auto.
Qed.
Lemma kid_tracked k seen c seen' : qkid sto perm k seen c seen' -> tracked (fun s => fst k = NVar s) seen c seen'.
Proof.
  intros Q. destruct Q as [t x seen|t x seen i Hi|t x y seen Hp Hs|t x y seen v Hp Hs Hv|n x seen Hx Hs|n x seen v Hx Hs Hv]; cbn [fst].
  - apply tracked_none; auto. intros s y K; discriminate K.
  - apply tracked_none; auto. intros s y K; discriminate K.
  - apply tracked_none; auto. intros s z K Hz. injection K as <-. congruence.
  - apply (tracked_y _ seen _ y t); auto. intros s. split; [intros K; now injection K|now intros ->].
  - apply tracked_none; auto. intros s y -> Hp. cbn in Hx. congruence.
  - apply tracked_none; auto. intros s y -> Hp. cbn in Hx. congruence.
Qed.
Lemma kids_tracked ks : forall seen c seen', qkids sto perm ks seen c seen' -> tracked (fun s => exists x, In (NVar s, x) ks) seen c seen'.
Proof.
  induction ks as [|k ks IH]; intros seen c seen' Q; inversion Q; subst.
  - apply tracked_none; auto. intros s y [x []].
  - eapply tracked_app; [|apply kid_tracked; eassumption|apply IH; eassumption]. intros s. destruct k as [n x]. cbn [fst In]. split.
    + intros (z & [K|K]); [injection K as -> _; auto|eauto].
    + intros [->|(z & K)]; eauto.
Qed.
Lemma ent_tracked e seen c seen' : qent sto perm e seen c seen' ->
  tracked (fun s => (en_node e = NVar s /\ en_arg e <> None) \/ (is_str (en_node e) = true /\ exists x, In (NVar s, x) (en_kids e))) seen c seen'.
Proof.
  intros Q. destruct Q as [t x a ks y seen Hp Hs|t x a ks y seen v Hp Hs Hv|t x a ks seen Hp Hs|t x a ks seen v Hp Hs Hv|
                 t x ks seen|t x a ks seen|t x a ks seen i Hi|n x a ks seen c code s2 Hsc Hks]; cbn [en_node en_arg en_kids is_str].
  - apply tracked_none; auto. intros s z [[K _]|[K _]]; [|discriminate K]. injection K as <-. congruence.
  - apply (tracked_y _ seen _ y t); auto. intros s. split; [intros [[K _]|[K _]]; [now injection K|discriminate K]|]. intros ->. left. split; [reflexivity|discriminate].
  - apply tracked_none; auto. intros s z [[K _]|[K _]]; [|discriminate K]. injection K as <-. congruence.
  - apply tracked_none; auto. intros s z [[K _]|[K _]]; [|discriminate K]. injection K as <-. congruence.
  - apply tracked_none; auto. intros s z [[_ K]|[K _]]; [contradiction|discriminate K].
  - apply tracked_none; auto. intros s z [[K _]|[K _]]; discriminate K.
  - apply tracked_none; auto. intros s z [[K _]|[K _]]; discriminate K.
  - change (IPutStruct c x :: code) with ([IPutStruct c x] ++ code). eapply (tracked_app (fun _ => False)); [|apply (tracked_none (fun _ => False) seen [_] (SX x :: seen)); auto; intros ? ? []|exact (kids_tracked _ _ _ _ Hks)].
    intros s. destruct Hsc; cbn; split; [intros [[K _]|[_ K]]; [discriminate K|auto]|intros [[]|K]; auto|intros [[K _]|[_ K]]; [discriminate K|auto]|intros [[]|K]; auto].
Qed.
Lemma ents_tracked es : forall seen c seen', qents sto perm es seen c seen' -> tracked (met es) seen c seen'.
Proof.
  induction es as [|e es IH]; intros seen c seen' Q; inversion Q; subst.
  - apply tracked_none; auto. intros s y (e & [] & _).
  - eapply tracked_app; [|apply ent_tracked; eassumption|apply IH; eassumption]. intros s. unfold met. split.
    + intros (e' & [<-|K] & H); [auto|right; eauto].
    + intros [H|(e' & K & H)]; [exists e; split; [now left|assumption]|exists e'; split; [now right|assumption]].
Qed.
End Met.

Lemma met_term n m a c m' : is_constant n = false -> assign_term n m = (a, c, m') -> forall s, met (flatten_query a) s <-> In s (vars_of n).
Proof.
  intros Nc E s. destruct (assign_term_gen n m a c m' E) as (lx & Em & Ee & Et & _). set (nargs := List.length (kids n)) in *.
  assert (Sp : lx = firstn nargs lx ++ skipn nargs lx) by now rewrite firstn_skipn.
  assert (Ln : nargs <= List.length lx /\ map fst (firstn nargs lx) = kids n).
  { unfold bfs_below in Em. destruct (bfs_prefix (kids n)) as (w & Ew). rewrite Ew in Em. split.
    - apply (f_equal (@List.length _)) in Em. rewrite map_length, app_length in Em. unfold nargs. lia.
    - rewrite <- firstn_map, Em, firstn_app. unfold nargs. rewrite Nat.sub_diag, firstn_O, app_nil_r. apply firstn_all. }
  destruct Ln as [Ln Ek].
  assert (B : Blk (firstn nargs lx) (skipn nargs lx)).
  { apply (bfs_blk (fsize (kids n)) (kids n)); auto. rewrite <- Sp. exact Em. }
  destruct (mk_ents_at nargs lx (firstn nargs lx) (skipn nargs lx) B [] 0) as (A1 & A2 & A3); [exact Sp|reflexivity|rewrite firstn_length; lia|].
  rewrite <- Sp in A1, A2, A3. rewrite <- Ee in A1, A2, A3.
  assert (IF : forall e, In e (flatten_query a) <-> In e (aa_ents a) /\ keep_flat e = true).
  { intros e. unfold flatten_query. rewrite Et, Nc. unfold flatten_program. rewrite <- filter_In.
    rewrite <- (firstn_skipn (List.length (kids n)) (filter keep_flat (aa_ents a))) at 3. rewrite !in_app_iff, <- in_rev. tauto. }
  rewrite vars_of_in, <- Em. split.
  - intros (e & He & K). apply IF in He. destruct He as [He _]. apply In_nth_error in He. destruct He as [p Hp].
    destruct (A2 p e Hp) as (n' & x & N1 & N2 & _ & _ & N5 & N6). destruct K as [[K _]|(_ & z & K)].
    + apply in_map_iff. exists (n', x). split; [cbn; congruence|]. eapply nth_error_In; eauto.
    + destruct (N6 _ K) as (j & _ & _ & Hj). apply in_map_iff. exists (NVar s, z). split; [reflexivity|]. eapply nth_error_In; eauto.
  - intros H. apply in_map_iff in H. destruct H as ([n' x] & En & H). cbn in En. subst n'. apply In_nth_error in H. destruct H as [i Hi].
    destruct (Nat.lt_ge_cases i nargs) as [L|L].
    + assert (Hl : i < List.length (aa_ents a)) by (rewrite A1; eapply nth_error_lt; eauto).
      destruct (nth_error (aa_ents a) i) as [e|] eqn:Ei; [|apply nth_error_None in Ei; lia].
      destruct (A2 i e Ei) as (n' & x' & N1 & N2 & _ & N4 & _). cbn [Nat.add] in *. rewrite Hi in N1. injection N1 as <- <-.
      rewrite (proj2 (Nat.ltb_lt _ _) L) in N4. exists e. split; [|left; split; [assumption|congruence]].
      apply IF. split; [eapply nth_error_In; eauto|]. unfold keep_flat. rewrite N2, N4. reflexivity.
    + destruct (A3 i (NVar s, x)) as (p & e & Hp & Hk); [rewrite firstn_length; lia|assumption|].
      destruct (A2 p e Hp) as (n' & x' & N1 & N2 & _ & _ & N5 & _).
      assert (St : is_str (en_node e) = true).
      { rewrite N2. destruct n' as [t|t|t|t l|t l]; auto; cbn in N5; destruct (en_kids e); try discriminate N5; destruct Hk. }
      exists e. split; [|right; eauto]. apply IF. split; [eapply nth_error_In; eauto|]. unfold keep_flat.
      destruct (en_node e); try discriminate St; reflexivity.
Qed.
Lemma met_const n : is_constant n = true -> forall s, met (flatten_query (const_atom n)) s <-> In s (vars_of n).
Proof.
  intros Hc s. destruct n as [t|t|t|t l|t l]; try discriminate Hc. cbn. split; [|intros []]. intros (e & [<-|[]] & [[K _]|[K _]]); discriminate K.
Qed.
Lemma met_two h b ha ba nr : assign_two h b = (ha, ba, nr) -> forall s, met (flatten_query ba) s <-> In s (vars_of b).
Proof.
  unfold assign_two. destruct (is_constant b) eqn:Eb.
  - destruct (assign_one h) as [x y]. intros E. injection E as <- <- <-. now apply met_const.
  - destruct (is_constant h).
    + unfold assign_one. rewrite Eb. destruct (assign_term b []) as [[x y] z] eqn:E1. intros E. injection E as <- <- <-. eapply met_term; eauto.
    + destruct (assign_term h []) as [[h1 c1] m1]. destruct (assign_term b m1) as [[x y] z] eqn:E1. intros E. injection E as <- <- <-. eapply met_term; eauto.
Qed.

(** Any rule: once the first goal has been called, the others are called with the right arguments. [V0]: where the head put the variables. *)
Lemma later_faithful fuel b h b1 bs ha fa r m V0 st m' : clause_code cf sto b (h :: b1 :: bs) (ha :: fa :: r) -> clause_wf (h :: b1 :: bs) ->
  hinv sto (permof cf (h :: b1 :: bs) true) (ca_regs ha) 0 st m V0 [] ->
  chk_hents (permof cf (h :: b1 :: bs) true) (ca_regs ha) (flatten_program (fst (assign_one h))) (ginit h) = Some st ->
  sy_seen (permof cf (h :: b1 :: bs) true) (g_D st) (g_seen st) ->
  run fuel (removelast (ca_code fa)) (enter fa (fresh m)) = Val (Cont, m') ->
  exists V, (forall s, occ s bs -> (V s <> None <-> In s (vars_of h) \/ In s (vars_of b1))) /\
    (forall s a, V s = Some a -> V0 s = Some a \/ (V0 s = None /\ len (hp m) <= a /\ exists w, nth_error (hp m') a = Some (CRef a w))) /\
    forall m2, resumes m' m2 -> faithful bs r m2 V.
Proof.
  intros CC CW I CH SY R.
  destruct (clause_code_parts b (h :: b1 :: bs) _ CC CW) as (h' & body' & ha' & rs & hc & nr & st2 & Ec & Er0 & Ecode & Er & HE & CH' & GT & GD & _ & Ln & HB).
  injection Ec as <- <-. injection Er0 as <- <-. cbv zeta in *. set (perm := permof cf (h :: b1 :: bs) true) in *. rewrite Er in *.
  rewrite CH in CH'. injection CH' as <-.
  assert (PI : pinj perm) by (intros s t y; apply permof_inj).
  destruct HB as (ba & fa' & isb & s3 & others & E2 & Ers & Ecf & Erf & QB & GC). injection Ers as <- ->.
  rewrite Ecf, removelast_last in R.
  destruct (ents_tracked perm _ _ _ _ QB) as (TP & TS & TW & TM). destruct (puts_run fuel isb _ _ _ TP R) as (_ & ex & Hh & EV).
  change (hp (enter fa (fresh m))) with (hp m) in *. change (m_envs (enter fa (fresh m))) with (m_envs m) in *.
  pose proof (met_two _ _ _ _ _ E2) as MT.
  pose proof (sy_erase perm (g_D st) (fst (assign_one h)) (g_seen st) SY) as SE.
  set (seen0 := erase_head_regs (fst (assign_one h)) (g_seen st)) in *.
  set (D := filter (fun s => match perm s with Some _ => true | None => false end) (vars_of h ++ vars_of b1)).
  assert (HD : forall s, In s D <-> (In s (vars_of h) \/ In s (vars_of b1)) /\ perm s <> None).
  { intros s. unfold D. rewrite filter_In, in_app_iff. destruct (perm s); split; intros [A B]; split; auto; congruence. }
  (* the content of the permanent registers *)
  assert (Y : forall s y, perm s = Some y -> exists e es e', m_envs m = e :: es /\ m_envs m' = e' :: es /\ y < List.length e' /\
    (In s D -> exists c a, nth_error e' y = Some c /\ addr_of c = Some a /\ a < len (hp m') /\
      (V0 s = Some a \/ (V0 s = None /\ len (hp m) <= a /\ exists w, nth_error (hp m') a = Some (CRef a w))))).
  { intros s y Hp. destruct (hi_env _ _ _ _ _ _ _ _ I s y Hp) as (e & es & Ee & Ly & He). rewrite Ee in EV. cbn [env_after] in EV.
    destruct EV as (e' & E' & Le & EN & EW). exists e, es, e'. csplit; auto; [lia|]. intros Hs.
    destruct (in_dec Nat.eq_dec y (wr isb)) as [W|W].
    - destruct (TW y W) as (W1 & t & Ht & Mt). assert (t = s) as -> by (eapply PI; eauto).
      destruct (EW y W) as (a & v & A1 & A2 & A3). exists (CRef a v), a. csplit; auto; [eapply nth_error_lt; eassumption|]. right. csplit; eauto.
      destruct (V0 s) eqn:Ev; [|reflexivity]. assert (K : In s (g_D st)) by (apply (hi_dom _ _ _ _ _ _ _ _ I); congruence). apply (SE s y Hp) in K. congruence.
    - assert (K : In s (g_D st)).
      { apply HD in Hs. destruct Hs as [[Hs|Hs] _]; [now apply GD|]. apply MT in Hs. specialize (TM s y Hs Hp). apply TS in TM. destruct TM as [TM|TM]; [|contradiction].
        now apply (SE s y Hp). }
      apply (hi_dom _ _ _ _ _ _ _ _ I) in K. destruct (V0 s) as [a|] eqn:Ev; [|contradiction]. destruct (He a eq_refl) as (c & Ec & Ea).
      exists c, a. csplit; auto; [now rewrite EN|]. pose proof (hi_lt _ _ _ _ _ _ _ _ I s a Ev). rewrite Hh, app_length. lia. }
  set (V := fun s => match perm s with
                     | Some y => if in_dec string_dec s D then match m_envs m' with e :: _ => match nth_error e y with Some c => addr_of c | None => None end | [] => None end else None
                     | None => None end).
  assert (VD : forall s, In s D -> exists y e es c a, perm s = Some y /\ m_envs m' = e :: es /\ nth_error e y = Some c /\ addr_of c = Some a /\ V s = Some a /\ a < len (hp m') /\
      (V0 s = Some a \/ (V0 s = None /\ len (hp m) <= a /\ exists w, nth_error (hp m') a = Some (CRef a w)))).
  { intros s Hs. assert (Hp : perm s <> None) by (apply HD in Hs; apply Hs). destruct (perm s) as [y|] eqn:Ep; [|contradiction].
    destruct (Y s y Ep) as (e & es & e' & _ & E' & _ & K). destruct (K Hs) as (c & a & A1 & A2 & A3 & A4). exists y, e', es, c, a. csplit; auto.
    unfold V. rewrite Ep, E'. destruct (in_dec string_dec s D); [|contradiction]. now rewrite A1. }
  assert (VN : forall s, ~ In s D -> V s = None).
  { intros s Hs. unfold V. destruct (perm s); [|reflexivity]. destruct (in_dec string_dec s D); [contradiction|reflexivity]. }
  exists V. csplit.
  - intros s Ho. split.
    + intros Hv. destruct (in_dec string_dec s D) as [i|i]; [apply HD in i; apply i|]. apply VN in i. contradiction.
    + intros Hs. assert (Hp : perm s <> None).
      { intros Hp. destruct Ho as (n & Hin & Hn). apply in_split in Hin. destruct Hin as (ns1 & ns2 & ->). apply (temp_clause cf h b1 ns1 n ns2 s OK Hp Hn). rewrite !occ_cons. tauto. }
      destruct (VD s) as (y & e & es & c & a & _ & _ & _ & _ & -> & _); [apply HD; auto|discriminate].
  - intros s a Ev. destruct (in_dec string_dec s D) as [i|i]; [|rewrite (VN s i) in Ev; discriminate].
    destruct (VD s i) as (y & e & es & c & a' & _ & _ & _ & _ & A5 & _ & A7). rewrite A5 in Ev. injection Ev as <-. exact A7.
  - intros m2 (E & L & W). eapply (goals_faithful perm false bs PI D (remove_x_a_regs s3)); [apply GC; intros s Hs; apply HD in Hs; apply Hs|]. split; auto.
    + intros x. apply no_x_remove.
    + apply sy_remove. intros s y Hp. rewrite TS, HD. rewrite (SE s y Hp), GD. split.
      * intros [K|K]; [split; [auto|congruence]|]. destruct (TW y K) as (_ & t & Ht & Mt). assert (t = s) as -> by (eapply PI; eauto). apply MT in Mt. split; [auto|congruence].
      * intros [[K|K] _]; [auto|]. apply MT in K. specialize (TM s y K Hp). apply TS in TM. rewrite (SE s y Hp), GD in TM. exact TM.
    + intros s. split.
      * intros Hs. destruct (VD s Hs) as (y & e & es & c & a & _ & _ & _ & _ & -> & _). discriminate.
      * intros Hv. destruct (in_dec string_dec s D) as [i|i]; [assumption|]. apply VN in i. contradiction.
    + intros s a Ev. destruct (in_dec string_dec s D) as [i|i]; [|rewrite (VN s i) in Ev; discriminate].
      destruct (VD s i) as (y & e & es & c & a' & _ & _ & _ & _ & A5 & A6 & _). rewrite A5 in Ev. injection Ev as <-. destruct L. lia.
    + intros s y Hp. destruct (Y s y Hp) as (e & es & e' & _ & E' & Ly & K). exists e', es. rewrite E. csplit; auto. intros Hs.
      destruct (VD s Hs) as (y' & e2 & es2 & c & a & A1 & A2 & A3 & A4 & A5 & A6 & _). rewrite Hp in A1. injection A1 as <-. rewrite E' in A2. injection A2 as <- <-.
      exists c, a. csplit; auto; [destruct L; lia|]. left. eauto.
Qed.

(** Any clause: the head, and the goals after the first one. *)
Theorem clause_faithful fuel b h body ha r m TA : clause_code cf sto b (h :: body) (ha :: r) -> clause_wf (h :: body) ->
  wfh sto 0 (hp m) -> argreg m TA -> List.length TA = List.length (targs h) ->
  match run fuel (removelast (ca_code ha)) (enter ha m) with
  | Val (Cont, m') => exists V0, matched h TA m m' V0 /\
      forall b1 bs fa r' m1, body = b1 :: bs -> r = fa :: r' ->
        run fuel (removelast (ca_code fa)) (enter fa (fresh m')) = Val (Cont, m1) ->
        exists V, (forall s, occ s bs -> (V s <> None <-> In s (vars_of h) \/ In s (vars_of b1))) /\
          (forall s a, V s = Some a -> V0 s = Some a \/ (V0 s = None /\ len (hp m') <= a /\ exists w, nth_error (hp m1) a = Some (CRef a w))) /\
          forall m2, resumes m1 m2 -> faithful bs r' m2 V
  | Val (Failing, _) => no_match h TA m
  | Fuel => True
  | _ => False
  end.
Proof.
  intros CC CW W AR LT. pose proof (proj2 (head_match fuel b h body ha r m TA CC CW W AR LT)) as K.
  destruct (run fuel (removelast (ca_code ha)) (enter ha m)) as [[[| |e] m']|u|]; auto.
  destruct K as (V & st & K1 & K2 & K3 & K4 & K5). exists V. split; [assumption|]. intros b1 bs fa r' m1 -> -> R.
  exact (later_faithful fuel b h b1 bs ha fa r' m' V st m1 CC CW K2 K4 K5 R).
Qed.
End Faithful.
