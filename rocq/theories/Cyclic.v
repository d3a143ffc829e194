(** Unification without occurs check: a wrong answer, and a search that is blocked for ever. *)
From Verif Require Import Base Machine Heap Facts Compiler Parser Organizer Spec Print Valuation HeapSim Process Refine Mono Turn Shape Session Code Put Search PutRun Get Alloc Atoms Clause Stack Ready Heads Builtins Sols Solve Terms Shown Parsed Tables Root Order Cells Runs Answers Complete Total Examples Witness Finite.
Open Scope string_scope.
Open Scope list_scope.

Fixpoint gsize (t : gterm) : nat :=
  match t with GCon _ | GInt _ => 1 | GFun _ l | GEv _ l => S (fold_right (fun t n => gsize t + n) 0 l) end.
Definition cyc_text : string := "q :- p(Y,f(Y)). p(X,X).".
Definition cyc_prog : list (list node) :=
  [[NCon "q"; NFun "p" [NVar "Y"; NFun "f" [NVar "Y"]]]; [NFun "p" [NVar "X"; NVar "X"]]].
Lemma cyc_not_prov pw v : ~ prov pw (cyc_prog ++ append_prog) (inst v (NCon "q")).
Proof.
  assert (K : forall t, prov pw (cyc_prog ++ append_prog) t -> t <> GCon "q" /\ forall x y, t = GFun "p" [x; y] -> x = y).
  { intros t H. induction H as [h b w Hin Hb IH| | |]; try (split; discriminate).
    cbn in Hin. repeat destruct Hin as [Hin|Hin]; try contradiction; inversion Hin; subst; cbn; split; try discriminate.
    - exfalso. destruct (IH _ (or_introl eq_refl)) as [_ K]. cbn in K. specialize (K _ _ eq_refl).
      apply (f_equal gsize) in K. cbn in K. lia.
    - intros x y E. injection E as <- <-. reflexivity. }
  intros H. now apply K in H.
Qed.
Definition answers_b (n : nat) (o : org) : bool :=
  match calls (repeat w0 n) o with Some (rs, _) => match delivered rs with RAnswer [] :: _ => true | _ => false end | None => false end.
Lemma occurs_unsound : exists o P q rs o' b,
  parse_program cyc_text = Some (COk P) /\ parse_query (append_dot "q") = Some (COk q) /\
  session cfg0 o P (QFresh q) /\ no_clash cfg0 P /\ small_tables (o_sto o) /\
  run cfg0 o rs o' /\ In (RAnswer b) (delivered rs) /\
  ~ exists v, forall a, In a q -> prov (pow_of cfg0) (P ++ append_prog) (inst v a).
Proof.
  destruct (loaded_witness cyc_text "q" (fun o P q => small_b (o_sto o) && noclash_b cfg0 P && answers_b 1 o)) as (o & P & q & HS & E1 & E2 & K); [vm_compute; reflexivity|].
  apply andb_true_iff in K. destruct K as [K K3]. apply andb_true_iff in K. destruct K as [K1 K2]. unfold answers_b in K3.
  destruct (calls (repeat w0 1) o) as [[rs o']|] eqn:Ec; [|discriminate].
  exists o, P, q, rs, o', []. csplit; auto using small_b_ok, noclash_b_ok.
  - eapply calls_run; eauto.
  - clear E1 E2 HS Ec. destruct (delivered rs) as [|[| | | |] r]; try discriminate K3. destruct b; [now left|discriminate K3].
  - assert (E1' : parse_program cyc_text = Some (COk cyc_prog)) by (vm_compute; reflexivity). rewrite E1 in E1'. injection E1' as ->.
    assert (E2' : parse_query (append_dot "q") = Some (COk [NCon "q"])) by (vm_compute; reflexivity). rewrite E2 in E2'. injection E2' as ->.
    intros (v & H). apply (cyc_not_prov (pow_of cfg0) v), H. now left.
Qed.

(** --- loops of unification --- *)
Definition ustep (s : list cell * list nat) : option (list cell * list nat) :=
  let '(h, pdl) := s in
  match pdl with
  | a :: b :: rest =>
      match deref (list cell) fops h a, deref (list cell) fops h b with
      | Val d1, Val d2 =>
          if Nat.eqb d1 d2 then Some (h, rest)
          else match at_ (list cell) fops h d1, at_ (list cell) fops h d2 with
               | Val (CFun i n), Val (CFun j _) => if Z.eqb i j then Some (h, push_args (Z.to_nat n) 1 d1 d2 rest) else None
               | _, _ => None
               end
      | _, _ => None
      end
  | _ => None
  end.
Lemma ustep_ok f s s' : ustep s = Some s' -> unify_loop (list cell) fops (S f) (fst s) (snd s) = unify_loop (list cell) fops f (fst s') (snd s') /\
  unify_loop (list cell) fops 0 (fst s) (snd s) = Fuel.
Proof.
  destruct s as [h pdl]. unfold ustep. destruct pdl as [|a [|b rest]]; try discriminate. cbn [fst snd unify_loop].
  destruct (deref (list cell) fops h a) as [d1| |]; try discriminate. destruct (deref (list cell) fops h b) as [d2| |]; try discriminate. cbn [bind].
  destruct (Nat.eqb d1 d2); [intros E; injection E as <-; auto|].
  destruct (at_ (list cell) fops h d1) as [c1| |]; try discriminate. destruct c1; try discriminate; destruct (at_ (list cell) fops h d2) as [c2| |]; try discriminate; cbn [bind].
  destruct c2; try discriminate. destruct (Z.eqb i i0); [|discriminate]. intros E. injection E as <-. auto.
Qed.
Fixpoint usteps (n : nat) (s : list cell * list nat) : option (list cell * list nat) :=
  match n with 0 => Some s | S n => match ustep s with Some s' => usteps n s' | None => None end end.
Lemma usteps_more n : forall s s' f, usteps n s = Some s' -> unify_loop (list cell) fops (n + f) (fst s) (snd s) = unify_loop (list cell) fops f (fst s') (snd s').
Proof.
  induction n as [|n IH]; intros s s' f E; cbn [usteps] in E; [now injection E as ->|].
  destruct (ustep s) as [s1|] eqn:E1; [|discriminate]. cbn [Nat.add]. rewrite (proj1 (ustep_ok _ _ _ E1)). now apply IH.
Qed.
Lemma usteps_few n : forall s s' f, usteps n s = Some s' -> f < n -> unify_loop (list cell) fops f (fst s) (snd s) = Fuel.
Proof.
  induction n as [|n IH]; intros s s' f E L; cbn [usteps] in E; [lia|].
  destruct (ustep s) as [s1|] eqn:E1; [|discriminate]. destruct f as [|f]; [apply (ustep_ok 0 _ _ E1)|].
  rewrite (proj1 (ustep_ok _ _ _ E1)). apply (IH s1 s'); [assumption|lia].
Qed.
Lemma cycle_fuel n s f : usteps (S n) s = Some s -> unify_loop (list cell) fops f (fst s) (snd s) = Fuel.
Proof.
  intros E. induction f as [f IH] using lt_wf_ind. destruct (Nat.lt_ge_cases f (S n)) as [L|L]; [eapply usteps_few; eauto|].
  replace f with (S n + (f - S n)) by lia. rewrite (usteps_more _ _ _ _ E). apply IH. lia.
Qed.
Lemma lasso_fuel k n s s' f : usteps k s = Some s' -> usteps (S n) s' = Some s' -> unify_loop (list cell) fops f (fst s) (snd s) = Fuel.
Proof.
  intros E1 E2. destruct (Nat.lt_ge_cases f k) as [L|L]; [eapply usteps_few; eauto|].
  replace f with (k + (f - k)) by lia. rewrite (usteps_more _ _ _ _ E1). eapply cycle_fuel; eauto.
Qed.
(** --- a turn that never ends: [k] instructions, then a get_value that loops --- *)
Definition blocked (cf : cfg) (sto : storage) (F k n : nat) (p : process) : bool :=
  match p_codes p with
  | [] => false
  | a :: _ =>
      let is := removelast (ca_code a) in
      match run_local cf sto F (firstn k is) (set_regs (p_m p) (resize (m_regs (p_m p)) (ca_regs a))), skipn k is with
      | Val (Cont, m), IGetVal x y :: _ =>
          match rreg (list cell) m x, rreg (list cell) m y with
          | Val c, Val d =>
              match get_heap_i c, get_heap_i d with
              | Val u, Val w =>
                  match usteps n (m_heap m, [u; w]) with
                  | Some s' => match usteps 1 s' , usteps 2 s' with
                               | Some s1, Some s2 => (if list_eq_dec Nat.eq_dec (snd s') (snd s1) then true else false) ||
                                                     (if list_eq_dec Nat.eq_dec (snd s') (snd s2) then true else false)
                               | _, _ => false end
                  | None => false
                  end
              | _, _ => false
              end
          | _, _ => false
          end
      | _, _ => false
      end
  end.
Lemma usteps_heap n : forall s s', usteps n s = Some s' -> fst s' = fst s.
Proof.
  induction n as [|n IH]; intros s s' E; cbn [usteps] in E; [now injection E as ->|]. destruct (ustep s) as [s1|] eqn:E1; [|discriminate].
  rewrite (IH _ _ E). destruct s as [h pdl]. unfold ustep in E1. destruct pdl as [|a [|b rest]]; try discriminate.
  destruct (deref (list cell) fops h a) as [d1| |]; try discriminate. destruct (deref (list cell) fops h b) as [d2| |]; try discriminate.
  destruct (Nat.eqb d1 d2); [injection E1 as <-; reflexivity|].
  destruct (at_ (list cell) fops h d1) as [c1| |]; try discriminate. destruct c1; try discriminate; destruct (at_ (list cell) fops h d2) as [c2| |]; try discriminate.
  destruct c2; try discriminate. destruct (Z.eqb i i0); [|discriminate]. now injection E1 as <-.
Qed.
Lemma run_local_app cf sto fuel is1 is2 : forall m, run_local cf sto fuel (is1 ++ is2) m =
  ('(s, m1) <- run_local cf sto fuel is1 m ;; match s with Cont => run_local cf sto fuel is2 m1 | _ => Val (s, m1) end).
Proof.
  induction is1 as [|i is1 IH]; intros m; cbn [app run_local bind]; [reflexivity|].
  destruct (fstep cf sto fuel i m) as [[s m1]| |]; cbn [bind]; auto. destruct s; auto.
Qed.
Lemma blocked_turn cf sto pg F k n p : blocked cf sto F k n p = true -> forall r, ~ turns cf sto pg p r.
Proof.
  intros B r (fuel & E). unfold blocked in B. unfold p_turn in E. destruct (p_codes p) as [|a rest]; [discriminate|].
  set (m0 := set_regs _ _) in *. set (is := removelast (ca_code a)) in *.
  destruct (run_local cf sto F (firstn k is) m0) as [[s m]| |] eqn:Er; try discriminate. destruct s; try discriminate.
  destruct (skipn k is) as [|i post] eqn:Es; try discriminate. destruct i; try discriminate.
  match type of B with (match rreg _ _ ?x with _ => _ end = _) => destruct (rreg (list cell) m x) as [c| |] eqn:Ec; try discriminate end.
  match type of B with (match rreg _ _ ?x with _ => _ end = _) => destruct (rreg (list cell) m x) as [d| |] eqn:Ed; try discriminate end.
  destruct (get_heap_i c) as [u| |] eqn:Eu; try discriminate. destruct (get_heap_i d) as [w| |] eqn:Ew; try discriminate.
  destruct (usteps n (m_heap m, [u; w])) as [s'|] eqn:E1; try discriminate.
  assert (C : exists j, usteps (S j) s' = Some s').
  { destruct (usteps 1 s') as [s1|] eqn:U1; try discriminate. destruct (usteps 2 s') as [s2|] eqn:U2; try discriminate.
    apply orb_true_iff in B. destruct B as [B|B].
    - exists 0. rewrite U1. destruct (list_eq_dec Nat.eq_dec (snd s') (snd s1)) as [Q|]; [|discriminate].
      pose proof (usteps_heap _ _ _ U1) as Hh. destruct s', s1. cbn in *. now subst.
    - exists 1. rewrite U2. destruct (list_eq_dec Nat.eq_dec (snd s') (snd s2)) as [Q|]; [|discriminate].
      pose proof (usteps_heap _ _ _ U2) as Hh. destruct s', s2. cbn in *. now subst. }
  destruct C as (j & C).
  assert (K : forall f, run_local cf sto f is m0 = Fuel).
  { intros f. rewrite <- (firstn_skipn k is), Es, run_local_app.
    assert (G : run_local cf sto f (firstn k is) m0 = Fuel \/ run_local cf sto f (firstn k is) m0 = Val (Cont, m)).
    { destruct (Nat.le_ge_cases F f) as [L|L].
      - right. exact (le_val _ _ _ (run_local_mono cf sto F f _ L _) Er).
      - pose proof (run_local_mono cf sto f F (firstn k is) L m0) as M. rewrite Er in M.
        destruct M as [M|M]; [now left|right; congruence]. }
    destruct G as [-> | ->]; [reflexivity|]. cbn [bind run_local]. unfold fstep at 1. cbn [local_step]. rewrite Ec, Ed. cbn [bind]. unfold get_value. rewrite Eu, Ew. cbn [bind].
    unfold unify_m, unify. pose proof (lasso_fuel _ _ _ _ f E1 C) as U. cbn [fst snd] in U. rewrite U. reflexivity. }
  rewrite K in E. discriminate.
Qed.

Definition block_text : string := "s :- p(A,f(A)), p(B,f(B)), p(A,B). s :- t1. t1 :- t2. t2 :- t3. t3 :- t4. t4 :- t5. t5. p(X,X).".
Definition block_prog : list (list node) :=
  [[NCon "s"; NFun "p" [NVar "A"; NFun "f" [NVar "A"]]; NFun "p" [NVar "B"; NFun "f" [NVar "B"]]; NFun "p" [NVar "A"; NVar "B"]];
   [NCon "s"; NCon "t1"]; [NCon "t1"; NCon "t2"]; [NCon "t2"; NCon "t3"]; [NCon "t3"; NCon "t4"]; [NCon "t4"; NCon "t5"]; [NCon "t5"];
   [NFun "p" [NVar "X"; NVar "X"]]].
Definition block_search (o : org) := search_n cfg0 (o_sto o) (o_prog o) 100 100 [] [([], root_proc o)].
Definition block_b (o : org) : bool :=
  match block_search o with
  | (T, (_, p) :: _) => blocked cfg0 (o_sto o) 100 1 2 p && match outs T with [] => true | _ => false end
  | _ => false
  end.
Lemma block_prov v : prov (pow_of cfg0) (block_prog ++ append_prog) (inst v (NCon "s")).
Proof.
  assert (K : forall a b, In [NCon a; NCon b] block_prog -> prov (pow_of cfg0) (block_prog ++ append_prog) (GCon b) -> prov (pow_of cfg0) (block_prog ++ append_prog) (GCon a)).
  { intros a b Hin Hb. apply (prov_clause _ _ (NCon a) [NCon b] v); [apply in_app_iff; now left|]. intros c [<-|[]]. exact Hb. }
  cbn [inst]. apply (K "s" "t1"); [cbn; tauto|]. apply (K "t1" "t2"); [cbn; tauto|]. apply (K "t2" "t3"); [cbn; tauto|].
  apply (K "t3" "t4"); [cbn; tauto|]. apply (K "t4" "t5"); [cbn; tauto|].
  apply (prov_clause _ _ (NCon "t5") [] v); [cbn; tauto|]. intros c [].
Qed.
Lemma occurs_blocks : exists o P q v,
  parse_program block_text = Some (COk P) /\ parse_query (append_dot "s") = Some (COk q) /\
  session cfg0 o P (QFresh q) /\ no_clash cfg0 P /\ small_tables (o_sto o) /\ all_goals no_compare P q /\ all_goals no_is P q /\
  (forall a, In a q -> prov (pow_of cfg0) (P ++ append_prog) (inst v a)) /\
  forall rs o', run cfg0 o rs o' -> delivered rs = [].
Proof.
  destruct (loaded_witness block_text "s" (fun o P q => small_b (o_sto o) && noclash_b cfg0 P && goals_b nocompare_b P q && goals_b nois_b P q && block_b o))
    as (o & P & q & HS & E1 & E2 & K); [vm_compute; reflexivity|].
  rewrite !andb_true_iff in K. destruct K as ((((K1 & K2) & K3) & K4) & K5).
  exists o, P, q, (fun _ => GCon "a"). csplit; auto using small_b_ok, noclash_b_ok.
  - exact (goals_b_ok nocompare_b no_compare _ _ nocompare_b_ok K3).
  - exact (goals_b_ok nois_b no_is _ _ nois_b_ok K4).
  - assert (E1' : parse_program block_text = Some (COk block_prog)) by (vm_compute; reflexivity). rewrite E1 in E1'. injection E1' as ->.
    assert (E2' : parse_query (append_dot "s") = Some (COk [NCon "s"])) by (vm_compute; reflexivity). rewrite E2 in E2'. injection E2' as ->.
    intros a [<-|[]]. apply block_prov.
  - intros rs o' HR. destruct (sess_search cfg0 o P q HS rs o' HR) as (root & T & Q & k & Hr & S & D & HQ & _).
    apply root_proc_ok in Hr. subst root. unfold block_b, block_search in K5.
    pose proof (search_n_ok cfg0 (o_sto o) (o_prog o) (root_proc o) 100 100 [] [([], root_proc o)] (se_init _ _ _ _)) as S0.
    destruct (search_n cfg0 (o_sto o) (o_prog o) 100 100 [] [([], root_proc o)]) as [T0 [|[pi p] Q0]]; [discriminate|]. cbn [fst snd] in S0.
    apply andb_true_iff in K5. destruct K5 as [B O]. destruct (outs T0) as [|x l] eqn:Eo; [|discriminate].
    destruct (stuck _ _ _ _ _ _ _ _ S0 (blocked_turn cfg0 (o_sto o) (o_prog o) _ _ _ p B) T Q S) as ((t & ->) & Ne).
    rewrite outs_app in Eo. apply app_eq_nil in Eo. rewrite D, (proj1 Eo). destruct k; [reflexivity|]. exfalso. apply Ne, HQ. discriminate.
Qed.
