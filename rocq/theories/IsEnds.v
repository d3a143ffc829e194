(** In programs whose heads repeat no variable every turn ends, if every right side of an is that is reached can be evaluated. *)
From Verif Require Import Base Machine Heap Facts HeapSim Compiler Parser Print Organizer Spec Valuation Process Refine Mono Turn Shape Session
  Code Put Search PutRun Get Alloc Atoms Clause Stack Ready Heads Builtins Sols Solve Terms Shown Parsed Tables Root Order Runs Answers
  Clash Examples Witness Finite Cells Total Safe Labels Bound Names Returns Arith Linear LinearCase Meaning Reached Complete.
Open Scope string_scope.
Open Scope list_scope.

Notation hp m := (m_heap (H := list cell) m).

(** the term on the right side has a value, a division by zero or an unbound variable *)
Definition evaluable (cf : cfg) (sto : storage) (p : process) : Prop :=
  forall a1 a2, argreg (p_m p) [a1; a2] -> exists t x, rd sto (hp (p_m p)) a2 t /\ calc (pow_of cf) t = Some x /\ x <> inr PrNotArith.
Definition runs_is (p : process) : Prop := exists a rest x y, p_codes p = a :: rest /\ In (IIs x y) (ca_code a).

Section Ends.
Variable cf : cfg.
Hypothesis OK : ord_ok cf.
Variable sto : storage.
Hypothesis ok : sto_ok sto.
Hypothesis SV : (Z.of_nat (List.length (s_vars sto)) <= 32768)%Z.
Variable pg : prog.
Variable P : list (list node).
Variable qv : list string.
Notation pok := (pok cf sto P False False qv).

Lemma run_ends p fs tr a rest fuel s m' : pfit sto p -> p_codes p = a :: rest -> last (ca_code a) IProceed = IProceed -> p_trail p = Val tr ->
  run_of cf sto fuel p = Val (s, m') -> (s = Cont -> wfh sto 0 (hp m') /\ TK sto qv (hp m') fs tr /\ finite_terms sto (hp m')) ->
  exists r, turns cf sto pg p r.
Proof.
  intros PF Ep El Et E Hc.
  assert (Fit : mfit sto m') by (unfold run_of in E; rewrite Ep in E; eapply ends_fit; eauto).
  assert (Tn : forall fuel, p_turn cf sto fuel pg p = '(s, m) <- run_of cf sto fuel p ;; match s with Failing => Val PFails | Raise e => Val (PErr e)
     | Cont => if forallb is_dealloc rest then b <- answer_of sto fuel (hp m) (Val tr) ;; Val (PDone b)
               else Val (PKids [{| p_m := fresh m; p_codes := rest; p_trail := p_trail p |}]) end).
  { intros n. unfold p_turn, run_of. rewrite Ep, El, Et. reflexivity. }
  destruct s as [| |e].
  - destruct (Hc eq_refl) as (W & Tk & Fi). destruct (forallb is_dealloc rest) eqn:Ed.
    + destruct (answer_val sto SV qv m' fs tr Fit W Fi Tk) as (f2 & b & Eb).
      exists (PDone b), (Nat.max fuel f2). rewrite Tn.
      rewrite (le_val _ _ _ (run_of_mono cf sto fuel (Nat.max fuel f2) p ltac:(lia)) E). cbn [bind].
      rewrite (le_val _ _ _ (answer_of_mono sto f2 (Nat.max fuel f2) (hp m') (Val tr) ltac:(lia)) Eb). reflexivity.
    + eexists _, fuel. rewrite Tn, E. reflexivity.
  - exists PFails, fuel. rewrite Tn, E. reflexivity.
  - exists (PErr e), fuel. rewrite Tn, E. reflexivity.
Qed.
Lemma ready_turn p fs : ready cf sto (labelled cf (PA P)) (good False False) p fs -> exists r, turns cf sto pg p r.
Proof.
  intros Hr. destruct (ready_call cf sto ok (labelled cf (PA P)) (good False False) (pow_of cf) (PA P) 0 p fs Hr) as
    (perm & V & n & gs & fs0 & a & rest & m' & V' & TA & -> & Ha & Hg & Ep & El & Er & _).
  assert (E : exists r, p_turn cf sto 0 pg p = Val r); [|destruct E as (r & E); exists r, 0; exact E].
  unfold p_turn. rewrite Ep, Er. cbn [bind]. rewrite El. destruct (plookup _ pg); eauto.
Qed.
(** a built-in predicate runs to its end *)
Lemma builtin_ends p nm a1 a2 : at_builtin cf sto p nm a1 a2 -> pfit sto p -> finite_terms sto (hp (p_m p)) -> (nm = "is" -> evaluable cf sto p) ->
  exists fuel x, run_of cf sto fuel p = Val x.
Proof.
  intros A PF Fi Ev. pose proof A as (i & a & rest & Hi & SC & Ep & W & AR).
  destruct (special_shape2 cf OK sto (FV nm 2) i [[a]] Hi SC) as (a' & Ea & Ecode & _). injection Ea as <-.
  destruct (AR 0 a1 eq_refl) as (c1 & _ & _ & L1). destruct (AR 1 a2 eq_refl) as (c2 & _ & _ & L2).
  destruct (Fi a1 L1) as (u & R1). destruct (Fi a2 L2) as (t & R2).
  (* the same branch with something left to do *)
  set (p' := {| p_m := p_m p; p_codes := [a; a]; p_trail := p_trail p |}).
  assert (A' : at_builtin cf sto p' nm a1 a2) by (exists i, a, [a]; csplit; auto).
  assert (G : forall fuel r, p_turn cf sto fuel pg p' = Val r -> exists x, run_of cf sto fuel p = Val x).
  { intros fuel r E. unfold p_turn in E. cbn [p_codes p' p_m] in E. unfold run_of. rewrite Ep.
    destruct (run_local cf sto fuel (removelast (ca_code a)) _) as [x| |]; [eauto|discriminate E|discriminate E]. }
  assert (S : forall fuel h, succeeds sto fuel p' h (p_turn cf sto fuel pg p') -> exists x, run_of cf sto fuel p = Val x).
  { intros fuel h K. unfold succeeds in K. cbn [p' p_codes tl forallb] in K. unfold is_dealloc in K at 1. rewrite Ecode in K. cbn in K.
    destruct K as (k & K & _). eapply G; exact K. }
  destruct (special_eq _ _ Hi) as [[E _]|[[E _]|[E _]]]; injection E as ->.
  - clear t R2. destruct (Ev eq_refl a1 a2 AR) as (t & x & R2 & Ex & Nx).
    destruct (is_turn cf OK sto p' a1 a2 t x u A' R2 Ex R1) as (n0 & K). exists n0. specialize (K n0 pg (le_n _)). destruct x as [n|[|b|]].
    + destruct u as [d s|s|k|s l|s l]; try (eapply G; exact K).
      * destruct K as (h' & K & _). eapply S; exact K.
      * destruct (Z.eqb k n); [eapply S; exact K|eapply G; exact K].
    + eapply G; exact K.
    + destruct (eval_spec cf sto _ W _ _ R2 _ Ex) as (_ & _ & _ & v & Eb & _).
      destruct PF as [(F & _) _]. rewrite Forall_forall in F. destruct (F _ (nth_error_In _ _ Eb)) as (nm & V).
      eapply G. exact (K v nm Eb (vidx_name sto SV nm v V)).
    + now elim Nx.
  - destruct (eq_turn cf OK sto (so_nodup _ ok) p' a1 a2 u t A' R1 R2) as (n0 & K). exists n0. specialize (K n0 pg (le_n _)).
    destruct (ident u t); [eapply S; exact K|eapply G; exact K].
  - destruct (neq_direct cf sto p' a1 a2 u t OK (so_nodup _ ok) A' R1 R2) as (n0 & K). exists n0. specialize (K n0 pg (le_n _)).
    destruct (ident u t); [eapply G; exact K|eapply S; exact K].
Qed.

Lemma turn_ends p S : pok p S -> plin sto p -> pfit sto p -> (runs_is p -> evaluable cf sto p) -> exists r, turns cf sto pg p r.
Proof.
  intros H HL PF Ev. destruct (turn_lin cf OK sto ok P False qv p S H HL) as [FR _]. destruct HL as [F L].
  destruct H as [fs tr W SK Nd Et Tk|fs tr Hr Et Tk|hd body TA fs tr Hc Et Tk|nm a1 a2 fs tr Hc _ _ Et Tk].
  - destruct (p_codes p) as [|a rest] eqn:Ep; [discriminate|].
    destruct (stk_top sto (good False False) (pow_of cf) (PA P) _ _ _ _ SK a rest eq_refl) as (fs' & _ & [TG|(-> & e & es & Ee & SK')]).
    + eapply ready_turn. eapply goal_is_ready; eauto.
    + eexists _, 0. unfold p_turn. rewrite Ep. cbn. rewrite Ee. reflexivity.
  - eapply ready_turn; eauto.
  - pose proof Hc as [(b & r & rest & CC & CW & CK & CLb & Hg & Ep & W & SK & LT & AR)].
    destruct (clause_code_split cf OK sto ok b (hd :: body) r CC CW CK)
      as (h & body' & ha & rs & hc & nr & st & Ec & -> & Ecode & Er & Eu & HE & CH & GT & GD & SY & Ln & HB).
    injection Ec as <- <-. cbv zeta in *. rewrite Ep in L. inversion L as [|? ? L1 _]; subst.
    assert (Lh : Forall instr_lin hc).
    { unfold code_lin in L1. rewrite Ecode in L1. apply Forall_app in L1. destruct L1 as [L1 _]. apply Forall_app in L1. apply L1. }
    assert (G : go (fun m' => fin sto 0 (hp m')) (run_of cf sto 0 p)).
    { unfold run_of. rewrite Ep. cbn [app]. rewrite Ecode, removelast_last. eapply go_app with (Q := fun m' => fin sto 0 (hp m')).
      - unfold alloc_code. destruct (Nat.eqb _ 0); cbn; intros _; exact F.
      - intros m1 F1. eapply (hents_fin cf sto _ 0 _ _ _ _ HE); eauto. exact (hents_fit sto _ _ _ _ _ (ginit hd) st HE CH). }
    destruct (head_run cf OK sto ok (good False False) (pow_of cf) (PA P) (labelled cf (PA P)) 0 p hd body TA fs Hc) as (a & rest' & Ep' & El & HR).
    destruct (run_of cf sto 0 p) as [[s m']|u|] eqn:E; [| |destruct G].
    + pose proof E as E'. unfold run_of in E'. rewrite Ep' in E'. rewrite E' in HR. eapply (run_ends p fs tr a rest' 0 s m'); eauto.
      intros ->. destruct HR as (W' & HLe & _). csplit; [exact W'|eapply TK_hle; eauto|]. apply (fin_0 sto). exact (FR 0 m' E).
    + unfold run_of in E. rewrite Ep' in E. rewrite E in HR. destruct HR.
  - pose proof Hc as [(i & rs & r & rest & Hf & SC & Ir & Ep & W & SK & AR)].
    destruct (special_shape2 cf OK sto (FV nm 2) i rs Hf SC) as (a & -> & Ecode & _). destruct Ir as [<-|[]]. cbn [app] in Ep.
    destruct (builtin_ends p nm a1 a2) as (fuel & [s m'] & E); auto.
    + exists i, a, rest. csplit; auto.
    + now apply (fin_0 sto).
    + intros ->. apply Ev. injection Hf as <-. exists a, rest, 2, 3. split; [exact Ep|]. rewrite Ecode. cbn. auto.
    + destruct (special_run cf OK sto (good False False) (PA P) fuel p nm a1 a2 fs Hc) as (a' & rest' & Ep' & El & HR).
      pose proof E as E'. unfold run_of in E'. rewrite Ep' in E'. rewrite E' in HR. eapply (run_ends p fs tr a' rest' fuel s m'); eauto.
      intros ->. destruct HR as (W' & HLe & _). csplit; [exact W'|eapply TK_hle; eauto|]. apply (fin_0 sto). exact (FR fuel m' E).
Qed.
End Ends.

Section Session.
Variable cf : cfg.
Variable o : org.
Variable P : list (list node).
Variable q : list node.
Hypothesis OK : ord_ok cf.
Hypothesis HS : session cf o P (QFresh q).
Hypothesis SM : small_tables (o_sto o).
Hypothesis SV : (Z.of_nat (List.length (s_vars (o_sto o))) <= 32768)%Z.
Hypothesis NC : no_clash cf P.
Hypothesis LN : linear P q.
(** every right side that is reached can be evaluated *)
Definition all_evaluable : Prop := forall root pi p, root_of o root -> at_path cf (o_sto o) (o_prog o) root pi p -> runs_is p -> evaluable cf (o_sto o) p.
Theorem is_ends : all_evaluable -> turns_end cf o.
Proof.
  intros EV root pi p Hr Hp. assert (ok : sto_ok (o_sto o)) by (eapply sess_ok; eauto). pose proof (sess_PC cf o P q HS) as A.
  destruct (linear_root cf OK o P q HS SM LN False root (fun f => match f with end) Hr) as ((S0 & R1) & R2).
  pose proof Hr as Hr'. destruct (root_code cf o P q HS root Hr) as (r & -> & Q1). destruct (session_parsed _ _ _ _ HS) as [[PW _] QW].
  destruct (lin_path cf OK (o_sto o) ok P (o_prog o) A PW NC (linear_clauses cf o P q HS LN) False _ (fun f => match f with end) _ S0 pi p R1 R2 Hp) as ((S & Hs) & HL).
  eapply (turn_ends cf OK (o_sto o) ok SV (o_prog o) P _ p S Hs HL).
  - eapply path_fit; [exact ok|exact A|exact PW| |eapply root_fit; eauto; apply QW|exact Hp].
    apply Forall_forall. intros c Hc. apply (append_ok cf OK c Hc).
  - exact (EV _ _ _ Hr' Hp).
Qed.
Theorem is_complete v : all_goals no_compare P q -> all_evaluable -> (forall a, In a q -> prov (pow_of cf) (P ++ append_prog) (inst v a)) ->
  exists N, (exists rs o', run cf o rs o' /\ List.length rs = N /\ forall r, In r (map fst rs) -> (exists b, r = RAnswer b) \/ exists e, r = RError e) /\
    forall rs o', run cf o rs o' -> N <= List.length (delivered rs) ->
      (exists b, In (RAnswer b) (delivered rs) /\ exists sg g, shown_as cf o P q b sg /\ forall x, In x (flat_map nvars q) -> ginst g (sg x) = v x) \/
      exists x, In (RError (EUnbound x)) (delivered rs).
Proof. intros NCm EV. exact (complete_or_unbound_shown cf OK o P q HS SM NC NCm (is_ends EV) v). Qed.
End Session.

(** cases: looking at every branch of a finite search *)
Definition is_is (i : instr) : bool := match i with IIs _ _ => true | _ => false end.
Section Check.
Variable cf : cfg.
Variable sto : storage.
Variable pg : prog.
Definition ev_b (F : nat) (p : process) : bool :=
  match p_codes p with
  | a :: _ => if existsb is_is (ca_code a) then
                match m_regs (p_m p) with
                | _ :: c :: _ => match addr_of c with
                                 | Some y => match rdb sto F (hp (p_m p)) y with
                                             | Some t => match calc (pow_of cf) t with Some (inr PrNotArith) | None => false | _ => true end
                                             | None => false
                                             end
                                 | None => false
                                 end
                | _ => false
                end
              else true
  | [] => true
  end.
Lemma ev_b_ok F p : ev_b F p = true -> runs_is p -> evaluable cf sto p.
Proof.
  intros E (a & rest & x & y & Ep & Hi) a1 a2 AR. unfold ev_b in E. rewrite Ep in E.
  assert (existsb is_is (ca_code a) = true) as Ex by (apply existsb_exists; eexists; split; [exact Hi|reflexivity]). rewrite Ex in E.
  destruct (AR 1 a2 eq_refl) as (c & Ec & Ea & _). destruct (m_regs (p_m p)) as [|c1 [|c2 l]]; try discriminate. injection Ec as ->. rewrite Ea in E.
  destruct (rdb sto F _ a2) as [t|] eqn:Er; [|discriminate]. exists t. pose proof (rdb_sound _ _ _ _ _ Er) as R.
  destruct (calc (pow_of cf) t) as [v|]; [|discriminate]. exists v. csplit; auto. intros ->. discriminate.
Qed.
Fixpoint tree_ev (d F : nat) (p : process) : bool :=
  match d with
  | 0 => false
  | S d => match p_turn cf sto F pg p with Val r => ev_b F p && forallb (tree_ev d F) (kids_of r) | _ => false end
  end.
Lemma tree_ev_path F root pi p : at_path cf sto pg root pi p -> (exists d, tree_ev d F root = true) -> exists d, tree_ev d F p = true.
Proof.
  intros H R. induction H as [|pi p i l k H IH [fuel E] Hn]; [assumption|]. destruct IH as ([|d] & K); [discriminate|]. cbn [tree_ev] in K.
  destruct (p_turn cf sto F pg p) as [r| |] eqn:Er; try discriminate. apply andb_true_iff in K. destruct K as [_ K].
  pose proof (le_val _ _ _ (p_turn_mono cf sto pg F (Nat.max F fuel) p (Nat.le_max_l _ _)) Er) as E1.
  pose proof (le_val _ _ _ (p_turn_mono cf sto pg fuel (Nat.max F fuel) p (Nat.le_max_r _ _)) E) as E2.
  rewrite E1 in E2. injection E2 as ->. cbn [kids_of] in K. rewrite forallb_forall in K. exists d. apply K. eapply nth_error_In; eauto.
Qed.
End Check.
Lemma tree_ev_ok cf o d F : tree_ev cf (o_sto o) (o_prog o) d F (root_proc o) = true -> all_evaluable cf o.
Proof.
  intros E root pi p Hr Hp. apply root_proc_ok in Hr. subst root.
  destruct (tree_ev_path _ _ _ F _ _ _ Hp) as ([|d'] & K); [eauto|discriminate|]. cbn [tree_ev] in K.
  destruct (p_turn _ _ _ _ _); try discriminate. apply andb_true_iff in K. eapply ev_b_ok. apply K.
Qed.
Lemma is_case : exists o P q rs o', session cfg0 o P (QFresh q) /\
  parse_program "d(0). d(2). r(f(Y)) :- d(X), Y is 4 // X." = Some (COk P) /\ parse_query (append_dot "r(Z)") = Some (COk q) /\
  run cfg0 o rs o' /\ delivered rs = [RError EDivBy0; RAnswer [("Z", "f(2)")]; RFalse] /\
  small_tables (o_sto o) /\ (Z.of_nat (List.length (s_vars (o_sto o))) <= 32768)%Z /\ no_clash cfg0 P /\ Forall roomy_clause P /\
  all_goals no_compare P q /\ linear P q /\ all_evaluable cfg0 o.
Proof.
  destruct (loaded_witness "d(0). d(2). r(f(Y)) :- d(X), Y is 4 // X." "r(Z)" (fun o P q =>
    small_b (o_sto o) && (Z.of_nat (List.length (s_vars (o_sto o))) <=? 32768)%Z && noclash_b cfg0 P && forallb roomy_clause_b P &&
    goals_b nocompare_b P q && linear_b P q && tree_ev cfg0 (o_sto o) (o_prog o) 100 100 (root_proc o) &&
    match calls [w0; w0; w0] o with Some (rs, _) => if list_eq_dec res_eq_dec (delivered rs) [RError EDivBy0; RAnswer [("Z", "f(2)")]; RFalse] then true else false | None => false end))
    as (o & P & q & A & B & C & D); [vm_compute; reflexivity|].
  rewrite !andb_true_iff in D. destruct D as (((((((D1 & D2) & D3) & D4) & D5) & D6) & D7) & D8). apply Z.leb_le in D2.
  destruct (calls [w0; w0; w0] o) as [[rs o']|] eqn:Ec; [|discriminate]. destruct (list_eq_dec res_eq_dec (delivered rs) _) as [E|]; [|discriminate].
  exists o, P, q, rs, o'. csplit; auto using small_b_ok, noclash_b_ok, linear_b_ok.
  - exact (calls_run _ _ _ _ Ec).
  - apply Forall_forall. intros c Hc. rewrite forallb_forall in D4. now apply roomy_clause_b_ok, D4.
  - exact (goals_b_ok nocompare_b no_compare _ _ nocompare_b_ok D5).
  - exact (tree_ev_ok _ _ _ _ D7).
Qed.
