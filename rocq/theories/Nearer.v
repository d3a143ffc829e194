(** How the order of the answers relates to the number of goals of their proofs. *)
From Coq Require Import Sorted Sorting.Permutation.
From Verif Require Import Base Machine Heap Facts Compiler Parser Organizer Spec Print Valuation HeapSim Process Refine Mono Turn Shape Session Code Put Search PutRun Get Alloc Atoms Clause Stack Ready Heads Builtins Sols Solve Terms Shown Parsed Tables Root Order Cells Runs Answers Complete.
Open Scope string_scope.
Open Scope list_scope.

(** [v] makes all atoms of [q] provable, with [k] goals in all *)
Definition proved_with (cf : cfg) (P : list (list node)) (q : list node) (v : string -> gterm) (k : nat) : Prop :=
  exists ns, Forall2 (fun a n => prov_in (pow_of cf) (P ++ append_prog) n (inst v a)) q ns /\ k = fold_right Nat.add 0 ns.

Lemma prov_in_mono pw P P' : (forall h b v, In (h :: b) P -> exists h' b' v', In (h' :: b') P' /\ inst v' h' = inst v h /\ map (inst v') b' = map (inst v) b) ->
  forall k t, prov_in pw P k t -> prov_in pw P' k t.
Proof.
  intros S. fix IH 3. intros k t H. destruct H as [h b v ns Hin Hb|t|t u|n e He]; [|now constructor..].
  destruct (S h b v Hin) as (h' & b' & v' & Hin' & E & Eb). rewrite <- E. apply (pin_clause pw P' h' b' v' ns Hin').
  clear Hin Hin' E h h'. revert b' Eb. induction Hb as [|a n b0 ns0 Ha Hb IHb]; intros [|a' b'] Eb; try discriminate; constructor.
  - cbn in Eb. injection Eb as -> _. exact (IH n _ Ha).
  - apply IHb. cbn in Eb. now injection Eb.
Qed.
Lemma prov_in_append pw P k t : prov_in pw (PA P) k t <-> prov_in pw (P ++ append_prog) k t.
Proof.
  split; apply prov_in_mono; intros h b v Hin; apply in_app_iff in Hin; destruct Hin as [Hin|[Hin|[Hin|[]]]];
    try (exists h, b, v; csplit; auto; apply in_app_iff; now left); injection Hin as <- <-.
  - exists (NFun "append" [NFun "[" []; NVar "L"; NVar "L"]), [], (fun _ => v "List2"). csplit; auto. apply in_app_iff. right. now left.
  - eexists _, _, v. split; [apply in_app_iff; right; right; left; reflexivity|]. auto.
  - exists (NFun "append" [NFun "[" []; NVar "List2"; NVar "List2"]), [], (fun _ => v "L"). csplit; auto. apply in_app_iff. right. now left.
  - eexists _, _, v. split; [apply in_app_iff; right; right; left; reflexivity|]. auto.
Qed.
Lemma proved_provs cf P q v k : proved_with cf P q v k <-> provs (pow_of cf) (PA P) v q k.
Proof.
  split; intros (ns & F & E); exists ns; (split; [|exact E]); (eapply Forall2_impl; [|exact F]); intros a n; apply prov_in_append.
Qed.
Lemma provs_agree pw P q v v' k : (forall x, In x (flat_map nvars q) -> v x = v' x) -> provs pw P v q k -> provs pw P v' q k.
Proof.
  intros H (ns & F & E). exists ns. split; [|exact E]. clear E k. induction F as [|a n q ns Ha F IH]; constructor.
  - rewrite <- (inst_agree v v'); [exact Ha|]. intros s Hs. apply H. cbn. apply in_app_iff. now left.
  - apply IH. intros x Hx. apply H. cbn. apply in_app_iff. now right.
Qed.

(** --- leaving clauses --- *)
Lemma query_atoms_dn perm u ns : forall pre seen s r s', compile_query_atoms perm pre u ns seen s = (COk r, s') ->
  Forall (fun a => exists f, last (ca_code a) IProceed = ICall f) r.
Proof.
  induction ns as [|n ns IH]; intros pre seen s r s' E; cbn [compile_query_atoms] in E.
  - injection E as <- _. constructor.
  - unfold cbind in E. destruct (compile_query_atom perm pre u n seen s) as [[[a s1]| |] t] eqn:E1; try discriminate.
    destruct (compile_query_atoms perm [] u ns s1 t) as [[r'| |] t'] eqn:E2; try discriminate. injection E as <- _.
    constructor; [|eapply IH; eauto]. unfold compile_query_atom in E1. destruct (assign_one n) as [aa c].
    unfold cbind, to_query, cbind in E1. destruct (query_ents _ _ _ _ _) as [[[? ?]| |] ?]; try discriminate. cbn in E1. injection E1 as <- _.
    cbn [ca_code]. rewrite app_assoc, last_last. eauto.
Qed.
Lemma calls_dn r : Forall (fun a => exists f, last (ca_code a) IProceed = ICall f) r -> dn r = 0.
Proof. intros H. unfold dn. induction H as [|a r (f & Ha) H IH]; cbn [filter]; [reflexivity|]. unfold leaves at 1. now rewrite Ha. Qed.
Lemma clause_dn cf sto b c r : clause_code cf sto b c r -> dn r <= if Nat.eqb (List.length (perm_order cf c true)) 0 then 0 else 1.
Proof.
  intros (s0 & s1 & f & E & _). unfold compile_program_term in E. destruct c as [|h body]; [discriminate|].
  destruct (negb b && redefines h); [discriminate|].
  destruct (match body with [] => _ | _ => _ end) as [[ha oba] cnt] eqn:Ea. clear Ea.
  unfold cbind in E. unfold to_program at 1, cbind in E. destruct (prog_ents _ _ _ _) as [[[hc t1]| |] u1]; try discriminate. cbn [cret] in E.
  set (perm := fun s : string => pos_of s (perm_order cf (h :: body) true)) in *.
  assert (X : exists firsts t3 u3 others u4, Forall (fun a => exists f, last (ca_code a) IProceed = ICall f) firsts /\
    compile_query_atoms perm [] false (tl body) (remove_x_a_regs t3) u3 = (COk others, u4) /\
    r = {| ca_regs := cnt; ca_code := alloc_code (List.length (perm_order cf (h :: body) true)) ++ hc ++ [IProceed];
           ca_subs := find_var_reg_substitutions perm ha; ca_node := h; ca_user := false |} ::
        firsts ++ others ++ (if Nat.eqb (List.length (perm_order cf (h :: body) true)) 0 then [] else [dealloc_atom])).
  { destruct oba as [ba|].
    - unfold to_query, cbind in E. destruct (query_ents _ _ _ _ _) as [[[bc t3]| |] u3]; try discriminate. cbn [cret] in E.
      destruct (compile_query_atoms perm [] false (tl body) (remove_x_a_regs t3) u3) as [[others| |] u4] eqn:E4; try discriminate.
      injection E as _ <- _. exists [{| ca_regs := cnt; ca_code := bc ++ [ICall (to_fview (aa_top ba))]; ca_subs := find_var_reg_substitutions perm ba;
                 ca_node := aa_top ba; ca_user := false |}], t3, u3, others, u4. csplit; [|exact E4|reflexivity].
      constructor; [|constructor]. cbn [ca_code]. rewrite last_last. eauto.
    - cbn [cret] in E. match type of E with context [compile_query_atoms ?a ?b ?c ?d ?e ?g] => destruct (compile_query_atoms a b c d e g) as [[others| |] u4] eqn:E4 end; try discriminate.
      injection E as _ <- _. eexists [], _, _, others, u4. csplit; [constructor|exact E4|reflexivity]. }
  clear E. destruct X as (firsts & t3 & u3 & others & u4 & Hf & E4 & ->).
  apply query_atoms_dn in E4. apply calls_dn in Hf, E4.
  match goal with |- dn (?a :: _) <= _ => change (dn ([a] ++ firsts ++ others ++ (if Nat.eqb (List.length (perm_order cf (h :: body) true)) 0 then [] else [dealloc_atom])) <= if Nat.eqb (List.length (perm_order cf (h :: body) true)) 0 then 0 else 1) end.
  rewrite !dn_app, Hf, E4. match goal with |- dn [?a] + _ <= _ => replace (dn [a]) with 0 end.
  - destruct (Nat.eqb _ 0); cbn; lia.
  - unfold dn. cbn [filter]. unfold leaves. cbn [ca_code]. now rewrite app_assoc, last_last.
Qed.
Lemma special_dn cf sto f i rs : ord_ok cf -> special f = Some i -> special_code cf sto f i rs -> Forall (fun r => dn r = 0) rs.
Proof.
  intros OK Hf H. destruct (special_shape cf OK sto f i rs Hf H) as (a & -> & Ea & _). constructor; [|constructor].
  unfold dn, leaves. cbn [filter]. now rewrite Ea.
Qed.
(** at most one per clause, none if no variable is shared between the goals of a body *)
Lemma prog_dn cf sto P pg d : ord_ok cf -> prog_code cf sto P pg ->
  (forall c, In c (PA P) -> (if Nat.eqb (List.length (perm_order cf c true)) 0 then 0 else 1) <= d) -> few_leave pg d.
Proof.
  intros OK PC H f rs r Ef Hr. specialize (PC f). destruct (special f) as [i|] eqn:Es.
  - destruct PC as (rs' & E & K). rewrite Ef in E. injection E as <-. apply (special_dn cf sto f i rs OK Es) in K.
    rewrite Forall_forall in K. rewrite (K r Hr). lia.
  - assert (G : forall b cs, Forall2 (clause_code cf sto b) cs rs -> (forall c, In c cs -> In c (PA P)) -> dn r <= d).
    { intros b cs F Hin. clear Ef. induction F as [|c r' cs rs Hc F IH]; [contradiction|]. destruct Hr as [->|Hr].
      - eapply Nat.le_trans; [eapply clause_dn; eauto|]. apply H, Hin. now left.
      - apply IH; auto. intros c' K. apply Hin. now right. }
    unfold PA in G. destruct (is_append f).
    + destruct PC as (rs' & E & K). rewrite Ef in E. injection E as <-. eapply G; [exact K|]. intros c Hc. apply in_app_iff. auto.
    + rewrite Ef in PC. destruct PC as [K _]. eapply G; [exact K|]. intros c Hc. apply filter_In in Hc. apply in_app_iff. tauto.
Qed.

(** No variable of the clause occurs in two goals of its body, nor in the head and in a goal after the first. *)
Definition unshared (c : list node) : Prop :=
  match c with
  | h :: b1 :: bs => forall bs1 b bs2 x, bs = bs1 ++ b :: bs2 -> In x (nvars b) -> ~ In x (flat_map nvars (h :: b1 :: bs1))
  | _ => True
  end.
Lemma unshared_perm cf c : ord_ok cf -> clause_wf c -> unshared c -> perm_order cf c true = [].
Proof.
  intros OK Hw Hu. unfold perm_order. assert (E : perm_vars c true = []).
  { destruct c as [|h [|b1 bs]]; [reflexivity|reflexivity|]. destruct (perm_vars (h :: b1 :: bs) true) as [|x l] eqn:E; [reflexivity|]. exfalso.
    assert (Hx : In x (perm_vars (h :: b1 :: bs) true)) by (rewrite E; now left). apply perm_vars_clause in Hx.
    destruct Hx as (bs1 & b & bs2 & Eb & Hb & (n & Hn & Hnx)). cbn in Hw.
    assert (V : forall m, In m (h :: b1 :: bs) -> In x (vars_of m) <-> In x (nvars m)).
    { intros m Hm. rewrite Forall_forall in Hw. pose proof (qvars_nvars [m] (Forall_cons _ (Hw m Hm) (Forall_nil _)) x) as K. cbn in K. now rewrite !app_nil_r in K. }
    apply (Hu bs1 b bs2 x Eb).
    - apply V; [|assumption]. rewrite Eb. right. right. apply in_app_iff. right. now left.
    - apply in_flat_map. exists n. split; [exact Hn|]. apply V; [|assumption]. rewrite Eb.
      destruct Hn as [<-|[<-|Hn]]; [now left|right; now left|]. right. right. apply in_app_iff. now left. }
  rewrite E. apply Permutation_nil. symmetry. apply OK.
Qed.

Section Pos.
Variable cf : cfg.
Hypothesis OK : ord_ok cf.
Variable sto : storage.
Hypothesis ok : sto_ok sto.
Variable P : list (list node).
Variable pure noarith : Prop.
Variable qv : list string.
Lemma pok_pos p S v k : pok cf sto P pure noarith qv p S -> S v k -> 1 <= dn (p_codes p) + k + phase p.
Proof.
  assert (RP : forall fs rho, ready cf sto (labelled cf (PA P)) (good pure noarith) p fs -> Pend (pow_of cf) (PA P) fs rho v k -> 1 <= k).
  { intros fs rho Hr HP. destruct (ready_call cf sto ok _ _ (pow_of cf) (PA P) 0 p fs Hr) as (perm & V & n & gs & fs0 & a & rest & m' & V' & TA & -> & _).
    destruct HP as (v' & k1 & k2 & _ & _ & Hp & _ & ->). apply provs_cons in Hp. destruct Hp as (k3 & k4 & H3 & _ & ->).
    assert (1 <= k3) by (destruct H3; lia). lia. }
  intros H HS. destruct H as [fs tr W SK Nd Et Tk|fs tr Hr Et Tk|hd body TA fs tr Hc Et Tk|nm a1 a2 fs tr Hc Hnm Hna Et Tk].
  - destruct (p_codes p) as [|a rest] eqn:Ep; [discriminate|].
    destruct (stk_top sto _ (pow_of cf) (PA P) _ _ _ _ SK a rest eq_refl) as (fs' & (SP & SV & SD) & [TG|(-> & _)]).
    + destruct HS as (rho & _ & HP). apply SP in HP.
      assert (HR : ready cf sto (labelled cf (PA P)) (good pure noarith) p fs') by (eapply goal_is_ready; eauto).
      specialize (RP _ _ HR HP). lia.
    + unfold dn. cbn. lia.
  - destruct HS as (rho & _ & HP). specialize (RP _ _ Hr HP). lia.
  - rewrite (at_clause_phase cf OK sto ok P pure noarith p _ _ _ _ Hc). lia.
  - destruct (special_run cf OK sto _ (PA P) 0 p nm a1 a2 fs Hc) as (a & rest & Ep & El & _). unfold phase. rewrite Ep, El. lia.
Qed.
End Pos.
Lemma outs_split T k pre b post : map snd (outs T) ++ repeat RFalse k = pre ++ RAnswer b :: post ->
  exists T0 pi p T1, T = T0 ++ (pi, p, PDone b) :: T1 /\ map snd (outs T0) = pre.
Proof.
  revert pre. induction T as [|((pi & p) & r) T IH]; intros pre E.
  - cbn in E. exfalso. assert (K : In (RAnswer b) (repeat RFalse k)) by (rewrite E; apply in_app_iff; right; now left).
    apply repeat_spec in K. discriminate.
  - change (outs ((pi, p, r) :: T)) with (outs ([(pi, p, r)] ++ T)) in E. rewrite outs_app, map_app, <- app_assoc in E.
    assert (Sk : outs [(pi, p, r)] = [] -> exists T0 pi0 p0 T1, (pi, p, r) :: T = T0 ++ (pi0, p0, PDone b) :: T1 /\ map snd (outs T0) = pre).
    { intros Z. rewrite Z in E. cbn [map app] in E. destruct (IH pre E) as (T0 & pi0 & p0 & T1 & -> & E0).
      exists ((pi, p, r) :: T0), pi0, p0, T1. split; [reflexivity|].
      change (outs ((pi, p, r) :: T0)) with (outs ([(pi, p, r)] ++ T0)). now rewrite outs_app, Z. }
    assert (On : forall x, outs [(pi, p, r)] = [(pi, x)] -> r <> PDone b \/ pre <> [] ->
      exists T0 pi0 p0 T1, (pi, p, r) :: T = T0 ++ (pi0, p0, PDone b) :: T1 /\ map snd (outs T0) = pre).
    { intros x Z Ne. rewrite Z in E. cbn [map app snd] in E. destruct pre as [|y pre].
      - cbn [app] in E. injection E as Ex _. subst x. exfalso. destruct Ne as [Ne|Ne]; [|congruence].
        destruct r as [|e|b'|ps]; cbn in Z; try discriminate. injection Z as ->. congruence.
      - cbn [app] in E. injection E as <- E. destruct (IH pre E) as (T0 & pi0 & p0 & T1 & -> & E0).
        exists ((pi, p, r) :: T0), pi0, p0, T1. split; [reflexivity|].
        change (outs ((pi, p, r) :: T0)) with (outs ([(pi, p, r)] ++ T0)). rewrite outs_app, Z. cbn. now rewrite E0. }
    destruct r as [|e|b'|ps].
    + apply Sk. reflexivity.
    + apply (On (RError e)); [reflexivity|]. left. discriminate.
    + destruct pre as [|y pre].
      * cbn in E. injection E as -> _. exists [], pi, p, T. auto.
      * apply (On (RAnswer b')); [reflexivity|]. right. discriminate.
    + apply Sk. reflexivity.
Qed.

Section Session.
Variable cf : cfg.
Hypothesis OK : ord_ok cf.
Variable o : org.
Variable P : list (list node).
Variable q : list node.
Hypothesis HS : session cf o P (QFresh q).
Hypothesis SM : small_tables (o_sto o).
Hypothesis NC : no_clash cf P.
Notation sto := (o_sto o).
Notation pg := (o_prog o).
Lemma sess_start root : root_of o root -> dn (p_codes root) = 0 /\ phase root = 0.
Proof.
  intros (r & Er & ->). destruct (session_inv _ _ _ _ HS) as [_ (r' & Q1 & Q2 & Q3 & Q4 & Q5)].
  assert (r = r') as ->.
  { rewrite Q3 in Er. injection Er as E. unfold query_ptrs in E. clear - E. revert r' E. induction r as [|a x IH]; intros [|b y] E; try discriminate; [reflexivity|].
    cbn in E. injection E as -> E. f_equal. now apply IH. }
  assert (F : Forall (fun a => exists f, last (ca_code a) IProceed = ICall f) r').
  { destruct Q1 as (s0 & s1 & E & _). unfold compile_query in E. eapply query_atoms_dn; eauto. }
  split; [exact (calls_dn _ F)|]. unfold phase, init_proc. cbn [p_codes]. destruct F as [|a l (f & E) F]; [reflexivity|]. now rewrite E.
Qed.

(** [d]: how often at most a clause is left with a turn of its own *)
Lemma nearer d rs o' pre b post : few_leave pg d -> all_goals no_compare P q -> no_cycles cf o ->
  run cf o rs o' -> delivered rs = pre ++ RAnswer b :: post -> (forall x, ~ In (RError (EUnbound x)) pre) ->
  exists h V tr Si, answered cf o P q b h V tr Si /\ forall sg, shows (o_sto o) h (flat_map vars_of q) V tr b sg -> forall v k, proved_with cf P q v k ->
    (exists g, forall n, proved_with cf P q (fun x => ginst g (sg x)) n -> (2 + d) * k < 2 * n) ->
    exists b', In (RAnswer b') pre /\ covers cf o P q b' v.
Proof.
  intros Hd Pu NCy HR Ed NE. destruct (sess_search cf o P q HS rs o' HR) as (root & T & Q & kk & Hr & S & D & _ & _). rewrite D in Ed.
  destruct (outs_split _ _ _ _ _ Ed) as (T0 & pi & p & T1 & -> & E0).
  assert (S1 : exists Q1, search cf sto pg root (T0 ++ [(pi, p, PDone b)]) Q1).
  { apply (search_prefix cf sto pg root _ T1 Q). rewrite <- app_assoc. exact S. }
  destruct S1 as (Q1 & S1).
  assert (S0' : exists Q0, search cf sto pg root T0 ((pi, p) :: Q0) /\ turns cf sto pg p (PDone b)).
  { inversion S1 as [Z1 Z2|T' pi' p' r' Q' Hs' Ht' Z1 Z2]; [destruct T0; discriminate|].
    apply app_inj_tail in Z1. destruct Z1 as [-> Z1]. injection Z1 as -> -> ->. eauto. }
  destruct S0' as (Q0 & S0' & Hturn).
  destruct (sess_root cf OK o P q HS SM root Hr) as (_ & SS & Hp & HSS). destruct (rules_bound pg) as (R & RL).
  destruct (sess_start root Hr) as [Dn0 Ph0].
  destruct (search_sound cf OK sto (sess_ok cf o P q HS SM) pg P (pure P q) (noarith P q) (sess_PC cf o P q HS) (sess_CW cf OK o P q HS NC)
      (sess_NR cf o P q HS) R RL (flat_map vars_of q) root SS Hp _ _ S1) as (_ & K & _).
  assert (Hb : In (pi, p, PDone b) (T0 ++ [(pi, p, PDone b)])) by (apply in_app_iff; right; now left).
  destruct (K pi p b Hb) as (Si & h & He & An & Bl). clear K.
  destruct (done_answered cf o P q root SS _ _ pi p b Si h _ Hr HSS S1 Hb He An Bl) as (V & tr & A).
  assert (At : at_path cf sto pg root pi p) by (destruct (search_order _ _ _ _ _ _ S1) as (_ & _ & S3 & _); apply (S3 _ _ _ Hb)).
  exists h, V, tr, Si. split; [exact A|]. intros sg Sh v k Hv (g & Hg). destruct (sess_query cf o P q HS) as [Ne Fa].
  (* the proof of the answer *)
  destruct (an_ground cf o P q HS b h V tr Si sg A Sh NCy g) as (v' & _ & _ & Hv0 & Hvr).
  destruct (Bl _ _ Hv0) as (n & Hn & Ln). apply HSS in Hn.
  assert (Hn' : proved_with cf P q (fun x => ginst g (sg x)) n).
  { apply proved_provs. eapply provs_agree; [|exact Hn]. intros x Hx. now apply Hvr. }
  specialize (Hg n Hn'). pose proof (phase_le p) as Lp.
  (* the nearer proof *)
  apply proved_provs in Hv. apply HSS in Hv.
  assert (NE0 : no_unbound T0).
  { intros pi' p' x Hin. apply (NE x). rewrite <- E0. rewrite <- (app_nil_r (map snd (outs T0))). apply (error_turn T0 0 (EUnbound x)). eauto. }
  destruct (search_complete cf OK sto (sess_ok cf o P q HS SM) pg P (pure P q) (noarith P q) (sess_PC cf o P q HS) (sess_CW cf OK o P q HS NC)
      (sess_NR cf o P q HS) R RL (flat_map vars_of q) root SS Hp T0 _ S0' Pu NE0 v k Hv)
    as [(pi' & p' & b' & Si' & h' & k' & Hb' & He' & Ha' & HSi' & _ & _ & Bl')|(pi' & p' & Si' & k' & Hin & Hp' & HS' & _ & L & _)].
  - exists b'. split.
    + rewrite <- E0. rewrite <- (app_nil_r (map snd (outs T0))). apply (answer_turn T0 0 b'). eauto.
    + eapply (answer_covers cf o P q root SS T0); eauto.
  - exfalso. specialize (L d Hd). rewrite Dn0, Ph0 in L.
    pose proof (pok_pos cf OK sto (sess_ok cf o P q HS SM) P _ _ _ p' Si' v k' Hp' HS') as Ps.
    assert (Lq : List.length pi <= List.length pi').
    { destruct (search_order _ _ _ _ _ _ S0') as (So & _). apply sorted_app_inv in So. destruct So as (_ & So & _). cbn in So.
      destruct Hin as [Eq|Hin]; [injection Eq as -> _; lia|]. inversion So as [|? ? _ Fp]. subst. rewrite Forall_forall in Fp.
      assert (Hpp : plt pi pi') by (apply Fp; unfold paths_q; apply in_map_iff; exists (pi', p'); auto).
      destruct Hpp as [Hpp|[Hpp _]]; lia. }
    nia.
Qed.

(** C06: an answer never comes after one that takes more than one and a half times as many goals *)
Theorem nearer_half rs o' pre b post : all_goals no_compare P q -> no_cycles cf o ->
  run cf o rs o' -> delivered rs = pre ++ RAnswer b :: post -> (forall x, ~ In (RError (EUnbound x)) pre) ->
  exists h V tr Si, answered cf o P q b h V tr Si /\ forall sg, shows (o_sto o) h (flat_map vars_of q) V tr b sg -> forall v k, proved_with cf P q v k ->
    (exists g, forall n, proved_with cf P q (fun x => ginst g (sg x)) n -> 3 * k < 2 * n) ->
    exists b', In (RAnswer b') pre /\ covers cf o P q b' v.
Proof.
  apply (nearer 1). apply (prog_dn cf sto P pg 1 OK (sess_PC cf o P q HS)). intros c _. destruct (Nat.eqb _ 0); lia.
Qed.
(** exactly in the order of the number of goals, if no clause is left with a turn of its own *)
Theorem nearer_exact rs o' pre b post : (forall c, In c P -> unshared c) -> all_goals no_compare P q -> no_cycles cf o ->
  run cf o rs o' -> delivered rs = pre ++ RAnswer b :: post -> (forall x, ~ In (RError (EUnbound x)) pre) ->
  exists h V tr Si, answered cf o P q b h V tr Si /\ forall sg, shows (o_sto o) h (flat_map vars_of q) V tr b sg -> forall v k, proved_with cf P q v k ->
    (exists g, forall n, proved_with cf P q (fun x => ginst g (sg x)) n -> k < n) ->
    exists b', In (RAnswer b') pre /\ covers cf o P q b' v.
Proof.
  intros Un Pu NCy HR Ed NE. destruct (nearer 0 rs o' pre b post) as (h & V & tr & Si & A & K); auto.
  - apply (prog_dn cf sto P pg 0 OK (sess_PC cf o P q HS)). intros c Hc.
    assert (E : perm_order cf c true = []).
    { destruct (sess_CW cf OK o P q HS NC c Hc) as (Hw & _). apply unshared_perm; auto.
      unfold PA in Hc. apply in_app_iff in Hc. destruct Hc as [Hc|[<-|[<-|[]]]]; [auto|exact Logic.I|].
      intros [|? ?] ? ? x E; discriminate. }
    rewrite E. cbn. lia.
  - exists h, V, tr, Si. split; [exact A|]. intros sg Sh v k Hv (g & Hg). apply (K sg Sh v k Hv). exists g. intros n Hn. specialize (Hg n Hn). lia.
Qed.
End Session.
