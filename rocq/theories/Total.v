(** What does not go wrong: printing, comparing and turns of branches have no undefined behaviour. *)
From Verif Require Import Base Machine Heap Facts Compiler Parser Organizer Spec Print Valuation HeapSim Process Refine Mono Turn Shape Session Code Put Search PutRun Get Alloc Atoms Clause Stack Ready Heads Builtins Sols Solve Terms Shown Parsed Tables Root Order Cells Runs Answers Complete.
Open Scope string_scope.
Open Scope list_scope.

Definition no_ub {A} (x : out A) : Prop := forall u, x <> Ub u.
Lemma no_ub_val {A} (a : A) : no_ub (Val a).
Proof. discriminate. Qed.
Lemma no_ub_fuel {A} : no_ub (@Fuel A).
Proof. discriminate. Qed.
Lemma no_ub_bind {A B} (x : out A) (f : A -> out B) : no_ub x -> (forall a, x = Val a -> no_ub (f a)) -> no_ub (bind x f).
Proof. intros Hx Hf u. destruct x as [a|u'|]; cbn; [now apply Hf|exfalso; now apply (Hx u')|discriminate]. Qed.
Lemma set_last_ub c s d : no_ub (set_last (String c s) d).
Proof.
  revert c. induction s as [|c' s IH]; intros c; cbn [set_last]; [apply no_ub_val|].
  apply no_ub_bind; [apply IH|]. intros. apply no_ub_val.
Qed.
Lemma set_last_val c s d : exists r, set_last (String c s) d = Val r.
Proof.
  revert c. induction s as [|c' s IH]; intros c; [cbn; eauto|]. destruct (IH c') as (r & E). exists (String c r).
  change (set_last (String c (String c' s)) d) with (r <- set_last (String c' s) d ;; Val (String c r)). now rewrite E.
Qed.
Lemma str_args_ub p n : forall k, (forall j, k <= j <= k + n -> no_ub (p j)) -> no_ub (str_args p n k).
Proof.
  induction n as [|n IH]; intros k H; cbn [str_args]; [apply H; lia|].
  apply no_ub_bind; [apply H; lia|]. intros a _. apply no_ub_bind; [apply IH; intros; apply H; lia|]. intros. apply no_ub_val.
Qed.

(** --- printing --- *)
Section Print.
Variable sto : storage.
Variable h : list cell.
Variable users : list string.
Hypothesis W : wfh sto 0 h.
Hypothesis FO : forall d i n nm k, nth_error h d = Some (CFun i n) -> nthZ (s_functors sto) i = Some (FV nm k) -> fun_ok nm k.
Hypothesis VO : forall d b v, nth_error h d = Some (CRef b v) -> nthZ (s_vars sto) v <> None.
Notation len := (@List.length cell).
Notation str f := (str_of (list cell) fops sto f h users).

Lemma op_name_some i : (0 <= i <= 4)%Z -> exists nm, op_name i = Some nm.
Proof. intros Hi. assert (i = 0 \/ i = 1 \/ i = 2 \/ i = 3 \/ i = 4)%Z as [->|[->|[->|[->| ->]]]] by lia; cbn; eauto. Qed.

(** the root reached, and what is there *)
Lemma root_at a : a < len h -> exists d c, deref (list cell) fops h a = Val d /\ d < len h /\ next h d = None /\
  at_ (list cell) fops h d = Val c /\ nth_error h d = Some c /\
  match c with CRef b _ => b = d | CStr _ => False | _ => True end /\ wf_cell sto (len h) 0 d c.
Proof.
  intros L. destruct (wfh_deref sto 0 h a W L) as (d & Ed & Ld & Nd & _). destruct (root_cases sto 0 h d W Ld Nd) as (c & Ec & Hc).
  exists d, c. csplit; auto.
  - now apply at_nth.
  - exact (proj1 W d c Ec).
Qed.

Lemma str_ub : forall fuel contig a, a < len h -> no_ub (str fuel contig a).
Proof.
  induction fuel as [|f IH]; intros contig a L; [apply no_ub_fuel|]. cbn [str_of].
  destruct (root_at a L) as (d & c & -> & Ld & Nd & Ea & Ec & Hc & Wc). cbn [bind]. rewrite Ea. cbn [bind].
  destruct c as [i|m|b v|i m|i m|b]; cbn [wf_cell] in Wc.
  - destruct Wc as (s & ->). apply no_ub_val.
  - apply no_ub_val.
  - pose proof (VO _ _ _ Ec) as Hv. destruct (nthZ (s_vars sto) v); [|contradiction]. apply no_ub_val.
  - destruct Wc as (Hm & (nm & Ei) & Lm). rewrite Ei. cbn [of_opt bind]. pose proof (FO _ _ _ _ _ Ec Ei) as Fk.
    unfold fv_is_empty_list, fv_is_append, fv_is_list. cbn [fv_name fv_arity].
    destruct (Z.to_nat m) as [|n1] eqn:Em.
    { destruct Fk as [[-> _]|(_ & _ & K)]; [|now elim K]. apply no_ub_val. }
    cbn [Nat.eqb]. rewrite andb_false_r. replace (d + 1) with (S d) by lia. replace (d + 2) with (S (S d)) by lia.
    destruct Fk as [[-> Fk]|(Nl & Nb & _)].
    + destruct Fk as [Fk|Fk]; [discriminate|]. injection Fk as ->. cbn [String.eqb]. cbv iota.
      change ("[" =? "|") with false. change ("[" =? "[") with true. cbv iota.
      apply no_ub_bind; [apply IH; lia|]. intros s1 _.
      destruct (root_at (S (S d))) as (d2 & c2 & -> & Ld2 & Nd2 & Ea2 & Ec2 & Hc2 & Wc2); [lia|]. cbn [bind]. rewrite Ea2. cbn [bind].
      apply no_ub_bind; [apply IH; lia|]. intros s2 _. destruct contig; [apply no_ub_val|]. cbn [String.append]. apply set_last_ub.
    + apply String.eqb_neq in Nb, Nl. rewrite Nb, Nl. apply no_ub_bind; [|intros; apply no_ub_val].
      apply str_args_ub. intros j Hj. apply IH. lia.
  - destruct Wc as (-> & Hi & Lm). destruct (op_name_some i Hi) as (nm & ->). cbn [of_opt bind].
    apply no_ub_bind; [apply IH; lia|]. intros s1 _. apply no_ub_bind; [apply IH; lia|]. intros. apply no_ub_val.
  - contradiction.
Qed.

(** a finite term is printed if there is enough fuel *)
Lemma str_args_val p n : forall k, (forall j, k <= j <= k + n -> exists s, p j = Val s) -> exists s, str_args p n k = Val s.
Proof.
  induction n as [|n IH]; intros k H; cbn [str_args]; [apply H; lia|].
  destruct (H k) as (s & ->); [lia|]. destruct (IH (S k)) as (r & ->); [intros; apply H; lia|]. cbn. eauto.
Qed.
Definition prints (a : nat) : Prop := exists f, forall contig, exists s, str f contig a = Val s.
Lemma str_more f f' contig a s : f <= f' -> str f contig a = Val s -> str f' contig a = Val s.
Proof. intros L E. exact (le_val _ _ _ (str_of_mono _ _ _ f f' h users contig a L) E). Qed.
Lemma prints_root a d : deref (list cell) fops h a = Val d -> a < len h -> prints d -> prints a.
Proof.
  intros Ed La (f & Hf). exists f. intros contig. destruct (root_at a La) as (d' & c & Ed' & Ld & Nd & Ea & Ec & Hc & Wc).
  rewrite Ed in Ed'. injection Ed' as <-.
  assert (Edd : deref (list cell) fops h d = Val d) by (eapply derefs_deref; constructor; assumption).
  destruct (Hf contig) as (s & Es). destruct f as [|f]; [discriminate|].
  cbn [str_of] in *. rewrite Ed. rewrite Edd in Es. cbn [bind] in *. rewrite Ea in Es |- *. cbn [bind] in *.
  destruct c as [i|m|b v|i m|i m|b]; eauto.
  destruct (nthZ (s_vars sto) v); cbn [of_opt bind] in *; [eauto|discriminate].
Qed.
Lemma prints_all k n : (forall j, k <= j < k + n -> prints j) -> exists f, forall j, k <= j < k + n -> forall contig, exists s, str f contig j = Val s.
Proof.
  induction n as [|n IH]; intros H; [exists 0; intros; lia|]. destruct IH as (f & Hf); [intros; apply H; lia|].
  destruct (H (k + n)) as (f' & Hf'); [lia|]. exists (Nat.max f f'). intros j Hj contig.
  destruct (Nat.eq_dec j (k + n)) as [->|Ne].
  - destruct (Hf' contig) as (s & E). exists s. eapply str_more; [|exact E]. lia.
  - destruct (Hf j ltac:(lia) contig) as (s & E). exists s. eapply str_more; [|exact E]. lia.
Qed.
Lemma rd_prints : forall a t, rd sto h a t -> a < len h -> prints a.
Proof.
  apply (rd_mut sto h (fun a t => a < len h -> prints a) (fun a n l => a + n <= len h -> forall j, a <= j < a + n -> prints j)).
  - intros a b t Nx _ IH La. assert (Lb : b < len h).
    { destruct (proj2 W a La) as (n & d & D). inversion D as [a' La' Na|n' a' b' d' Nb D']; subst; [congruence|]. rewrite Nx in Nb. injection Nb as <-. eapply derefs_lt; eauto. }
    destruct (wfh_deref sto 0 h b W Lb) as (d & Ed & Ld & Nd & (n & D)).
    assert (Ea : deref (list cell) fops h a = Val d) by (eapply derefs_deref; econstructor; eauto).
    apply (prints_root a d Ea La). destruct (IH Lb) as (f & Hf). exists f. intros contig. destruct (Hf contig) as (s & Es). destruct f as [|f]; [discriminate|].
    destruct (root_at b Lb) as (d' & c & Ed' & _ & _ & Eat & Ec & Hc & Wc). rewrite Ed in Ed'. injection Ed' as <-.
    assert (Edd : deref (list cell) fops h d = Val d) by (eapply derefs_deref; constructor; assumption).
    cbn [str_of] in *. rewrite Ed in Es. rewrite Edd. cbn [bind] in *. rewrite Eat in Es |- *. cbn [bind] in *. destruct c; eauto.
    destruct (nthZ (s_vars sto) v); cbn [of_opt bind] in *; [eauto|discriminate].
  - intros a v nm Ha La. exists 1. intros contig. cbn [str_of]. rewrite (derefs_deref h 0 a a).
    + cbn [bind]. rewrite (proj2 (at_nth h a _) Ha). cbn [bind]. pose proof (VO _ _ _ Ha). destruct (nthZ (s_vars sto) v); [|contradiction]. cbn. eauto.
    + constructor; [assumption|]. unfold next. rewrite Ha. now rewrite Nat.eqb_refl.
  - intros a i Ha La. exists 1. intros contig. cbn [str_of]. rewrite (derefs_deref h 0 a a).
    + cbn [bind]. rewrite (proj2 (at_nth h a _) Ha). cbn [bind]. destruct (proj1 W _ _ Ha) as (s & ->). cbn. eauto.
    + constructor; [assumption|]. unfold next. now rewrite Ha.
  - intros a n Ha La. exists 1. intros contig. cbn [str_of]. rewrite (derefs_deref h 0 a a).
    + cbn [bind]. rewrite (proj2 (at_nth h a _) Ha). cbn. eauto.
    + constructor; [assumption|]. unfold next. now rewrite Ha.
  - intros a i n l Ha _ IH La. destruct (proj1 W _ _ Ha) as (Hn & (nm & Ei) & Ln).
    destruct (prints_all (S a) (Z.to_nat n)) as (f & Hf); [apply IH; lia|]. exists (S f). intros contig. cbn [str_of]. rewrite (derefs_deref h 0 a a).
    2:{ constructor; [assumption|]. unfold next. now rewrite Ha. }
    cbn [bind]. rewrite (proj2 (at_nth h a _) Ha). cbn [bind]. rewrite Ei. cbn [of_opt bind]. pose proof (FO _ _ _ _ _ Ha Ei) as Fk.
    unfold fv_is_empty_list, fv_is_append, fv_is_list. cbn [fv_name fv_arity].
    destruct (Z.to_nat n) as [|n1] eqn:Em.
    { destruct Fk as [[-> _]|(_ & _ & K)]; [|now elim K]. cbn. eauto. }
    cbn [Nat.eqb]. rewrite andb_false_r. replace (a + 1) with (S a) by lia. replace (a + 2) with (S (S a)) by lia.
    destruct Fk as [[-> Fk]|(Nl & Nb & _)].
    + destruct Fk as [Fk|Fk]; [discriminate|]. injection Fk as ->.
      change ("[" =? "|") with false. change ("[" =? "[") with true. cbv iota.
      destruct (Hf (S a) ltac:(lia) false) as (s1 & ->). cbn [bind].
      destruct (root_at (S (S a))) as (d2 & c2 & -> & Ld2 & Nd2 & Ea2 & Ec2 & Hc2 & Wc2); [lia|]. cbn [bind]. rewrite Ea2. cbn [bind].
      destruct (Hf (S (S a)) ltac:(lia) true) as (s2 & ->). cbn [bind]. destruct contig; [eauto|]. cbn [String.append]. apply set_last_val.
    + apply String.eqb_neq in Nb, Nl. rewrite Nb, Nl.
      destruct (str_args_val (str f false) n1 (S a)) as (s & ->); [intros j Hj; apply Hf; lia|]. cbn. eauto.
  - intros a i n l Ha _ IH La. destruct (proj1 W _ _ Ha) as (-> & Hi & Ln).
    destruct (prints_all (S a) 2) as (f & Hf); [apply IH; lia|]. exists (S f). intros contig. cbn [str_of]. rewrite (derefs_deref h 0 a a).
    2:{ constructor; [assumption|]. unfold next. now rewrite Ha. }
    cbn [bind]. rewrite (proj2 (at_nth h a _) Ha). cbn [bind]. destruct (op_name_some i Hi) as (nm & ->). cbn [of_opt bind].
    destruct (Hf (a + 1) ltac:(lia) false) as (s1 & ->). cbn [bind]. destruct (Hf (a + 2) ltac:(lia) false) as (s2 & ->). cbn. eauto.
  - intros a _ j Hj. lia.
  - intros a n t l _ IH1 _ IH2 L j Hj. destruct (Nat.eq_dec j a) as [->|Ne]; [apply IH1; lia|apply IH2; lia].
Qed.
End Print.

(** --- turns --- *)
Lemma bind_names_ub p l : (forall nm a, In (nm, a) l -> no_ub (p a)) -> forall done, no_ub (bind_names p l done).
Proof.
  induction l as [|[nm a] l IH]; intros H done; cbn [bind_names]; [apply no_ub_val|].
  destruct (existsb _ done); [apply IH; intros; eapply H; right; eauto|].
  apply no_ub_bind; [apply (H nm a); now left|]. intros s _. apply IH. intros. eapply H. right. eauto.
Qed.
Lemma bind_names_val p l : (forall nm a, In (nm, a) l -> exists s, p a = Val s) -> forall done, exists b, bind_names p l done = Val b.
Proof.
  induction l as [|[nm a] l IH]; intros H done; cbn [bind_names]; [eauto|].
  destruct (existsb _ done); [apply IH; intros; eapply H; right; eauto|].
  destruct (H nm a) as (s & ->); [now left|]. cbn [bind]. apply IH. intros. eapply H. right. eauto.
Qed.

Section Turns.
Variable cf : cfg.
Hypothesis OK : ord_ok cf.
Variable sto : storage.
Hypothesis ok : sto_ok sto.
Hypothesis SV : (Z.of_nat (List.length (s_vars sto)) <= 32768)%Z.
Variable pg : prog.
Variable P : list (list node).
Variable pure : Prop.
Hypothesis PC : prog_code cf sto P pg.
Hypothesis CW : forall c, In c (PA P) -> clause_wf c /\ clause_ok cf c = true /\ Forall (good pure True) (tl c).
Variable qv : list string.
Notation pok := (pok cf sto P pure True qv).
Notation hp m := (m_heap (H := list cell) m).
Notation len := (@List.length cell).
Notation TK := (TK sto qv).

Lemma vidx_in nm v : vidx sto nm v -> nthZ (s_vars sto) v <> None.
Proof.
  intros (k & -> & E). pose proof (nth_error_lt _ _ _ E) as L. rewrite wrap16_small by lia. unfold nthZ.
  destruct (Z.ltb_spec (Z.of_nat k) 0); [lia|]. rewrite Nat2Z.id, E. discriminate.
Qed.
Lemma fit_print (m : mst (list cell)) : mfit sto m ->
  (forall d i n nm k, nth_error (hp m) d = Some (CFun i n) -> nthZ (s_functors sto) i = Some (FV nm k) -> fun_ok nm k) /\
  (forall d b v, nth_error (hp m) d = Some (CRef b v) -> nthZ (s_vars sto) v <> None).
Proof.
  intros [M _]. rewrite Forall_forall in M. split.
  - intros d i n nm k Hd Hi. destruct (M _ (nth_error_In _ _ Hd)) as (nm' & k' & C & _ & K). unfold cidx in C. rewrite Hi in C. now injection C as -> ->.
  - intros d b v Hd. destruct (M _ (nth_error_In _ _ Hd)) as (nm & K). eapply vidx_in; eauto.
Qed.
Lemma answer_of_mono n m h t : n <= m -> out_le (answer_of sto n h t) (answer_of sto m h t).
Proof. intros L. unfold answer_of. mono. apply bind_names_mono. intros. now apply str_of_mono. Qed.
Lemma answer_ub fuel (m : mst (list cell)) fs tr : mfit sto m -> wfh sto 0 (hp m) -> TK (hp m) fs tr -> no_ub (answer_of sto fuel (hp m) (Val tr)).
Proof.
  intros M W [[T _] _]. destruct (fit_print m M) as [FO VO]. unfold answer_of. cbn [bind]. apply bind_names_ub. intros nm a K.
  apply str_ub; auto. apply (T _ _ K).
Qed.
Lemma answer_val (m : mst (list cell)) fs tr : mfit sto m -> wfh sto 0 (hp m) -> finite_terms sto (hp m) -> TK (hp m) fs tr ->
  exists fuel b, answer_of sto fuel (hp m) (Val tr) = Val b.
Proof.
  intros M W Fi [[T _] _]. destruct (fit_print m M) as [FO VO]. unfold answer_of. cbn [bind].
  assert (G : forall l : list (string * nat), (forall s a, In (s, a) l -> a < len (hp m)) ->
    exists f, forall s a, In (s, a) l -> exists x, str_of (list cell) fops sto f (hp m) (map fst tr) false a = Val x).
  { induction l as [|[s a] l IH]; intros H; [exists 0; intros s a []|]. destruct IH as (f & Hf); [intros; eapply H; right; eauto|].
    assert (La : a < len (hp m)) by (eapply H; now left). destruct (Fi a La) as (t & Rt).
    destruct (rd_prints sto (hp m) (map fst tr) W FO VO a t Rt La) as (f' & Hf'). exists (Nat.max f f'). intros s' a' [K|K].
    - injection K as <- <-. destruct (Hf' false) as (x & E). exists x. eapply str_more; [|exact E]. lia.
    - destruct (Hf s' a' K) as (x & E). exists x. eapply str_more; [|exact E]. lia. }
  destruct (G tr) as (f & Hf); [intros s a K; apply (T _ _ K)|]. exists f. apply bind_names_val. exact Hf.
Qed.

(** What is known of the end of the code of a branch *)
Definition run_of (fuel : nat) (p : process) : out (istat * mst (list cell)) :=
  match p_codes p with
  | [] => Ub UCode
  | a :: _ => run_local cf sto fuel (removelast (ca_code a)) (set_regs (p_m p) (resize (m_regs (p_m p)) (ca_regs a)))
  end.
Lemma run_of_mono n m p : n <= m -> out_le (run_of n p) (run_of m p).
Proof. intros L. unfold run_of. destruct (p_codes p); [apply le_refl|]. now apply run_local_mono. Qed.

Lemma ready_safe fuel p fs : ready cf sto (labelled cf (PA P)) (good pure True) p fs -> exists r, p_turn cf sto fuel pg p = Val r.
Proof.
  intros Hr. destruct (ready_call cf sto ok (labelled cf (PA P)) (good pure True) (pow_of cf) (PA P) fuel p fs Hr) as
    (perm & V & n & gs & fs0 & a & rest & m' & V' & TA & -> & Ha & Hg & Ep & El & Er & _).
  unfold p_turn. rewrite Ep, Er. cbn [bind]. rewrite El. destruct (plookup _ pg); eauto.
Qed.

(** A turn has no undefined behaviour, ends if its instructions end and prints finite terms. *)
Lemma turn_safe p S : pok p S -> pfit sto p ->
  (forall fuel, no_ub (p_turn cf sto fuel pg p)) /\
  ((exists fuel, run_of fuel p <> Fuel) -> (forall h, ends_with cf sto p h -> finite_terms sto h) -> exists r, turns cf sto pg p r).
Proof.
  intros H PF.
  assert (Pr : forall fs tr a rest, p_codes p = a :: rest -> last (ca_code a) IProceed = IProceed -> p_trail p = Val tr ->
    (forall fuel m', run_of fuel p = Val (Cont, m') -> wfh sto 0 (hp m') /\ TK (hp m') fs tr) ->
    (forall fuel u, run_of fuel p <> Ub u) ->
    (forall fuel, no_ub (p_turn cf sto fuel pg p)) /\
    ((exists fuel, run_of fuel p <> Fuel) -> (forall h, ends_with cf sto p h -> finite_terms sto h) -> exists r, turns cf sto pg p r)).
  { intros fs tr a rest Ep El Et Hc Hu.
    assert (Fit : forall fuel s m', run_of fuel p = Val (s, m') -> mfit sto m').
    { intros fuel s m' E. unfold run_of in E. rewrite Ep in E. eapply ends_fit; eauto. }
    assert (Tn : forall fuel, p_turn cf sto fuel pg p = '(s, m) <- run_of fuel p ;; match s with Failing => Val PFails | Raise e => Val (PErr e)
       | Cont => if forallb is_dealloc rest then b <- answer_of sto fuel (hp m) (Val tr) ;; Val (PDone b)
                 else Val (PKids [{| p_m := fresh m; p_codes := rest; p_trail := p_trail p |}]) end).
    { intros fuel. unfold p_turn, run_of. rewrite Ep, El, Et. reflexivity. }
    split.
    - intros fuel. rewrite Tn. apply no_ub_bind; [intros u; apply Hu|]. intros [s m'] E.
      destruct s as [| |e]; try apply no_ub_val. destruct (Hc _ _ E) as [W Tk].
      destruct (forallb is_dealloc rest); [|apply no_ub_val].
      apply no_ub_bind; [|intros; apply no_ub_val]. eapply answer_ub; eauto.
    - intros (fuel & Hf) Fi. destruct (run_of fuel p) as [[s m']|u|] eqn:E; [|now elim (Hu fuel u)|contradiction].
      destruct s as [| |e].
      + destruct (Hc _ _ E) as [W Tk]. destruct (forallb is_dealloc rest) eqn:Ed.
        * destruct (answer_val m' fs tr) as (f2 & b & Eb); auto; [eapply Fit; eauto| |].
          { apply Fi. unfold run_of in E. rewrite Ep in E. exists fuel, a, rest, m'. auto. }
          exists (PDone b), (Nat.max fuel f2). rewrite Tn.
          rewrite (le_val _ _ _ (run_of_mono fuel (Nat.max fuel f2) p ltac:(lia)) E). cbn [bind].
          rewrite (le_val _ _ _ (answer_of_mono f2 (Nat.max fuel f2) (hp m') (Val tr) ltac:(lia)) Eb). reflexivity.
        * eexists _, fuel. rewrite Tn, E. reflexivity.
      + exists PFails, fuel. rewrite Tn, E. reflexivity.
      + exists (PErr e), fuel. rewrite Tn, E. reflexivity. }
  destruct H as [fs tr W SK Nd Et Tk|fs tr Hr Et Tk|hd body TA fs tr Hc Et Tk|nm a1 a2 fs tr Hc Hnm Hna Et Tk].
  - destruct (p_codes p) as [|a rest] eqn:Ep; [discriminate|].
    destruct (stk_top sto (good pure True) (pow_of cf) (PA P) _ _ _ _ SK a rest eq_refl) as (fs' & (SP & SVq & SD) & [TG|(-> & e & es & Ee & SK')]).
    + assert (HR : ready cf sto (labelled cf (PA P)) (good pure True) p fs') by (eapply goal_is_ready; eauto). split.
      * intros fuel. destruct (ready_safe fuel p fs' HR) as (r & ->). apply no_ub_val.
      * intros _ _. destruct (ready_safe 0 p fs' HR) as (r & E). exists r, 0. exact E.
    + assert (E : forall fuel, exists r, p_turn cf sto fuel pg p = Val r).
      { intros fuel. unfold p_turn. rewrite Ep. cbn. rewrite Ee. eauto. }
      split; [intros fuel; destruct (E fuel) as (r & ->); apply no_ub_val|]. intros _ _. destruct (E 0) as (r & Er). exists r, 0. exact Er.
  - split.
    + intros fuel. destruct (ready_safe fuel p fs Hr) as (r & ->). apply no_ub_val.
    + intros _ _. destruct (ready_safe 0 p fs Hr) as (r & E). exists r, 0. exact E.
  - assert (K : exists a rest, p_codes p = a :: rest /\ last (ca_code a) IProceed = IProceed).
    { destruct (head_run cf OK sto ok (good pure True) (pow_of cf) (PA P) (labelled cf (PA P)) 0 p hd body TA fs Hc) as (a & rest & Ep & El & _). eauto. }
    destruct K as (a & rest & Ep & El). apply (Pr fs tr a rest); auto.
    + intros fuel m' E. destruct (head_run cf OK sto ok (good pure True) (pow_of cf) (PA P) (labelled cf (PA P)) fuel p hd body TA fs Hc) as (a' & rest' & Ep' & El' & HR).
      rewrite Ep in Ep'. injection Ep' as <- <-. unfold run_of in E. rewrite Ep in E. rewrite E in HR. destruct HR as (W & HL & _).
      split; [assumption|]. eapply TK_hle; eauto.
    + intros fuel u E. destruct (head_run cf OK sto ok (good pure True) (pow_of cf) (PA P) (labelled cf (PA P)) fuel p hd body TA fs Hc) as (a' & rest' & Ep' & El' & HR).
      rewrite Ep in Ep'. injection Ep' as <- <-. unfold run_of in E. rewrite Ep in E. now rewrite E in HR.
  - assert (K : exists a rest, p_codes p = a :: rest /\ last (ca_code a) IProceed = IProceed).
    { destruct (special_run cf OK sto (good pure True) (PA P) 0 p nm a1 a2 fs Hc) as (a & rest & Ep & El & _). eauto. }
    destruct K as (a & rest & Ep & El). apply (Pr fs tr a rest); auto.
    + intros fuel m' E. destruct (special_run cf OK sto (good pure True) (PA P) fuel p nm a1 a2 fs Hc) as (a' & rest' & Ep' & El' & HR).
      rewrite Ep in Ep'. injection Ep' as <- <-. unfold run_of in E. rewrite Ep in E. rewrite E in HR. destruct HR as (W & HL & _).
      split; [assumption|]. eapply TK_hle; eauto.
    + intros fuel u E. destruct (special_run cf OK sto (good pure True) (PA P) fuel p nm a1 a2 fs Hc) as (a' & rest' & Ep' & El' & HR).
      rewrite Ep in Ep'. injection Ep' as <- <-. unfold run_of in E. rewrite Ep in E. rewrite E in HR. now apply (Hna I).
Qed.
End Turns.
