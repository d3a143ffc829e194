(** One turn of a branch and its solutions: soundness and completeness of a turn. *)
From Verif Require Import Base Machine Heap Facts Compiler Organizer Spec Print Valuation Process Shape Session Code Put Search PutRun Get Alloc Atoms Clause Stack Ready Heads Builtins.
Open Scope list_scope.

Lemma inst_targs vc v h n : atom_ok h -> atom_ok n ->
  (inst vc h = inst v n <-> to_fview h = to_fview n /\ map (inst vc) (targs h) = map (inst v) (targs n)).
Proof.
  intros Hh Hn. destruct h as [s|s|s|s l|s l], n as [t|t|t|t l'|t l']; try contradiction; cbn [atom_ok] in *.
  - cbn. split; [intros H; injection H as ->; auto|]. intros [_ H]. congruence.
  - destruct l'; [contradiction|]. cbn. split; [discriminate|intros [H _]; discriminate].
  - destruct l; [contradiction|]. cbn. split; [discriminate|intros [H _]; discriminate].
  - unfold targs, is_constant, to_fview. cbn [inst node_name kids]. split.
    + intros H. injection H as -> H. split; [|exact H]. apply (f_equal (@List.length gterm)) in H. rewrite !map_length in H. congruence.
    + intros [H H']. injection H as -> _. congruence.
Qed.

Lemma F2_nth_l {A B} (Q : A -> B -> Prop) l l' : Forall2 Q l l' -> forall i a, nth_error l i = Some a ->
  exists b, nth_error l' i = Some b /\ Q a b.
Proof.
  intros H. induction H as [|x y l l' Hxy H IH]; intros [|i] a E; try discriminate.
  - injection E as <-. exists y. auto.
  - now apply IH.
Qed.

(** The branch [p] completes its turn; [h] is its heap then. *)
Definition ends_with (cf : cfg) (sto : storage) (p : process) (h : list cell) : Prop :=
  exists fuel a rest m, p_codes p = a :: rest /\
    run_local cf sto fuel (removelast (ca_code a)) (set_regs (p_m p) (resize (m_regs (p_m p)) (ca_regs a))) = Val (Cont, m) /\
    m_heap m = h.

(** Turns still to come: leaving clauses, and whether the next turn enters one. *)
Definition leaves (a : catom) : bool := match last (ca_code a) IProceed with IDealloc => true | _ => false end.
Definition dn (l : list catom) : nat := List.length (filter leaves l).
Definition phase (p : process) : nat :=
  match p_codes p with
  | a :: _ => match last (ca_code a) IProceed with IProceed => 1 | _ => 0 end
  | [] => 0
  end.
Definition few_leave (pg : prog) (d : nat) : Prop := forall f rs r, plookup f pg = Some rs -> In r rs -> dn r <= d.
Lemma dn_app l l' : dn (l ++ l') = dn l + dn l'.
Proof. unfold dn. now rewrite filter_app, app_length. Qed.
Lemma phase_le p : phase p <= 1.
Proof. unfold phase. destruct (p_codes p) as [|a l]; [lia|]. destruct (last (ca_code a) IProceed); lia. Qed.

Section Sols.
Variable cf : cfg.
Hypothesis OK : ord_ok cf.
Variable sto : storage.
Hypothesis ok : sto_ok sto.
Variable pg : prog.
Variable P : list (list node).
(** [pure]: no == and \==, so that a failing branch has no solution *)
Variable pure : Prop.
(** [noarith]: no "is", so that there are no runtime errors *)
Variable noarith : Prop.
Definition good (n : node) : Prop :=
  (pure -> special (to_fview n) = None \/ to_fview n = FV "is" 2) /\ (noarith -> to_fview n <> FV "is" 2).
Definition PA : list (list node) := P ++ append_clauses.
Hypothesis PC : prog_code cf sto P pg.
Hypothesis CW : forall c, In c PA -> clause_wf c /\ clause_ok cf c = true /\ Forall good (tl c).
Hypothesis NR : pure -> forall f, special f <> None \/ is_append f = true -> clauses_of f P = [].
Variable R : nat.
Hypothesis RL : forall f rs r, plookup f pg = Some rs -> In r rs -> List.length r <= R.

Notation pw := (pow_of cf).
Notation Pend := (Pend pw PA).
Notation provs := (provs pw PA).
Notation hp m := (m_heap (H := list cell) m).
Notation len := (@List.length cell).
Notation sat := (sat sto).
Notation stk := (stk sto good).
Notation hle := (hle sto).
Notation ready := (ready cf sto (labelled cf PA) good).
Notation at_clause := (at_clause cf sto good (labelled cf PA)).
Notation at_special := (at_special cf sto good).
Notation SolG := (SolG sto pw PA).
Notation SolH := (SolH sto pw PA).
Notation SolS := (SolS cf sto PA).
Notation trail_ok := (trail_ok sto).
(** the variables of the query *)
Variable qv : list string.
(** the recorded addresses of the variables of the query *)
Definition TK (h : list cell) (fs : list frame_) (tr : list (string * nat)) : Prop :=
  trail_ok h (VQ fs) tr /\ forall s, qdom fs s <-> In s qv.
Lemma TK_hle h h' fs tr : hle h h' -> TK h fs tr -> TK h' fs tr.
Proof. intros H [A B]. split; [eapply trail_ok_hle; eauto|exact B]. Qed.

Inductive pok (p : process) : sols -> Prop :=
| pok_goal fs tr : wfh sto 0 (hp (p_m p)) -> stk (hp (p_m p)) (m_envs (p_m p)) (p_codes p) fs ->
    forallb is_dealloc (p_codes p) = false -> p_trail p = Val tr -> TK (hp (p_m p)) fs tr ->
    pok p (SolG (hp (p_m p)) fs)
| pok_ready fs tr : ready p fs -> p_trail p = Val tr -> TK (hp (p_m p)) fs tr -> pok p (SolG (hp (p_m p)) fs)
| pok_head hd body TA fs tr : at_clause p hd body TA fs -> p_trail p = Val tr -> TK (hp (p_m p)) fs tr ->
    pok p (SolH (hp (p_m p)) hd body TA fs)
| pok_spec nm a1 a2 fs tr : at_special p nm a1 a2 fs -> (pure -> nm = "is") -> (noarith -> nm <> "is") -> p_trail p = Val tr -> TK (hp (p_m p)) fs tr ->
    pok p (SolS (hp (p_m p)) nm a1 a2 fs).

(** The answer [b], found with heap [h], of a branch with solutions [S]. *)
Definition answer_for (S : sols) (h : list cell) (b : list (string * string)) : Prop :=
  exists fuel V tr, wfh sto 0 h /\ trail_ok h V tr /\ (forall s, V s <> None <-> In s qv) /\ answer_of sto fuel h (Val tr) = Val b /\
    (forall rho v, sat rho h -> cons_on rho V v -> S v 0) /\
    (forall v k, S v k -> exists rho, sat rho h /\ cons_on rho V v).
Definition kid_sols (p : process) (S : sols) (ps : list process) : Prop :=
  exists Ss, Forall2 pok ps Ss /\
    (forall i p' Si v k, nth_error ps i = Some p' -> nth_error Ss i = Some Si -> Si v k ->
       exists k', S v k' /\ 2 * k' + phase p <= 2 * k + 1 + phase p') /\
    (pure -> forall v k, S v k -> exists i p' Si k', nth_error ps i = Some p' /\ nth_error Ss i = Some Si /\ Si v k' /\
       List.length (p_codes p') + k' * R < List.length (p_codes p) + k * R /\
       forall d, few_leave pg d -> dn (p_codes p') + (2 + d) * k' + phase p' < dn (p_codes p) + (2 + d) * k + phase p).

Definition turn_ok (p : process) (S : sols) (r : step_res) : Prop :=
  match r with
  | PFails => pure -> forall v k, ~ S v k
  | PErr e => ~ noarith /\ ((forall x, e <> EUnbound x) -> forall v k, ~ S v k)
  | PDone b => exists h, ends_with cf sto p h /\ answer_for S h b
  | PKids ps => kid_sols p S ps
  end.

(** --- calling --- *)
Lemma prov_in_cases k n v : atom_ok n -> prov_in pw PA k (inst v n) ->
  (exists h b vc ns, In (h :: b) PA /\ to_fview h = to_fview n /\ map (inst vc) (targs h) = map (inst v) (targs n) /\
     Forall2 (fun a m => prov_in pw PA m (inst vc a)) b ns /\ k = S (fold_right Nat.add 0 ns)) \/
  (exists nm x y, n = NFun nm [x; y] /\ special (FV nm 2) <> None /\ holds_special cf nm (inst v x) (inst v y) /\ k = 1).
Proof.
  intros Ha H. remember (inst v n) as t eqn:Et. destruct H as [h b vc ns Hin Hb|t|t u|m e He].
  - left. exists h, b, vc, ns. destruct (CW _ Hin) as (Hw & _). cbn in Hw. inversion Hw as [|? ? Hh _]; subst.
    apply inst_targs in Et; auto. destruct Et. auto.
  - right. destruct n as [s|s|s|s l|s l]; try contradiction; cbn in Et; try discriminate. injection Et as <- El.
    destruct l as [|x [|y [|]]]; try discriminate. injection El as E1 E2. exists "==", x, y. csplit; auto; [discriminate|].
    cbn. congruence.
  - right. destruct n as [s|s|s|s l|s l]; try contradiction; cbn in Et; try discriminate. injection Et as <- El.
    destruct l as [|x [|y [|]]]; try discriminate. injection El as E1 E2. exists "\==", x, y. csplit; auto; [discriminate|].
    exact I.
  - right. destruct n as [s|s|s|s l|s l]; try contradiction; cbn in Et; try discriminate. injection Et as <- El.
    destruct l as [|x [|y [|]]]; try discriminate. injection El as E1 E2. exists "is", x, y. csplit; auto; [discriminate|].
    cbn. exists m. split; congruence.
Qed.
Lemma holds_special_prov nm t u : special (FV nm 2) <> None -> holds_special cf nm t u -> prov_in pw PA 1 (GFun nm [t; u]).
Proof.
  intros Hs H. destruct (special (FV nm 2)) as [i|] eqn:E; [|contradiction].
  destruct (special_eq _ _ E) as [[Ef _]|[[Ef _]|[Ef _]]]; injection Ef as ->; cbn in H.
  - destruct H as (n & -> & H). now constructor.
  - subst. constructor.
  - constructor.
Qed.
Lemma F2_map v rho TA l : Forall2 (fun (a : nat) n => rho a = inst v n) TA l -> map rho TA = map (inst v) l.
Proof. intros H. induction H; cbn; congruence. Qed.
Lemma map_F2 v rho TA : forall l, map rho TA = map (inst v) l -> Forall2 (fun (a : nat) n => rho a = inst v n) TA l.
Proof. induction TA as [|a TA IH]; intros [|n l] E; cbn in E; try discriminate; constructor; [congruence|]. apply IH. congruence. Qed.
Lemma vals_map h V TA l rho v : Forall2 (vals sto h V) TA l -> sat rho h -> cons_on rho V v -> map rho TA = map (inst v) l.
Proof. intros H Hs Hc. induction H; cbn; [reflexivity|]. f_equal; auto. Qed.

Lemma has_head_eq f h b : has_head f (h :: b) = true <-> to_fview h = f.
Proof. unfold has_head. cbn [head_fv]. apply fview_eqb_eq. Qed.

Lemma at_clause_phase p hd body TA fs : at_clause p hd body TA fs -> phase p = 1.
Proof.
  intros H. destruct (head_run cf OK sto ok good pw PA (labelled cf PA) 0 p hd body TA fs H) as (a & rest & Ep & El & _).
  unfold phase. now rewrite Ep, El.
Qed.
Lemma phase_call p a rest f : p_codes p = a :: rest -> last (ca_code a) IProceed = ICall f -> phase p = 0 /\ dn (p_codes p) = dn rest.
Proof. intros Ep El. unfold phase, dn. rewrite Ep. cbn [filter]. unfold leaves at 1. now rewrite El. Qed.
Lemma phase_proceed p a rest : p_codes p = a :: rest -> last (ca_code a) IProceed = IProceed -> phase p = 1 /\ dn (p_codes p) = dn rest.
Proof. intros Ep El. unfold phase, dn. rewrite Ep. cbn [filter]. unfold leaves at 1. now rewrite El. Qed.
Lemma phase_ready p fs : ready p fs -> phase p = 0.
Proof.
  intros H. destruct (ready_call cf sto ok (labelled cf PA) good pw PA 0 p fs H) as
    (perm & V & n & gs & fs0 & a & rest & m' & V' & TA & _ & _ & _ & Ep & El & _). unfold phase. now rewrite Ep, El.
Qed.
Lemma phase_stk p h envs fs : stk h envs (p_codes p) fs -> phase p = 0.
Proof.
  intros SK. unfold phase. destruct (p_codes p) as [|a rest] eqn:Ep; [reflexivity|].
  destruct (stk_top sto good pw PA _ _ _ _ SK a rest eq_refl) as (fs' & _ & [TG|(-> & _)]); [|reflexivity].
  inversion TG as [perm V n gs fs0 D D' seen s1 is u cs tl Hi Ha Ht Ec Er Es Eu En Q HD GC Hx Hs Dv Lv Ev Hg TL Erest Efs].
  now rewrite Ec, last_last.
Qed.

Lemma ready_turn fuel p fs tr r : ready p fs -> p_trail p = Val tr -> TK (hp (p_m p)) fs tr ->
  p_turn cf sto fuel pg p = Val r -> turn_ok p (SolG (hp (p_m p)) fs) r.
Proof.
  intros Hr Et Tk E.
  destruct (ready_call cf sto ok (labelled cf PA) good pw PA fuel p fs Hr) as
    (perm & V & n & gs & fs0 & a & rest & m' & V' & TA & -> & Ha & Hg & Ep & El & Er & W & HL & FW & SK & AG & TL & AR & VS & LV & DV & TR).
  destruct (phase_call p a rest _ Ep El) as [Ph Dn].
  unfold p_turn in E. rewrite Ep, Er in E. cbn [bind] in E. rewrite El in E.
  destruct (TR tr (proj1 Tk)) as (tr' & Etr & Tk1).
  set (fr := {| f_perm := perm; f_V := V; f_gs := n :: gs |}) in *.
  set (fr' := {| f_perm := perm; f_V := V'; f_gs := gs |}) in *.
  assert (Tk' : TK (hp m') (fr' :: fs0) tr').
  { split; [exact Tk1|]. intros s. rewrite <- (proj2 Tk s). cbn [qdom]. destruct fs0; [|reflexivity].
    cbn [f_V f_gs fr fr' flat_map]. rewrite DV, in_app_iff. tauto. }
  (* from the parent's solution to the state after the arguments are built *)
  assert (DN : forall v k, SolG (hp (p_m p)) (fr :: fs0) v k -> exists rho v' k0 k1 k2,
    sat rho (hp m') /\ (fs0 = [] -> v' = v) /\ cons_on rho V' v' /\ map rho TA = map (inst v') (targs n) /\
    prov_in pw PA k0 (inst v' n) /\ provs v' gs k1 /\ Pend fs0 rho v k2 /\ k = k0 + k1 + k2).
  { intros v k (rho & Hs & v' & k1 & k2 & Ev & Hc & Hp & Hq & ->). apply provs_cons in Hp. destruct Hp as (k0 & k3 & Hp0 & Hp & ->).
    destruct (FW rho v' Hs Hc) as (rho' & Ag & Hs' & Hc'). exists rho', v', k0, k3, k2. csplit; auto.
    - eapply vals_map; eauto.
    - eapply AG; eauto. }
  (* and back *)
  assert (UP : forall rho v v' k0 k1 k2, sat rho (hp m') -> (fs0 = [] -> v' = v) -> cons_on rho V' v' ->
    prov_in pw PA k0 (inst v' n) -> provs v' gs k1 -> Pend fs0 rho v k2 -> SolG (hp (p_m p)) (fr :: fs0) v (k0 + k1 + k2)).
  { intros rho v v' k0 k1 k2 Hs Ev Hc Hp0 Hp Hq. exists rho. split; [now apply HL|]. exists v', (k0 + k1), k2. csplit; auto.
    - eapply cons_on_mono; eauto.
    - apply provs_cons. eauto. }
  assert (Kid : forall b c rl, clause_code cf sto b c rl -> In c PA -> to_fview (hd (NCon "") c) = to_fview n ->
    at_clause {| p_m := fresh m'; p_codes := rl ++ rest; p_trail := trail_after a m' (p_trail p) |} (hd (NCon "") c) (tl c) TA (fr' :: fs0)).
  { intros b c rl Hc Hin Hh. destruct (CW c Hin) as (Hw & Hk & Hgd). destruct c as [|h body]; [contradiction|].
    cbn [hd tl] in *. cbn in Hw. inversion Hw as [|? ? Hah _]; subst. split. exists b, rl, rest. csplit; auto.
    rewrite TL. clear - Hh Ha Hah. destruct n as [s|s|s|s l|s l], h as [t|t|t|t l'|t l']; try contradiction; unfold to_fview in Hh; cbn in Hh |- *; try reflexivity.
    - destruct l'; [contradiction|discriminate].
    - destruct l; [contradiction|discriminate].
    - injection Hh as _ ->. reflexivity. }
  assert (Clauses : forall b cs rs, plookup (to_fview n) pg = Some rs -> Forall2 (clause_code cf sto b) cs rs ->
    (forall c, In c cs -> In c PA /\ to_fview (hd (NCon "") c) = to_fview n) ->
    (pure -> forall h body, In (h :: body) PA -> to_fview h = to_fview n -> In (h :: body) cs) ->
    (pure -> special (to_fview n) = None) ->
    kid_sols p (SolG (hp (p_m p)) (fr :: fs0))
      (map (fun r => {| p_m := fresh m'; p_codes := r ++ rest; p_trail := trail_after a m' (p_trail p) |}) rs)).
  { intros b cs rs Epl F2 Sub Sup NS. exists (map (fun c => SolH (hp m') (hd (NCon "") c) (tl c) TA (fr' :: fs0)) cs). csplit.
    - clear Sup NS Epl. induction F2 as [|c rl cs rs Hc F2 IH]; cbn [map]; constructor.
      + destruct (Sub c (or_introl eq_refl)) as [Hin Hh].
        apply (pok_head {| p_m := fresh m'; p_codes := rl ++ rest; p_trail := trail_after a m' (p_trail p) |} (hd (NCon "") c) (tl c) TA (fr' :: fs0) tr').
        * eapply Kid; eauto.
        * cbn [p_trail]. rewrite Et. exact Etr.
        * exact Tk'.
      + apply IH. intros c' Hc'. apply Sub. now right.
    - intros i p' Si v k Ei ESi HS. rewrite nth_error_map in ESi. destruct (nth_error cs i) as [c|] eqn:Ec; [|discriminate].
      injection ESi as <-. destruct (F2_nth_l _ _ _ F2 i _ Ec) as (rl & Erl & Hcc).
      rewrite (map_nth_error _ i rs Erl) in Ei. injection Ei as <-.
      assert (Hc : In c cs) by (eapply nth_error_In; eauto). destruct (Sub c Hc) as [Hin Hh].
      rewrite (at_clause_phase _ _ _ _ _ (Kid b c rl Hcc Hin Hh)), Ph.
      destruct (CW c Hin) as (Hw & _). destruct c as [|h body]; [contradiction|]. cbn [hd tl] in *. cbn in Hw. inversion Hw as [|? ? Hah _]; subst.
      destruct HS as (rho & vc & k1 & k2 & Hs & HT & (ns & Hb & ->) & (v' & k3 & k4 & Ev & Hc' & Hp & Hq & ->) & ->).
      exists (S (fold_right Nat.add 0 ns) + k3 + k4). split; [|lia]. apply (UP rho v v'); auto.
      assert (Ei : inst vc h = inst v' n).
      { apply inst_targs; auto. split; [assumption|]. rewrite <- (vals_map _ _ _ _ rho v' VS Hs Hc'). symmetry. now apply F2_map. }
      rewrite <- Ei. econstructor; eauto.
    - intros Pu v k HS. destruct (DN v k HS) as (rho & v' & k0 & k1 & k2 & Hs & Ev & Hc & HT & Hp0 & Hp & Hq & ->).
      destruct (prov_in_cases k0 n v' Ha Hp0) as [(h & bd & vc & ns & Hin & Hh & Hm & Hb & ->)|(nm & x & y & -> & Hsp & _)].
      2:{ exfalso. apply Hsp. apply (NS Pu). }
      pose proof (Sup Pu h bd Hin Hh) as Hics. apply In_nth_error in Hics. destruct Hics as (i & Ei).
      destruct (F2_nth_l _ _ _ F2 i _ Ei) as (rl & Erl & _).
      exists i, {| p_m := fresh m'; p_codes := rl ++ rest; p_trail := trail_after a m' (p_trail p) |},
        (SolH (hp m') h bd TA (fr' :: fs0)), (fold_right Nat.add 0 ns + (k1 + k2)).
      csplit.
      + exact (map_nth_error (fun r => {| p_m := fresh m'; p_codes := r ++ rest; p_trail := trail_after a m' (p_trail p) |}) i rs Erl).
      + exact (map_nth_error (fun c => SolH (hp m') (hd (NCon "") c) (tl c) TA (fr' :: fs0)) i cs Ei).
      + exists rho, vc, (fold_right Nat.add 0 ns), (k1 + k2). csplit; auto.
        * apply map_F2. congruence.
        * exists ns. auto.
        * exists v', k1, k2. auto.
      + cbn [p_codes]. rewrite Ep, app_length. cbn [List.length].
        assert (List.length rl <= R) by (eapply RL; [exact Epl|eapply nth_error_In; eauto]). lia.
      + intros d Hd. rewrite Ph, Dn. cbn [p_codes]. rewrite dn_app.
        assert (dn rl <= d) by (eapply Hd; [exact Epl|eapply nth_error_In; eauto]).
        match goal with |- context [phase ?x] => pose proof (phase_le x) end. lia. }
  specialize (PC (to_fview n)) as PCn. destruct (special (to_fview n)) as [i|] eqn:Esp.
  - destruct PCn as (rs & Epl & SC). rewrite Epl in E. injection E as <-.
    assert (exists nm x y, n = NFun nm [x; y] /\ to_fview n = FV nm 2) as (nm & x & y & -> & Ef).
    { destruct (special_eq _ _ Esp) as [[Ef _]|[[Ef _]|[Ef _]]]; destruct n as [s|s|s|s l|s l]; try contradiction; try discriminate;
      unfold to_fview in Ef; cbn [node_name kids] in Ef; injection Ef as -> El1;
      (destruct l as [|x [|y [|]]]; try discriminate; eauto). }
    rewrite Ef in *. cbn [targs is_constant kids List.length] in TL, VS. destruct TA as [|a1 [|a2 [|]]]; try discriminate.
    destruct (special_shape cf OK sto _ _ _ Esp SC) as (at_ & -> & Eat & Erg).
    cbn [map turn_ok]. exists [SolS (hp m') nm a1 a2 (fr' :: fs0)]. csplit.
    + constructor; [|constructor].
      apply (pok_spec {| p_m := fresh m'; p_codes := [at_] ++ rest; p_trail := trail_after a m' (p_trail p) |} nm a1 a2 (fr' :: fs0) tr').
      * split. exists i, [[at_]], [at_], rest. csplit; auto. now left.
      * intros Pu. destruct (proj1 Hg Pu) as [Hn|Hn]; rewrite Ef in Hn; congruence.
      * intros Na Hn. apply (proj2 Hg Na). rewrite Ef. now rewrite Hn.
      * cbn [p_trail]. rewrite Et. exact Etr.
      * exact Tk'.
    + intros [|[|i']] p' Si v k Ei ESi; try discriminate. injection Ei as <-. injection ESi as <-.
      intros (rho & Hs & Hh & v' & k1 & k2 & Ev & Hc & Hp & Hq & ->).
      pose proof (vals_map _ _ _ _ rho v' VS Hs Hc) as Hm. cbn [map] in Hm. injection Hm as M1 M2.
      exists (1 + k1 + k2). split; [|rewrite Ph; unfold phase; cbn [app p_codes]; rewrite Eat; cbn [last]; lia].
      apply (UP rho v v'); auto. cbn [inst map]. apply holds_special_prov; [congruence|]. rewrite <- M1, <- M2. assumption.
    + intros Pu v k HS. destruct (DN v k HS) as (rho & v' & k0 & k1 & k2 & Hs & Ev & Hc & HT & Hp0 & Hp & Hq & ->).
      exists 0. eexists _, _, (k1 + k2). csplit; [reflexivity|reflexivity| | |].
      * cbn [map targs is_constant kids] in HT. injection HT as M1 M2. exists rho. csplit; auto; [|exists v', k1, k2; auto].
        destruct (prov_in_cases k0 _ v' Ha Hp0) as [(h & bd & vc & ns & Hin & Hh & Hm & Hb & ->)|(nm' & x' & y' & En & _ & Hh & _)].
        -- exfalso. assert (Hc1 : In (h :: bd) (clauses_of (FV nm 2) PA)).
           { unfold clauses_of. apply filter_In. split; [assumption|]. apply has_head_eq. rewrite Hh. exact Ef. }
           unfold PA, clauses_of in Hc1. rewrite filter_app in Hc1. apply in_app_iff in Hc1. destruct Hc1 as [Hc1|Hc1].
           ++ change (filter (has_head (FV nm 2)) P) with (clauses_of (FV nm 2) P) in Hc1. rewrite (NR Pu (FV nm 2)) in Hc1; [contradiction|]. left. congruence.
           ++ apply filter_In in Hc1. destruct Hc1 as [Hc1 Hc2]. destruct (special_eq _ _ Esp) as [[Ef' _]|[[Ef' _]|[Ef' _]]];
                rewrite Ef' in Hc2; destruct Hc1 as [Hc1|[Hc1|[]]]; rewrite <- Hc1 in Hc2; discriminate.
        -- injection En as <- <- <-. rewrite M1, M2. exact Hh.
      * cbn [p_codes]. rewrite Ep, app_length. cbn [List.length].
        destruct (prov_in_cases k0 _ v' Ha Hp0) as [(h & bd & vc & ns & _ & _ & _ & _ & ->)|(nm' & x' & y' & _ & _ & _ & ->)].
        -- cbn. assert (1 <= R) by (apply (RL _ _ [at_] Epl); now left). lia.
        -- assert (1 <= R) by (apply (RL _ _ [at_] Epl); now left). lia.
      * intros d Hd. rewrite Ph, Dn. cbn [p_codes]. rewrite dn_app. assert (dn [at_] <= d) by (apply (Hd _ _ [at_] Epl); now left).
        match goal with |- context [phase ?x] => pose proof (phase_le x) end.
        assert (1 <= k0) by (destruct Hp0; lia). nia.
  - destruct (is_append (to_fview n)) eqn:Eap.
    + destruct PCn as (rs & Epl & F2). rewrite Epl in E. injection E as <-. cbn [turn_ok].
      eapply (Clauses true append_clauses); eauto.
      * intros c Hc. split; [unfold PA; apply in_app_iff; auto|]. unfold is_append in Eap. apply fview_eqb_eq in Eap. rewrite Eap.
        destruct Hc as [<-|[<-|[]]]; reflexivity.
      * intros Pu h bd Hin Hh. unfold PA in Hin. apply in_app_iff in Hin. destruct Hin as [Hin|Hin]; [|assumption]. exfalso.
        assert (K : In (h :: bd) (clauses_of (to_fview n) P)) by (apply filter_In; split; [assumption|now apply has_head_eq]).
        rewrite (NR Pu) in K; [contradiction|]. now right.
    + assert (Hap : forall h bd, In (h :: bd) append_clauses -> to_fview h <> to_fview n).
      { intros h bd Hin Hh. unfold is_append in Eap. rewrite <- Hh in Eap. destruct Hin as [Hin|[Hin|[]]]; injection Hin as <- _; discriminate. }
      destruct (plookup (to_fview n) pg) as [rs|] eqn:Epl.
      * injection E as <-. destruct PCn as [F2 _]. cbn [turn_ok]. eapply (Clauses false (clauses_of (to_fview n) P)); eauto.
        -- intros c Hc. apply filter_In in Hc. destruct Hc as [Hc Hh]. split; [unfold PA; apply in_app_iff; auto|].
           destruct c as [|h body]; [discriminate|]. now apply has_head_eq in Hh.
        -- intros _ h bd Hin Hh. apply filter_In. unfold PA in Hin. apply in_app_iff in Hin. destruct Hin as [Hin|Hin].
           ++ split; [assumption|now apply has_head_eq].
           ++ exfalso. eapply Hap; eauto.
      * injection E as <-. cbn [turn_ok]. intros _ v k HS.
        destruct (DN v k HS) as (rho & v' & k0 & k1 & k2 & Hs & Ev & Hc & HT & Hp0 & Hp & Hq & ->).
        destruct (prov_in_cases k0 n v' Ha Hp0) as [(h & bd & vc & ns & Hin & Hh & _)|(nm & x & y & -> & Hsp & _)].
        -- unfold PA in Hin. apply in_app_iff in Hin. destruct Hin as [Hin|Hin]; [|eapply Hap; eauto].
           assert (K : In (h :: bd) (clauses_of (to_fview n) P)) by (apply filter_In; split; [assumption|now apply has_head_eq]).
           rewrite PCn in K. contradiction.
        -- apply Hsp. exact Esp.
Qed.

(** --- entering a clause, a built-in predicate, leaving a clause --- *)
Lemma proceed_turn fuel p S fs tr a rest (m' : mstate) r : p_codes p = a :: rest -> last (ca_code a) IProceed = IProceed ->
  run_local cf sto fuel (removelast (ca_code a)) (set_regs (p_m p) (resize (m_regs (p_m p)) (ca_regs a))) = Val (Cont, m') ->
  wfh sto 0 (hp m') -> hle (hp (p_m p)) (hp m') -> stk (hp m') (m_envs m') rest fs ->
  (forall v k, S v k <-> SolG (hp m') fs v k) -> p_trail p = Val tr -> TK (hp (p_m p)) fs tr ->
  p_turn cf sto fuel pg p = Val r -> turn_ok p S r.
Proof.
  intros Ep El Er W HL SK HS Et Tk E. unfold p_turn in E. rewrite Ep, Er in E. cbn [bind] in E. rewrite El in E.
  assert (Tk' : TK (hp m') fs tr) by (eapply TK_hle; eauto).
  destruct (forallb is_dealloc rest) eqn:Ed.
  - rewrite Et in E. destruct (answer_of sto fuel (hp m') (Val tr)) as [b| |] eqn:Eb; cbn [bind] in E; try discriminate. injection E as <-.
    cbn [turn_ok]. exists (hp m'). split; [exists fuel, a, rest, m'; auto|]. exists fuel, (VQ fs), tr. destruct Tk' as [Tk1 Tk2]. csplit; auto.
    + intros s. rewrite <- Tk2. symmetry. eapply (stk_done_dom sto good pw PA); eauto.
    + intros rho v Hs Hc. apply HS. exists rho. split; [assumption|]. eapply stk_done; eauto.
    + intros v k H. apply HS in H. destruct H as (rho & Hs & Hp). exists rho. split; [assumption|].
      pose proof (stk_done_k sto good pw PA _ _ _ _ SK Ed _ _ _ Hp). subst k. eapply stk_done; eauto.
  - injection E as <-. cbn [turn_ok]. exists [SolG (hp m') fs]. destruct (phase_proceed p a rest Ep El) as [Ph Dn].
    pose proof (phase_stk {| p_m := fresh m'; p_codes := rest; p_trail := p_trail p |} _ _ _ SK) as Ph'. csplit.
    + constructor; [|constructor]. apply (pok_goal {| p_m := fresh m'; p_codes := rest; p_trail := p_trail p |} fs tr); auto.
    + intros [|[|i']] p' Si v k Ei ESi H; try discriminate. injection Ei as <-. injection ESi as <-. exists k. split; [now apply HS|lia].
    + intros _ v k H. exists 0. eexists _, _, k. csplit; [reflexivity|reflexivity|now apply HS| |].
      * cbn [p_codes]. rewrite Ep. cbn [List.length]. lia.
      * intros d _. rewrite Ph, Ph', Dn. cbn [p_codes]. lia.
Qed.

Theorem turn_sols fuel p S r : pok p S -> p_turn cf sto fuel pg p = Val r -> turn_ok p S r.
Proof.
  intros H E. destruct H as [fs tr W SK Nd Et Tk|fs tr Hr Et Tk|hd body TA fs tr Hc Et Tk|nm a1 a2 fs tr Hc Hnm Hna Et Tk].
  - destruct (p_codes p) as [|a rest] eqn:Ep; [discriminate|].
    destruct (stk_top sto good pw PA _ _ _ _ SK a rest eq_refl) as (fs' & (SP & SV & SD) & [TG|(-> & e & es & Ee & SK')]).
    + assert (HR : ready p fs') by (eapply goal_is_ready; eauto).
      assert (Tk2 : TK (hp (p_m p)) fs' tr) by (destruct Tk as [T1 T2]; split; [now rewrite <- SV|intros s; rewrite <- SD; apply T2]).
      clear Tk. rename Tk2 into Tk. pose proof (ready_turn fuel p fs' tr r HR Et Tk E) as K.
      assert (EqS : forall v k, SolG (hp (p_m p)) fs v k <-> SolG (hp (p_m p)) fs' v k).
      { intros v k. split; intros (rho & Hs & Hp); exists rho; (split; [assumption|]); now apply SP. }
      destruct r as [|e|b|ps]; cbn [turn_ok] in *; auto.
      * intros Pu v k HS. apply (K Pu v k), EqS, HS.
      * destruct K as [K1 K2]. split; [exact K1|]. intros NU v k HS. apply (K2 NU v k), EqS, HS.
      * destruct K as (h & Ke & f & V & tr0 & A1 & A2 & A3 & A4 & A5 & A6). exists h. split; [assumption|]. exists f, V, tr0. csplit; auto.
        -- intros rho v Hs Hv. apply EqS. eauto.
        -- intros v k HS. apply EqS in HS. eauto.
      * destruct K as (Ss & A1 & A2 & A3). exists Ss. csplit; auto.
        -- intros i p' Si v k Hi Hi' HS. destruct (A2 i p' Si v k Hi Hi' HS) as (k' & K & L). exists k'. split; [now apply EqS|assumption].
        -- intros Pu v k HS. apply EqS in HS. eauto.
    + unfold p_turn in E. rewrite Ep in E. cbn in E. rewrite Ee in E. injection E as <-. cbn [turn_ok].
      assert (Ph : phase p = 0) by (unfold phase; now rewrite Ep).
      match goal with |- kid_sols _ _ [?x] => pose proof (phase_stk x _ _ _ SK') as Ph' end. exists [SolG (hp (p_m p)) fs']. csplit.
      * constructor; [|constructor].
        refine (pok_goal {| p_m := set_envs _ es; p_codes := rest; p_trail := p_trail p |} fs' tr _ _ _ _ _); cbn [p_m p_codes p_trail m_heap m_envs set_envs set_regs]; auto.
        destruct Tk as [T1 T2]. split; [now rewrite <- SV|intros s; rewrite <- SD; apply T2].
      * intros [|[|i']] p' Si v k Ei ESi; try discriminate. injection Ei as <-. injection ESi as <-. intros (rho & Hs & Hp).
        exists k. split; [|lia]. exists rho. split; [assumption|]. now apply SP.
      * intros _ v k (rho & Hs & Hp). exists 0. eexists _, _, k. csplit; [reflexivity|reflexivity| | |].
        -- exists rho. split; [assumption|]. now apply SP.
        -- cbn [p_codes]. rewrite Ep. cbn [List.length]. lia.
        -- intros d _. rewrite Ph, Ph', Ep. cbn [p_codes]. unfold dn. cbn. lia.
  - eapply ready_turn; eauto.
  - destruct (head_run cf OK sto ok good pw PA (labelled cf PA) fuel p hd body TA fs Hc) as (a & rest & Ep & El & HR).
    destruct (run_local cf sto fuel (removelast (ca_code a)) _) as [[[| |e] m']|u|] eqn:Er; try contradiction.
    + destruct HR as (W & HL & HR). destruct body as [|b1 bs].
      * destruct HR as [SK HS]. eapply proceed_turn; eauto.
      * destruct HR as (Nd & fr & RD & HS). unfold p_turn in E. rewrite Ep, Er in E. cbn [bind] in E. rewrite El, Nd in E.
        injection E as <-. cbn [turn_ok]. exists [SolG (hp m') (fr :: fs)]. csplit.
        -- constructor; [|constructor].
           apply (pok_ready {| p_m := fresh m'; p_codes := rest; p_trail := p_trail p |} (fr :: fs) tr); auto.
           cbn [p_m fresh m_heap]. eapply TK_hle; [exact HL|].
           assert (Nf : fs <> []) by (destruct Hc as [(b & r & rest0 & _ & _ & _ & _ & _ & _ & _ & SK & _)]; eapply stk_ne; eauto).
           destruct fs; [contradiction|exact Tk].
        -- intros [|[|i']] p' Si v k Ei ESi H; try discriminate. injection Ei as <-. injection ESi as <-. exists k. split; [now apply HS|].
           pose proof (phase_le p). lia.
        -- intros _ v k H. exists 0. eexists _, _, k. csplit; [reflexivity|reflexivity|now apply HS| |].
           ++ cbn [p_codes]. rewrite Ep. cbn [List.length]. lia.
           ++ intros d _. destruct (phase_proceed p a rest Ep El) as [Ph Dn].
              rewrite (phase_ready _ _ (RD (p_trail p))), Ph, Dn. cbn [p_codes]. lia.
    + unfold p_turn in E. rewrite Ep, Er in E. cbn [bind] in E. injection E as <-. cbn [turn_ok]. auto.
    + unfold p_turn in E. rewrite Ep, Er in E. cbn [bind] in E. discriminate.
  - destruct (special_run cf OK sto good PA fuel p nm a1 a2 fs Hc) as (a & rest & Ep & El & HR).
    destruct (run_local cf sto fuel (removelast (ca_code a)) _) as [[[| |e] m']|u|] eqn:Er.
    + destruct HR as (W & HL & SK & HS). eapply proceed_turn; eauto.
    + unfold p_turn in E. rewrite Ep, Er in E. cbn [bind] in E. injection E as <-. cbn [turn_ok]. intros Pu. apply HR. auto.
    + unfold p_turn in E. rewrite Ep, Er in E. cbn [bind] in E. injection E as <-. cbn [turn_ok]. destruct HR as [HR1 HR2].
      split; [intros Na; now apply (Hna Na)|exact HR2].
    + unfold p_turn in E. rewrite Ep, Er in E. cbn [bind] in E. discriminate.
    + unfold p_turn in E. rewrite Ep, Er in E. cbn [bind] in E. discriminate.
Qed.
End Sols.
