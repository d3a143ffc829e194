(** The names under which unbound variables appear in answers (C44). *)
From Verif Require Import Base Machine Heap Facts HeapSim Compiler Parser Print Organizer Spec Valuation Process Refine Mono Turn Shape Session
  Code Put Search PutRun Get Alloc Atoms Clause Stack Ready Heads Builtins Sols Solve Terms Shown Parsed Tables Root Order Runs Answers
  Clash Sim Cells Examples Witness Finite Tree TreeTurn TreeInv TreeRun TreeSrc TreeFacts TreeShape TreeAll TreeCase Labels Bound Names Returns Clean Shows Flat Safe Spelling.
Open Scope string_scope.
Open Scope list_scope.

(** The variables of a term, with the names they are shown by. *)
Fixpoint tm_vars (t : tm) : list (nat * string) :=
  match t with
  | TVar k nm => [(k, nm)]
  | TFun _ l | TEv _ l => flat_map tm_vars l
  | _ => []
  end.

(** The constants of a term. *)
Fixpoint tm_cons (t : tm) : list string :=
  match t with
  | TCon s => [s]
  | TFun _ l | TEv _ l => flat_map tm_cons l
  | _ => []
  end.

Section Str.
Variable sto : storage.
Variable h : list cell.
Variable users : list string.
Hypothesis W : wfh sto 0 h.
Hypothesis FO : forall d i n nm k, nth_error h d = Some (CFun i n) -> nthZ (s_functors sto) i = Some (FV nm k) -> fun_ok nm k.
Notation rd := (rd sto h).
Notation rds := (rds sto h).
Notation str f := (str_of (list cell) fops sto f h users).

(** the name in the source of the variable at an address *)
Definition base_of (k : nat) : option string := match nth_error h k with Some (CRef _ v) => nthZ (s_vars sto) v | _ => None end.
Definition shown_name (a d : nat) (x : string) : string :=
  if Nat.eqb a d && negb (existsb (fun u => String.eqb u x) users) then (x ++ string_of_nat d)%string else x.
(** [leads a d]: the references from [a] end at [d]. *)
Inductive leads : nat -> nat -> Prop :=
| ld_end a : next h a = None -> leads a a
| ld_next a b d : next h a = Some b -> leads b d -> leads a d.
(** The term at an address, with the names of its variables: the name in the source, and behind it the address where no
    reference was followed and the query has no variable of this name. *)
Inductive nrd : nat -> tm -> Prop :=
| nr_var a d v x : leads a d -> nth_error h d = Some (CRef d v) -> nthZ (s_vars sto) v = Some x -> nrd a (TVar d (shown_name a d x))
| nr_con a d i : leads a d -> nth_error h d = Some (CCons i) -> nrd a (TCon (fn sto i))
| nr_int a d n : leads a d -> nth_error h d = Some (CInt n) -> nrd a (TInt n)
| nr_fun a d i n l : leads a d -> nth_error h d = Some (CFun i n) -> nrds (S d) (Z.to_nat n) l -> nrd a (TFun (fn sto i) l)
| nr_ev a d i n l : leads a d -> nth_error h d = Some (CEval i n) -> nrds (S d) (Z.to_nat n) l -> nrd a (TEv (opn i) l)
with nrds : nat -> nat -> list tm -> Prop :=
| nrs_nil a : nrds a 0 []
| nrs_cons a n t l : nrd a t -> nrds (S a) n l -> nrds a (S n) (t :: l).
Scheme nrd_mut := Minimality for nrd Sort Prop with nrds_mut := Minimality for nrds Sort Prop.
Lemma leads_rd a d t : leads a d -> rd d t -> rd a t.
Proof. induction 1 as [|a b d E L IH]; [auto|]. intros R. eapply rd_next; eauto. Qed.
Lemma nrd_rd : forall a t, nrd a t -> rd a t.
Proof.
  apply (nrd_mut (fun a t => rd a t) (fun a n l => rds a n l)).
  - intros a d v x L E _. eapply leads_rd; [exact L|]. eapply rd_var; eauto.
  - intros a d i L E. eapply leads_rd; [exact L|]. eapply rd_con; eauto.
  - intros a d n L E. eapply leads_rd; [exact L|]. eapply rd_int; eauto.
  - intros a d i n l L E _ R. eapply leads_rd; [exact L|]. eapply rd_fun; eauto.
  - intros a d i n l L E _ R. eapply leads_rd; [exact L|]. eapply rd_ev; eauto.
  - constructor.
  - intros. now constructor.
Qed.
Lemma deref_leads a d : deref (list cell) fops h a = Val d -> leads a d.
Proof.
  intros E. apply deref_derefs in E. destruct E as (n & D). 
  induction D; [now constructor|econstructor; eauto].
Qed.
Definition well_named (t : tm) : Prop := forall k nm, In (k, nm) (tm_vars t) ->
  exists x, base_of k = Some x /\ (nm = x \/ (nm = (x ++ string_of_nat k)%string /\ ~ In x users)).
Lemma shown_cases a d x : shown_name a d x = x \/ (shown_name a d x = (x ++ string_of_nat d)%string /\ ~ In x users).
Proof.
  unfold shown_name. destruct (Nat.eqb a d); cbn [andb]; [|now left].
  destruct (existsb (fun u => String.eqb u x) users) eqn:Ex; cbn [negb]; [now left|]. right. split; [reflexivity|].
  intros K. rewrite <- not_true_iff_false in Ex. apply Ex. apply existsb_exists. exists x. split; [assumption|apply String.eqb_refl].
Qed.
Lemma nrd_named : forall a t, nrd a t -> well_named t.
Proof.
  apply (nrd_mut (fun a t => well_named t) (fun a n l => Forall well_named l)).
  - intros a d v x L E Ex k nm [K|[]]. injection K as <- <-. exists x. split; [unfold base_of; now rewrite E|]. apply shown_cases.
  - intros a d i L E ? ? [].
  - intros a d n L E ? ? [].
  - intros a d i n l L E _ F k nm K. cbn [tm_vars] in K. apply in_flat_map in K. destruct K as (t & Ht & K). rewrite Forall_forall in F. exact (F t Ht k nm K).
  - intros a d i n l L E _ F k nm K. cbn [tm_vars] in K. apply in_flat_map in K. destruct K as (t & Ht & K). rewrite Forall_forall in F. exact (F t Ht k nm K).
  - constructor.
  - intros. now constructor.
Qed.

Lemma str_args_named p : (forall a s, p a = Val s -> exists t, nrd a t /\ s = printed false t) -> forall n k s,
  str_args p n k = Val s -> exists l, nrds k (S n) l /\ s = String.concat "," (map (printed false) l).
Proof.
  intros Hp. induction n as [|n IH]; intros k s E; cbn [str_args] in E.
  - destruct (Hp _ _ E) as (t & Rt & ->). exists [t]. csplit; auto. constructor; [assumption|constructor].
  - destruct (p k) as [a| |] eqn:Ea; cbn [bind] in E; try discriminate.
    destruct (str_args p n (S k)) as [r| |] eqn:Er; cbn [bind] in E; try discriminate. injection E as <-.
    destruct (Hp _ _ Ea) as (t & Rt & ->). destruct (IH _ _ Er) as (l & Rl & ->).
    exists (t :: l). csplit; auto; [now constructor|]. inversion Rl; subst. reflexivity.
Qed.
Lemma str_named : forall fuel contig a s, str fuel contig a = Val s -> exists t, nrd a t /\ s = printed contig t.
Proof.
  induction fuel as [|f IH]; intros contig a s E; [discriminate|]. cbn [str_of] in E.
  destruct (deref (list cell) fops h a) as [d| |] eqn:Ed; cbn [bind] in E; try discriminate.
  pose proof (deref_leads a d Ed) as L. destruct (deref_rd sto h a d Ed) as (Nd & _ & _).
  destruct (at_ (list cell) fops h d) as [c| |] eqn:Ec; cbn [bind] in E; try discriminate.
  assert (Hd : nth_error h d = Some c) by (unfold at_ in Ec; cbn [h_at fops] in Ec; destruct (nth_error h d); cbn in Ec; congruence).
  pose proof (proj1 W d c Hd) as Wc.
  destruct c as [i|m|b v|i m|i m|b]; try discriminate.
  - destruct Wc as (nm & Ei). rewrite Ei in E. cbn [of_opt bind fv_name] in E. injection E as <-.
    eexists. split; [eapply nr_con; eassumption|]. unfold fn. rewrite Ei. reflexivity.
  - injection E as <-. eexists. split; [eapply nr_int; eassumption|reflexivity].
  - assert (b = d) as -> by (unfold next in Nd; rewrite Hd in Nd; destruct (Nat.eqb_spec b d); [assumption|discriminate]).
    destruct (nthZ (s_vars sto) v) as [x|] eqn:Ev; cbn [of_opt bind] in E; [|discriminate]. injection E as <-.
    eexists. split; [eapply nr_var; eassumption|]. cbn [printed]. unfold shown_name. destruct (Nat.eqb_spec a d) as [->|Ne]; reflexivity.
  - destruct Wc as (Hm & (nm & Ei) & Lm). rewrite Ei in E. cbn [of_opt bind] in E.
    assert (Efn : fn sto i = nm) by (unfold fn; now rewrite Ei).
    assert (Mk : forall l, nrds (S d) (Z.to_nat m) l -> nrd a (TFun nm l)) by (intros l Rl; rewrite <- Efn; eapply nr_fun; eassumption).
    pose proof (FO _ _ _ _ _ Hd Ei) as Fk.
    unfold fv_is_empty_list, fv_is_append, fv_is_list in E. cbn [fv_name fv_arity] in E.
    destruct (Z.to_nat m) as [|n1] eqn:Em.
    { destruct Fk as [[-> _]|(_ & _ & K)]; [|now elim K]. cbn in E. injection E as <-.
      exists (TFun "[" []). split; [apply Mk; constructor|reflexivity]. }
    cbn [Nat.eqb] in E. rewrite andb_false_r in E. replace (d + 1) with (S d) in E by lia.
    destruct Fk as [[-> Fk]|(Nl & Nb & _)].
    + destruct Fk as [Fk|Fk]; [discriminate|]. injection Fk as ->. cbn [String.eqb] in E.
      replace (d + 2) with (S (S d)) in E by lia.
      destruct (str f false (S d)) as [hd| |] eqn:E1; cbn [bind] in E; try discriminate.
      destruct (deref (list cell) fops h (S (S d))) as [rdd| |] eqn:E2; cbn [bind] in E; try discriminate.
      destruct (at_ (list cell) fops h rdd) as [rc| |] eqn:E3; cbn [bind] in E; try discriminate.
      destruct (str f true (S (S d))) as [rest| |] eqn:E4; cbn [bind] in E; try discriminate.
      destruct (IH _ _ _ E1) as (t1 & S1 & ->). destruct (IH _ _ _ E4) as (t2 & S3 & ->).
      assert (Hrc : match rc with CRef _ _ => "|" | _ => "," end = match t2 with TVar _ _ => "|" | _ => "," end).
      { destruct (deref_rd sto h _ _ E2) as (Nr & _ & Fw). pose proof (rd_inv sto h rdd _ (Fw _ (nrd_rd _ _ S3)) Nr) as K.
        assert (Hr : nth_error h rdd = Some rc) by (unfold at_ in E3; cbn [h_at fops] in E3; destruct (nth_error h rdd); cbn in E3; congruence).
        rewrite Hr in K. destruct rc as [j|m1|b v|j m1|j m1|b].
        - now subst t2.
        - now subst t2.
        - assert (b = rdd) as -> by (unfold next in Nr; rewrite Hr in Nr; destruct (Nat.eqb_spec b rdd); [assumption|discriminate]).
          destruct (K eq_refl) as (nm & ->). reflexivity.
        - destruct K as (l & -> & _). reflexivity.
        - destruct K as (l & -> & _). reflexivity.
        - exfalso. destruct (root_cases sto 0 h rdd W (nth_error_lt _ _ _ Hr) Nr) as (c & Ec' & Hc). rewrite Hr in Ec'. injection Ec' as <-. exact Hc. }
      rewrite Hrc in E. exists (TFun "[" [t1; t2]). split; [apply Mk; repeat (constructor; auto)|].
      cbn [printed]. change ("[" =? "[") with true. cbv iota. destruct contig; [now injection E as <-|]. now apply set_last_relast.
    + apply String.eqb_neq in Nb. rewrite Nb in E. assert (Nl' := Nl). apply String.eqb_neq in Nl'. rewrite Nl' in E.
      destruct (str_args (str f false) n1 (S d)) as [args| |] eqn:Ea; cbn [bind] in E; try discriminate. injection E as <-.
      destruct (str_args_named (str f false) (IH false) n1 (S d) args Ea) as (l & Rl & ->).
      exists (TFun nm l). split; [auto|].
      inversion Rl; subst. symmetry. apply printed_plain; [assumption|discriminate].
  - destruct Wc as (-> & Hi & Lm).
    replace (d + 1) with (S d) in E by lia. replace (d + 2) with (S (S d)) in E by lia.
    destruct (op_name i) as [nm|] eqn:Eo; cbn [of_opt bind] in E; [|discriminate].
    destruct (str f false (S d)) as [s1| |] eqn:E1; cbn [bind] in E; try discriminate.
    destruct (str f false (S (S d))) as [s2| |] eqn:E2; cbn [bind] in E; try discriminate. injection E as <-.
    destruct (IH false _ _ E1) as (t1 & S1 & ->). destruct (IH false _ _ E2) as (t2 & S3 & ->).
    exists (TEv (opn i) [t1; t2]). split.
    + eapply nr_ev; [exact L|exact Hd|]. change (Z.to_nat 2) with 2. repeat (constructor; auto).
    + unfold opn. cbn [printed]. rewrite Eo. reflexivity.
Qed.
End Str.

Lemma nrd_cons sto h users GV GC : named sto GV GC h -> forall a t, nrd sto h users a t -> forall s, In s (tm_cons t) -> GC s.
Proof.
  intros [_ N]. apply (nrd_mut sto h users (fun a t => forall s, In s (tm_cons t) -> GC s) (fun a n l => Forall (fun t => forall s, In s (tm_cons t) -> GC s) l)).
  - intros a d v x L E Ex s [].
  - intros a d i L E s [K|[]]. destruct (N _ _ E) as (t & C & Ht). unfold cidx in C. unfold fn in K. rewrite C in K. cbn [fv_name] in K. now subst.
  - intros a d n L E s [].
  - intros a d i n l L E _ F s K. cbn [tm_cons] in K. apply in_flat_map in K. destruct K as (t & Ht & K). rewrite Forall_forall in F. exact (F t Ht s K).
  - intros a d i n l L E _ F s K. cbn [tm_cons] in K. apply in_flat_map in K. destruct K as (t & Ht & K). rewrite Forall_forall in F. exact (F t Ht s K).
  - constructor.
  - intros. now constructor.
Qed.
Lemma named_base sto h users GV GC a t : (Z.of_nat (List.length (s_vars sto)) <= 32768)%Z -> named sto GV GC h -> nrd sto h users a t -> forall k nm, In (k, nm) (tm_vars t) ->
  exists x, base_of sto h k = Some x /\ GV x /\ (nm = x \/ (nm = (x ++ string_of_nat k)%string /\ ~ In x users)).
Proof.
  intros VT [N _] R. revert a t R.
  apply (nrd_mut sto h users (fun a t => forall k nm, In (k, nm) (tm_vars t) ->
    exists x, base_of sto h k = Some x /\ GV x /\ (nm = x \/ (nm = (x ++ string_of_nat k)%string /\ ~ In x users)))
    (fun a n l => Forall (fun t => forall k nm, In (k, nm) (tm_vars t) ->
    exists x, base_of sto h k = Some x /\ GV x /\ (nm = x \/ (nm = (x ++ string_of_nat k)%string /\ ~ In x users))) l)).
  - intros a d v x L E Ex k nm [K|[]]. injection K as <- <-. exists x. split; [unfold base_of; now rewrite E|]. split; [|apply shown_cases].
    destruct (N _ _ E) as (s & C & Gs). apply (vidx_name sto VT) in C. rewrite Ex in C. injection C as ->. exact Gs.
  - intros a d i L E ? ? [].
  - intros a d n L E ? ? [].
  - intros a d i n l L E _ F k nm K. cbn [tm_vars] in K. apply in_flat_map in K. destruct K as (t & Ht & K). rewrite Forall_forall in F. exact (F t Ht k nm K).
  - intros a d i n l L E _ F k nm K. cbn [tm_vars] in K. apply in_flat_map in K. destruct K as (t & Ht & K). rewrite Forall_forall in F. exact (F t Ht k nm K).
  - constructor.
  - intros. now constructor.
Qed.

(** the spelling of a term on the heap *)
Lemma nrd_spelled sto h users : wfh sto 0 h -> (forall i f, nthZ (s_functors sto) i = Some f -> functor_name (fv_name f) = true) ->
  (forall d i n nm k, nth_error h d = Some (CFun i n) -> nthZ (s_functors sto) i = Some (FV nm k) -> fun_ok nm k) ->
  forall a t, nrd sto h users a t -> (forall k nm, In (k, nm) (tm_vars t) -> name_with capital nm = true) ->
    (forall s, In s (tm_cons t) -> name_with small s = true) -> spelled t = true.
Proof.
  intros W F FO.
  pose (Q t := (forall k nm, In (k, nm) (tm_vars t) -> name_with capital nm = true) -> (forall s, In s (tm_cons t) -> name_with small s = true) -> spelled t = true).
  assert (Kl : forall l, Forall Q l ->
      (forall k nm, In (k, nm) (flat_map tm_vars l) -> name_with capital nm = true) -> (forall s, In s (flat_map tm_cons l) -> name_with small s = true) -> forallb spelled l = true).
  { intros l Fl N M. apply forallb_forall. intros t Ht. rewrite Forall_forall in Fl. apply (Fl t Ht).
    - intros k nm K. apply (N k nm). apply in_flat_map. eauto.
    - intros s K. apply (M s). apply in_flat_map. eauto. }
  apply (nrd_mut sto h users (fun a t => Q t) (fun a n l => Forall Q l /\ List.length l = n)); unfold Q.
  - intros a d v x L E Ex N M. cbn [spelled]. apply (N d). now left.
  - intros a d i L E N M. cbn [spelled]. apply M. now left.
  - reflexivity.
  - intros a d i n l L E _ [Fl Ln] N M. cbn [spelled]. rewrite (Kl l Fl N M), andb_true_r. destruct (proj1 W _ _ E) as (_ & (nm & Ei) & _). unfold fn. rewrite Ei.
    rewrite Ln. pose proof (FO d i n _ _ E Ei) as [[-> K]|(K1 & _ & K2)]; cbn [fv_name].
    + destruct K as [->| ->]; reflexivity.
    + apply String.eqb_neq in K1. rewrite K1. pose proof (F _ _ Ei) as Fi. cbn [fv_name] in Fi. rewrite Fi. apply Nat.eqb_neq in K2. now rewrite K2.
  - intros a d i n l L E _ [Fl Ln] N M. cbn [spelled]. rewrite (Kl l Fl N M), andb_true_r. destruct (proj1 W _ _ E) as (-> & Hi & _). rewrite Ln, andb_true_r. unfold opn. destruct (op_name i) as [s|] eqn:Eo; [exact (op_spelled _ _ Eo)|]. exfalso.
    assert (i = 0 \/ i = 1 \/ i = 2 \/ i = 3 \/ i = 4)%Z as K by lia. destruct K as [->|[->|[->|[->| ->]]]]; discriminate Eo.
  - split; [constructor|reflexivity].
  - intros a n t l _ Qt _ [Fl Ln]. split; [now constructor|]. cbn. now rewrite Ln.
Qed.

(** --- answers --- *)
(** [base]: the variables' names in the source; [sg]: the terms shown. *)
Definition names_ok (q : list node) (P : list (list node)) (base : nat -> string) (t : tm) : Prop :=
  (forall k nm, In (k, nm) (tm_vars t) -> In (base k) (flat_map nvars (atoms q P)) /\
     (nm = base k \/ (nm = (base k ++ string_of_nat k)%string /\ ~ In (base k) (flat_map nvars q)))) /\
  (forall s, In s (tm_cons t) -> In s (flat_map ncons (atoms q P))).

Section Session.
Variable cf : cfg.
Hypothesis OK : ord_ok cf.
Variable o : org.
Variable P : list (list node).
Variable q : list node.
Hypothesis HS : session cf o P (QFresh q).
Hypothesis SM : small_tables (o_sto o).
Hypothesis VT : (Z.of_nat (List.length (s_vars (o_sto o))) <= 32768)%Z.
Hypothesis NC : no_clash cf P.
Notation sto := (o_sto o).
Notation pg := (o_prog o).
Notation qv := (flat_map vars_of q).

(** The terms shown by an answer, and the names in them. *)
Lemma answered_named b h V tr Si : answered cf o P q b h V tr Si ->
  exists sg base, shows sto h qv V tr b sg /\ forall x, In x (flat_map nvars q) -> names_ok q P base (sg x) /\ spelled (sg x) = true.
Proof.
  intros A. destruct (an_path _ _ _ _ _ _ _ _ _ A) as (root & pi & p & Hr & At & He). pose proof (an_wf _ _ _ _ _ _ _ _ _ A) as W.
  pose proof (an_trail _ _ _ _ _ _ _ _ _ A) as TR. pose proof (an_vars _ _ _ _ _ _ _ _ _ A) as QV. destruct (an_text _ _ _ _ _ _ _ _ _ A) as (fuel & AO).
  pose proof (sess_ok cf o P q HS SM) as ok. pose proof (sess_heap cf OK o P q HS SM root pi p h Hr At He) as FO. destruct (sess_query cf o P q HS) as [Ne Fa].
  destruct (answer_names sto h qv V tr fuel b TR QV AO) as [N1 N2].
  assert (Nm : named sto (fun s => In s (flat_map nvars (atoms q P))) (fun s => In s (flat_map ncons (atoms q P))) h).
  { destruct (root_code cf o P q HS root Hr) as (rl & -> & QC). destruct (session_parsed _ _ _ _ HS) as [[PW _] _].
    destruct (session_top _ _ _ _ HS) as [TP TQ]. cbn in TQ. rewrite Forall_forall in TP, TQ.
    eapply (ends_named cf OK sto ok pg P (sess_PC cf o P q HS) PW NC q rl QC (conj Ne Fa)); eauto.
    - intros n Hn. apply leaves_atom. apply own_atom; [auto|]. unfold atoms. rewrite !in_app_iff. auto.
    - intros c n Hc Hn. apply leaves_atom. apply own_atom; [|unfold atoms; rewrite !in_app_iff; right; left; apply in_concat; eauto].
      specialize (TP c Hc). rewrite Forall_forall in TP. auto.
    - intros c n Hc Hn. apply leaves_atom. apply own_atom; [eapply append_top; eauto|]. unfold atoms. rewrite !in_app_iff. right. right. apply in_concat; eauto. }
  assert (Us : forall x, In x (map fst tr) <-> In x (flat_map nvars q)).
  { intros x. destruct TR as [_ T2]. rewrite <- (qvars_nvars q Fa), <- QV, T2. tauto. }
  assert (AO' := AO). unfold answer_of in AO'. cbn [bind] in AO'. apply bind_names_spec in AO'; [|constructor]. destruct AO' as (_ & _ & C).
  destruct (choose_names b (fun x s t => s = printed false t /\ exists a', In (x, a') tr /\ nrd sto h (map fst tr) a' t) N1) as (sg & Hs).
  { intros x s Kx. destruct (C x s Kx) as [[]|(a & Ka & Es)].
    destruct (str_named sto h (map fst tr) W FO fuel false a s Es) as (t' & Rt' & ->). exists t'. eauto. }
  exists sg, (fun k => match base_of sto h k with Some x => x | None => "" end).
  assert (Hx : forall x, In x (flat_map nvars q) -> exists a', In (x, a') tr /\ nrd sto h (map fst tr) a' (sg x)).
  { intros x Hx. apply (qvars_nvars q Fa) in Hx. apply N2 in Hx. apply in_map_iff in Hx. destruct Hx as ((y & s) & Ey & Kx). cbn in Ey. subst y.
    apply (Hs x s Kx). }
  split.
  - split; [intros x s Kx; apply (Hs x s Kx)|]. intros x Kx. assert (Kx' := Kx). apply QV in Kx'. destruct (V x) as [av|] eqn:Ex; [|congruence].
    exists av. split; [reflexivity|]. apply (qvars_nvars q Fa) in Kx. destruct (Hx x Kx) as (a' & I1 & I2). exists a'. split; [assumption|]. eapply nrd_rd; eauto.
  - intros x Kx. destruct (Hx x Kx) as (a' & _ & Ra). split; [split|].
    + intros k0 nm Kn. destruct (named_base _ _ _ _ _ _ _ VT Nm Ra k0 nm Kn) as (y & -> & Gy & Cy). split; [assumption|]. rewrite Us in Cy. exact Cy.
    + intros s Ks. exact (nrd_cons _ _ _ _ _ Nm _ _ Ra s Ks).
    + refine (nrd_spelled sto h _ W _ FO a' (sg x) Ra _ _).
      * intros i f. exact (functors_spelled cf o P _ i f HS).
      * intros k0 nm Kn. destruct (named_base _ _ _ _ _ _ _ VT Nm Ra k0 nm Kn) as (y & _ & Gy & Cy). pose proof (own_capital cf o P q y HS Gy) as Ny.
        destruct Cy as [->|[-> _]]; [exact Ny|]. apply name_with_app; [exact Ny|apply nat_chars].
      * intros s Ks. exact (own_small cf o P q s HS (nrd_cons _ _ _ _ _ Nm _ _ Ra s Ks)).
Qed.
Theorem answers_named rs o' b : run cf o rs o' -> In (RAnswer b) (delivered rs) ->
  exists sg base, reads b sg /\ (forall x, In x (flat_map nvars q) -> names_ok q P base (sg x) /\ spelled (sg x) = true) /\
    (no_cycles cf o -> forall g a, In a q -> prov (pow_of cf) (P ++ append_prog) (inst (fun x => ginst g (sg x)) a)).
Proof.
  intros HR Hb. destruct (delivered_answered cf OK o P q HS SM NC rs o' b HR Hb) as (h & V & tr & Si & A).
  destruct (answered_named b h V tr Si A) as (sg & base & Sh & N). exists sg, base. split; [apply Sh|]. split; [exact N|].
  exact (an_prov cf o P q HS b h V tr Si sg A Sh).
Qed.
End Session.

(** Names formed with an address are as different as the addresses. *)
Lemma numbered_distinct x k k' : (x ++ string_of_nat k = x ++ string_of_nat k')%string -> k = k'.
Proof.
  intros E. assert (E' : string_of_nat k = string_of_nat k') by (induction x as [|c x IH]; [exact E|apply IH; now injection E]).
  unfold string_of_nat in E'. apply (f_equal lit_val) in E'. rewrite !lit_val_string in E'. lia.
Qed.
