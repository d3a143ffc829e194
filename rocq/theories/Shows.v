(** What the unification tree shows: it is always made when all terms are finite, and it names only what is in the source. *)
From Verif Require Import Base Machine Heap Facts HeapSim Compiler Parser Print Organizer Spec Valuation Process Refine Mono Turn Shape Session
  Code Put Search PutRun Get Alloc Atoms Clause Stack Ready Heads Builtins Sols Solve Terms Shown Parsed Tables Root Order Runs Answers
  Clash Sim Cells Total Examples Witness Finite Tree TreeTurn TreeInv TreeRun TreeSrc TreeFacts TreeShape TreeAll TreeCase Labels Bound Names Returns Clean.
Open Scope string_scope.
Open Scope list_scope.

(** constants of source atoms and of labels *)
Fixpoint ncons (n : node) : list string :=
  match n with
  | NCon s => [s]
  | NVar _ | NInt _ => []
  | NFun _ l | NEv _ l => flat_map ncons l
  end.
Fixpoint rcons (n : rnode) : list string :=
  match n with
  | RCon s => [s]
  | RVar _ _ | RInt _ => []
  | RFun _ l | REv _ l => flat_map rcons l
  end.
(** all atoms of a query, of a program and of the clauses of append/3 *)
Definition atoms (q : list node) (P : list (list node)) : list node := q ++ List.concat P ++ List.concat append_clauses.
(** every variable of [n] has the name of a variable of the source, every constant is one of the source *)
Definition sourced (q : list node) (P : list (list node)) (n : rnode) : Prop :=
  (forall s a, In (s, a) (rvars n) -> In s (flat_map nvars (atoms q P))) /\
  (forall s, In s (rcons n) -> In s (flat_map ncons (atoms q P))).

Lemma leaves_own (GV GC : string -> Prop) n : leaves plain plain n -> (forall s, In s (nvars n) -> GV s) -> (forall s, In s (ncons n) -> GC s) ->
  leaves GV GC n.
Proof.
  induction n as [s|s|s|s l IH|s l IH] using node_ind'; cbn [leaves]; intros L V C.
  - apply V. now left.
  - apply C. now left.
  - exact L.
  - apply leaves_all. pose proof (proj1 (leaves_all _ _ l) L) as L'. intros m Hm. rewrite Forall_forall in IH. apply IH; auto.
    + intros x Hx. apply V. cbn [nvars]. apply in_flat_map. eauto.
    + intros x Hx. apply C. cbn [ncons]. apply in_flat_map. eauto.
  - apply leaves_all. pose proof (proj1 (leaves_all _ _ l) L) as L'. intros m Hm. rewrite Forall_forall in IH. apply IH; auto.
    + intros x Hx. apply V. cbn [nvars]. apply in_flat_map. eauto.
    + intros x Hx. apply C. cbn [ncons]. apply in_flat_map. eauto.
Qed.
Lemma nice_shown (GV GC : string -> Prop) B n : nice GV GC B n -> (forall s a, In (s, a) (rvars n) -> GV s) /\ (forall s, In s (rcons n) -> GC s).
Proof.
  induction n as [s a|s|s|s l IH|s l IH] using rnode_ind2; intros N.
  - destruct N as [N _]. split; [|intros x []]. intros x b [K|[]]. now injection K as <- _.
  - split; [intros x b []|]. intros x [<-|[]]. exact N.
  - split; [intros x b []|intros x []].
  - apply nice_fun in N. destruct N as (_ & _ & N). rewrite Forall_forall in IH, N. cbn [rvars rcons]. split.
    + intros x b Hx. apply in_flat_map in Hx. destruct Hx as (m & Hm & Hx). eapply (IH m Hm); eauto.
    + intros x Hx. apply in_flat_map in Hx. destruct Hx as (m & Hm & Hx). eapply (IH m Hm); eauto.
  - apply nice_ev in N. destruct N as (_ & N). rewrite Forall_forall in IH, N. cbn [rvars rcons]. split.
    + intros x b Hx. apply in_flat_map in Hx. destruct Hx as (m & Hm & Hx). eapply (IH m Hm); eauto.
    + intros x Hx. apply in_flat_map in Hx. destruct Hx as (m & Hm & Hx). eapply (IH m Hm); eauto.
Qed.

Section Session.
Variable cf : cfg.
Hypothesis OK : ord_ok cf.

Theorem run_returns o P q rs o' : session cf o P (QFresh q) -> run cf o rs o' -> small_tables (o_sto o) ->
  (Z.of_nat (List.length (s_vars (o_sto o))) <= 32768)%Z -> no_clash cf P -> labelled cf P -> no_cycles cf o ->
  exists N t, forall fuel, N <= fuel -> make_tree fuel o' = Val t.
Proof.
  intros HS HR SM VT NC LB NY. destruct (run_at _ _ _ _ _ _ HS HR) as (rl & D & HD & RT & _).
  destruct (run_search _ _ _ _ _ _ HS HR) as (? & ? & ? & ? & ? & _ & _ & _ & _ & _ & _ & Es & Ep & _).
  destruct (session_inv _ _ _ _ HS) as [A _]. destruct (session_parsed _ _ _ _ HS) as [[PW _] Hq].
  destruct (session_top _ _ _ _ HS) as [TP TQ]. cbn in TQ. rewrite Forall_forall in TP, TQ.
  assert (ok : sto_ok (o_sto o)) by (destruct SM; split; auto; eapply session_nodup; eauto).
  assert (PC : prog_code cf (o_sto o) P (o_prog o)) by apply A. rewrite <- Es in PC, ok, VT. rewrite <- Ep in PC.
  destruct HD as (ps & lv & G & M & Q & R & T & _).
  eapply (tree_returns cf OK o' P q rl ps lv G M D Q R T PC ok PW Hq NC LB VT) with (GV := plain) (GC := plain); auto.
  - intros pi p h Hp Hw. rewrite Es, Ep in *. exact (NY _ _ _ _ RT Hp Hw).
  - intros c n Hc Hn. specialize (TP c Hc). rewrite Forall_forall in TP. auto.
  - exact append_top.
Qed.

Lemma own_atom q P n : top n -> In n (atoms q P) ->
  good_atom (fun s => In s (flat_map nvars (atoms q P))) (fun s => In s (flat_map ncons (atoms q P))) n.
Proof.
  intros [L N] H. split; [|exact N]. apply leaves_own; [exact L| |]; intros s Hs; apply in_flat_map; eauto.
Qed.
Lemma live_label fuel o rl ps lv G M D t ex nm str : refines cf o ps -> tree_inv cf rl o ps lv G M D -> make_tree fuel o = Val t ->
  In (ex, nm, str) (q_labels t) -> lv ex = true /\ exists e, nth_error (o_arena o) ex = Some e /\ query_name fuel o e = Val nm.
Proof.
  intros R T E Hin. split.
  - destruct (labels_pre _ _ _ _ Hin) as (i & Hi). destruct (make_tree_cut _ _ _ E) as (t0 & c & E0 & Es).
    rewrite <- strip_pre, Es, strip_pre in Hi.
    assert (L0 : lv 0 = true).
    { destruct (nth_error (o_arena o) 0) as [e0|] eqn:He0.
      - destruct (tn_up _ _ _ _ _ _ _ _ (ti_node _ _ _ _ _ _ _ _ T 0 e0 He0)) as [(_ & _ & K)|(pid & pe & U1 & U2 & _)]; [assumption|].
        pose proof (rf_parents _ _ _ R _ _ _ He0 U1). lia.
      - apply nth_error_None in He0. destruct (o_arena o) eqn:Ea; [|cbn in He0; lia]. now elim (ti_root _ _ _ _ _ _ _ _ T). }
    destruct (su_node _ _ _ _ _ _ (make_q_sub cf fuel o rl ps lv G M D R T _ _ _ _ _ E0 L0) _ _ _ Hi) as (K & _). exact K.
  - unfold make_tree in E. apply bind_val in E. destruct E as ([t0 c] & E0 & E). destruct (resolve_labels _ _ _ _ _ _ _ E Hin) as [K|(e0 & He0 & K & _)].
    + now rewrite (make_q_labels _ _ _ _ _ _ _ E0) in K.
    + eauto.
Qed.

Section Shown.
Variables (o o' : org) (P : list (list node)) (q : list node) (rs : list (res * Z)).
Hypothesis HS : session cf o P (QFresh q).
Hypothesis HR : run cf o rs o'.
Hypothesis SM : small_tables (o_sto o).
Hypothesis VT : (Z.of_nat (List.length (s_vars (o_sto o))) <= 32768)%Z.
Hypothesis NC : no_clash cf P.
Hypothesis LB : labelled cf P.

Theorem run_labels_nice fuel t ex nm str e : make_tree fuel o' = Val t -> In (ex, nm, str) (q_labels t) ->
  nth_error (o_arena o') ex = Some e -> x_state e <> SRunning ->
  query_name fuel o' e = Val nm /\ exists B, nice (fun s => In s (flat_map nvars (atoms q P))) (fun s => In s (flat_map ncons (atoms q P))) B nm.
Proof.
  intros E Hin He Hst. destruct (run_at _ _ _ _ _ _ HS HR) as (rl & D & HD & RT & _).
  destruct (run_search _ _ _ _ _ _ HS HR) as (? & ? & ? & ? & ? & _ & _ & _ & _ & _ & _ & Es & Ep & _).
  destruct (session_inv _ _ _ _ HS) as [A _]. destruct (session_parsed _ _ _ _ HS) as [[PW _] Hq].
  destruct (session_top _ _ _ _ HS) as [TP TQ]. cbn in TQ. rewrite Forall_forall in TP, TQ.
  assert (ok : sto_ok (o_sto o)) by (destruct SM; split; auto; eapply session_nodup; eauto).
  assert (PC : prog_code cf (o_sto o) P (o_prog o)) by apply A. pose proof VT as VT'. rewrite <- Es in PC, ok, VT'. rewrite <- Ep in PC.
  destruct HD as (ps & lv & G & M & Q & R & T & _).
  destruct (live_label _ _ _ _ _ _ _ _ _ _ _ _ R T E Hin) as (Lv & e0 & He0 & En). rewrite He in He0. injection He0 as <-.
  split; [exact En|]. eexists. eapply (label_nice cf OK o' P q rl ps lv G M D Q T PC ok PW Hq NC LB VT'); eauto.
  - intros n Hn. apply own_atom; [auto|]. unfold atoms. rewrite !in_app_iff. auto.
  - intros c n Hc Hn. apply own_atom; [|unfold atoms; rewrite !in_app_iff; right; left; apply in_concat; eauto].
    specialize (TP c Hc). rewrite Forall_forall in TP. auto.
  - intros c n Hc Hn. apply own_atom; [eapply append_top; eauto|]. unfold atoms. rewrite !in_app_iff. right. right. apply in_concat; eauto.
Qed.
Theorem run_labels_sourced fuel t ex nm str e : make_tree fuel o' = Val t -> In (ex, nm, str) (q_labels t) ->
  nth_error (o_arena o') ex = Some e -> x_state e <> SRunning -> sourced q P nm.
Proof. intros E Hin He Hst. destruct (run_labels_nice _ _ _ _ _ _ E Hin He Hst) as (_ & B & K). exact (nice_shown _ _ _ _ K). Qed.
Theorem run_binds_nice fuel t ex nm k l c : make_tree fuel o' = Val t -> In (ex, (nm, k, Some (l, c))) (q_binds t) ->
  exists bs B ke, strs bs = Val l /\ nth_error (o_arena o') k = Some ke /\ forall v x, In (v, x) bs -> exec_rep fuel o' ke (snd v) = Val x /\
    nice (fun s => In s (flat_map nvars (atoms q P))) (fun s => In s (flat_map ncons (atoms q P))) B x.
Proof.
  intros E Hin. destruct (run_at _ _ _ _ _ _ HS HR) as (rl & D & HD & RT & _).
  destruct (run_search _ _ _ _ _ _ HS HR) as (? & ? & ? & ? & ? & _ & _ & _ & _ & _ & _ & Es & Ep & _).
  destruct (session_inv _ _ _ _ HS) as [A _]. destruct (session_parsed _ _ _ _ HS) as [[PW _] Hq].
  destruct (session_top _ _ _ _ HS) as [TP TQ]. cbn in TQ. rewrite Forall_forall in TP, TQ.
  assert (ok : sto_ok (o_sto o)) by (destruct SM; split; auto; eapply session_nodup; eauto).
  assert (PC : prog_code cf (o_sto o) P (o_prog o)) by apply A. pose proof VT as VT'. rewrite <- Es in PC, ok, VT'. rewrite <- Ep in PC.
  destruct HD as (ps & lv & G & M & Q & R & T & _).
  pose proof E as E'. unfold make_tree in E'. apply bind_val in E'. destruct E' as ([t0 c0] & E0 & E1).
  destruct (resolve_binds fuel o' ex nm k (Some (l, c)) t0 t (make_q_strip _ _ _ _ _ _ _ E0) E1 Hin) as (e & str & He & Hlab & Hed & Hb).
  rewrite <- strip_edges, (resolve_strip _ _ _ _ E1), strip_edges in Hed.
  destruct (make_q_edges _ _ _ _ _ _ _ E0 _ _ Hed) as (e0 & He0 & Hk). rewrite He in He0. injection He0 as <-.
  destruct (live_label _ _ _ _ _ _ _ _ _ _ _ _ R T E Hlab) as (Lv & e0 & He0 & En). rewrite He in He0. injection He0 as <-.
  assert (Hst : x_state e <> SRunning /\ (has_failed e || is_running e)%bool = false).
  { destruct (tn_run _ _ _ _ _ _ _ _ (ti_node _ _ _ _ _ _ _ _ T ex e He)) as [(_ & K & _)|[Hs (c1 & a & rest & st & fu & _ & _ & _ & _ & _ & Oc)]].
    - rewrite K in Hk. contradiction.
    - destruct Oc as [K1 K2 K3 K4|er K1 K2 K3 K4|f K1 K2 K3 K4 K5 K6|f rs' K1 K2 K3 K4 K5 K6|pid b fu' K1 K2 K3 K4 K5 K6 K7 K8 K9 K10|k' K1 K2 K3 K4 K5 K6 K7];
        try congruence; try (rewrite ?K4, ?K6 in Hk; contradiction). split; [assumption|]. unfold has_failed, is_running. now rewrite K5. }
  destruct Hst as [Hst Hnf]. destruct (Hb Hnf) as (ke & Hke & Hbs). clear Hb.
  destruct (has_failed ke || is_running ke)%bool eqn:Ek; [discriminate Hbs|].
  destruct Hbs as ([l1 c1] & El & Hlc). injection Hlc as <- <-. apply orb_false_iff in Ek. destruct Ek as [Ek1 Ek2].
  assert (Gq : forall n, In n q -> good_atom (fun s => In s (flat_map nvars (atoms q P))) (fun s => In s (flat_map ncons (atoms q P))) n).
  { intros n Hn. apply own_atom; [auto|]. unfold atoms. rewrite !in_app_iff. auto. }
  assert (Gp : forall c n, In c P -> In n c -> good_atom (fun s => In s (flat_map nvars (atoms q P))) (fun s => In s (flat_map ncons (atoms q P))) n).
  { intros c1 n Hc Hn. apply own_atom; [|unfold atoms; rewrite !in_app_iff; right; left; apply in_concat; eauto].
    specialize (TP c1 Hc). rewrite Forall_forall in TP. auto. }
  assert (Ga : forall c n, In c append_clauses -> In n c -> good_atom (fun s => In s (flat_map nvars (atoms q P))) (fun s => In s (flat_map ncons (atoms q P))) n).
  { intros c1 n Hc Hn. apply own_atom; [eapply append_top; eauto|]. unfold atoms. rewrite !in_app_iff. right. right. apply in_concat; eauto. }
  pose proof (label_nice cf OK o' P q rl ps lv G M D Q T PC ok PW Hq NC LB VT' _ _ Gq Gp Ga ex e fuel nm He Lv Hst En) as Nn.
  destruct (shown_nice cf OK o' P q rl ps lv G M D Q T PC ok PW Hq NC LB VT' _ _ Gq Gp Ga ex e k ke nm fuel (l, c) He Lv Hst Hk Hke Ek1 Ek2 Nn El) as (b & Eb & Fb & Xb).
  eexists b, _, ke. split; [exact Eb|]. split; [exact Hke|]. intros v y Hy. rewrite Forall_forall in Fb. split; [exact (Xb v y Hy)|exact (Fb _ Hy)].
Qed.
Theorem run_binds_sourced fuel t ex nm k l c : make_tree fuel o' = Val t -> In (ex, (nm, k, Some (l, c))) (q_binds t) ->
  exists bs, strs bs = Val l /\ forall v x, In (v, x) bs -> sourced q P x.
Proof.
  intros E Hin. destruct (run_binds_nice _ _ _ _ _ _ _ E Hin) as (bs & B & ke & Eb & _ & Fb). exists bs. split; [exact Eb|]. intros v y Hy.
  exact (nice_shown _ _ _ _ (proj2 (Fb v y Hy))).
Qed.
End Shown.
End Session.

(** --- a case: variables of append/3's clauses are shown --- *)
Lemma shows_case : exists o P q o' rs t, session cfg0 o P (QFresh q) /\ run cfg0 o rs o' /\ small_tables (o_sto o) /\
  (Z.of_nat (List.length (s_vars (o_sto o))) <= 32768)%Z /\ no_clash cfg0 P /\ labelled cfg0 P /\ no_cycles cfg0 o /\ make_tree 100 o' = Val t /\
  parse_program "p(S) :- append([a],R,S), r(S). r([T,b])." = Some (COk P) /\ parse_query (append_dot "p(Z)") = Some (COk q) /\
  texts t = [(0, "p(Z)"); (2, "append([a], R, Z)"); (5, "append([], R, Rs)"); (8, "r([a, Rs])")] /\
  shown_at t = [(0, 1, Some ([("S", "Z")], 0)); (2, 3, None); (2, 4, Some ([("Z", "[a, Rs]"); ("Ys", "R"); ("X", "a"); ("Xs", "[]")], 1));
                (5, 6, Some ([("R", "Rs"); ("List2", "Rs")], 1)); (5, 7, None); (8, 9, Some ([("Rs", "[b]"); ("T", "a")], 1))].
Proof.
  destruct (tree_witness "p(S) :- append([a],R,S), r(S). r([T,b])." "p(Z)" [w0] (fun o o' P q rs =>
    small_b (o_sto o) && (Z.of_nat (List.length (s_vars (o_sto o))) <=? 32768)%Z && noclash_b cfg0 P && forallb (clause_labels cfg0) P &&
    tree_ok cfg0 (o_sto o) (o_prog o) 1000 1000 (root_proc o) &&
    match make_tree 100 o' with
    | Val t => texts_eqb (texts t) [(0, "p(Z)"); (2, "append([a], R, Z)"); (5, "append([], R, Rs)"); (8, "r([a, Rs])")] &&
        if list_eq_dec shown_dec (shown_at t) [(0, 1, Some ([("S", "Z")], 0)); (2, 3, None); (2, 4, Some ([("Z", "[a, Rs]"); ("Ys", "R"); ("X", "a"); ("Xs", "[]")], 1));
                (5, 6, Some ([("R", "Rs"); ("List2", "Rs")], 1)); (5, 7, None); (8, 9, Some ([("Rs", "[b]"); ("T", "a")], 1))] then true else false
    | _ => false end))
    as (o & o' & P & q & rs & H1 & H2 & H3 & H4 & H5); [vm_compute; reflexivity|].
  rewrite !andb_true_iff in H5. destruct H5 as [[[[[K1 K0] K2] K3] K4] K6].
  destruct (make_tree 100 o') as [t| |] eqn:Et; try discriminate K6. rewrite forallb_forall in K3.
  apply andb_true_iff in K6. destruct K6 as [K6 K7]. destruct (list_eq_dec shown_dec _ _) as [K8|]; [|discriminate K7].
  exists o, P, q, o', rs, t. csplit; auto using small_b_ok, noclash_b_ok, texts_eqb_ok.
  - now apply Z.leb_le.
  - exact (proj1 (Finite.session_tree _ _ _ _ K4)).
Qed.
