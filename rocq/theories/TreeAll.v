(** The unification tree of a session: the whole search and nothing else. *)
From Coq Require Import Sorting.Permutation.
From Verif Require Import Base Machine Heap Facts HeapSim Compiler Parser Print Organizer Process Refine Turn Shape Mono Session
  Search Order Runs Parsed Tables Root Clause Atoms Tree TreeTurn TreeInv TreeRun TreeSrc TreeFacts TreeShape.
Open Scope list_scope.

(** query nodes that are done with, i.e. whose goal has been called *)
Definition called_nodes (o : org) (t : qnode) : list (bool * nat * nat) :=
  filter (fun x => fst (fst x) && match nth_error (o_arena o) (snd (fst x)) with
                                  | Some e => negb (is_running e) | None => false end) (q_pre t).

Lemma filter_perm {A} (f : A -> bool) l k : Permutation l k -> Permutation (filter f l) (filter f k).
Proof.
  induction 1; cbn; auto.
  - destruct (f x); auto.
  - destruct (f x), (f y); auto. apply perm_swap.
  - etransitivity; eauto.
Qed.
Lemma filter_map_len {A B} (f : A -> bool) (g : B -> bool) (h : A -> B) l :
  (forall x, In x l -> f x = g (h x)) -> List.length (filter f l) = List.length (filter g (map h l)).
Proof.
  induction l as [|x l IH]; intros H; [reflexivity|]. cbn. rewrite <- (H x) by now left.
  destruct (f x); cbn; rewrite IH; auto; intros; apply H; now right.
Qed.

Section All.
Variable cf : cfg.

Lemma has_tree_all o q D fuel t : has_tree cf o q D -> make_tree fuel o = Val t ->
  Permutation (q_execs t) (seq 0 (List.length (o_arena o))) /\ Permutation (q_finals t) D /\
  o_stats o = (Z.of_nat (List.length (called_nodes o t)) mod 4294967296)%Z.
Proof.
  intros (rl & ps & lv & G & M & Q & R & T & S) E. destruct (make_tree_cut _ _ _ E) as (t0 & c & E0 & Es).
  assert (L0 : lv 0 = true).
  { destruct (nth_error (o_arena o) 0) as [e|] eqn:He.
    - destruct (tn_up _ _ _ _ _ _ _ _ (ti_node _ _ _ _ _ _ _ _ T 0 e He)) as [(_ & _ & K)|(pid & pe & U1 & U2 & _)]; [assumption|].
      pose proof (rf_parents _ _ _ R _ _ _ He U1). lia.
    - exfalso. apply nth_error_None in He. apply (ti_root _ _ _ _ _ _ _ _ T). apply length_zero_iff_nil. lia. }
  destruct (tree_execs _ _ _ _ _ _ _ _ _ R T _ _ _ _ E0 L0) as [P1 P2].
  pose proof (make_q_sub _ _ _ _ _ _ _ _ _ R T _ _ _ _ _ E0 L0) as Sub.
  assert (Ep : q_pre t = q_pre t0) by (now rewrite <- (strip_pre t), <- (strip_pre t0), Es).
  assert (Ef : q_finals t = q_finals t0) by (now rewrite <- (strip_finals t), <- (strip_finals t0), Es).
  unfold q_execs, called_nodes. rewrite Ep, Ef. csplit; [exact P1|exact P2|].
  rewrite S. f_equal. f_equal. unfold asked. rewrite <- (Permutation_length (filter_perm (is_asked o lv) _ _ P1)).
  unfold q_execs. symmetry. apply filter_map_len. intros [[k x] i] Hx.
  destruct (su_node _ _ _ _ _ _ Sub _ _ _ Hx) as (A1 & _ & e & A3 & _). cbn [fst snd]. unfold is_asked. rewrite A1, A3.
  unfold is_running. destruct (x_state e); reflexivity.
Qed.

Lemma session_shows o P s q fuel t : session cf o P s -> s = QFresh q \/ s = QStarted q ->
  make_tree fuel o = Val t -> qshows o P q t.
Proof.
  intros HS Hs E. pose proof (session_tree _ _ _ _ HS) as HT. destruct (session_inv _ _ _ _ HS) as [A _].
  destruct (session_parsed _ _ _ _ HS) as [SP SQ].
  assert (K : (exists D, has_tree cf o q D) /\ q <> [] /\ Forall atom_ok q).
  { destruct Hs as [-> | ->]; split; auto. }
  destruct K as ((D & rl & ps & lv & G & M & Q & R & T & _) & Hq & Hok).
  destruct (make_tree_cut _ _ _ E) as (t0 & c & E0 & Es). apply (strip_shows o P t q t0); [|now symmetry].
  assert (L0 : lv 0 = true).
  { destruct (nth_error (o_arena o) 0) as [e|] eqn:He.
    - destruct (tn_up _ _ _ _ _ _ _ _ (ti_node _ _ _ _ _ _ _ _ T 0 e He)) as [(_ & _ & K)|(pid & pe & U1 & U2 & _)]; [assumption|].
      pose proof (rf_parents _ _ _ R _ _ _ He U1). lia.
    - exfalso. apply nth_error_None in He. apply (ti_root _ _ _ _ _ _ _ _ T). apply length_zero_iff_nil. lia. }
  destruct (ti_start _ _ _ _ _ _ _ _ T) as (ds & Hd & Er).
  eapply make_q_shows; [exact R|exact T| |exact E0|exact L0| |exact Hq].
  - intros f. eapply prog_src; [apply A|apply SP].
  - eapply src_drop; [|exact Hd]. rewrite <- Er. eapply query_src; eauto.
Qed.
End All.

(** --- more names in the tables do not change a tree --- *)
Section TreeExt.
Variables (fuel : nat) (o o' : org).
Hypothesis EA : o_arena o' = o_arena o.
Hypothesis EP : o_pgen o' = o_pgen o.
Hypothesis EQ : o_qgen o' = o_qgen o.
Hypothesis X : sto_ext (o_sto o) (o_sto o').

Lemma get_same id : get_exec o' id = get_exec o id.
Proof. unfold get_exec. now rewrite EA. Qed.
Lemma find_subs_ext id : vle (find_subs fuel o id) (find_subs fuel o' id).
Proof.
  unfold find_subs. rewrite get_same. apply vle_bind; [apply vle_refl|]. intros e. destruct (x_parent e) as [pid|]; [|apply vle_refl].
  rewrite (walk_same o o' EA EP EQ), EA. apply vle_bind; [apply vle_refl|]. intros l.
  apply bind_names_ext'. intros k. now apply str_of_ext.
Qed.
Lemma make_q_ext n : forall id cnt, vle (make_q fuel n o id cnt) (make_q fuel n o' id cnt).
Proof.
  induction n as [|n IH]; intros id cnt; [apply vle_refl|]. rewrite !make_q_eq, get_same.
  apply vle_bind; [apply vle_refl|]. intros e.
  assert (K : forall l c, vle (make_bs fuel o n l c) (make_bs fuel o' n l c)).
  { induction l as [|k l IHl]; intros c; cbn [make_bs]; [apply vle_refl|].
    apply vle_bind; [|intros [b c1]; apply vle_bind; [apply IHl|intros [r c2]; apply vle_refl]].
    unfold make_b. rewrite get_same. apply vle_bind; [apply vle_refl|]. intros ke. apply vle_bind; [|intros [b c1]; apply vle_refl].
    destruct (x_state ke); try apply vle_refl.
    - apply vle_bind; [apply find_subs_ext|]. intros b. apply vle_refl.
    - apply vle_bind; [apply vle_refl|]. intros j. apply vle_bind; [apply IH|]. intros [q c1]. apply vle_refl. }
  apply vle_bind; [apply K|]. intros [ks c]. apply vle_refl.
Qed.
Lemma node_rep_ext H (ops : hops H) n : forall h i, vle (node_rep ops (o_sto o) n h i) (node_rep ops (o_sto o') n h i).
Proof.
  assert (K : forall p q k j, (forall a, vle (p a) (q a)) -> vle (node_args p k j) (node_args q k j)).
  { intros p q k. induction k as [|k IH]; intros j Hp; cbn [node_args]; vle. }
  induction n as [|n IH]; intros h i; cbn [node_rep]; vle; try (now apply functors_ext); try (now apply vars_ext); apply K; auto.
Qed.
Lemma exec_rep_ext e a : vle (exec_rep fuel o e a) (exec_rep fuel o' e a).
Proof. unfold exec_rep. rewrite EA. apply node_rep_ext. Qed.
Lemma solved_same e : solved o' e = solved o e.
Proof. unfold solved. destruct (x_codes e); auto. now apply follow_same. Qed.
Lemma query_name_ext e : vle (query_name fuel o e) (query_name fuel o' e).
Proof.
  unfold query_name. destruct (is_running e); [apply vle_refl|]. rewrite solved_same.
  apply vle_bind; [apply vle_refl|]. intros a. apply vle_bind; [apply vle_refl|]. intros l.
  apply vle_bind; [|intros r; apply vle_refl]. induction l as [|[s b] l IH]; cbn [reps]; vle; auto. apply exec_rep_ext.
Qed.
Lemma bindings_ext e l : vle (bindings fuel o e l) (bindings fuel o' e l).
Proof. induction l as [|v l IH]; cbn [bindings]; vle; auto. apply exec_rep_ext. Qed.
Lemma bind_node_ext nm e : vle (bind_node fuel o nm e) (bind_node fuel o' nm e).
Proof. unfold bind_node. rewrite solved_same. vle; apply bindings_ext. Qed.
Lemma resolve_ext t : vle (resolve_q fuel o t) (resolve_q fuel o' t).
Proof.
  revert t. apply (qnode_ind2 (fun t => vle (resolve_q fuel o t) (resolve_q fuel o' t))
    (fun b => forall nm, vle (resolve_b fuel o nm b) (resolve_b fuel o' nm b))).
  - intros ex id nm ks F. rewrite !resolve_q_eq, get_same. apply vle_bind; [apply vle_refl|]. intros e.
    apply vle_bind; [apply query_name_ext|]. intros n. apply vle_bind; [apply vle_refl|]. intros s.
    destruct (has_failed e || is_running e)%bool; [apply vle_refl|]. apply vle_bind; [|intros; apply vle_refl].
    induction F as [|b ks Hb F IH]; [apply vle_refl|]. cbn [omap]. apply vle_bind; [apply Hb|]. intros b'.
    apply vle_bind; [apply IH|intros; apply vle_refl].
  - intros ex id bs nm. cbn [resolve_b]. rewrite get_same. apply vle_bind; [apply vle_refl|]. intros e.
    destruct (has_failed e || is_running e)%bool; [apply vle_refl|]. apply vle_bind; [apply bind_node_ext|]. intros l. apply vle_refl.
  - intros ex id bs b nm. cbn [resolve_b]. rewrite get_same. apply vle_bind; [apply vle_refl|]. intros e.
    destruct (has_failed e || is_running e)%bool; [apply vle_refl|]. apply vle_bind; [apply bind_node_ext|]. intros l. apply vle_refl.
  - intros ex id bs q H nm. cbn [resolve_b]. rewrite get_same. apply vle_bind; [apply vle_refl|]. intros e.
    destruct (has_failed e || is_running e)%bool; [apply vle_refl|]. apply vle_bind; [apply bind_node_ext|]. intros l. 
    apply vle_bind; [apply H|]. intros; apply vle_refl.
Qed.
Lemma make_tree_ext t : make_tree fuel o = Val t -> make_tree fuel o' = Val t.
Proof.
  unfold make_tree. rewrite EA. revert t. apply vle_bind; [apply make_q_ext|]. intros [t c]. apply resolve_ext.
Qed.
End TreeExt.

Lemma rejected_program_tree cf text o r o' fuel t : load_program cf text o = Some (r, o') -> r <> LOk ->
  make_tree fuel o = Val t -> make_tree fuel o' = Val t.
Proof.
  intros E Hr. destruct (load_program_err _ _ _ _ _ E Hr) as (s1 & -> & X). apply make_tree_ext; auto.
Qed.
Lemma rejected_query_tree cf text o r o' fuel t : load_query cf text o = Some (r, o') -> r <> LOk ->
  make_tree fuel o = Val t -> make_tree fuel o' = Val t.
Proof.
  unfold load_query. destruct (parse_query (append_dot text)) as [[cs|e|]|]; try discriminate.
  - pose proof (compile_query_ext cf cs (o_sto o)) as X.
    destruct (compile_query cf cs (o_sto o)) as [[p|e|] s]; intros E Hr; injection E as E1 <-; [congruence|..];
      apply make_tree_ext; auto.
  - intros E _. injection E as _ <-. apply make_tree_ext; auto using sto_ext_refl.
  - intros E _. injection E as _ <-. apply make_tree_ext; auto using sto_ext_refl.
Qed.
Lemma first_tree cf o fuel : new_org cf = Val o ->
  make_tree fuel o = Val (QNode 0 0 (Some (RCon "cant determine name yet", "cant determine name yet"%string)) []).
Proof.
  unfold new_org. destruct (compile_built_ins cf empty_storage) as [[p| |] s]; try discriminate. intros E. injection E as <-. reflexivity.
Qed.

Section Sessions.
Variable cf : cfg.
Lemma session_execs o P s q fuel t : session cf o P s -> s = QFresh q \/ s = QStarted q -> make_tree fuel o = Val t ->
  Permutation (q_execs t) (seq 0 (List.length (o_arena o))).
Proof.
  intros HS Hs E. pose proof (session_tree _ _ _ _ HS) as HT.
  assert (K : exists D, has_tree cf o q D) by (destruct Hs as [-> | ->]; exact HT). destruct K as (D & K).
  apply (has_tree_all cf o q D fuel t K E).
Qed.
Lemma session_called o P s q fuel t : session cf o P s -> s = QFresh q \/ s = QStarted q -> make_tree fuel o = Val t ->
  o_stats o = (Z.of_nat (List.length (called_nodes o t)) mod 4294967296)%Z.
Proof.
  intros HS Hs E. pose proof (session_tree _ _ _ _ HS) as HT.
  assert (K : exists D, has_tree cf o q D) by (destruct Hs as [-> | ->]; exact HT). destruct K as (D & K).
  apply (has_tree_all cf o q D fuel t K E).
Qed.
Lemma run_finals o P q rs o' fuel t : session cf o P (QFresh q) -> run cf o rs o' -> make_tree fuel o' = Val t ->
  Permutation (map (fun x => RAnswer (snd x)) (q_finals t)) (filter is_answer (map fst rs)).
Proof.
  intros HS HR E. destruct (run_tree _ _ _ _ _ _ HS HR) as (D & HD & <-). destruct (has_tree_all cf o' q D fuel t HD E) as (_ & F & _).
  unfold answers_of. now apply Permutation_map.
Qed.
End Sessions.
