(** The positions shown in the picture of the unification tree. *)
From Verif Require Import Base Machine Heap Facts Compiler Parser ParserFacts Texts Grammar Organizer Examples Spec Print Valuation Process Turn Shape Session Code Put Search PutRun Get Alloc Atoms Clause Parsed Flat Loads Roundtrip Exprs Language Positions CompAt LockHist AnswerText OrgAt RunAt Tree TreeSrc TreeFacts.
Open Scope string_scope.
Open Scope list_scope.

(** TreeView.js 169-172, 221-224: what the page makes of a line number *)
Definition line_text (n : N) : string := if (n =? built_in_line)%N then "built-in predicate" else "Line " +++ string_of_Z (Z.of_N n).
(** TreeView.js 178, 238-239, 256-257, 279-280: the title of a node, and the first line of the title of an edge *)
Definition tip (i : info) : string := line_text (i_begin i) +++ ": " +++ i_text i.
(** query_node.h 95-97, 112-118, var_binding_node.h 155-175, executor.h 130-141: the position with the atom an executor is at work on,
    or was; None: not initialised *)
Definition position (o : org_at) (ex : nat) : option info :=
  match nth_error (a_arena o) ex with Some e => cur_info e | None => None end.

(** --- goals and clauses with their positions --- *)
Definition pgoal := (node * info)%type.
(** what is tried for a goal with this functor, in its order *)
Definition clauses_at (P : list (list pgoal)) (f : fview) : list (list pgoal) :=
  match special f with
  | Some _ => [[(binary_pred (fv_name f), built_in_info (binary_text (fv_name f)))]]
  | None => if is_append f then append_clauses_at
            else filter (fun c => match c with (h, _) :: _ => fview_eqb f (to_fview h) | [] => false end) P
  end.
(** [qtips o P gs t]: the query node [t] stands for the goals [gs]; if the first was called, its position is shown.
    [btips o P gs c b]: the node [b] stands for the clause [c]; the position of its head is shown. *)
Inductive qtips (o : org_at) (P : list (list pgoal)) : list pgoal -> qnode -> Prop :=
| qt_wait g gs ex id nm e : nth_error (a_arena o) ex = Some e -> y_state e = SRunning ->
    (position o ex = Some (snd g) \/ position o ex = None) -> qtips o P (g :: gs) (QNode ex id nm [])
| qt_call g gs ex id nm ks e : nth_error (a_arena o) ex = Some e -> y_state e <> SRunning ->
    position o ex = Some (snd g) -> Forall2 (btips o P gs) (clauses_at P (to_fview (fst g))) ks ->
    qtips o P (g :: gs) (QNode ex id nm ks)
with btips (o : org_at) (P : list (list pgoal)) : list pgoal -> list pgoal -> bnode -> Prop :=
| bt_open gs h body ex id bs : position o ex = Some (snd h) -> btips o P gs (h :: body) (BNode ex id bs BNone)
| bt_done h ex id bs b : position o ex = Some (snd h) -> btips o P [] [h] (BNode ex id bs (BFinal b))
| bt_next gs h body ex id bs q : position o ex = Some (snd h) -> qtips o P (body ++ gs) q ->
    btips o P gs (h :: body) (BNode ex id bs (BQuery q)).

Lemma strip_tips o P : forall t gs t', qtips o P gs t' -> strip t' = strip t -> qtips o P gs t.
Proof.
  apply (qnode_ind2 (fun t => forall gs t', qtips o P gs t' -> strip t' = strip t -> qtips o P gs t)
    (fun b => forall gs c b', btips o P gs c b' -> strip_b b' = strip_b b -> btips o P gs c b)).
  - intros ex id nm ks H gs t' Ht E. destruct Ht as [g gs ex' id' nm' e H1 H2 H3|g gs ex' id' nm' ks' e H1 H2 H3 H4].
    + rewrite !strip_eq in E. injection E as <- <- E. destruct ks; [|discriminate E]. exact (qt_wait o P g gs _ _ _ e H1 H2 H3).
    + rewrite !strip_eq in E. injection E as <- <- E. apply (qt_call o P g gs _ _ _ _ e H1 H2 H3).
      revert ks H E. induction H4 as [|c b' cs ks' Hb F IH]; intros ks H E; (destruct ks as [|b ks]; try discriminate E); constructor.
      * inversion H as [|? ? Hb0 Hk]; subst. injection E as E1 E2. eapply Hb0; eauto.
      * inversion H as [|? ? Hb0 Hk]; subst. injection E as E1 E2. apply IH; auto.
  - intros ex id bs gs c b' Hb E. destruct Hb; cbn in E; try discriminate E; injection E as <- <-. now constructor.
  - intros ex id bs l gs c b' Hb E. destruct Hb; cbn in E; try discriminate E; injection E as <- <- <-. now constructor.
  - intros ex id bs q H gs c b' Hb E. destruct Hb; cbn in E; try discriminate E; injection E as <- <- E. constructor; [assumption|]. eapply H; eauto.
Qed.

(** --- compiled code and what it stands for --- *)
Definition goal_at (g : pgoal) (a : catom_at) : Prop :=
  snd a = Some (snd g) /\ is_dealloc (fst a) = false /\ exists is, ca_code (fst a) = is ++ [ICall (to_fview (fst g))] /\ forallb is_put is = true.
Definition head_at (g : pgoal) (a : catom_at) : Prop :=
  snd a = Some (snd g) /\ exists is, ca_code (fst a) = is ++ [IProceed] /\ forallb is_local is = true.
Inductive src_at : list pgoal -> list catom_at -> Prop :=
| sa_nil : src_at [] []
| sa_goal g a gs cs : goal_at g a -> src_at gs cs -> src_at (g :: gs) (a :: cs)
| sa_dealloc gs cs : src_at gs cs -> src_at gs ((dealloc_atom, None) :: cs).
Definition clause_at (c : list pgoal) (r : code_at) : Prop :=
  exists h body ha cs, c = h :: body /\ r = ha :: cs /\ head_at h ha /\ src_at body cs.
Definition table_tells (P : list (list pgoal)) (p : table_at) : Prop :=
  forall f, match tlookup f p with Some rs => Forall2 clause_at (clauses_at P f) rs | None => clauses_at P f = [] end.
Lemma sa_app g1 c1 g2 c2 : src_at g1 c1 -> src_at g2 c2 -> src_at (g1 ++ g2) (c1 ++ c2).
Proof. induction 1; cbn; auto; constructor; auto. Qed.
Lemma sa_done gs cs : src_at gs cs -> forallb (fun a => is_dealloc (fst a)) cs = true <-> gs = [].
Proof.
  induction 1 as [|n a gs cs Hg H IH|gs cs H IH]; cbn.
  - tauto.
  - destruct Hg as (_ & -> & _). cbn. split; discriminate.
  - exact IH.
Qed.

(** --- what an executor is there for --- *)
Record work := { k_head : bool; k_clause : list pgoal; k_goals : list pgoal; k_codes : list catom_at }.
Definition fits (w : work) : Prop :=
  if k_head w then exists r rest, k_codes w = r ++ rest /\ clause_at (k_clause w) r /\ src_at (k_goals w) rest
  else src_at (k_goals w) (k_codes w) /\ k_goals w <> [].
Definition atoms_of (l : list ptr_at) : list catom_at := map (fun p => (cp_atom (fst p), snd p)) l.
Lemma atoms_ptrs s g r : atoms_of (ptrs_at s g r) = r.
Proof. unfold atoms_of, ptrs_at. rewrite map_map. rewrite <- (map_id r) at 2. apply map_ext. now intros [a i]. Qed.
Section Work.
Variable P : list (list pgoal).
Inductive ending (W : nat -> work) (w : work) (e : exec_at) (c : catom_at) : Prop :=
| ed_unknown g gs : k_head w = false -> k_goals w = g :: gs -> goal_at g c -> clauses_at P (to_fview (fst g)) = [] -> y_kids e = [] -> ending W w e c
| ed_called g gs : k_head w = false -> k_goals w = g :: gs -> goal_at g c ->
    Forall2 (fun k cl => k_head (W k) = true /\ k_clause (W k) = cl /\ k_goals (W k) = gs) (y_kids e) (clauses_at P (to_fview (fst g))) -> ending W w e c
| ed_failed h body : k_head w = true -> k_clause w = h :: body -> head_at h c -> y_kids e = [] ->
    y_state e <> SSuccess -> y_state e <> SArchived -> ending W w e c
| ed_done h : k_head w = true -> k_clause w = [h] -> head_at h c -> k_goals w = [] -> y_kids e = [] -> y_state e = SSuccess -> ending W w e c
| ed_next h body k : k_head w = true -> k_clause w = h :: body -> head_at h c -> y_kids e = [k] -> y_state e = SArchived ->
    k_head (W k) = false -> k_goals (W k) = body ++ k_goals w -> ending W w e c.
Record node_at (W : nat -> work) (id : nat) (e : exec_at) : Prop := {
  nd_fits : fits (W id);
  nd_case : (y_state e = SRunning /\ y_kids e = [] /\ atoms_of (y_codes e) = k_codes (W id)) \/
            (y_state e <> SRunning /\ exists c cs, k_codes (W id) = c :: cs /\ atoms_of (y_codes e) = [c] /\ ending W (W id) e c)
}.
Record tree_at (q : list pgoal) (W : nat -> work) (o : org_at) : Prop := {
  ta_root : k_head (W 0) = false /\ k_goals (W 0) = q;
  ta_node : forall id e, nth_error (a_arena o) id = Some e -> node_at W id e;
  ta_nodup : NoDup (a_queue o);
  ta_queue : forall id, In id (a_queue o) -> exists e, nth_error (a_arena o) id = Some e /\ y_state e = SRunning;
  ta_kids : forall id e, nth_error (a_arena o) id = Some e -> forall k, In k (y_kids e) -> k < List.length (a_arena o)
}.

(** --- the tree --- *)
Section Tips.
Variables (fuel : nat) (o : org_at) (q : list pgoal) (W : nat -> work).
Hypothesis HT : tree_at q W o.
Lemma plain_nth id : nth_error (o_arena (plain o)) id = option_map plain_exec (nth_error (a_arena o) id).
Proof. cbn. apply nth_error_map. Qed.
Lemma position_first id e c cs : nth_error (a_arena o) id = Some e -> k_codes (W id) = c :: cs -> position o id = snd c.
Proof.
  intros He Hc. unfold position. rewrite He. unfold cur_info. destruct (nd_case _ _ _ (ta_node _ _ _ HT id e He)) as [(_ & _ & K)|(_ & c1 & cs1 & K1 & K2 & _)].
  - rewrite Hc in K. destruct (y_codes e) as [|p l]; [discriminate K|]. cbn in K. injection K as <- _. reflexivity.
  - rewrite Hc in K1. injection K1 as <- <-. destruct (y_codes e) as [|p l]; [discriminate K2|]. cbn in K2. injection K2 as <- _. reflexivity.
Qed.
Lemma bs_all n l : forall c ks c1, make_bs fuel (plain o) n l c = Val (ks, c1) ->
  Forall2 (fun k b => exists c c1, make_b fuel (plain o) n c k = Val (b, c1)) l ks.
Proof.
  induction l as [|k l IH]; intros c ks c1 E; cbn [make_bs] in E; [injection E as <- <-; constructor|].
  apply bind_val in E. destruct E as ([b c3] & Eb & E). apply bind_val in E. destruct E as ([r c4] & Er & E). injection E as <- <-.
  constructor; eauto.
Qed.
Lemma kid_tips n : (forall id cnt t c, make_q fuel n (plain o) id cnt = Val (t, c) -> k_head (W id) = false -> qtips o P (k_goals (W id)) t) ->
  forall k b c c1, make_b fuel (plain o) n c k = Val (b, c1) -> k_head (W k) = true -> btips o P (k_goals (W k)) (k_clause (W k)) b.
Proof.
  intros IH k b c c1 E Hk. destruct (make_b_case _ _ _ _ _ _ _ E) as (ke & He & Hb). rewrite plain_nth in He. destruct (nth_error (a_arena o) k) as [e|] eqn:Ee; [|discriminate He]. injection He as <-.
  pose proof (ta_node _ _ _ HT k e Ee) as [Hf Hc]. pose proof Hf as Hf0. unfold fits in Hf0. rewrite Hk in Hf0. destruct Hf0 as (r & rest & Er & (h & body & ha & cs & Ecl & -> & Hh & _) & _).
  assert (Hp : position o k = Some (snd h)) by (rewrite (position_first k e ha (cs ++ rest) Ee Er); exact (proj1 Hh)).
  rewrite Ecl. change (x_state (plain_exec e)) with (y_state e) in Hb. change (last_child (plain_exec e)) with (last_child {| x_parent := None; x_m := y_m e; x_kids := y_kids e; x_state := SArchived; x_codes := [] |}) in Hb.
  destruct Hc as [(H1 & _)|(H1 & c0 & cs0 & H2 & H3 & H4)].
  - rewrite H1 in Hb. destruct Hb as [-> _]. now constructor.
  - destruct H4 as [g gs D1|g gs D1|h0 b0 D1 D2 D3 D4 D5 D6|h0 D1 D2 D3 D4 D5 D6|h0 b0 j D1 D2 D3 D4 D5 D6 D7]; try congruence.
    + destruct (y_state e); try contradiction; try congruence; destruct Hb as [-> _]; now constructor.
    + rewrite D6 in Hb. destruct Hb as (l & _ & -> & _). rewrite D4. rewrite Ecl in D2. injection D2 as -> ->. now constructor.
    + rewrite D5 in Hb. destruct Hb as (j' & t & Hl & Et & ->). unfold last_child in Hl. cbn [x_kids] in Hl. rewrite D4 in Hl. injection Hl as <-.
      constructor; [exact Hp|]. rewrite Ecl in D2. injection D2 as <- <-. rewrite <- D7. exact (IH _ _ _ _ Et D6).
Qed.
Lemma q_tips n : forall id cnt t c, make_q fuel n (plain o) id cnt = Val (t, c) -> k_head (W id) = false -> qtips o P (k_goals (W id)) t.
Proof.
  induction n as [|n IH]; intros id cnt t c E Hk; [discriminate E|]. rewrite make_q_eq in E.
  apply bind_val in E. destruct E as (pe & He & E). apply of_opt_val in He. rewrite plain_nth in He. destruct (nth_error (a_arena o) id) as [e|] eqn:Ee; [|discriminate He]. injection He as <-.
  apply bind_val in E. destruct E as ([ks c1] & Ek & E). injection E as <- <-. change (x_kids (plain_exec e)) with (y_kids e) in Ek.
  pose proof (ta_node _ _ _ HT id e Ee) as [Hf Hc]. pose proof Hf as Hf0. unfold fits in Hf0. rewrite Hk in Hf0. destruct Hf0 as [Hs Hg].
  destruct Hc as [(H1 & H2 & H3)|(H1 & c0 & cs0 & H2 & H3 & H4)].
  - rewrite H2 in Ek. cbn in Ek. injection Ek as <- <-. destruct (k_goals (W id)) as [|g gs] eqn:Eg; [contradiction|].
    apply (qt_wait o P g gs _ _ _ e Ee H1). inversion Hs as [|g0 a gs0 cs Ga Ss E1 E2|gs0 cs Ss E1 E2].
    + left. symmetry in E2. rewrite (position_first _ _ _ _ Ee E2). exact (proj1 Ga).
    + right. symmetry in E2. rewrite (position_first _ _ _ _ Ee E2). reflexivity.
  - destruct H4 as [g gs D1 D2 D3 D4 D5|g gs D1 D2 D3 D4|h0 b0 D1|h0 D1|h0 b0 j D1]; try congruence.
    + rewrite D5 in Ek. cbn in Ek. injection Ek as <- <-. rewrite D2. apply (qt_call o P g gs _ _ _ _ e Ee H1); [rewrite (position_first _ _ _ _ Ee H2); exact (proj1 D3)|]. rewrite D4. constructor.
    + rewrite D2. apply (qt_call o P g gs _ _ _ _ e Ee H1); [rewrite (position_first _ _ _ _ Ee H2); exact (proj1 D3)|].
      apply bs_all in Ek. clear - D4 Ek IH HT. revert ks Ek. induction D4 as [|k cl kl cls (K1 & K2 & K3) F IHk]; intros ks Ek; inversion Ek as [|k' b kl' ks' Hb1 Hb2]; subst; constructor.
      * destruct Hb1 as (cc & cc1 & Hb1). exact (kid_tips n IH k b cc cc1 Hb1 K1).
      * now apply IHk.
Qed.
Lemma tree_tips t : make_tree fuel (plain o) = Val t -> qtips o P q t.
Proof.
  intros E. destruct (make_tree_cut _ _ _ E) as (t0 & c & E0 & Es). apply (strip_tips o P t q t0); [|now symmetry].
  destruct (ta_root _ _ _ HT) as [R1 R2]. rewrite <- R2. exact (q_tips _ _ _ _ _ E0 R1).
Qed.
End Tips.
End Work.
