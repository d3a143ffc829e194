(** The unification tree on particular programs. *)
From Coq Require Import Sorting.Permutation.
From Verif Require Import Base Machine Heap Facts Compiler Parser Print Organizer Examples Process Session Search Runs Witness Finite
  Tree TreeRun TreeFacts TreeSrc TreeShape TreeAll.
Open Scope string_scope.
Open Scope list_scope.

Lemma tree_witness program query ws (K : org -> org -> list (list node) -> list node -> list (res * Z) -> bool) :
  match loaded program query, parse_program program, parse_query (append_dot query) with
  | Some o, Some (COk P), Some (COk q) => match calls ws o with Some (rs, o') => K o o' P q rs | None => false end
  | _, _, _ => false
  end = true ->
  exists o o' P q rs, session cfg0 o P (QFresh q) /\ run cfg0 o rs o' /\ parse_program program = Some (COk P) /\
    parse_query (append_dot query) = Some (COk q) /\ K o o' P q rs = true.
Proof.
  destruct (loaded program query) as [o|] eqn:E1; [|discriminate].
  destruct (parse_program program) as [[P| |]|] eqn:E2; try discriminate.
  destruct (parse_query (append_dot query)) as [[q| |]|] eqn:E3; try discriminate.
  destruct (calls ws o) as [[rs o']|] eqn:E4; [|discriminate].
  intros H. exists o, o', P, q, rs. csplit; auto; [eapply loaded_session; eassumption|eapply calls_run; eassumption].
Qed.

Lemma resolve_bq fuel o nm ex id bs q : resolve_b fuel o nm (BNode ex id bs (BQuery q)) =
  (e <- get_exec o ex ;;
   if has_failed e || is_running e then Val (BNode ex id bs (BQuery q))
   else l <- bind_node fuel o nm e ;; q' <- resolve_q fuel o q ;; Val (BNode ex id (Some l) (BQuery q'))).
Proof. reflexivity. Qed.

(** reading a cyclic term never ends *)
Lemma cyclic_fuel {H} (ops : hops H) sto h a d i z s k n :
  deref H ops h a = Val d -> deref H ops h (d + 1) = Val d -> at_ H ops h d = Val (CFun i z) ->
  nthZ (s_functors sto) i = Some (FV s (S k)) ->
  node_rep ops sto n h a = Fuel /\ node_rep ops sto n h (d + 1) = Fuel.
Proof.
  intros D1 D2 C F. induction n as [|n [IH1 IH2]]; [split; reflexivity|].
  split; cbn [node_rep]; rewrite ?D1, ?D2; cbn [bind]; rewrite C; cbn [bind]; rewrite F; cbn [of_opt bind fv_arity node_args];
    rewrite IH2; reflexivity.
Qed.

Lemma knot_tree : exists o P q o', session cfg0 o P (QFresh q) /\ run cfg0 o [(RFalse, 2%Z)] o' /\
  parse_program "eq(X,X)." = Some (COk P) /\ parse_query (append_dot "eq(Y,f(Y)), nopred(Y)") = Some (COk q) /\
  (forall fuel t, make_tree fuel o' <> Val t) /\ make_tree 1000 o' = Fuel.
Proof.
  destruct (loaded "eq(X,X)." "eq(Y,f(Y)), nopred(Y)") as [o|] eqn:E1; [|exfalso; vm_compute in E1; discriminate E1].
  destruct (parse_program "eq(X,X).") as [[P| |]|] eqn:E2; try (exfalso; vm_compute in E2; discriminate E2).
  destruct (parse_query (append_dot "eq(Y,f(Y)), nopred(Y)")) as [[q| |]|] eqn:E3; try (exfalso; vm_compute in E3; discriminate E3).
  destruct (calls [w0] o) as [[rs o']|] eqn:E4.
  2:{ exfalso. vm_compute in E1. injection E1 as <-. vm_compute in E4. discriminate E4. }
  assert (Hr : rs = [(RFalse, 2%Z)]). { vm_compute in E1. injection E1 as <-. vm_compute in E4. now injection E4 as <- _. }
  exists o, P, q, o'. csplit; auto.
  - eapply loaded_session; eassumption.
  - rewrite <- Hr. eapply calls_run; eassumption.
  - intros fuel t E. vm_compute in E1. injection E1 as <-. vm_compute in E4. injection E4 as _ <-.
    unfold make_tree in E. apply bind_val in E. destruct E as ([t0 c] & Eq & E).
    cbn -[resolve_q] in Eq. injection Eq as <- <-.
    rewrite resolve_q_eq in E. apply bind_val in E. destruct E as (e & Ee & E). apply bind_val in E. destruct E as (nm & _ & E).
    apply bind_val in E. destruct E as (str & _ & E). vm_compute in Ee. injection Ee as <-. cbn [has_failed is_running x_state orb] in E.
    apply bind_val in E. destruct E as (ks & E & _). cbn [omap] in E. apply bind_val in E. destruct E as (b & E & _).
    rewrite resolve_bq in E. apply bind_val in E. destruct E as (e & Ee & E). vm_compute in Ee. injection Ee as <-.
    cbn [has_failed is_running x_state orb] in E. apply bind_val in E. destruct E as (l & _ & E).
    apply bind_val in E. destruct E as (qn & E & _).
    rewrite resolve_q_eq in E. apply bind_val in E. destruct E as (e & Ee & E). vm_compute in Ee. injection Ee as <-.
    apply bind_val in E. destruct E as (nm2 & E & _). unfold query_name in E. cbn [is_running x_state] in E.
    apply bind_val in E. destruct E as (a & Ea & E). vm_compute in Ea. injection Ea as <-.
    apply bind_val in E. destruct E as (l2 & Ea & E). vm_compute in Ea. injection Ea as <-.
    apply bind_val in E. destruct E as (l3 & E & _). cbn [reps] in E. apply bind_val in E. destruct E as (x & E & _).
    unfold exec_rep in E. revert E. match goal with |- ?t = _ -> _ => assert (K : t = Fuel); [|intros Q; rewrite K in Q; discriminate Q] end.
    eapply cyclic_fuel; vm_compute; reflexivity.
  - vm_compute in E1. injection E1 as <-. vm_compute in E4. injection E4 as _ <-. vm_compute. reflexivity.
Qed.

(** two variables of one node with the same name *)
Definition label (t : qnode) : string := match t with QNode _ _ (Some (_, s)) _ => s | _ => "" end.
Definition first_below (t : qnode) : option qnode :=
  match t with QNode _ _ _ (BNode _ _ _ (BQuery q) :: _) => Some q | _ => None end.
Definition first_binds (t : qnode) : option (list (string * string)) :=
  match t with QNode _ _ _ (BNode _ _ (Some (l, _)) _ :: _) => Some l | _ => None end.
Lemma same_label : exists o P q o' rs, session cfg0 o P (QFresh q) /\ run cfg0 o rs o' /\
  parse_program "p(Y) :- q(X,Y). q(a,b)." = Some (COk P) /\ parse_query (append_dot "p(X)") = Some (COk q) /\
  exists t t', make_tree 100 o' = Val t /\ first_below t = Some t' /\ label t' = "q(X, X)" /\
    first_binds t' = Some [("X", "a"); ("X", "b")].
Proof.
  destruct (tree_witness "p(Y) :- q(X,Y). q(a,b)." "p(X)" [w0; w0] (fun o o' P q rs =>
    match make_tree 100 o' with
    | Val t => match first_below t with
               | Some t' => (String.eqb (label t') "q(X, X)") && match first_binds t' with Some l => pairs_eqb l [("X", "a"); ("X", "b")] | None => false end
               | None => false
               end
    | _ => false
    end)) as (o & o' & P & q & rs & H1 & H2 & H3 & H4 & H5); [vm_compute; reflexivity|].
  exists o, P, q, o', rs. csplit; auto. destruct (make_tree 100 o') as [t| |]; try discriminate H5.
  destruct (first_below t) as [t'|] eqn:Et; [|discriminate H5]. apply andb_true_iff in H5. destruct H5 as [H5 H6].
  apply String.eqb_eq in H5. exists t, t'. csplit; auto. destruct (first_binds t') as [l|]; [|discriminate H6]. f_equal.
  unfold pairs_eqb in H6. destruct (list_eq_dec pair_dec l [("X", "a"); ("X", "b")]); [assumption|discriminate H6].
Qed.

(** a list with an open end looks like a closed one *)
Lemma open_list : exists o P q o' rs, session cfg0 o P (QFresh q) /\ run cfg0 o rs o' /\
  parse_program "p([a|T])." = Some (COk P) /\ parse_query (append_dot "p(X), r(X)") = Some (COk q) /\
  exists t t', make_tree 100 o' = Val t /\ first_below t = Some t' /\ label t' = "r([a, T])".
Proof.
  destruct (tree_witness "p([a|T])." "p(X), r(X)" [w0] (fun o o' P q rs =>
    match make_tree 100 o' with
    | Val t => match first_below t with Some t' => (String.eqb (label t') "r([a, T])") | None => false end
    | _ => false
    end)) as (o & o' & P & q & rs & H1 & H2 & H3 & H4 & H5); [vm_compute; reflexivity|].
  exists o, P, q, o', rs. csplit; auto. destruct (make_tree 100 o') as [t| |]; try discriminate H5.
  destruct (first_below t) as [t'|] eqn:Et; [|discriminate H5].
  apply String.eqb_eq in H5. exists t, t'. csplit; auto.
Qed.

(** program code freed while the tree still refers to it *)
Lemma tree_after_load : exists o P q o' o2 rs, session cfg0 o P (QFresh q) /\ run cfg0 o rs o' /\
  (exists t, make_tree 100 o' = Val t) /\ load_program cfg0 "p(c)." o' = Some (LOk, o2) /\ make_tree 100 o2 = Ub UDangling.
Proof.
  destruct (tree_witness "p(a). p(b)." "p(X)" [w0] (fun o o' P q rs =>
    match make_tree 100 o' with
    | Val t => match load_program cfg0 "p(c)." o' with
               | Some (LOk, o2) => match make_tree 100 o2 with Ub UDangling => true | _ => false end
               | _ => false
               end
    | _ => false
    end)) as (o & o' & P & q & rs & H1 & H2 & H3 & H4 & H5); [vm_compute; reflexivity|].
  destruct (make_tree 100 o') as [t| |] eqn:E1; try discriminate H5.
  destruct (load_program cfg0 "p(c)." o') as [[[| |] o2]|] eqn:E2; try discriminate H5.
  destruct (make_tree 100 o2) as [|u|] eqn:E3; try discriminate H5. destruct u; try discriminate H5.
  exists o, P, q, o', o2, rs. csplit; eauto.
Qed.
Definition w_late : world := {| w_time := fun _ => 0%Z; w_oom := fun k => Nat.leb 1 k |}.
Lemma tree_after_memory : exists o P q o2, session cfg0 o P (QFresh q) /\
  get_answer cfg0 100 100 w_late o = Val (ROutOfMemory, o2) /\ make_tree 100 o2 = Ub UDangling.
Proof.
  destruct (tree_witness "p(a). p(b)." "p(X)" [] (fun o o' P q rs =>
    match get_answer cfg0 100 100 w_late o with
    | Val (ROutOfMemory, o2) => match make_tree 100 o2 with Ub UDangling => true | _ => false end
    | _ => false
    end)) as (o & o' & P & q & rs & H1 & H2 & H3 & H4 & H5); [vm_compute; reflexivity|].
  destruct (get_answer cfg0 100 100 w_late o) as [[r o2]| |] eqn:E1; try discriminate H5.
  destruct r; try discriminate H5. destruct (make_tree 100 o2) as [|u|] eqn:E3; try discriminate H5. destruct u; try discriminate H5.
  exists o, P, q, o2. csplit; eauto.
Qed.

(** a tree with pending, failed and finished nodes *)
Definition big_text : string := "p(a). p(b) :- q(X,b), r. p(X) :- append(X,[a],[b,a]). q(c,Y). q(Z,d). r.".
Lemma big_tree : exists o P q o' rs t, session cfg0 o P (QFresh q) /\ run cfg0 o rs o' /\ make_tree 100 o' = Val t /\
  List.length (q_pre t) = 27 /\ List.length (called_nodes o' t) = 9 /\ o_queue o' <> [] /\
  map snd (q_finals t) = [[("V", "c"); ("U", "a")]; [("V", "c"); ("U", "b")]].
Proof.
  destruct (tree_witness big_text "p(U), q(V,U)" [w0; w0] (fun o o' P q rs =>
    match make_tree 100 o' with
    | Val t => Nat.eqb (List.length (q_pre t)) 27 && Nat.eqb (List.length (called_nodes o' t)) 9 && negb (Nat.eqb (List.length (o_queue o')) 0) &&
               match map snd (q_finals t) with [a; b] => pairs_eqb a [("V", "c"); ("U", "a")] && pairs_eqb b [("V", "c"); ("U", "b")] | _ => false end
    | _ => false
    end)) as (o & o' & P & q & rs & H1 & H2 & H3 & H4 & H5); [vm_compute; reflexivity|].
  destruct (make_tree 100 o') as [t| |] eqn:E1; try discriminate H5. rewrite !andb_true_iff in H5. destruct H5 as [[[K1 K2] K3] K4].
  exists o, P, q, o', rs, t. csplit; auto.
  - now apply Nat.eqb_eq.
  - now apply Nat.eqb_eq.
  - intros E. rewrite E in K3. discriminate K3.
  - destruct (map snd (q_finals t)) as [|a [|b [|]]]; try discriminate K4. apply andb_true_iff in K4. destruct K4 as [A B].
    unfold pairs_eqb in A, B. destruct (list_eq_dec pair_dec a _) as [->|]; [|discriminate A]. destruct (list_eq_dec pair_dec b _) as [->|]; [|discriminate B].
    reflexivity.
Qed.

(** A goal shown with arguments it was not called with: the register of X is overwritten by the second argument. *)
Lemma wrong_label : exists o P q o' rs, session cfg0 o P (QFresh q) /\ run cfg0 o rs o' /\
  parse_program "p(X) :- q(X,a). q(b,Y)." = Some (COk P) /\ parse_query (append_dot "p(Y)") = Some (COk q) /\
  map fst rs = [RAnswer [("Y", "b")]] /\
  exists t t', make_tree 100 o' = Val t /\ first_below t = Some t' /\ label t' = "q(a, a)" /\ map snd (q_finals t') = [[("Y", "b")]].
Proof.
  destruct (tree_witness "p(X) :- q(X,a). q(b,Y)." "p(Y)" [w0] (fun o o' P q rs =>
    match map fst rs with [RAnswer b] => pairs_eqb b [("Y", "b")] | _ => false end &&
    match make_tree 100 o' with
    | Val t => match first_below t with
               | Some t' => (String.eqb (label t') "q(a, a)") && match map snd (q_finals t') with [b] => pairs_eqb b [("Y", "b")] | _ => false end
               | None => false
               end
    | _ => false
    end)) as (o & o' & P & q & rs & H1 & H2 & H3 & H4 & H5); [vm_compute; reflexivity|].
  apply andb_true_iff in H5. destruct H5 as [H0 H5].
  exists o, P, q, o', rs. csplit; auto.
  - destruct (map fst rs) as [|[|b| | |] [|]]; try discriminate H0. unfold pairs_eqb in H0. destruct (list_eq_dec pair_dec b _) as [->|]; [|discriminate H0]. reflexivity.
  - destruct (make_tree 100 o') as [t| |]; try discriminate H5.
    destruct (first_below t) as [t'|] eqn:Et; [|discriminate H5]. apply andb_true_iff in H5. destruct H5 as [H5 H6].
    apply String.eqb_eq in H5. exists t, t'. csplit; auto. destruct (map snd (q_finals t')) as [|b [|]]; try discriminate H6.
    unfold pairs_eqb in H6. destruct (list_eq_dec pair_dec b _) as [->|]; [|discriminate H6]. reflexivity.
Qed.

Lemma rejected_case : exists o P q o' rs t o2 o3, session cfg0 o P (QFresh q) /\ run cfg0 o rs o' /\
  make_tree 100 o' = Val t /\ List.length (q_pre t) = 27 /\
  load_program cfg0 "s(new). append(a,b,c)." o' = Some (LErr CRedef, o2) /\ o_sto o2 <> o_sto o' /\
  load_query cfg0 "p(" o' = Some (LErr CParser, o3).
Proof.
  destruct (tree_witness big_text "p(U), q(V,U)" [w0; w0] (fun o o' P q rs =>
    match make_tree 100 o' with Val t => Nat.eqb (List.length (q_pre t)) 27 | _ => false end &&
    match load_program cfg0 "s(new). append(a,b,c)." o' with
    | Some (LErr CRedef, o2) => negb (Nat.eqb (List.length (s_functors (o_sto o2))) (List.length (s_functors (o_sto o'))))
    | _ => false
    end &&
    match load_query cfg0 "p(" o' with Some (LErr CParser, _) => true | _ => false end)) as (o & o' & P & q & rs & H1 & H2 & H3 & H4 & H5); [vm_compute; reflexivity|].
  rewrite !andb_true_iff in H5. destruct H5 as [[K1 K2] K3].
  destruct (make_tree 100 o') as [t| |] eqn:E1; try discriminate K1.
  destruct (load_program cfg0 "s(new). append(a,b,c)." o') as [[[|er|] o2]|] eqn:E2; try discriminate K2. destruct er; try discriminate K2.
  destruct (load_query cfg0 "p(" o') as [[[|er|] o3]|] eqn:E3; try discriminate K3. destruct er; try discriminate K3.
  exists o, P, q, o', rs, t, o2, o3. csplit; auto; [now apply Nat.eqb_eq|]. intros E. rewrite E, Nat.eqb_refl in K2. discriminate K2.
Qed.
