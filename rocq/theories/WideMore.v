(** More about tables that are too small: heads that match what they should not (C03), names shown that are not in the source (C52). *)
From Coq Require Import NArith.
From Verif Require Import Base Heap Machine Compiler Parser Print Organizer Examples Session Spec Valuation Process Builtins Runs Settle Answers Clause Faithful Ready Atoms Finite
  Tree Bound Wide.
Open Scope string_scope.
Open Scope list_scope.

Lemma names_length k : List.length (names k) = k.
Proof. unfold names. rewrite map_length. generalize 1%positive. induction k as [|k IH]; intros p; [reflexivity|]. cbn. now rewrite IH. Qed.
Lemma sixteen_bits : exists k, Z.of_nat (S k) = 65536%Z.
Proof. exists (N.to_nat 65535). rewrite Nat2Z.inj_succ, N_nat_Z. reflexivity. Qed.
(** the table before the clause p(z) and after it *)
Definition sto_c (k : nat) : storage := {| s_functors := [FV "[" 0; FV "[" 2] ++ map (fun c => FV c 0) (names (S k)); s_vars := [] |}.
Definition sto_z (k : nat) : storage := with_functor (FV "z" 0) (sto_c k).
Definition m_c : mst (list cell) := {| m_heap := [CCons 2]; m_regs := [CRef 0 0]; m_mode := None; m_S := 0; m_envs := [] |}.
Lemma sto_c_size k : Z.of_nat (List.length (s_functors (sto_c k))) = (Z.of_nat (S k) + 2)%Z.
Proof. unfold sto_c. cbn [s_functors]. rewrite app_length, map_length, names_length. cbn [List.length]. lia. Qed.
Lemma sto_c_new k : ~ In (FV "z" 0) (s_functors (sto_c k)).
Proof.
  unfold sto_c. cbn [s_functors app In]. intros [K|[K|K]]; try discriminate K. apply in_map_iff in K. destruct K as (c & Ec & Hc). injection Ec as ->.
  exact (proj1 (proj2 (names_new "z" (S k) Hc)) eq_refl).
Qed.
Lemma sto_z_second k : nthZ (s_functors (sto_z k)) 2 = Some (FV "c" 0).
Proof. reflexivity. Qed.
Lemma sto_z_nodup k : NoDup (s_functors (sto_z k)).
Proof.
  assert (A : NoDup (s_functors (sto_c k))).
  { unfold sto_c. cbn [s_functors app]. assert (N : forall n, ~ In (FV "[" n) (map (fun c => FV c 0) (names (S k)))).
    { intros n K. apply in_map_iff in K. destruct K as (c & Ec & Hc). injection Ec as -> _. apply in_map_iff in Hc. destruct Hc as (p & Ep & _). destruct p; discriminate Ep. }
    constructor; [intros [K|K]; [discriminate K|exact (N _ K)]|]. constructor; [apply N|]. apply FinFun.Injective_map_NoDup; [|apply names_nodup]. intros x y K. now injection K. }
  unfold sto_z, with_functor. cbn [s_functors]. apply (Permutation.Permutation_NoDup (Permutation.Permutation_cons_append _ _)). constructor; [exact (sto_c_new k)|exact A].
Qed.
(** The head p(z) matches the argument c. *)
Lemma wide_head : exists sto h ha m TA m', clause_code cfg0 sto false [h] [ha] /\ clause_wf [h] /\
  Z.of_nat (List.length (s_functors sto)) = 65539%Z /\ NoDup (s_functors sto) /\ (forall f, In f (s_functors sto) -> fv_arity f <= 2) /\
  wfh sto 0 (m_heap m) /\ argreg m TA /\ List.length TA = List.length (targs h) /\
  run_local cfg0 sto 10 (removelast (ca_code ha)) (enter ha m) = Val (Cont, m') /\ no_match sto h TA m /\ exists rho, sat sto rho (m_heap m).
Proof.
  destruct sixteen_bits as (k & Ek). exists (sto_z k), (NFun "p" [NCon "z"]). eexists. exists m_c, [0]. eexists. split; [|split; [|split; [|split; [|split; [|split; [|split; [|split; [|split; [|split]]]]]]]]].
  - exists (sto_c k), (sto_z k), (FV "p" 1). split; [|apply sto_ext_refl]. rewrite (fact_compiled "p" "z" (sto_c k) (or_intror eq_refl)), (new_index _ _ (sto_c_new k)), sto_c_size, Ek. reflexivity.
  - constructor; [|constructor]. intros m [<-|[]]. exact I.
  - unfold sto_z, with_functor. cbn [s_functors]. rewrite app_length. cbn [List.length]. pose proof (sto_c_size k). lia.
  - exact (sto_z_nodup k).
  - intros f Hf. unfold sto_z, with_functor, sto_c in Hf. cbn [s_functors app] in Hf. destruct Hf as [<-|[<-|Hf]]; [cbn; lia|cbn; lia|]. apply in_app_or in Hf. destruct Hf as [Hf|[<-|[]]]; [|cbn; lia].
    apply in_map_iff in Hf. destruct Hf as (c & <- & _). cbn. lia.
  - split.
    + intros [|[|a]] c E; try discriminate E. injection E as <-. exists "c". exact (sto_z_second k).
    + intros [|a] L; [|cbn in L; lia]. exists 0, 0. constructor; [cbn; lia|reflexivity].
  - intros [|[|i]] a E; try discriminate E. injection E as <-. exists (CRef 0 0). repeat split. cbn. lia.
  - reflexivity.
  - cbv -[sto_z]. reflexivity.
  - intros rho v Sa F. specialize (Sa 0 _ eq_refl). cbn [cell_sat] in Sa. unfold fn in Sa. rewrite (sto_z_second k) in Sa. inversion F as [|? ? ? ? E]; subst. rewrite Sa in E. discriminate E.
  - exists (fun _ => GCon "c"). intros [|[|a]] c E; try discriminate E. injection E as <-. cbn [cell_sat]. unfold fn. now rewrite (sto_z_second k).
Qed.

(** Another program loaded afterwards: its constant is shown with the name of one that is gone. *)
Definition shows_ac (o : org) : bool :=
  match get_answer cfg0 1000 1000 w0 o with
  | Val (RAnswer _, o') => match make_tree 1000 o' with
                           | Val t => match q_binds t with [(_, (RFun _ _, _, Some (l, _)))] => match l with [(x, y)] => String.eqb x "X" && String.eqb y "ac" | _ => false end | _ => false end
                           | _ => false end
  | _ => false
  end.
Lemma wide_shown : exists o P q rs o' t ex nm k c, session cfg0 o P (QFresh q) /\ parse_program "q(y)." = Some (COk P) /\ parse_query (append_dot "q(X)") = Some (COk q) /\
  run cfg0 o rs o' /\ (forall f, In f (s_functors (o_sto o)) -> fv_arity f <= 2) /\ make_tree 1000 o' = Val t /\ In (ex, (nm, k, Some ([("X", "ac")], c))) (q_binds t).
Proof.
  assert (E1 : parse_program "q(y)." = Some (COk [[NFun "q" [NCon "y"]]])) by (vm_compute; reflexivity).
  assert (E2 : parse_query (append_dot "q(X)") = Some (COk [NFun "q" [NVar "X"]])) by (vm_compute; reflexivity).
  assert (H : match load_program cfg0 "q(y)." (loaded_wide (names (S (N.to_nat 65535)))) with
              | Some (LOk, o1) => match load_query cfg0 "q(X)" o1 with Some (LOk, o) => forallb (fun f => Nat.leb (fv_arity f) 2) (s_functors (o_sto o)) && shows_ac o | _ => false end
              | _ => false end = true) by (vm_compute; reflexivity).
  destruct (load_program cfg0 "q(y)." (loaded_wide (names (S (N.to_nat 65535))))) as [[[] o1]|] eqn:L1; try discriminate H.
  destruct (load_query cfg0 "q(X)" o1) as [[[] o]|] eqn:L2; try discriminate H. apply andb_prop in H. destruct H as [H0 H]. unfold shows_ac in H.
  destruct (get_answer cfg0 1000 1000 w0 o) as [[[|b|e| |] o']|u|] eqn:Eg; try discriminate H. destruct (make_tree 1000 o') as [t|u|] eqn:Et; try discriminate H.
  destruct (q_binds t) as [|[ex [[[| | |s l|] k] [[l' c]|]]] [|]] eqn:Eb; try discriminate H. destruct l' as [|[x y] [|]]; try discriminate H.
  apply andb_prop in H. destruct H as [Hx Hy]. apply String.eqb_eq in Hx, Hy. subst x y.
  exists o, [[NFun "q" [NCon "y"]]], [NFun "q" [NVar "X"]], ([] ++ [(RAnswer b, o_stats o')]), o', t, ex, (RFun s l), k, c.
  split; [|split; [exact E1|split; [exact E2|split; [|split; [|split; [exact Et|]]]]]].
  - eapply ss_query; [|exact E2|exact L2]. change (QNone) with (q_reload QNone) in *. eapply (ss_program cfg0 _ _ QNone); [apply wide_session|exact E1|exact L1].
  - eapply run_answer; [constructor|exact Eg|discriminate].
  - intros f Hf. rewrite forallb_forall in H0. apply Nat.leb_le. auto.
  - rewrite Eb. now left.
Qed.
