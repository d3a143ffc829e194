(** What the parser returns. *)
From Verif Require Import Base Machine Compiler Parser Session Search Alloc Atoms Clause.
Open Scope string_scope.
Open Scope list_scope.

Definition pall {A} (Q : A -> Prop) (p : string -> pres A) : Prop := forall s a r, p s = POk a r -> Q a.

Lemma pall_sep {A} (Q : A -> Prop) p : pall Q p -> pall (fun l => l <> [] /\ Forall Q l) (sep p).
Proof.
  intros Hp s l r E. unfold sep in E. destruct (p s) as [a r1| | |] eqn:E1; try discriminate.
  destruct (sep_rest (S (String.length r1)) p r1) as [l1 r2| | |] eqn:E2; try discriminate. injection E as <- <-.
  split; [discriminate|]. constructor; [eapply Hp; eauto|]. clear E1. revert E2. generalize (S (String.length r1)) as n. intros n. revert r1 l1 r2.
  induction n as [|n IH]; intros r1 l1 r2 E; [discriminate|]. cbn [sep_rest] in E.
  destruct (lit "," r1) as [u s1| | |]; try (injection E as <- _; constructor).
  destruct (p s1) as [b s2| | |] eqn:E1; try discriminate; [|injection E as <- _; constructor].
  destruct (sep_rest n p s2) as [l2 s3| | |] eqn:E3; try discriminate. injection E as <- <-.
  constructor; [eapply Hp; eauto|eapply IH; eauto].
Qed.
Lemma pall_chain p ops : pall node_ok p -> forall n, pall (Forall (fun x => node_ok (snd x))) (chain n ops p).
Proof.
  intros Hp. induction n as [|n IH]; intros s l r E; [discriminate|]. cbn [chain] in E.
  destruct (p_op ops s) as [o s1| | |]; try (injection E as <- _; constructor).
  destruct (p s1) as [v s2| | |] eqn:E1; try discriminate.
  destruct (chain n ops p s2) as [l2 s3| | |] eqn:E2; try discriminate. injection E as <- <-.
  constructor; [eapply Hp; eauto|eapply IH; eauto].
Qed.
Lemma chained_ok l : forall v, node_ok v -> Forall (fun x => node_ok (snd x)) l -> node_ok (chained_node v l).
Proof.
  induction l as [|[o w] l IH]; intros v Hv F; [assumption|]. inversion F as [|? ? F1 F2]; subst. cbn. csplit; auto.
Qed.
Lemma list_node_ok l t : Forall node_ok l -> node_ok t -> node_ok (list_node l t).
Proof. intros F Ht. induction F; cbn; [assumption|]. split; [left; auto|auto]. Qed.
Lemma nil_ok : node_ok nil_node.
Proof. cbn. split; [left; auto|exact I]. Qed.
Lemma pall_variable : pall node_ok p_variable.
Proof. intros s n r E. unfold p_variable in E. destruct (ident is_upper s); try discriminate. injection E as <- _. exact I. Qed.
Lemma pall_constant : pall (fun n => exists s, n = NCon s) p_constant.
Proof. intros s n r E. unfold p_constant in E. destruct (ident is_lower s); try discriminate. injection E as <- _. eauto. Qed.
Lemma pall_number : pall node_ok p_number.
Proof.
  intros s n r E. unfold p_number in E. destruct (match skip s with String _ _ => _ | _ => _ end) as [sg s1].
  destruct (take is_digit s1) as [[|c ds] r1]; try discriminate. injection E as <- _. exact I.
Qed.
Lemma pall_value x : pall node_ok x -> pall node_ok (p_value x).
Proof.
  intros Hx s n r E. unfold p_value in E. destruct (p_variable s) as [n0 r0| | |] eqn:E1; try discriminate.
  - injection E as <- _. eapply pall_variable; eauto.
  - destruct (p_number s) as [n0 r0| | |] eqn:E2; try discriminate.
    + injection E as <- _. eapply pall_number; eauto.
    + destruct (lit "(" s) as [u s1| | |]; try discriminate. destruct (x s1) as [e s2| | |] eqn:E3; try discriminate.
      destruct (lit ")" s2); try discriminate. injection E as <- _. eapply Hx; eauto.
Qed.
Lemma pall_power x : pall node_ok x -> pall node_ok (p_power x).
Proof.
  intros Hx s n r E. unfold p_power in E. pose proof (pall_value x Hx) as Hv. destruct (p_value x s) as [v s1| | |] eqn:E1; try discriminate.
  destruct (lit "^" s1) as [u s2| | |]; try (injection E as <- _; eapply Hv; eauto).
  destruct (p_value x s2) as [w s3| | |] eqn:E2; try discriminate. injection E as <- _. cbn. csplit; auto; eapply Hv; eauto.
Qed.
Lemma pall_product x : pall node_ok x -> pall node_ok (p_product x).
Proof.
  intros Hx s n r E. unfold p_product in E. pose proof (pall_power x Hx) as Hv. destruct (p_power x s) as [v s1| | |] eqn:E1; try discriminate.
  destruct (chain _ _ _ s1) as [l s2| | |] eqn:E2; try discriminate. injection E as <- _. apply chained_ok; [eapply Hv; eauto|].
  eapply pall_chain; eauto.
Qed.
Lemma pall_expr x : pall node_ok x -> pall node_ok (p_expr_of x).
Proof.
  intros Hx s n r E. unfold p_expr_of in E. pose proof (pall_product x Hx) as Hv. destruct (p_product x s) as [v s1| | |] eqn:E1; try discriminate.
  destruct (chain _ _ _ s1) as [l s2| | |] eqn:E2; try discriminate. injection E as <- _. apply chained_ok; [eapply Hv; eauto|].
  eapply pall_chain; eauto.
Qed.
Lemma pall_list e l : pall node_ok e -> pall node_ok l -> pall node_ok (p_list_of e l).
Proof.
  intros He Hl s n r E. unfold p_list_of in E. pose proof (pall_sep _ _ He) as Hs.
  destruct (lit "[" s) as [u s1| | |]; try discriminate.
  destruct (lit "]" s1) as [u2 s2| | |]; try discriminate; [injection E as <- _; exact nil_ok|].
  destruct (sep e s1) as [l1 s2| | |] eqn:E1; try discriminate.
  - destruct (Hs _ _ _ E1) as [_ F]. destruct (lit "]" s2) as [u3 s3| | |]; try discriminate.
    + injection E as <- _. apply list_node_ok; [assumption|exact nil_ok].
    + destruct (lit "|" s2) as [u3 s3| | |]; try discriminate.
      destruct (p_variable s3) as [t s4| | |] eqn:E2; try discriminate.
      * destruct (lit "]" s4); try discriminate. injection E as <- _. apply list_node_ok; [assumption|eapply pall_variable; eauto].
      * destruct (l s3) as [t s4| | |] eqn:E3; try discriminate. destruct (lit "]" s4); try discriminate. injection E as <- _.
        apply list_node_ok; [assumption|eapply Hl; eauto].
Qed.
Lemma ident_first f s nm r : ident f s = POk nm r -> exists c s', nm = String c s' /\ f c = true.
Proof.
  unfold ident. destruct (skip s) as [|c s']; [discriminate|]. destruct (f c) eqn:E; [|discriminate].
  destruct (take is_idc s'). intros H. injection H as <- _. eauto.
Qed.
Lemma lower_fun_ok nm k : (exists c s, nm = String c s /\ is_lower c = true) -> k <> 0 -> fun_ok nm k.
Proof. intros (c & s & -> & E) Hk. right. csplit; auto; intros K; injection K as -> ->; discriminate E. Qed.
Definition functor_ok (n : node) : Prop := exists s l, n = NFun s l /\ l <> [] /\ node_ok n.
Lemma pall_functor e : pall node_ok e -> pall functor_ok (p_functor_of e).
Proof.
  intros He s n r E. unfold p_functor_of in E. destruct (ident is_lower s) as [nm s1| | |] eqn:Ei; try discriminate. apply ident_first in Ei.
  destruct (strip "(" s1) as [s2|]; try discriminate. destruct (sep e s2) as [l s3| | |] eqn:E1; try discriminate.
  destruct (lit ")" s3); try discriminate. injection E as <- _. destruct (pall_sep _ _ He _ _ _ E1) as [N F].
  exists nm, l. csplit; auto. cbn. split; [|apply nodes_ok_in; now apply Forall_forall].
  apply lower_fun_ok; [assumption|]. destruct l; [contradiction|discriminate].
Qed.
Lemma functor_node n : functor_ok n -> node_ok n.
Proof. now intros (s & l & _ & _ & H). Qed.
Lemma functor_atom n : functor_ok n -> atom_ok n.
Proof. intros (s & l & -> & N & H). destruct l; [contradiction|]. intros m Hm. eapply node_ok_kids; eauto. Qed.
Lemma pall_elem e l x : pall node_ok e -> pall node_ok l -> pall node_ok x -> pall node_ok (p_elem_of e l x).
Proof.
  intros He Hl Hx s n r E. unfold p_elem_of in E. destruct (p_functor_of e s) as [a0 r0| | |] eqn:E1; try discriminate.
  - injection E as <- _. apply functor_node. exact (pall_functor e He _ _ _ E1).
  - destruct (p_constant s) as [a0 r0| | |] eqn:E2; try discriminate.
    + injection E as <- _. apply pall_constant in E2. destruct E2 as (c & ->). exact I.
    + destruct (p_list_of e l s) as [a0 r0| | |] eqn:E3; try discriminate.
      * injection E as <- _. eapply (pall_list e l); eauto.
      * eapply (pall_expr x); eauto.
Qed.
Lemma pall_rec n : pall node_ok (fst (fst (p_rec n))) /\ pall node_ok (snd (fst (p_rec n))) /\ pall node_ok (snd (p_rec n)).
Proof.
  induction n as [|n IH]; cbn [p_rec]; [csplit; intros s a r E; discriminate|].
  destruct (p_rec n) as [[e l] x]. cbn [fst snd] in *. destruct IH as (A & B & C).
  csplit; auto using pall_elem, pall_list, pall_expr.
Qed.
Lemma pall_binary l r op : pall node_ok l -> pall node_ok r -> pall atom_ok (p_binary l r op).
Proof.
  intros Hl Hr s n rest E. unfold p_binary in E. destruct (l s) as [a s1| | |] eqn:E1; try discriminate.
  destruct (lit op s1) as [u s2| | |]; try discriminate. destruct (r s2) as [b s3| | |] eqn:E2; try discriminate.
  injection E as <- _. intros m [<-|[<-|[]]]; [eapply Hl; eauto|eapply Hr; eauto].
Qed.
Lemma pall_head n : pall atom_ok (fun s => p_functor n s <|> p_constant s).
Proof.
  intros s a r E. destruct (pall_rec n) as (He & _ & _). cbv beta in E. destruct (p_functor n s) as [a0 r0| | |] eqn:E1; try discriminate.
  - injection E as <- _. apply functor_atom. exact (pall_functor _ He _ _ _ E1).
  - apply pall_constant in E. destruct E as (c & ->). exact I.
Qed.
Lemma pall_atom n : pall atom_ok (p_atom n).
Proof.
  intros s a r E. destruct (pall_rec n) as (He & _ & Hx). unfold p_atom in E.
  destruct (p_binary (p_elem n) (p_elem n) "==" s) as [a0 r0| | |] eqn:E1; try discriminate.
  { injection E as <- _. eapply (pall_binary (p_elem n) (p_elem n)); eauto. }
  destruct (p_binary (p_elem n) (p_elem n) "\==" s) as [a0 r0| | |] eqn:E2; try discriminate.
  { injection E as <- _. eapply (pall_binary (p_elem n) (p_elem n)); eauto. }
  destruct (p_binary (p_elem n) (p_expr n) "is" s) as [a0 r0| | |] eqn:E3; try discriminate.
  { injection E as <- _. eapply (pall_binary (p_elem n) (p_expr n)); eauto. }
  eapply pall_head; exact E.
Qed.
Lemma pall_clause n : pall clause_wf (p_clause n).
Proof.
  intros s c r E. unfold p_clause in E. pose proof (pall_head n s) as Hh. cbv beta in Hh.
  destruct (p_functor n s <|> p_constant s) as [h s1| | |]; try discriminate.
  specialize (Hh _ _ eq_refl).
  destruct (lit ":-" s1) as [u s2| | |]; try discriminate.
  - destruct (sep (p_atom n) s2) as [b s3| | |] eqn:E2; try discriminate.
    + destruct (lit "." s3); try discriminate. injection E as <- _. constructor; [assumption|]. exact (proj2 (pall_sep _ _ (pall_atom n) _ _ _ E2)).
    + destruct (lit "." s1); try discriminate. injection E as <- _. constructor; auto.
  - destruct (lit "." s1); try discriminate. injection E as <- _. constructor; auto.
Qed.
Lemma pall_rules n : forall k, pall (Forall clause_wf) (p_rules k n).
Proof.
  induction k as [|k IH]; intros s l r E; [discriminate|]. cbn [p_rules] in E.
  destruct (p_comment s) as [u s1| | |]; try discriminate; [eapply IH; eauto|].
  destruct (p_rule n s) as [c s1| | |] eqn:E1; try discriminate; [|injection E as <- _; constructor].
  destruct (p_rules k n s1) as [l2 s2| | |] eqn:E2; try discriminate. injection E as <- _. constructor; [|eapply IH; eauto].
  unfold p_rule in E1. destruct (p_clause n s) as [c' s3| | |] eqn:E3; try discriminate.
  destruct (p_comment s3 <|> POk tt s3); try discriminate. injection E1 as <- _. eapply pall_clause; eauto.
Qed.
Theorem parse_program_wf s P : parse_program s = Some (COk P) -> Forall clause_wf P.
Proof.
  unfold parse_program. intros E. destruct (p_rules _ _ s) as [l r| | |] eqn:E1; try discriminate.
  destruct (skip r); try discriminate. injection E as <-. eapply pall_rules; eauto.
Qed.
Theorem parse_query_wf s q : parse_query s = Some (COk q) -> q <> [] /\ Forall atom_ok q.
Proof.
  unfold parse_query. intros E. destruct (sep _ s) as [l r| | |] eqn:E1; try discriminate.
  destruct (lit "." r) as [u r'| | |]; try discriminate. destruct (skip r'); try discriminate. injection E as <-.
  exact (pall_sep _ _ (pall_atom _) _ _ _ E1).
Qed.

(** Heads of clauses: names start with a small letter. *)
Definition lower_name (n : node) : Prop := exists c s, node_name n = String c s /\ is_lower c = true.
Definition lower_head (c : list node) : Prop := match c with [] => False | h :: _ => lower_name h end.
Lemma pall_head_lower n : pall lower_name (fun s => p_functor n s <|> p_constant s).
Proof.
  intros s a r E. cbv beta in E. unfold p_functor, p_functor_of, p_constant in E.
  destruct (ident is_lower s) as [nm s1| | |] eqn:Ei; try discriminate. apply ident_first in Ei.
  destruct (strip "(" s1) as [s2|].
  - destruct (sep (p_elem n) s2) as [l s3| | |]; try discriminate. destruct (lit ")" s3); try discriminate. injection E as <- _. exact Ei.
  - injection E as <- _. exact Ei.
Qed.
Lemma pall_clause_lower n : pall lower_head (p_clause n).
Proof.
  intros s c r E. unfold p_clause in E. pose proof (pall_head_lower n s) as Hh. cbv beta in Hh.
  destruct (p_functor n s <|> p_constant s) as [h s1| | |]; try discriminate.
  specialize (Hh _ _ eq_refl).
  destruct (match (lit ":-" s1 --> _ @ s2 =>> sep (p_atom n) s2) with PFail => POk [] s1 | x => x end) as [b s3| | |]; try discriminate.
  destruct (lit "." s3); try discriminate. injection E as <- _. exact Hh.
Qed.
Theorem parse_program_lower s P : parse_program s = Some (COk P) -> Forall lower_head P.
Proof.
  unfold parse_program. intros E. destruct (p_rules _ _ s) as [l r| | |] eqn:E1; try discriminate.
  destruct (skip r); try discriminate. injection E as <-. revert E1. generalize (S (String.length s)) at 1 as k. 
  generalize (S (String.length s)) as n. intros n k. revert s l r.
  induction k as [|k IH]; intros s l r E; [discriminate|]. cbn [p_rules] in E.
  destruct (p_comment s) as [u s1| | |]; try discriminate; [eapply IH; eauto|].
  destruct (p_rule n s) as [c s1| | |] eqn:E1; try discriminate; [|injection E as <- _; constructor].
  destruct (p_rules k n s1) as [l2 s2| | |] eqn:E2; try discriminate. injection E as <- _. constructor; [|eapply IH; eauto].
  unfold p_rule in E1. destruct (p_clause n s) as [c' s3| | |] eqn:E3; try discriminate.
  destruct (p_comment s3 <|> POk tt s3); try discriminate. injection E1 as <- _. eapply pall_clause_lower; eauto.
Qed.
