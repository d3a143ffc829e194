(** Names in parsed atoms: none of them is the bracket that stands for lists. *)
From Verif Require Import Base Machine Compiler Parser Organizer Session Search Alloc Atoms Clause Parsed Returns.
Open Scope string_scope.
Open Scope list_scope.

Notation lf := (leaves plain plain).
Notation top := (good_atom plain plain).
Lemma first_plain f s : (exists c s', s = String c s' /\ f c = true) -> f "["%char = false -> plain s.
Proof. intros (c & s' & -> & E) F K. injection K as -> ->. congruence. Qed.
Lemma lf_sep p : pall lf p -> pall (fun l => l <> [] /\ Forall lf l) (sep p).
Proof. apply pall_sep. Qed.
Lemma lf_chain p ops : pall lf p -> forall n, pall (Forall (fun x => lf (snd x))) (chain n ops p).
Proof.
  intros Hp. induction n as [|n IH]; intros s l r E; [discriminate|]. cbn [chain] in E.
  destruct (p_op ops s) as [o s1| | |]; try (injection E as <- _; constructor).
  destruct (p s1) as [v s2| | |] eqn:E1; try discriminate.
  destruct (chain n ops p s2) as [l2 s3| | |] eqn:E2; try discriminate. injection E as <- <-.
  constructor; [eapply Hp; eauto|eapply IH; eauto].
Qed.
Lemma lf_chained l : forall v, lf v -> Forall (fun x => lf (snd x)) l -> lf (chained_node v l).
Proof.
  induction l as [|[o w] l IH]; intros v Hv F; [assumption|]. inversion F as [|? ? F1 F2]; subst. cbn. csplit; auto.
Qed.
Lemma lf_list_node l t : Forall lf l -> lf t -> lf (list_node l t).
Proof. intros F Ht. induction F; cbn; [assumption|]. auto. Qed.
Lemma lf_variable : pall lf p_variable.
Proof.
  intros s n r E. unfold p_variable in E. destruct (ident is_upper s) eqn:Ei; try discriminate. injection E as <- _.
  apply (first_plain is_upper); [eapply ident_first; eauto|reflexivity].
Qed.
Lemma lf_constant : pall (fun n => exists s, n = NCon s /\ plain s) p_constant.
Proof.
  intros s n r E. unfold p_constant in E. destruct (ident is_lower s) eqn:Ei; try discriminate. injection E as <- _.
  eexists. split; [reflexivity|]. apply (first_plain is_lower); [eapply ident_first; eauto|reflexivity].
Qed.
Lemma take_first f s c ds r : take f s = (String c ds, r) -> f c = true.
Proof.
  destruct s as [|d s]; cbn; [discriminate|]. destruct (f d) eqn:E; [|discriminate]. destruct (take f s). intros K. injection K as -> _ _. exact E.
Qed.
Lemma lf_number : pall lf p_number.
Proof.
  intros s n r E. unfold p_number in E. destruct (match skip s with String _ _ => _ | _ => _ end) as [sg s1] eqn:Es.
  destruct (take is_digit s1) as [[|c ds] r1] eqn:Et; try discriminate. injection E as <- _. apply take_first in Et.
  assert (K : sg = "-" \/ sg = "") by (destruct (skip s) as [|d s']; [|destruct (Ascii.eqb d "-"%char)]; injection Es as <- _; auto).
  destruct K as [-> | ->]; cbn; [discriminate|]. intros K. injection K as -> ->. discriminate Et.
Qed.
Lemma lf_value x : pall lf x -> pall lf (p_value x).
Proof.
  intros Hx s n r E. unfold p_value in E. destruct (p_variable s) as [n0 r0| | |] eqn:E1; try discriminate.
  - injection E as <- _. eapply lf_variable; eauto.
  - destruct (p_number s) as [n0 r0| | |] eqn:E2; try discriminate.
    + injection E as <- _. eapply lf_number; eauto.
    + destruct (Parser.lit "(" s) as [u s1| | |]; try discriminate. destruct (x s1) as [e s2| | |] eqn:E3; try discriminate.
      destruct (Parser.lit ")" s2); try discriminate. injection E as <- _. eapply Hx; eauto.
Qed.
Lemma lf_power x : pall lf x -> pall lf (p_power x).
Proof.
  intros Hx s n r E. unfold p_power in E. pose proof (lf_value x Hx) as Hv. destruct (p_value x s) as [v s1| | |] eqn:E1; try discriminate.
  destruct (Parser.lit "^" s1) as [u s2| | |]; try (injection E as <- _; eapply Hv; eauto).
  destruct (p_value x s2) as [w s3| | |] eqn:E2; try discriminate. injection E as <- _. cbn. csplit; auto; eapply Hv; eauto.
Qed.
Lemma lf_product x : pall lf x -> pall lf (p_product x).
Proof.
  intros Hx s n r E. unfold p_product in E. pose proof (lf_power x Hx) as Hv. destruct (p_power x s) as [v s1| | |] eqn:E1; try discriminate.
  destruct (chain _ _ _ s1) as [l s2| | |] eqn:E2; try discriminate. injection E as <- _. apply lf_chained; [eapply Hv; eauto|].
  eapply lf_chain; eauto.
Qed.
Lemma lf_expr x : pall lf x -> pall lf (p_expr_of x).
Proof.
  intros Hx s n r E. unfold p_expr_of in E. pose proof (lf_product x Hx) as Hv. destruct (p_product x s) as [v s1| | |] eqn:E1; try discriminate.
  destruct (chain _ _ _ s1) as [l s2| | |] eqn:E2; try discriminate. injection E as <- _. apply lf_chained; [eapply Hv; eauto|].
  eapply lf_chain; eauto.
Qed.
Lemma lf_list e l : pall lf e -> pall lf l -> pall lf (p_list_of e l).
Proof.
  intros He Hl s n r E. unfold p_list_of in E. pose proof (lf_sep _ He) as Hs.
  destruct (Parser.lit "[" s) as [u s1| | |]; try discriminate.
  destruct (Parser.lit "]" s1) as [u2 s2| | |]; try discriminate; [injection E as <- _; exact Logic.I|].
  destruct (sep e s1) as [l1 s2| | |] eqn:E1; try discriminate.
  - destruct (Hs _ _ _ E1) as [_ F]. destruct (Parser.lit "]" s2) as [u3 s3| | |]; try discriminate.
    + injection E as <- _. apply lf_list_node; [assumption|exact Logic.I].
    + destruct (Parser.lit "|" s2) as [u3 s3| | |]; try discriminate.
      destruct (p_variable s3) as [t s4| | |] eqn:E2; try discriminate.
      * destruct (Parser.lit "]" s4); try discriminate. injection E as <- _. apply lf_list_node; [assumption|eapply lf_variable; eauto].
      * destruct (l s3) as [t s4| | |] eqn:E3; try discriminate. destruct (Parser.lit "]" s4); try discriminate. injection E as <- _.
        apply lf_list_node; [assumption|eapply Hl; eauto].
Qed.
Lemma top_functor e : pall lf e -> pall top (p_functor_of e).
Proof.
  intros He s n r E. unfold p_functor_of in E. destruct (ident is_lower s) as [nm s1| | |] eqn:Ei; try discriminate. apply ident_first in Ei.
  destruct (strip "(" s1) as [s2|]; try discriminate. destruct (sep e s2) as [l s3| | |] eqn:E1; try discriminate.
  destruct (Parser.lit ")" s3); try discriminate. injection E as <- _. destruct (lf_sep _ He _ _ _ E1) as [N F].
  split; [cbn; apply leaves_all; now apply Forall_forall|]. cbn. exact (first_plain is_lower _ Ei eq_refl).
Qed.
Lemma lf_elem e l x : pall lf e -> pall lf l -> pall lf x -> pall lf (p_elem_of e l x).
Proof.
  intros He Hl Hx s n r E. unfold p_elem_of in E. destruct (p_functor_of e s) as [a0 r0| | |] eqn:E1; try discriminate.
  - injection E as <- _. exact (proj1 (top_functor e He _ _ _ E1)).
  - destruct (p_constant s) as [a0 r0| | |] eqn:E2; try discriminate.
    + injection E as <- _. apply lf_constant in E2. destruct E2 as (c & -> & H). exact H.
    + destruct (p_list_of e l s) as [a0 r0| | |] eqn:E3; try discriminate.
      * injection E as <- _. eapply (lf_list e l); eauto.
      * eapply (lf_expr x); eauto.
Qed.
Lemma lf_rec n : pall lf (fst (fst (p_rec n))) /\ pall lf (snd (fst (p_rec n))) /\ pall lf (snd (p_rec n)).
Proof.
  induction n as [|n IH]; cbn [p_rec]; [csplit; intros s a r E; discriminate|].
  destruct (p_rec n) as [[e l] x]. cbn [fst snd] in *. destruct IH as (A & B & C).
  csplit; auto using lf_elem, lf_list, lf_expr.
Qed.
Lemma top_binary l r op : pall lf l -> pall lf r -> plain op -> pall top (p_binary l r op).
Proof.
  intros Hl Hr Ho s n rest E. unfold p_binary in E. destruct (l s) as [a s1| | |] eqn:E1; try discriminate.
  destruct (Parser.lit op s1) as [u s2| | |]; try discriminate. destruct (r s2) as [b s3| | |] eqn:E2; try discriminate.
  injection E as <- _. split; [|exact Ho]. cbn. csplit; auto; [eapply Hl; eauto|eapply Hr; eauto].
Qed.
Lemma top_head n : pall top (fun s => p_functor n s <|> p_constant s).
Proof.
  intros s a r E. destruct (lf_rec n) as (He & _ & _). cbv beta in E. destruct (p_functor n s) as [a0 r0| | |] eqn:E1; try discriminate.
  - injection E as <- _. exact (top_functor _ He _ _ _ E1).
  - apply lf_constant in E. destruct E as (c & -> & H). split; exact H.
Qed.
Lemma top_atom n : pall top (p_atom n).
Proof.
  intros s a r E. destruct (lf_rec n) as (He & _ & Hx). unfold p_atom in E.
  destruct (p_binary (p_elem n) (p_elem n) "==" s) as [a0 r0| | |] eqn:E1; try discriminate.
  { injection E as <- _. eapply (top_binary (p_elem n) (p_elem n)); eauto. discriminate. }
  destruct (p_binary (p_elem n) (p_elem n) "\==" s) as [a0 r0| | |] eqn:E2; try discriminate.
  { injection E as <- _. eapply (top_binary (p_elem n) (p_elem n)); eauto. discriminate. }
  destruct (p_binary (p_elem n) (p_expr n) "is" s) as [a0 r0| | |] eqn:E3; try discriminate.
  { injection E as <- _. eapply (top_binary (p_elem n) (p_expr n)); eauto. discriminate. }
  eapply top_head; exact E.
Qed.
Lemma top_clause n : pall (Forall top) (p_clause n).
Proof.
  intros s c r E. unfold p_clause in E. pose proof (top_head n s) as Hh. cbv beta in Hh.
  destruct (p_functor n s <|> p_constant s) as [h s1| | |]; try discriminate.
  specialize (Hh _ _ eq_refl).
  destruct (Parser.lit ":-" s1) as [u s2| | |]; try discriminate.
  - destruct (sep (p_atom n) s2) as [b s3| | |] eqn:E2; try discriminate.
    + destruct (Parser.lit "." s3); try discriminate. injection E as <- _. constructor; [assumption|]. exact (proj2 (pall_sep _ _ (top_atom n) _ _ _ E2)).
    + destruct (Parser.lit "." s1); try discriminate. injection E as <- _. constructor; auto.
  - destruct (Parser.lit "." s1); try discriminate. injection E as <- _. constructor; auto.
Qed.
Lemma top_rules n : forall k, pall (Forall (Forall top)) (p_rules k n).
Proof.
  induction k as [|k IH]; intros s l r E; [discriminate|]. cbn [p_rules] in E.
  destruct (p_comment s) as [u s1| | |]; try discriminate; [eapply IH; eauto|].
  destruct (p_rule n s) as [c s1| | |] eqn:E1; try discriminate; [|injection E as <- _; constructor].
  destruct (p_rules k n s1) as [l2 s2| | |] eqn:E2; try discriminate. injection E as <- _. constructor; [|eapply IH; eauto].
  unfold p_rule in E1. destruct (p_clause n s) as [c' s3| | |] eqn:E3; try discriminate.
  destruct (p_comment s3 <|> POk tt s3); try discriminate. injection E1 as <- _. eapply top_clause; eauto.
Qed.
Theorem parse_program_top s P : parse_program s = Some (COk P) -> Forall (Forall top) P.
Proof.
  unfold parse_program. intros E. destruct (p_rules _ _ s) as [l r| | |] eqn:E1; try discriminate.
  destruct (skip r); try discriminate. injection E as <-. eapply top_rules; eauto.
Qed.
Theorem parse_query_top s q : parse_query s = Some (COk q) -> Forall top q.
Proof.
  unfold parse_query. intros E. destruct (sep _ s) as [l r| | |] eqn:E1; try discriminate.
  destruct (Parser.lit "." r) as [u r'| | |]; try discriminate. destruct (skip r'); try discriminate. injection E as <-.
  exact (proj2 (pall_sep _ _ (top_atom _) _ _ _ E1)).
Qed.
Lemma append_top c n : In c append_clauses -> In n c -> top n.
Proof.
  intros Hc Hn. assert (F : Forall (Forall top) append_clauses).
  { unfold append_clauses. repeat (constructor; [repeat (constructor; [split; cbn; unfold plain; repeat split; discriminate|]); constructor|]). constructor. }
  rewrite Forall_forall in F. specialize (F c Hc). rewrite Forall_forall in F. auto.
Qed.
Definition query_top (s : qstate) : Prop := match s with QFresh q | QStarted q => Forall top q | _ => True end.
Lemma session_top cf o P s : session cf o P s -> Forall (Forall top) P /\ query_top s.
Proof.
  induction 1 as [o E|o P s text cs o' H IH Ep E|o P s text r o' H IH E Hr|o P s text q o' H IH Ep E
                 |o P s text r o' H IH E Hr|o P s t H IH|o P s fuel n w r o' H IH Hs E Hr]; auto.
  - split; [constructor|exact Logic.I].
  - destruct IH as [_ IH]. split; [eapply parse_program_top; eauto|]. destruct s; first [exact IH|exact Logic.I].
  - destruct IH as [IH _]. split; [assumption|]. cbn. eapply parse_query_top; eauto.
  - destruct IH as [IH _]. split; [assumption|exact Logic.I].
  - destruct IH as [IH1 IH2]. split; [assumption|]. destruct s; first [exact IH2|exact Logic.I].
Qed.
