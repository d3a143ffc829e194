(** The terms of the grammar, their canonical text, and that parsing it gives the term back. *)
From Verif Require Import Base Machine Compiler Parser ParserFacts Texts.
Open Scope string_scope.
Open Scope list_scope.

(** --- the language --- *)
Fixpoint all_chars (f : ascii -> bool) (s : string) : bool :=
  match s with EmptyString => true | String c s' => f c && all_chars f s' end.
Definition name_of (first : ascii -> bool) (s : string) : bool :=
  match s with String c s' => first c && all_chars is_idc s' | EmptyString => false end.
Definition digits (s : string) : bool := match s with EmptyString => false | _ => all_chars is_digit s end.
Definition number_text (s : string) : bool :=
  match s with String c s' => if Ascii.eqb c "-"%char then digits s' else digits s | EmptyString => false end.
Definition operator (s : string) : bool := existsb (String.eqb s) ["^"; "+"; "-"; "*"; "//"].

(** the characters of names, numbers and blanks *)
Lemma characters c :
  (is_lower c = true <-> In c (list_ascii_of_string "abcdefghijklmnopqrstuvwxyz")) /\
  (is_upper c = true <-> In c (list_ascii_of_string "ABCDEFGHIJKLMNOPQRSTUVWXYZ")) /\
  (is_digit c = true <-> In c (list_ascii_of_string "0123456789")) /\
  (is_space c = true <-> c = " "%char \/ In (nat_of_ascii c) [9; 10; 11; 12; 13]) /\
  (is_idc c = true <-> is_lower c = true \/ is_upper c = true \/ is_digit c = true \/ c = "_"%char).
Proof.
  assert (In_b : forall l, In c l <-> existsb (Ascii.eqb c) l = true).
  { intros l. rewrite existsb_exists. split; [intros H; exists c; split; [exact H|apply Ascii.eqb_refl]|]. intros (x & Hx & E). apply Ascii.eqb_eq in E. now subst. }
  assert (In_n : forall k l, In k l <-> existsb (Nat.eqb k) l = true).
  { intros k l. rewrite existsb_exists. split; [intros H; exists k; split; [exact H|apply Nat.eqb_refl]|]. intros (x & Hx & E). apply Nat.eqb_eq in E. now subst. }
  rewrite !In_b, In_n, <- !(Ascii.eqb_eq c), <- !orb_true_iff. clear In_b In_n.
  assert (K : forall a b : bool, a = b -> (a = true <-> b = true)) by (intros a b ->; reflexivity).
  repeat match goal with |- _ /\ _ => split end; apply K; destruct c as [[] [] [] [] [] [] [] []]; vm_compute; reflexivity.
Qed.

Fixpoint g_expr (n : node) : bool :=
  match n with
  | NVar s => name_of is_upper s
  | NInt s => number_text s
  | NEv s [l; r] => operator s && g_expr l && g_expr r
  | _ => false
  end.
Definition is_list_node (n : node) : bool :=
  match n with NFun s [] | NFun s [_; _] => s =? "[" | _ => false end.
Definition is_tail (n : node) : bool := match n with NVar _ => true | _ => is_list_node n end.
(** a term: constant, structure, list or expression *)
Fixpoint g_term (n : node) : bool :=
  match n with
  | NCon s => name_of is_lower s
  | NFun s l =>
      forallb g_term l &&
      (if s =? "[" then match l with [] => true | [_; t] => is_tail t | _ => false end
       else name_of is_lower s && match l with [] => false | _ => true end)
  | _ => g_expr n
  end.
Definition g_head (n : node) : bool :=
  match n with
  | NCon s => name_of is_lower s
  | NFun s l => name_of is_lower s && (match l with [] => false | _ => true end) && forallb g_term l
  | _ => false
  end.
Definition g_atom (n : node) : bool :=
  match n with
  | NFun s [a; b] => if (s =? "==") || (s =? "\==") then g_term a && g_term b else g_head n
  | _ => g_head n
  end.
Definition g_clause (c : list node) : bool := match c with h :: b => g_head h && forallb g_atom b | [] => false end.
Definition g_query (q : list node) : bool := match q with [] => false | _ => forallb g_atom q end.

(** --- canonical text --- *)
Fixpoint text_at (tail : bool) (n : node) : string :=
  match n with
  | NVar s => if tail then "|" ++ s else s
  | NCon s | NInt s => s
  | NEv s [l; r] => "(" ++ text_at false l ++ s ++ text_at false r ++ ")"
  | NEv s _ => s
  | NFun s l =>
      if s =? "[" then
        match l with
        | [a; t] => (if tail then "," else "[") ++ text_at false a ++ text_at true t ++ (if tail then "" else "]")
        | _ => if tail then "" else "[]"
        end
      else s ++ "(" ++ String.concat "," (map (text_at false) l) ++ ")"
  end%string.
Definition text (n : node) : string := text_at false n.
Definition atom_text (n : node) : string :=
  match n with
  | NFun s [a; b] => if (s =? "==") || (s =? "\==") then (text a ++ s ++ text b)%string else text n
  | _ => text n
  end.
Definition atoms_text (l : list node) : string := String.concat "," (map atom_text l).
Definition clause_text (c : list node) : string :=
  match c with
  | [] => ""
  | [h] => (text h ++ "." ++ String "010" "")%string
  | h :: b => (text h ++ ":-" ++ atoms_text b ++ "." ++ String "010" "")%string
  end.
Definition program_text (cs : list (list node)) : string := String.concat "" (map clause_text cs).
Definition query_text (q : list node) : string := (atoms_text q ++ ".")%string.

(** --- what the parser returns is in the language --- *)
Definition pres_all {A} (Q : A -> bool) (p : string -> pres A) : Prop := forall s a r, p s = POk a r -> Q a = true.

Lemma take_all f s : forall a r, take f s = (a, r) -> all_chars f a = true.
Proof.
  induction s as [|c s IH]; cbn; intros a r E; [injection E as <- _; reflexivity|]. destruct (f c) eqn:Ef.
  - destruct (take f s) as [a' r'] eqn:Et. injection E as <- _. cbn. rewrite Ef. exact (IH _ _ eq_refl).
  - injection E as <- _. reflexivity.
Qed.
Lemma ident_g f : pres_all (name_of f) (ident f).
Proof.
  intros s a r E. unfold ident in E. destruct (skip s) as [|c s']; [discriminate|]. destruct (f c) eqn:Ef; [|discriminate].
  destruct (take is_idc s') as [x y] eqn:Et. injection E as <- _. cbn. rewrite Ef. exact (take_all _ _ _ _ Et).
Qed.
Lemma constant_g : pres_all g_head p_constant.
Proof. intros s a r E. unfold p_constant in E. destruct (ident is_lower s) as [x y| | |] eqn:F; try discriminate E. injection E as <- _. exact (ident_g _ _ _ _ F). Qed.
Lemma variable_g : pres_all (fun n => g_expr n && is_tail n) p_variable.
Proof.
  intros s a r E. unfold p_variable in E. destruct (ident is_upper s) as [x y| | |] eqn:F; try discriminate E. injection E as <- _. cbn [g_expr is_tail].
  rewrite (ident_g _ _ _ _ F). reflexivity.
Qed.
Lemma number_g : pres_all g_expr p_number.
Proof.
  intros s a r E. unfold p_number in E. destruct (skip s) as [|c s'] eqn:Es; [discriminate E|]. destruct (Ascii.eqb c "-") eqn:Ec.
  - destruct (take is_digit s') as [ds y] eqn:Et. destruct ds as [|d ds]; [discriminate E|]. injection E as <- _. cbn [String.append g_expr number_text].
    exact (take_all _ _ _ _ Et).
  - destruct (take is_digit (String c s')) as [ds y] eqn:Et. destruct ds as [|d ds]; [discriminate E|]. injection E as <- _. cbn [String.append g_expr number_text].
    assert (d = c). { cbn in Et. destruct (is_digit c); [|discriminate Et]. destruct (take is_digit s'). now injection Et as <- _. }
    subst d. rewrite Ec. exact (take_all _ _ _ _ Et).
Qed.
Lemma alt_g {A} (Q : A -> bool) p q : pres_all Q p -> pres_all Q q -> pres_all Q (fun s => p s <|> q s).
Proof. intros Hp Hq s a r E. destruct (p s) as [x y| | |] eqn:F; try discriminate E; [injection E as <- _|]; eauto. Qed.
Lemma imp_g {A} (Q R : A -> bool) p : (forall a, Q a = true -> R a = true) -> pres_all Q p -> pres_all R p.
Proof. intros H Hp s a r E. eauto. Qed.
Lemma sep_rest_g {A} (Q : A -> bool) p : pres_all Q p -> forall n, pres_all (forallb Q) (sep_rest n p).
Proof.
  intros Hp. induction n as [|n IH]; intros s a r E; cbn in E; [discriminate|]. destruct (lit "," s) as [x y| | |]; try (injection E as <- _; reflexivity).
  destruct (p y) as [x2 y2| | |] eqn:F2; try discriminate E; [|injection E as <- _; reflexivity].
  destruct (sep_rest n p y2) as [x3 y3| | |] eqn:F3; try discriminate E. injection E as <- _. cbn. rewrite (Hp _ _ _ F2). exact (IH _ _ _ F3).
Qed.
Lemma sep_g {A} (Q : A -> bool) p : pres_all Q p -> pres_all (fun l => match l with [] => false | _ => forallb Q l end) (sep p).
Proof.
  intros Hp s a r E. unfold sep in E. destruct (p s) as [x y| | |] eqn:F; try discriminate E.
  destruct (sep_rest _ p y) as [x2 y2| | |] eqn:F2; try discriminate E. injection E as <- _. cbn. rewrite (Hp _ _ _ F). exact (sep_rest_g _ _ Hp _ _ _ _ F2).
Qed.
Lemma op_in ops s o r : p_op ops s = POk o r -> In o ops.
Proof.
  induction ops as [|x ops IH]; cbn; [discriminate|]. destruct (lit x s); [intros E; injection E as <- _; now left|right; auto..].
Qed.
Lemma chain_g ops p : Forall (fun o => operator o = true) ops -> pres_all g_expr p -> forall n,
  pres_all (forallb (fun x => operator (fst x) && g_expr (snd x))) (chain n ops p).
Proof.
  intros Ho Hp. induction n as [|n IH]; intros s a r E; cbn in E; [discriminate|]. destruct (p_op ops s) as [x y| | |] eqn:F; try (injection E as <- _; reflexivity).
  destruct (p y) as [x2 y2| | |] eqn:F2; try discriminate E. destruct (chain n ops p y2) as [x3 y3| | |] eqn:F3; try discriminate E. injection E as <- _.
  cbn [forallb fst snd]. rewrite (Hp _ _ _ F2). apply op_in in F. rewrite (proj1 (Forall_forall _ _) Ho _ F). exact (IH _ _ _ F3).
Qed.
Lemma chained_g l : forall v, g_expr v = true -> forallb (fun x => operator (fst x) && g_expr (snd x)) l = true -> g_expr (chained_node v l) = true.
Proof.
  induction l as [|[o w] l IH]; intros v Hv Hl; [exact Hv|]. cbn [forallb fst snd] in Hl. apply andb_true_iff in Hl. destruct Hl as [H1 H2].
  apply andb_true_iff in H1. destruct H1 as [Ho Hw]. cbn [chained_node g_expr]. rewrite Ho, Hv. exact (IH w Hw H2).
Qed.
Lemma value_g x : pres_all g_expr x -> pres_all g_expr (p_value x).
Proof.
  intros Hx. unfold p_value. apply (alt_g g_expr p_variable); [apply (imp_g (fun n => g_expr n && is_tail n)); [|exact variable_g]; intros a H; now apply andb_true_iff in H|].
  apply (alt_g g_expr p_number); [exact number_g|]. intros s a r E.
  destruct (lit "(" s) as [u1 s1| | |]; try discriminate E. destruct (x s1) as [u2 s2| | |] eqn:F; try discriminate E.
  destruct (lit ")" s2) as [u3 s3| | |]; try discriminate E. injection E as <- _. exact (Hx _ _ _ F).
Qed.
Lemma power_g x : pres_all g_expr x -> pres_all g_expr (p_power x).
Proof.
  intros Hx. apply value_g in Hx. intros s a r E. unfold p_power in E. destruct (p_value x s) as [v s1| | |] eqn:F; try discriminate E.
  destruct (lit "^" s1) as [u2 s2| | |]; [|injection E as <- _; exact (Hx _ _ _ F)..].
  destruct (p_value x s2) as [w s3| | |] eqn:F2; try discriminate E. injection E as <- _. cbn. rewrite (Hx _ _ _ F), (Hx _ _ _ F2). reflexivity.
Qed.
Lemma product_g x : pres_all g_expr x -> pres_all g_expr (p_product x).
Proof.
  intros Hx. apply power_g in Hx. intros s a r E. unfold p_product in E. destruct (p_power x s) as [v s1| | |] eqn:F; try discriminate E.
  destruct (chain _ _ (p_power x) s1) as [l s2| | |] eqn:F2; try discriminate E. injection E as <- _. apply chained_g; [exact (Hx _ _ _ F)|].
  eapply chain_g; [|exact Hx|exact F2]. repeat constructor.
Qed.
Lemma expr_g x : pres_all g_expr x -> pres_all g_expr (p_expr_of x).
Proof.
  intros Hx. apply product_g in Hx. intros s a r E. unfold p_expr_of in E. destruct (p_product x s) as [v s1| | |] eqn:F; try discriminate E.
  destruct (chain _ _ (p_product x) s1) as [l s2| | |] eqn:F2; try discriminate E. injection E as <- _. apply chained_g; [exact (Hx _ _ _ F)|].
  eapply chain_g; [|exact Hx|exact F2]. repeat constructor.
Qed.
Lemma expr_term n : g_expr n = true -> g_term n = true.
Proof. destruct n; auto; discriminate. Qed.
Lemma head_term n : g_head n = true -> g_term n = true.
Proof.
  destruct n as [s|s|s|s l|s l]; try discriminate; auto. cbn. intros H. apply andb_true_iff in H. destruct H as [H F]. apply andb_true_iff in H. destruct H as [H N].
  rewrite F, H. cbn. destruct (s =? "[") eqn:E; [|exact N]. apply String.eqb_eq in E. subst s. discriminate H.
Qed.
Definition g_list (n : node) : bool := g_term n && is_list_node n.
Lemma list_node_g l t : forallb g_term l = true -> l <> [] -> g_term t && is_tail t = true -> g_list (list_node l t) = true.
Proof.
  intros Hl Ne Ht. assert (K : g_term (list_node l t) && is_tail (list_node l t) = true).
  { clear Ne. induction l as [|a l IH]; [exact Ht|]. cbn in Hl. apply andb_true_iff in Hl. destruct Hl as [Ha Hl]. specialize (IH Hl).
    apply andb_true_iff in IH. destruct IH as [I1 I2]. cbn [list_node g_term forallb is_tail is_list_node]. rewrite Ha, I1, I2. reflexivity. }
  destruct l as [|a l]; [now elim Ne|]. apply andb_true_iff in K. destruct K as [K1 K2]. unfold g_list. rewrite K1. exact K2.
Qed.
Lemma list_g e l : pres_all g_term e -> pres_all g_list l -> pres_all g_list (p_list_of e l).
Proof.
  intros He Hl. apply sep_g in He. unfold p_list_of.
  apply (alt_g g_list (fun s => lit "[" s --> _ @ s1 =>> (lit "]" s1 --> _ @ s2 =>> POk nil_node s2))).
  { intros s a r E. destruct (lit "[" s) as [u1 s1| | |]; try discriminate E. destruct (lit "]" s1) as [u2 s2| | |]; try discriminate E. injection E as <- _. reflexivity. }
  apply (alt_g g_list (fun s => lit "[" s --> _ @ s1 =>> (sep e s1 --> l @ s2 =>> (lit "]" s2 --> _ @ s3 =>> POk (list_node l nil_node) s3)))).
  { intros s a r E. destruct (lit "[" s) as [u1 s1| | |]; try discriminate E. destruct (sep e s1) as [u2 s2| | |] eqn:F; try discriminate E.
    destruct (lit "]" s2) as [u3 s3| | |]; try discriminate E. injection E as <- _. apply He in F. destruct u2 as [|x u2]; [discriminate F|].
    apply list_node_g; [exact F|discriminate|reflexivity]. }
  intros s a r E. destruct (lit "[" s) as [u1 s1| | |]; try discriminate E. destruct (sep e s1) as [u2 s2| | |] eqn:F; try discriminate E.
  destruct (lit "|" s2) as [u3 s3| | |]; try discriminate E. destruct (p_variable s3 <|> l s3) as [u4 s4| | |] eqn:F4; try discriminate E.
  destruct (lit "]" s4) as [u5 s5| | |]; try discriminate E. injection E as <- _. apply He in F. destruct u2 as [|x u2]; [discriminate F|].
  apply list_node_g; [exact F|discriminate|]. revert F4. apply (alt_g (fun n => g_term n && is_tail n) p_variable l).
  - apply (imp_g (fun n => g_expr n && is_tail n)); [|exact variable_g]. intros b H. apply andb_true_iff in H. destruct H as [H1 H2]. rewrite (expr_term _ H1), H2. reflexivity.
  - apply (imp_g g_list); [|exact Hl]. intros b H. apply andb_true_iff in H. destruct H as [H1 H2]. rewrite H1. destruct b; try discriminate H2; exact H2.
Qed.
Lemma functor_g e : pres_all g_term e -> pres_all g_head (p_functor_of e).
Proof.
  intros He. apply sep_g in He. intros s a r E. unfold p_functor_of in E.
  destruct (ident is_lower s) as [nm s1| | |] eqn:F1; try discriminate E. destruct (strip "(" s1) as [s2|]; [|discriminate E].
  destruct (sep e s2) as [l s3| | |] eqn:F3; try discriminate E. destruct (lit ")" s3) as [u4 s4| | |]; try discriminate E. injection E as <- _.
  cbn. rewrite (ident_g _ _ _ _ F1). apply He in F3. destruct l; [discriminate F3|exact F3].
Qed.
Lemma rec_g n : pres_all g_term (fst (fst (p_rec n))) /\ pres_all g_list (snd (fst (p_rec n))) /\ pres_all g_expr (snd (p_rec n)).
Proof.
  induction n as [|n IH]; [repeat split; intros s a r E; discriminate E|]. cbn [p_rec]. destruct (p_rec n) as [[e l] x]. cbn [fst snd] in *.
  destruct IH as (He & Hl & Hx). split; [|split]; auto using list_g, expr_g. unfold p_elem_of.
  apply (alt_g g_term (p_functor_of e)); [apply (imp_g g_head); [exact head_term|now apply functor_g]|].
  apply (alt_g g_term p_constant); [apply (imp_g g_head); [exact head_term|exact constant_g]|].
  apply (alt_g g_term (p_list_of e l)); [apply (imp_g g_list); [|now apply list_g]; intros a H; apply andb_true_iff in H; apply H|].
  apply (imp_g g_expr); [exact expr_term|now apply expr_g].
Qed.
Lemma binary_g p q op : ((op =? "==") || (op =? "\=="))%bool = true \/ op = "is" -> pres_all g_term p -> pres_all g_term q -> pres_all g_atom (p_binary p q op).
Proof.
  intros Ho Hp Hq s a r E. unfold p_binary in E. destruct (p s) as [x s1| | |] eqn:F; try discriminate E. destruct (lit op s1) as [u s2| | |]; try discriminate E.
  destruct (q s2) as [y s3| | |] eqn:F2; try discriminate E. injection E as <- _. cbn [g_atom]. apply Hp in F. apply Hq in F2. destruct Ho as [Ho|Ho].
  - rewrite Ho, F, F2. reflexivity.
  - rewrite Ho. cbn. rewrite F, F2. reflexivity.
Qed.
Lemma head_atom n : g_head n = true -> g_atom n = true.
Proof.
  intros H. destruct n as [s|s|s|s l|s l]; auto. destruct l as [|a [|b [|c l]]]; auto. cbn [g_atom]. destruct (s =? "==") eqn:E1.
  - apply String.eqb_eq in E1. subst s. discriminate H.
  - destruct (s =? "\==") eqn:E2; [apply String.eqb_eq in E2; subst s; discriminate H|]. exact H.
Qed.
Lemma fc_g n : pres_all g_head (fun s => p_functor n s <|> p_constant s).
Proof. apply alt_g; [apply functor_g, (rec_g n)|exact constant_g]. Qed.
Lemma atom_g n : pres_all g_atom (p_atom n).
Proof.
  destruct (rec_g n) as (E & _ & X). unfold p_atom.
  apply (alt_g g_atom (p_binary (p_elem n) (p_elem n) "==")); [apply binary_g; auto|].
  apply (alt_g g_atom (p_binary (p_elem n) (p_elem n) "\==")); [apply binary_g; auto|].
  apply (alt_g g_atom (p_binary (p_elem n) (p_expr n) "is")); [apply binary_g; auto; apply (imp_g g_expr); [exact expr_term|exact X]|].
  apply (imp_g g_head); [exact head_atom|exact (fc_g n)].
Qed.
Lemma clause_g n : pres_all g_clause (p_clause n).
Proof.
  intros s a r E. unfold p_clause in E. destruct (p_functor n s <|> p_constant s) as [h s1| | |] eqn:F; try discriminate E. apply (fc_g n) in F.
  destruct (lit ":-" s1 --> _ @ s2 =>> sep (p_atom n) s2) as [b s2| | |] eqn:F2; try discriminate E.
  - destruct (lit "." s2) as [u3 s3| | |]; try discriminate E. injection E as <- _. destruct (lit ":-" s1) as [u s1'| | |]; try discriminate F2.
    apply (sep_g _ _ (atom_g n)) in F2. cbn. rewrite F. destruct b; [reflexivity|exact F2].
  - destruct (lit "." s1) as [u3 s3| | |]; try discriminate E. injection E as <- _. cbn. now rewrite F.
Qed.
Lemma rules_g n : forall k, pres_all (forallb g_clause) (p_rules k n).
Proof.
  induction k as [|k IH]; intros s a r E; cbn in E; [discriminate|]. destruct (p_comment s) as [u s1| | |]; try discriminate E; [exact (IH _ _ _ E)|].
  destruct (p_rule n s) as [c s1| | |] eqn:F; try discriminate E; [|injection E as <- _; reflexivity].
  destruct (p_rules k n s1) as [l s2| | |] eqn:F2; try discriminate E. injection E as <- _. unfold p_rule in F.
  destruct (p_clause n s) as [c' s'| | |] eqn:F3; try discriminate F. destruct (p_comment s' <|> POk tt s'); try discriminate F. injection F as <- _.
  cbn. rewrite (clause_g _ _ _ _ F3). exact (IH _ _ _ F2).
Qed.
Theorem parse_program_g s P : parse_program s = Some (COk P) -> forallb g_clause P = true.
Proof.
  unfold parse_program. destruct (p_rules _ _ s) as [l r| | |] eqn:F; try discriminate. destruct (skip r); [|discriminate]. intros E. injection E as <-. exact (rules_g _ _ _ _ _ F).
Qed.
Theorem parse_query_g s q : parse_query s = Some (COk q) -> g_query q = true.
Proof.
  unfold parse_query. destruct (sep _ s) as [l r| | |] eqn:F; try discriminate. destruct (lit "." r) as [u r'| | |]; try discriminate. destruct (skip r'); [|discriminate].
  intros E. injection E as <-. exact (sep_g _ _ (atom_g _) _ _ _ F).
Qed.
