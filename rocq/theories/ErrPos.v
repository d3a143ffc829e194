(** Where a syntax error is reported.
    Model: an expectation > that is not met throws with the position of the iterator of its sequence (boost spirit, expect_function).
    Characters and literal strings move this iterator over blanks before they fail; rules, sequences and lists leave it where it was. *)
From Verif Require Import Base Machine Compiler Parser ParserFacts Texts Grammar Roundtrip Exprs Language Positions.
Open Scope string_scope.
Open Scope list_scope.

(** [XThrow t]: thrown at the position after which the text t remains *)
Inductive xres (A : Type) := XOk (a : A) (rest : string) | XFail | XThrow (t : string) | XFuel.
Arguments XOk {A}. Arguments XFail {A}. Arguments XThrow {A}. Arguments XFuel {A}.
Definition xbind {A B} (p : xres A) (k : A -> string -> xres B) : xres B :=
  match p with XOk a r => k a r | XFail => XFail | XThrow t => XThrow t | XFuel => XFuel end.
Definition xmust {A B} (t : string) (p : xres A) (k : A -> string -> xres B) : xres B :=
  match p with XOk a r => k a r | XFail => XThrow t | XThrow t' => XThrow t' | XFuel => XFuel end.
Definition xalt {A} (p q : xres A) : xres A := match p with XFail => q | x => x end.
(** parsers that cannot throw, and comments, which throw at the end of the text only *)
Definition lift {A} (p : pres A) : xres A :=
  match p with POk a r => XOk a r | PFail => XFail | PThrow => XThrow "" | PFuel => XFuel end.
Definition xparser := string -> xres node.

(** base_grammar.h 95, 104: elem % ',' *)
Fixpoint xsep_rest {A} (n : nat) (elem : string -> xres A) (s : string) : xres (list A) :=
  match n with
  | 0 => XFuel
  | S n' =>
      match lit "," s with
      | POk _ s1 =>
          match elem s1 with
          | XOk a s2 => xbind (xsep_rest n' elem s2) (fun l s3 => XOk (a :: l) s3)
          | XFail => XOk [] s
          | XThrow t => XThrow t
          | XFuel => XFuel
          end
      | _ => XOk [] s
      end
  end.
Definition xsep {A} (elem : string -> xres A) (s : string) : xres (list A) :=
  xbind (elem s) (fun a r => xbind (xsep_rest (S (slen r)) elem r) (fun l r' => XOk (a :: l) r')).
(** base_grammar.h 113-120 *)
Fixpoint xchain (n : nat) (ops : list string) (operand : xparser) (s : string) : xres (list (string * node)) :=
  match n with
  | 0 => XFuel
  | S n' =>
      match p_op ops s with
      | POk o s1 => xmust s1 (operand s1) (fun v s2 => xbind (xchain n' ops operand s2) (fun l s3 => XOk ((o, v) :: l) s3))
      | _ => XOk [] s
      end
  end.
(** base_grammar.h 109-120 *)
Definition x_value (expr : xparser) : xparser := fun s =>
  xalt (lift (p_variable s)) (xalt (lift (p_number s))
    (xbind (lift (lit "(" s)) (fun _ s1 => xmust s1 (expr s1) (fun e s2 => xmust (skip s2) (lift (lit ")" s2)) (fun _ s3 => XOk e s3))))).
Definition x_power (expr : xparser) : xparser := fun s =>
  xbind (x_value expr s) (fun v s1 =>
  match lit "^" s1 with
  | POk _ s2 => xmust s2 (x_value expr s2) (fun w s3 => XOk (NEv "^" [v; w]) s3)
  | _ => XOk v s1
  end).
Definition x_product (expr : xparser) : xparser := fun s =>
  xbind (x_power expr s) (fun v s1 => xbind (xchain (S (slen s1)) ["*"; "//"] (x_power expr) s1) (fun l s2 => XOk (chained_node v l) s2)).
Definition x_expr_of (expr : xparser) : xparser := fun s =>
  xbind (x_product expr s) (fun v s1 => xbind (xchain (S (slen s1)) ["+"; "-"] (x_product expr) s1) (fun l s2 => XOk (chained_node v l) s2)).
(** base_grammar.h 93-99 *)
Definition x_list_of (elem list : xparser) : xparser := fun s =>
  xalt (xbind (lift (lit "[" s)) (fun _ s1 => xbind (lift (lit "]" s1)) (fun _ s2 => XOk nil_node s2)))
  (xalt (xbind (lift (lit "[" s)) (fun _ s1 => xbind (xsep elem s1) (fun l s2 => xbind (lift (lit "]" s2)) (fun _ s3 =>
       XOk (list_node l nil_node) s3))))
  (xbind (lift (lit "[" s)) (fun _ s1 => xbind (xsep elem s1) (fun l s2 => xbind (lift (lit "|" s2)) (fun _ s3 =>
       xbind (xalt (lift (p_variable s3)) (list s3)) (fun t s4 => xbind (lift (lit "]" s4)) (fun _ s5 =>
        XOk (list_node l t) s5))))))).
(** base_grammar.h 81-85 *)
Definition x_functor_of (elem : xparser) : xparser := fun s =>
  xbind (lift (ident is_lower s)) (fun nm s1 =>
  match strip "(" s1 with
  | Some s2 => xmust s2 (xsep elem s2) (fun l s3 => xmust (skip s3) (lift (lit ")" s3)) (fun _ s4 => XOk (NFun nm l) s4))
  | None => XFail
  end).
(** base_grammar.h 101 *)
Definition x_elem_of (elem list expr : xparser) : xparser := fun s =>
  xalt (x_functor_of elem s) (xalt (lift (p_constant s)) (xalt (x_list_of elem list s) (x_expr_of expr s))).
Fixpoint x_rec (n : nat) : xparser * xparser * xparser :=
  match n with
  | 0 => (fun _ => XFuel, fun _ => XFuel, fun _ => XFuel)
  | S n' => let '(e, l, x) := x_rec n' in (x_elem_of e l x, x_list_of e l, x_expr_of x)
  end.
Definition x_elem (n : nat) : xparser := fst (fst (x_rec n)).
Definition x_expr (n : nat) : xparser := snd (x_rec n).
Definition x_functor (n : nat) : xparser := x_functor_of (x_elem n).
(** base_grammar.h 104-106, 123-129 *)
Definition x_binary (l r : xparser) (op : string) : xparser := fun s =>
  xbind (l s) (fun a s1 => xbind (lift (lit op s1)) (fun _ s2 => xbind (r s2) (fun b s3 => XOk (NFun op [a; b]) s3))).
Definition x_atom (n : nat) : xparser := fun s =>
  xalt (x_binary (x_elem n) (x_elem n) "==" s)
  (xalt (x_binary (x_elem n) (x_elem n) "\==" s)
  (xalt (x_binary (x_elem n) (x_expr n) "is" s)
  (xalt (x_functor n s) (lift (p_constant s))))).
(** program_grammar.h 44-48; the optional body never fails *)
Definition x_clause (n : nat) (s : string) : xres (list node) :=
  xbind (xalt (x_functor n s) (lift (p_constant s))) (fun h s1 =>
  xbind (xalt (xbind (lift (lit ":-" s1)) (fun _ s2 => xsep (x_atom n) s2)) (XOk [] s1)) (fun b s3 =>
  xmust (skip s3) (lift (lit "." s3)) (fun _ s4 => XOk (h :: b) s4))).
(** program_grammar.h 39-41 *)
Definition x_rule (n : nat) (s : string) : xres (list node) :=
  xbind (x_clause n s) (fun c s1 => xbind (xalt (lift (p_comment s1)) (XOk tt s1)) (fun _ s2 => XOk c s2)).
(** program_grammar.h 36 *)
Fixpoint x_rules (k n : nat) (s : string) : xres (list (list node)) :=
  match k with
  | 0 => XFuel
  | S k' =>
      match lift (p_comment s) with
      | XOk _ s1 => x_rules k' n s1
      | XThrow t => XThrow t
      | XFuel => XFuel
      | XFail =>
          match x_rule n s with
          | XOk c s1 => xbind (x_rules k' n s1) (fun l s2 => XOk (c :: l) s2)
          | XFail => XOk [] s
          | XThrow t => XThrow t
          | XFuel => XFuel
          end
      end
  end.
(** What the caller of the parser gets. [Stopped t]: PARSER_ERROR with the line of the position after which t remains (error_handler.h 24-32);
    [Unset]: the error object as constructed, parser.h 28-30 *)
Inductive parsed (A : Type) := Read (a : A) | Stopped (t : string) | Unset.
Arguments Read {A}. Arguments Stopped {A}. Arguments Unset {A}.
(** parser.h 34-46, program_grammar.h 36: > qi::eoi *)
Definition parse_program_x (s : string) : option (parsed (list (list node))) :=
  let n := S (slen s) in
  match x_rules n n s with
  | XOk l r => match skip r with EmptyString => Some (Read l) | t => Some (Stopped t) end
  | XFail => Some Unset
  | XThrow t => Some (Stopped t)
  | XFuel => None
  end.
(** parser.h 18-31, query_grammar.h 30-32 *)
Definition parse_query_x (s : string) : option (parsed (list node)) :=
  let n := S (slen s) in
  match xmust (skip s) (xsep (x_atom n) s) (fun l r => xmust (skip r) (lift (lit "." r)) (fun _ r' => XOk l r')) with
  | XOk l r' => match skip r' with EmptyString => Some (Read l) | _ => Some Unset end
  | XFail => Some Unset
  | XThrow t => Some (Stopped t)
  | XFuel => None
  end.
(** error_handler.h 26-27 *)
Definition error_line (s t : string) : N := line_of (before s t).

(** --- the positions change nothing of the rest --- *)
Definition plain {A} (x : xres A) : pres A := match x with XOk a r => POk a r | XFail => PFail | XThrow _ => PThrow | XFuel => PFuel end.
Lemma plain_lift {A} (p : pres A) : plain (lift p) = p.
Proof. now destruct p. Qed.
Lemma plain_bind {A B} (p : xres A) (k : A -> string -> xres B) : plain (xbind p k) = match plain p with POk a r => plain (k a r) | PFail => PFail | PThrow => PThrow | PFuel => PFuel end.
Proof. now destruct p. Qed.
Lemma plain_must {A B} t (p : xres A) (k : A -> string -> xres B) : plain (xmust t p k) = match plain p with POk a r => plain (k a r) | PFail => PThrow | PThrow => PThrow | PFuel => PFuel end.
Proof. now destruct p. Qed.
Lemma plain_alt {A} (p q : xres A) : plain (xalt p q) = match plain p with PFail => plain q | x => x end.
Proof. now destruct p. Qed.
Definition like {A} (x : string -> xres A) (p : string -> pres A) : Prop := forall s, plain (x s) = p s.
Lemma sep_rest_like {A} (x : string -> xres A) p : like x p -> forall n, like (xsep_rest n x) (sep_rest n p).
Proof.
  intros L. induction n as [|n IH]; intros s; [reflexivity|]. cbn [xsep_rest sep_rest]. destruct (lit "," s) as [y s1| | |]; try reflexivity.
  rewrite <- (L s1). destruct (x s1) as [a s2| |t|]; cbn [plain]; try reflexivity. rewrite plain_bind, (IH s2). reflexivity.
Qed.
Lemma sep_like {A} (x : string -> xres A) p : like x p -> like (xsep x) (sep p).
Proof.
  intros L s. unfold xsep, sep. rewrite plain_bind, (L s). destruct (p s) as [a r| | |]; try reflexivity. rewrite plain_bind, (sep_rest_like x p L). reflexivity.
Qed.
Lemma chain_like ops x p : like x p -> forall n, like (xchain n ops x) (chain n ops p).
Proof.
  intros L. induction n as [|n IH]; intros s; [reflexivity|]. cbn [xchain chain]. destruct (p_op ops s) as [o s1| | |]; try reflexivity.
  rewrite plain_must, (L s1). destruct (p s1) as [v s2| | |]; try reflexivity. rewrite plain_bind, (IH s2). reflexivity.
Qed.
Lemma plain_ok {A} (a : A) r : plain (XOk a r) = POk a r.
Proof. reflexivity. Qed.
Ltac plains := repeat (rewrite ?plain_ok, ?plain_lift, ?plain_bind, ?plain_must, ?plain_alt; cbv beta iota).
Lemma value_like x p : like x p -> like (x_value x) (p_value p).
Proof.
  intros L s. unfold x_value, p_value. plains. destruct (p_variable s) as [? ?| | |]; try reflexivity. destruct (p_number s) as [? ?| | |]; try reflexivity.
  destruct (lit "(" s) as [y s1| | |]; try reflexivity. plains. rewrite (L s1). destruct (p s1) as [e s2| | |]; try reflexivity. plains. destruct (lit ")" s2); reflexivity.
Qed.
Lemma power_like x p : like x p -> like (x_power x) (p_power p).
Proof.
  intros L s. unfold x_power, p_power. plains. rewrite (value_like x p L s). destruct (p_value p s) as [v s1| | |]; try reflexivity.
  destruct (lit "^" s1) as [y s2| | |]; try reflexivity. plains. rewrite (value_like x p L s2). destruct (p_value p s2); reflexivity.
Qed.
Lemma product_like x p : like x p -> like (x_product x) (p_product p).
Proof.
  intros L s. unfold x_product, p_product. plains. rewrite (power_like x p L s). destruct (p_power p s) as [v s1| | |]; try reflexivity. plains.
  rewrite (chain_like _ _ _ (power_like x p L)). reflexivity.
Qed.
Lemma expr_of_like x p : like x p -> like (x_expr_of x) (p_expr_of p).
Proof.
  intros L s. unfold x_expr_of, p_expr_of. plains. rewrite (product_like x p L s). destruct (p_product p s) as [v s1| | |]; try reflexivity. plains.
  rewrite (chain_like _ _ _ (product_like x p L)). reflexivity.
Qed.
Lemma list_of_like e l pe pl : like e pe -> like l pl -> like (x_list_of e l) (p_list_of pe pl).
Proof.
  intros Le Ll s. unfold x_list_of, p_list_of. plains. destruct (lit "[" s) as [y s1| | |]; try reflexivity. plains.
  pose proof (sep_like e pe Le s1) as Es. destruct (lit "]" s1) as [y1 s2| | |]; try reflexivity; cbv beta iota; rewrite ?Es;
  (destruct (sep pe s1) as [l2 s2| | |]; try reflexivity; plains; destruct (lit "]" s2) as [y2 s3| | |]; try reflexivity; cbv beta iota; plains;
   destruct (lit "|" s2) as [y4 s4| | |]; try reflexivity; plains; rewrite (Ll s4); destruct (p_variable s4) as [v s5| | |]; try reflexivity; plains; try (destruct (lit "]" s5); reflexivity);
   destruct (pl s4) as [v s5| | |]; try reflexivity; plains; destruct (lit "]" s5); reflexivity).
Qed.
Lemma functor_of_like e pe : like e pe -> like (x_functor_of e) (p_functor_of pe).
Proof.
  intros L s. unfold x_functor_of, p_functor_of. plains. destruct (ident is_lower s) as [nm s1| | |]; try reflexivity. destruct (strip "(" s1) as [s2|]; [|reflexivity]. plains.
  rewrite (sep_like e pe L s2). destruct (sep pe s2) as [l s3| | |]; try reflexivity. plains. destruct (lit ")" s3); reflexivity.
Qed.
Lemma elem_of_like e l x pe pl px : like e pe -> like l pl -> like x px -> like (x_elem_of e l x) (p_elem_of pe pl px).
Proof.
  intros Le Ll Lx s. unfold x_elem_of, p_elem_of. plains. rewrite (functor_of_like e pe Le s), (list_of_like e l pe pl Le Ll s), (expr_of_like x px Lx s). reflexivity.
Qed.
Lemma x_rec_S n : x_rec (S n) = (x_elem_of (fst (fst (x_rec n))) (snd (fst (x_rec n))) (snd (x_rec n)), x_list_of (fst (fst (x_rec n))) (snd (fst (x_rec n))), x_expr_of (snd (x_rec n))).
Proof. cbn [x_rec]. destruct (x_rec n) as [[e l] x]. reflexivity. Qed.
Lemma rec_like n : like (x_elem n) (p_elem n) /\ like (snd (fst (x_rec n))) (p_list n) /\ like (x_expr n) (p_expr n).
Proof.
  induction n as [|n (I1 & I2 & I3)]; [repeat split; intros s; reflexivity|]. unfold x_elem, x_expr in *. rewrite x_rec_S. cbn [fst snd].
  rewrite elem_S, p_list_S, p_expr_S. repeat split; [now apply elem_of_like|now apply list_of_like|now apply expr_of_like].
Qed.
Lemma functor_like n : like (x_functor n) (p_functor n).
Proof. apply functor_of_like, rec_like. Qed.
Lemma binary_like l r pl pr op : like l pl -> like r pr -> like (x_binary l r op) (p_binary pl pr op).
Proof.
  intros Ll Lr s. unfold x_binary, p_binary. plains. rewrite (Ll s). destruct (pl s) as [a s1| | |]; try reflexivity. plains. destruct (lit op s1) as [y s2| | |]; try reflexivity. plains.
  rewrite (Lr s2). destruct (pr s2); reflexivity.
Qed.
Lemma atom_like n : like (x_atom n) (p_atom n).
Proof.
  intros s. destruct (rec_like n) as (I1 & I2 & I3). unfold x_atom, p_atom. plains. rewrite !(binary_like _ _ _ _ _ I1 I1), (binary_like _ _ _ _ _ I1 I3), (functor_like n s). reflexivity.
Qed.
Lemma clause_like n : like (x_clause n) (p_clause n).
Proof.
  intros s. unfold x_clause, p_clause. plains. rewrite (functor_like n s). destruct (p_functor n s) as [h s1| | |]; try reflexivity; cbv beta iota; plains.
  - destruct (lit ":-" s1) as [y s2| | |]; cbv beta iota; plains; rewrite ?(sep_like _ _ (atom_like n)); try (destruct (sep (p_atom n) s2) as [b s3| | |]; try reflexivity; plains); try reflexivity;
      match goal with |- context [lit "." ?u] => destruct (lit "." u); reflexivity end.
  - destruct (p_constant s) as [h s1| | |]; try reflexivity; plains. destruct (lit ":-" s1) as [y s2| | |]; cbv beta iota; plains; rewrite ?(sep_like _ _ (atom_like n)); try (destruct (sep (p_atom n) s2) as [b s3| | |]; try reflexivity; plains); try reflexivity;
      match goal with |- context [lit "." ?u] => destruct (lit "." u); reflexivity end.
Qed.
Lemma rule_like n : like (x_rule n) (p_rule n).
Proof. intros s. unfold x_rule, p_rule. plains. rewrite (clause_like n s). destruct (p_clause n s) as [c s1| | |]; try reflexivity; plains. destruct (p_comment s1); reflexivity. Qed.
Lemma rules_like n : forall k, like (x_rules k n) (p_rules k n).
Proof.
  induction k as [|k IH]; intros s; [reflexivity|]. cbn [x_rules p_rules]. destruct (p_comment s) as [y s1| | |]; cbn [lift]; try reflexivity; [apply IH|].
  rewrite <- (rule_like n s). destruct (x_rule n s) as [c s1| |t|]; cbn [plain]; try reflexivity. plains. rewrite (IH s1). reflexivity.
Qed.
Theorem program_plain s : parse_program s =
  match parse_program_x s with Some (Read P) => Some (COk P) | Some (Stopped _) | Some Unset => Some (CErr CParser) | None => None end.
Proof.
  unfold parse_program, parse_program_x. rewrite <- (rules_like (S (slen s)) (S (slen s)) s). destruct (x_rules _ _ s) as [l r| |t|]; cbn [plain]; try reflexivity. destruct (skip r); reflexivity.
Qed.
Theorem query_plain s : parse_query s =
  match parse_query_x s with Some (Read q) => Some (COk q) | Some (Stopped _) => Some (CErr CParser) | Some Unset => Some (CErr CNone) | None => None end.
Proof.
  unfold parse_query, parse_query_x. rewrite <- (sep_like _ _ (atom_like (S (slen s))) s). destruct (xsep _ s) as [l r| |t|]; cbn [plain xmust]; try reflexivity.
  destruct (lit "." r) as [y r'| | |]; cbn [lift xmust]; try reflexivity. destruct (skip r'); reflexivity.
Qed.

(** --- the text before the position reported is the beginning of a text of the language --- *)
Definition begins {A} (T : A -> string -> Prop) (u : string) : Prop := exists n v, T n (u +++ v).
Definition lands {A} (T : A -> string -> Prop) (x : string -> xres A) : Prop := forall s t, x s = XThrow t -> exists u, s = u +++ t /\ begins T u.
Lemma like_ok {A} (x : string -> xres A) p s a t : like x p -> x s = XOk a t -> p s = POk a t.
Proof. intros L E. rewrite <- (L s), E. reflexivity. Qed.
Lemma lift_throw {A} (p : pres A) t : lift p = XThrow t -> p = PThrow /\ t = "".
Proof. destruct p; try discriminate. intros E. injection E as <-. auto. Qed.
Lemma lit_throw w s t : lift (lit w s) <> XThrow t.
Proof. unfold lit. destruct (strip w (skip s)); discriminate. Qed.
Lemma ident_throw f s t : lift (ident f s) <> XThrow t.
Proof. unfold ident. destruct (skip s) as [|c r]; [discriminate|]. destruct (f c); [|discriminate]. destruct (take is_idc r); discriminate. Qed.
Lemma variable_throw s t : lift (p_variable s) <> XThrow t.
Proof. unfold p_variable. pose proof (ident_throw is_upper s t) as K. destruct (ident is_upper s); try discriminate. intros E. apply K. injection E as <-. reflexivity. Qed.
Lemma constant_throw s t : lift (p_constant s) <> XThrow t.
Proof. unfold p_constant. pose proof (ident_throw is_lower s t) as K. destruct (ident is_lower s); try discriminate. intros E. apply K. injection E as <-. reflexivity. Qed.
Lemma number_throw s t : lift (p_number s) <> XThrow t.
Proof. unfold p_number. destruct (match skip s with EmptyString => _ | String _ _ => _ end) as [sg s1]. destruct (take is_digit s1) as [[|c ds] r]; discriminate. Qed.
Lemma bind_throw {A B} (p : xres A) (k : A -> string -> xres B) t : xbind p k = XThrow t -> p = XThrow t \/ exists a r, p = XOk a r /\ k a r = XThrow t.
Proof. destruct p as [a r| |t'|]; cbn [xbind]; intros E; try discriminate E; [right; eauto|]. injection E as <-. auto. Qed.
Lemma must_throw {A B} t0 (p : xres A) (k : A -> string -> xres B) t : xmust t0 p k = XThrow t -> p = XThrow t \/ (p = XFail /\ t = t0) \/ exists a r, p = XOk a r /\ k a r = XThrow t.
Proof. destruct p as [a r| |t'|]; cbn [xmust]; intros E; try discriminate E; [right; right; eauto| |]; injection E as <-; auto. Qed.
Lemma alt_throw {A} (p q : xres A) t : xalt p q = XThrow t -> p = XThrow t \/ q = XThrow t.
Proof. destruct p; cbn [xalt]; auto. Qed.
Lemma lift_ok {A} (p : pres A) a r : lift p = XOk a r -> p = POk a r.
Proof. destruct p; try discriminate. intros E. injection E as <- <-. reflexivity. Qed.
Lemma blank_nil : blank "".
Proof. reflexivity. Qed.
Lemma one_written p : writes p (NInt "1") "1".
Proof. exact (w_int p "" "1" blank_nil eq_refl). Qed.
Lemma a_head : head_lang (NCon "a") "a".
Proof. exact (ht_con "" "a" blank_nil eq_refl). Qed.
(** [finish w v]: the beginning is w, and v completes it *)
Ltac finish w v := exists w; split; [rewrite ?app_assoc_s; reflexivity|]; eexists; exists v; rewrite ?app_assoc_s.
Ltac cut_blank s Es := revert Es; generalize (skip s); let z := fresh "z" in intros z Es; subst s.
Lemma value_lands x p : like x p -> sound 1 p -> lands (writes 1) x -> lands (writes 4) (x_value x).
Proof.
  intros L So La s t E. unfold x_value in E. apply alt_throw in E. destruct E as [E|E]; [elim (variable_throw _ _ E)|]. apply alt_throw in E. destruct E as [E|E]; [elim (number_throw _ _ E)|].
  apply bind_throw in E. destruct E as [E|([] & s1 & E1 & E)]; [elim (lit_throw _ _ _ E)|]. apply lift_ok, lit_split in E1. destruct E1 as (b & B & ->).
  apply must_throw in E. destruct E as [E|[[E ->]|(e & s2 & E2 & E)]].
  - destruct (La _ _ E) as (u & -> & n & v & W). finish (b +++ "(" +++ u) (v +++ ")"). pose proof (w_par 4 b "" n _ B blank_nil W) as K. rewrite !app_assoc_s in K. exact K.
  - finish (b +++ "(") "1)". exact (w_par 4 b "" _ _ B blank_nil (one_written 1)).
  - apply must_throw in E. destruct E as [E|[[E ->]|(y & s3 & E3 & E)]]; [elim (lit_throw _ _ _ E)| |discriminate E].
    destruct (So _ _ _ (like_ok x p _ _ _ L E2)) as (w & -> & W & _). destruct (skip_split s2) as (b' & B' & Es). cut_blank s2 Es. finish (b +++ "(" +++ w +++ b') ")".
    exact (w_par 4 b b' _ _ B B' W).
Qed.
Lemma power_lands x p : like x p -> sound 1 p -> lands (writes 1) x -> lands (writes 3) (x_power x).
Proof.
  intros L So La s t E. unfold x_power in E. pose proof (value_lands x p L So La) as Lv. apply bind_throw in E. destruct E as [E|(v & s1 & E1 & E)].
  - destruct (Lv _ _ E) as (u & -> & n & v & W). exists u. split; [reflexivity|]. exists n, v. apply (writes_le 4); [exact W|lia].
  - destruct (value_sound p So _ _ _ (like_ok _ _ _ _ _ (value_like x p L) E1)) as (w & -> & W & _). destruct (lit "^" s1) as [y s2| | |] eqn:L1; try discriminate E.
    destruct (lit_split _ _ _ _ L1) as (b & B & ->). apply must_throw in E. destruct E as [E|[[E ->]|(w2 & s3 & E3 & E)]]; [| |discriminate E].
    + destruct (Lv _ _ E) as (u & -> & n & v' & W'). finish (w +++ b +++ "^" +++ u) v'. exact (w_pow 3 b _ _ _ _ (le_n 3) B W W').
    + finish (w +++ b +++ "^") "1". exact (w_pow 3 b _ _ _ _ (le_n 3) B W (one_written 4)).
Qed.
Lemma op_split ops s o t : p_op ops s = POk o t -> In o ops /\ exists b, blank b /\ s = b +++ o +++ t.
Proof.
  induction ops as [|o1 ops IH]; intros E; [discriminate E|]. cbn [p_op] in E. destruct (lit o1 s) as [y r| | |] eqn:L; [|destruct (IH E) as [H K]; split; [now right|exact K]..].
  injection E as <- <-. split; [now left|]. exact (lit_split _ _ _ _ L).
Qed.
Lemma chain_lands lv ops x p : like x p -> sound (S lv) p -> lands (writes (S lv)) x ->
  (forall b o n m s u, blank b -> In o ops -> writes (S lv) n s -> writes lv m u -> writes lv (NEv o [n; m]) (s +++ b +++ o +++ u)) ->
  forall k s t, xchain k ops x s = XThrow t -> forall v w, writes (S lv) v w -> exists u, s = u +++ t /\ begins (writes lv) (w +++ u).
Proof.
  intros L So La Mk. induction k as [|k IH]; intros s t E v w W; [discriminate E|]. cbn [xchain] in E. destruct (p_op ops s) as [o s1| | |] eqn:O; try discriminate E.
  destruct (op_split _ _ _ _ O) as (Ho & b & B & ->). apply must_throw in E. destruct E as [E|[[E ->]|(v2 & s2 & E2 & E)]].
  - destruct (La _ _ E) as (u & -> & n & v' & W'). finish (b +++ o +++ u) v'. apply (Mk b o v n w (u +++ v') B Ho W). apply (writes_le (S lv)); [exact W'|lia].
  - finish (b +++ o) "1". exact (Mk b o v (NInt "1") w "1" B Ho W (one_written lv)).
  - apply bind_throw in E. destruct E as [E|(l & s3 & E3 & E)]; [|discriminate E]. destruct (So _ _ _ (like_ok x p _ _ _ L E2)) as (w2 & -> & W2 & _).
    destruct (IH _ _ E v2 w2 W2) as (u & -> & n & v' & W'). rewrite !app_assoc_s in W'. finish (b +++ o +++ w2 +++ u) v'. exact (Mk b o v n w _ B Ho W W').
Qed.
Lemma product_lands x p : like x p -> sound 1 p -> lands (writes 1) x -> lands (writes 2) (x_product x).
Proof.
  intros L So La s t E. unfold x_product in E. pose proof (power_lands x p L So La) as Lv. apply bind_throw in E. destruct E as [E|(v & s1 & E1 & E)].
  - destruct (Lv _ _ E) as (u & -> & n & v & W). exists u. split; [reflexivity|]. exists n, v. apply (writes_le 3); [exact W|lia].
  - destruct (power_sound p So _ _ _ (like_ok _ _ _ _ _ (power_like x p L) E1)) as (w & -> & W & _). apply bind_throw in E. destruct E as [E|(l & s2 & E2 & E)]; [|discriminate E].
    destruct (chain_lands 2 _ _ _ (power_like x p L) (power_sound p So) Lv (fun b o n m s u B Ho => w_mul 2 b o n m s u (le_n 2) B Ho) _ _ _ E v w W) as (u & -> & H).
    exists (w +++ u). split; [now rewrite app_assoc_s|exact H].
Qed.
Lemma expr_of_lands x p : like x p -> sound 1 p -> lands (writes 1) x -> lands (writes 1) (x_expr_of x).
Proof.
  intros L So La s t E. unfold x_expr_of in E. pose proof (product_lands x p L So La) as Lv. apply bind_throw in E. destruct E as [E|(v & s1 & E1 & E)].
  - destruct (Lv _ _ E) as (u & -> & n & v & W). exists u. split; [reflexivity|]. exists n, v. apply (writes_le 2); [exact W|lia].
  - destruct (product_sound p So _ _ _ (like_ok _ _ _ _ _ (product_like x p L) E1)) as (w & -> & W & _). apply bind_throw in E. destruct E as [E|(l & s2 & E2 & E)]; [|discriminate E].
    destruct (chain_lands 1 _ _ _ (product_like x p L) (product_sound p So) Lv (fun b o n m s u B Ho => w_add 1 b o n m s u (le_n 1) B Ho) _ _ _ E v w W) as (u & -> & H).
    exists (w +++ u). split; [now rewrite app_assoc_s|exact H].
Qed.
Lemma sep_lands {T : node -> string -> Prop} {TS : list node -> string -> Prop} x p : like x p -> (forall s n t, p s = POk n t -> exists w, s = w +++ t /\ T n w) -> lands T x ->
  (forall n w, T n w -> TS [n] w) -> (forall n w b l u, T n w -> blank b -> TS l u -> TS (n :: l) (w +++ b +++ "," +++ u)) -> lands TS (xsep x).
Proof.
  intros L P La One More.
  assert (R : forall m s t, xsep_rest m x s = XThrow t -> forall n w, T n w -> exists u, s = u +++ t /\ begins TS (w +++ u)).
  { induction m as [|m IH]; intros s t E n w W; [discriminate E|]. cbn [xsep_rest] in E. destruct (lit "," s) as [y s1| | |] eqn:L1; try discriminate E.
    destruct (lit_split _ _ _ _ L1) as (b & B & ->). destruct (x s1) as [a s2| |t'|] eqn:Ex; try discriminate E.
    - apply bind_throw in E. destruct E as [E|(l & s3 & E3 & E)]; [|discriminate E]. destruct (P _ _ _ (like_ok x p _ _ _ L Ex)) as (w2 & -> & W2).
      destruct (IH _ _ E a w2 W2) as (u & -> & l & v & H). rewrite app_assoc_s in H. finish (b +++ "," +++ w2 +++ u) v. exact (More n w b l _ W B H).
    - injection E as <-. destruct (La _ _ Ex) as (u & -> & n2 & v & H). finish (b +++ "," +++ u) v. exact (More n w b [n2] _ W B (One _ _ H)). }
  intros s t E. unfold xsep in E. apply bind_throw in E. destruct E as [E|(a & s1 & E1 & E)].
  - destruct (La _ _ E) as (u & -> & n & v & H). exists u. split; [reflexivity|]. exists [n], v. now apply One.
  - apply bind_throw in E. destruct E as [E|(l & s2 & E2 & E)]; [|discriminate E]. destruct (P _ _ _ (like_ok x p _ _ _ L E1)) as (w & -> & W).
    destruct (R _ _ _ E a w W) as (u & -> & H). exists (w +++ u). split; [now rewrite app_assoc_s|exact H].
Qed.
Lemma functor_of_lands e pe : like e pe -> only term_lang pe -> lands term_lang e -> lands head_lang (x_functor_of e).
Proof.
  intros L O La s t E. unfold x_functor_of in E. apply bind_throw in E. destruct E as [E|(nm & s1 & E1 & E)]; [elim (ident_throw _ _ _ E)|].
  apply lift_ok, ident_split in E1. destruct E1 as (b & B & -> & Hn & _). destruct (strip "(" s1) as [s2|] eqn:S1; [|discriminate E]. apply strip_split in S1. subst s1.
  apply must_throw in E. destruct E as [E|[[E ->]|(l & s3 & E3 & E)]].
  - destruct (sep_lands e pe L (only_plain _ _ O) La ts_one ts_more _ _ E) as (u & -> & l & v & H). finish (b +++ nm +++ "(" +++ u) (v +++ ")").
    pose proof (ht_fun b nm l _ "" B Hn H blank_nil) as K. rewrite !app_assoc_s in K. exact K.
  - finish (b +++ nm +++ "(") "a)". exact (ht_fun b nm _ _ "" B Hn (ts_one _ _ (tt_head _ _ a_head)) blank_nil).
  - apply must_throw in E. destruct E as [E|[[E ->]|(y & s4 & E4 & E)]]; [elim (lit_throw _ _ _ E)| |discriminate E].
    destruct (sep_only term_lang terms_lang pe (only_plain _ _ O) ts_one ts_more _ _ _ (like_ok _ _ _ _ _ (sep_like e pe L) E3)) as (u & -> & U).
    destruct (skip_split s3) as (b' & B' & Es). cut_blank s3 Es. finish (b +++ nm +++ "(" +++ u +++ b') ")". exact (ht_fun b nm l u b' B Hn U B').
Qed.
Lemma list_of_lands e l pe : like e pe -> only term_lang pe -> lands term_lang e -> lands list_lang l -> lands list_lang (x_list_of e l).
Proof.
  intros L O La Ll s t E. unfold x_list_of in E. pose proof (sep_lands e pe L (only_plain _ _ O) La ts_one ts_more) as Ls.
  assert (Sp : forall b s1, blank b -> xsep e s1 = XThrow t -> exists u, b +++ "[" +++ s1 = u +++ t /\ begins list_lang u).
  { intros b s1 B Es. destruct (Ls _ _ Es) as (u & -> & k & v & H). finish (b +++ "[" +++ u) (v +++ "]"). pose proof (lt_closed b k _ "" B H blank_nil) as K. rewrite !app_assoc_s in K. exact K. }
  apply alt_throw in E. destruct E as [E|E].
  { apply bind_throw in E. destruct E as [E|(y & s1 & E1 & E)]; [elim (lit_throw _ _ _ E)|]. apply bind_throw in E. destruct E as [E|(y2 & s2 & E2 & E)]; [elim (lit_throw _ _ _ E)|discriminate E]. }
  apply alt_throw in E. destruct E as [E|E]; (apply bind_throw in E; destruct E as [E|([] & s1 & E1 & E)]; [elim (lit_throw _ _ _ E)|]; apply lift_ok, lit_split in E1; destruct E1 as (b & B & ->);
    apply bind_throw in E; destruct E as [E|(k & s2 & E2 & E)]; [exact (Sp b s1 B E)|]; apply bind_throw in E; destruct E as [E|([] & s3 & E3 & E)]; [elim (lit_throw _ _ _ E)|]; try discriminate E).
  apply bind_throw in E. destruct E as [E|(n & s4 & E4 & E)]; [|apply bind_throw in E; destruct E as [E|(y & s5 & E5 & E)]; [elim (lit_throw _ _ _ E)|discriminate E]].
  apply alt_throw in E. destruct E as [E|E]; [elim (variable_throw _ _ E)|]. destruct (Ll _ _ E) as (u3 & -> & n & v & H). apply lift_ok, lit_split in E3. destruct E3 as (b1 & B1 & ->).
  destruct (sep_only term_lang terms_lang pe (only_plain _ _ O) ts_one ts_more _ _ _ (like_ok _ _ _ _ _ (sep_like e pe L) E2)) as (u & -> & U).
  finish (b +++ "[" +++ u +++ b1 +++ "|" +++ u3) (v +++ "]"). pose proof (lt_tail b k u b1 n _ "" B U B1 H blank_nil) as K. rewrite !app_assoc_s in K. exact K.
Qed.
Lemma lands_impl {A} (T U : A -> string -> Prop) x : (forall n w, T n w -> U n w) -> lands T x -> lands U x.
Proof. intros I La s t E. destruct (La _ _ E) as (u & Es & n & v & H). exists u. split; [exact Es|]. exists n, v. auto. Qed.
Lemma lands_alt {A} (T : A -> string -> Prop) x y : lands T x -> lands T y -> lands T (fun s => xalt (x s) (y s)).
Proof. intros X Y s t E. apply alt_throw in E. destruct E as [E|E]; [exact (X _ _ E)|exact (Y _ _ E)]. Qed.
Lemma constant_lands T : lands T (fun s => lift (p_constant s)).
Proof. intros s t E. elim (constant_throw _ _ E). Qed.
Lemma rec_lands n : lands term_lang (x_elem n) /\ lands list_lang (snd (fst (x_rec n))) /\ lands (writes 1) (x_expr n).
Proof.
  induction n as [|n (I1 & I2 & I3)]; [repeat split; intros s t E; discriminate E|]. destruct (rec_like n) as (L1 & L2 & L3). destruct (elem_only n) as [O1 O2]. pose proof (expr_sound n) as O3.
  unfold x_elem, x_expr in *. rewrite x_rec_S. cbn [fst snd]. pose proof (list_of_lands _ _ _ L1 O1 I1 I2) as Q2. pose proof (expr_of_lands _ _ L3 O3 I3) as Q3.
  split; [|split; [exact Q2|exact Q3]]. unfold x_elem_of.
  apply lands_alt; [exact (lands_impl _ _ _ tt_head (functor_of_lands _ _ L1 O1 I1))|]. apply lands_alt; [apply constant_lands|].
  apply lands_alt; [exact (lands_impl _ _ _ tt_list Q2)|exact (lands_impl _ _ _ tt_expr Q3)].
Qed.
Lemma head_lands n : lands head_lang (fun s => xalt (x_functor n s) (lift (p_constant s))).
Proof.
  destruct (rec_like n) as (L1 & _). destruct (elem_only n) as [O1 _]. destruct (rec_lands n) as (I1 & _). apply lands_alt; [|apply constant_lands]. exact (functor_of_lands _ _ L1 O1 I1).
Qed.
Lemma elem_goal u : begins term_lang u -> begins goal_lang u.
Proof. intros (n & v & H). eexists. exists (v +++ "==" +++ "a"). rewrite <- app_assoc_s. exact (gt_eq n _ "" _ _ H blank_nil (tt_head _ _ a_head)). Qed.
Lemma atom_lands n : lands goal_lang (x_atom n).
Proof.
  destruct (rec_like n) as (L1 & _ & L3). destruct (elem_only n) as [O1 _]. destruct (rec_lands n) as (I1 & _ & I3).
  assert (K : forall (T : node -> string -> Prop) r op s t, lands T r -> x_binary (x_elem n) r op s = XThrow t ->
    (forall a w b c u, term_lang a w -> blank b -> fits w (b +++ op +++ u) = true -> T c u -> goal_lang (NFun op [a; c]) (w +++ b +++ op +++ u)) ->
    (forall w b u u', fits w (b +++ op +++ u) = true -> fits w (b +++ op +++ u') = true) -> exists u, s = u +++ t /\ begins goal_lang u).
  { intros T r op s t Lr E Mk Fi. unfold x_binary in E. apply bind_throw in E. destruct E as [E|(a & s1 & E1 & E)].
    - destruct (I1 _ _ E) as (u & -> & H). exists u. split; [reflexivity|now apply elem_goal].
    - destruct (O1 _ _ _ (like_ok _ _ _ _ _ L1 E1)) as (w & -> & W & F). apply bind_throw in E. destruct E as [E|([] & s2 & E2 & E)]; [elim (lit_throw _ _ _ E)|].
      apply lift_ok, lit_split in E2. destruct E2 as (b & B & ->). apply bind_throw in E. destruct E as [E|(c & s3 & E3 & E)]; [|discriminate E].
      destruct (Lr _ _ E) as (u & -> & c & v & H). finish (w +++ b +++ op +++ u) v. exact (Mk a w b c (u +++ v) W B (Fi _ _ _ _ F) H). }
  intros s t E. unfold x_atom in E. apply alt_throw in E. destruct E as [E|E].
  { apply (K term_lang _ _ _ _ I1 E); [intros a w b c u W B _ C; now constructor|]. intros w b u u' F. unfold fits in *. destruct (last_word None w) as [[]|]; [now destruct b|now destruct b|reflexivity]. }
  apply alt_throw in E. destruct E as [E|E].
  { apply (K term_lang _ _ _ _ I1 E); [intros a w b c u W B _ C; now constructor|]. intros w b u u' F. unfold fits in *. destruct (last_word None w) as [[]|]; [now destruct b|now destruct b|reflexivity]. }
  apply alt_throw in E. destruct E as [E|E].
  { apply (K (writes 1) _ _ _ _ I3 E); [intros a w b c u W B F C; constructor; auto; now rewrite fits_first in F|]. intros w b u u'. rewrite !fits_first. auto. }
  exact (lands_impl _ _ _ gt_head (head_lands n) s t E).
Qed.
Lemma goals_lands n : lands goals_lang (xsep (x_atom n)).
Proof. exact (sep_lands _ _ (atom_like n) (atom_only n) (atom_lands n) gs_one gs_more). Qed.
Lemma clause_lands n : lands clause_lang (x_clause n).
Proof.
  intros s t E. unfold x_clause in E. apply bind_throw in E. destruct E as [E|(h & s1 & E1 & E)].
  { destruct (head_lands n _ _ E) as (u & -> & h & v & H). exists u. split; [reflexivity|]. eexists. exists (v +++ "."). rewrite <- app_assoc_s. exact (ct_fact h _ "" H blank_nil). }
  assert (E1' : (p_functor n s <|> p_constant s) = POk h s1).
  { rewrite <- (functor_like n s). destruct (x_functor n s) as [a r| |t'|]; cbn [plain xalt] in E1 |- *; try discriminate E1; [injection E1 as <- <-; reflexivity|now apply lift_ok]. }
  destruct (head_only n s h s1 E1') as (w & -> & W & _). clear E1 E1'. apply bind_throw in E. destruct E as [E|(l & s3 & E3 & E)].
  - apply alt_throw in E. destruct E as [E|E]; [|discriminate E]. apply bind_throw in E. destruct E as [E|([] & s2 & E2 & E)]; [elim (lit_throw _ _ _ E)|].
    apply lift_ok, lit_split in E2. destruct E2 as (b & B & ->). destruct (goals_lands n _ _ E) as (u & -> & l & v & H). finish (w +++ b +++ ":-" +++ u) (v +++ ".").
    pose proof (ct_rule h w b l _ "" W B H blank_nil) as K. rewrite !app_assoc_s in K. exact K.
  - apply must_throw in E. destruct E as [E|[[E ->]|(y & s4 & E4 & E)]]; [elim (lit_throw _ _ _ E)| |discriminate E]. destruct (skip_split s3) as (b' & B' & Es).
    destruct (lit ":-" s1) as [[] s2| | |] eqn:L1; cbn [lift xbind xalt] in E3; try discriminate E3.
    + destruct (lit_split _ _ _ _ L1) as (b & B & E1). destruct (xsep (x_atom n) s2) as [l' s'| |t'|] eqn:X; cbn [xalt] in E3; try discriminate E3; injection E3 as E3 E4; subst l; [subst s' s1|subst s3].
      * destruct (goals_only n _ _ _ (like_ok _ _ _ _ _ (sep_like _ _ (atom_like n)) X)) as (u & -> & U). cut_blank s3 Es. finish (w +++ b +++ ":-" +++ u +++ b') ".".
        exact (ct_rule h w b l' u b' W B U B').
      * clear L1 E1. cut_blank s1 Es. finish (w +++ b') ".". exact (ct_fact h w b' W B').
    + injection E3 as E3 E4. subst l s3. clear L1. cut_blank s1 Es. finish (w +++ b') ".". exact (ct_fact h w b' W B').
Qed.
Lemma comment_ends s : p_comment s = PThrow -> exists b c, blank b /\ one_line c /\ s = b +++ "%" +++ c.
Proof.
  unfold p_comment. intros E. destruct (skip_split s) as (b & B & Es). destruct (skip s) as [|c r]; [discriminate E|]. destruct (Ascii.eqb_spec c "%") as [->|]; [|discriminate E].
  pose proof (take_split not_newline r) as T. destruct (take not_newline r) as [a r']. cbn [fst snd] in T. destruct T as [T1 T2].
  destruct r' as [|d r']; [|discriminate E]. rewrite app_nil_s in T2. subst r. exists b, a. split; [exact B|]. split; [|exact Es].
  clear - T1. induction a as [|x a IH]; [exact I|]. cbn [all_chars] in T1. apply andb_true_iff in T1. destruct T1 as [T1 T2]. cbn [one_line]. split; [now apply newline_eq|auto].
Qed.
Lemma comment_begins b c : blank b -> one_line c -> begins program_lang (b +++ "%" +++ c).
Proof. intros B C. exists [], (String "010" ""). rewrite !app_assoc_s. exact (pt_comment [] b c "" B C (pt_end "" blank_nil)). Qed.
Lemma clause_program_begins c w u : clause_lang c w -> begins program_lang u -> begins program_lang (w +++ u).
Proof. intros W (P & v & H). exists (c :: P), v. rewrite app_assoc_s. now constructor. Qed.
Lemma comment_program_begins b c u : blank b -> one_line c -> begins program_lang u -> begins program_lang (b +++ "%" +++ c +++ String "010" u).
Proof. intros B C (P & v & H). exists P, v. rewrite !app_assoc_s. cbn [String.append]. now apply pt_comment. Qed.
Lemma rules_lands n : forall k s, match x_rules k n s with
  | XThrow t => exists u, s = u +++ t /\ begins program_lang u
  | XOk l r => exists u, s = u +++ r /\ forall P t, program_lang P t -> program_lang (l ++ P) (u +++ t)
  | _ => True end.
Proof.
  induction k as [|k IH]; intros s; [exact I|]. cbn [x_rules]. destruct (p_comment s) as [[] s1| | |] eqn:C; cbn [lift]; [| | |exact I].
  - destruct (comment_only _ _ C) as (b & c & B & O & ->). specialize (IH s1). destruct (x_rules k n s1) as [l r| |t|]; [|exact I| |exact I].
    + destruct IH as (u & -> & H). exists (b +++ "%" +++ c +++ String "010" u). split; [rewrite !app_assoc_s; reflexivity|]. intros P t Pt. rewrite !app_assoc_s. cbn [String.append]. apply pt_comment; auto.
    + destruct IH as (u & -> & H). exists (b +++ "%" +++ c +++ String "010" u). split; [rewrite !app_assoc_s; reflexivity|]. now apply comment_program_begins.
  - unfold x_rule. destruct (x_clause n s) as [c s1| |t|] eqn:Cl; cbn [xbind]; [| | |exact I].
    + destruct (clause_only _ _ _ _ (like_ok _ _ _ _ _ (clause_like n) Cl)) as (w & -> & W). destruct (p_comment s1) as [[] s2| | |] eqn:C1; cbn [lift xalt xbind].
      * destruct (comment_only _ _ C1) as (b & x & B & O & ->). specialize (IH s2). destruct (x_rules k n s2) as [l r| |t|]; cbn [xbind]; [|exact I| |exact I].
        -- destruct IH as (u & -> & H). exists (w +++ b +++ "%" +++ x +++ String "010" u). split; [rewrite !app_assoc_s; reflexivity|]. intros P t Pt. rewrite !app_assoc_s. cbn [String.append app]. apply pt_clause; [exact W|]. apply pt_comment; auto.
        -- destruct IH as (u & -> & H). exists (w +++ b +++ "%" +++ x +++ String "010" u). split; [rewrite !app_assoc_s; reflexivity|]. apply (clause_program_begins c w _ W). now apply comment_program_begins.
      * specialize (IH s1). destruct (x_rules k n s1) as [l r| |t|]; cbn [xbind]; [|exact I| |exact I].
        -- destruct IH as (u & -> & H). exists (w +++ u). split; [now rewrite app_assoc_s|]. intros P t Pt. rewrite app_assoc_s. cbn [app]. apply pt_clause; auto.
        -- destruct IH as (u & -> & H). exists (w +++ u). split; [now rewrite app_assoc_s|]. exact (clause_program_begins c w u W H).
      * destruct (comment_ends _ C1) as (b & x & B & O & ->). exists (w +++ b +++ "%" +++ x). split; [now rewrite app_nil_s|]. apply (clause_program_begins c w _ W). now apply comment_begins.
      * exact I.
    + exists "". split; [reflexivity|]. intros P t Pt. exact Pt.
    + destruct (clause_lands n _ _ Cl) as (u & -> & c & v & H). exists u. split; [reflexivity|]. exists [c], v. rewrite <- (app_nil_s (u +++ v)). apply pt_clause; [exact H|]. now constructor.
  - destruct (comment_ends _ C) as (b & c & B & O & ->). exists (b +++ "%" +++ c). split; [now rewrite app_nil_s|now apply comment_begins].
Qed.
Theorem program_stopped s t : parse_program_x s = Some (Stopped t) -> exists u, s = u +++ t /\ error_line s t = line_of u /\ begins program_lang u.
Proof.
  assert (F : forall u, s = u +++ t -> begins program_lang u -> exists u, s = u +++ t /\ error_line s t = line_of u /\ begins program_lang u).
  { intros u -> H. exists u. split; [reflexivity|]. split; [|exact H]. unfold error_line. now rewrite before_app. }
  unfold parse_program_x. intros E. pose proof (rules_lands (S (slen s)) (S (slen s)) s) as K. destruct (x_rules _ _ s) as [l r| |t'|]; try discriminate E.
  - destruct K as (u & Es & H). destruct (skip r) as [|c x] eqn:Sk; [discriminate E|]. injection E as <-. destruct (skip_split r) as (b & B & Er). rewrite Sk in Er. subst r.
    apply (F (u +++ b)); [now rewrite app_assoc_s|]. exists (l ++ []), "". rewrite app_nil_s. apply H. now constructor.
  - injection E as <-. destruct K as (u & Es & H). exact (F u Es H).
Qed.
Theorem program_never_unset s : parse_program_x s <> Some Unset.
Proof.
  unfold parse_program_x. assert (K : forall k s, x_rules k (S (slen s)) s <> XFail).
  { clear. intros k s. generalize (S (slen s)). intros n. revert s. induction k as [|k IH]; intros s; [discriminate|]. cbn [x_rules]. destruct (p_comment s) as [y s1| | |]; cbn [lift]; try discriminate; [apply IH|].
    destruct (x_rule n s) as [c s1| |t|]; try discriminate. specialize (IH s1). destruct (x_rules k n s1); try discriminate. now elim IH. }
  specialize (K (S (slen s)) s). destruct (x_rules _ _ s) as [l r| |t|]; try discriminate; [destruct (skip r); discriminate|now elim K].
Qed.
Theorem query_stopped s t : parse_query_x s = Some (Stopped t) -> exists u, s = u +++ t /\ error_line s t = line_of u /\ begins query_lang u.
Proof.
  assert (F : forall u, s = u +++ t -> begins query_lang u -> exists u, s = u +++ t /\ error_line s t = line_of u /\ begins query_lang u).
  { intros u -> H. exists u. split; [reflexivity|]. split; [|exact H]. unfold error_line. now rewrite before_app. }
  unfold parse_query_x. intros E. destruct (xmust (skip s) _ _) as [l r'| |t'|] eqn:M; try discriminate E; [destruct (skip r'); discriminate E|]. injection E as ->.
  apply must_throw in M. destruct M as [M|[[M ->]|(l & r & M & E)]].
  - destruct (goals_lands _ _ _ M) as (u & Es & l & v & H). apply (F u Es). exists l, (v +++ "."). exists (u +++ v), "", "". split; [now rewrite app_assoc_s|]. repeat split; auto; apply blank_nil.
  - destruct (skip_split s) as (b & B & Es). apply (F b Es). exists [NCon "a"], "a.". exists (b +++ "a"), "", "". split; [now rewrite app_assoc_s|]. repeat split; try apply blank_nil.
    apply gs_one, gt_head. now apply ht_con.
  - apply must_throw in E. destruct E as [E|[[E ->]|(y & s4 & E4 & E)]]; [elim (lit_throw _ _ _ E)| |discriminate E].
    destruct (goals_only _ _ _ _ (like_ok _ _ _ _ _ (sep_like _ _ (atom_like _)) M)) as (u & Es & U). destruct (skip_split r) as (b & B & Er).
    apply (F (u +++ b)); [rewrite app_assoc_s, <- Er; exact Es|]. exists l, ".". exists u, b, "". split; [now rewrite app_assoc_s|]. repeat split; auto; apply blank_nil.
Qed.
(** nothing is reported behind the first place at which the text cannot be continued any more *)
Theorem not_reported_late s t x y : parse_program_x s = Some (Stopped t) -> s = x +++ y -> ~ begins program_lang x -> exists u, s = u +++ t /\ slen u < slen x.
Proof.
  intros E Es N. destruct (program_stopped s t E) as (u & Eu & _ & P & v & H). exists u. split; [exact Eu|]. destruct (le_lt_dec (slen x) (slen u)) as [Le|]; [|assumption]. exfalso. apply N.
  assert (K : exists z, u = x +++ z).
  { rewrite Es in Eu. clear - Eu Le. revert u Eu Le. induction x as [|c x IH]; intros u Eu Le; [now exists u|]. destruct u as [|d u]; [cbn in Le; lia|]. cbn [String.append] in Eu. injection Eu as <- Eu.
    cbn in Le. destruct (IH u Eu ltac:(lia)) as (z & ->). now exists z. }
  destruct K as (z & ->). exists P, (z +++ v). now rewrite <- app_assoc_s.
Qed.
(** the line reported may be before that of the mistake, and a query may fail without a position *)
Definition early_text : string := "p :-" +++ String "010" " q," +++ String "010" " X = 3.".
Lemma early_reported : exists s t u x y, parse_program_x s = Some (Stopped t) /\ s = u +++ t /\ t = x +++ y /\ (line_of u < line_of (u +++ x))%N /\
  exists P v, program_lang P (u +++ x +++ v).
Proof.
  exists early_text, ("," +++ String "010" " X = 3."), ("p :-" +++ String "010" " q"), ("," +++ String "010" " X "), "= 3.".
  split; [vm_compute; reflexivity|]. split; [reflexivity|]. split; [reflexivity|]. split; [vm_compute; reflexivity|].
  exists [[NCon "p"; NCon "q"; NFun "==" [NVar "X"; NCon "a"]]], "== a.". apply program_exact. vm_compute. reflexivity.
Qed.
Lemma unset_query : exists s, parse_query_x s = Some Unset.
Proof. exists "p. q". vm_compute. reflexivity. Qed.
