(** The compiler in lock step. *)
From Coq Require Import Permutation.
From Verif Require Import Base Machine Heap Compiler Parser Print Organizer Session Atoms Sim Lock.
Open Scope string_scope.
Open Scope list_scope.

Section Comp.
Variable K : params.
Notation F := (pr_F K). Notation V := (pr_V K). Notation isok := (pr_isok K).
(** [SR]: how the tables are related all the time; [fin1], [fin2]: not beyond the final ones *)
Variable SR : storage -> storage -> Prop.
Variable fin1 fin2 : storage -> Prop.
Record tables_sim : Prop := {
  ts_down1 : forall s s', sto_ext s s' -> fin1 s' -> fin1 s;
  ts_down2 : forall s s', sto_ext s s' -> fin2 s' -> fin2 s;
  ts_fidx : forall f s1 s2, SR s1 s2 -> fin1 (snd (functor_index_of f s1)) -> fin2 (snd (functor_index_of f s2)) ->
    SR (snd (functor_index_of f s1)) (snd (functor_index_of f s2)) /\ F (fst (functor_index_of f s1)) (fst (functor_index_of f s2));
  ts_var : forall x s1 s2, SR s1 s2 -> fin1 (snd (push_back_var x s1)) -> fin2 (snd (push_back_var x s2)) ->
    SR (snd (push_back_var x s1)) (snd (push_back_var x s2)) /\ V (fst (push_back_var x s1)) (fst (push_back_var x s2)) }.
Hypothesis TS : tables_sim.

Inductive resrel {A B} (R : A -> B -> Prop) : cres A -> cres B -> Prop :=
| re_ok a b : R a b -> resrel R (COk a) (COk b)
| re_err e : resrel R (CErr e) (CErr e)
| re_esc : resrel R CEsc CEsc.
Definition cmp {A B} (R : A -> B -> Prop) (m1 : comp A) (m2 : comp B) : Prop :=
  forall s1 s2, SR s1 s2 -> fin1 (snd (m1 s1)) -> fin2 (snd (m2 s2)) -> SR (snd (m1 s1)) (snd (m2 s2)) /\ resrel R (fst (m1 s1)) (fst (m2 s2)).
Lemma cmp_ret {A B} (R : A -> B -> Prop) a b : R a b -> cmp R (cret a) (cret b).
Proof. intros H s1 s2 S _ _. split; [exact S|now constructor]. Qed.
Lemma cmp_throw {A B} (R : A -> B -> Prop) e : cmp R (cthrow e) (cthrow e).
Proof. intros s1 s2 S _ _. split; [exact S|constructor]. Qed.
Lemma cmp_esc {A B} (R : A -> B -> Prop) : cmp R cesc cesc.
Proof. intros s1 s2 S _ _. split; [exact S|constructor]. Qed.
Lemma cmp_bind {A B A' B'} (R : A -> B -> Prop) (Q : A' -> B' -> Prop) m1 m2 f1 f2 : cmp R m1 m2 ->
  (forall a, cext (f1 a)) -> (forall b, cext (f2 b)) -> (forall a b, R a b -> cmp Q (f1 a) (f2 b)) -> cmp Q (cbind m1 f1) (cbind m2 f2).
Proof.
  intros Hm X1 X2 Hf s1 s2 S. unfold cbind. specialize (Hm s1 s2 S). destruct (m1 s1) as [r1 t1], (m2 s2) as [r2 t2]. cbn in Hm. intros N1 N2.
  assert (fin1 t1) as G1 by (destruct r1 as [a| |]; auto; eapply (ts_down1 TS); [apply X1|exact N1]).
  assert (fin2 t2) as G2 by (destruct r2 as [a| |]; auto; eapply (ts_down2 TS); [apply X2|exact N2]).
  destruct (Hm G1 G2) as [S' R']. destruct R'; try (split; [exact S'|constructor]). now apply Hf.
Qed.
Lemma cmp_fidx f : cmp F (cfidx f) (cfidx f).
Proof.
  intros s1 s2 S. unfold cfidx. pose proof (ts_fidx TS f s1 s2 S) as H. destruct (functor_index_of f s1), (functor_index_of f s2). cbn in *. intros G1 G2.
  destruct (H G1 G2). split; auto. now constructor.
Qed.
Lemma cmp_var x : cmp V (cvar x) (cvar x).
Proof.
  intros s1 s2 S. unfold cvar. pose proof (ts_var TS x s1 s2 S) as H. destruct (push_back_var x s1), (push_back_var x s2). cbn in *. intros G1 G2.
  destruct (H G1 G2). split; auto. now constructor.
Qed.
Lemma cmp_stoi s : cmp eq (cstoi s) (cstoi s).
Proof. unfold cstoi. destruct (int_text_val s); [|apply cmp_esc]. destruct (_ && _)%bool; [now apply cmp_ret|apply cmp_esc]. Qed.
Lemma cmp_opidx s : cmp eq (copidx s) (copidx s).
Proof. unfold copidx. destruct (op_index s); [now apply cmp_ret|apply cmp_esc]. Qed.

Section Gen.
Variable perm1 perm2 : string -> option nat.
Variable R : yrel.
Hypothesis PR : forall s, optrel R (perm1 s) (perm2 s).
Hypothesis RU : forall y1 y2 z1 z2, R y1 y2 -> R z1 z2 -> (y1 = z1 <-> y2 = z2).
Definition seen_rel (l1 l2 : list sreg) : Prop :=
  (forall x, seen_in (SX x) l1 = seen_in (SX x) l2) /\ forall y z, R y z -> seen_in (SY y) l1 = seen_in (SY z) l2.
Lemma seen_in_cons r a l : seen_in r (a :: l) = (sreg_eqb r a || seen_in r l)%bool.
Proof. reflexivity. Qed.
Lemma seen_nil : seen_rel [] [].
Proof. split; reflexivity. Qed.
Lemma seen_x x l1 l2 : seen_rel l1 l2 -> seen_rel (SX x :: l1) (SX x :: l2).
Proof. intros [A B]. split; intros; rewrite !seen_in_cons; cbn [sreg_eqb orb]; [f_equal; apply A|now apply B]. Qed.
Lemma seen_y y z l1 l2 : R y z -> seen_rel l1 l2 -> seen_rel (SY y :: l1) (SY z :: l2).
Proof.
  intros r [A B]. split; intros; rewrite !seen_in_cons; cbn [sreg_eqb orb]; [apply A|]. rewrite (B _ _ H). f_equal. pose proof (RU _ _ _ _ H r). destruct (Nat.eqb_spec y0 y), (Nat.eqb_spec z0 z); tauto.
Qed.
Lemma seen_filter (f : sreg -> bool) r l : seen_in r (filter f l) = (f r && seen_in r l)%bool.
Proof.
  induction l as [|a l IH]; cbn [filter]; [cbn; now rewrite andb_false_r|]. rewrite seen_in_cons. destruct (f a) eqn:E; rewrite ?seen_in_cons, IH.
  - assert (sreg_eqb r a = true -> f r = true). { intros H. destruct r, a; cbn in H; try discriminate H; apply Nat.eqb_eq in H; subst; auto. }
    destruct (sreg_eqb r a), (f r); auto. now specialize (H eq_refl).
  - assert (sreg_eqb r a = true -> f r = false). { intros H. destruct r, a; cbn in H; try discriminate H; apply Nat.eqb_eq in H; subst; auto. }
    destruct (sreg_eqb r a), (f r); auto. now specialize (H eq_refl).
Qed.
Lemma seen_removed l1 l2 : seen_rel l1 l2 -> seen_rel (remove_x_a_regs l1) (remove_x_a_regs l2).
Proof. intros [A B]. unfold remove_x_a_regs. split; intros; rewrite !seen_filter; cbn [not_x andb]; auto. Qed.
Lemma seen_erased a l1 l2 : seen_rel l1 l2 -> seen_rel (erase_head_regs a l1) (erase_head_regs a l2).
Proof.
  intros [A B]. unfold erase_head_regs. destruct (is_constant (aa_top a)); [split; auto|]. set (g := flat_map _ _).
  assert (Y : forall y, seen_in (SY y) g = false).
  { intros y. unfold g. induction (aa_ents a) as [|e l IH]; cbn; auto. destruct (en_node e); cbn; auto. }
  split; intros; rewrite !seen_filter; [now rewrite A|]. now rewrite !Y, (B _ _ H).
Qed.
Lemma undefined_sim vx l1 l2 e : seen_rel l1 l2 -> check_undefined perm1 vx l1 e = check_undefined perm2 vx l2 e.
Proof.
  intros [A B]. unfold check_undefined. induction (vars_of e) as [|s l IH]; cbn; auto. rewrite IH. f_equal.
  destruct (PR s); [now apply B|]. destruct (assoc s vx); auto.
Qed.

Definition gen_rel (x y : list instr * list sreg) : Prop := Forall2 (irel K R) (fst x) (fst y) /\ seen_rel (snd x) (snd y).
Lemma gen_ret c1 c2 s1 s2 : Forall2 (irel K R) c1 c2 -> seen_rel s1 s2 -> cmp gen_rel (cret (c1, s1)) (cret (c2, s2)).
Proof. intros A B. apply cmp_ret. split; auto. Qed.
Lemma one i j : irel K R i j -> Forall2 (irel K R) [i] [j].
Proof. auto. Qed.
Ltac ret := apply gen_ret; [apply one; constructor; try constructor; auto|try assumption].
Ltac xt := intros; Session.cext.
Ltac cbnd Q := eapply (cmp_bind Q); [|solve [xt]|solve [xt]|].
Lemma query_kid_sim k l1 l2 : seen_rel l1 l2 -> cmp gen_rel (query_kid perm1 k l1) (query_kid perm2 k l2).
Proof.
  intros S. destruct k as [n x]. unfold query_kid.
  assert (X : cmp gen_rel (if seen_in (SX x) l1 then cret ([ISetVal x], l1) else v <~ cvar (node_name n) ;; cret ([ISetVar x v], SX x :: l1))
     (if seen_in (SX x) l2 then cret ([ISetVal x], l2) else v <~ cvar (node_name n) ;; cret ([ISetVar x v], SX x :: l2))).
  { rewrite (proj1 S x). destruct (seen_in (SX x) l2); [ret|]. cbnd (pr_V K); [apply cmp_var|]. intros v w Q. ret. now apply seen_x. }
  destruct n as [s|s|s|s l|s l]; try exact X.
  - destruct (PR s) as [y z r|]; [|exact X]. rewrite (proj2 S y z r). destruct (seen_in (SY z) l2); [ret|]. cbnd (pr_V K); [apply cmp_var|]. intros v w Q. ret. now apply seen_y.
  - cbnd (pr_F K); [apply cmp_fidx|]. intros i j Q. ret.
  - cbnd (@eq Z); [apply cmp_stoi|]. intros i j <-. ret.
Qed.
Lemma query_kids_sim ks : forall l1 l2, seen_rel l1 l2 -> cmp gen_rel (query_kids perm1 ks l1) (query_kids perm2 ks l2).
Proof.
  induction ks as [|k ks IH]; intros l1 l2 S; cbn [query_kids]; [apply gen_ret; auto|].
  eapply (cmp_bind gen_rel); [now apply query_kid_sim| | |].
  - intros [c s]. apply cext_bind; [apply query_kids_ext|]. xt.
  - intros [c s]. apply cext_bind; [apply query_kids_ext|]. xt.
  - intros [c1 s1] [c2 s2] [A B]. eapply (cmp_bind gen_rel); [now apply IH|xt|xt|]. intros [d1 t1] [d2 t2] [A' B']. apply gen_ret; auto. now apply Forall2_app.
Qed.
Ltac kx := intros; apply cext_bind; [apply query_kids_ext|]; xt.
Lemma query_ent_sim vx e l1 l2 : seen_rel l1 l2 -> cmp gen_rel (query_ent perm1 vx e l1) (query_ent perm2 vx e l2).
Proof.
  intros S. unfold query_ent. pose proof (seen_x (en_x e) _ _ S) as Sx. destruct (en_node e) as [s|s|s|s l|s l].
  - destruct (en_arg e) as [a|]; [|apply gen_ret; auto]. destruct (PR s) as [y z r|].
    + rewrite (proj2 S y z r). destruct (seen_in (SY z) l2); [ret|]. cbnd (pr_V K); [apply cmp_var|]. intros v w Q. ret. now apply seen_y.
    + rewrite (proj1 S). destruct (seen_in (SX (en_x e)) l2); [ret|]. cbnd (pr_V K); [apply cmp_var|]. intros v w Q. ret.
  - cbnd (pr_F K); [apply cmp_fidx|]. intros i j Q. ret.
  - cbnd (@eq Z); [apply cmp_stoi|]. intros i j <-. ret.
  - eapply (cmp_bind F); [apply cmp_fidx|kx|kx|]. intros i j Q. eapply (cmp_bind gen_rel); [now apply query_kids_sim|xt|xt|].
    intros [c1 s1] [c2 s2] [A B]. apply gen_ret; auto. constructor; auto. constructor. now constructor.
  - rewrite (undefined_sim vx _ _ (NEv s l) Sx). destruct (check_undefined perm2 vx _ _); [|apply cmp_throw].
    eapply (cmp_bind (@eq Z)); [apply cmp_opidx|kx|kx|]. intros i j <-. eapply (cmp_bind gen_rel); [now apply query_kids_sim|xt|xt|].
    intros [c1 s1] [c2 s2] [A B]. apply gen_ret; auto. constructor; auto. constructor. constructor.
Qed.
Lemma query_ents_sim vx es : forall l1 l2, seen_rel l1 l2 -> cmp gen_rel (query_ents perm1 vx es l1) (query_ents perm2 vx es l2).
Proof.
  induction es as [|k ks IH]; intros l1 l2 S; cbn [query_ents]; [apply gen_ret; auto|].
  eapply (cmp_bind gen_rel); [now apply query_ent_sim| | |].
  - intros [c s]. apply cext_bind; [apply query_ents_ext|]. xt.
  - intros [c s]. apply cext_bind; [apply query_ents_ext|]. xt.
  - intros [c1 s1] [c2 s2] [A B]. eapply (cmp_bind gen_rel); [now apply IH|xt|xt|]. intros [d1 t1] [d2 t2] [A' B']. apply gen_ret; auto. now apply Forall2_app.
Qed.
Definition code_seen (x y : list instr * list sreg) : Prop := code_rel K R (fst x) (fst y) /\ seen_rel (snd x) (snd y).
Lemma to_query_sim a l1 l2 : isok \/ to_fview (aa_top a) <> FV "is" 2 -> seen_rel l1 l2 -> cmp code_seen (to_query perm1 a l1) (to_query perm2 a l2).
Proof.
  intros Is S. unfold to_query. eapply (cmp_bind gen_rel); [now apply query_ents_sim|xt|xt|]. intros [c1 s1] [c2 s2] [A B]. apply cmp_ret. split; auto.
  exists c1, c2, (ICall (to_fview (aa_top a))), (ICall (to_fview (aa_top a))). cbn. split; [auto|]. split; [auto|]. split; [exact A|]. now constructor.
Qed.
Lemma prog_kid_sim k l1 l2 : seen_rel l1 l2 -> cmp gen_rel (prog_kid perm1 k l1) (prog_kid perm2 k l2).
Proof.
  intros S. destruct k as [n x]. unfold prog_kid.
  assert (X : forall p1 p2, optrel R p1 p2 -> cmp gen_rel
    (if seen_in (SX x) l1 then cret ([match p1 with Some y => IUniPVal y | None => IUniVal x end], l1)
     else v <~ cvar (node_name n) ;; match p1 with Some y => cret ([IUniPVar y v], SY y :: SX x :: l1) | None => cret ([IUniVar x v], SX x :: l1) end)
    (if seen_in (SX x) l2 then cret ([match p2 with Some y => IUniPVal y | None => IUniVal x end], l2)
     else v <~ cvar (node_name n) ;; match p2 with Some y => cret ([IUniPVar y v], SY y :: SX x :: l2) | None => cret ([IUniVar x v], SX x :: l2) end)).
  { intros p1 p2 P. rewrite (proj1 S x). destruct (seen_in (SX x) l2).
    - destruct P; ret.
    - eapply (cmp_bind V); [apply cmp_var|xt|xt|]. intros v w Q. pose proof (seen_x x _ _ S). destruct P; ret. now apply seen_y. }
  destruct n as [s|s|s|s l|s l]; try exact (X None None (op_none _)).
  - exact (X _ _ (PR s)).
  - cbnd (pr_F K); [apply cmp_fidx|]. intros i j Q. ret.
  - cbnd (@eq Z); [apply cmp_stoi|]. intros i j <-. ret.
Qed.
Lemma prog_kids_sim ks : forall l1 l2, seen_rel l1 l2 -> cmp gen_rel (prog_kids perm1 ks l1) (prog_kids perm2 ks l2).
Proof.
  induction ks as [|k ks IH]; intros l1 l2 S; cbn [prog_kids]; [apply gen_ret; auto|].
  eapply (cmp_bind gen_rel); [now apply prog_kid_sim| | |].
  - intros [c s]. apply cext_bind; [apply prog_kids_ext|]. xt.
  - intros [c s]. apply cext_bind; [apply prog_kids_ext|]. xt.
  - intros [c1 s1] [c2 s2] [A B]. eapply (cmp_bind gen_rel); [now apply IH|xt|xt|]. intros [d1 t1] [d2 t2] [A' B']. apply gen_ret; auto. now apply Forall2_app.
Qed.
Ltac px := intros; apply cext_bind; [apply prog_kids_ext|]; xt.
Lemma prog_ent_sim e l1 l2 : seen_rel l1 l2 -> cmp gen_rel (prog_ent perm1 e l1) (prog_ent perm2 e l2).
Proof.
  intros S. unfold prog_ent. pose proof (seen_x (en_x e) _ _ S) as Sx. destruct (en_node e) as [s|s|s|s l|s l].
  - destruct (en_arg e) as [a|]; [|apply gen_ret; auto]. rewrite (proj1 S). destruct (seen_in (SX (en_x e)) l2).
    + destruct (PR s); ret.
    + destruct (PR s); ret. now apply seen_y.
  - cbnd (pr_F K); [apply cmp_fidx|]. intros i j Q. ret.
  - cbnd (@eq Z); [apply cmp_stoi|]. intros i j <-. ret.
  - eapply (cmp_bind F); [apply cmp_fidx|px|px|]. intros i j Q. eapply (cmp_bind gen_rel); [now apply prog_kids_sim|xt|xt|].
    intros [c1 s1] [c2 s2] [A B]. apply gen_ret; auto. constructor; auto. constructor. now constructor.
  - eapply (cmp_bind (@eq Z)); [apply cmp_opidx|px|px|]. intros i j <-. eapply (cmp_bind gen_rel); [now apply prog_kids_sim|xt|xt|].
    intros [c1 s1] [c2 s2] [A B]. apply gen_ret; auto. constructor; auto. constructor. constructor.
Qed.
Lemma prog_ents_sim es : forall l1 l2, seen_rel l1 l2 -> cmp gen_rel (prog_ents perm1 es l1) (prog_ents perm2 es l2).
Proof.
  induction es as [|k ks IH]; intros l1 l2 S; cbn [prog_ents]; [apply gen_ret; auto|].
  eapply (cmp_bind gen_rel); [now apply prog_ent_sim| | |].
  - intros [c s]. apply cext_bind; [apply prog_ents_ext|]. xt.
  - intros [c s]. apply cext_bind; [apply prog_ents_ext|]. xt.
  - intros [c1 s1] [c2 s2] [A B]. eapply (cmp_bind gen_rel); [now apply IH|xt|xt|]. intros [d1 t1] [d2 t2] [A' B']. apply gen_ret; auto. now apply Forall2_app.
Qed.
Lemma to_program_sim a l1 l2 : seen_rel l1 l2 -> cmp code_seen (to_program perm1 a l1) (to_program perm2 a l2).
Proof.
  intros S. unfold to_program. eapply (cmp_bind gen_rel); [now apply prog_ents_sim|xt|xt|]. intros [c1 s1] [c2 s2] [A B]. apply cmp_ret. split; auto.
  exists c1, c2, IProceed, IProceed. cbn. split; [auto|]. split; [auto|]. split; [exact A|]. constructor.
Qed.
Lemma var_regs_sim vx vs : forall done, Forall2 (sub_rel R) (var_regs perm1 vs vx done) (var_regs perm2 vs vx done).
Proof.
  induction vs as [|s vs IH]; intros done; cbn; [constructor|]. destruct (existsb _ done); [apply IH|]. constructor; [|apply IH].
  destruct (PR s); repeat split; auto.
Qed.
Lemma subs_sim a : Forall2 (sub_rel R) (find_var_reg_substitutions perm1 a) (find_var_reg_substitutions perm2 a).
Proof. unfold find_var_reg_substitutions. destruct (is_constant _); [constructor|]. apply var_regs_sim. Qed.
Lemma code_len c1 c2 : code_rel K R c1 c2 -> List.length c1 = List.length c2.
Proof. intros (d1 & d2 & i1 & i2 & -> & -> & A & _). now rewrite !app_length, (Forall2_len _ _ _ A). Qed.

Definition pre_rel (pre : list instr) (a1 a2 : catom) : Prop := kept_rel R a1 a2 /\
  exists c1 c2, ca_code a1 = pre ++ c1 /\ ca_code a2 = pre ++ c2 /\ code_rel K R c1 c2.
Lemma pre_plain a1 a2 : pre_rel [] a1 a2 -> plain_rel K R a1 a2.
Proof. intros (A & c1 & c2 & B & C & D). split; auto. now rewrite B, C. Qed.
Lemma query_atom_sim pre u n l1 l2 : isok \/ to_fview n <> FV "is" 2 -> seen_rel l1 l2 ->
  cmp (fun x y => pre_rel pre (fst x) (fst y) /\ seen_rel (snd x) (snd y)) (compile_query_atom perm1 pre u n l1) (compile_query_atom perm2 pre u n l2).
Proof.
  intros Is S. unfold compile_query_atom. destruct (assign_one n) as [a cnt] eqn:E.
  assert (T : aa_top a = n). { unfold assign_one in E. destruct (is_constant n); [injection E as <- <-; reflexivity|]. unfold assign_term in E.
    destruct (assign_xs _ _ _ _ _) as [[xs c] m']. injection E as <- <-. reflexivity. }
  eapply (cmp_bind code_seen); [apply to_query_sim; [now rewrite T|exact S]|xt|xt|]. intros [c1 s1] [c2 s2] [A B]. apply cmp_ret. cbn. split; [|now apply seen_removed].
  split.
  - split; [reflexivity|]. split; [apply subs_sim|]. cbn. split; [|reflexivity]. rewrite !app_length. f_equal. now apply code_len.
  - exists c1, c2. auto.
Qed.
Lemma query_atoms_sim u ns : (forall n, In n ns -> isok \/ to_fview n <> FV "is" 2) -> forall l1 l2, seen_rel l1 l2 ->
  cmp (Forall2 (plain_rel K R)) (compile_query_atoms perm1 [] u ns l1) (compile_query_atoms perm2 [] u ns l2).
Proof.
  induction ns as [|n ns IH]; intros Is l1 l2 S; cbn [compile_query_atoms]; [apply cmp_ret; constructor|].
  assert (X : forall p, forall a : catom * list sreg, cext (let '(a, s) := a in r <~ compile_query_atoms p [] u ns s ;; cret (a :: r)))
    by (intros p [a s]; apply cext_bind; [apply compile_query_atoms_ext|]; xt).
  eapply cmp_bind; [apply (query_atom_sim [] u n l1 l2); [apply Is; now left|exact S]|apply X|apply X|].
  intros [a1 s1] [a2 s2] [A B]. cbn in A, B. eapply cmp_bind; [apply IH; [intros m Hm; apply Is; now right|exact B]|xt|xt|]. intros r1 r2 C. apply cmp_ret.
  constructor; auto. now apply pre_plain.
Qed.
End Gen.

(** --- clauses and queries --- *)
Lemma Forall2_imp {A B} (P Q : A -> B -> Prop) l m : (forall a b, P a b -> Q a b) -> Forall2 P l m -> Forall2 Q l m.
Proof. intros H. induction 1; constructor; auto. Qed.
Lemma irel_mono (R R' : yrel) i j : (forall y z, R y z -> R' y z) -> irel K R i j -> irel K R' i j.
Proof. intros M []; constructor; auto. Qed.
Lemma code_mono (R R' : yrel) c1 c2 : (forall y z, R y z -> R' y z) -> code_rel K R c1 c2 -> code_rel K R' c1 c2.
Proof.
  intros M (d1 & d2 & i1 & i2 & A & B & C & D). exists d1, d2, i1, i2. split; [auto|]. split; [auto|]. split; [|auto].
  eapply Forall2_imp; [|exact C]. intros. eapply irel_mono; eauto.
Qed.
Lemma kept_mono (R R' : yrel) a1 a2 : (forall y z, R y z -> R' y z) -> kept_rel R a1 a2 -> kept_rel R' a1 a2.
Proof.
  intros M (A & B & C). split; [auto|]. split; [|auto]. eapply Forall2_imp; [|exact B]. intros [[n1 r1] b1] [[n2 r2] b2] (P & Q & S). split; [exact P|]. split; [exact Q|]. cbn in *. destruct b1; auto.
Qed.
Lemma plain_mono (R R' : yrel) a1 a2 : (forall y z, R y z -> R' y z) -> plain_rel K R a1 a2 -> plain_rel K R' a1 a2.
Proof. intros M [A B]. split; [eapply kept_mono|eapply code_mono]; eauto. Qed.

Section Cfgs.
Variable cf1 cf2 : cfg.
Hypothesis O1 : ord_ok cf1.
Hypothesis O2 : ord_ok cf2.
Definition pR (ps1 ps2 : list string) : yrel := fun y z => exists s, pos_of s ps1 = Some y /\ pos_of s ps2 = Some z.
Lemma pR_uniq ps1 ps2 y1 y2 z1 z2 : pR ps1 ps2 y1 y2 -> pR ps1 ps2 z1 z2 -> (y1 = z1 <-> y2 = z2).
Proof.
  intros (s & A & B) (t & C & D). pose proof (pos_of_nth _ _ _ A). pose proof (pos_of_nth _ _ _ B). pose proof (pos_of_nth _ _ _ C). pose proof (pos_of_nth _ _ _ D).
  split; intros ->; assert (s = t) by congruence; subst; congruence.
Qed.
Lemma pR_bij ps1 ps2 : List.length ps1 = List.length ps2 -> bij (pR ps1 ps2) (List.length ps1).
Proof.
  intros L. constructor; [apply pR_uniq|]. intros y1 y2 (s & A & B). pose proof (pos_of_nth _ _ _ A). pose proof (pos_of_nth _ _ _ B). split; [|rewrite L]; apply nth_error_Some; congruence.
Qed.
Lemma pR_opt ps1 ps2 s : Permutation ps1 ps2 -> optrel (pR ps1 ps2) (pos_of s ps1) (pos_of s ps2).
Proof.
  intros P. destruct (pos_of s ps1) as [y|] eqn:E.
  - assert (In s ps2) as I by (eapply Permutation_in; [exact P|]; apply pos_of_in; eauto). apply pos_of_in in I. destruct I as (z & E2). rewrite E2. constructor. exists s. auto.
  - destruct (pos_of s ps2) as [z|] eqn:E2; [|constructor]. assert (In s ps1) as I by (eapply Permutation_in; [symmetry; exact P|]; apply pos_of_in; eauto).
    apply pos_of_in in I. destruct I as (y & E3). congruence.
Qed.
Lemma order_perm atoms b : Permutation (perm_order cf1 atoms b) (perm_order cf2 atoms b).
Proof. unfold perm_order. etransitivity; [apply O1|symmetry; apply O2]. Qed.
Lemma pR_empty ps1 ps2 : List.length ps1 = 0 -> forall R y z, pR ps1 ps2 y z -> (R : yrel) y z.
Proof. intros L R y z (s & A & _). destruct ps1; [discriminate A|discriminate L]. Qed.

Lemma plains_codes rs l1 l2 : Forall2 (plain_rel K (top rs)) l1 l2 -> codes_rel K (fun _ _ => True) (fun a => a) rs l1 l2 rs.
Proof. induction 1; [constructor|]. eapply co_plain; auto. Qed.

Definition rule_pair (x y : fview * rule) : Prop := fst x = fst y /\ rule_rel K (snd x) (snd y).
Lemma dealloc_end : end_rel dealloc_atom dealloc_atom.
Proof. split; [|auto]. intros R. split; [auto|]. split; [constructor|auto]. Qed.

Theorem compile_clause_sim b c : (forall n, In n (tl c) -> isok \/ to_fview n <> FV "is" 2) ->
  cmp rule_pair (compile_program_term cf1 b c) (compile_program_term cf2 b c).
Proof.
  intros Is. unfold compile_program_term. destruct c as [|h body]; [apply cmp_esc|].
  set (ps1 := perm_order cf1 (h :: body) true). set (ps2 := perm_order cf2 (h :: body) true).
  assert (P : Permutation ps1 ps2) by apply order_perm. assert (L : List.length ps1 = List.length ps2) by now apply Permutation_length.
  pose proof (fun s => pR_opt ps1 ps2 s P) as PR. pose proof (pR_uniq ps1 ps2) as RU. pose proof (pR_bij ps1 ps2 L) as BJ. set (R := pR ps1 ps2) in *.
  destruct (negb b && redefines h)%bool; [apply cmp_throw|].
  assert (Top : forall ha ba cnt b0 l, body = b0 :: l -> assign_two h b0 = (ha, ba, cnt) -> aa_top ba = b0).
  { intros ha ba cnt b0 l _ E. unfold assign_two in E. assert (A1 : forall n a k, assign_one n = (a, k) -> aa_top a = n).
    { intros n a k E1. unfold assign_one in E1. destruct (is_constant n); [injection E1 as <- <-; reflexivity|]. unfold assign_term in E1.
      destruct (assign_xs _ _ _ _ _) as [[xs c0] m']. injection E1 as <- <-. reflexivity. }
    destruct (is_constant b0); [destruct (assign_one h); injection E as _ <- _; reflexivity|]. destruct (is_constant h).
    - destruct (assign_one b0) as [a k] eqn:E1. injection E as _ <- _. eauto.
    - destruct (assign_term h []) as [[a1 k1] m1]. unfold assign_term in E. destruct (assign_xs _ _ _ _ _) as [[xs c0] m']. injection E as _ <- _. reflexivity. }
  destruct (match body with [] => _ | _ => _ end) as [[ha oba] cnt] eqn:Ea.
  assert (Tb : forall ba, oba = Some ba -> isok \/ to_fview (aa_top ba) <> FV "is" 2).
  { intros ba ->. destruct body as [|b0 l]; [destruct (assign_one h); discriminate Ea|]. destruct (assign_two h b0) as [[h1 b1] c1] eqn:E2. injection Ea as -> -> ->.
    rewrite (Top _ _ _ _ _ eq_refl E2). apply Is. now left. }
  clear Ea Top.
  assert (XL : forall pm (a : list catom * list sreg) k (hh : catom) e, cext (let '(firsts, s3) := a in others <~ compile_query_atoms pm [] k (tl body) (remove_x_a_regs s3) ;; cret (to_fview h, hh :: firsts ++ others ++ e))).
  { intros pm [a s] k hh e. apply cext_bind; [apply compile_query_atoms_ext|]. intros. apply cext_ret. }
  eapply (cmp_bind (code_seen R)); [now apply to_program_sim, seen_nil| | |].
  { intros [hc s1]. apply cext_bind; [|intros a; apply XL]. destruct oba; [|apply cext_ret]. apply cext_bind; [apply to_query_ext|]. intros [? ?]. apply cext_ret. }
  { intros [hc s1]. apply cext_bind; [|intros a; apply XL]. destruct oba; [|apply cext_ret]. apply cext_bind; [apply to_query_ext|]. intros [? ?]. apply cext_ret. }
  intros [hc1 s1] [hc2 s2] [Hc Sn]. cbn [fst snd] in Hc, Sn.
  eapply (cmp_bind (fun x y => Forall2 (plain_rel K R) (fst x) (fst y) /\ seen_rel R (snd x) (snd y))); [|intros a; apply XL|intros a; apply XL|].
  { destruct oba as [ba|]; [|apply cmp_ret; split; [constructor|now apply seen_erased]].
    eapply (cmp_bind (code_seen R)); [apply to_query_sim; auto; now apply seen_erased|intros [? ?]; apply cext_ret|intros [? ?]; apply cext_ret|].
    intros [c1 t1] [c2 t2] [A B]. apply cmp_ret. split; [|exact B]. constructor; [|constructor]. split; [|exact A].
    split; [reflexivity|]. split; [apply subs_sim; exact PR|]. split; [|reflexivity]. cbn. now apply (code_len R). }
  intros [f1 t1] [f2 t2] [A B]. cbn [fst snd] in A, B.
  eapply (cmp_bind (Forall2 (plain_rel K R))); [apply query_atoms_sim; auto; [intros n Hn; apply Is; cbn [tl]; destruct body; [destruct Hn|now right]|now apply seen_removed]|intros; apply cext_ret|intros; apply cext_ret|].
  intros o1 o2 Ho. apply cmp_ret. split; [reflexivity|]. cbn [snd].
  assert (Kh : forall pre, kept_rel R {| ca_regs := cnt; ca_code := pre ++ hc1; ca_subs := find_var_reg_substitutions (fun s => pos_of s ps1) ha; ca_node := h; ca_user := false |}
    {| ca_regs := cnt; ca_code := pre ++ hc2; ca_subs := find_var_reg_substitutions (fun s => pos_of s ps2) ha; ca_node := h; ca_user := false |}).
  { intros pre. split; [reflexivity|]. split; [apply subs_sim; exact PR|]. split; [|reflexivity]. cbn. rewrite !app_length. f_equal. now apply (code_len R). }
  rewrite <- L. unfold alloc_code. destruct (Nat.eqb_spec (List.length ps1) 0) as [Z|NZ]; intros rs.
  - rewrite !app_nil_r. cbn [app]. apply plains_codes. constructor.
    + eapply plain_mono; [apply (pR_empty ps1 ps2 Z)|]. split; [apply (Kh [])|exact Hc].
    + apply Forall2_app; (eapply Forall2_imp; [|eassumption]); intros; (eapply plain_mono; [apply (pR_empty ps1 ps2 Z)|]); assumption.
  - eapply co_alloc; [exact I| |].
    + split; [apply (Kh [IAlloc (List.length ps1)])|]. exists (List.length ps1), hc1, hc2. auto.
    + rewrite !app_assoc. eapply codes_app; [apply plains_codes; now apply Forall2_app|]. eapply co_end; [exact I|exact dealloc_end|constructor].
Qed.

Lemma codes_query g g2 rs r1 r2 rs' : codes_rel K (fun _ _ => True) (fun a => a) rs r1 r2 rs' -> Z.of_nat g2 = (Z.of_nat g + pr_sh K SrcQuery)%Z ->
  codes_rel K (ptr_same K) cp_atom rs (query_ptrs g r1) (query_ptrs g2 r2) rs'.
Proof. intros H G. induction H; cbn; [constructor|eapply co_plain|eapply co_alloc|eapply co_end]; eauto; split; auto. Qed.
Definition query_rel (r1 r2 : rule) : Prop := exists rs, codes_rel K (fun _ _ => True) (fun a => a) [] r1 r2 rs.
Theorem compile_query_sim q : (forall n, In n q -> isok \/ to_fview n <> FV "is" 2) -> cmp query_rel (compile_query cf1 q) (compile_query cf2 q).
Proof.
  intros Is. unfold compile_query. set (ps1 := perm_order cf1 q false). set (ps2 := perm_order cf2 q false).
  assert (P : Permutation ps1 ps2) by apply order_perm. assert (L : List.length ps1 = List.length ps2) by now apply Permutation_length.
  pose proof (fun s => pR_opt ps1 ps2 s P) as PR. pose proof (pR_uniq ps1 ps2) as RU. pose proof (pR_bij ps1 ps2 L) as BJ. set (R := pR ps1 ps2) in *.
  rewrite <- L. destruct q as [|n q]; cbn [compile_query_atoms]; [apply cmp_ret; exists []; constructor|].
  assert (X : forall p, forall a : catom * list sreg, cext (let '(a, s) := a in r <~ compile_query_atoms p [] true q s ;; cret (a :: r)))
    by (intros p [a s]; apply cext_bind; [apply compile_query_atoms_ext|]; intros; apply cext_ret).
  eapply cmp_bind; [apply (query_atom_sim _ _ R PR RU (alloc_code (List.length ps1)) true n); [apply Is; now left|apply seen_nil]|apply X|apply X|].
  intros [a1 s1] [a2 s2] [A B]. cbn in A, B. eapply cmp_bind; [apply (query_atoms_sim _ _ R PR RU); [intros m Hm; apply Is; now right|exact B]|intros; apply cext_ret|intros; apply cext_ret|].
  intros r1 r2 C. apply cmp_ret. unfold alloc_code in A. destruct (Nat.eqb_spec (List.length ps1) 0) as [Z|NZ].
  - exists []. apply plains_codes. constructor; [eapply plain_mono; [apply (pR_empty ps1 ps2 Z)|]; apply pre_plain, A|].
    eapply Forall2_imp; [|exact C]. intros. eapply plain_mono; [apply (pR_empty ps1 ps2 Z)|]. assumption.
  - exists [R]. destruct A as (Kp & c1 & c2 & E1 & E2 & Cr). eapply co_alloc; [exact I| |].
    + split; [exact Kp|]. exists (List.length ps1), c1, c2. auto.
    + apply plains_codes. exact C.
Qed.

(** --- programs --- *)
Definition entry_rel (x y : fview * list rule) : Prop := fst x = fst y /\ (isok \/ fst x <> FV "is" 2 -> rules_rel K (snd x) (snd y)).
Definition pstruct : prog -> prog -> Prop := Forall2 entry_rel.
Lemma pstruct_rel p1 p2 : pstruct p1 p2 -> prog_rel K p1 p2.
Proof.
  intros H f Hf. induction H as [|[g1 r1] [g2 r2] p1 p2 [E Q] _ IH]; cbn; [constructor|]. cbn in E, Q. subst g2. destruct (fview_eqb f g1) eqn:G; [|exact IH].
  constructor. apply Q. assert (f = g1) as <-; [|exact Hf]. unfold fview_eqb in G. apply andb_true_iff in G. destruct G as [G1 G2]. apply Nat.eqb_eq in G1. apply String.eqb_eq in G2.
  destruct f, g1; cbn in *; congruence.
Qed.
Lemma padd_sim f r1 r2 p1 p2 : (isok \/ f <> FV "is" 2 -> rule_rel K r1 r2) -> pstruct p1 p2 -> pstruct (padd f r1 p1) (padd f r2 p2).
Proof.
  intros Q H. induction H as [|[g1 q1] [g2 q2] p1 p2 [E T] H IH]; cbn; [constructor; [|constructor]; split; [auto|]; intros; constructor; auto; constructor|].
  cbn in E, T. subst g2. destruct (fview_eqb f g1) eqn:G; [|constructor; auto; split; auto]. constructor; auto. split; [auto|]. cbn. intros Hf.
  apply Forall2_app; [now apply T|]. constructor; [|constructor]. apply Q.
  assert (f = g1) as <-; [|exact Hf]. unfold fview_eqb in G. apply andb_true_iff in G. destruct G as [G1 G2]. apply Nat.eqb_eq in G1. apply String.eqb_eq in G2.
  destruct f, g1; cbn in *; congruence.
Qed.
Definition clauses_quiet (cs : list (list node)) : Prop := forall c n, In c cs -> In n (tl c) -> isok \/ to_fview n <> FV "is" 2.
Theorem compile_clauses_sim b cs : clauses_quiet cs -> forall p1 p2, pstruct p1 p2 -> cmp pstruct (compile_clauses cf1 b cs p1) (compile_clauses cf2 b cs p2).
Proof.
  induction cs as [|c cs IH]; intros Q p1 p2 H; cbn [compile_clauses]; [now apply cmp_ret|].
  eapply (cmp_bind rule_pair); [apply compile_clause_sim; intros n Hn; eapply Q; eauto; now left|intros [? ?]; apply compile_clauses_ext|intros [? ?]; apply compile_clauses_ext|].
  intros [f1 r1] [f2 r2] [E R]. cbn in E, R. subst f2. apply IH; [intros c' n Hc Hn; eapply Q; eauto; now right|]. now apply padd_sim.
Qed.
(** a rule of one atom works in any environment *)
Lemma rule_one a1 a2 : rule_rel K [a1] [a2] -> forall R, plain_rel K R a1 a2.
Proof.
  intros H R. specialize (H [R]). inversion H as [|? ? ? ? ? ? _ P N|? ? ? ? ? ? ? _ P N|? ? ? ? ? ? _ P N]; subst; [exact P| |]; inversion N.
Qed.
Lemma insert_sim i xl xr a1 a2 : (forall R, irel K R (i xl xr) (i xl xr)) -> rule_rel K [a1] [a2] -> rule_rel K (insert_pred i xl xr [a1]) (insert_pred i xl xr [a2]).
Proof.
  intros I H rs. apply plains_codes. constructor; [|constructor]. destruct (rule_one _ _ H (top rs)) as [(A & B & C & D) (d1 & d2 & i1 & i2 & E1 & E2 & P & La)].
  split.
  - split; [exact A|]. split; [exact B|]. split; [|exact D]. cbn. unfold insert_before_last. rewrite E1, E2, !removelast_last, !app_length, !skipn_length, !app_length.
    rewrite (Forall2_len _ _ _ P). reflexivity.
  - cbn. unfold insert_before_last. rewrite E1, E2, !removelast_last. exists (d1 ++ [i xl xr]), (d2 ++ [i xl xr]), i1, i2.
    assert (S : forall (d : list instr) x, skipn (List.length (d ++ [x]) - 1) (d ++ [x]) = [x]).
    { intros d x. rewrite app_length. cbn. rewrite Nat.add_sub. rewrite skipn_app, skipn_all, Nat.sub_diag. reflexivity. }
    rewrite !S, <- !app_assoc. split; [auto|]. split; [auto|]. split; [|exact La]. apply Forall2_app; [exact P|]. constructor; [apply I|constructor].
Qed.
Lemma single cf b h s f r s' : ord_ok cf -> compile_program_term cf b [h] s = (COk (f, r), s') -> f = to_fview h /\ exists a, r = [a].
Proof.
  intros O E. unfold compile_program_term in E. assert (perm_order cf [h] true = []) as P. { unfold perm_order. cbn. apply Permutation_nil. symmetry. apply O. }
  rewrite P in E. destruct (negb b && redefines h)%bool; [discriminate E|]. destruct (assign_one h) as [ha c].
  apply cbind_ok in E. destruct E as ([hc s1] & s2 & _ & E). apply cbind_ok in E. destruct E as ([fi s3] & s4 & E3 & E). injection E3 as <- _ _.
  apply cbind_ok in E. destruct E as (ot & s5 & E4 & E). injection E4 as <- _. injection E as <- <- _. cbn. eauto.
Qed.
Lemma compile_binary_sim nm i p1 p2 : (isok \/ FV nm 2 <> FV "is" 2 -> forall R x y, irel K R (i x y) (i x y)) -> pstruct p1 p2 ->
  cmp pstruct (compile_binary cf1 nm i p1) (compile_binary cf2 nm i p2).
Proof.
  intros I H. unfold compile_binary. destruct (pred_regs (binary_pred nm)) as [xl xr].
  assert (C : cmp (fun x y => rule_pair x y /\ fst x = FV nm 2 /\ exists a1 a2, snd x = [a1] /\ snd y = [a2])
    (compile_program_term cf1 true [binary_pred nm]) (compile_program_term cf2 true [binary_pred nm])).
  { intros s1 s2 S G1 G2. assert (Qu : forall n, In n (tl [binary_pred nm]) -> isok \/ to_fview n <> FV "is" 2) by (intros n []).
    destruct (compile_clause_sim true [binary_pred nm] Qu s1 s2 S G1 G2) as [S' R]. split; [exact S'|].
    destruct (compile_program_term cf1 true [binary_pred nm] s1) as [[[f1 r1]|e1|] t1] eqn:E1; destruct (compile_program_term cf2 true [binary_pred nm] s2) as [[[f2 r2]|e2|] t2] eqn:E2;
      cbn [fst] in *; inversion R; subst; try constructor. split; [assumption|].
    destruct (single _ _ _ _ _ _ _ O1 E1) as (-> & a1 & ->). destruct (single _ _ _ _ _ _ _ O2 E2) as (-> & a2 & ->). cbn. split; [reflexivity|]. eauto. }
  eapply cmp_bind; [exact C|intros [? ?]; apply cext_ret|intros [? ?]; apply cext_ret|]. intros [f1 r1] [f2 r2] [[E R] [Ef (a1 & a2 & A1 & A2)]]. cbn in *. subst. apply cmp_ret.
  apply padd_sim; auto. intros Hf. apply insert_sim; auto.
Qed.
Theorem built_ins_sim : cmp pstruct (compile_built_ins cf1) (compile_built_ins cf2).
Proof.
  unfold compile_built_ins.
  eapply (cmp_bind pstruct); [apply compile_binary_sim; [intros [Q|Q] R x y; [now constructor|now destruct Q]|constructor]| | |].
  1,2: intros; repeat (apply cext_bind; [apply compile_binary_ext|intros ?]); apply compile_clauses_ext.
  intros p1 p2 H. eapply (cmp_bind pstruct); [apply compile_binary_sim; auto; intros; constructor| | |].
  1,2: intros; repeat (apply cext_bind; [apply compile_binary_ext|intros ?]); apply compile_clauses_ext.
  clear p1 p2 H. intros p1 p2 H. eapply (cmp_bind pstruct); [apply compile_binary_sim; auto; intros; constructor| | |].
  1,2: intros; apply compile_clauses_ext.
  clear p1 p2 H. intros p1 p2 H. apply compile_clauses_sim; auto. intros c n [<-|[<-|[]]] Hn; [destruct Hn|]. destruct Hn as [<-|[]]. right. discriminate.
Qed.
(** what load_program does with the built-in predicates *)
Lemma plookup_pset f g rs p : plookup f (pset g rs p) = if fview_eqb f g then Some rs else plookup f p.
Proof.
  assert (Eq : forall a b, fview_eqb a b = true -> a = b). { intros [n a] [m b] E. unfold fview_eqb in E. apply andb_true_iff in E. destruct E as [E1 E2]. apply Nat.eqb_eq in E1.
    apply String.eqb_eq in E2. cbn in *. congruence. }
  induction p as [|[h q] p IH]; cbn; [destruct (fview_eqb f g); reflexivity|]. destruct (fview_eqb g h) eqn:G; cbn.
  - apply Eq in G. subst h. destruct (fview_eqb f g); reflexivity.
  - rewrite IH. destruct (fview_eqb f h) eqn:Fh; [|reflexivity]. apply Eq in Fh. subst h. destruct (fview_eqb f g) eqn:Fg; [|reflexivity]. apply Eq in Fg. subst.
    unfold fview_eqb in G. rewrite Nat.eqb_refl, String.eqb_refl in G. discriminate G.
Qed.
Lemma merge_sim b1 b2 : pstruct b1 b2 -> forall p1 p2, prog_rel K p1 p2 -> prog_rel K (merge b1 p1) (merge b2 p2).
Proof.
  unfold merge. induction 1 as [|[g1 r1] [g2 r2] b1 b2 [E Q] _ IH]; intros p1 p2 H; cbn; [exact H|]. cbn in E, Q. subst g2. apply IH. intros f Hf. rewrite !plookup_pset.
  destruct (fview_eqb f g1) eqn:G; [|now apply H]. constructor. apply Q. assert (f = g1) as <-; [|exact Hf]. unfold fview_eqb in G. apply andb_true_iff in G. destruct G as [G1 G2].
  apply Nat.eqb_eq in G1. apply String.eqb_eq in G2. destruct f, g1; cbn in *; congruence.
Qed.
End Cfgs.
End Comp.
