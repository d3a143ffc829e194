(** Two executions in lock step: different hash orders and different tables behind them. *)
From Coq Require Import Permutation.
From Verif Require Import Base Machine Heap Compiler Parser Print Organizer.
Open Scope string_scope.
Open Scope list_scope.

Inductive optrel {A B} (R : A -> B -> Prop) : option A -> option B -> Prop :=
| op_some a b : R a b -> optrel R (Some a) (Some b)
| op_none : optrel R None None.

(** --- outcomes; [lax]: nothing is said about a run once the other one has undefined behaviour --- *)
Section Outcome.
Variable lax : Prop.
Inductive orel {A B} (R : A -> B -> Prop) : out A -> out B -> Prop :=
| or_val a b : R a b -> orel R (Val a) (Val b)
| or_ub u : orel R (Ub u) (Ub u)
| or_fuel : orel R Fuel Fuel
| or_left u x : lax -> orel R (Ub u) x
| or_right u x : lax -> orel R x (Ub u).
Lemma orel_bind {A B A' B'} (R : A -> B -> Prop) (Q : A' -> B' -> Prop) m1 m2 f1 f2 :
  orel R m1 m2 -> (forall a b, R a b -> orel Q (f1 a) (f2 b)) -> orel Q (bind m1 f1) (bind m2 f2).
Proof. intros [a b r|u| |u x l|u x l] H; cbn; try (now constructor); auto. Qed.
Lemma orel_opt {A B} (R : A -> B -> Prop) u o1 o2 : optrel R o1 o2 -> orel R (of_opt u o1) (of_opt u o2).
Proof. intros []; constructor; auto. Qed.
Lemma orel_impl {A B} (R Q : A -> B -> Prop) m1 m2 : (forall a b, R a b -> Q a b) -> orel R m1 m2 -> orel Q m1 m2.
Proof. intros H []; constructor; auto. Qed.
(** errors are the same, but with [lax] for the functor a type error names *)
Definition errel (e1 e2 : rterr) : Prop := e1 = e2 \/ (lax /\ exists f g, e1 = ENotArith f /\ e2 = ENotArith g).
End Outcome.
Arguments orel lax {A B} R.

Lemma Forall2_nth {A B} (R : A -> B -> Prop) l1 l2 : Forall2 R l1 l2 -> forall i, optrel R (nth_error l1 i) (nth_error l2 i).
Proof. induction 1; intros [|i]; cbn; try constructor; auto. Qed.
Lemma Forall2_upd {A B} (R : A -> B -> Prop) l1 l2 a b : Forall2 R l1 l2 -> R a b ->
  forall i, optrel (Forall2 R) (upd l1 i a) (upd l2 i b).
Proof.
  intros H r. induction H as [|x y l1 l2 q H IH]; intros [|i]; cbn; try constructor; auto. destruct (IH i); cbn; constructor; auto.
Qed.
Lemma Forall2_len {A B} (R : A -> B -> Prop) l1 l2 : Forall2 R l1 l2 -> List.length l1 = List.length l2.
Proof. induction 1; cbn; auto. Qed.
Lemma Forall2_rep {A B} (R : A -> B -> Prop) a b n : R a b -> Forall2 R (repeat a n) (repeat b n).
Proof. intros r. induction n; cbn; auto. Qed.
Lemma Forall2_first {A B} (R : A -> B -> Prop) l1 l2 : Forall2 R l1 l2 -> forall n, Forall2 R (firstn n l1) (firstn n l2).
Proof. induction 1; intros [|n]; cbn; auto. Qed.
Lemma Forall2_skip {A B} (R : A -> B -> Prop) l1 l2 : Forall2 R l1 l2 -> forall n, Forall2 R (skipn n l1) (skipn n l2).
Proof. induction 1; intros [|n]; cbn; auto. Qed.
Lemma nth_upd {A} (l : list A) : forall i a l' j, upd l i a = Some l' -> nth_error l' j = if Nat.eqb i j then Some a else nth_error l j.
Proof.
  induction l as [|b l IH]; intros [|i] a l' j E; cbn in E; try discriminate E.
  - injection E as <-. destruct j; reflexivity.
  - destruct (upd l i a) as [m|] eqn:K; [|discriminate E]. injection E as <-. destruct j as [|j]; [reflexivity|]. cbn. now apply IH.
Qed.
Lemma upd_length {A} (l : list A) : forall i a l', upd l i a = Some l' -> List.length l' = List.length l.
Proof.
  induction l as [|b l IH]; intros [|i] a l' E; cbn in E; try discriminate E; [injection E as <-; reflexivity|].
  destruct (upd l i a) as [m|] eqn:K; [|discriminate E]. injection E as <-. cbn. f_equal. eauto.
Qed.
Lemma upd_none {A} (l : list A) : forall i a, upd l i a = None <-> List.length l <= i.
Proof.
  induction l as [|b l IH]; intros [|i] a; cbn; split; intros; try lia; try discriminate; auto.
  - destruct (upd l i a) eqn:K; [discriminate|]. apply IH in K. lia.
  - rewrite (proj2 (IH i a)) by lia. reflexivity.
Qed.

(** --- relations; [F], [V]: functor and variable indices that mean the same; [isok]: is/2 may be called --- *)
Record params := {
  pr_F : Z -> Z -> Prop; pr_V : Z -> Z -> Prop; pr_lax : Prop; pr_isok : Prop;
  pr_sh : csrc -> Z (** difference between the generations of code *) }.
Section Rel.
Variable K : params.
Notation F := (pr_F K). Notation V := (pr_V K). Notation lax := (pr_lax K). Notation isok := (pr_isok K).

Inductive crel : cell -> cell -> Prop :=
| cr_cons i j : F i j -> crel (CCons i) (CCons j)
| cr_int n : crel (CInt n) (CInt n)
| cr_ref a v w : V v w -> crel (CRef a v) (CRef a w)
| cr_fun i j n : F i j -> crel (CFun i n) (CFun j n)
| cr_eval i n : crel (CEval i n) (CEval i n)
| cr_str a : crel (CStr a) (CStr a).

Definition yrel := nat -> nat -> Prop.
(** [R] matches the registers of an environment of [n] registers *)
Record bij (R : yrel) (n : nat) : Prop := {
  bj_uniq : forall y1 y2 z1 z2, R y1 y2 -> R z1 z2 -> (y1 = z1 <-> y2 = z2);
  bj_in : forall y1 y2, R y1 y2 -> y1 < n /\ y2 < n }.
Definition env_rel (R : yrel) (e1 e2 : list cell) : Prop :=
  List.length e1 = List.length e2 /\ bij R (List.length e1) /\
  forall y1 y2, R y1 y2 -> optrel crel (nth_error e1 y1) (nth_error e2 y2).
Inductive envs_rel : list yrel -> list (list cell) -> list (list cell) -> Prop :=
| es_nil : envs_rel [] [] []
| es_cons R rs e1 e2 l1 l2 : env_rel R e1 e2 -> envs_rel rs l1 l2 -> envs_rel (R :: rs) (e1 :: l1) (e2 :: l2).
Definition top (rs : list yrel) : yrel := match rs with [] => fun _ _ => False | R :: _ => R end.

(** instructions other than allocate, deallocate, call and proceed *)
Inductive irel (R : yrel) : instr -> instr -> Prop :=
| ir_put c d x : crel c d -> irel R (IPutStruct c x) (IPutStruct d x)
| ir_setvar x v w : V v w -> irel R (ISetVar x v) (ISetVar x w)
| ir_setpvar y z v w : R y z -> V v w -> irel R (ISetPVar y v) (ISetPVar z w)
| ir_setval x : irel R (ISetVal x) (ISetVal x)
| ir_setpval y z : R y z -> irel R (ISetPVal y) (ISetPVal z)
| ir_get c d x : crel c d -> irel R (IGetStruct c x) (IGetStruct d x)
| ir_uni c d x : crel c d -> irel R (IUniStruct c x) (IUniStruct d x)
| ir_univar x v w : V v w -> irel R (IUniVar x v) (IUniVar x w)
| ir_unipvar y z v w : R y z -> V v w -> irel R (IUniPVar y v) (IUniPVar z w)
| ir_unival x : irel R (IUniVal x) (IUniVal x)
| ir_unipval y z : R y z -> irel R (IUniPVal y) (IUniPVal z)
| ir_putvar x a v w : V v w -> irel R (IPutVar x a v) (IPutVar x a w)
| ir_putpvar y z a v w : R y z -> V v w -> irel R (IPutPVar y a v) (IPutPVar z a w)
| ir_putval x a : irel R (IPutVal x a) (IPutVal x a)
| ir_putpval y z a : R y z -> irel R (IPutPVal y a) (IPutPVal z a)
| ir_getvar x a : irel R (IGetVar x a) (IGetVar x a)
| ir_getpvar y z a : R y z -> irel R (IGetPVar y a) (IGetPVar z a)
| ir_getval x a : irel R (IGetVal x a) (IGetVal x a)
| ir_getpval y z a : R y z -> irel R (IGetPVal y a) (IGetPVal z a)
| ir_is x y : isok -> irel R (IIs x y) (IIs x y)
| ir_eq x y : irel R (IEq x y) (IEq x y)
| ir_neq x y : irel R (INeq x y) (INeq x y).
(** the last instruction *)
Inductive lastrel : instr -> instr -> Prop :=
| la_call f : isok \/ f <> FV "is" 2 -> lastrel (ICall f) (ICall f)
| la_proceed : lastrel IProceed IProceed.
Definition code_rel (R : yrel) (c1 c2 : list instr) : Prop :=
  exists d1 d2 i1 i2, c1 = d1 ++ [i1] /\ c2 = d2 ++ [i2] /\ Forall2 (irel R) d1 d2 /\ lastrel i1 i2.
Definition sub_rel (R : yrel) (s1 s2 : string * nat * bool) : Prop :=
  fst (fst s1) = fst (fst s2) /\ snd s1 = snd s2 /\
  if snd s1 then R (snd (fst s1)) (snd (fst s2)) else snd (fst s1) = snd (fst s2).
(** what is still used of an atom when its instructions have been executed *)
Definition kept_rel (R : yrel) (a1 a2 : catom) : Prop :=
  ca_user a1 = ca_user a2 /\ Forall2 (sub_rel R) (ca_subs a1) (ca_subs a2) /\ List.length (ca_code a1) = List.length (ca_code a2) /\
  ca_regs a1 = ca_regs a2.
(** atoms without allocation, with allocation, and the deallocation marker *)
Definition plain_rel (R : yrel) (a1 a2 : catom) : Prop := kept_rel R a1 a2 /\ code_rel R (ca_code a1) (ca_code a2).
Definition alloc_rel (R : yrel) (a1 a2 : catom) : Prop :=
  kept_rel R a1 a2 /\ exists n c1 c2, ca_code a1 = IAlloc n :: c1 /\ ca_code a2 = IAlloc n :: c2 /\ code_rel R c1 c2 /\ bij R n.
Definition end_rel (a1 a2 : catom) : Prop :=
  (forall R, kept_rel R a1 a2) /\ ca_code a1 = [IDealloc] /\ ca_code a2 = [IDealloc].

Section Codes.
Context {T : Type}.
Variable same : T -> T -> Prop.
Variable atom : T -> catom.
(** a stack of atoms to be executed in environments matched by [rs] *)
Inductive codes_rel : list yrel -> list T -> list T -> list yrel -> Prop :=
| co_nil rs : codes_rel rs [] [] rs
| co_plain rs p1 p2 l1 l2 rs' : same p1 p2 -> plain_rel (top rs) (atom p1) (atom p2) -> codes_rel rs l1 l2 rs' ->
    codes_rel rs (p1 :: l1) (p2 :: l2) rs'
| co_alloc rs R p1 p2 l1 l2 rs' : same p1 p2 -> alloc_rel R (atom p1) (atom p2) -> codes_rel (R :: rs) l1 l2 rs' ->
    codes_rel rs (p1 :: l1) (p2 :: l2) rs'
| co_end rs p1 p2 l1 l2 rs' : same p1 p2 -> end_rel (atom p1) (atom p2) -> codes_rel (tl rs) l1 l2 rs' ->
    codes_rel rs (p1 :: l1) (p2 :: l2) rs'.
Lemma codes_app rs l1 l2 rs1 : codes_rel rs l1 l2 rs1 -> forall k1 k2 rs2, codes_rel rs1 k1 k2 rs2 -> codes_rel rs (l1 ++ k1) (l2 ++ k2) rs2.
Proof. induction 1; intros k1 k2 rs2 H2; cbn; eauto using codes_rel. Qed.
End Codes.
(** Rules leave the environments as they were; their code does not look at those of the caller. *)
Definition rule_rel (r1 r2 : rule) : Prop := forall rs, codes_rel (fun _ _ => True) (fun a => a) rs r1 r2 rs.
Definition rules_rel : list rule -> list rule -> Prop := Forall2 rule_rel.
Definition prog_rel (p1 p2 : prog) : Prop :=
  forall f, isok \/ f <> FV "is" 2 -> optrel rules_rel (plookup f p1) (plookup f p2).

(** what the tables and the indices must satisfy *)
Record tables_ok (sto1 sto2 : storage) : Prop := {
  to_F : forall i j, F i j -> nthZ (s_functors sto1) i = nthZ (s_functors sto2) j;
  to_V : forall i j, V i j -> nthZ (s_vars sto1) i = nthZ (s_vars sto2) j;
  to_uniq : forall i j i' j', F i j -> F i' j' -> (i = i' <-> j = j');
  to_zero : F 0%Z 0%Z;
  to_err : isok -> lax \/ ((forall i j, F i j -> i = j) /\ s_functors sto1 = s_functors sto2) }.

Lemma crel_eqb c1 c2 d1 d2 : (forall i j i' j', F i j -> F i' j' -> (i = i' <-> j = j')) -> crel c1 d1 -> crel c2 d2 ->
  (forall a v, c1 <> CRef a v) -> cell_eqb c1 c2 = cell_eqb d1 d2.
Proof.
  intros U H1 H2 N. destruct H1 as [i j f| |a v w q|i j n f| |]; destruct H2 as [i' j' f'| |a' v' w' q'|i' j' n' f'| |]; cbn; auto; try (now destruct (N a v)).
  - specialize (U _ _ _ _ f f'). destruct (Z.eqb_spec i i'), (Z.eqb_spec j j'); tauto.
  - specialize (U _ _ _ _ f f'). destruct (Z.eqb_spec i i'), (Z.eqb_spec j j'); tauto.
Qed.
Lemma crel_idx c d : crel c d -> orel lax eq (get_heap_i c) (get_heap_i d).
Proof. intros []; constructor; auto. Qed.

(** --- heaps --- *)
Record heaps_ok {H1 H2} (ops1 : hops H1) (ops2 : hops H2) (HR : H1 -> H2 -> Prop) : Prop := {
  ho_size : forall h1 h2, HR h1 h2 -> h_size ops1 h1 = h_size ops2 h2;
  ho_at : forall h1 h2, HR h1 h2 -> forall i, optrel crel (h_at ops1 h1 i) (h_at ops2 h2 i);
  ho_push : forall h1 h2 c d, HR h1 h2 -> crel c d -> HR (h_push ops1 h1 c) (h_push ops2 h2 d);
  ho_set : forall h1 h2 c d, HR h1 h2 -> crel c d -> forall i, optrel HR (h_set ops1 h1 i c) (h_set ops2 h2 i d) }.
Record mrel {H1 H2} (HR : H1 -> H2 -> Prop) (rs : list yrel) (m1 : mst H1) (m2 : mst H2) : Prop := {
  mr_heap : HR (m_heap m1) (m_heap m2);
  mr_regs : Forall2 crel (m_regs m1) (m_regs m2);
  mr_mode : m_mode m1 = m_mode m2;
  mr_S : m_S m1 = m_S m2;
  mr_envs : envs_rel rs (m_envs m1) (m_envs m2) }.
Definition strel (s1 s2 : istat) : Prop :=
  match s1, s2 with Cont, Cont => True | Failing, Failing => True | Raise e1, Raise e2 => errel lax e1 e2 | _, _ => False end.

Section Machine.
Context {H1 H2 : Type}.
Variable ops1 : hops H1. Variable ops2 : hops H2. Variable HR : H1 -> H2 -> Prop.
Hypothesis OK : heaps_ok ops1 ops2 HR.
Variable cf1 cf2 : cfg.
Hypothesis POW : forall a b, c_powf cf1 a b = c_powf cf2 a b.
Variable sto1 sto2 : storage.
Hypothesis TO : tables_ok sto1 sto2.
Notation orel := (orel lax).
Notation mrel := (mrel HR).

Ltac obind R := eapply (orel_bind lax R).

Lemma at_sim h1 h2 i : HR h1 h2 -> orel crel (at_ H1 ops1 h1 i) (at_ H2 ops2 h2 i).
Proof. intros h. apply orel_opt, (ho_at _ _ _ OK _ _ h). Qed.
Lemma at_sim' h1 h2 i : HR h1 h2 -> orel (fun c d => crel c d /\ at_ H1 ops1 h1 i = Val c /\ at_ H2 ops2 h2 i = Val d) (at_ H1 ops1 h1 i) (at_ H2 ops2 h2 i).
Proof. intros h. unfold at_. destruct (ho_at _ _ _ OK _ _ h i); cbn; constructor; auto. Qed.
Lemma deref_aux_sim h1 h2 : HR h1 h2 -> forall fuel a, orel eq (deref_aux H1 ops1 fuel h1 a) (deref_aux H2 ops2 fuel h2 a).
Proof.
  intros h. induction fuel as [|f IH]; intros a; cbn; [constructor|]. obind crel; [now apply at_sim|].
  intros c d []; try (constructor; auto); destruct (Nat.eqb _ _); try (constructor; auto); apply IH.
Qed.
Lemma deref_sim h1 h2 a : HR h1 h2 -> orel eq (deref H1 ops1 h1 a) (deref H2 ops2 h2 a).
Proof. intros h. unfold deref. rewrite (ho_size _ _ _ OK _ _ h). now apply deref_aux_sim. Qed.
Lemma bind_sim h1 h2 d t : HR h1 h2 -> orel HR (bind_ref H1 ops1 h1 d t) (bind_ref H2 ops2 h2 d t).
Proof.
  intros h. unfold bind_ref. obind crel; [now apply at_sim|]. intros c c' Q; destruct Q; try constructor.
  apply orel_opt, (ho_set _ _ _ OK); auto. now constructor.
Qed.
Definition bool_heap (x : bool * H1) (y : bool * H2) : Prop := fst x = fst y /\ HR (snd x) (snd y).
Lemma unify_loop_sim : forall fuel h1 h2 pdl, HR h1 h2 -> orel bool_heap (unify_loop H1 ops1 fuel h1 pdl) (unify_loop H2 ops2 fuel h2 pdl).
Proof.
  assert (Fl : forall h1 h2, HR h1 h2 -> orel bool_heap (Val (false, h1)) (Val (false, h2))) by (intros; constructor; split; auto).
  induction fuel as [|f IH]; intros h1 h2 pdl h; (destruct pdl as [|a [|b rest]]; cbn [unify_loop]; [constructor; split; auto|constructor|]); [constructor|].
  obind (@eq nat); [now apply deref_sim|]. intros d1 d1' <-. obind (@eq nat); [now apply deref_sim|]. intros d2 d2' <-.
  destruct (Nat.eqb d1 d2); [now apply IH|]. obind crel; [now apply at_sim|]. intros c1 c1' Q1. obind crel; [now apply at_sim|]. intros c2 c2' Q2.
  assert (B : forall d t, orel bool_heap (h' <- bind_ref H1 ops1 h1 d t ;; unify_loop H1 ops1 f h' rest) (h' <- bind_ref H2 ops2 h2 d t ;; unify_loop H2 ops2 f h' rest))
    by (intros; obind HR; [now apply bind_sim|]; intros; now apply IH).
  assert (U := to_uniq _ _ TO).
  destruct Q1 as [i j q| |r v w q|i j n q| |]; destruct Q2 as [i' j' q'| |r' v' w' q'|i' j' n' q'|i' n'|]; auto;
    try (specialize (U _ _ _ _ q q'); destruct (Z.eqb_spec i i'), (Z.eqb_spec j j'); try tauto; auto).
  - destruct (Z.eqb n n0); auto.
  - destruct (Z.eqb i i'); auto.
  - constructor.
Qed.
Lemma unify_m_sim fuel rs m1 m2 a b : mrel rs m1 m2 ->
  orel (fun x y => strel (fst x) (fst y) /\ mrel rs (snd x) (snd y)) (unify_m H1 ops1 fuel m1 a b) (unify_m H2 ops2 fuel m2 a b).
Proof.
  intros M. unfold unify_m, unify. obind bool_heap; [apply unify_loop_sim, M|]. intros [ok h] [ok' h'] [E Hh]. cbn in E, Hh. subst ok'. constructor. cbn.
  split; [now destruct ok|]. destruct M. constructor; auto.
Qed.
Lemma wreg_sim rs m1 m2 i c d : mrel rs m1 m2 -> crel c d -> orel (mrel rs) (wreg H1 m1 i c) (wreg H2 m2 i d).
Proof.
  intros M q. unfold wreg. obind (Forall2 crel); [apply orel_opt, Forall2_upd; auto; apply M|]. intros r r' Hr. constructor. destruct M. constructor; auto.
Qed.
Lemma rreg_sim rs m1 m2 i : mrel rs m1 m2 -> orel crel (rreg H1 m1 i) (rreg H2 m2 i).
Proof. intros M. apply orel_opt, Forall2_nth, M. Qed.
Lemma wperm_sim rs m1 m2 y z c d : mrel rs m1 m2 -> top rs y z -> crel c d -> orel (mrel rs) (wperm H1 m1 y c) (wperm H2 m2 z d).
Proof.
  intros M r q. unfold wperm. pose proof (mr_envs _ _ _ _ M) as E. destruct E as [|R rs e1 e2 l1 l2 (L & B & N) E]; [constructor|]. cbn in r.
  assert (Lt : y < List.length e1 /\ z < List.length e1) by (eapply bj_in; eauto).
  destruct (upd e1 y c) as [e1'|] eqn:E1; [|apply upd_none in E1; lia]. destruct (upd e2 z d) as [e2'|] eqn:E2; [|apply upd_none in E2; lia].
  cbn. constructor. destruct M. constructor; cbn; auto. constructor; auto. split; [|split].
  - rewrite (upd_length _ _ _ _ E1), (upd_length _ _ _ _ E2). exact L.
  - now rewrite (upd_length _ _ _ _ E1).
  - intros u1 u2 ru. rewrite (nth_upd _ _ _ _ u1 E1), (nth_upd _ _ _ _ u2 E2). pose proof (bj_uniq _ _ B _ _ _ _ r ru).
    destruct (Nat.eqb_spec y u1), (Nat.eqb_spec z u2); try tauto; [now constructor|auto].
Qed.
Lemma rperm_sim rs m1 m2 y z : mrel rs m1 m2 -> top rs y z -> orel crel (rperm H1 m1 y) (rperm H2 m2 z).
Proof.
  intros M r. unfold rperm. pose proof (mr_envs _ _ _ _ M) as E. destruct E as [|R rs e1 e2 l1 l2 (L & B & N) E]; [constructor|]. apply orel_opt, N, r.
Qed.
Lemma push_sim rs m1 m2 c d : mrel rs m1 m2 -> crel c d -> mrel rs (push H1 ops1 m1 c) (push H2 ops2 m2 d).
Proof. intros M q. destruct M. constructor; cbn; auto. now apply (ho_push _ _ _ OK). Qed.
Lemma hsize_sim rs m1 m2 : mrel rs m1 m2 -> hsize H1 ops1 m1 = hsize H2 ops2 m2.
Proof. intros M. apply (ho_size _ _ _ OK), M. Qed.
Lemma heap_sim rs m1 m2 h1 h2 : mrel rs m1 m2 -> HR h1 h2 -> mrel rs (set_heap m1 h1) (set_heap m2 h2).
Proof. intros M q. destruct M. constructor; auto. Qed.
Lemma mode_sim rs m1 m2 w s : mrel rs m1 m2 -> mrel rs (set_mode m1 w s) (set_mode m2 w s).
Proof. intros M. destruct M. constructor; auto. Qed.
Lemma inc_sim rs m1 m2 : mrel rs m1 m2 -> mrel rs (inc_S m1) (inc_S m2).
Proof. intros M. destruct M. constructor; cbn; auto. Qed.
Definition step_rel (rs : list yrel) (x : istat * mst H1) (y : istat * mst H2) : Prop := strel (fst x) (fst y) /\ mrel rs (snd x) (snd y).
Lemma cont rs m1 m2 : mrel rs m1 m2 -> orel (step_rel rs) (Val (Cont, m1)) (Val (Cont, m2)).
Proof. intros. constructor. split; cbn; auto. Qed.
Lemma failing rs m1 m2 : mrel rs m1 m2 -> orel (step_rel rs) (Val (Failing, m1)) (Val (Failing, m2)).
Proof. intros. constructor. split; cbn; auto. Qed.
Lemma push_bind rs m1 m2 c d a (f : H1 -> out (istat * mst H1)) g : mrel rs m1 m2 -> crel c d ->
  (forall h h', HR h h' -> orel (step_rel rs) (f h) (g h')) ->
  orel (step_rel rs) (h' <- bind_ref H1 ops1 (m_heap (push H1 ops1 m1 c)) a (hsize H1 ops1 (push H1 ops1 m1 c) - 1) ;; f h')
    (h' <- bind_ref H2 ops2 (m_heap (push H2 ops2 m2 d)) a (hsize H2 ops2 (push H2 ops2 m2 d) - 1) ;; g h').
Proof.
  intros M q Hf. pose proof (push_sim _ _ _ _ _ M q) as M'. rewrite (hsize_sim _ _ _ M'). obind HR; [apply bind_sim, M'|exact Hf].
Qed.
Lemma get_structure_sim rs m1 m2 c d x : mrel rs m1 m2 -> crel c d -> orel (step_rel rs) (get_structure H1 ops1 m1 c x) (get_structure H2 ops2 m2 d x).
Proof.
  intros M q. unfold get_structure. obind crel; [eapply rreg_sim; eauto|]. intros r r' Qr. obind (@eq nat); [now apply crel_idx|]. intros a0 a0' <-.
  obind (@eq nat); [apply deref_sim, M|]. intros addr addr' <-. obind crel; [apply at_sim, M|]. intros e e' Qe.
  pose proof (crel_eqb e c e' d (to_uniq _ _ TO) Qe q) as EB.
  pose proof Qe as Q'. destruct Qe; [rewrite EB by discriminate|rewrite EB by discriminate| |rewrite EB by discriminate|rewrite EB by discriminate|rewrite EB by discriminate];
    (idtac; match goal with |- context [cell_eqb ?x ?y] => destruct (cell_eqb x y); [apply cont, mode_sim, M|apply failing, M] | |- context [bind_ref] => idtac end).
  eapply push_bind; eauto. intros h h' Hh. rewrite (mr_S _ _ _ _ M). apply cont, mode_sim, heap_sim; auto. now apply push_sim.
Qed.
Lemma unify_structure_sim rs m1 m2 c d x : mrel rs m1 m2 -> crel c d -> orel (step_rel rs) (unify_structure H1 ops1 m1 c x) (unify_structure H2 ops2 m2 d x).
Proof.
  intros M q. unfold unify_structure. rewrite (mr_mode _ _ _ _ M), (mr_S _ _ _ _ M). destruct (m_mode m2) as [[]|]; [| |constructor].
  - obind (@eq nat); [apply deref_sim, M|]. intros addr addr' <-. obind crel; [apply at_sim, M|]. intros e e' Qe.
    pose proof (crel_eqb e c e' d (to_uniq _ _ TO) Qe q) as EB.
    pose proof Qe as Q'. destruct Qe; [rewrite EB by discriminate|rewrite EB by discriminate| |rewrite EB by discriminate|rewrite EB by discriminate|rewrite EB by discriminate];
    (idtac; match goal with |- context [cell_eqb ?x ?y] => destruct (cell_eqb x y); [apply cont, inc_sim, M|apply failing, inc_sim, M] | |- context [bind_ref] => idtac end).
    eapply push_bind; eauto. intros h h' Hh. apply cont, inc_sim, heap_sim; auto. now apply push_sim.
  - pose proof (push_sim _ _ _ _ _ M q) as M'. rewrite (hsize_sim _ _ _ M'). obind (mrel rs); [apply wreg_sim; auto; constructor|]. intros. now apply cont, inc_sim.
Qed.
Definition wr_ok rs (wr1 : mst H1 -> nat -> cell -> out (mst H1)) (wr2 : mst H2 -> nat -> cell -> out (mst H2)) (x z : nat) : Prop := forall m1 m2 c d, mrel rs m1 m2 -> crel c d -> orel (mrel rs) (wr1 m1 x c) (wr2 m2 z d).
Lemma unify_variable_sim rs wr1 wr2 m1 m2 x z v w : wr_ok rs wr1 wr2 x z -> mrel rs m1 m2 -> V v w ->
  orel (step_rel rs) (unify_variable H1 ops1 wr1 m1 x v) (unify_variable H2 ops2 wr2 m2 z w).
Proof.
  intros W M q. unfold unify_variable. rewrite (mr_mode _ _ _ _ M), (mr_S _ _ _ _ M). destruct (m_mode m2) as [[]|]; [| |constructor].
  - obind (mrel rs); [apply W; auto; constructor|]. intros. now apply cont, inc_sim.
  - unfold push_ref. rewrite (hsize_sim _ _ _ M). obind (mrel rs); [apply W; [apply push_sim|]; auto; now constructor|]. intros. now apply cont, inc_sim.
Qed.
Lemma unify_value_sim fuel rs m1 m2 c d : mrel rs m1 m2 -> crel c d -> orel (step_rel rs) (unify_value H1 ops1 fuel m1 c) (unify_value H2 ops2 fuel m2 d).
Proof.
  intros M q. unfold unify_value. rewrite (mr_mode _ _ _ _ M), (mr_S _ _ _ _ M). destruct (m_mode m2) as [[]|]; [| |constructor].
  - obind (@eq nat); [now apply crel_idx|]. intros a a' <-. eapply orel_bind; [apply unify_m_sim, M|]. intros [s n1] [s' n2] [A B]. cbn in A, B. constructor.
    split; [exact A|]. now apply inc_sim.
  - obind (@eq nat); [now apply crel_idx|]. intros a a' <-. obind (@eq nat); [apply deref_sim, M|]. intros b b' <-. obind crel; [apply at_sim, M|].
    intros e e' Qe. pose proof Qe as Q'. destruct Qe; try (apply cont, inc_sim, push_sim; auto; constructor; auto). constructor.
Qed.
Lemma get_value_sim fuel rs m1 m2 c c' d d' : mrel rs m1 m2 -> crel c d -> crel c' d' -> orel (step_rel rs) (get_value H1 ops1 fuel m1 c c') (get_value H2 ops2 fuel m2 d d').
Proof.
  intros M q q'. unfold get_value. obind (@eq nat); [now apply crel_idx|]. intros a a' <-. obind (@eq nat); [now apply crel_idx|]. intros b b' <-. now apply unify_m_sim.
Qed.
Lemma args_equal_sim e1 e2 : (forall a b, orel eq (e1 a b) (e2 a b)) -> forall n a b, orel eq (args_equal e1 n a b) (args_equal e2 n a b).
Proof.
  intros E. induction n as [|n IH]; intros a b; cbn; [constructor; auto|]. obind (@eq bool); [apply E|]. intros r r' <-. destruct r; [apply IH|constructor; auto].
Qed.
(** an unbound reference found by following references refers to itself *)
Lemma deref_ref H (ops : hops H) h a d b v : deref H ops h a = Val d -> at_ H ops h d = Val (CRef b v) -> b = d.
Proof.
  unfold deref. generalize (S (h_size ops h)). intros n. revert a. induction n as [|n IH]; intros a E At; cbn in E; [discriminate E|].
  destruct (at_ H ops h a) as [c|u|] eqn:Ea; cbn in E; try discriminate E.
  destruct c as [i|i|r w|i ar|i ar|r]; try (injection E as <-; rewrite Ea in At; discriminate At);
    destruct (Nat.eqb_spec r a) as [->|Nr]; try (eapply IH; eauto; fail); injection E as <-; rewrite Ea in At; [injection At as <- _; reflexivity|discriminate At].
Qed.
Lemma deref_sim' h1 h2 a : HR h1 h2 -> orel (fun d e => d = e /\ deref H1 ops1 h1 a = Val d /\ deref H2 ops2 h2 a = Val e) (deref H1 ops1 h1 a) (deref H2 ops2 h2 a).
Proof. intros h. pose proof (deref_sim h1 h2 a h) as K0. destruct K0; constructor; auto. Qed.
Lemma equals_sim h1 h2 : HR h1 h2 -> forall fuel a b, orel eq (heap_reg_equals H1 ops1 fuel h1 a b) (heap_reg_equals H2 ops2 fuel h2 a b).
Proof.
  intros h. induction fuel as [|f IH]; intros a b; cbn; [constructor|].
  eapply orel_bind; [now apply deref_sim'|]. intros d1 d1' (<- & D1 & D1'). eapply orel_bind; [now apply deref_sim'|]. intros d2 d2' (<- & D2 & D2').
  eapply orel_bind; [now apply at_sim'|]. intros c1 c1' (Q1 & A1 & A1'). eapply orel_bind; [now apply at_sim'|]. intros c2 c2' (Q2 & A2 & A2').
  assert (EB : cell_eqb c1 c2 = cell_eqb c1' c2').
  { pose proof (crel_eqb c1 c2 c1' c2' (to_uniq _ _ TO) Q1 Q2) as EB. destruct Q1; try (apply EB; discriminate).
    destruct Q2; auto. pose proof (deref_ref _ _ _ _ _ _ _ D1 A1) as ->. pose proof (deref_ref _ _ _ _ _ _ _ D2 A2) as ->. cbn.
    destruct (Nat.eqb_spec d1 d2) as [->|]; [|reflexivity]. rewrite A1 in A2. injection A2 as ->. rewrite A1' in A2'. injection A2' as ->. now rewrite !Z.eqb_refl. }
  rewrite <- EB. destruct (cell_eqb c1 c2); [|constructor; auto]. destruct Q1; try (constructor; auto); apply args_equal_sim, IH.
Qed.
Lemma apply_op_sim i l r : apply_op cf1 i l r = apply_op cf2 i l r.
Proof. unfold apply_op. now rewrite POW. Qed.
Definition ev_rel (a b : evres) : Prop := match a, b with EvInt n, EvInt m => n = m | EvErr e, EvErr f => errel lax e f | _, _ => False end.
Lemma raw_sim c d : (forall i j, F i j -> i = j) -> crel c d -> raw_index c = raw_index d.
Proof. intros E []; cbn; auto. Qed.
Lemma err_sim h1 h2 i j : isok -> HR h1 h2 -> F i j ->
  orel ev_rel (fv <- err_functor H1 ops1 sto1 h1 i ;; Val (EvErr (ENotArith fv))) (fv <- err_functor H2 ops2 sto2 h2 j ;; Val (EvErr (ENotArith fv))).
Proof.
  intros Is h q. destruct (to_err _ _ TO Is) as [L|[E Eq]].
  - assert (NF1 : err_functor H1 ops1 sto1 h1 i <> Fuel).
    { unfold err_functor, at_. destruct (i <? 0)%Z; [discriminate|]. destruct (h_at ops1 h1 _); cbn; [|discriminate]. destruct (nthZ _ _); discriminate. }
    assert (NF2 : err_functor H2 ops2 sto2 h2 j <> Fuel).
    { unfold err_functor, at_. destruct (j <? 0)%Z; [discriminate|]. destruct (h_at ops2 h2 _); cbn; [|discriminate]. destruct (nthZ _ _); discriminate. }
    destruct (err_functor H1 ops1 sto1 h1 i), (err_functor H2 ops2 sto2 h2 j); try contradiction; cbn; try (constructor; auto; fail). constructor. right. eauto.
  - obind (@eq fview); [|intros f g <-; constructor; left; reflexivity]. pose proof (E i j q) as <-. unfold err_functor. destruct (i <? 0)%Z; [constructor|].
    obind crel; [now apply at_sim|]. intros c d Q. rewrite (raw_sim c d E Q).
    rewrite Eq. apply orel_opt. destruct (nthZ _ _); constructor; auto.
Qed.
Lemma eval_sim h1 h2 : isok -> HR h1 h2 -> forall fuel a, orel ev_rel (eval_reg H1 ops1 cf1 sto1 fuel h1 a) (eval_reg H2 ops2 cf2 sto2 fuel h2 a).
Proof.
  intros Is h. induction fuel as [|f IH]; intros a; cbn; [constructor|]. obind (@eq nat); [now apply deref_sim|]. intros d d' <-. obind crel; [now apply at_sim|].
  intros c c' Q; destruct Q as [i j q|n|b v w q|i j n q|i n|b].
  - now apply err_sim.
  - constructor. reflexivity.
  - rewrite (to_V _ _ TO _ _ q). destruct (nthZ (s_vars sto2) w); cbn; constructor. left. reflexivity.
  - now apply err_sim.
  - obind ev_rel; [apply IH|]. intros [l|e] [l'|e'] L; cbn in L; try contradiction; [subst l'|constructor; exact L].
    obind ev_rel; [apply IH|]. intros [r|e] [r'|e'] Q; cbn in Q; try contradiction; [subst r'|constructor; exact Q].
    destruct (Z.eqb i 4 && Z.eqb r 0)%bool; [constructor; left; reflexivity|]. rewrite apply_op_sim. destruct (apply_op cf2 i l r); cbn; constructor. reflexivity.
  - constructor.
Qed.
Lemma is_sim fuel rs m1 m2 x y : isok -> mrel rs m1 m2 -> orel (step_rel rs) (is_pred H1 ops1 cf1 sto1 fuel m1 x y) (is_pred H2 ops2 cf2 sto2 fuel m2 x y).
Proof.
  intros Is M. unfold is_pred. obind crel; [eapply rreg_sim; eauto|]. intros r r' Q. obind (@eq nat); [now apply crel_idx|]. intros b b' <-.
  obind ev_rel; [apply eval_sim; auto; apply M|]. intros [n|e] [n'|e'] E; cbn in E; try contradiction; [subst n'|constructor; split; auto].
  obind crel; [eapply rreg_sim; eauto|]. intros r1 r1' Q1. obind (@eq nat); [now apply crel_idx|]. intros a a' <-. obind (@eq nat); [apply deref_sim, M|]. intros d d' <-.
  obind crel; [apply at_sim, M|]. intros c c' Qc; destruct Qc; try (apply failing, M).
  - destruct (Z.eqb n0 n); [apply cont, M|apply failing, M].
  - eapply push_bind; eauto; [constructor|]. intros h h' Hh. apply cont, heap_sim; auto. apply push_sim; auto. constructor.
Qed.
Lemma push_ref_sim rs m1 m2 v w : mrel rs m1 m2 -> V v w ->
  mrel rs (fst (push_ref H1 ops1 m1 v)) (fst (push_ref H2 ops2 m2 w)) /\ crel (snd (push_ref H1 ops1 m1 v)) (snd (push_ref H2 ops2 m2 w)).
Proof. intros M q. unfold push_ref. cbn. rewrite (hsize_sim _ _ _ M). assert (crel (CRef (hsize H2 ops2 m2) v) (CRef (hsize H2 ops2 m2) w)) by now constructor. split; auto. now apply push_sim. Qed.
Theorem local_sim fuel rs i1 i2 m1 m2 : irel (top rs) i1 i2 -> mrel rs m1 m2 ->
  orel (step_rel rs) (local_step H1 ops1 cf1 sto1 fuel i1 m1) (local_step H2 ops2 cf2 sto2 fuel i2 m2).
Proof.
  assert (Ok : forall x y, orel (mrel rs) x y -> orel (step_rel rs) (m <- x ;; Val (Cont, m)) (m <- y ;; Val (Cont, m)))
    by (intros x y Q; obind (mrel rs); [exact Q|]; intros; now apply cont).
  assert (W : forall x, wr_ok rs (wreg H1) (wreg H2) x x) by (intros x m m' c d A B; now apply wreg_sim).
  assert (WP : forall y z, top rs y z -> wr_ok rs (wperm H1) (wperm H2) y z) by (intros y z R m m' c d A B; now apply wperm_sim).
  intros I M. destruct I; cbn [local_step].
  - pose proof (push_sim _ _ _ _ _ M H) as M'. rewrite (hsize_sim _ _ _ M'). apply Ok, W; auto. constructor.
  - destruct (push_ref_sim rs m1 m2 v w M H) as [A B]. destruct (push_ref H1 ops1 m1 v), (push_ref H2 ops2 m2 w). cbn in A, B. apply Ok, W; auto.
  - destruct (push_ref_sim rs m1 m2 v w M H0) as [A B]. destruct (push_ref H1 ops1 m1 v), (push_ref H2 ops2 m2 w). cbn in A, B. apply Ok, WP; auto.
  - obind crel; [eapply rreg_sim; eauto|]. intros c d Q. apply cont, push_sim; auto.
  - obind crel; [eapply rperm_sim; eauto|]. intros c d Q. apply cont, push_sim; auto.
  - now apply get_structure_sim.
  - now apply unify_structure_sim.
  - now apply unify_variable_sim.
  - apply unify_variable_sim; auto.
  - obind crel; [eapply rreg_sim; eauto|]. intros c d Q. now apply unify_value_sim.
  - obind crel; [eapply rperm_sim; eauto|]. intros c d Q. now apply unify_value_sim.
  - destruct (push_ref_sim rs m1 m2 v w M H) as [A B]. destruct (push_ref H1 ops1 m1 v), (push_ref H2 ops2 m2 w). cbn in A, B.
    obind (mrel rs); [apply W; auto|]. intros. apply Ok, W; auto.
  - destruct (push_ref_sim rs m1 m2 v w M H0) as [A B]. destruct (push_ref H1 ops1 m1 v), (push_ref H2 ops2 m2 w). cbn in A, B.
    obind (mrel rs); [apply WP; auto|]. intros. apply Ok, W; auto.
  - obind crel; [eapply rreg_sim; eauto|]. intros c d Q. apply Ok, W; auto.
  - obind crel; [eapply rperm_sim; eauto|]. intros c d Q. apply Ok, W; auto.
  - obind crel; [eapply rreg_sim; eauto|]. intros c d Q. apply Ok, W; auto.
  - obind crel; [eapply rreg_sim; eauto|]. intros c d Q. apply Ok, WP; auto.
  - obind crel; [eapply rreg_sim; eauto|]. intros c d Q. obind crel; [eapply rreg_sim; eauto|]. intros c' d' Q'. now apply get_value_sim.
  - obind crel; [eapply rperm_sim; eauto|]. intros c d Q. obind crel; [eapply rreg_sim; eauto|]. intros c' d' Q'. now apply get_value_sim.
  - now apply is_sim.
  - unfold equals_check. obind crel; [eapply rreg_sim; eauto|]. intros c d Q. obind (@eq nat); [now apply crel_idx|]. intros a a' <-.
    obind crel; [eapply rreg_sim; eauto|]. intros c' d' Q'. obind (@eq nat); [now apply crel_idx|]. intros b b' <-.
    obind (@eq bool); [apply equals_sim, M|]. intros r r' <-. destruct r; [now apply cont|now apply failing].
  - unfold not_equals_check, equals_check.
    eapply (orel_bind lax (step_rel rs)).
    + obind crel; [eapply rreg_sim; eauto|]. intros c d Q. obind (@eq nat); [now apply crel_idx|]. intros a a' <-.
      obind crel; [eapply rreg_sim; eauto|]. intros c' d' Q'. obind (@eq nat); [now apply crel_idx|]. intros b b' <-.
      obind (@eq bool); [apply equals_sim, M|]. intros r r' <-. destruct r; [now apply cont|now apply failing].
    + intros [[] n1] [[] n2] [A B]; cbn in A, B; try contradiction; constructor; split; auto; cbn; auto.
Qed.

(** printing *)
Lemma str_args_sim p1 p2 : (forall k, orel eq (p1 k) (p2 k)) -> forall n k, orel eq (str_args p1 n k) (str_args p2 n k).
Proof.
  intros P. induction n as [|n IH]; intros k; cbn; [apply P|]. obind (@eq string); [apply P|]. intros a a' <-. obind (@eq string); [apply IH|]. intros r r' <-. constructor; auto.
Qed.
Lemma str_sim h1 h2 users : HR h1 h2 -> forall fuel b i, orel eq (str_of H1 ops1 sto1 fuel h1 users b i) (str_of H2 ops2 sto2 fuel h2 users b i).
Proof.
  intros h. induction fuel as [|f IH]; intros b i; cbn [str_of]; [constructor|]. obind (@eq nat); [now apply deref_sim|]. intros d d' <-. obind crel; [now apply at_sim|].
  intros c c' Q; destruct Q as [k j q|n|r v w q|k j n q|k n|r].
  - rewrite (to_F _ _ TO _ _ q). destruct (nthZ (s_functors sto2) j); cbn; constructor; auto.
  - constructor; auto.
  - rewrite (to_V _ _ TO _ _ q). destruct (nthZ (s_vars sto2) w); cbn; constructor; auto.
  - rewrite (to_F _ _ TO _ _ q). destruct (nthZ (s_functors sto2) j) as [fv|]; cbn [of_opt bind]; [|constructor].
    destruct (fv_is_empty_list fv); [constructor; auto|]. destruct (fv_is_append fv); [constructor|]. destruct (fv_is_list fv).
    + obind (@eq string); [apply IH|]. intros hd hd' <-. obind (@eq nat); [now apply deref_sim|]. intros rd rd' <-. obind crel; [now apply at_sim|]. intros rc rc' Qc.
      obind (@eq string); [apply IH|]. intros rest rest' <-.
      assert ((match rc with CRef _ _ => "|" | _ => "," end) = (match rc' with CRef _ _ => "|" | _ => "," end)) as -> by now destruct Qc.
      destruct b; [constructor; auto|]. set (y := ("[" ++ _)%string). destruct (set_last y "]"); constructor; auto.
    + obind (@eq string); [|intros a a' <-; constructor; auto]. destruct (fv_arity fv); [apply IH|]. now apply str_args_sim.
  - destruct (op_name k); cbn [of_opt bind]; [|constructor]. obind (@eq string); [apply IH|]. intros x x' <-. obind (@eq string); [apply IH|]. intros y y' <-. constructor; auto.
  - constructor.
Qed.
Lemma bind_names_sim p1 p2 : (forall a, orel eq (p1 a) (p2 a)) -> forall l done, orel eq (bind_names p1 l done) (bind_names p2 l done).
Proof.
  intros P. induction l as [|[nm a] l IH]; intros done; cbn; [constructor; auto|]. destruct (existsb _ done); [apply IH|].
  obind (@eq string); [apply P|]. intros s s' <-. apply IH.
Qed.
End Machine.
End Rel.
