(** Chains of operators of equal priority: nested to the right, and what becomes of their values. *)
From Verif Require Import Base Machine Compiler Parser ParserFacts Texts Grammar Roundtrip Exprs Spec Arith.
Open Scope string_scope.
Open Scope list_scope.

(** a chain: the first operand, and the operators each with its operand *)
Fixpoint nest_right (v : node) (l : list (string * node)) : node :=
  match l with
  | [] => v
  | (o, w) :: l' => NEv o [v; nest_right w l']
  end.
Fixpoint nest_left (v : node) (l : list (string * node)) : node :=
  match l with
  | [] => v
  | (o, w) :: l' => nest_left (NEv o [v; w]) l'
  end.
(** [chain_writes p ops s v l u]: the text [s] of [v] continued by the operators and the texts of the operands, of a higher priority than [p] *)
Inductive chain_writes (p : nat) (ops : list string) : string -> node -> list (string * node) -> string -> Prop :=
| cw_one v s : writes (S p) v s -> chain_writes p ops s v [] s
| cw_next v s b o w l t u : writes (S p) v s -> blank b -> In o ops -> chain_writes p ops t w l u ->
    chain_writes p ops s v ((o, w) :: l) (s +++ b +++ o +++ u).
Lemma chain_sum s v l u : chain_writes 1 ["+"; "-"] s v l u -> writes 1 (nest_right v l) u.
Proof.
  induction 1 as [v s W|v s b o w l t u W B Ho C IH]; [apply (writes_le 2); [exact W|lia]|]. cbn [nest_right]. apply w_add; auto.
Qed.
Lemma chain_product s v l u : chain_writes 2 ["*"; "//"] s v l u -> writes 2 (nest_right v l) u.
Proof.
  induction 1 as [v s W|v s b o w l t u W B Ho C IH]; [apply (writes_le 3); [exact W|lia]|]. cbn [nest_right]. apply w_mul; auto.
Qed.
Theorem chain_nested s v l u n : chain_writes 1 ["+"; "-"] s v l u \/ chain_writes 2 ["*"; "//"] s v l u ->
  (writes 1 n u <-> n = nest_right v l).
Proof.
  intros H. assert (W : writes 1 (nest_right v l) u) by (destruct H as [H|H]; [exact (chain_sum _ _ _ _ H)|apply (writes_le 2); [exact (chain_product _ _ _ _ H)|lia]]).
  split; [intros K; exact (writes_unique _ _ _ K W)|now intros ->].
Qed.

(** the terms of integer operands *)
Fixpoint tnest_right (o : string) (a : Z) (l : list Z) : tm :=
  match l with [] => TInt a | b :: l' => TEv o [TInt a; tnest_right o b l'] end.
Fixpoint tnest_left (o : string) (t : tm) (l : list Z) : tm :=
  match l with [] => t | b :: l' => tnest_left o (TEv o [t; TInt b]) l' end.
Definition fold_op (o : string) (a : Z) (l : list Z) : Z := fold_left (if o =? "+" then Z.add else Z.mul) l a.
Lemma fold_op_cons o a b l : o = "+" \/ o = "*" -> fold_op o a (b :: l) = (if o =? "+" then (a + fold_op o b l)%Z else (a * fold_op o b l)%Z).
Proof.
  intros Ho. unfold fold_op. revert a b. induction l as [|c l IH]; intros a b; [destruct Ho as [-> | ->]; reflexivity|].
  cbn [fold_left] in *. rewrite IH. rewrite (IH b c). destruct Ho as [-> | ->]; cbn [String.eqb Ascii.eqb Bool.eqb]; ring.
Qed.
(** for + and for * it makes no difference *)
Theorem chain_value o a l z : o = "+" \/ o = "*" -> exact_value (tnest_right o a l) = Some z -> z = fold_op o a l.
Proof.
  intros Ho. revert a z. induction l as [|b l IH]; intros a z E; [cbn in E; injection E as <-; reflexivity|].
  cbn [tnest_right exact_value] in E. destruct (exact_value (tnest_right o b l)) as [y|] eqn:F; [|discriminate E]. apply IH in F. subst y.
  rewrite (fold_op_cons o a b l Ho). destruct Ho as [-> | ->]; cbn [String.eqb Ascii.eqb Bool.eqb] in *;
    destruct (_ && _)%bool; congruence.
Qed.
Theorem left_value o a l z : o = "+" \/ o = "*" -> exact_value (tnest_left o (TInt a) l) = Some z -> z = fold_op o a l.
Proof.
  intros Ho. assert (G : forall l t z, exact_value (tnest_left o t l) = Some z -> exists y, exact_value t = Some y /\ z = fold_op o y l).
  { clear a l z. induction l as [|b l IH]; intros t z E; [cbn in E; exists z; split; [exact E|reflexivity]|].
    cbn [tnest_left] in E. destruct (IH _ _ E) as (y & Ey & ->). cbn [exact_value] in Ey. destruct (exact_value t) as [x|]; [|discriminate Ey].
    exists x. split; [reflexivity|]. unfold fold_op. cbn [fold_left].
    destruct Ho as [-> | ->]; cbn [String.eqb Ascii.eqb Bool.eqb] in *; destruct (_ && _)%bool; try discriminate Ey; congruence. }
  intros E. destruct (G l (TInt a) z E) as (y & Ey & ->). cbn in Ey. congruence.
Qed.
