(** Facts about vectors and outcomes. *)
From Verif Require Import Base Machine Heap.

Lemma upd_length {A} (l : list A) : forall i a l', upd l i a = Some l' -> List.length l' = List.length l.
Proof.
  induction l as [|b l IH]; intros [|i] a l' H; cbn in H; try discriminate.
  - injection H as <-. reflexivity.
  - destruct (upd l i a) as [l1|] eqn:E; [|discriminate]. injection H as <-. cbn. f_equal. eauto.
Qed.
Lemma upd_nth {A} (l : list A) : forall i a l' j, upd l i a = Some l' ->
  nth_error l' j = if Nat.eqb j i then Some a else nth_error l j.
Proof.
  induction l as [|b l IH]; intros [|i] a l' j H; cbn in H; try discriminate.
  - injection H as <-. destruct j; reflexivity.
  - destruct (upd l i a) as [l1|] eqn:E; [|discriminate]. injection H as <-.
    destruct j as [|j]; cbn; [reflexivity|]. eauto.
Qed.
Lemma upd_some {A} (l : list A) : forall i a, i < List.length l -> exists l', upd l i a = Some l'.
Proof.
  induction l as [|b l IH]; intros [|i] a H; cbn in *; try lia.
  - eauto.
  - destruct (IH i a) as [l' ->]; [lia|]. cbn. eauto.
Qed.
Lemma upd_none {A} (l : list A) : forall i a, List.length l <= i -> upd l i a = None.
Proof.
  induction l as [|b l IH]; intros [|i] a H; cbn in *; try lia; try reflexivity.
  rewrite IH by lia. reflexivity.
Qed.
Lemma upd_lt {A} (l : list A) i a l' : upd l i a = Some l' -> i < List.length l.
Proof.
  intros H. destruct (Nat.lt_ge_cases i (List.length l)) as [|Hge]; [assumption|].
  rewrite upd_none in H by assumption. discriminate.
Qed.

Lemma nth_error_lt {A} (l : list A) i a : nth_error l i = Some a -> i < List.length l.
Proof. intros H. apply nth_error_Some. rewrite H. discriminate. Qed.
Lemma nth_error_snoc {A} (l : list A) a i :
  nth_error (l ++ [a]) i = if Nat.eqb i (List.length l) then Some a else nth_error l i.
Proof.
  destruct (Nat.eqb_spec i (List.length l)) as [->|Hne].
  - rewrite nth_error_app2 by lia. rewrite Nat.sub_diag. reflexivity.
  - destruct (Nat.lt_ge_cases i (List.length l)) as [Hlt|Hge].
    + now rewrite nth_error_app1.
    + rewrite nth_error_app2 by lia. destruct (i - List.length l) as [|[|k]] eqn:E; try lia; cbn.
      * symmetry. now apply nth_error_None.
      * symmetry. now apply nth_error_None.
Qed.

Lemma bind_val {A B} (m : out A) (f : A -> out B) b :
  bind m f = Val b -> exists a, m = Val a /\ f a = Val b.
Proof. destruct m; cbn; try discriminate. eauto. Qed.
Lemma of_opt_val {A} u (o : option A) a : of_opt u o = Val a -> o = Some a.
Proof. destruct o; cbn; congruence. Qed.

Ltac inv_bind H :=
  let a := fresh "v" in let Ha := fresh "Hv" in
  apply bind_val in H; destruct H as [a [Ha H]].

(** Related outcomes. *)
Definition out_rel {A B} (R : A -> B -> Prop) (x : out A) (y : out B) : Prop :=
  match x, y with
  | Val a, Val b => R a b
  | Ub u, Ub w => u = w
  | Fuel, Fuel => True
  | _, _ => False
  end.
Lemma out_rel_bind {A B C D} (R : A -> B -> Prop) (S : C -> D -> Prop) x y f g :
  out_rel R x y -> (forall a b, R a b -> out_rel S (f a) (g b)) -> out_rel S (bind x f) (bind y g).
Proof. destruct x, y; cbn; intros H K; try contradiction; auto. Qed.
Lemma out_rel_eq {A} (x : out A) : out_rel eq x x.
Proof. destruct x; cbn; auto. Qed.
Lemma out_rel_eq_inv {A} (x y : out A) : out_rel eq x y -> x = y.
Proof. destruct x, y; cbn; try contradiction; congruence. Qed.

Global Arguments deref : simpl never.
Global Arguments at_ : simpl never.
Global Arguments bind_ref : simpl never.
Global Arguments hset : simpl never.
Global Arguments eval_reg : simpl nomatch.
Global Arguments err_functor : simpl never.
Global Arguments unify_loop : simpl nomatch.

Lemma Forall2_impl {A B} (R S : A -> B -> Prop) l k :
  (forall a b, R a b -> S a b) -> Forall2 R l k -> Forall2 S l k.
Proof. intros H K. induction K; constructor; auto. Qed.
