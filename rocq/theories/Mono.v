(** More fuel never changes a result. *)
From Verif Require Import Base Machine Heap Facts Compiler Parser Print Organizer Process.

Definition out_le {A} (x y : out A) : Prop := x = Fuel \/ x = y.
Lemma le_refl {A} (x : out A) : out_le x x.
Proof. now right. Qed.
Lemma le_fuel {A} (y : out A) : out_le Fuel y.
Proof. now left. Qed.
Lemma le_bind {A B} (x y : out A) (f g : A -> out B) :
  out_le x y -> (forall a, out_le (f a) (g a)) -> out_le (bind x f) (bind y g).
Proof. intros [->| ->] H; [now left|]. destruct y; cbn; auto using le_refl. Qed.
Lemma le_val {A} (x y : out A) a : out_le x y -> x = Val a -> y = Val a.
Proof. intros [->| ->] H; [discriminate|assumption]. Qed.
Lemma le_ub {A} (x y : out A) u : out_le x y -> x = Ub u -> y = Ub u.
Proof. intros [->| ->] H; [discriminate|assumption]. Qed.
Lemma le_not_fuel {A} (x y : out A) : out_le x y -> x <> Fuel -> y = x.
Proof. intros [->| ->] H; [contradiction|reflexivity]. Qed.

Ltac mono :=
  repeat first
    [ apply le_refl
    | apply le_bind; [|intros ?]
    | match goal with |- out_le (match ?x with _ => _ end) (match ?x with _ => _ end) => destruct x end
    | solve [auto] ].

Section Mono.
Variable H : Type.
Variable ops : hops H.
Variable cf : cfg.
Variable sto : storage.

Lemma unify_loop_mono n : forall m h pdl, n <= m -> out_le (unify_loop H ops n h pdl) (unify_loop H ops m h pdl).
Proof.
  induction n as [|n IH]; intros m h pdl Hm.
  - destruct pdl as [|a [|b pdl]]; destruct m; cbn [unify_loop]; auto using le_refl, le_fuel.
  - destruct m as [|m]; [lia|]. assert (n <= m) by lia.
    destruct pdl as [|a [|b pdl]]; cbn [unify_loop]; mono.
Qed.
Lemma unify_m_mono n m s a b : n <= m -> out_le (unify_m H ops n s a b) (unify_m H ops m s a b).
Proof. intros Hm. unfold unify_m, unify. apply le_bind; [now apply unify_loop_mono|]. intros [ok h]. apply le_refl. Qed.

Lemma unify_mono n m h a b : n <= m -> out_le (unify H ops n h a b) (unify H ops m h a b).
Proof. apply unify_loop_mono. Qed.

Lemma args_equal_mono f g n : (forall a b, out_le (f a b) (g a b)) ->
  forall a b, out_le (args_equal f n a b) (args_equal g n a b).
Proof. intros Hf. induction n as [|n IH]; intros a b; cbn [args_equal]; mono. Qed.
Lemma heap_reg_equals_mono n : forall m h a b, n <= m ->
  out_le (heap_reg_equals H ops n h a b) (heap_reg_equals H ops m h a b).
Proof.
  induction n as [|n IH]; intros m h a b Hm; [apply le_fuel|].
  destruct m as [|m]; [lia|]. assert (n <= m) by lia. cbn [heap_reg_equals]. mono; apply args_equal_mono; auto.
Qed.
Lemma eval_reg_mono n : forall m h a, n <= m -> out_le (eval_reg H ops cf sto n h a) (eval_reg H ops cf sto m h a).
Proof.
  induction n as [|n IH]; intros m h a Hm; [apply le_fuel|].
  destruct m as [|m]; [lia|]. assert (n <= m) by lia. cbn [eval_reg]. mono.
Qed.

Lemma local_step_mono n m i s : n <= m -> out_le (local_step H ops cf sto n i s) (local_step H ops cf sto m i s).
Proof.
  intros Hm. destruct i; cbn [local_step]; mono;
    unfold unify_value, get_value, is_pred, equals_check, not_equals_check; mono;
    auto using unify_mono, unify_m_mono, eval_reg_mono, heap_reg_equals_mono.
Qed.

Lemma str_args_mono f g n : (forall a, out_le (f a) (g a)) -> forall k, out_le (str_args f n k) (str_args g n k).
Proof. intros Hf. induction n as [|n IH]; intros k; cbn [str_args]; mono. Qed.
Lemma str_of_mono n : forall m h us c a, n <= m ->
  out_le (str_of H ops sto n h us c a) (str_of H ops sto m h us c a).
Proof.
  induction n as [|n IH]; intros m h us c a Hm; [apply le_fuel|].
  destruct m as [|m]; [lia|]. assert (n <= m) by lia. cbn [str_of]. mono.
  apply str_args_mono; auto.
Qed.
Lemma bind_names_mono f g l : (forall a, out_le (f a) (g a)) -> forall d, out_le (bind_names f l d) (bind_names g l d).
Proof. intros Hf. induction l as [|[nm a] l IH]; intros d; cbn [bind_names]; mono. Qed.
End Mono.

Section MonoP.
Variable cf : cfg.
Variable sto : storage.
Variable pg : prog.

Lemma run_local_mono n m is : n <= m -> forall s, out_le (run_local cf sto n is s) (run_local cf sto m is s).
Proof.
  intros Hm. induction is as [|i is IH]; intros s; cbn [run_local]; [apply le_refl|].
  apply le_bind; [now apply local_step_mono|]. intros [st m1]. destruct st; auto using le_refl.
Qed.
Lemma p_turn_mono n m p : n <= m -> out_le (p_turn cf sto n pg p) (p_turn cf sto m pg p).
Proof.
  intros Hm. unfold p_turn. destruct (p_codes p) as [|a rest]; [apply le_refl|].
  apply le_bind; [now apply run_local_mono|]. intros [st m1]. destruct st; try apply le_refl.
  destruct (last (ca_code a) IProceed); try apply le_refl.
  destruct (forallb is_dealloc rest); [|apply le_refl]. apply le_bind; [|intros b; apply le_refl].
  unfold answer_of. apply le_bind; [apply le_refl|]. intros l. apply bind_names_mono. intros k.
  now apply str_of_mono.
Qed.
Lemma p_turn_det n m p r r' : p_turn cf sto n pg p = Val r -> p_turn cf sto m pg p = Val r' -> r = r'.
Proof.
  intros H1 H2. destruct (Nat.le_ge_cases n m) as [L|L].
  - pose proof (le_val _ _ _ (p_turn_mono _ _ p L) H1). congruence.
  - pose proof (le_val _ _ _ (p_turn_mono _ _ p L) H2). congruence.
Qed.
Lemma p_calls_mono n m p : n <= m -> p_turn cf sto n pg p <> Fuel ->
  p_calls cf sto m p = p_calls cf sto n p.
Proof.
  intros Hm. unfold p_turn, p_calls. destruct (p_codes p) as [|a rest]; auto.
  pose proof (run_local_mono n m (removelast (ca_code a)) Hm
                (set_regs (p_m p) (resize (m_regs (p_m p)) (ca_regs a)))) as [E|E]; rewrite E; cbn; [congruence|reflexivity].
Qed.
End MonoP.
