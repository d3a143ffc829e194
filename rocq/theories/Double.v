(** The model computes + - * and // of [is] with integers ([apply_op], Machine.v) where the code computes with doubles
    and truncates (arith_functor.cpp 28-34, expr_evaluator.cpp 50-57). Here: both give the same for every rounding to
    nearest, whatever the rule for ties. *)
From Verif Require Import Base Machine.
From Coq Require Import Zquot.
Local Open Scope Z_scope.

(** a finite double m*2^e *)
Definition is_double (m e : Z) : Prop := Z.abs m < 2 ^ 53 /\ -1074 <= e <= 971.
(** its value in units of 2^-1074 *)
Definition ulps (m e : Z) : Z := m * 2 ^ (e + 1074).
(** m*2^e is a double nearest to x/y *)
Definition nearest (x y m e : Z) : Prop :=
  is_double m e /\
  forall m' e', is_double m' e' -> Z.abs (ulps m e * y - x * 2 ^ 1074) <= Z.abs (ulps m' e' * y - x * 2 ^ 1074).
Definition int32 (z : Z) : Prop := -2147483648 <= z <= 2147483647.

(** (int) of a double *)
Definition cast (v : fval) : out Z := match trunc_fval v with Some z => to_int z | None => Ub UCast end.

Lemma trunc_ulps m e : is_double m e -> trunc_fval (FFin m e) = Some (Z.quot (ulps m e) (2 ^ 1074)).
Proof.
  intros [_ He]. cbn [trunc_fval]. f_equal. unfold ulps. destruct (Z.leb_spec 0 e) as [H|H].
  - rewrite Z.pow_add_r by lia. rewrite Z.mul_assoc. rewrite Z.quot_mul; [reflexivity|].
    pose proof (Z.pow_pos_nonneg 2 1074 ltac:(lia) ltac:(lia)). lia.
  - replace 1074 with ((e + 1074) + - e) at 2 by lia. rewrite (Z.pow_add_r 2 (e + 1074) (- e)) by lia.
    rewrite (Z.mul_comm (2 ^ (e + 1074))). rewrite Z.quot_mul_cancel_r; [reflexivity| |];
      match goal with |- 2 ^ ?k <> 0 => pose proof (Z.pow_pos_nonneg 2 k ltac:(lia) ltac:(lia)) end; lia.
Qed.

Section Nearest.
Notation U := (2 ^ 1074).
Lemma U_pos : 0 < U. Proof. apply Z.pow_pos_nonneg; lia. Qed.

(** integers are doubles *)
Lemma int_double n : Z.abs n < 2 ^ 53 -> is_double n 0 /\ ulps n 0 = n * U.
Proof. intros H. split; [split; [assumption|lia]|reflexivity]. Qed.
Lemma big_double : is_double (2 ^ 52) 1 /\ ulps (2 ^ 52) 1 = 2 ^ 53 * U.
Proof. split; [split; [reflexivity|lia]|]. unfold ulps. rewrite Z.pow_add_r by lia. rewrite Z.mul_assoc. reflexivity. Qed.

Lemma nearest_opp x y m e : nearest x y m e -> nearest (- x) y (- m) e.
Proof.
  intros [[D1 D2] N]. split; [split; [rewrite Z.abs_opp; assumption|assumption]|].
  intros m' e' [D1' D2']. specialize (N (- m') e'). unfold ulps in *.
  replace (- m * 2 ^ (e + 1074) * y - - x * U) with (- (m * 2 ^ (e + 1074) * y - x * U)) by ring.
  replace (m' * 2 ^ (e' + 1074) * y - - x * U) with (- (- m' * 2 ^ (e' + 1074) * y - x * U)) by ring.
  rewrite !Z.abs_opp. apply N. split; [rewrite Z.abs_opp; assumption|assumption].
Qed.

Lemma nearest_int x m e : Z.abs x < 2 ^ 53 -> nearest x 1 m e -> ulps m e = x * U.
Proof.
  intros H [_ N]. destruct (int_double x H) as [D E]. specialize (N x 0 D). rewrite E in N.
  rewrite !Z.mul_1_r, Z.sub_diag in N. cbn in N. lia.
Qed.
Lemma nearest_big x m e : 2 ^ 53 <= x -> nearest x 1 m e -> 2 ^ 53 * U <= ulps m e.
Proof.
  intros H [_ N]. destruct big_double as [D E]. specialize (N (2 ^ 52) 1 D). rewrite E in N. rewrite !Z.mul_1_r in N.
  assert (2 ^ 53 * U <= x * U) by (apply Z.mul_le_mono_nonneg_r; [apply Z.lt_le_incl, U_pos|assumption]). lia.
Qed.

Lemma quot_ge v n : 0 <= n -> n * U <= v -> n <= Z.quot v U.
Proof. intros Hn H. apply Z.quot_le_lower_bound; [apply U_pos|]. rewrite Z.mul_comm. exact H. Qed.

(** one integer operation *)
Lemma cast_int x m e : nearest x 1 m e -> cast (FFin m e) = to_int x.
Proof.
  intros N. pose proof (proj1 N) as D. unfold cast. rewrite (trunc_ulps _ _ D). pose proof U_pos as HU.
  destruct (Z_lt_le_dec (Z.abs x) (2 ^ 53)) as [H|H].
  - rewrite (nearest_int _ _ _ H N), Z.quot_mul by lia. reflexivity.
  - destruct (Z_le_gt_dec 0 x) as [P|P].
    + rewrite Z.abs_eq in H by lia. pose proof (quot_ge (ulps m e) (2 ^ 53) ltac:(lia) (nearest_big _ _ _ H N)) as Q.
      unfold to_int. change (2 ^ 53) with 9007199254740992 in *.
      replace (Z.quot (ulps m e) U <=? 2147483647) with false by (symmetry; apply Z.leb_gt; lia).
      replace (x <=? 2147483647) with false by (symmetry; apply Z.leb_gt; lia). now rewrite !andb_false_r.
    + rewrite Z.abs_neq in H by lia. apply nearest_opp in N.
      pose proof (quot_ge (ulps (- m) e) (2 ^ 53) ltac:(lia) (nearest_big _ _ _ H N)) as Q.
      assert (E : ulps (- m) e = - ulps m e) by (unfold ulps; ring). rewrite E, Z.quot_opp_l in Q by lia.
      unfold to_int. change (2 ^ 53) with 9007199254740992 in *.
      replace (-2147483648 <=? Z.quot (ulps m e) U) with false by (symmetry; apply Z.leb_gt; lia).
      replace (-2147483648 <=? x) with false by (symmetry; apply Z.leb_gt; lia). reflexivity.
Qed.

(** the least power of two that is not smaller than y *)
Lemma pow2_above y : 0 < y <= 2 ^ 31 -> exists k, 0 <= k <= 31 /\ y <= 2 ^ k /\ 2 ^ k <= 2 * y.
Proof.
  intros [H1 H2]. exists (Z.log2_up y). pose proof (Z.log2_up_nonneg y) as N.
  assert (L : Z.log2_up y <= 31).
  { transitivity (Z.log2_up (2 ^ 31)); [now apply Z.log2_up_le_mono|]. rewrite Z.log2_up_pow2 by lia. lia. }
  destruct (Z.eq_dec y 1) as [->|Hy]; [cbn; lia|].
  pose proof (Z.log2_up_spec y ltac:(lia)) as [S1 S2]. split; [lia|]. split; [assumption|].
  assert (P : 0 < Z.log2_up y) by (apply Z.log2_up_pos; lia).
  replace (Z.log2_up y) with (Z.succ (Z.pred (Z.log2_up y))) by lia. rewrite Z.pow_succ_r by lia. lia.
Qed.

Lemma quot_pos l r m e : 0 <= l <= 2 ^ 31 -> 0 < r <= 2 ^ 31 -> nearest l r m e -> Z.quot (ulps m e) U = l / r.
Proof.
  intros Hl Hr [D N]. set (n := l / r). pose proof U_pos as HU.
  pose proof (Z.div_pos l r ltac:(lia) ltac:(lia)) as Hn. fold n in Hn.
  pose proof (Z.mul_div_le l r ltac:(lia)) as B1. fold n in B1.
  pose proof (Z.mul_succ_div_gt l r ltac:(lia)) as B2. fold n in B2.
  assert (Hnl : n <= l) by nia.
  change (2 ^ 31) with 2147483648 in *.
  (* not below n *)
  assert (Lo : n * U <= ulps m e).
  { destruct (int_double n ltac:(change (2 ^ 53) with 9007199254740992; lia)) as [Dn En]. specialize (N n 0 Dn). rewrite En in N.
    destruct (Z_le_gt_dec (n * U) (ulps m e)) as [|G]; [assumption|exfalso].
    assert (A1 : ulps m e * r < n * U * r) by nia. assert (A2 : n * U * r <= l * U) by nia. lia. }
  (* below n+1 *)
  assert (Hi : ulps m e < (n + 1) * U).
  { destruct (pow2_above r) as (k & Hk & Ra & Rb); [change (2 ^ 31) with 2147483648; lia|].
    set (m' := (n + 1) * 2 ^ k - 1).
    assert (K0 : 0 < 2 ^ k) by (apply Z.pow_pos_nonneg; lia).
    assert (Dm : is_double m' (- k)).
    { split; [|lia]. unfold m'. change (2 ^ 53) with 9007199254740992. rewrite Z.abs_eq by nia. nia. }
    specialize (N m' (- k) Dm).
    assert (E : ulps m' (- k) * 2 ^ k = ((n + 1) * 2 ^ k - 1) * U).
    { unfold ulps, m'. rewrite <- Z.mul_assoc, <- Z.pow_add_r by lia. replace (- k + 1074 + k) with 1074 by lia. reflexivity. }
    set (v := ulps m e) in *. set (v' := ulps m' (- k)) in *.
    destruct (Z_lt_le_dec v ((n + 1) * U)) as [|G]; [assumption|exfalso].
    (* q <= v' < (n+1)U <= v *)
    assert (V1 : v' < (n + 1) * U) by nia.
    assert (V2 : l * U <= v' * r).
    { (* l <= (n+1) r - 1 ; v' = (n+1)U - U/2^k *)
      assert (l + 1 <= (n + 1) * r) by nia.
      assert (l * U * 2 ^ k <= v' * r * 2 ^ k).
      { replace (v' * r * 2 ^ k) with (v' * 2 ^ k * r) by ring. rewrite E.
        assert (l * 2 ^ k <= ((n + 1) * 2 ^ k - 1) * r) by nia. nia. }
      nia. }
    assert (V3 : v' * r < v * r) by nia. lia. }
  apply Z.le_antisymm.
  - apply Z.lt_succ_r. apply Z.quot_lt_upper_bound; [nia|assumption|]. rewrite Z.mul_comm. replace (Z.succ n) with (n + 1) by lia. exact Hi.
  - apply quot_ge; assumption.
Qed.
Lemma cast_quot l r m e : int32 l -> int32 r -> r <> 0 ->
  nearest (if r <? 0 then - l else l) (Z.abs r) m e -> cast (FFin m e) = to_int (Z.quot l r).
Proof.
  intros Hl Hr Hz N. pose proof (proj1 N) as D. unfold cast. rewrite (trunc_ulps _ _ D). f_equal. unfold int32 in *.
  change (2 ^ 31) with 2147483648. pose proof U_pos as HU.
  assert (K : forall x y, -2147483648 <= x <= 2147483648 -> 0 < y <= 2147483648 -> nearest x y m e -> Z.quot (ulps m e) U = Z.quot x y).
  { intros x y Hx Hy Nx. destruct (Z_le_gt_dec 0 x) as [P|P].
    - rewrite (quot_pos x y m e); [|lia|lia|assumption]. now rewrite Z.quot_div_nonneg by lia.
    - apply nearest_opp in Nx. pose proof (quot_pos (- x) y (- m) e ltac:(lia) ltac:(lia) Nx) as Q.
      assert (E : ulps (- m) e = - ulps m e) by (unfold ulps; ring). rewrite E, Z.quot_opp_l in Q by lia.
      rewrite <- Z.quot_div_nonneg, Z.quot_opp_l in Q by lia. lia. }
  destruct (Z.ltb_spec r 0) as [L|L].
  - rewrite (K (- l) (Z.abs r)); [|lia|lia|assumption]. rewrite Z.abs_neq by lia. now rewrite Z.quot_opp_opp by lia.
  - rewrite (K l (Z.abs r)); [|lia|lia|assumption]. now rewrite Z.abs_eq by lia.
Qed.
End Nearest.

(** The exact result of operator [i] as a fraction with positive denominator. *)
Definition exact_num (i l r : Z) : Z :=
  match i with 1 => l + r | 2 => l - r | 3 => l * r | _ => if r <? 0 then - l else l end.
Definition exact_den (i r : Z) : Z := match i with 4 => Z.abs r | _ => 1 end.

Theorem doubles_agree cf i l r m e : int32 l -> int32 r -> 1 <= i <= 4 -> (i = 4 -> r <> 0) ->
  nearest (exact_num i l r) (exact_den i r) m e -> cast (FFin m e) = apply_op cf i l r.
Proof.
  intros Hl Hr Hi Hz N. assert (C : i = 1 \/ i = 2 \/ i = 3 \/ i = 4) by lia.
  destruct C as [->|[->|[->| ->]]]; cbn [exact_num exact_den apply_op] in *; try (now apply cast_int). now apply cast_quot; auto.
Qed.
Example doubles_agree_met : nearest (exact_num 4 7 (-2)) (exact_den 4 (-2)) (-7) (-1).
Proof. split; [split; [reflexivity|lia]|]. intros m' e' _. vm_compute (Z.abs (ulps (-7) (-1) * _ - _)). apply Z.abs_nonneg. Qed.
