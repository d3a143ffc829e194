(** When ^ is exact: the power and the operands have to be numbers of at most 24 bits times a power of two. *)
From Verif Require Import Base Machine Heap Compiler Parser Print Organizer Spec Valuation Process Session Search Order Runs
  Code Atoms Builtins Terms Arith Examples Refute.
Open Scope string_scope.
Open Scope list_scope.

(** the integers a float holds exactly *)
Definition is_float (z : Z) : Prop := exists m e, (0 <= e /\ Z.abs m <= 16777216 /\ z = m * 2 ^ e)%Z.
(** powf gives an exact result where there is one *)
Definition powf_exact (cf : cfg) : Prop := forall a b, (0 <= b)%Z -> is_float a -> is_float b -> is_float (a ^ b)%Z ->
  trunc_fval (c_powf cf a b) = Some (a ^ b)%Z.
(** the results of powf are floats *)
Definition powf_float (cf : cfg) : Prop := forall a b m e, c_powf cf a b = FFin m e -> (Z.abs m <= 16777216)%Z.

Lemma small_float z : (Z.abs z <= 16777216)%Z -> is_float z.
Proof. intros H. exists z, 0%Z. split; [lia|]. split; [exact H|]. rewrite Z.pow_0_r. lia. Qed.
Lemma trunc_float m e z : (Z.abs m <= 16777216)%Z -> trunc_fval (FFin m e) = Some z -> is_float z.
Proof.
  intros H E. cbn [trunc_fval] in E. destruct (Z.leb_spec 0 e) as [L|L]; injection E as <-.
  - exists m, e. auto.
  - apply small_float. assert (P : (0 < 2 ^ (- e))%Z) by (apply Z.pow_pos_nonneg; lia).
    rewrite <- Z.quot_abs by lia. rewrite (Z.abs_eq (2 ^ (- e))) by lia.
    apply Z.quot_le_upper_bound; [lia|]. nia.
Qed.
Lemma power_float cf i l r z : powf_float cf -> i = 0%Z -> apply_op cf i l r = Val z -> is_float z.
Proof.
  intros F -> H. cbn [apply_op] in H. destruct (c_powf cf l r) as [m e| |] eqn:Hp; try discriminate H.
  apply F in Hp. destruct (trunc_fval (FFin m e)) as [y|] eqn:Hz; [|discriminate H].
  unfold to_int in H. destruct (_ && _)%bool in H; [|discriminate H]. injection H as <-. exact (trunc_float m e y Hp Hz).
Qed.
(** a power that is no float is never computed *)
Theorem power_never cf a b : powf_float cf -> ~ is_float (a ^ b)%Z -> apply_op cf 0 a b <> Val (a ^ b)%Z.
Proof. intros F N H. exact (N (power_float cf 0 a b _ F eq_refl H)). Qed.

Lemma power_calc cf a b : powf_exact cf -> (0 <= b)%Z -> is_float a -> is_float b -> is_float (a ^ b)%Z -> (-2147483648 <= a ^ b <= 2147483647)%Z ->
  calc (pow_of cf) (TEv "^" [TInt a; TInt b]) = Some (inl (a ^ b)%Z).
Proof.
  intros F Hb Fa Fb Fp R. cbn [calc]. unfold operate, pow_of. cbn [String.eqb Ascii.eqb Bool.eqb]. rewrite (F a b Hb Fa Fb Fp).
  unfold fits. assert (B : ((-2147483648 <=? a ^ b) && (a ^ b <=? 2147483647))%Z = true) by (apply andb_true_iff; split; apply Z.leb_le; lia).
  rewrite !B. reflexivity.
Qed.
Section Power.
Variable cf : cfg.
Hypothesis OK : ord_ok cf.
Variable sto : storage.
Notation hp := m_heap.
Theorem is_power p a1 a2 a b u : at_builtin cf sto p "is" a1 a2 -> rd sto (hp (p_m p)) a2 (TEv "^" [TInt a; TInt b]) ->
  powf_exact cf -> (0 <= b)%Z -> is_float a -> is_float b -> is_float (a ^ b)%Z -> (-2147483648 <= a ^ b <= 2147483647)%Z ->
  rd sto (hp (p_m p)) a1 u ->
  exists n0, forall fuel pg, n0 <= fuel ->
    match u with
    | TInt k => if Z.eqb k (a ^ b) then succeeds sto fuel p (hp (p_m p)) (p_turn cf sto fuel pg p) else p_turn cf sto fuel pg p = Val PFails
    | TVar d _ => exists h', succeeds sto fuel p h' (p_turn cf sto fuel pg p) /\ rd sto h' d (TInt (a ^ b)) /\ rd sto h' a1 (TInt (a ^ b)) /\
        forall c, c < List.length (hp (p_m p)) -> c <> d -> nth_error h' c = nth_error (hp (p_m p)) c
    | _ => p_turn cf sto fuel pg p = Val PFails
    end.
Proof.
  intros A R F Hb Fa Fb Fp Rg Ru. exact (is_turn cf OK sto p a1 a2 _ (inl (a ^ b)%Z) u A R (power_calc cf a b F Hb Fa Fb Fp Rg) Ru).
Qed.
End Power.

(** --- rounding to the nearest float is such a powf --- *)
Definition cfg_rn : cfg := {| c_ord := fun l => l; c_powf := powf_rn |}.
Lemma rn_bounds v e : (e = Z.log2 (Z.abs v) - 23)%Z -> (0 < e)%Z -> (2 ^ (e + 23) <= Z.abs v < 2 ^ (e + 24))%Z.
Proof.
  intros -> He. assert (A : (0 < Z.abs v)%Z) by (destruct (Z.eq_dec v 0) as [->|]; [cbn in He; lia|lia]).
  replace (Z.log2 (Z.abs v) - 23 + 23)%Z with (Z.log2 (Z.abs v)) by lia. replace (Z.log2 (Z.abs v) - 23 + 24)%Z with (Z.succ (Z.log2 (Z.abs v))) by lia.
  now apply Z.log2_spec.
Qed.
Lemma rn_float : powf_float cfg_rn.
Proof.
  intros a b m e E. cbn [cfg_rn c_powf] in E. unfold powf_rn in E. set (v := (a ^ b)%Z) in *. set (x := (Z.log2 (Z.abs v) - 23)%Z) in *.
  destruct (Z.leb_spec x 0) as [L|L].
  - injection E as <- <-. destruct (Z.eq_dec v 0) as [->|N]; [cbn; lia|].
    assert (K := Z.log2_spec (Z.abs v) ltac:(lia)). assert (J : (2 ^ Z.succ (Z.log2 (Z.abs v)) <= 2 ^ 24)%Z) by (apply Z.pow_le_mono_r; lia).
    change (2 ^ 24)%Z with 16777216%Z in J. lia.
  - destruct (rn_bounds v x eq_refl L) as [_ H]. replace (x + 24)%Z with (24 + x)%Z in H by lia. rewrite Z.pow_add_r in H by lia. change (2 ^ 24)%Z with 16777216%Z in H.
    assert (P : (0 < 2 ^ x)%Z) by (apply Z.pow_pos_nonneg; lia).
    assert (Q1 : (-16777216 <= v / 2 ^ x)%Z) by (apply Z.div_le_lower_bound; lia).
    assert (Q2 : (v / 2 ^ x < 16777216)%Z) by (apply Z.div_lt_upper_bound; lia).
    injection E as <- <-. destruct (_ ?= _)%Z; try destruct (Z.even _); lia.
Qed.
Lemma rn_exact : powf_exact cfg_rn.
Proof.
  intros a b _ _ _ (m & k & Hk & Hm & E). cbn [cfg_rn c_powf]. unfold powf_rn. set (v := (a ^ b)%Z) in *. set (x := (Z.log2 (Z.abs v) - 23)%Z) in *.
  destruct (Z.leb_spec x 0) as [L|L]; [cbn [trunc_fval]; change (0 <=? 0)%Z with true; cbv iota; rewrite Z.pow_0_r, Z.mul_1_r; reflexivity|].
  assert (P : (0 < 2 ^ x)%Z) by (apply Z.pow_pos_nonneg; lia).
  assert (D : (v mod 2 ^ x = 0)%Z).
  { apply Z.mod_divide; [lia|]. destruct (Z.le_gt_cases x k) as [K|K].
    - exists (m * 2 ^ (k - x))%Z. rewrite <- Z.mul_assoc, <- Z.pow_add_r by lia. replace (k - x + x)%Z with k by lia. exact E.
    - destruct (rn_bounds v x eq_refl L) as [H _]. assert (Pk : (0 < 2 ^ k)%Z) by (apply Z.pow_pos_nonneg; lia).
      rewrite E, Z.abs_mul, (Z.abs_eq (2 ^ k)) in H by lia.
      replace (x + 23)%Z with ((x - k - 1) + 24 + k)%Z in H by lia. rewrite !Z.pow_add_r in H by lia. change (2 ^ 24)%Z with 16777216%Z in H.
      assert (P1 : (0 < 2 ^ (x - k - 1))%Z) by (apply Z.pow_pos_nonneg; lia).
      assert (H2 : (2 ^ (x - k - 1) * 16777216 <= Z.abs m)%Z) by (apply (Z.mul_le_mono_pos_r _ _ (2 ^ k)%Z); lia).
      assert (X1 : (x - k - 1 = 0)%Z).
      { destruct (Z.eq_dec (x - k - 1) 0) as [?|Ne]; [assumption|]. exfalso. assert (T : (2 ^ 1 <= 2 ^ (x - k - 1))%Z) by (apply Z.pow_le_mono_r; lia).
        change (2 ^ 1)%Z with 2%Z in T. lia. }
      rewrite X1, Z.pow_0_r in H2. assert (Am : Z.abs m = 16777216%Z) by lia.
      exists (Z.sgn m * 8388608)%Z. rewrite E. replace x with (k + 1)%Z by lia. rewrite Z.pow_add_r by lia. change (2 ^ 1)%Z with 2%Z.
      assert (M : (m = Z.sgn m * 16777216)%Z) by lia. rewrite M at 1. ring. }
  rewrite D. replace (2 * 0)%Z with 0%Z by lia. destruct (Z.compare_spec 0 (2 ^ x)) as [C|C|C]; try lia.
  cbn [trunc_fval]. destruct (Z.leb_spec 0 x) as [_|?]; [|lia]. f_equal. rewrite Z.mul_comm. symmetry. apply Z.div_exact; [lia|exact D].
Qed.
