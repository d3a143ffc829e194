(** The texts of expressions: which text stands for which tree, and that the parser decides it. *)
From Verif Require Import Base Machine Compiler Parser ParserFacts Texts Grammar Roundtrip.
Open Scope string_scope.
Open Scope list_scope.

Definition blank (b : string) : Prop := all_chars is_space b = true.
(** [writes p n s]: the text [s] stands for the expression [n] where one of priority [p] or higher is expected: 1 for + and -, 2 for
    * and //, 3 for ^, 4 for values. The right operand of + - * and // may be of the same priority, the left one may not; the operands
    of ^ are values. Any parentheses and blanks may be added. *)
Inductive writes : nat -> node -> string -> Prop :=
| w_var p b s : blank b -> name_of is_upper s = true -> writes p (NVar s) (b +++ s)
| w_int p b s : blank b -> number_text s = true -> writes p (NInt s) (b +++ s)
| w_par p b b' n s : blank b -> blank b' -> writes 1 n s -> writes p n (b +++ "(" +++ s +++ b' +++ ")")
| w_pow p b n m s u : p <= 3 -> blank b -> writes 4 n s -> writes 4 m u -> writes p (NEv "^" [n; m]) (s +++ b +++ "^" +++ u)
| w_mul p b o n m s u : p <= 2 -> blank b -> In o ["*"; "//"] -> writes 3 n s -> writes 2 m u -> writes p (NEv o [n; m]) (s +++ b +++ o +++ u)
| w_add p b o n m s u : p <= 1 -> blank b -> In o ["+"; "-"] -> writes 2 n s -> writes 1 m u -> writes p (NEv o [n; m]) (s +++ b +++ o +++ u).

(** *(op > operand) as a relation *)
Inductive chained (ops : list string) (p : parser) : string -> list (string * node) -> string -> Prop :=
| ch_end s : p_op ops s = PFail -> chained ops p s [] s
| ch_more s o s1 v s2 l t : p_op ops s = POk o s1 -> slen s1 < slen s -> p s1 = POk v s2 -> slen s2 <= slen s1 ->
    chained ops p s2 l t -> chained ops p s ((o, v) :: l) t.
Lemma chained_chain ops p s l t : chained ops p s l t -> forall n, slen s < n -> chain n ops p s = POk l t.
Proof.
  induction 1 as [s H|s o s1 v s2 l t H1 L1 H2 L2 C IH]; intros n Hn; (destruct n as [|n]; [lia|]); cbn [chain].
  - now rewrite H.
  - rewrite H1, H2. rewrite IH by lia. reflexivity.
Qed.

Lemma skip_blank b s : blank b -> skip (b +++ s) = skip s.
Proof.
  unfold blank. induction b as [|c b IH]; intros H; [reflexivity|]. cbn [all_chars] in H. apply andb_true_iff in H. destruct H as [H1 H2].
  cbn [String.append skip]. rewrite H1. auto.
Qed.
Lemma lit_blank w b s : blank b -> lit w (b +++ s) = lit w s.
Proof. intros H. unfold lit. now rewrite (skip_blank _ _ H). Qed.
Lemma op_blank ops b s : blank b -> p_op ops (b +++ s) = p_op ops s.
Proof. intros H. induction ops as [|o ops IH]; [reflexivity|]. cbn [p_op]. now rewrite (lit_blank _ _ _ H), IH. Qed.
Lemma value_blank x b s : blank b -> p_value x (b +++ s) = p_value x s.
Proof. intros H. unfold p_value, p_variable, p_number, ident. now rewrite (lit_blank _ _ _ H), (skip_blank _ _ H). Qed.
Lemma power_blank x b s : blank b -> p_power x (b +++ s) = p_power x s.
Proof. intros H. unfold p_power. now rewrite (value_blank _ _ _ H). Qed.
Lemma product_blank x b s : blank b -> p_product x (b +++ s) = p_product x s.
Proof. intros H. unfold p_product. now rewrite (power_blank _ _ _ H). Qed.
Lemma expr_blank k b s : blank b -> p_expr k (b +++ s) = p_expr k s.
Proof. intros H. destruct k as [|k]; [reflexivity|]. rewrite p_expr_S. unfold p_expr_of. now rewrite (product_blank _ _ _ H). Qed.
Lemma space_idc c : is_space c = true -> is_idc c = false.
Proof. destruct c as [[] [] [] [] [] [] [] []]; vm_compute; congruence. Qed.
Lemma ends_blank b s : blank b -> ends s = true -> ends (b +++ s) = true.
Proof.
  intros H E. destruct b as [|c b]; [exact E|]. unfold blank in H. cbn [all_chars] in H. apply andb_true_iff in H. destruct H as [H _].
  cbn [String.append ends]. now rewrite (space_idc c H).
Qed.

(** the last word of a text: [Some true] if the text ends in a name, [Some false] if it ends in a number, [None] if in neither *)
Fixpoint last_word (st : option bool) (s : string) : option bool :=
  match s with
  | EmptyString => st
  | String c s' => last_word (if is_idc c then match st with None => Some (negb (is_digit c)) | Some x => Some x end else None) s'
  end.
(** the text [t] does not continue the last word of [w]: a name ends before a character that is not one of names, a number before one
    that is not a digit *)
Definition fits (w t : string) : bool :=
  match last_word None w with None => true | Some true => ends t | Some false => no_digit t end.
Lemma last_word_app a b : forall st, last_word st (a +++ b) = last_word (last_word st a) b.
Proof. induction a as [|c a IH]; intros st; [reflexivity|]. cbn [String.append last_word]. apply IH. Qed.
Lemma last_word_blank b st : blank b -> last_word st b = match b with EmptyString => st | _ => None end.
Proof.
  unfold blank. revert st. induction b as [|c b IH]; intros st H; [reflexivity|]. cbn [all_chars] in H. apply andb_true_iff in H. destruct H as [H1 H2].
  cbn [last_word]. rewrite (space_idc c H1), (IH _ H2). now destruct b.
Qed.
Lemma last_word_idc s x : all_chars is_idc s = true -> last_word (Some x) s = Some x.
Proof. induction s as [|c s IH]; [reflexivity|]. cbn [all_chars last_word]. intros H. apply andb_true_iff in H. destruct H as [H1 H2]. rewrite H1. now apply IH. Qed.
Lemma ends_fits w t : ends t = true -> fits w t = true.
Proof. intros H. unfold fits. destruct (last_word None w) as [[]|]; [exact H|now apply ends_no_digit|reflexivity]. Qed.
Lemma last_word_blank_app b s : blank b -> last_word None (b +++ s) = last_word None s.
Proof. intros B. rewrite last_word_app, (last_word_blank b None B). now destruct b. Qed.
Lemma fits_blank b s t : blank b -> fits (b +++ s) t = fits s t.
Proof. intros B. unfold fits. now rewrite (last_word_blank_app _ _ B). Qed.
Lemma fits_sep x c s t : is_idc c = false -> fits (x +++ String c s) t = fits s t.
Proof. intros H. unfold fits. rewrite last_word_app. cbn [last_word]. now rewrite H. Qed.
Lemma fits_op s b o u t : In o ["^"; "*"; "//"; "+"; "-"] -> fits (s +++ b +++ o +++ u) t = fits u t.
Proof.
  intros H. rewrite <- app_assoc_s. destruct H as [<-|[<-|[<-|[<-|[<-|[]]]]]]; cbn [String.append]; now rewrite fits_sep.
Qed.
Lemma fits_name f s t : (forall c, f c = true -> is_idc c = true /\ is_digit c = false) -> name_of f s = true -> fits s t = ends t.
Proof.
  intros F H. destruct s as [|c s]; [discriminate H|]. cbn [name_of] in H. apply andb_true_iff in H. destruct H as [H1 H2]. destruct (F c H1) as [K1 K2].
  unfold fits. cbn [last_word]. now rewrite K1, K2, (last_word_idc s _ H2).
Qed.
Lemma upper_word c : is_upper c = true -> is_idc c = true /\ is_digit c = false.
Proof. intros H. split; [unfold is_idc; now rewrite H, orb_true_r|]. destruct (is_digit c) eqn:E; [|reflexivity]. rewrite (digit_upper c E) in H. discriminate H. Qed.
Lemma lower_word c : is_lower c = true -> is_idc c = true /\ is_digit c = false.
Proof. intros H. split; [unfold is_idc; now rewrite H|]. destruct (is_digit c) eqn:E; [|reflexivity]. rewrite (digit_lower c E) in H. discriminate H. Qed.
Lemma digit_idc c : is_digit c = true -> is_idc c = true.
Proof. intros H. unfold is_idc. now rewrite H, !orb_true_r. Qed.
Lemma digits_idc s : all_chars is_digit s = true -> all_chars is_idc s = true.
Proof. induction s as [|c s IH]; [reflexivity|]. cbn [all_chars]. intros H. apply andb_true_iff in H. destruct H as [H1 H2]. now rewrite (digit_idc c H1), IH. Qed.
Lemma fits_digits s t : digits s = true -> fits s t = no_digit t.
Proof.
  destruct s as [|c s]; [discriminate|]. unfold digits. cbn [all_chars]. intros H. apply andb_true_iff in H. destruct H as [H1 H2].
  unfold fits. cbn [last_word]. now rewrite (digit_idc c H1), H1, (last_word_idc s _ (digits_idc s H2)).
Qed.
Lemma fits_number s t : number_text s = true -> fits s t = no_digit t.
Proof.
  destruct s as [|c s]; [discriminate|]. cbn [number_text]. destruct (Ascii.eqb_spec c "-") as [->|]; [|apply fits_digits].
  intros H. change (String "-" s) with ("" +++ String "-" s). rewrite (fits_sep "" "-" s t eq_refl). now apply fits_digits.
Qed.

Definition hi_ops : list string := ["*"; "//"].
Definition lo_ops : list string := ["+"; "-"].
Section Parse.
Variable k : nat.
Notation x := (p_expr k).
Definition val_ok n w := forall t, fits w t = true -> slen (w +++ t) < k -> p_value x (w +++ t) = POk n t.
Definition pow_ok n w := forall t, fits w t = true -> lit "^" t = PFail -> slen (w +++ t) < k -> p_power x (w +++ t) = POk n t.
Definition prod_ok n w := forall t, fits w t = true -> lit "^" t = PFail -> p_op hi_ops t = PFail -> slen (w +++ t) < k ->
  exists v s l, p_power x (w +++ t) = POk v s /\ slen s <= slen (w +++ t) /\ chained hi_ops (p_power x) s l t /\ chained_node v l = n.
Definition sum_ok n w := forall t, fits w t = true -> lit "^" t = PFail -> p_op hi_ops t = PFail -> p_op lo_ops t = PFail -> slen (w +++ t) < k ->
  exists v s l, p_product x (w +++ t) = POk v s /\ slen s <= slen (w +++ t) /\ chained lo_ops (p_product x) s l t /\ chained_node v l = n.
Definition level_ok p n w : Prop := (4 <= p -> val_ok n w) /\ (3 <= p -> pow_ok n w) /\ (2 <= p -> prod_ok n w) /\ (1 <= p -> sum_ok n w).

Lemma prod_product n w : prod_ok n w -> forall t, fits w t = true -> lit "^" t = PFail -> p_op hi_ops t = PFail -> slen (w +++ t) < k ->
  p_product x (w +++ t) = POk n t.
Proof.
  intros H t T1 T2 T3 Hk. destruct (H t T1 T2 T3 Hk) as (v & s & l & E & L & C & <-). unfold p_product. rewrite E.
  rewrite (chained_chain _ _ _ _ _ C) by lia. reflexivity.
Qed.
Lemma sum_expr n w : sum_ok n w -> forall t, fits w t = true -> lit "^" t = PFail -> p_op hi_ops t = PFail -> p_op lo_ops t = PFail -> slen (w +++ t) < k ->
  p_expr_of x (w +++ t) = POk n t.
Proof.
  intros H t T1 T2 T3 T4 Hk. destruct (H t T1 T2 T3 T4 Hk) as (v & s & l & E & L & C & <-). unfold p_expr_of. rewrite E.
  rewrite (chained_chain _ _ _ _ _ C) by lia. reflexivity.
Qed.
(** from a higher priority to a lower one *)
Lemma val_pow n w : val_ok n w -> pow_ok n w.
Proof. intros V t T1 T2 Hk. apply power_of; [now apply V|exact T2]. Qed.
Lemma pow_prod n w : pow_ok n w -> prod_ok n w.
Proof. intros V t T1 T2 T3 Hk. exists n, t, []. split; [now apply V|]. split; [rewrite app_len; lia|]. split; [now constructor|reflexivity]. Qed.
Lemma prod_sum n w : prod_ok n w -> sum_ok n w.
Proof. intros V t T1 T2 T3 T4 Hk. exists n, t, []. split; [now apply (prod_product n w V)|]. split; [rewrite app_len; lia|]. split; [now constructor|reflexivity]. Qed.
Lemma level_val p n w : val_ok n w -> level_ok p n w.
Proof. intros V. assert (V3 := val_pow _ _ V). assert (V2 := pow_prod _ _ V3). assert (V1 := prod_sum _ _ V2). repeat split; auto. Qed.
(** the operators *)
Lemma pow_op b n m s u : blank b -> val_ok n s -> val_ok m u -> pow_ok (NEv "^" [n; m]) (s +++ b +++ "^" +++ u).
Proof.
  intros B Vn Vm t T1 T2 Hk. rewrite !app_assoc_s in *. unfold p_power. rewrite (Vn _); [|apply ends_fits, ends_blank; [exact B|reflexivity]|exact Hk].
  rewrite (lit_blank _ _ _ B), (lit_yes "^") by reflexivity. rewrite fits_op in T1 by (cbn; auto 6). rewrite Vm; [reflexivity|exact T1|]. rewrite !app_len in Hk. rewrite app_len. lia.
Qed.
Lemma prod_op b o n m s u : blank b -> In o hi_ops -> pow_ok n s -> prod_ok m u -> prod_ok (NEv o [n; m]) (s +++ b +++ o +++ u).
Proof.
  intros B Ho Vn Vm t T1 T2 T3 Hk. rewrite !app_assoc_s in *.
  assert (Lk : slen (u +++ t) < k) by (rewrite !app_len in Hk; rewrite app_len; lia).
  rewrite fits_op in T1 by (cbn in Ho |- *; tauto). destruct (Vm t T1 T2 T3 Lk) as (v & s' & l & Ev & Lv & C & Ec).
  assert (O : p_op hi_ops (b +++ o +++ u +++ t) = POk o (u +++ t) /\ lit "^" (b +++ o +++ u +++ t) = PFail /\ ends (b +++ o +++ u +++ t) = true /\ 1 <= slen o).
  { rewrite (op_blank _ _ _ B), (lit_blank _ _ _ B). destruct Ho as [<-|[<-|[]]]; repeat split; try (apply ends_blank; [exact B|reflexivity]); cbn; lia. }
  destruct O as (O1 & O2 & O3 & O4).
  exists n, (b +++ o +++ u +++ t), ((o, v) :: l). split; [apply Vn; [now apply ends_fits|assumption..]|]. split; [rewrite (app_len s); lia|].
  split; [|cbn [chained_node]; now rewrite Ec]. eapply ch_more; [exact O1|rewrite (app_len b), (app_len o); lia|exact Ev|exact Lv|exact C].
Qed.
Lemma sum_op b o n m s u : blank b -> In o lo_ops -> prod_ok n s -> sum_ok m u -> sum_ok (NEv o [n; m]) (s +++ b +++ o +++ u).
Proof.
  intros B Ho Vn Vm t T1 T2 T3 T4 Hk. rewrite !app_assoc_s in *.
  assert (Lk : slen (u +++ t) < k) by (rewrite !app_len in Hk; rewrite app_len; lia).
  rewrite fits_op in T1 by (cbn in Ho |- *; tauto). destruct (Vm t T1 T2 T3 T4 Lk) as (v & s' & l & Ev & Lv & C & Ec).
  assert (O : p_op lo_ops (b +++ o +++ u +++ t) = POk o (u +++ t) /\ p_op hi_ops (b +++ o +++ u +++ t) = PFail /\ lit "^" (b +++ o +++ u +++ t) = PFail /\
    ends (b +++ o +++ u +++ t) = true /\ 1 <= slen o).
  { rewrite !(op_blank _ _ _ B), (lit_blank _ _ _ B). destruct Ho as [<-|[<-|[]]]; repeat split; try (apply ends_blank; [exact B|reflexivity]); cbn; lia. }
  destruct O as (O1 & O0 & O2 & O3 & O4).
  exists n, (b +++ o +++ u +++ t), ((o, v) :: l). split; [apply (prod_product n s Vn); [now apply ends_fits|assumption..]|]. split; [rewrite (app_len s); lia|].
  split; [|cbn [chained_node]; now rewrite Ec]. eapply ch_more; [exact O1|rewrite (app_len b), (app_len o); lia|exact Ev|exact Lv|exact C].
Qed.
End Parse.

Lemma upper_number s t : number_text s = true -> p_variable (s +++ t) = PFail.
Proof.
  intros Hn. unfold p_variable. destruct s as [|c s]; [discriminate|]. cbn [String.append]. cbn [number_text] in Hn.
  rewrite (ident_no is_upper c); [reflexivity|..]; (destruct (Ascii.eqb_spec c "-") as [->|]; [reflexivity|]); unfold digits in Hn; cbn in Hn;
    apply andb_true_iff in Hn; destruct Hn as [Hn _]; [now apply digit_space|now apply digit_upper].
Qed.
(** every text of an expression is parsed as that expression *)
Lemma writes_level p n w : writes p n w -> forall k, level_ok k p n w.
Proof.
  induction 1 as [p b s B Hs|p b s B Hs|p b b' n s B B' W IH|p b n m s u Lp B Wn IHn Wm IHm|p b o n m s u Lp B Ho Wn IHn Wm IHm|p b o n m s u Lp B Ho Wn IHn Wm IHm]; intros k.
  - apply level_val. intros t Ht Hk. rewrite (fits_blank _ _ _ B), (fits_name is_upper s t upper_word Hs) in Ht. rewrite app_assoc_s, (value_blank _ _ _ B). unfold p_value, p_variable. rewrite (ident_ok is_upper s t Hs upper_space Ht). reflexivity.
  - apply level_val. intros t Ht Hk. rewrite (fits_blank _ _ _ B), (fits_number s t Hs) in Ht. rewrite app_assoc_s, (value_blank _ _ _ B). unfold p_value. rewrite (upper_number s t Hs), (number_ok_d s t Hs Ht). reflexivity.
  - apply level_val. intros t Ht Hk. rewrite !app_assoc_s in *. rewrite (value_blank _ _ _ B).
    assert (E1 : p_variable ("(" +++ s +++ b' +++ ")" +++ t) = PFail) by reflexivity. assert (E2 : p_number ("(" +++ s +++ b' +++ ")" +++ t) = PFail) by reflexivity.
    unfold p_value. rewrite E1, E2, (lit_yes "(") by reflexivity. destruct k as [|k]; [lia|]. rewrite p_expr_S. destruct (IH k) as (_ & _ & _ & Sk). 
    rewrite (sum_expr k n s (Sk (le_n 1))); [rewrite (lit_blank _ _ _ B'), (lit_yes ")") by reflexivity; reflexivity|apply ends_fits, ends_blank; [exact B'|reflexivity]|..];
      rewrite ?(op_blank _ _ _ B'), ?(lit_blank _ _ _ B'); try reflexivity. rewrite (app_len b), (app_len "(") in Hk. cbn [String.length] in Hk. lia.
  - destruct (IHn k) as (Vn & _). destruct (IHm k) as (Vm & _). specialize (Vn (le_n 4)). specialize (Vm (le_n 4)).
    assert (V3 := pow_op k b n m s u B Vn Vm). assert (V2 := pow_prod _ _ _ V3). assert (V1 := prod_sum _ _ _ V2). repeat split; auto; lia.
  - destruct (IHn k) as (_ & Vn & _). destruct (IHm k) as (_ & _ & Vm & _). specialize (Vn (le_n 3)). specialize (Vm (le_n 2)).
    assert (V2 := prod_op k b o n m s u B Ho Vn Vm). assert (V1 := prod_sum _ _ _ V2). repeat split; auto; lia.
  - destruct (IHn k) as (_ & _ & Vn & _). destruct (IHm k) as (_ & _ & _ & Vm). specialize (Vn (le_n 2)). specialize (Vm (le_n 1)).
    assert (V1 := sum_op k b o n m s u B Ho Vn Vm). repeat split; auto; lia.
Qed.
Theorem expr_fits n w t k : writes 1 n w -> fits w t = true -> no_op (skip t) = true -> slen (w +++ t) < k -> p_expr (S k) (w +++ t) = POk n t.
Proof.
  intros W Ht N Hk. rewrite p_expr_S. destruct (writes_level 1 n w W k) as (_ & _ & _ & V). apply (sum_expr k n w (V (le_n 1))); [exact Ht|..|exact Hk].
  - apply no_op_lit; [exact N|cbn; auto].
  - apply op_none. intros o [<-|[<-|[]]]; (apply no_op_lit; [exact N|cbn; auto 6]).
  - apply op_none. intros o [<-|[<-|[]]]; (apply no_op_lit; [exact N|cbn; auto 6]).
Qed.
Theorem expr_parsed n w t k : writes 1 n w -> ends t = true -> no_op (skip t) = true -> slen (w +++ t) < k -> p_expr (S k) (w +++ t) = POk n t.
Proof. intros W Ht N Hk. exact (expr_fits n w t k W (ends_fits w t Ht) N Hk). Qed.

(** --- and nothing else is parsed --- *)
Lemma writes_le p q n w : writes p n w -> q <= p -> writes q n w.
Proof. intros W L. destruct W; econstructor; eauto; lia. Qed.
Lemma skip_split s : exists b, blank b /\ s = b +++ skip s.
Proof.
  induction s as [|c s (b & B & E)]; [exists ""; split; reflexivity|]. cbn [skip]. destruct (is_space c) eqn:H; [|exists ""; split; reflexivity].
  exists (String c b). split; [unfold blank; cbn [all_chars]; now rewrite H|]. cbn [String.append]. now rewrite <- E.
Qed.
Lemma lit_split w s r y : lit w s = POk y r -> exists b, blank b /\ s = b +++ w +++ r.
Proof.
  unfold lit. intros E. destruct (skip_split s) as (b & B & Es). exists b. split; [exact B|]. destruct (strip w (skip s)) as [r'|] eqn:F; [|discriminate E].
  injection E as _ <-. rewrite Es at 1. f_equal. clear - F. revert F. generalize (skip s). induction w as [|c w IH]; intros z F; cbn in F; [cbn; congruence|].
  destruct z as [|d z]; [discriminate F|]. destruct (Ascii.eqb_spec c d) as [->|]; [|discriminate F]. cbn [String.append]. now rewrite <- (IH z F).
Qed.
Lemma op_split ops s o r : p_op ops s = POk o r -> In o ops /\ exists b, blank b /\ s = b +++ o +++ r.
Proof.
  induction ops as [|x ops IH]; [discriminate|]. cbn [p_op]. destruct (lit x s) as [y r'| | |] eqn:E.
  - intros H. injection H as <- <-. split; [now left|]. exact (lit_split _ _ _ _ E).
  - intros H. destruct (IH H). split; [now right|assumption].
  - intros H. destruct (IH H). split; [now right|assumption].
  - intros H. destruct (IH H). split; [now right|assumption].
Qed.
Lemma take_split f s : all_chars f (fst (take f s)) = true /\ s = fst (take f s) +++ snd (take f s).
Proof.
  induction s as [|c s IH]; [split; reflexivity|]. cbn [take]. destruct (f c) eqn:E; [|split; reflexivity]. destruct (take f s) as [a r]. cbn [fst snd] in *. destruct IH as [I1 I2].
  cbn [all_chars String.append]. rewrite E, I1. split; [reflexivity|]. now rewrite <- I2.
Qed.
Lemma take_rest f s : match snd (take f s) with EmptyString => true | String c _ => negb (f c) end = true.
Proof. induction s as [|c s IH]; [reflexivity|]. cbn [take]. destruct (f c) eqn:E; [|cbn [snd]; now rewrite E]. destruct (take f s) as [a r]. exact IH. Qed.
Definition sound (p : nat) (q : parser) : Prop := forall s n t, q s = POk n t -> exists w, s = w +++ t /\ writes p n w /\ fits w t = true.
Lemma variable_sound : sound 4 p_variable.
Proof.
  intros s n t E. unfold p_variable, ident in E. destruct (skip_split s) as (b & B & Es). destruct (skip s) as [|c r]; [discriminate E|].
  destruct (is_upper c) eqn:U; [|discriminate E]. pose proof (take_split is_idc r) as T. pose proof (take_rest is_idc r) as T3. destruct (take is_idc r) as [a r']. cbn [fst snd] in T, T3. destruct T as [T1 T2].
  injection E as <- <-. exists (b +++ String c a). assert (Nm : name_of is_upper (String c a) = true) by (cbn [name_of]; now rewrite U, T1). split; [|split].
  - rewrite Es, T2, app_assoc_s. reflexivity.
  - now constructor.
  - rewrite (fits_blank _ _ _ B), (fits_name is_upper _ _ upper_word Nm). exact T3.
Qed.
Lemma number_sound : sound 4 p_number.
Proof.
  intros s n t E. unfold p_number in E. destruct (skip_split s) as (b & B & Es). destruct (skip s) as [|c r]; [discriminate E|]. destruct (Ascii.eqb_spec c "-") as [->|N].
  - pose proof (take_split is_digit r) as T. pose proof (take_rest is_digit r) as T3. destruct (take is_digit r) as [a r']. cbn [fst snd] in T, T3. destruct T as [T1 T2].
    destruct a as [|d a]; [discriminate E|]. injection E as <- <-. exists (b +++ String "-" (String d a)). split; [rewrite Es, T2, app_assoc_s; reflexivity|].
    assert (Nm : number_text (String "-" (String d a)) = true) by exact T1.
    split; [now constructor|]. rewrite (fits_blank _ _ _ B), (fits_number _ _ Nm). exact T3.
  - pose proof (take_split is_digit (String c r)) as T. pose proof (take_rest is_digit (String c r)) as T3. destruct (take is_digit (String c r)) as [a r']. cbn [fst snd] in T, T3. destruct T as [T1 T2].
    destruct a as [|d a]; [discriminate E|]. injection E as <- <-. exists (b +++ String d a). split; [rewrite Es, T2, app_assoc_s; reflexivity|].
    assert (Nm : number_text (String d a) = true) by (cbn [number_text]; cbn [String.append] in T2; injection T2 as <- _; destruct (Ascii.eqb_spec c "-"); [contradiction|exact T1]).
    split; [now constructor|]. rewrite (fits_blank _ _ _ B), (fits_number _ _ Nm). exact T3.
Qed.
Lemma value_sound x : sound 1 x -> sound 4 (p_value x).
Proof.
  intros X s n t E. unfold p_value in E. destruct (p_variable s) as [v r| | |] eqn:V; try discriminate E; [injection E as <- <-; exact (variable_sound _ _ _ V)|].
  destruct (p_number s) as [v r| | |] eqn:N; try discriminate E; [injection E as <- <-; exact (number_sound _ _ _ N)|].
  destruct (lit "(" s) as [y s1| | |] eqn:L1; try discriminate E. destruct (x s1) as [e s2| | |] eqn:Ex; try discriminate E.
  destruct (lit ")" s2) as [z s3| | |] eqn:L2; try discriminate E. injection E as <- <-.
  destruct (lit_split _ _ _ _ L1) as (b & B & ->). destruct (X _ _ _ Ex) as (w & -> & W & _). destruct (lit_split _ _ _ _ L2) as (b' & B' & ->).
  exists (b +++ "(" +++ w +++ b' +++ ")"). split; [now rewrite !app_assoc_s|]. split; [now constructor|]. rewrite <- !app_assoc_s. now rewrite fits_sep.
Qed.
Lemma power_sound x : sound 1 x -> sound 3 (p_power x).
Proof.
  intros X s n t E. unfold p_power in E. destruct (p_value x s) as [v s1| | |] eqn:V; try discriminate E. destruct (value_sound x X _ _ _ V) as (w & -> & W & F).
  destruct (lit "^" s1) as [y s2| | |] eqn:L1; try (injection E as <- <-; exists w; split; [reflexivity|split; [now apply (writes_le 4); [|lia]|exact F]]; fail).
  destruct (p_value x s2) as [v2 s3| | |] eqn:V2; try discriminate E. injection E as <- <-. destruct (lit_split _ _ _ _ L1) as (b & B & ->).
  destruct (value_sound x X _ _ _ V2) as (w2 & -> & W2 & F2). exists (w +++ b +++ "^" +++ w2). split; [now rewrite !app_assoc_s|]. split; [constructor; auto|].
  rewrite fits_op by (cbn; auto 6). exact F2.
Qed.
Lemma chain_sound lv ops q : sound (S lv) q -> (forall o, In o ops -> In o ["^"; "*"; "//"; "+"; "-"]) -> (forall b o n m s u, blank b -> In o ops -> writes (S lv) n s -> writes lv m u -> writes lv (NEv o [n; m]) (s +++ b +++ o +++ u)) ->
  forall k s l t, chain k ops q s = POk l t -> forall v w, writes (S lv) v w -> fits w s = true ->
    exists w', s = w' +++ t /\ writes lv (chained_node v l) (w +++ w') /\ fits (w +++ w') t = true.
Proof.
  intros Q Op O. induction k as [|k IH]; intros s l t E v w W F; [discriminate E|]. cbn [chain] in E.
  assert (Nil : POk [] s = POk l t -> exists w', s = w' +++ t /\ writes lv (chained_node v l) (w +++ w') /\ fits (w +++ w') t = true).
  { intros H. injection H as <- <-. exists "". split; [reflexivity|]. rewrite app_nil_s. split; [|exact F]. cbn [chained_node]. apply (writes_le (S lv)); [exact W|lia]. }
  destruct (p_op ops s) as [o s1| | |] eqn:P; try (now apply Nil). destruct (op_split _ _ _ _ P) as (Ho & b & B & ->).
  destruct (q s1) as [v2 s2| | |] eqn:E2; try discriminate E. destruct (chain k ops q s2) as [l2 s3| | |] eqn:E3; try discriminate E. injection E as <- <-.
  destruct (Q _ _ _ E2) as (w2 & -> & W2 & F2). destruct (IH _ _ _ E3 _ _ W2 F2) as (w3 & -> & W3 & F3). exists (b +++ o +++ w2 +++ w3). split; [now rewrite !app_assoc_s|].
  split; [cbn [chained_node]; apply O; auto|]. rewrite fits_op by auto. exact F3.
Qed.
Lemma product_sound x : sound 1 x -> sound 2 (p_product x).
Proof.
  intros X s n t E. unfold p_product in E. destruct (p_power x s) as [v s1| | |] eqn:V; try discriminate E. destruct (power_sound x X _ _ _ V) as (w & -> & W & F).
  destruct (chain (S (slen s1)) ["*"; "//"] (p_power x) s1) as [l s2| | |] eqn:C; try discriminate E. injection E as <- <-.
  destruct (chain_sound 2 ["*"; "//"] _ (power_sound x X) ltac:(cbn; tauto) (fun b o n m s u B Ho => w_mul 2 b o n m s u (le_n 2) B Ho) _ _ _ _ C v w W F) as (w' & -> & W' & F'). exists (w +++ w'). split; [now rewrite app_assoc_s|exact (conj W' F')].
Qed.
Lemma expr_of_sound x : sound 1 x -> sound 1 (p_expr_of x).
Proof.
  intros X s n t E. unfold p_expr_of in E. destruct (p_product x s) as [v s1| | |] eqn:V; try discriminate E. destruct (product_sound x X _ _ _ V) as (w & -> & W & F).
  destruct (chain (S (slen s1)) ["+"; "-"] (p_product x) s1) as [l s2| | |] eqn:C; try discriminate E. injection E as <- <-.
  destruct (chain_sound 1 ["+"; "-"] _ (product_sound x X) ltac:(cbn; tauto) (fun b o n m s u B Ho => w_add 1 b o n m s u (le_n 1) B Ho) _ _ _ _ C v w W F) as (w' & -> & W' & F'). exists (w +++ w'). split; [now rewrite app_assoc_s|exact (conj W' F')].
Qed.
Theorem expr_sound k : sound 1 (p_expr k).
Proof. induction k as [|k IH]; [intros s n t E; discriminate E|]. rewrite p_expr_S. now apply expr_of_sound. Qed.
(** no text stands for two expressions *)
Theorem writes_unique n m w : writes 1 n w -> writes 1 m w -> n = m.
Proof.
  intros A B. assert (EA := expr_parsed n w "" (S (slen (w +++ ""))) A eq_refl eq_refl (Nat.lt_succ_diag_r _)).
  assert (EB := expr_parsed m w "" (S (slen (w +++ ""))) B eq_refl eq_refl (Nat.lt_succ_diag_r _)). congruence.
Qed.

(** --- as few parentheses as possible --- *)
Definition prio (n : node) : nat :=
  match n with
  | NEv o _ => if (o =? "+") || (o =? "-") then 1 else if o =? "^" then 3 else 2
  | _ => 4
  end.
Fixpoint min_text (p : nat) (n : node) : string :=
  match n with
  | NVar s | NInt s => s
  | NEv o [l; r] =>
      let k := prio n in
      let t := min_text (S k) l +++ o +++ min_text (if Nat.eqb k 3 then 4 else k) r in
      if Nat.ltb k p then "(" +++ t +++ ")" else t
  | _ => ""
  end.
Lemma min_writes : forall n p, g_expr n = true -> writes p n (min_text p n).
Proof.
  fix IH 1. intros [s|s|s|s l|s l] p G; try discriminate G.
  - exact (w_var p "" s eq_refl G).
  - exact (w_int p "" s eq_refl G).
  - destruct l as [|a [|b [|? ?]]]; try discriminate G. cbn [g_expr] in G. rewrite !andb_true_iff in G. destruct G as [[Go Ga] Gb].
    pose proof (fun q => IH a q Ga) as Ha. pose proof (fun q => IH b q Gb) as Hb. clear IH.
    assert (K : forall q, q <= prio (NEv s [a; b]) ->
      writes q (NEv s [a; b]) (min_text (S (prio (NEv s [a; b]))) a +++ s +++ min_text (if Nat.eqb (prio (NEv s [a; b])) 3 then 4 else prio (NEv s [a; b])) b)).
    { destruct (operator_cases s Go) as [->|[->|[->|[->| ->]]]]; cbn; intros q Lq.
      - exact (w_pow q "" a b _ _ Lq eq_refl (Ha _) (Hb _)).
      - exact (w_add q "" "+" a b _ _ Lq eq_refl ltac:(cbn; auto) (Ha _) (Hb _)).
      - exact (w_add q "" "-" a b _ _ Lq eq_refl ltac:(cbn; auto) (Ha _) (Hb _)).
      - exact (w_mul q "" "*" a b _ _ Lq eq_refl ltac:(cbn; auto) (Ha _) (Hb _)).
      - exact (w_mul q "" "//" a b _ _ Lq eq_refl ltac:(cbn; auto) (Ha _) (Hb _)). }
    cbn [min_text]. destruct (Nat.ltb_spec (prio (NEv s [a; b])) p) as [L|L]; [|now apply K].
    apply (w_par p "" "" _ _ eq_refl eq_refl). apply K. destruct (operator_cases s Go) as [->|[->|[->|[->| ->]]]]; cbn; lia.
Qed.

(** --- goals, queries and clauses with infix is --- *)
Inductive goal_writes : node -> string -> Prop :=
| gw_plain n : g_atom n = true -> goal_writes n (atom_text n)
| gw_is a e w : g_term a = true -> writes 1 e w -> goal_writes (NFun "is" [a; e]) (text a +++ " is" +++ w).
Inductive goals_write : list node -> string -> Prop :=
| gws_one n s : goal_writes n s -> goals_write [n] s
| gws_more n s l u : goal_writes n s -> goals_write l u -> goals_write (n :: l) (s +++ "," +++ u).
Inductive clause_writes : list node -> string -> Prop :=
| cw_fact h : g_head h = true -> clause_writes [h] (text h)
| cw_rule h l u : g_head h = true -> goals_write l u -> clause_writes (h :: l) (text h +++ ":-" +++ u).

Lemma goal_parsed n s t k : goal_writes n s -> astop t = true -> slen (s +++ t) < k -> p_atom k (s +++ t) = POk n t.
Proof.
  intros W Ht Hk. destruct W as [n G|a e w Ga We]; [now apply atom_ok_text|].
  assert (St : stop t = true) by (unfold astop in Ht; now apply andb_true_iff in Ht). unfold stop in St. rewrite !andb_true_iff in St. destruct St as ((T1 & _) & T3).
  rewrite !app_assoc_s in *. unfold p_atom, p_binary. rewrite (term_ok a (" is" +++ w +++ t) k Ga eq_refl) by lia.
  assert (L1 : lit "==" (" is" +++ w +++ t) = PFail) by reflexivity. assert (L2 : lit "\==" (" is" +++ w +++ t) = PFail) by reflexivity.
  assert (L3 : lit "is" (" is" +++ w +++ t) = POk tt (w +++ t)) by reflexivity. rewrite L1, L2, L3. destruct k as [|k]; [lia|].
  rewrite (expr_parsed e w t k We T1 T3); [reflexivity|]. rewrite (app_len (text a)), (app_len " is") in Hk. cbn [String.length] in Hk. lia.
Qed.
Lemma goals_parsed l u : goals_write l u -> forall t k, slen (u +++ String "." t) < k -> sep (p_atom k) (u +++ String "." t) = POk l (String "." t).
Proof.
  assert (R : forall l u, goals_write l u -> forall t k n, slen (u +++ String "." t) < k -> slen (u +++ String "." t) < n ->
    sep_rest (S n) (p_atom k) (String "," (u +++ String "." t)) = POk l (String "." t)).
  { clear. induction 1 as [m s G|m s l u G Gs IH]; intros t k n Hk Hn; cbn [sep_rest]; rewrite lit1 by reflexivity.
    - rewrite (goal_parsed m s (String "." t) k G eq_refl Hk). destruct n as [|n]; [lia|]. reflexivity.
    - rewrite !app_assoc_s in *. cbn [String.append] in *. rewrite (goal_parsed m s (String "," (u +++ String "." t)) k G eq_refl Hk).
      rewrite (app_len s) in Hk, Hn. cbn [String.length] in Hk, Hn. destruct n as [|n]; [lia|]. rewrite IH by lia. reflexivity. }
  destruct 1 as [m s G|m s l u G Gs]; intros t k Hk; unfold sep.
  - rewrite (goal_parsed m s (String "." t) k G eq_refl Hk). reflexivity.
  - rewrite !app_assoc_s in *. cbn [String.append] in *. rewrite (goal_parsed m s (String "," (u +++ String "." t)) k G eq_refl Hk).
    rewrite (app_len s) in Hk. cbn [String.length] in Hk. rewrite (R l u Gs t k) by (cbn [String.length]; lia). reflexivity.
Qed.
Theorem query_parsed l u : goals_write l u -> parse_query (u +++ ".") = Some (COk l).
Proof. intros W. unfold parse_query. change ("." : string) with (String "." ""). rewrite (goals_parsed l u W "" _) by lia. rewrite lit1 by reflexivity. reflexivity. Qed.
Lemma clause_parsed c s : clause_writes c s -> forall t k, slen (s +++ String "." t) < k -> p_clause k (s +++ String "." t) = POk c t.
Proof.
  destruct 1 as [h Hh|h l u Hh W]; intros t k Hk; unfold p_clause.
  - rewrite (head_ok h (String "." t) k Hh eq_refl Hk). assert (L : lit ":-" (String "." t) = PFail) by reflexivity. rewrite L, lit1 by reflexivity. reflexivity.
  - rewrite !app_assoc_s in *. rewrite (head_ok h (":-" +++ _) k Hh eq_refl Hk), (lit_yes ":-") by reflexivity.
    rewrite (app_len (text h)), (app_len ":-") in Hk. rewrite (goals_parsed l u W t k) by lia. rewrite lit1 by reflexivity. reflexivity.
Qed.
Lemma clause_first c s : clause_writes c s -> exists a r, s = String a r /\ is_lower a = true.
Proof.
  assert (H : forall h t, g_head h = true -> exists a r, text h +++ t = String a r /\ is_lower a = true).
  { intros h t H. destruct h as [x|x|x|x l|x l]; try discriminate H; cbn [g_head] in H.
    - destruct x as [|a r]; [discriminate H|]. cbn in H. apply andb_true_iff in H. exists a, (r +++ t). split; [reflexivity|apply H].
    - rewrite !andb_true_iff in H. destruct H as ((H & _) & _). destruct x as [|a r]; [discriminate H|]. cbn [name_of] in H. apply andb_true_iff in H. destruct H as [H _].
      unfold text. cbn [text_at]. destruct (String a r =? "[") eqn:E; [apply String.eqb_eq in E; injection E as -> ->; discriminate H|]. eexists a, _. split; [reflexivity|exact H]. }
  destruct 1 as [h Hh|h l u Hh W]; [|now apply H]. destruct (H h "" Hh) as (a & r & E & K). rewrite app_nil_s in E. eauto.
Qed.
Lemma one_clause c s : clause_writes c s -> parse_program (s +++ ".") = Some (COk [c]).
Proof.
  intros W. change ("." : string) with (String "." ""). assert (K := clause_parsed c s W "" (S (slen (s +++ String "." ""))) (Nat.lt_succ_diag_r _)).
  destruct (clause_first c s W) as (a & r & Es & Ha). unfold parse_program. set (x := s +++ String "." "") in *.
  assert (C : p_comment x = PFail).
  { unfold p_comment, x. rewrite Es. cbn [String.append]. rewrite (skip_nonspace a) by (now apply lower_space). destruct (Ascii.eqb_spec a "%") as [->|]; [discriminate Ha|reflexivity]. }
  cbn [p_rules]. rewrite C. unfold p_rule. rewrite K. change (p_comment "") with (@PFail unit). cbv beta iota.
  assert (L : exists j, slen x = S j) by (unfold x; rewrite Es; eexists; reflexivity). destruct L as (j & ->). cbn [p_rules]. reflexivity.
Qed.
(** a program: clauses, each ended by a dot *)
Inductive program_writes : list (list node) -> string -> Prop :=
| pw_end : program_writes [] ""
| pw_more c P s t : clause_writes c s -> program_writes P t -> program_writes (c :: P) ((s +++ ".") +++ t).
Theorem program_parsed P s : program_writes P s -> parse_program s = Some (COk P).
Proof.
  induction 1 as [|c P s t W WP IH]; [reflexivity|]. rewrite (parse_program_app _ _ [c] (one_clause c s W)), IH. reflexivity.
Qed.
