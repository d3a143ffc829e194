(** Parsing the canonical text of a clause or query gives it back. *)
From Verif Require Import Base Machine Compiler Parser ParserFacts Texts Grammar.
Open Scope string_scope.
Open Scope list_scope.
Notation "a +++ b" := (String.append a b) (at level 60, right associativity).

Definition ends (t : string) : bool := match t with EmptyString => true | String c _ => negb (is_idc c) end.
Definition no_op (t : string) : bool := match t with EmptyString => true | String c _ => negb (existsb (Ascii.eqb c) ["^"; "*"; "/"; "+"; "-"]%char) end.
Definition stop (t : string) : bool :=
  ends t && match t with String c _ => negb (Ascii.eqb c "("%char) | EmptyString => true end && no_op (skip t).

Lemma range_space lo hi c : 33 <= lo -> in_range lo hi c = true -> is_space c = false.
Proof.
  unfold is_space, in_range. intros L H. apply andb_true_iff in H. destruct H as [H _]. apply Nat.leb_le in H.
  destruct (Nat.leb 9 (code c) && Nat.leb (code c) 13)%bool eqn:E; [apply andb_true_iff in E; destruct E as [_ E]; apply Nat.leb_le in E; lia|].
  cbn. apply Nat.eqb_neq. lia.
Qed.
Lemma lower_space c : is_lower c = true -> is_space c = false.
Proof. apply range_space. lia. Qed.
Lemma upper_space c : is_upper c = true -> is_space c = false.
Proof. apply range_space. lia. Qed.
Lemma digit_space c : is_digit c = true -> is_space c = false.
Proof. apply range_space. lia. Qed.
Lemma upper_lower c : is_upper c = true -> is_lower c = false.
Proof.
  unfold is_upper, is_lower, in_range. intros H. apply andb_true_iff in H. destruct H as [_ H]. apply Nat.leb_le in H.
  destruct (Nat.leb 97 (code c)) eqn:E; [apply Nat.leb_le in E; lia|reflexivity].
Qed.
Lemma digit_lower c : is_digit c = true -> is_lower c = false.
Proof.
  unfold is_digit, is_lower, in_range. intros H. apply andb_true_iff in H. destruct H as [_ H]. apply Nat.leb_le in H.
  destruct (Nat.leb 97 (code c)) eqn:E; [apply Nat.leb_le in E; lia|reflexivity].
Qed.
Lemma digit_upper c : is_digit c = true -> is_upper c = false.
Proof.
  unfold is_digit, is_upper, in_range. intros H. apply andb_true_iff in H. destruct H as [_ H]. apply Nat.leb_le in H.
  destruct (Nat.leb 65 (code c)) eqn:E; [apply Nat.leb_le in E; lia|reflexivity].
Qed.
Lemma class_ne (f : ascii -> bool) c d : f c = true -> f d = false -> Ascii.eqb c d = false.
Proof. intros H1 H2. destruct (Ascii.eqb_spec c d) as [->|]; [congruence|reflexivity]. Qed.

Lemma take_exact f a t : all_chars f a = true -> match t with EmptyString => True | String c _ => f c = false end -> take f (a +++ t) = (a, t).
Proof.
  intros Ha Ht. induction a as [|c a IH]; cbn [String.append take].
  - destruct t as [|c t]; [reflexivity|]. cbn. now rewrite Ht.
  - cbn in Ha. apply andb_true_iff in Ha. destruct Ha as [Hc Ha]. rewrite Hc, (IH Ha). reflexivity.
Qed.
Lemma skip_nonspace c s : is_space c = false -> skip (String c s) = String c s.
Proof. intros H. cbn. now rewrite H. Qed.
Lemma ident_ok f s t : name_of f s = true -> (forall c, f c = true -> is_space c = false) -> ends t = true -> ident f (s +++ t) = POk s t.
Proof.
  intros Hs Hf Ht. destruct s as [|c s]; [discriminate|]. cbn [name_of] in Hs. apply andb_true_iff in Hs. destruct Hs as [Hc Hs].
  unfold ident. cbn [String.append]. rewrite (skip_nonspace _ _ (Hf c Hc)), Hc, (take_exact is_idc s t Hs); [reflexivity|].
  destruct t as [|d t]; [exact I|]. cbn in Ht. now apply negb_true_iff in Ht.
Qed.
Lemma ident_no f c s : is_space c = false -> f c = false -> ident f (String c s) = PFail.
Proof. intros H1 H2. unfold ident. now rewrite (skip_nonspace _ _ H1), H2. Qed.
Lemma lit_no w c d s : is_space d = false -> Ascii.eqb c d = false -> lit (String c w) (String d s) = PFail.
Proof. intros H1 H2. unfold lit. rewrite (skip_nonspace _ _ H1). cbn [strip]. now rewrite H2. Qed.
Lemma lit_yes w s : match w with EmptyString => False | String c _ => is_space c = false end -> lit w (w +++ s) = POk tt s.
Proof.
  intros H. unfold lit. destruct w as [|c w]; [contradiction|]. cbn [String.append]. rewrite (skip_nonspace _ _ H).
  change (String c (w +++ s)) with (String c w +++ s). assert (K : forall x, strip x (x +++ s) = Some s).
  { induction x as [|d x IH]; [reflexivity|]. cbn [String.append strip]. now rewrite Ascii.eqb_refl. }
  now rewrite K.
Qed.
Lemma lit1 c s : is_space c = false -> lit (String c "") (String c s) = POk tt s.
Proof. intros H. exact (lit_yes (String c "") s H). Qed.
Definition no_digit (t : string) : bool := match t with EmptyString => true | String c _ => negb (is_digit c) end.
Lemma ends_no_digit t : ends t = true -> no_digit t = true.
Proof.
  destruct t as [|c t]; [reflexivity|]. cbn [ends no_digit]. intros Ht. apply negb_true_iff in Ht. unfold is_idc in Ht. destruct (is_digit c); [|reflexivity].
  rewrite !orb_true_r in Ht. discriminate Ht.
Qed.
Lemma number_ok_d s t : number_text s = true -> no_digit t = true -> p_number (s +++ t) = POk (NInt s) t.
Proof.
  intros Hs Ht. assert (Kt : match t with EmptyString => True | String c _ => is_digit c = false end).
  { destruct t as [|c t]; [exact I|]. cbn in Ht. now apply negb_true_iff in Ht. }
  destruct s as [|c s]; [discriminate|]. cbn [number_text] in Hs. unfold p_number. cbn [String.append]. destruct (Ascii.eqb c "-") eqn:Ec.
  - rewrite skip_nonspace by (apply Ascii.eqb_eq in Ec; now subst c). rewrite Ec. unfold digits in Hs. destruct s as [|d s]; [discriminate|].
    rewrite (take_exact is_digit _ t Hs Kt). apply Ascii.eqb_eq in Ec. now subst c.
  - unfold digits in Hs. assert (Hc : is_digit c = true) by (cbn in Hs; now apply andb_true_iff in Hs).
    rewrite (skip_nonspace _ _ (digit_space _ Hc)), Ec. change (String c (s +++ t)) with (String c s +++ t). rewrite (take_exact is_digit _ t Hs Kt). reflexivity.
Qed.
Lemma number_ok s t : number_text s = true -> ends t = true -> p_number (s +++ t) = POk (NInt s) t.
Proof. intros Hs Ht. exact (number_ok_d s t Hs (ends_no_digit t Ht)). Qed.

(** the first character of an expression *)
Definition efirst (c : ascii) : Prop := is_lower c = false /\ is_space c = false /\ c <> "["%char.
Lemma expr_first n : g_expr n = true -> exists c s, text n = String c s /\ efirst c.
Proof.
  destruct n as [s|s|s|s l|s l]; cbn [g_expr]; try discriminate; intros H.
  - destruct s as [|c s]; [discriminate|]. cbn in H. apply andb_true_iff in H. destruct H as [H _]. exists c, s. split; [reflexivity|].
    split; [now apply upper_lower|]. split; [now apply upper_space|]. intros ->. discriminate H.
  - destruct s as [|c s]; [discriminate|]. exists c, s. split; [reflexivity|]. cbn [number_text] in H. destruct (Ascii.eqb_spec c "-") as [->|].
    + repeat split; discriminate.
    + unfold digits in H. cbn in H. apply andb_true_iff in H. destruct H as [H _]. split; [now apply digit_lower|]. split; [now apply digit_space|]. intros ->. discriminate H.
  - destruct l as [|a [|b [|? ?]]]; try discriminate H. eexists _, _. split; [reflexivity|]. repeat split; discriminate.
Qed.

(** --- expressions --- *)
Lemma op_none ops t : (forall o, In o ops -> lit o t = PFail) -> p_op ops t = PFail.
Proof. induction ops as [|o ops IH]; intros H; [reflexivity|]. cbn. rewrite (H o (or_introl eq_refl)). apply IH. intros x Hx. apply H. now right. Qed.
Lemma chain_none n ops p t : p_op ops t = PFail -> chain (S n) ops p t = POk [] t.
Proof. intros H. cbn. now rewrite H. Qed.
Lemma chain_one n ops p o t r v : p_op ops (o +++ t) = POk o t -> p t = POk v r -> p_op ops r = PFail -> o <> "" -> slen r <= slen t ->
  chain (S (slen (o +++ t) + n)) ops p (o +++ t) = POk [(o, v)] r.
Proof.
  intros H1 H2 H3 Ho L. cbn [chain]. rewrite H1, H2. destruct o as [|c o]; [now elim Ho|]. cbn [String.append String.length plus]. rewrite (chain_none _ ops p r H3). reflexivity.
Qed.
Lemma no_op_lit t o : no_op (skip t) = true -> In o ["^"; "*"; "//"; "+"; "-"] -> lit o t = PFail.
Proof.
  intros H Ho. unfold lit. destruct (skip t) as [|c s]; [destruct Ho as [<-|[<-|[<-|[<-|[<-|[]]]]]]; reflexivity|]. cbn in H.
  apply negb_true_iff in H. rewrite !orb_false_iff in H. destruct H as (H1 & H2 & H3 & H4 & H5 & _). rewrite Ascii.eqb_sym in H1, H2, H3, H4, H5.
  destruct Ho as [<-|[<-|[<-|[<-|[<-|[]]]]]]; cbn [strip]; [rewrite H1|rewrite H2|rewrite H3|rewrite H4|rewrite H5]; reflexivity.
Qed.
Lemma power_of x s v t : p_value x s = POk v t -> lit "^" t = PFail -> p_power x s = POk v t.
Proof. intros H1 H2. unfold p_power. now rewrite H1, H2. Qed.
Lemma product_of x s v t : p_power x s = POk v t -> p_op ["*"; "//"] t = PFail -> p_product x s = POk v t.
Proof. intros H1 H2. unfold p_product. rewrite H1, (chain_none _ _ _ _ H2). reflexivity. Qed.
Lemma expr_of x s v t : p_product x s = POk v t -> p_op ["+"; "-"] t = PFail -> p_expr_of x s = POk v t.
Proof. intros H1 H2. unfold p_expr_of. rewrite H1, (chain_none _ _ _ _ H2). reflexivity. Qed.
Lemma no_op_power x s v t : p_value x s = POk v t -> no_op (skip t) = true -> p_power x s = POk v t.
Proof. intros H N. apply power_of; [exact H|]. apply no_op_lit; [exact N|now left]. Qed.
Lemma no_op_product x s v t : p_value x s = POk v t -> no_op (skip t) = true -> p_product x s = POk v t.
Proof.
  intros H N. apply product_of; [now apply no_op_power|]. apply op_none. intros o [<-|[<-|[]]]; (apply no_op_lit; [exact N|cbn; auto 6]).
Qed.
Lemma no_op_expr x s v t : p_value x s = POk v t -> no_op (skip t) = true -> p_expr_of x s = POk v t.
Proof.
  intros H N. apply expr_of; [now apply no_op_product|]. apply op_none. intros o [<-|[<-|[]]]; (apply no_op_lit; [exact N|cbn; auto 6]).
Qed.
Lemma chain_one' ops p o t r v : p_op ops (o +++ t) = POk o t -> p t = POk v r -> p_op ops r = PFail -> o <> "" -> slen r <= slen t ->
  chain (S (slen (o +++ t))) ops p (o +++ t) = POk [(o, v)] r.
Proof. intros H1 H2 H3 Ho L. pose proof (chain_one 0 ops p o t r v H1 H2 H3 Ho L) as K. now rewrite Nat.add_0_r in K. Qed.
Lemma operator_cases o : operator o = true -> o = "^" \/ o = "+" \/ o = "-" \/ o = "*" \/ o = "//".
Proof.
  unfold operator. cbn [existsb]. rewrite !orb_true_iff. intros [H|[H|[H|[H|[H|H]]]]]; try (apply String.eqb_eq in H; subst o; auto 6). discriminate H.
Qed.
(** "l op r" followed by a closing bracket *)
Lemma infix_expr x l o r s2 t : operator o = true -> p_value x (s2 +++ String ")" t) = POk r (String ")" t) ->
  forall s, p_value x s = POk l (o +++ s2 +++ String ")" t) -> p_expr_of x s = POk (NEv o [l; r]) (String ")" t).
Proof.
  intros Ho Hr s Hl. assert (N : no_op (skip (String ")" t)) = true) by reflexivity.
  assert (L : slen (String ")" t) <= slen (s2 +++ String ")" t)) by (rewrite app_len; lia).
  assert (F : forall o', In o' ["^"; "*"; "//"; "+"; "-"] -> lit o' (String ")" t) = PFail) by (intros; now apply no_op_lit).
  assert (O1 : p_op ["*"; "//"] (String ")" t) = PFail) by reflexivity.
  assert (O2 : p_op ["+"; "-"] (String ")" t) = PFail) by reflexivity.
  destruct (operator_cases o Ho) as [->|[->|[->|[->| ->]]]].
  - apply expr_of; [|exact O2]. apply product_of; [|exact O1]. unfold p_power. rewrite Hl. rewrite (lit_yes "^") by reflexivity. now rewrite Hr.
  - unfold p_expr_of. assert (E : p_product x s = POk l ("+" +++ s2 +++ String ")" t)) by (apply product_of; [now apply power_of|reflexivity]).
    rewrite E. rewrite (chain_one' _ _ "+" (s2 +++ String ")" t) (String ")" t) r); [reflexivity|reflexivity|now apply no_op_product|exact O2|discriminate|exact L].
  - unfold p_expr_of. assert (E : p_product x s = POk l ("-" +++ s2 +++ String ")" t)) by (apply product_of; [now apply power_of|reflexivity]).
    rewrite E. rewrite (chain_one' _ _ "-" (s2 +++ String ")" t) (String ")" t) r); [reflexivity|reflexivity|now apply no_op_product|exact O2|discriminate|exact L].
  - apply expr_of; [|exact O2]. unfold p_product. rewrite (power_of x s l _ Hl) by reflexivity.
    rewrite (chain_one' _ _ "*" (s2 +++ String ")" t) (String ")" t) r); [reflexivity|reflexivity|now apply no_op_power|exact O1|discriminate|exact L].
  - apply expr_of; [|exact O2]. unfold p_product. rewrite (power_of x s l _ Hl) by reflexivity.
    rewrite (chain_one' _ _ "//" (s2 +++ String ")" t) (String ")" t) r); [reflexivity|reflexivity|now apply no_op_power|exact O1|discriminate|exact L].
Qed.
Lemma p_expr_S k : p_expr (S k) = p_expr_of (p_expr k).
Proof. unfold p_expr. cbn [p_rec]. destruct (p_rec k) as [[e l] x]. reflexivity. Qed.
Lemma op_ends o s : operator o = true -> ends (o +++ s) = true.
Proof. intros H. destruct (operator_cases o H) as [->|[->|[->|[->| ->]]]]; reflexivity. Qed.
Fixpoint nsz (n : node) : nat :=
  match n with
  | NFun _ l | NEv _ l => S (fold_right (fun x y => nsz x + y) 0 l)
  | _ => 0
  end.
Lemma nsz_in n l : In n l -> nsz n <= fold_right (fun x y => nsz x + y) 0 l.
Proof. induction l as [|a l IH]; [intros []|]. cbn. intros [->|H]; [lia|]. specialize (IH H). lia. Qed.
Lemma value_text m : forall n, nsz n < m -> g_expr n = true -> forall t k, ends t = true -> slen (text n +++ t) < k -> p_value (p_expr k) (text n +++ t) = POk n t.
Proof.
  induction m as [|m IH]; intros n Hm Hn t k Ht Hk; [lia|]. destruct n as [s|s|s|s l|s l]; try discriminate Hn.
  - unfold p_value, p_variable. cbn in Hn. cbn [text text_at]. rewrite (ident_ok is_upper s t Hn upper_space Ht). reflexivity.
  - unfold p_value. cbn [g_expr] in Hn. cbn [text text_at]. unfold text. cbn [text_at].
    assert (E : p_variable (s +++ t) = PFail).
    { unfold p_variable. destruct s as [|c s]; [discriminate|]. cbn [String.append]. cbn [number_text] in Hn.
      rewrite (ident_no is_upper c); [reflexivity|..]; (destruct (Ascii.eqb_spec c "-") as [->|]; [reflexivity|]); unfold digits in Hn; cbn in Hn;
        apply andb_true_iff in Hn; destruct Hn as [Hn _]; [now apply digit_space|now apply digit_upper]. }
    rewrite E, (number_ok s t Hn Ht). reflexivity.
  - destruct l as [|a [|b [|? ?]]]; try discriminate Hn. cbn [g_expr] in Hn. apply andb_true_iff in Hn. destruct Hn as [Hn Hb].
    apply andb_true_iff in Hn. destruct Hn as [Ho Ha]. cbn [nsz fold_right] in Hm.
    change (text (NEv s [a; b])) with ("(" +++ text a +++ s +++ text b +++ ")") in *.
    assert (E : ("(" +++ text a +++ s +++ text b +++ ")") +++ t = String "(" (text a +++ s +++ text b +++ String ")" t)).
    { cbn [String.append]. now rewrite !app_assoc_s. }
    rewrite E in *. cbn [String.length] in Hk. rewrite !app_len in Hk. cbn [String.length] in Hk.
    unfold p_value. assert (E1 : p_variable (String "(" (text a +++ s +++ text b +++ String ")" t)) = PFail) by reflexivity.
    assert (E2 : p_number (String "(" (text a +++ s +++ text b +++ String ")" t)) = PFail) by reflexivity. rewrite E1, E2.
    rewrite lit1 by reflexivity. destruct k as [|k]; [lia|]. rewrite p_expr_S.
    rewrite (infix_expr (p_expr k) a s b (text b) t Ho).
    + rewrite lit1 by reflexivity. reflexivity.
    + apply IH; [lia|exact Hb|reflexivity|]. rewrite app_len. cbn. lia.
    + apply IH; [lia|exact Ha|now apply op_ends|]. rewrite !app_len. cbn. lia.
Qed.

(** --- sequences --- *)
Lemma sep_text {A} (tx : A -> string) (Q : string -> bool) (p : string -> pres A) k t : (forall s, Q (String "," s) = true) -> Q t = true -> lit "," t = PFail ->
  forall l, l <> [] -> (forall a r, In a l -> Q r = true -> slen (tx a +++ r) < k -> p (tx a +++ r) = POk a r) ->
  slen (String.concat "," (map tx l) +++ t) < k -> sep p (String.concat "," (map tx l) +++ t) = POk l t.
Proof.
  intros QC Ht Hc. assert (R : forall l n, (forall a r, In a l -> Q r = true -> slen (tx a +++ r) < k -> p (tx a +++ r) = POk a r) ->
    slen (fold_right (fun a s => String "," (tx a +++ s)) t l) < k -> List.length l < n ->
    sep_rest n p (fold_right (fun a s => String "," (tx a +++ s)) t l) = POk l t).
  { induction l as [|a l IH]; intros n Hp Hk Hn; (destruct n as [|n]; [lia|]); cbn [sep_rest fold_right].
    - now rewrite Hc.
    - cbn [fold_right String.length] in Hk. rewrite lit1 by reflexivity. rewrite Hp; [|now left| |lia].
      + rewrite IH; [reflexivity| | |cbn in Hn; lia]; [intros b r Hb; apply Hp; now right|]. rewrite app_len in Hk. lia.
      + destruct l; [exact Ht|apply QC]. }
  assert (J : forall a l, String.concat "," (map tx (a :: l)) +++ t = tx a +++ fold_right (fun a s => String "," (tx a +++ s)) t l).
  { intros a l. revert a. induction l as [|b l IH]; intros a; [reflexivity|].
    change (String.concat "," (map tx (a :: b :: l))) with (tx a +++ "," +++ String.concat "," (map tx (b :: l))).
    rewrite !app_assoc_s. cbn [fold_right String.append]. rewrite IH. reflexivity. }
  intros l Hl Hp Hk. destruct l as [|a l]; [now elim Hl|]. rewrite J in *. unfold sep.
  assert (Sr : Q (fold_right (fun a s => String "," (tx a +++ s)) t l) = true) by (destruct l; [exact Ht|apply QC]).
  rewrite Hp; [|now left|exact Sr|exact Hk]. rewrite R; [reflexivity| | |].
  - intros b r Hb. apply Hp. now right.
  - rewrite app_len in Hk. lia.
  - clear. assert (L : List.length l <= slen (fold_right (fun a s => String "," (tx a +++ s)) t l)).
    { induction l as [|b l IH]; cbn; [lia|]. rewrite app_len. lia. }
    lia.
Qed.

(** --- lists --- *)
Definition tail_text (t : node) : string := match t with NVar s => "|" +++ s | _ => "" end.
Lemma list_view m : forall n, nsz n < m -> g_term n = true -> is_tail n = true ->
  exists l t, n = list_node l t /\ (t = nil_node \/ exists s, t = NVar s /\ name_of is_upper s = true) /\
    (forall a, In a l -> g_term a = true /\ nsz a < nsz n) /\
    text_at true n = fold_right (fun a s => String "," (text a +++ s)) (tail_text t) l.
Proof.
  induction m as [|m IH]; intros n Hm Hg Ht; [lia|]. destruct n as [s|s|s|s l|s l]; try discriminate Ht.
  - exists [], (NVar s). split; [reflexivity|]. split; [right; exists s; auto|]. split; [intros a []|]. reflexivity.
  - destruct l as [|a [|b [|? ?]]]; try discriminate Ht.
    + cbn in Ht. apply String.eqb_eq in Ht. subst s. exists [], nil_node. split; [reflexivity|]. split; [now left|]. split; [intros a []|]. reflexivity.
    + cbn in Ht. apply String.eqb_eq in Ht. subst s. cbn [g_term forallb] in Hg. cbn [String.eqb Ascii.eqb Bool.eqb] in Hg.
      rewrite !andb_true_iff in Hg. destruct Hg as ((Ha & Hb & _) & Hbt). cbn [nsz fold_right] in Hm.
      destruct (IH b) as (l & t & E & T & K & X); [lia|exact Hb|exact Hbt|]. exists (a :: l), t. split; [now rewrite E|]. split; [exact T|]. split.
      * cbn [nsz fold_right]. intros c [<-|Hc]; [split; [exact Ha|lia]|]. destruct (K c Hc) as [K1 K2]. split; [exact K1|lia].
      * cbn [text_at]. change ("[" =? "[") with true. cbv iota. rewrite X. cbn [fold_right]. fold (text a). rewrite app_nil_s. reflexivity.
Qed.
Lemma fold_concat tx l t (a : node) : tx a +++ fold_right (fun a s => String "," (tx a +++ s)) t l = String.concat "," (map tx (a :: l)) +++ t.
Proof.
  revert a. induction l as [|b l IH]; intros a; [reflexivity|].
  change (String.concat "," (map tx (a :: b :: l))) with (tx a +++ "," +++ String.concat "," (map tx (b :: l))).
  rewrite !app_assoc_s. cbn [fold_right String.append]. rewrite IH. reflexivity.
Qed.
Lemma list_text m n : nsz n < m -> g_list n = true -> text n = "[]" /\ n = nil_node \/
  exists l t, l <> [] /\ n = list_node l t /\ (t = nil_node \/ exists s, t = NVar s /\ name_of is_upper s = true) /\
    (forall a, In a l -> g_term a = true /\ nsz a < nsz n) /\ text n = "[" +++ String.concat "," (map text l) +++ tail_text t +++ "]".
Proof.
  intros Hm H. unfold g_list in H. apply andb_true_iff in H. destruct H as [Hg Hl].
  assert (Ht : is_tail n = true) by (destruct n; try discriminate Hl; exact Hl).
  destruct (list_view m n Hm Hg Ht) as (l & t & E & T & K & X). destruct l as [|a l].
  - cbn in E. subst n. destruct T as [->|(s & -> & _)]; [left; auto|discriminate Hl].
  - right. exists (a :: l), t. split; [discriminate|]. split; [exact E|]. split; [exact T|]. split; [exact K|].
    rewrite E in X |- *. cbn [list_node] in X |- *. unfold text. cbn [text_at] in X |- *. change ("[" =? "[") with true in X |- *. cbv iota in X |- *.
    fold (text a) in X |- *. rewrite app_nil_s in X. cbn [fold_right String.append] in X. injection X as X.
    rewrite <- (app_assoc_s (text a)), X, fold_concat, !app_assoc_s. reflexivity.
Qed.
Lemma term_first a : g_term a = true -> exists c s, text a = String c s /\ is_space c = false /\ c <> "]"%char.
Proof.
  intros Ga. assert (Ex : g_expr a = true -> exists c s, text a = String c s /\ is_space c = false /\ c <> "]"%char).
  { clear Ga. destruct a as [s|s|s|s l|s l]; cbn [g_expr]; try discriminate; intros H.
    - destruct s as [|c s]; [discriminate|]. cbn in H. apply andb_true_iff in H. destruct H as [H _]. exists c, s. split; [reflexivity|].
      split; [now apply upper_space|]. intros ->. discriminate H.
    - destruct s as [|c s]; [discriminate|]. exists c, s. split; [reflexivity|]. cbn [number_text] in H. destruct (Ascii.eqb_spec c "-") as [->|].
      + split; [reflexivity|discriminate].
      + unfold digits in H. cbn in H. apply andb_true_iff in H. destruct H as [H _]. split; [now apply digit_space|]. intros ->. discriminate H.
    - destruct l as [|a [|b [|? ?]]]; try discriminate H. eexists _, _. split; [reflexivity|]. split; [reflexivity|discriminate]. }
  assert (Lw : forall s x, name_of is_lower s = true -> exists c r, s +++ x = String c r /\ is_space c = false /\ c <> "]"%char).
  { intros s x H. destruct s as [|c s]; [discriminate|]. cbn in H. apply andb_true_iff in H. destruct H as [H _]. exists c, (s +++ x). split; [reflexivity|].
    split; [now apply lower_space|]. intros ->. discriminate H. }
  destruct a as [s|s|s|s l|s l]; try (apply Ex; exact Ga).
  - destruct (Lw s "" Ga) as (c & r & E & K). rewrite app_nil_s in E. exists c, r. auto.
  - unfold text. cbn [g_term text_at] in *. apply andb_true_iff in Ga. destruct Ga as [_ Ga]. destruct (s =? "[").
    + destruct l as [|x [|y [|? ?]]]; try discriminate Ga; (eexists _, _; split; [reflexivity|]; split; [reflexivity|discriminate]).
    + apply andb_true_iff in Ga. destruct Ga as [Ga _]. exact (Lw s _ Ga).
Qed.
Lemma p_elem_S k : p_elem (S k) = p_elem_of (p_elem k) (snd (fst (p_rec k))) (p_expr k).
Proof. unfold p_elem, p_expr. cbn [p_rec]. destruct (p_rec k) as [[e l] x]. reflexivity. Qed.

Lemma term_text m : forall n, nsz n < m -> g_term n = true -> forall t k, stop t = true -> slen (text n +++ t) < k ->
  p_elem k (text n +++ t) = POk n t /\ (g_head n = true -> match n with NCon _ => p_functor k (text n +++ t) = PFail | _ => p_functor k (text n +++ t) = POk n t end).
Proof.
  induction m as [|m IH]; intros n Hm Hn t k Ht Hk; [lia|]. destruct k as [|k]; [lia|].
  assert (Ht' := Ht). unfold stop in Ht'. rewrite !andb_true_iff in Ht'. destruct Ht' as ((T1 & T2) & T3).
  assert (Ex : g_expr n = true -> p_elem (S k) (text n +++ t) = POk n t).
  { intros He. rewrite p_elem_S. unfold p_elem_of. destruct (expr_first n He) as (c & s & E & F1 & F2 & F3).
    assert (V : p_expr_of (p_expr k) (text n +++ t) = POk n t).
    { apply no_op_expr; [|exact T3].
      (* one more level of fuel does not matter *)
      destruct (value_sim k _ _ (p_expr_sim k (S k) ltac:(lia)) (text n +++ t) Hk) as [V1 _]. rewrite V1.
      apply (value_text (S m)); [exact Hm|exact He|exact T1|exact Hk]. }
    rewrite V. rewrite E. cbn [String.append]. unfold p_functor_of, p_constant. rewrite (ident_no is_lower c _ F2 F1). cbv beta iota.
    unfold p_list_of. rewrite (lit_no "" "[" c); [reflexivity|exact F2|]. destruct (Ascii.eqb_spec "[" c); [congruence|reflexivity]. }
  destruct n as [s|s|s|s l|s l].
  - split; [|discriminate]. apply Ex. exact Hn.
  - cbn [g_term] in Hn. unfold text in *. cbn [text_at] in *.
    assert (I1 := ident_ok is_lower s t Hn lower_space T1).
    assert (P0 : strip "(" t = None).
    { destruct t as [|c t]; [reflexivity|]. cbn [strip]. apply negb_true_iff in T2. rewrite Ascii.eqb_sym, T2. reflexivity. }
    assert (Pf : forall e, p_functor_of e (s +++ t) = PFail) by (intros e; unfold p_functor_of; now rewrite I1, P0).
    split; [|intros _; apply Pf]. rewrite p_elem_S. unfold p_elem_of. rewrite Pf. unfold p_constant. now rewrite I1.
  - split; [|discriminate]. apply Ex. exact Hn.
  - destruct (s =? "[") eqn:Es.
    + apply String.eqb_eq in Es. subst s. split; [|intros H; discriminate H]. 
      assert (Gl : g_list (NFun "[" l) = true).
      { unfold g_list. rewrite Hn. cbn [g_term] in Hn. apply andb_true_iff in Hn. destruct Hn as [_ Hn]. change ("[" =? "[") with true in Hn. cbv iota in Hn.
        destruct l as [|a [|b [|? ?]]]; try discriminate Hn; reflexivity. }
      rewrite p_elem_S. unfold p_elem_of.
      destruct (list_text (S m) (NFun "[" l) Hm Gl) as [[E En]|(l0 & t0 & Ne & En & T0 & K & E)]; rewrite E in *.
      * rewrite En. reflexivity.
      * assert (Eq : ("[" +++ String.concat "," (map text l0) +++ tail_text t0 +++ "]") +++ t = String "[" (String.concat "," (map text l0) +++ tail_text t0 +++ String "]" t)).
        { cbn [String.append]. now rewrite !app_assoc_s. }
        rewrite Eq in *. cbn [String.length] in Hk.
        assert (Sp : sep (p_elem k) (String.concat "," (map text l0) +++ tail_text t0 +++ String "]" t) = POk l0 (tail_text t0 +++ String "]" t)).
        { apply (sep_text text stop (p_elem k) k); [reflexivity|destruct T0 as [->|(x & -> & _)]; reflexivity|destruct T0 as [->|(x & -> & _)]; reflexivity|exact Ne| |lia].
          intros a r Ha Hr Hkr. destruct (K a Ha) as [K1 K2]. apply (IH a); [lia|exact K1|exact Hr|exact Hkr]. }
        assert (Lb : lit "[" (String "[" (String.concat "," (map text l0) +++ tail_text t0 +++ String "]" t)) = POk tt (String.concat "," (map text l0) +++ tail_text t0 +++ String "]" t))
          by (apply (lit_yes "["); reflexivity).
        assert (P1 : p_functor_of (p_elem k) (String "[" (String.concat "," (map text l0) +++ tail_text t0 +++ String "]" t)) = PFail) by reflexivity.
        assert (P2 : p_constant (String "[" (String.concat "," (map text l0) +++ tail_text t0 +++ String "]" t)) = PFail) by reflexivity.
        rewrite P1, P2. unfold p_list_of. rewrite Lb. cbv beta iota.
        (* a nonempty list does not start with a closing bracket *)
        assert (Nb : lit "]" (String.concat "," (map text l0) +++ tail_text t0 +++ String "]" t) = PFail).
        { destruct l0 as [|a l0]; [now elim Ne|]. rewrite <- fold_concat. destruct (K a (or_introl eq_refl)) as [Ga _].
          destruct (term_first a Ga) as (c & r & Er & F1 & F2). rewrite Er. cbn [String.append]. apply lit_no; [exact F1|].
          destruct (Ascii.eqb_spec "]" c); [congruence|reflexivity]. }
        rewrite Nb, Sp. cbv beta iota. destruct T0 as [->|(x & -> & Hx)].
        -- change (tail_text nil_node) with "". cbn [String.append]. rewrite lit1 by reflexivity. now rewrite <- En.
        -- cbn [tail_text String.append]. rewrite (lit_no "" "]" "|") by reflexivity. rewrite lit1 by reflexivity.
           unfold p_variable. rewrite (ident_ok is_upper x (String "]" t) Hx upper_space eq_refl). cbv beta iota. rewrite lit1 by reflexivity. now rewrite <- En.
    + assert (Nl : name_of is_lower s = true /\ l <> [] /\ forallb g_term l = true).
      { cbn [g_term] in Hn. rewrite Es in Hn. rewrite !andb_true_iff in Hn. destruct Hn as (Hl & Hs & Hl0). split; [exact Hs|]. split; [|exact Hl]. intros ->. discriminate Hl0. }
      destruct Nl as (Ns & Nl & Gl).
      assert (E : text (NFun s l) +++ t = s +++ String "(" (String.concat "," (map text l) +++ String ")" t)).
      { unfold text. cbn [text_at]. rewrite Es. rewrite !app_assoc_s. reflexivity. }
      rewrite E in *. rewrite app_len in Hk. cbn [String.length] in Hk. cbn [nsz] in Hm.
      assert (Pf : forall j, slen s + slen (String.concat "," (map text l) +++ String ")" t) <= j ->
                p_functor_of (p_elem j) (s +++ String "(" (String.concat "," (map text l) +++ String ")" t)) = POk (NFun s l) t).
      { intros j Hj. unfold p_functor_of. rewrite (ident_ok is_lower s (String "(" _) Ns lower_space eq_refl). cbn [strip]. change (Ascii.eqb "(" "(") with true. cbv beta iota.
        destruct s as [|c0 s0]; [discriminate Ns|]. cbn [String.length] in *.
        rewrite (sep_text text stop (p_elem j) j (String ")" t) (fun _ => eq_refl) eq_refl eq_refl l Nl); [rewrite lit1 by reflexivity; reflexivity| |lia].
        intros a r Ha Hr Hkr. apply (IH a); [pose proof (nsz_in a l Ha); lia|exact (proj1 (forallb_forall _ _) Gl a Ha)|exact Hr|exact Hkr]. }
      split; [|intros _; unfold p_functor; apply Pf; lia]. rewrite p_elem_S. unfold p_elem_of. rewrite Pf by lia. reflexivity.
  - split; [|discriminate]. apply Ex. exact Hn.
Qed.

(** --- atoms, clauses, programs --- *)
Lemma term_ok n t k : g_term n = true -> stop t = true -> slen (text n +++ t) < k -> p_elem k (text n +++ t) = POk n t.
Proof. intros Hn Ht Hk. now apply (term_text (S (nsz n)) n (Nat.lt_succ_diag_r _) Hn t k). Qed.
Lemma head_ok n t k : g_head n = true -> stop t = true -> slen (text n +++ t) < k -> (p_functor k (text n +++ t) <|> p_constant (text n +++ t)) = POk n t.
Proof.
  intros Hn Ht Hk. destruct (term_text (S (nsz n)) n (Nat.lt_succ_diag_r _) (head_term n Hn) t k Ht Hk) as [_ K]. specialize (K Hn).
  destruct n as [s|s|s|s l|s l]; try discriminate Hn; rewrite K; [|reflexivity]. cbn in Hn. unfold text, p_constant. cbn [text_at].
  rewrite (ident_ok is_lower s t Hn lower_space); [reflexivity|]. unfold stop in Ht. rewrite !andb_true_iff in Ht. apply Ht.
Qed.
Definition astop (t : string) : bool :=
  stop t && match skip t with EmptyString => true | String c _ => negb (existsb (Ascii.eqb c) ["="; "\"; "i"]%char) end.
Lemma astop_lit t o : astop t = true -> In o ["=="; "\=="; "is"] -> lit o t = PFail.
Proof.
  intros H Ho. unfold astop in H. apply andb_true_iff in H. destruct H as [_ H]. unfold lit. destruct (skip t) as [|c s]; [destruct Ho as [<-|[<-|[<-|[]]]]; reflexivity|]. cbn in H.
  apply negb_true_iff in H. rewrite !orb_false_iff in H. destruct H as (H1 & H2 & H3 & _). rewrite Ascii.eqb_sym in H1, H2, H3.
  destruct Ho as [<-|[<-|[<-|[]]]]; cbn [strip]; [rewrite H1|rewrite H2|rewrite H3]; reflexivity.
Qed.
Lemma atom_ok_text n t k : g_atom n = true -> astop t = true -> slen (atom_text n +++ t) < k -> p_atom k (atom_text n +++ t) = POk n t.
Proof.
  intros Hn Ht Hk. assert (St : stop t = true) by (unfold astop in Ht; now apply andb_true_iff in Ht).
  assert (H : g_head n = true -> atom_text n = text n -> p_atom k (atom_text n +++ t) = POk n t).
  { intros Gh E. rewrite E in *. unfold p_atom. assert (B : forall r o, In o ["=="; "\=="; "is"] -> p_binary (p_elem k) r o (text n +++ t) = PFail).
    { intros r o Ho. unfold p_binary. rewrite (term_ok n t k (head_term n Gh) St Hk). now rewrite (astop_lit t o Ht Ho). }
    rewrite !B by (cbn; auto). exact (head_ok n t k Gh St Hk). }
  destruct n as [s|s|s|s l|s l]; try (apply H; [exact Hn|reflexivity]). destruct l as [|a [|b [|? ?]]]; try (apply H; [exact Hn|reflexivity]).
  cbn [g_atom atom_text] in *. destruct (s =? "==") eqn:E1; [|destruct (s =? "\==") eqn:E2].
  - apply String.eqb_eq in E1. subst s. cbn [orb] in *. apply andb_true_iff in Hn. destruct Hn as [Ha Hb]. unfold p_atom, p_binary at 1. rewrite !app_assoc_s in *.
    rewrite !app_len in Hk.
    rewrite (term_ok a ("==" +++ text b +++ t) k Ha eq_refl) by (rewrite !app_len; lia). rewrite (lit_yes "==") by reflexivity. rewrite (term_ok b t k Hb St) by (rewrite app_len; lia). reflexivity.
  - apply String.eqb_eq in E2. subst s. cbn [orb] in *. apply andb_true_iff in Hn. destruct Hn as [Ha Hb]. unfold p_atom, p_binary at 1 2. rewrite !app_assoc_s in *.
    rewrite !app_len in Hk.
    rewrite !(term_ok a ("\==" +++ text b +++ t) k Ha eq_refl) by (rewrite !app_len; lia). assert (L : lit "==" ("\==" +++ text b +++ t) = PFail) by reflexivity. rewrite L.
    rewrite (lit_yes "\==") by reflexivity. rewrite (term_ok b t k Hb St) by (rewrite app_len; lia). reflexivity.
  - cbn [orb] in *. apply H; [exact Hn|reflexivity].
Qed.
Lemma atoms_ok l t k : l <> [] -> forallb g_atom l = true -> slen (atoms_text l +++ String "." t) < k -> sep (p_atom k) (atoms_text l +++ String "." t) = POk l (String "." t).
Proof.
  intros Ne Hl Hk. apply (sep_text atom_text astop (p_atom k) k (String "." t)); try reflexivity; [exact Ne| |exact Hk].
  intros a r Ha Hr Hkr. apply atom_ok_text; [exact (proj1 (forallb_forall _ _) Hl a Ha)|exact Hr|exact Hkr].
Qed.
Theorem query_roundtrip q : g_query q = true -> parse_query (query_text q) = Some (COk q).
Proof.
  intros H. assert (Hq : q <> [] /\ forallb g_atom q = true) by (destruct q; [discriminate H|split; [discriminate|exact H]]). destruct Hq as [Ne Hq].
  unfold parse_query, query_text. change ("." : string) with (String "." ""). rewrite (atoms_ok q "" _ Ne Hq) by lia. rewrite lit1 by reflexivity. reflexivity.
Qed.
Lemma clause_text_ok c : g_clause c = true -> exists s, clause_text c = s +++ String "." (String "010" "") /\
  forall t k, slen (s +++ String "." t) < k -> p_clause k (s +++ String "." t) = POk c t.
Proof.
  intros H. destruct c as [|h b]; [discriminate H|]. cbn [g_clause] in H. apply andb_true_iff in H. destruct H as [Hh Hb]. destruct b as [|b0 b].
  - exists (text h). split; [reflexivity|]. intros t k Hk. unfold p_clause. rewrite (head_ok h (String "." t) k Hh eq_refl Hk).
    assert (L : lit ":-" (String "." t) = PFail) by reflexivity. rewrite L. rewrite lit1 by reflexivity. reflexivity.
  - exists (text h +++ ":-" +++ atoms_text (b0 :: b)). split; [cbn [clause_text]; now rewrite !app_assoc_s|]. intros t k Hk. rewrite !app_assoc_s in *.
    unfold p_clause. rewrite (head_ok h (":-" +++ _) k Hh eq_refl Hk). rewrite (lit_yes ":-") by reflexivity. rewrite !app_len in Hk.
    rewrite (atoms_ok (b0 :: b) t k ltac:(discriminate) Hb) by (rewrite app_len; lia). rewrite lit1 by reflexivity. reflexivity.
Qed.
Lemma clause_roundtrip c : g_clause c = true -> parse_program (clause_text c) = Some (COk [c]).
Proof.
  intros H. destruct (clause_text_ok c H) as (s & E & K). rewrite E. unfold parse_program. set (x := s +++ String "." (String "010" "")).
  assert (C : p_comment x = PFail).
  { destruct (comment_cases x) as [(r & Hr & _)|[Hr|Hr]]; [|exact Hr|]; exfalso.
    - specialize (K (String "010" "") (S (slen x)) (Nat.lt_succ_diag_r _)). fold x in K. unfold p_comment in Hr. unfold p_clause, p_functor, p_functor_of, p_constant, ident in K.
      destruct (skip x) as [|c0 s0]; [discriminate K|]. destruct (Ascii.eqb_spec c0 "%") as [->|]; [discriminate K|discriminate Hr].
    - specialize (K (String "010" "") (S (slen x)) (Nat.lt_succ_diag_r _)). fold x in K. unfold p_comment in Hr. unfold p_clause, p_functor, p_functor_of, p_constant, ident in K.
      destruct (skip x) as [|c0 s0]; [discriminate K|]. destruct (Ascii.eqb_spec c0 "%") as [->|]; [discriminate K|discriminate Hr]. }
  cbn [p_rules]. rewrite C. unfold p_rule. unfold x. rewrite K by lia. change (p_comment (String "010" "")) with (@PFail unit). cbv beta iota.
  assert (L : exists j, slen (s +++ String "." (String "010" "")) = S j) by (rewrite app_len; cbn [String.length]; exists (slen s + 1); lia). destruct L as (j & ->).
  cbn [p_rules]. reflexivity.
Qed.
Theorem program_roundtrip P : forallb g_clause P = true -> parse_program (program_text P) = Some (COk P).
Proof.
  induction P as [|c P IH]; intros H; [reflexivity|]. cbn [forallb] in H. apply andb_true_iff in H. destruct H as [Hc HP].
  assert (E : program_text (c :: P) = clause_text c +++ program_text P).
  { unfold program_text. destruct P as [|d P]; [cbn; now rewrite app_nil_s|]. reflexivity. }
  rewrite E, (parse_program_app _ _ [c] (clause_roundtrip c Hc)), (IH HP). reflexivity.
Qed.
