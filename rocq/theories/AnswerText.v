(** The text of an answer: what can be read back from it. *)
From Coq Require Import Decimal DecimalString.
From Verif Require Import Base Machine Heap Compiler Parser Print Organizer Session Search Alloc Atoms Clause Loads Grammar Texts LockHist.
Open Scope string_scope.
Open Scope list_scope.
Notation "a +++ b" := (String.append a b) (at level 60, right associativity).

(** --- blanks in texts --- *)
(** characters other than the blank and those that are special in HTML *)
Definition markup (c : ascii) : bool := (Ascii.eqb c "<" || Ascii.eqb c ">" || Ascii.eqb c "&")%bool.
Definition solid (c : ascii) : bool := (negb (Ascii.eqb c " ") && negb (markup c))%bool.
Notation word := (all_chars solid).
Lemma word_app a b : word (a +++ b) = (word a && word b)%bool.
Proof. induction a as [|c a IH]; cbn; [reflexivity|]. now rewrite IH, andb_assoc. Qed.
Lemma word_imp f s : (forall c, f c = true -> solid c = true) -> all_chars f s = true -> word s = true.
Proof. intros H. induction s as [|c s IH]; cbn; [reflexivity|]. rewrite !andb_true_iff. intros [A B]. auto. Qed.

(** names: the bracket of lists, and words without brackets and commas *)
Definition plainc (c : ascii) : bool := (solid c && negb (existsb (Ascii.eqb c) ["("; ")"; "["; "]"; ","]%char))%bool.
Definition wd (s : string) : bool := (negb (s =? "") && all_chars plainc s)%bool.
Definition tok (s : string) : bool := ((s =? "[") || wd s)%bool.
Lemma plain_solid c : plainc c = true -> solid c = true.
Proof. unfold plainc. rewrite andb_true_iff. tauto. Qed.
Lemma wd_word s : wd s = true -> word s = true.
Proof. unfold wd. rewrite andb_true_iff. intros [_ K]. exact (word_imp _ s plain_solid K). Qed.
Lemma tok_word s : tok s = true -> word s = true.
Proof. unfold tok. rewrite orb_true_iff. intros [K|K]; [apply String.eqb_eq in K; now subst|now apply wd_word]. Qed.
Lemma wd_tok s : wd s = true -> tok s = true.
Proof. intros K. unfold tok. rewrite K. apply orb_true_r. Qed.
Lemma wd_chars f c s : (forall c, f c = true -> plainc c = true) -> all_chars f (String c s) = true -> wd (String c s) = true.
Proof. intros H K. unfold wd. cbn [String.eqb negb andb]. generalize dependent (String c s). intros t. induction t as [|a t IH]; cbn; [reflexivity|]. rewrite !andb_true_iff. intros [A B]. auto. Qed.

(** blanks stand only around operators *)
Definition is_op (s : string) : Prop := exists i, op_name i = Some s.
Inductive tidy : string -> Prop :=
| td_nil : tidy ""
| td_char c s : solid c = true -> tidy s -> tidy (String c s)
| td_op o s : is_op o -> tidy s -> tidy (String " " (o +++ String " " s)).
Fixpoint lastc (d : ascii) (s : string) : ascii := match s with EmptyString => d | String c s' => lastc c s' end.
Definition ends_solid (s : string) : Prop := forall d, solid d = true -> solid (lastc d s) = true.
Definition neat (s : string) : Prop := tidy s /\ ends_solid s.
Lemma lastc_app a : forall d b, lastc d (a +++ b) = lastc (lastc d a) b.
Proof. induction a as [|c a IH]; intros d b; [reflexivity|]. apply IH. Qed.
Lemma tidy_app a b : tidy a -> tidy b -> tidy (a +++ b).
Proof.
  intros A B. induction A as [|c s Hc A IH|o s Ho A IH]; [exact B|now apply td_char|]. cbn [String.append].
  rewrite app_assoc_s. cbn [String.append]. now apply td_op.
Qed.
Lemma neat_app a b : neat a -> neat b -> neat (a +++ b).
Proof. intros [A1 A2] [B1 B2]. split; [now apply tidy_app|]. intros d Hd. rewrite lastc_app. auto. Qed.
Lemma word_neat s : word s = true -> neat s.
Proof.
  induction s as [|c s IH]; [split; [constructor|intros d Hd; exact Hd]|]. cbn. rewrite andb_true_iff. intros [Hc Hs].
  destruct (IH Hs) as [A B]. split; [now apply td_char|]. intros d Hd. apply B. exact Hc.
Qed.
Lemma op_word o : is_op o -> word o = true /\ o <> "".
Proof. intros (i & E). unfold op_name in E. destruct i as [|p|p]; [injection E as <-; now split| |discriminate E]. repeat (destruct p as [p|p|]; try discriminate E); injection E as <-; now split. Qed.
(** " o " in the middle *)
Lemma neat_op l o r : neat l -> is_op o -> neat r -> r <> "" -> neat (l +++ " " +++ o +++ " " +++ r).
Proof.
  intros [L1 L2] O [R1 R2] N. split.
  - apply tidy_app; [exact L1|]. exact (td_op o r O R1).
  - intros d Hd. rewrite lastc_app. cbn [String.append]. cbn [lastc]. rewrite lastc_app. cbn [lastc]. destruct r as [|c r]; [now elim N|]. cbn [lastc].
    assert (K : solid (lastc "a" (String c r)) = true) by now apply R2. exact K.
Qed.
Lemma set_last_some s c : set_last s c <> Val "".
Proof. destruct s as [|a [|b s]]; cbn [set_last]; try discriminate. destruct (match s with EmptyString => _ | _ => _ end); discriminate. Qed.
Lemma set_last_neat s c r : tidy s -> ends_solid s -> solid c = true -> set_last s c = Val r -> neat r.
Proof.
  intros T. revert r. induction T as [|d s Hd T IH|o s Ho T IH]; intros r En Hc E; [discriminate E| |].
  - cbn [set_last] in E. destruct s as [|a s]; [injection E as <-; apply word_neat; cbn; now rewrite Hc|].
    destruct (set_last (String a s) c) as [x|u|] eqn:Ex; cbn [bind] in E; try discriminate E. injection E as <-.
    assert (En' : ends_solid (String a s)) by (intros e He; exact (En e He)).
    destruct (IH x En' Hc eq_refl) as [A B]. split; [now apply td_char|]. intros e He. exact (B d Hd).
  - assert (N : s <> "").
    { intros ->. specialize (En "a"%char eq_refl). cbn [lastc] in En. rewrite lastc_app in En. discriminate En. }
    assert (En' : ends_solid s).
    { intros e He. specialize (En e He). cbn [lastc] in En. rewrite lastc_app in En. cbn [lastc] in En. destruct s as [|a s]; [now elim N|]. exact En. }
    assert (Ap : forall x y, y <> "" -> set_last (x +++ y) c = (z <- set_last y c ;; Val (x +++ z))).
    { intros x y Ny. induction x as [|a x IHx]; [cbn; now destruct (set_last y c)|]. cbn [String.append]. cbn [set_last]. destruct (x +++ y) as [|b w] eqn:Ew.
      - destruct x; [cbn in Ew; congruence|discriminate Ew].
      - rewrite IHx. now destruct (set_last y c). }
    change (String " " (o +++ String " " s)) with ((String " " o) +++ (String " " s)) in E. rewrite Ap in E by discriminate.
    change (String " " s) with (" " +++ s) in E. rewrite Ap in E by exact N.
    destruct (set_last s c) as [x|u|] eqn:Ex; cbn [bind] in E; try discriminate E. injection E as <-.
    destruct (IH x En' Hc eq_refl) as [A B]. split; [exact (td_op o x Ho A)|].
    intros e He. cbn [String.append lastc]. rewrite lastc_app. cbn [lastc].
    destruct x as [|a x]; [|exact (B "a"%char eq_refl)]. now elim (set_last_some s c Ex).
Qed.

(** --- names --- *)
Lemma all_ascii (f : ascii -> bool) : forallb (fun n => f (ascii_of_nat n)) (seq 0 256) = true -> forall c, f c = true.
Proof.
  intros H c. rewrite forallb_forall in H. rewrite <- (ascii_nat_embedding c). apply H. apply in_seq. split; [lia|]. apply nat_ascii_bounded.
Qed.
Lemma idc_solid c : is_idc c = true -> solid c = true.
Proof. intros H. pose proof (all_ascii (fun c => implb (is_idc c) (solid c)) eq_refl c) as K. cbv beta in K. now rewrite H in K. Qed.
Lemma digit_solid c : is_digit c = true -> solid c = true.
Proof. intros H. pose proof (all_ascii (fun c => implb (is_digit c) (solid c)) eq_refl c) as K. cbv beta in K. now rewrite H in K. Qed.
Lemma idc_plain c : is_idc c = true -> plainc c = true.
Proof. intros H. pose proof (all_ascii (fun c => implb (is_idc c) (plainc c)) eq_refl c) as K. cbv beta in K. now rewrite H in K. Qed.
Lemma digit_plain c : is_digit c = true -> plainc c = true.
Proof. intros H. pose proof (all_ascii (fun c => implb (is_digit c) (plainc c)) eq_refl c) as K. cbv beta in K. now rewrite H in K. Qed.
Lemma name_wd f s : (forall c, f c = true -> is_idc c = true) -> name_of f s = true -> wd s = true.
Proof.
  intros F Hs. destruct s as [|c s]; [discriminate Hs|]. cbn [name_of] in Hs. apply andb_true_iff in Hs. destruct Hs as [Hc Hs].
  apply (wd_chars is_idc); [exact idc_plain|]. cbn [all_chars]. now rewrite (F c Hc).
Qed.
Lemma name_word f s : (forall c, f c = true -> is_idc c = true) -> name_of f s = true -> tok s = true.
Proof. intros F Hs. apply wd_tok. now apply (name_wd f). Qed.
Lemma lower_idc c : is_lower c = true -> is_idc c = true.
Proof. intros K. unfold is_idc. now rewrite K. Qed.
Lemma upper_idc c : is_upper c = true -> is_idc c = true.
Proof. intros K. unfold is_idc. now rewrite K, orb_true_r. Qed.
Lemma number_wd s : number_text s = true -> wd s = true.
Proof.
  unfold number_text. destruct s as [|c s]; [discriminate|]. intros K. destruct (Ascii.eqb_spec c "-") as [->|].
  - unfold digits in K. destruct s; [discriminate K|]. apply (wd_chars (fun c => (Ascii.eqb c "-" || is_digit c)%bool)).
    + intros x. rewrite orb_true_iff. intros [E|E]; [apply Ascii.eqb_eq in E; now subst|now apply digit_plain].
    + cbn [all_chars Ascii.eqb orb andb]. change (all_chars (fun c => (Ascii.eqb c "-" || is_digit c)%bool) (String a s) = true).
      generalize dependent (String a s). intros t. induction t as [|x t IH]; cbn; [reflexivity|]. rewrite !andb_true_iff, orb_true_iff. intros [A B]. auto.
  - unfold digits in K. apply (wd_chars is_digit); [exact digit_plain|exact K].
Qed.
Lemma number_word s : number_text s = true -> tok s = true.
Proof. intros K. now apply wd_tok, number_wd. Qed.
(** names of functors, and the name of a node of a term *)
Definition ftok (s : string) : bool := (name_of is_lower s || existsb (String.eqb s) ["["; "=="; "\=="])%bool.
Definition ntok (n : node) : bool := match n with NCon s | NFun s _ => ftok s | _ => tok (node_name n) end.
Lemma ftok_tok s : ftok s = true -> tok s = true.
Proof.
  unfold ftok. rewrite orb_true_iff. intros [K|K]; [exact (name_word is_lower s lower_idc K)|]. apply existsb_exists in K. destruct K as (x & Hx & E). apply String.eqb_eq in E. subst x.
  cbn [In] in Hx. now repeat destruct Hx as [<-|Hx].
Qed.
Lemma ntok_tok n : ntok n = true -> tok (node_name n) = true.
Proof. destruct n; cbn [ntok node_name]; auto using ftok_tok. Qed.

(** --- texts of terms --- *)
Definition names_ok (s : storage) : Prop := (forall f, In f (s_functors s) -> ftok (fv_name f) = true) /\ (forall x, In x (s_vars s) -> tok x = true).
Lemma nthZ_in {A} (l : list A) i x : nthZ l i = Some x -> In x l.
Proof. unfold nthZ. destruct (_ <? 0)%Z; [discriminate|]. apply nth_error_In. Qed.
Lemma uint_word d : word (NilEmpty.string_of_uint d) = true.
Proof. induction d; cbn; auto. Qed.
Lemma uint_word0 d : word (NilZero.string_of_uint d) = true.
Proof. destruct d; try reflexivity; apply (uint_word (_ d)) || (cbn; apply uint_word). Qed.
Lemma int_word z : word (string_of_Z z) = true.
Proof. unfold string_of_Z. destruct (Z.to_int z) as [u|u]; cbn [NilZero.string_of_int]; [apply uint_word0|]. cbn. apply uint_word0. Qed.
Lemma str_args_neat p : (forall a s, p a = Val s -> neat s) -> forall n k s, str_args p n k = Val s -> neat s.
Proof.
  intros Hp. induction n as [|n IH]; intros k s E; cbn [str_args] in E; [exact (Hp _ _ E)|].
  destruct (p k) as [a|u|] eqn:Ea; cbn [bind] in E; try discriminate E. destruct (str_args p n (S k)) as [r|u|] eqn:Er; cbn [bind] in E; try discriminate E. injection E as <-.
  apply neat_app; [exact (Hp _ _ Ea)|]. apply (neat_app "," r); [now apply word_neat|exact (IH _ _ Er)].
Qed.
Section Neat.
Variable H : Type.
Variable ops : hops H.
Variable sto : storage.
Hypothesis NO : names_ok sto.
Lemma str_neat fuel : forall h users contig a s, str_of H ops sto fuel h users contig a = Val s -> neat s.
Proof.
  induction fuel as [|f IH]; intros h users contig a s E; [discriminate E|]. cbn [str_of] in E.
  destruct (deref H ops h a) as [d|u|]; cbn [bind] in E; try discriminate E. destruct (at_ H ops h d) as [c|u|]; cbn [bind] in E; try discriminate E.
  destruct c as [i|z|b v|i n|i n|b].
  all: try discriminate E.
  - destruct (nthZ (s_functors sto) i) as [fv|] eqn:Ev; cbn [of_opt bind] in E; [|discriminate E]. apply nthZ_in in Ev. apply (proj1 NO), ftok_tok, tok_word in Ev. injection E as <-. now apply word_neat.
  - injection E as <-. apply word_neat, int_word.
  - destruct (nthZ (s_vars sto) v) as [nm|] eqn:Ev; cbn [of_opt bind] in E; [|discriminate E]. apply nthZ_in in Ev. apply (proj2 NO), tok_word in Ev.
    injection E as <-. destruct (_ && _)%bool; apply word_neat; [|exact Ev]. rewrite word_app, Ev. apply int_word.
  - destruct (nthZ (s_functors sto) i) as [fv|] eqn:Ev; cbn [of_opt bind] in E; [|discriminate E]. apply nthZ_in in Ev. apply (proj1 NO), ftok_tok, tok_word in Ev.
    destruct (fv_is_empty_list fv). { injection E as <-. destruct contig; now apply word_neat. }
    destruct (fv_is_append fv); [discriminate E|]. destruct (fv_is_list fv).
    + destruct (str_of H ops sto f h users false (d + 1)) as [hd|u|] eqn:E1; cbn [bind] in E; try discriminate E.
      destruct (deref H ops h (d + 2)) as [rd|u|]; cbn [bind] in E; try discriminate E. destruct (at_ H ops h rd) as [rc|u|]; cbn [bind] in E; try discriminate E.
      destruct (str_of H ops sto f h users true (d + 2)) as [rest|u|] eqn:E2; cbn [bind] in E; try discriminate E.
      assert (B : neat (hd +++ match rc with CRef _ _ => "|" | _ => "," end +++ rest)).
      { apply neat_app; [exact (IH _ _ _ _ _ E1)|]. apply neat_app; [destruct rc; now apply word_neat|exact (IH _ _ _ _ _ E2)]. }
      destruct contig; [injection E as <-; exact B|].
      assert (B' : neat ("[" +++ hd +++ match rc with CRef _ _ => "|" | _ => "," end +++ rest)) by (apply neat_app; [now apply word_neat|exact B]).
      exact (set_last_neat _ "]"%char _ (proj1 B') (proj2 B') eq_refl E).
    + destruct (match fv_arity fv with 0 => _ | S _ => _ end) as [args|u|] eqn:Ea; cbn [bind] in E; try discriminate E. injection E as <-.
      assert (A : neat args). { destruct (fv_arity fv); [exact (IH _ _ _ _ _ Ea)|]. eapply str_args_neat; [|exact Ea]. intros x y Ey. exact (IH _ _ _ _ _ Ey). }
      apply neat_app; [now apply word_neat|]. apply (neat_app "("); [now apply word_neat|]. apply neat_app; [exact A|now apply word_neat].
  - destruct (op_name i) as [nm|] eqn:Eo; cbn [of_opt bind] in E; [|discriminate E].
    destruct (str_of H ops sto f h users false (d + 1)) as [l|u|] eqn:E1; cbn [bind] in E; try discriminate E.
    destruct (str_of H ops sto f h users false (d + 2)) as [r|u|] eqn:E2; cbn [bind] in E; try discriminate E. injection E as <-.
    apply (neat_app "("); [now apply word_neat|].
    apply (neat_op l nm (r +++ ")")); [exact (IH _ _ _ _ _ E1)|now exists i|apply neat_app; [exact (IH _ _ _ _ _ E2)|now apply word_neat]|]. now destruct r.
Qed.
End Neat.

(** --- reading the bindings back --- *)
Definition rest_ok (r : string) : Prop := r = "" \/ exists r', r = " [" +++ r'.
Lemma word_first o : is_op o -> exists c o', o = String c o' /\ c <> "["%char /\ c <> " "%char.
Proof. intros (i & E). unfold op_name in E. destruct i as [|p|p]; [injection E as <-| |discriminate E]; [|repeat (destruct p as [p|p|]; try discriminate E); injection E as <-]; (eexists _, _; split; [reflexivity|split; discriminate]). Qed.
Lemma word_cut a : forall b r s, word a = true -> word b = true -> a +++ String " " r = b +++ String " " s -> a = b /\ r = s.
Proof.
  induction a as [|c a IH]; intros b r s A B E.
  - destruct b as [|d b]; [injection E as ->; auto|]. injection E as <- _. discriminate B.
  - destruct b as [|d b]; [injection E as -> _; discriminate A|]. cbn in A, B. apply andb_true_iff in A, B. injection E as <- E.
    destruct (IH b r s (proj2 A) (proj2 B) E) as [-> ->]. auto.
Qed.
Lemma tidy_not_rest t r : tidy t -> rest_ok r -> forall u, t +++ "]" +++ u = r -> False.
Proof.
  intros T [->|(r' & ->)] u E; [destruct t; discriminate E|]. inversion T as [|c s Hc Hs|o s Ho Hs]; subst t.
  - discriminate E.
  - injection E as -> _. discriminate Hc.
  - destruct (word_first o Ho) as (c & o' & -> & Nc & _). cbn in E. injection E as -> _. now apply Nc.
Qed.
Lemma term_cut t1 : tidy t1 -> forall t2 r1 r2, tidy t2 -> rest_ok r1 -> rest_ok r2 -> t1 +++ "]" +++ r1 = t2 +++ "]" +++ r2 -> t1 = t2 /\ r1 = r2.
Proof.
  intros T1. induction T1 as [|c s Hc T1 IH|o s Ho T1 IH]; intros t2 r1 r2 T2 R1 R2 E.
  - inversion T2 as [|d s2 Hd T2'|o2 s2 Ho2 T2']; subst t2.
    + injection E as ->. auto.
    + cbn in E. injection E as _ E. symmetry in E. now elim (tidy_not_rest s2 r1 T2' R1 r2).
    + discriminate E.
  - inversion T2 as [|d s2 Hd T2'|o2 s2 Ho2 T2']; subst t2.
    + cbn in E. injection E as _ E. now elim (tidy_not_rest s r2 T1 R2 r1).
    + cbn in E. injection E as <- E. destruct (IH s2 r1 r2 T2' R1 R2 E) as [-> ->]. auto.
    + cbn in E. injection E as -> _. discriminate Hc.
  - inversion T2 as [|d s2 Hd T2'|o2 s2 Ho2 T2']; subst t2.
    + discriminate E.
    + cbn in E. injection E as <- _. discriminate Hd.
    + cbn [String.append] in E. injection E as E. rewrite !app_assoc_s in E. cbn [String.append] in E.
      destruct (word_cut o o2 _ _ (proj1 (op_word o Ho)) (proj1 (op_word o2 Ho2)) E) as [<- E']. destruct (IH s2 r1 r2 T2' R1 R2 E') as [-> ->]. auto.
Qed.
Definition bound_ok (b : string * string) : Prop := word (fst b) = true /\ tidy (snd b).
Lemma bindings_cons b l : exists r, rest_ok r /\ bindings_str (b :: l) = "[" +++ fst b +++ " / " +++ snd b +++ "]" +++ r /\ (r = "" <-> l = []) /\ (l <> [] -> r = " " +++ bindings_str l).
Proof.
  cbn [bindings_str]. unfold binding_str. destruct l as [|c l].
  - exists "". split; [now left|]. split; [reflexivity|]. split; [split; auto|]. intros K. now elim K.
  - exists (" " +++ bindings_str (c :: l)). split; [right|split].
    + cbn [bindings_str]. unfold binding_str. destruct l; eexists; reflexivity.
    + rewrite !app_assoc_s. reflexivity.
    + split; [split; discriminate|reflexivity].
Qed.
Lemma bindings_inj l1 : forall l2, Forall bound_ok l1 -> Forall bound_ok l2 -> bindings_str l1 = bindings_str l2 -> l1 = l2.
Proof.
  induction l1 as [|b1 l1 IH]; intros l2 F1 F2 E.
  - destruct l2 as [|b2 l2]; [reflexivity|]. destruct (bindings_cons b2 l2) as (r & _ & K & _). rewrite K in E. discriminate E.
  - destruct l2 as [|b2 l2]; [destruct (bindings_cons b1 l1) as (r & _ & K & _); rewrite K in E; discriminate E|].
    destruct (bindings_cons b1 l1) as (r1 & R1 & K1 & Z1 & N1), (bindings_cons b2 l2) as (r2 & R2 & K2 & Z2 & N2). rewrite K1, K2 in E. clear K1 K2.
    inversion F1 as [|? ? [W1 T1] F1']; inversion F2 as [|? ? [W2 T2] F2']; subst. cbn [String.append] in E. injection E as E.
    destruct (word_cut _ _ _ _ W1 W2 E) as [Ef E']. injection E' as E'. destruct (term_cut _ T1 _ _ _ T2 R1 R2 E') as [Es Er].
    destruct b1 as [x1 s1], b2 as [x2 s2]. cbn in Ef, Es. subst x2 s2. f_equal.
    destruct l1 as [|c1 l1].
    + assert (l2 = []) by (apply Z2; rewrite <- Er; now apply Z1). now subst.
    + destruct l2 as [|c2 l2]; [assert (c1 :: l1 = []) by (apply Z1; rewrite Er; now apply Z2); discriminate|].
      apply IH; auto. rewrite N1, N2 in Er by discriminate. now injection Er as Er.
Qed.
Lemma answer_inj a1 a2 : (forall l, a1 = Some l -> Forall bound_ok l) -> (forall l, a2 = Some l -> Forall bound_ok l) ->
  answer_str a1 = answer_str a2 -> a1 = a2.
Proof.
  intros F1 F2 E. assert (K : forall b l, bindings_str (b :: l) <> "false" /\ bindings_str (b :: l) <> "true").
  { intros b l. destruct (bindings_cons b l) as (r & _ & -> & _). split; discriminate. }
  destruct a1 as [[|b1 l1]|], a2 as [[|b2 l2]|]; try reflexivity; try discriminate E.
  - exfalso. exact (proj2 (K b2 l2) (eq_sym E)).
  - exfalso. exact (proj2 (K b1 l1) E).
  - f_equal. apply bindings_inj; auto.
  - exfalso. exact (proj1 (K b1 l1) E).
  - exfalso. exact (proj1 (K b2 l2) (eq_sym E)).
Qed.

(** --- names in the source --- *)
Definition all_words (n : node) : Prop := forall m, In m (n :: bfs_below n) -> ntok m = true.
Definition word_node (n : node) : Prop := forall m, In m (n :: bfs_below n) -> tok (node_name m) = true.
Lemma all_word n : all_words n -> word_node n.
Proof. intros A m Hm. now apply ntok_tok, A. Qed.
Lemma g_expr_inv n : g_expr n = true -> ntok n = true /\ forall k, In k (kids n) -> g_expr k = true.
Proof.
  destruct n as [s|s|s|s l|s l]; cbn [g_expr ntok node_name kids]; try discriminate.
  - intros K. split; [exact (name_word is_upper s upper_idc K)|intros k []].
  - intros K. split; [now apply number_word|intros k []].
  - destruct l as [|a [|b [|c l]]]; try discriminate. rewrite !andb_true_iff. intros [[O A] B]. split.
    + unfold operator in O. apply existsb_exists in O. destruct O as (o & Ho & O). apply String.eqb_eq in O. subst s. cbn [In] in Ho. now repeat destruct Ho as [<-|Ho].
    + intros k [<-|[<-|[]]]; assumption.
Qed.
Lemma g_term_inv n : g_term n = true -> ntok n = true /\ forall k, In k (kids n) -> g_term k = true.
Proof.
  assert (X : forall m, g_expr m = true -> ntok m = true /\ forall k, In k (kids m) -> g_term k = true).
  { intros m K. apply g_expr_inv in K. split; [apply K|]. intros k Hk. apply expr_term, K, Hk. }
  destruct n as [s|s|s|s l|s l]; try apply (X _).
  - cbn [g_term ntok kids]. intros K. split; [cbn; unfold ftok; now rewrite K|intros k []].
  - cbn [g_term ntok kids]. rewrite andb_true_iff, forallb_forall. intros [F K]. split; [|exact F].
    destruct (String.eqb_spec s "[") as [->|]; [reflexivity|]. apply andb_true_iff in K. cbn. unfold ftok. now rewrite (proj1 K).
Qed.
Lemma g_atom_inv n : g_atom n = true -> ntok n = true /\ forall k, In k (kids n) -> g_term k = true.
Proof.
  assert (X : forall m, g_head m = true -> ntok m = true /\ forall k, In k (kids m) -> g_term k = true) by (intros m K; now apply g_term_inv, head_term).
  intros K. destruct n as [s|s|s|s l|s l]; try exact (X _ K). destruct l as [|a [|b [|c l]]]; try exact (X _ K). cbn [g_atom] in K.
  destruct ((s =? "==") || (s =? "\=="))%bool eqn:Es; [|exact (X _ K)]. apply andb_true_iff in K. cbn [ntok kids]. split.
  - apply orb_true_iff in Es. destruct Es as [Es|Es]; apply String.eqb_eq in Es; now subst.
  - intros k [<-|[<-|[]]]; apply K.
Qed.
Lemma sub_term m n : sub m n -> g_term n = true -> g_term m = true.
Proof. intros S. induction S as [|n k Hk S IH]; [auto|]. intros K. apply IH. now apply (g_term_inv n K). Qed.
Lemma atom_words n : g_atom n = true -> all_words n.
Proof.
  intros K m [<-|Hm]; [now apply g_atom_inv|]. apply below_sub in Hm. destruct Hm as (k & Hk & S). apply (g_term_inv m). apply (sub_term m k S). now apply (g_atom_inv n K).
Qed.

(** --- names in the tables --- *)
Definition knm {A} (m : comp A) : Prop := forall s, names_ok s -> names_ok (snd (m s)).
Lemma knm_bind {A B} (m : comp A) (f : A -> comp B) : knm m -> (forall a, knm (f a)) -> knm (cbind m f).
Proof. intros Hm Hf s N. unfold cbind. specialize (Hm s N). destruct (m s) as [[a|e|] s1]; cbn in *; auto. now apply Hf. Qed.
Lemma knm_ret {A} (a : A) : knm (cret a). Proof. intros s N. exact N. Qed.
Lemma knm_throw {A} e : knm (@cthrow A e). Proof. intros s N. exact N. Qed.
Lemma knm_esc {A} : knm (@cesc A). Proof. intros s N. exact N. Qed.
Lemma knm_fidx f : ftok (fv_name f) = true -> knm (cfidx f).
Proof.
  intros Hf s [N1 N2]. unfold cfidx, functor_index_of. destruct (fv_pos f (s_functors s)); cbn; [now split|]. split; cbn; [|exact N2].
  intros g Hg. apply in_app_iff in Hg. destruct Hg as [Hg|[<-|[]]]; auto.
Qed.
Lemma knm_var x : tok x = true -> knm (cvar x).
Proof. intros Hx s [N1 N2]. cbn. split; cbn; [exact N1|]. intros g Hg. apply in_app_iff in Hg. destruct Hg as [Hg|[<-|[]]]; auto. Qed.
Lemma knm_stoi s : knm (cstoi s).
Proof. unfold cstoi. destruct (int_text_val s); [|apply knm_esc]. destruct (_ && _)%bool; auto using knm_ret, knm_esc. Qed.
Lemma knm_opidx s : knm (copidx s).
Proof. unfold copidx. destruct (op_index s); auto using knm_ret, knm_esc. Qed.
Ltac knm :=
  repeat first
    [ apply knm_ret | apply knm_throw | apply knm_esc | apply knm_fidx; assumption | apply knm_var; assumption | apply knm_stoi
    | apply knm_opidx | solve [auto]
    | apply knm_bind; [|intros ?]
    | match goal with |- knm (match ?x with _ => _ end) => destruct x end
    | match goal with |- knm (let '(_, _) := ?x in _) => destruct x end ].
Definition ent_words (e : ent) : Prop := ntok (en_node e) = true /\ forall k, In k (en_kids e) -> ntok (fst k) = true.
Section Kept.
Variable perm : string -> option nat.
Lemma query_kid_knm k seen : ntok (fst k) = true -> knm (query_kid perm k seen).
Proof. destruct k as [n x]. cbn [fst]. unfold query_kid. intros W. pose proof (ntok_tok _ W) as W'. destruct n; cbn [ntok node_name] in *; knm. Qed.
Lemma query_kids_knm ks : forall seen, (forall k, In k ks -> ntok (fst k) = true) -> knm (query_kids perm ks seen).
Proof.
  induction ks as [|k ks IH]; intros seen W; cbn [query_kids]; [apply knm_ret|]. apply knm_bind; [apply query_kid_knm, W; now left|].
  intros [c1 s1]. apply knm_bind; [apply IH; intros x Hx; apply W; now right|]. intros [c2 s2]. apply knm_ret.
Qed.
Lemma query_ent_knm vx e seen : ent_words e -> knm (query_ent perm vx e seen).
Proof.
  intros [W K]. pose proof (ntok_tok _ W) as W'. assert (Q : forall sn, knm (query_kids perm (en_kids e) sn)) by (intros sn; now apply query_kids_knm).
  unfold query_ent. destruct (en_node e) as [s|s|s|s l|s l]; cbn [ntok node_name] in *; knm.
Qed.
Lemma query_ents_knm vx es : forall seen, Forall ent_words es -> knm (query_ents perm vx es seen).
Proof.
  induction es as [|e es IH]; intros seen F; cbn [query_ents]; [apply knm_ret|]. inversion F; subst. apply knm_bind; [now apply query_ent_knm|].
  intros [c1 s1]. apply knm_bind; [now apply IH|]. intros [c2 s2]. apply knm_ret.
Qed.
Lemma prog_kid_knm k seen : ntok (fst k) = true -> knm (prog_kid perm k seen).
Proof. destruct k as [n x]. cbn [fst]. unfold prog_kid. intros W. pose proof (ntok_tok _ W) as W'. destruct n; cbn [ntok node_name] in *; knm. Qed.
Lemma prog_kids_knm ks : forall seen, (forall k, In k ks -> ntok (fst k) = true) -> knm (prog_kids perm ks seen).
Proof.
  induction ks as [|k ks IH]; intros seen W; cbn [prog_kids]; [apply knm_ret|]. apply knm_bind; [apply prog_kid_knm, W; now left|].
  intros [c1 s1]. apply knm_bind; [apply IH; intros x Hx; apply W; now right|]. intros [c2 s2]. apply knm_ret.
Qed.
Lemma prog_ent_knm e seen : ent_words e -> knm (prog_ent perm e seen).
Proof.
  intros [W K]. pose proof (ntok_tok _ W) as W'. assert (Q : forall sn, knm (prog_kids perm (en_kids e) sn)) by (intros sn; now apply prog_kids_knm).
  unfold prog_ent. destruct (en_node e) as [s|s|s|s l|s l]; cbn [ntok node_name] in *; knm.
Qed.
Lemma prog_ents_knm es : forall seen, Forall ent_words es -> knm (prog_ents perm es seen).
Proof.
  induction es as [|e es IH]; intros seen F; cbn [prog_ents]; [apply knm_ret|]. inversion F; subst. apply knm_bind; [now apply prog_ent_knm|].
  intros [c1 s1]. apply knm_bind; [now apply IH|]. intros [c2 s2]. apply knm_ret.
Qed.
Lemma ents_words n es : all_words n -> ents_in n es -> Forall ent_words es.
Proof. intros A I. apply Forall_forall. intros e He. destruct (I e He) as [K1 K2]. split; [now apply A|]. intros k Hk. apply A. now apply K2. Qed.
Lemma to_query_knm n a seen : all_words n -> ents_in n (aa_ents a) -> knm (to_query perm a seen).
Proof. intros A I. unfold to_query. apply knm_bind; [|intros [c s]; apply knm_ret]. apply query_ents_knm, (ents_words n); [exact A|now apply Atoms.flatq_in]. Qed.
Lemma to_program_knm n a seen : all_words n -> ents_in n (aa_ents a) -> knm (to_program perm a seen).
Proof. intros A I. unfold to_program. apply knm_bind; [|intros [c s]; apply knm_ret]. apply prog_ents_knm, (ents_words n); [exact A|now apply Atoms.flat_in]. Qed.

(** the variables shown of an atom *)
(** the names of an atom of code *)
Definition subs_words (a : catom) : Prop := Forall (fun x => tok (fst (fst x)) = true) (ca_subs a) /\ word_node (ca_node a).
Lemma vars_words n s : all_words n -> In s (vars_of n) -> tok s = true.
Proof.
  intros A Hs. unfold vars_of in Hs. apply in_flat_map in Hs. destruct Hs as (m & Hm & Hs). specialize (A m (or_intror Hm)). destruct m; cbn in Hs; try contradiction.
  destruct Hs as [<-|[]]. exact A.
Qed.
Lemma var_regs_words vs vx : forall done, (forall s, In s vs -> tok s = true) -> Forall (fun x => tok (fst (fst x)) = true) (var_regs perm vs vx done).
Proof.
  induction vs as [|s vs IH]; intros done W; cbn [var_regs]; [constructor|]. destruct (existsb (String.eqb s) done).
  - apply IH. intros x Hx. apply W. now right.
  - constructor; [destruct (perm s); apply W; now left|]. apply IH. intros x Hx. apply W. now right.
Qed.
Lemma subst_words a : all_words (aa_top a) -> Forall (fun x => tok (fst (fst x)) = true) (find_var_reg_substitutions perm a).
Proof. intros A. unfold find_var_reg_substitutions. destruct (is_constant (aa_top a)); [constructor|]. apply var_regs_words. intros s Hs. exact (vars_words _ s A Hs). Qed.

Definition gives {A} (P : A -> Prop) (m : comp A) : Prop := forall s a s', m s = (COk a, s') -> P a.
Lemma gives_bind {A B} (P : A -> Prop) (Q : B -> Prop) (m : comp A) (f : A -> comp B) : gives P m -> (forall a, P a -> gives Q (f a)) -> gives Q (cbind m f).
Proof. intros Hm Hf s b s' E. apply cbind_ok in E. destruct E as (a & s1 & E1 & E2). exact (Hf a (Hm _ _ _ E1) _ _ _ E2). Qed.
Lemma gives_ret {A} (P : A -> Prop) a : P a -> gives P (cret a).
Proof. intros K s b s' E. now injection E as <- _. Qed.
Lemma gives_any {A} (m : comp A) : gives (fun _ => True) m.
Proof. intros s a s' _. exact I. Qed.
Lemma query_atom_knm pre u n seen : all_words n -> knm (compile_query_atom perm pre u n seen) /\ gives (fun x => subs_words (fst x)) (compile_query_atom perm pre u n seen).
Proof.
  intros A. unfold compile_query_atom. pose proof (assign_one_in n) as I. pose proof (aa_top_one n) as T. destruct (assign_one n) as [a cnt]. cbn [fst] in I, T. split.
  - apply knm_bind; [now apply (to_query_knm n)|]. intros [c s]. apply knm_ret.
  - eapply gives_bind; [apply gives_any|]. intros [c s] _. apply gives_ret. unfold subs_words. cbn [fst ca_subs ca_node]. rewrite ?T. split; [apply subst_words; now rewrite T|exact (all_word _ A)].
Qed.
Lemma query_atoms_knm u ns : forall pre seen, Forall all_words ns -> knm (compile_query_atoms perm pre u ns seen) /\ gives (Forall subs_words) (compile_query_atoms perm pre u ns seen).
Proof.
  induction ns as [|n ns IH]; intros pre seen F; cbn [compile_query_atoms]; [split; [apply knm_ret|apply gives_ret; constructor]|]. inversion F; subst. split.
  - apply knm_bind; [now apply query_atom_knm|]. intros [a s]. apply knm_bind; [now apply IH|]. intros r. apply knm_ret.
  - eapply gives_bind; [now apply query_atom_knm|]. intros [a s] Ha. eapply gives_bind; [now apply IH|]. intros r Hr. apply gives_ret. now constructor.
Qed.
End Kept.
Lemma compile_query_knm cf q : Forall all_words q -> knm (compile_query cf q) /\ gives (Forall subs_words) (compile_query cf q).
Proof. intros F. unfold compile_query. now apply query_atoms_knm. Qed.
Lemma program_term_knm cf b c : Forall all_words c -> knm (compile_program_term cf b c) /\ gives (fun x => Forall subs_words (snd x)) (compile_program_term cf b c).
Proof.
  intros F. unfold compile_program_term. destruct c as [|h body]; [split; [apply knm_esc|intros s a s' E; discriminate E]|].
  destruct (negb b && redefines h)%bool; [split; [apply knm_throw|intros s a s' E; discriminate E]|]. inversion F as [|? ? Fh Fb]; subst.
  set (perm := fun s => pos_of s (perm_order cf (h :: body) true)).
  destruct (match body with [] => _ | _ => _ end) as [[ha oba] cnt] eqn:Ea.
  assert (K : ents_in h (aa_ents ha) /\ aa_top ha = h /\ match oba with None => True | Some ba => exists b1, In b1 body /\ ents_in b1 (aa_ents ba) /\ aa_top ba = b1 end).
  { destruct body as [|b1 body].
    - pose proof (assign_one_in h) as I1. pose proof (aa_top_one h) as T1. destruct (assign_one h) as [x y]. injection Ea as <- <- _. auto.
    - pose proof (assign_two_in h b1) as I2. pose proof (assign_hb_head h (b1 :: body)) as (A1 & _ & ba & A2 & A3). cbn [assign_hb] in A1, A2.
      destruct (assign_two h b1) as [[x y] z]. injection Ea as <- <- _. cbn [fst snd] in A1, A2, I2. injection A2 as <-. subst x.
      split; [apply assign_one_in|]. split; [apply aa_top_one|]. exists b1. split; [now left|]. auto. }
  destruct K as (I1 & T1 & K2).
  assert (Fo : forall sn, knm (compile_query_atoms perm [] false (tl body) sn) /\ gives (Forall subs_words) (compile_query_atoms perm [] false (tl body) sn)).
  { intros sn. apply query_atoms_knm. destruct body; [constructor|]. now inversion Fb. }
  split.
  - apply knm_bind; [now apply (to_program_knm perm h)|]. intros [hc s1]. apply knm_bind.
    + destruct oba as [ba|]; [|apply knm_ret]. destruct K2 as (b1 & Hb & I2 & T2). apply knm_bind; [|intros [? ?]; apply knm_ret].
      apply (to_query_knm perm b1); [|exact I2]. rewrite Forall_forall in Fb. now apply Fb.
    + intros [firsts s3]. apply knm_bind; [apply Fo|]. intros others. apply knm_ret.
  - eapply gives_bind; [apply gives_any|]. intros [hc s1] _. apply (gives_bind (fun x => Forall subs_words (fst x))).
    + destruct oba as [ba|]; [|apply gives_ret; constructor]. destruct K2 as (b1 & Hb & I2 & T2). eapply gives_bind; [apply gives_any|]. intros [bc s3] _. apply gives_ret.
      cbn [fst]. constructor; [|constructor]. unfold subs_words. cbn [ca_subs ca_node]. rewrite Forall_forall in Fb. rewrite ?T2. split; [apply subst_words; rewrite T2|apply all_word]; now apply Fb.
    + intros [firsts s3] Hf. eapply gives_bind; [apply Fo|]. intros others Ho. apply gives_ret. cbn [snd fst] in *. constructor.
      * unfold subs_words. cbn [ca_subs ca_node]. rewrite ?T1. split; [apply subst_words; now rewrite T1|exact (all_word _ Fh)].
      * apply Forall_app. split; [exact Hf|]. apply Forall_app. split; [exact Ho|]. destruct (Nat.eqb _ 0); [constructor|]. constructor; [|constructor]. split; [constructor|]. intros m [<-|[]]. reflexivity.
Qed.
Definition prog_words (p : prog) : Prop := Forall (fun e => Forall (Forall subs_words) (snd e)) p.
Lemma padd_words f r p : Forall subs_words r -> prog_words p -> prog_words (padd f r p).
Proof.
  intros R. induction p as [|[g rs] p IH]; intros F; cbn [padd]; [constructor; [constructor; [exact R|constructor]|constructor]|]. inversion F as [|? ? F1 F2]; subst.
  destruct (fview_eqb f g); constructor; [|exact F2|exact F1|exact (IH F2)]. cbn [snd] in *. apply Forall_app. split; [exact F1|]. constructor; [exact R|constructor].
Qed.
Lemma pset_words f rs p : Forall (Forall subs_words) rs -> prog_words p -> prog_words (pset f rs p).
Proof.
  intros R. induction p as [|[g rs'] p IH]; intros F; cbn [pset]; [constructor; [exact R|constructor]|]. inversion F as [|? ? F1 F2]; subst. destruct (fview_eqb f g); constructor; [exact R|exact F2|exact F1|exact (IH F2)].
Qed.
Lemma merge_words b : forall p, prog_words b -> prog_words p -> prog_words (merge b p).
Proof. unfold merge. induction b as [|e b IH]; intros p B P; [exact P|]. inversion B; subst. cbn [fold_left]. apply IH; [assumption|]. now apply pset_words. Qed.
Lemma clauses_knm cf b cs : forall p, Forall (Forall all_words) cs -> prog_words p -> knm (compile_clauses cf b cs p) /\ gives prog_words (compile_clauses cf b cs p).
Proof.
  induction cs as [|c cs IH]; intros p F P; cbn [compile_clauses]; [split; [apply knm_ret|now apply gives_ret]|]. inversion F; subst. destruct (program_term_knm cf b c) as [K G]; [assumption|]. split.
  - intros s N. unfold cbind. specialize (K s N). destruct (compile_program_term cf b c s) as [[[f r]|e|] s1] eqn:E; cbn [snd] in *; auto. apply IH; auto. apply padd_words; [|assumption]. exact (G _ _ _ E).
  - eapply gives_bind; [exact G|]. intros [f r] Hr. apply IH; auto. now apply padd_words.
Qed.
Lemma binary_knm cf nm f p : ftok nm = true -> prog_words p -> knm (compile_binary cf nm f p) /\ gives prog_words (compile_binary cf nm f p).
Proof.
  intros W P. unfold compile_binary. destruct (pred_regs _) as [xl xr]. destruct (program_term_knm cf true [binary_pred nm]) as [K G].
  { constructor; [|constructor]. intros m [<-|[<-|[<-|[]]]]; [exact W|reflexivity|reflexivity]. }
  split; [apply knm_bind; [exact K|]; intros [fv r]; apply knm_ret|]. eapply gives_bind; [exact G|]. intros [fv r] Hr. apply gives_ret. apply padd_words; [|exact P].
  cbn [snd] in Hr. destruct r as [|a r]; [exact Hr|]. inversion Hr; subst. cbn [insert_pred]. constructor; assumption.
Qed.
Lemma built_knm cf : knm (compile_built_ins cf) /\ gives prog_words (compile_built_ins cf).
Proof.
  assert (F : Forall (Forall all_words) append_clauses).
  { assert (K : forallb (forallb (fun n => forallb ntok (n :: bfs_below n))) append_clauses = true) by reflexivity.
    rewrite forallb_forall in K. apply Forall_forall. intros c Hc. specialize (K c Hc). rewrite forallb_forall in K. apply Forall_forall. intros n Hn. specialize (K n Hn).
    rewrite forallb_forall in K. exact K. }
  assert (B : forall nm f p, ftok nm = true -> prog_words p -> knm (compile_binary cf nm f p) /\ gives prog_words (compile_binary cf nm f p)) by (intros; now apply binary_knm).
  assert (N : prog_words []) by constructor.
  assert (S : forall (m : comp prog) f, knm m -> gives prog_words m -> (forall p, prog_words p -> knm (f p) /\ gives prog_words (f p)) -> knm (cbind m f) /\ gives prog_words (cbind m f)).
  { intros m f K G H. split; [|eapply gives_bind; [exact G|]; intros p Hp; now apply H]. intros s Ns. unfold cbind. specialize (K s Ns).
    destruct (m s) as [[p|e|] s1] eqn:E; cbn [snd] in *; auto. apply H; [exact (G _ _ _ E)|exact K]. }
  unfold compile_built_ins. apply S; [now apply B|now apply B|]. intros p1 P1. apply S; [now apply B|now apply B|]. intros p2 P2. apply S; [now apply B|now apply B|]. intros p3 P3. now apply clauses_knm.
Qed.

(** --- every object that can come about --- *)
Definition ptr_words (p : cptr) : Prop := subs_words (cp_atom p).
Definition exec_words (e : exec) : Prop := Forall ptr_words (x_codes e).
Record org_words (o : org) : Prop := {
  ow_sto : names_ok (o_sto o);
  ow_prog : prog_words (o_prog o);
  ow_built : prog_words (o_built o);
  ow_arena : Forall exec_words (o_arena o) }.
Lemma parsed_program_words t P : parse_program t = Some (COk P) -> Forall (Forall all_words) P.
Proof.
  intros E. apply parse_program_g in E. rewrite forallb_forall in E. apply Forall_forall. intros c Hc. specialize (E c Hc). destruct c as [|h b]; [discriminate E|].
  cbn [g_clause] in E. apply andb_true_iff in E. destruct E as [E1 E2]. constructor; [now apply atom_words, head_atom|]. rewrite forallb_forall in E2. apply Forall_forall. intros n Hn. apply atom_words, E2, Hn.
Qed.
Lemma parsed_query_words t q : parse_query t = Some (COk q) -> Forall all_words q.
Proof.
  intros E. apply parse_query_g in E. unfold g_query in E. destruct q as [|n q]; [discriminate E|]. rewrite forallb_forall in E. apply Forall_forall. intros m Hm. apply atom_words, E, Hm.
Qed.
Lemma get_exec_words o id e : org_words o -> get_exec o id = Val e -> exec_words e.
Proof. intros W E. unfold get_exec in E. destruct (nth_error (o_arena o) id) eqn:Ee; cbn in E; [|discriminate E]. injection E as <-. pose proof (ow_arena o W) as F. rewrite Forall_forall in F. apply F. exact (nth_error_In _ _ Ee). Qed.
Lemma upd_forall {A} (P : A -> Prop) l : forall i x l', Forall P l -> P x -> upd l i x = Some l' -> Forall P l'.
Proof.
  induction l as [|a l IH]; intros i x l' F Hx E; [destruct i; discriminate E|]. inversion F; subst. destruct i as [|i]; cbn in E.
  - injection E as <-. now constructor.
  - destruct (upd l i x) as [l2|] eqn:El; cbn in E; [|discriminate E]. injection E as <-. constructor; [assumption|]. exact (IH i x l2 H2 Hx El).
Qed.
Lemma put_exec_words o id e o' : org_words o -> exec_words e -> put_exec o id e = Val o' -> org_words o'.
Proof.
  intros W He E. unfold put_exec in E. destruct (upd (o_arena o) id e) as [a|] eqn:Ea; cbn [of_opt bind] in E; [|discriminate E]. injection E as <-. destruct W as [W1 W2 W3 W4].
  split; cbn; auto. exact (upd_forall _ _ _ _ _ W4 He Ea).
Qed.
Lemma add_child_words o id c o' : org_words o -> exec_words c -> add_child o id c = Val o' -> org_words o'.
Proof.
  intros W Hc E. unfold add_child in E. destruct (get_exec o id) as [e|u|] eqn:Ee; cbn [bind] in E; try discriminate E. pose proof (get_exec_words o id e W Ee) as He.
  destruct (put_exec o id _) as [o1|u|] eqn:E1; cbn [bind] in E; try discriminate E. injection E as <-.
  apply put_exec_words in E1; [|exact W|exact He]. destruct E1 as [W1 W2 W3 W4]. split; cbn; auto. apply Forall_app. split; [exact W4|]. constructor; [exact Hc|constructor].
Qed.
Lemma spawn_words id rs : forall o o', org_words o -> Forall (Forall subs_words) rs -> spawn o id rs = Val o' -> org_words o'.
Proof.
  induction rs as [|r rs IH]; intros o o' W F E; cbn [spawn] in E; [now injection E as <-|]. inversion F as [|? ? Fr Fs]; subst.
  destruct (get_exec o id) as [e|u|] eqn:Ee; cbn [bind] in E; try discriminate E. pose proof (get_exec_words o id e W Ee) as He. unfold exec_words in He.
  destruct (x_codes e) as [|p codes]; [discriminate E|]. inversion He; subst. destruct (add_child o id _) as [o1|u|] eqn:E1; cbn [bind] in E; try discriminate E.
  apply (IH o1 o'); auto. refine (add_child_words _ _ _ _ W _ E1). unfold exec_words. cbn [x_codes]. apply Forall_app. split; [|assumption].
  unfold rule_ptrs. apply Forall_forall. intros x Hx. apply in_map_iff in Hx. destruct Hx as (a & <- & Ha). rewrite Forall_forall in Fr. exact (Fr a Ha).
Qed.
Lemma plookup_words f p rs : prog_words p -> plookup f p = Some rs -> Forall (Forall subs_words) rs.
Proof.
  induction p as [|[g rs'] p IH]; intros F E; [discriminate E|]. inversion F; subst. cbn [plookup] in E. destruct (fview_eqb f g); [injection E as <-; assumption|auto].
Qed.
Lemma clear_words e e' : exec_words e -> clear_exec e = Val e' -> exec_words e'.
Proof. unfold exec_words, clear_exec. intros F E. destruct (x_codes e) as [|c l]; [discriminate E|]. injection E as <-. cbn. inversion F; subst. constructor; [assumption|constructor]. Qed.
Lemma queue_words o q : org_words o -> org_words (set_queue o q).
Proof. intros [? ? ? ?]. split; assumption. Qed.
Lemma stats_words o n : org_words o -> org_words (set_stats o n).
Proof. intros [? ? ? ?]. split; assumption. Qed.
Ltac getx E x Ex := match type of E with context [bind ?m _] => destruct m as [x|?|] eqn:Ex; cbn [bind] in E; try discriminate E end.
Section Turns.
Variable cf : cfg.
Variable fuel : nat.
Lemma instr_words o id i st o' : org_words o -> instr_step cf fuel o id i = Val (st, o') -> org_words o'.
Proof.
  intros W E.
  assert (L : forall i, (e <- get_exec o id ;;
      '(st, m) <- local_step lheap (lops (heap_at (o_arena o) (x_parent e))) cf (o_sto o) fuel i (x_m e) ;;
      match st with
      | Cont => o1 <- put_exec o id (with_m e m) ;; Val (RCont, o1)
      | Failing => o1 <- put_exec o id (with_state (with_m e m) SFail) ;; Val (RFailing, o1)
      | Raise er => o1 <- put_exec o id (with_state (with_m e m) (SError er)) ;; Val (RRaise er, o1)
      end) = Val (st, o') -> org_words o').
  { clear E. intros j E. getx E e Ee. pose proof (get_exec_words o id e W Ee) as He. destruct (local_step _ _ _ _ _ _ _) as [[s m]|u|]; cbn [bind] in E; try discriminate E.
    destruct s as [| |er]; getx E o1 E1; injection E as _ <-; (refine (put_exec_words _ _ _ _ W _ E1); exact He). }
  destruct i; try exact (L _ E); clear L; cbn [instr_step] in E.
  - unfold do_call in E. pose proof (stats_words o ((o_stats o + 1) mod 4294967296)%Z W) as W0. set (o0 := set_stats o _) in *.
    destruct (plookup f (o_prog o0)) as [rs|] eqn:Ep.
    + getx E o1 E1. assert (W1 : org_words o1) by (refine (spawn_words id rs o0 o1 W0 _ E1); exact (plookup_words _ _ _ (ow_prog _ W0) Ep)).
      getx E e Ee. getx E e1 Ee1. getx E o2 E2. injection E as _ <-. refine (put_exec_words _ _ _ _ W1 _ E2). exact (clear_words e e1 (get_exec_words _ _ _ W1 Ee) Ee1).
    + getx E e Ee. getx E o1 E1. injection E as _ <-. refine (put_exec_words _ _ _ _ W0 _ E1). exact (get_exec_words _ _ _ W0 Ee).
  - unfold do_proceed in E. getx E e Ee. pose proof (get_exec_words o id e W Ee) as He. destruct (x_codes e) as [|c codes] eqn:Ec; [discriminate E|]. unfold exec_words in He. rewrite Ec in He. inversion He; subst.
    getx E d Ed. destruct d.
    + getx E e1 Ee1. getx E o1 E1. injection E as _ <-. refine (put_exec_words _ _ _ _ W _ E1). refine (clear_words _ e1 _ Ee1). unfold exec_words. cbn. now rewrite Ec.
    + getx E o1 E1. getx E o2 E2. injection E as _ <-. refine (add_child_words _ _ _ _ _ _ E2); [|assumption]. refine (put_exec_words _ _ _ _ W _ E1). constructor; [assumption|constructor].
  - unfold do_dealloc in E. getx E e Ee. pose proof (get_exec_words o id e W Ee) as He. unfold exec_words in He. destruct (m_envs (x_m e)) as [|v envs]; [discriminate E|].
    destruct (x_codes e) as [|c codes]; [discriminate E|]. inversion He; subst. getx E o1 E1. injection E as _ <-. apply queue_words. refine (put_exec_words _ _ _ _ W _ E1). assumption.
Qed.
Lemma run_words id is : forall o st o', org_words o -> run_instrs cf fuel o id is = Val (st, o') -> org_words o'.
Proof.
  induction is as [|i is IH]; intros o st o' W E; cbn [run_instrs] in E; [now injection E as _ <-|].
  destruct (instr_step cf fuel o id i) as [[s o1]|u|] eqn:E1; cbn [bind] in E; try discriminate E. pose proof (instr_words o id i s o1 W E1) as W1.
  destruct s as [| |er]; [exact (IH o1 st o' W1 E)| |]; getx E e Ee; getx E e1 Ee1; getx E o2 E2; injection E as _ <-; refine (put_exec_words _ _ _ _ W1 _ E2); exact (clear_words e e1 (get_exec_words _ _ _ W1 Ee) Ee1).
Qed.
Lemma walk_words n : forall o id l, org_words o -> walk n o id = Val l -> Forall (fun x => tok (fst x) = true) l.
Proof.
  assert (S : forall m ss l, Forall (fun x => tok (fst (fst x)) = true) ss -> sub_addrs m ss = Val l -> Forall (fun x : string * nat => tok (fst x) = true) l).
  { intros m. induction ss as [|[[nm r] p] ss IH]; intros l F E; cbn [sub_addrs] in E; [injection E as <-; constructor|]. inversion F; subst.
    getx E a Ea. getx E l2 El. injection E as <-. constructor; [|auto]. unfold sub_addr in Ea. getx Ea c Ec. getx Ea a2 Ea2. injection Ea as <-. assumption. }
  induction n as [|n IH]; intros o id l W E; [discriminate E|]. cbn [walk] in E. getx E e Ee. pose proof (get_exec_words o id e W Ee) as He. unfold exec_words in He.
  destruct (x_codes e) as [|p [|p2 ps]]; try discriminate E. inversion He as [|? ? Hp _]; subst. getx E a Ea. getx E here Eh.
  assert (Hh : Forall (fun x : string * nat => tok (fst x) = true) here).
  { destruct (ca_user a); [|injection Eh as <-; constructor]. refine (S _ _ _ _ Eh). unfold follow in Ea. destruct (Nat.eqb _ _); [|discriminate Ea]. injection Ea as <-. exact (proj1 Hp). }
  destruct (x_parent e) as [pid|]; [|injection E as <-; exact Hh]. getx E pe Epe. destruct (x_parent pe) as [gid|]; [|discriminate E]. getx E rest Er. injection E as <-.
  apply Forall_app. split; [exact Hh|]. exact (IH o gid rest W Er).
Qed.
Lemma bind_names_words p : (forall a s, p a = Val s -> tidy s) -> forall l done b, Forall (fun x : string * nat => tok (fst x) = true) l -> Forall bound_ok done ->
  bind_names p l done = Val b -> Forall bound_ok b.
Proof.
  intros Hp. induction l as [|[nm a] l IH]; intros done b F D E; cbn [bind_names] in E; [injection E as <-; exact D|]. inversion F; subst.
  destruct (existsb _ done); [exact (IH _ _ H2 D E)|]. getx E s Es. refine (IH _ _ H2 _ E). apply Forall_app. split; [exact D|]. constructor; [|constructor]. split; [now apply tok_word|exact (Hp _ _ Es)].
Qed.
Lemma find_subs_words o id b : org_words o -> find_subs fuel o id = Val b -> Forall bound_ok b.
Proof.
  intros W E. unfold find_subs in E. getx E e Ee. destruct (x_parent e) as [pid|]; [|discriminate E]. getx E l El. refine (bind_names_words _ _ l [] b (walk_words _ _ _ _ W El) _ E); [|constructor].
  intros a s Es. exact (proj1 (str_neat _ _ _ (ow_sto o W) _ _ _ _ _ _ Es)).
Qed.
Definition res_words (r : res) : Prop := match r with RAnswer b => Forall bound_ok b | _ => True end.
Lemma turn_words o r o' : org_words o -> turn cf fuel o = Val (r, o') -> org_words o' /\ (forall x, r = Some x -> res_words x).
Proof.
  intros W E. unfold turn in E. destruct (o_queue o) as [|id q].
  { injection E as <- <-. split; [exact W|]. intros x Ex. injection Ex as <-. exact I. }
  pose proof (queue_words o q W) as W0. set (o0 := set_queue o q) in *. getx E e Ee. pose proof (get_exec_words o0 id e W0 Ee) as He. destruct (x_codes e) as [|p codes] eqn:Ec; [discriminate E|].
  getx E a Ea. getx E o1 E1. assert (W1 : org_words o1) by (refine (put_exec_words _ _ _ _ W0 _ E1); exact He).
  destruct (run_instrs cf fuel o1 id (ca_code a)) as [[st o2]|u|] eqn:E2; cbn [bind] in E; try discriminate E. pose proof (run_words id _ _ _ _ W1 E2) as W2.
  assert (G : forall z, (e2 <- get_exec o2 id ;; match x_state e2 with SSuccess => b <- find_subs fuel o2 id ;; Val (Some (RAnswer b), o2) | _ => Val (None, o2) end) = Val z ->
    org_words (snd z) /\ (forall x, fst z = Some x -> res_words x)).
  { intros z Ez. getx Ez e2 Ee2. destruct (x_state e2); try (injection Ez as <-; split; [exact W2|discriminate]). getx Ez b Eb. injection Ez as <-. split; [exact W2|].
    intros x Ex. injection Ex as <-. exact (find_subs_words o2 id b W2 Eb). }
  destruct st as [| |er]; [exact (G _ E)|exact (G _ E)|]. injection E as <- <-. split; [exact W2|]. intros x Ex. injection Ex as <-. exact I.
Qed.
Lemma cleared_words o : org_words o -> org_words (clear_memory o).
Proof.
  intros [W1 W2 W3 W4]. split; cbn; try constructor; cbn; try contradiction. destruct (o_arena o) as [|e l]; [constructor|]. inversion W4; subst. constructor; [assumption|constructor].
Qed.
Lemma answer_words n : forall k w o r o', org_words o -> answer_loop cf fuel n k w o = Val (r, o') -> org_words o' /\ res_words r.
Proof.
  induction n as [|n IH]; intros k w o r o' W E; [discriminate E|]. cbn [answer_loop] in E.
  assert (G : (if (o_limit o <? w_time w k)%Z then Val (ROutOfTime, o) else if w_oom w k then Val (ROutOfMemory, clear_memory o) else
    '(r, o1) <- turn cf fuel o ;; match r with Some r => Val (r, o1) | None => answer_loop cf fuel n (S k) w o1 end) = Val (r, o') -> org_words o' /\ res_words r).
  { clear E. intros E. destruct (_ <? _)%Z; [injection E as <- <-; split; [exact W|exact I]|]. destruct (w_oom w k); [injection E as <- <-; split; [now apply cleared_words|exact I]|].
    destruct (turn cf fuel o) as [[x o1]|u|] eqn:Et; cbn [bind] in E; try discriminate E. destruct (turn_words o x o1 W Et) as [W1 R1].
    destruct x as [y|]; [injection E as <- <-; split; [exact W1|now apply R1]|exact (IH _ _ _ _ _ W1 E)]. }
  destruct (o_queue o); [injection E as <- <-; split; [exact W|exact I]|exact (G E)].
Qed.
End Turns.
Lemma new_words cf o : new_org cf = Val o -> org_words o.
Proof.
  unfold new_org. intros E. destruct (built_knm cf) as [K G]. assert (N : names_ok empty_storage) by (split; intros x []). specialize (K _ N).
  destruct (compile_built_ins cf empty_storage) as [[p|e|] s] eqn:Eb; try discriminate E. injection E as <-. apply G in Eb. cbn [snd] in K. split; cbn; auto. constructor; [constructor|constructor].
Qed.
Definition reply_words (r : reply) : Prop := match r with ReplyAnswer r _ => res_words r | _ => True end.
Lemma perform_words cf c o r o' : org_words o -> perform cf c o = Val (r, o') -> org_words o' /\ reply_words r.
Proof.
  intros W E. destruct c as [text|text|fuel n w|t]; cbn [perform] in E.
  - unfold load_program in E. destruct (parse_program text) as [[cs|e|]|] eqn:Ep; cbn [load_out] in E; try discriminate E; try (injection E as <- <-; split; [exact W|exact I]).
    destruct (clauses_knm cf false cs [] (parsed_program_words _ _ Ep)) as [K G]; [constructor|]. specialize (K _ (ow_sto o W)). unfold compile_program in E.
    destruct (compile_clauses cf false cs [] (o_sto o)) as [[p|e|] s] eqn:Ec; cbn [load_out] in E; injection E as <- <-; cbn [snd] in K; (split; [|exact I]); destruct W as [W1 W2 W3 W4]; split; cbn; auto.
    apply merge_words; [exact W3|exact (G _ _ _ Ec)].
  - unfold load_query in E. destruct (parse_query (append_dot text)) as [[q|e|]|] eqn:Ep; cbn [load_out] in E; try discriminate E;
      try (injection E as <- <-; split; [apply stats_words, queue_words, W|exact I]).
    destruct (compile_query_knm cf q (parsed_query_words _ _ Ep)) as [K G]. specialize (K _ (ow_sto o W)).
    destruct (compile_query cf q (o_sto o)) as [[r0|e|] s] eqn:Ec; cbn [load_out] in E; injection E as <- <-; cbn [snd] in K; (split; [|exact I]); destruct W as [W1 W2 W3 W4]; split; cbn; auto.
    constructor; [|constructor]. unfold exec_words. cbn. apply G in Ec. apply Forall_forall. intros x Hx. unfold query_ptrs in Hx. apply in_map_iff in Hx. destruct Hx as (a & <- & Ha). rewrite Forall_forall in Ec. exact (Ec a Ha).
  - destruct (get_answer cf fuel n w o) as [[x o1]|u|] eqn:Eg; cbn [bind] in E; try discriminate E. injection E as <- <-. exact (answer_words cf fuel n 0 w o x o1 W Eg).
  - injection E as <- <-. split; [|exact I]. destruct W. split; assumption.
Qed.
Theorem play_words cf cs : forall o r, org_words o -> In (Val r) (play cf cs o) -> reply_words r.
Proof.
  induction cs as [|c cs IH]; intros o r W H; [contradiction|]. cbn [play] in H. destruct (perform cf c o) as [[x o1]|u|] eqn:E.
  - destruct (perform_words cf c o x o1 W E) as [W1 R1]. destruct H as [K|H]; [injection K as <-; exact R1|exact (IH o1 r W1 H)].
  - destruct H as [K|[]]. discriminate K.
  - destruct H as [K|[]]. discriminate K.
Qed.

(** --- sessions --- *)
Lemma session_words cf o P s : session cf o P s -> org_words o.
Proof.
  induction 1 as [o E|o P s text cs o' H IH Ep E|o P s text r o' H IH E Hr|o P s text q o' H IH Ep E
                 |o P s text r o' H IH E Hr|o P s t H IH|o P s fuel n w r o' H IH Hs E Hr].
  - exact (new_words _ _ E).
  - apply (perform_words cf (CallProgram text) o (ReplyLoad LOk) o' IH). cbn. now rewrite E.
  - apply (perform_words cf (CallProgram text) o (ReplyLoad r) o' IH). cbn. now rewrite E.
  - apply (perform_words cf (CallQuery text) o (ReplyLoad LOk) o' IH). cbn. now rewrite E.
  - apply (perform_words cf (CallQuery text) o (ReplyLoad r) o' IH). cbn. now rewrite E.
  - destruct IH. split; assumption.
  - exact (proj1 (answer_words cf fuel n 0 w o r o' IH E)).
Qed.

(** result.h 39-42: get_answer of a result, which must not be an error *)
Definition answer_of (r : res) : option (option (list (string * string))) :=
  match r with RFalse => Some None | RAnswer b => Some (Some b) | _ => None end.
Theorem text_determines cf1 cf2 o1 o2 cs1 cs2 r1 r2 n1 n2 a1 a2 : new_org cf1 = Val o1 -> new_org cf2 = Val o2 ->
  In (Val (ReplyAnswer r1 n1)) (play cf1 cs1 o1) -> In (Val (ReplyAnswer r2 n2)) (play cf2 cs2 o2) ->
  answer_of r1 = Some a1 -> answer_of r2 = Some a2 -> answer_str a1 = answer_str a2 -> a1 = a2.
Proof.
  intros N1 N2 H1 H2 A1 A2. apply (play_words _ _ _ _ (new_words _ _ N1)) in H1. apply (play_words _ _ _ _ (new_words _ _ N2)) in H2. cbn in H1, H2.
  apply answer_inj.
  - intros l ->. destruct r1; cbn in A1; try discriminate A1. injection A1 as <-. exact H1.
  - intros l ->. destruct r2; cbn in A2; try discriminate A2. injection A2 as <-. exact H2.
Qed.
(** the parts of an answer's text *)
Theorem text_parts cf o cs b n : new_org cf = Val o -> In (Val (ReplyAnswer (RAnswer b) n)) (play cf cs o) ->
  Forall (fun x => ~ In " "%char (list_ascii_of_string (fst x)) /\ forall s t, snd x <> s +++ "] [" +++ t) b.
Proof.
  intros N H. apply (play_words _ _ _ _ (new_words _ _ N)) in H. cbn in H. eapply Forall_impl; [|exact H]. intros [x y] [Wx Ty]. cbn [fst snd] in *. split.
  - clear - Wx. induction x as [|c x IH]; [intros []|]. cbn in *. apply andb_true_iff in Wx. destruct Wx as [Wc Wx]. intros [->|K]; [discriminate Wc|exact (IH Wx K)].
  - clear - Ty. induction Ty as [|c s0 Hc T IH|o s0 Ho T IH]; intros s t E.
    + destruct s; discriminate E.
    + destruct s as [|a s].
      * cbn in E. injection E as -> E. assert (K : tidy s0) by exact T. subst s0. inversion K as [|c s1 Hc1 T1|o s1 Ho1 T1 Eo]; subst; [discriminate Hc1|].
        destruct (word_first o Ho1) as (c & o' & -> & Nc & _). cbn in Eo. injection Eo as Eo _. congruence.
      * cbn in E. injection E as _ E. exact (IH s t E).
    + assert (Z : forall o, word o = true -> forall s, o +++ String " " s0 = s +++ "] [" +++ t -> (exists s', s0 = s' +++ "] [" +++ t) \/ exists p, o = p +++ "]" /\ s0 = "[" +++ t).
      { clear - T. intros o. induction o as [|c o IH]; intros W s E.
        - destruct s as [|a s]; [discriminate E|]. cbn in E. injection E as _ E. left. now exists s.
        - cbn in W. apply andb_true_iff in W. destruct W as [Wc W]. destruct s as [|a s].
          + cbn in E. injection E as -> E. destruct o as [|d o]; [cbn in E; injection E as E; right; exists ""; auto|]. cbn in E. injection E as -> _. discriminate W.
          + cbn in E. injection E as _ E. destruct (IH W s E) as [K|(p & -> & K)]; [now left|right]. exists (String c p). auto. }
      destruct s as [|a s]; [discriminate E|]. cbn [String.append] in E. injection E as _ E.
      destruct (Z o (proj1 (op_word o Ho)) s E) as [(s' & K)|(p & K & _)]; [exact (IH s' t K)|].
      destruct Ho as (i & Ho). unfold op_name in Ho. assert (Q : forall u, In u ["^"; "+"; "-"; "*"; "//"] -> u <> p +++ "]").
      { intros u Hu Ku. assert (L : lastc " " u = "]"%char) by (rewrite Ku, lastc_app; reflexivity). cbn [In] in Hu. repeat destruct Hu as [<-|Hu]; [discriminate L..|contradiction]. }
      apply (Q o); [|exact K]. destruct i as [|q|q]; [injection Ho as <-; now left| |discriminate Ho]. repeat (destruct q as [q|q|]; try discriminate Ho); injection Ho as <-; cbn; auto 6.
Qed.
Theorem text_form a : answer_str a = match a with None => "false" | Some [] => "true" | Some l => String.concat " " (map (fun b => "[" +++ fst b +++ " / " +++ snd b +++ "]") l) end.
Proof.
  destruct a as [l|]; [|reflexivity]. destruct l as [|b l]; [reflexivity|]. cbn [answer_str]. revert b. induction l as [|c l IH]; intros b; [reflexivity|].
  change (bindings_str (b :: c :: l)) with (binding_str b +++ " " +++ bindings_str (c :: l)). rewrite IH. reflexivity.
Qed.
Definition case_cs : list call := [CallProgram "p(a). p([1,2]). q(3 + Y, [Y|Z]). q(X, b)."; CallLimit 1000000; CallQuery "q(A, B), p(C)";
  CallAnswer 100 100 {| w_time := fun _ => 0%Z; w_oom := fun _ => false |}; CallAnswer 100 100 {| w_time := fun _ => 0%Z; w_oom := fun _ => false |};
  CallQuery "p(c)"; CallAnswer 100 100 {| w_time := fun _ => 0%Z; w_oom := fun _ => false |}].
Definition texts_of (l : list (out reply)) : list string :=
  flat_map (fun x => match x with Val (ReplyAnswer r _) => match answer_of r with Some a => [answer_str a] | None => [] end | _ => [] end) l.
