(** The text of a label or of a binding in the unification tree: what can be read back from it. *)
From Coq Require Import Decimal DecimalString.
From Verif Require Import Base Machine Heap Facts HeapSim Compiler Parser Print Organizer Spec Valuation Process Refine Mono Turn Shape Session
  Code Put Search PutRun Get Alloc Atoms Clause Stack Ready Heads Builtins Sols Solve Terms Shown Parsed Tables Root Order Runs Answers
  Clash Sim Cells Total Examples Witness Finite Tree TreeTurn TreeInv TreeRun TreeSrc TreeFacts TreeShape TreeAll TreeCase Labels Bound Names Returns Clean Shows
  Grammar Texts LockHist AnswerText.
Open Scope string_scope.
Open Scope list_scope.

(** --- what a reader sees --- *)
(** words, compound terms, operators and lists; neither the kind of a word nor the heap index of a variable is to be
    seen, and a list's rest looks like a last element *)
Inductive lab :=
| LWord (s : string)
| LApp (s : string) (l : list lab)
| LOp (s : string) (a b : lab)
| LList (l : list lab).
Definition ltail (x : lab) : list lab := match x with LList l => l | _ => [x] end.
Fixpoint reading (n : rnode) : lab :=
  match n with
  | RVar s _ | RCon s | RInt s => LWord s
  | RFun s l => if s =? "[" then match map reading l with [h; t] => LList (h :: ltail t) | _ => LList [] end else LApp s (map reading l)
  | REv s l => match map reading l with [a; b] => LOp s a b | _ => LWord s end
  end.
(** and how it is written *)
Fixpoint lstr (x : lab) : string :=
  match x with
  | LWord s => s
  | LApp s l => s +++ "(" +++ String.concat ", " (map lstr l) +++ ")"
  | LOp s a b => "(" +++ lstr a +++ " " +++ s +++ " " +++ lstr b +++ ")"
  | LList l => "[" +++ String.concat ", " (map lstr l) +++ "]"
  end.
Fixpoint well (x : lab) : bool :=
  match x with
  | LWord s => wd s
  | LApp s l => wd s && negb (Nat.eqb (List.length l) 0) && forallb well l
  | LOp s a b => tok s && well a && well b
  | LList l => forallb well l
  end.
Lemma lab_ind2 (Q : lab -> Prop) : (forall s, Q (LWord s)) -> (forall s l, Forall Q l -> Q (LApp s l)) ->
  (forall s a b, Q a -> Q b -> Q (LOp s a b)) -> (forall l, Forall Q l -> Q (LList l)) -> forall x, Q x.
Proof.
  intros H1 H2 H3 H4. fix IH 1. intros [s|s l|s a b|l]; [apply H1|apply H2|apply H3; apply IH|apply H4]; induction l; constructor; solve [apply IH|assumption].
Qed.

(** --- reading back --- *)
Lemma app_assoc_t a b c : (a +++ b) +++ c = a +++ (b +++ c).
Proof. induction a as [|x a IH]; cbn; [reflexivity|]. now rewrite IH. Qed.
(** a text goes on with nothing or with a character that is not part of a word *)
Definition off (r : string) : Prop := match r with EmptyString => True | String c _ => plainc c = false end.
Definition stops (r : string) : Prop := match r with EmptyString => True | String c _ => In c [","; ")"; "]"; " "]%char end.
Lemma stops_off r : stops r -> off r.
Proof. destruct r as [|c r]; [trivial|]. cbn. intros H. repeat destruct H as [<-|H]; try reflexivity. contradiction. Qed.
Lemma chars_cut s : forall t r1 r2, all_chars plainc s = true -> all_chars plainc t = true -> off r1 -> off r2 ->
  s +++ r1 = t +++ r2 -> s = t /\ r1 = r2.
Proof.
  induction s as [|c s IH]; intros t r1 r2 S T O1 O2 E; destruct t as [|d t]; cbn in *; auto.
  - subst r1. cbn in O1. rewrite O1 in T. discriminate T.
  - subst r2. cbn in O2. rewrite O2 in S. discriminate S.
  - injection E as -> E. apply andb_true_iff in S, T. destruct (IH t r1 r2) as [-> ->]; auto; [apply S|apply T].
Qed.
Lemma wd_cut s t r1 r2 : wd s = true -> wd t = true -> off r1 -> off r2 -> s +++ r1 = t +++ r2 -> s = t /\ r1 = r2.
Proof. unfold wd. rewrite !andb_true_iff. intros [_ S] [_ T]. now apply chars_cut. Qed.
Lemma wd_first s : wd s = true -> exists c s', s = String c s' /\ plainc c = true.
Proof. destruct s as [|c s]; [discriminate|]. unfold wd. cbn. rewrite andb_true_iff. intros [K _]. eauto. Qed.
(** no text starts with a bracket that closes *)
Lemma lstr_first x : well x = true -> exists c s, lstr x = String c s /\ c <> "]"%char.
Proof.
  destruct x as [s|s l|s a b|l]; cbn [well lstr]; intros W.
  - destruct (wd_first s W) as (c & s' & -> & Hc). exists c, s'. split; [reflexivity|]. intros ->. discriminate Hc.
  - rewrite !andb_true_iff in W. destruct (wd_first s (proj1 (proj1 W))) as (c & s' & -> & Hc). cbn. eexists c, _. split; [reflexivity|]. intros ->. discriminate Hc.
  - cbn. eexists _, _. split; [reflexivity|]. discriminate.
  - cbn. eexists _, _. split; [reflexivity|]. discriminate.
Qed.
Lemma concat_cons x y l : String.concat ", " (x :: y :: l) = x +++ ", " +++ String.concat ", " (y :: l).
Proof. reflexivity. Qed.
Definition cuts (x : lab) : Prop := well x = true -> forall y r1 r2, well y = true -> stops r1 -> stops r2 ->
  lstr x +++ r1 = lstr y +++ r2 -> x = y /\ r1 = r2.
Lemma args_cut c l : In c [")"; "]"]%char -> Forall cuts l -> forall m r1 r2, forallb well l = true -> forallb well m = true -> l <> [] -> m <> [] ->
  String.concat ", " (map lstr l) +++ String c r1 = String.concat ", " (map lstr m) +++ String c r2 -> l = m /\ r1 = r2.
Proof.
  intros Hc F. assert (Sc : forall r, stops (String c r)) by (intros r; cbn in *; tauto). assert (Nc : c <> ","%char) by (intros ->; cbn in Hc; intuition discriminate).
  assert (Sm : forall r, stops ("," +++ r)) by (intros r; cbn; auto).
  induction F as [|x l Hx F IH]; intros m r1 r2 W V Nl Nm E; [contradiction|]. destruct m as [|y m]; [contradiction|]. cbn [forallb] in W, V. apply andb_true_iff in W, V. destruct W as [Wx W], V as [Vy V].
  destruct l as [|x2 l], m as [|y2 m]; cbn [map] in E; rewrite ?concat_cons in E; rewrite ?app_assoc_t in E.
  - cbn [String.concat] in E. destruct (Hx Wx y _ _ Vy (Sc r1) (Sc r2) E) as [-> E']. injection E' as ->. auto.
  - cbn [String.concat] in E. destruct (Hx Wx y _ _ Vy (Sc r1) (Sm _) E) as [_ E']. cbn in E'. injection E' as E' _. contradiction.
  - cbn [String.concat] in E. destruct (Hx Wx y _ _ Vy (Sm _) (Sc r2) E) as [_ E']. cbn in E'. injection E' as E' _. symmetry in E'. contradiction.
  - destruct (Hx Wx y _ _ Vy (Sm _) (Sm _) E) as [-> E']. cbn [String.append] in E'. injection E' as E'.
    destruct (IH (y2 :: m) r1 r2 W V) as [K ->]; [discriminate|discriminate|exact E'|]. now rewrite K.
Qed.
Theorem lab_cut x : cuts x.
Proof.
  assert (O : forall r, off ("(" +++ r)) by reflexivity. assert (Sb : forall r, stops (" " +++ r)) by (intros r; cbn; auto).
  assert (Sp : forall r, stops (")" +++ r)) by (intros r; cbn; auto).
  assert (X : forall s y r, wd s = true -> s +++ r = y -> match y with String c _ => plainc c = true | _ => False end).
  { intros s y r W <-. destruct (wd_first s W) as (c & s' & -> & Hc). exact Hc. }
  induction x as [s|s l IH|s a b IHa IHb|l IH] using lab_ind2; intros W y r1 r2 V S1 S2 E; cbn [well] in W; cbn [lstr] in E;
    destruct y as [t|t m|t a' b'|m]; cbn [well] in V; cbn [lstr] in E; rewrite ?andb_true_iff in W; rewrite ?andb_true_iff in V; rewrite ?app_assoc_t in E.
  - destruct (wd_cut s t r1 r2 W V (stops_off _ S1) (stops_off _ S2) E) as [-> ->]. auto.
  - destruct (wd_cut s t r1 _ W (proj1 (proj1 V)) (stops_off _ S1) (O _) E) as [_ K]. subst r1. cbn in S1. intuition discriminate.
  - apply X in E; [discriminate E|exact W].
  - apply X in E; [discriminate E|exact W].
  - destruct (wd_cut s t _ r2 (proj1 (proj1 W)) V (O _) (stops_off _ S2) E) as [_ K]. subst r2. cbn in S2. intuition discriminate.
  - destruct (wd_cut s t _ _ (proj1 (proj1 W)) (proj1 (proj1 V)) (O _) (O _) E) as [<- K]. cbn [String.append] in K. injection K as K.
    destruct W as [[_ Nl] W], V as [[_ Nm] V]. destruct (args_cut ")" l (or_introl eq_refl) IH m r1 r2 W V) as [-> ->]; auto.
    + intros ->. discriminate Nl.
    + intros ->. discriminate Nm.
  - apply X in E; [discriminate E|apply W].
  - apply X in E; [discriminate E|apply W].
  - symmetry in E. apply X in E; [discriminate E|exact V].
  - symmetry in E. apply X in E; [discriminate E|apply V].
  - cbn [String.append] in E. injection E as E. destruct W as [[Ws Wa] Wb], V as [[Vt Va] Vb].
    destruct (IHa Wa a' _ _ Va (Sb _) (Sb _) E) as [<- E1]. cbn [String.append] in E1. injection E1 as E1.
    destruct (word_cut s t _ _ (tok_word s Ws) (tok_word t Vt) E1) as [<- E2].
    destruct (IHb Wb b' _ _ Vb (Sp _) (Sp _) E2) as [<- E3]. cbn [String.append] in E3. injection E3 as E3. auto.
  - cbn in E. discriminate E.
  - symmetry in E. apply X in E; [discriminate E|exact V].
  - symmetry in E. apply X in E; [discriminate E|apply V].
  - cbn in E. discriminate E.
  - cbn [String.append] in E. injection E as E.
    assert (Z : forall x l u v, forallb well (x :: l) = true -> String.concat ", " (map lstr (x :: l)) +++ u <> String "]" v).
    { intros x k u v K Ek. cbn [forallb] in K. apply andb_true_iff in K. destruct (lstr_first x (proj1 K)) as (c & s' & Ec & Nc). cbn [map String.concat] in Ek. rewrite Ec in Ek.
      destruct (map lstr k); cbn in Ek; injection Ek as Ek _; contradiction. }
    destruct l as [|x l], m as [|z m].
    + cbn in E. injection E as ->. auto.
    + symmetry in E. elim (Z _ _ _ _ V E).
    + elim (Z _ _ _ _ W E).
    + destruct (args_cut "]" (x :: l) (or_intror (or_introl eq_refl)) IH (z :: m) r1 r2 W V) as [-> ->]; auto; discriminate.
Qed.
Theorem lstr_inj x y : well x = true -> well y = true -> lstr x = lstr y -> x = y.
Proof. intros W V E. apply (lab_cut x W y "" "" V I I). now rewrite E. Qed.

(** --- terms as they are shown --- *)
Fixpoint rnames (n : rnode) : list string :=
  match n with
  | RVar s _ | RCon s | RInt s => [s]
  | RFun s l | REv s l => s :: flat_map rnames l
  end.
Definition toks (n : rnode) : Prop := forall s, In s (rnames n) -> tok s = true.
Fixpoint more (l : list lab) : string := match l with [] => "]" | x :: l' => ", " +++ lstr x +++ more l' end.
Lemma concat_more x l : String.concat ", " (map lstr (x :: l)) +++ "]" = lstr x +++ more l.
Proof.
  revert x. induction l as [|y l IH]; intros x; [reflexivity|]. cbn [map] in *. rewrite concat_cons. rewrite !app_assoc_t. cbn [more]. now rewrite IH.
Qed.
Lemma rargs_concat l : l <> [] -> Forall (fun n => rstr false n = Val (lstr (reading n))) l -> rargs l = Val (String.concat ", " (map lstr (map reading l))).
Proof.
  intros N F. induction F as [|x l Hx F IH]; [contradiction|]. destruct l as [|y l]; [exact Hx|].
  change (rargs (x :: y :: l)) with (a <- rstr false x ;; r <- rargs (y :: l) ;; Val (a ++ ", " ++ r)%string). rewrite Hx. cbn [bind]. rewrite IH by discriminate. reflexivity.
Qed.
Lemma not_list n : (forall l, n <> RFun "[" l) -> ltail (reading n) = [reading n].
Proof.
  intros K. destruct n as [s a|s|s|s l|s l]; cbn [reading]; try reflexivity.
  - destruct (String.eqb_spec s "[") as [->|]; [now elim (K l)|reflexivity].
  - destruct (map reading l) as [|? [|? [|]]]; reflexivity.
Qed.
Lemma tok_wd s : tok s = true -> s <> "[" -> wd s = true.
Proof. unfold tok. intros K N. apply String.eqb_neq in N. now rewrite N in K. Qed.
Lemma read_back B : forall n, nice plain plain B n -> toks n ->
  well (reading n) = true /\ rstr false n = Val (lstr (reading n)) /\ rstr true n = Val (more (ltail (reading n))).
Proof.
  assert (W : forall s n, s <> "[" -> reading n = LWord s -> toks n -> In s (rnames n) -> (forall tail, rstr tail n = if (tail && (s =? "["))%bool then Ub UAssert else
      r <- Val s ;; Val (if tail then ", " ++ r ++ "]" else r)%string) ->
    well (reading n) = true /\ rstr false n = Val (lstr (reading n)) /\ rstr true n = Val (more (ltail (reading n)))).
  { intros s n N Er T Hs Hr. rewrite Er, !Hr. apply String.eqb_neq in N. rewrite N. cbn. split; [|auto]. apply tok_wd; [now apply T|now apply String.eqb_neq]. }
  induction n as [s a|s|s|s l IH|s l IH] using rnode_ind2; intros K T.
  - apply (W s); [apply K|reflexivity|exact T|now left|reflexivity].
  - apply (W s); [apply K|reflexivity|exact T|now left|reflexivity].
  - apply (W s); [apply K|reflexivity|exact T|now left|reflexivity].
  - apply nice_fun in K. destruct K as (K1 & K2 & K3).
    assert (F : Forall (fun n => well (reading n) = true /\ rstr false n = Val (lstr (reading n)) /\ rstr true n = Val (more (ltail (reading n)))) l).
    { rewrite Forall_forall in *. intros x Hx. apply IH; auto. intros y Hy. apply T. right. apply in_flat_map. eauto. }
    destruct (String.eqb_spec s "[") as [->|Ns].
    + destruct (K1 eq_refl) as [K|K].
      * destruct l; [|discriminate]. cbn. auto.
      * destruct l as [|h [|t [|]]]; try discriminate. inversion F as [|? ? (A1 & A2 & A3) F2]; subst. inversion F2 as [|? ? (B1 & B2 & B3) _]; subst.
        rewrite !rstr_fun. cbn [String.eqb Ascii.eqb Bool.eqb]. cbn [reading map String.eqb Ascii.eqb Bool.eqb]. rewrite A2, B3. cbn [bind]. split; [|split].
        -- cbn [well forallb]. rewrite A1. destruct (reading t); cbn [ltail forallb well] in *; rewrite ?B1; auto.
        -- cbn [lstr]. now rewrite concat_more.
        -- reflexivity.
    + pose proof (proj2 (String.eqb_neq s "[") Ns) as Es. pose proof (rargs_concat l (K2 Ns) ltac:(eapply Forall_impl; [|exact F]; intros ? (_ & A & _); exact A)) as Er.
      assert (Rd : reading (RFun s l) = LApp s (map reading l)) by (cbn [reading]; now rewrite Es).
      rewrite Rd. rewrite !rstr_fun, Es, Er. cbn [bind ltail more lstr]. split; [|split; reflexivity]. cbn [well].
      rewrite (tok_wd s (T s (or_introl eq_refl)) Ns), map_length. cbn [andb]. rewrite (proj2 (Nat.eqb_neq _ 0)); [|destruct l; [now elim (K2 Ns)|discriminate]]. cbn [negb andb].
      apply forallb_forall. intros x Hx. apply in_map_iff in Hx. destruct Hx as (y & <- & Hy). rewrite Forall_forall in F. now apply (F y).
  - apply nice_ev in K. destruct K as (K1 & K2). destruct l as [|x [|y [|]]]; try discriminate.
    inversion IH as [|? ? I1 I2]; subst. inversion I2 as [|? ? I3 _]; subst. inversion K2 as [|? ? J1 J2]; subst. inversion J2 as [|? ? J3 _]; subst.
    destruct (I1 J1) as (A1 & A2 & A3). { intros z Hz. apply T. cbn. rewrite !in_app_iff. auto. }
    destruct (I3 J3) as (B1 & B2 & B3). { intros z Hz. apply T. cbn. rewrite !in_app_iff. auto. }
    cbn [reading map rstr]. rewrite A2, B2. cbn [bind ltail more lstr well]. rewrite A1, B1, !andb_true_r. split; [|split; reflexivity].
    apply T. now left.
Qed.

(** --- the names of what is shown --- *)
Lemma op_tok s i : op_name i = Some s -> tok s = true.
Proof.
  unfold op_name. intros E. destruct i as [|p|p]; [injection E as <-; reflexivity| |discriminate E]. repeat (destruct p as [p|p|]; try discriminate E); injection E as <-; reflexivity.
Qed.
Lemma uint_plain d : all_chars plainc (NilEmpty.string_of_uint d) = true.
Proof. induction d; cbn; auto. Qed.
Lemma uint_wd0 d : wd (NilZero.string_of_uint d) = true.
Proof. destruct d; cbn; try reflexivity; unfold wd; cbn; apply uint_plain. Qed.
Lemma int_wd z : wd (string_of_Z z) = true.
Proof.
  unfold string_of_Z. destruct (Z.to_int z) as [u|u]; cbn [NilZero.string_of_int]; [apply uint_wd0|]. pose proof (uint_wd0 u) as K. unfold wd in *. cbn.
  apply andb_true_iff in K. apply K.
Qed.
Lemma toks_kids s l : tok s = true -> (forall x, In x l -> toks x) -> toks (RFun s l) /\ toks (REv s l).
Proof. intros K H. split; intros y [<-|Hy]; auto; apply in_flat_map in Hy; destruct Hy as (x & Hx & Hy); exact (H x Hx y Hy). Qed.
Lemma node_args_all p n : forall k l, node_args p n k = Val l -> forall x, In x l -> exists a, p a = Val x.
Proof.
  induction n as [|n IH]; intros k l E x Hx; cbn [node_args] in E; [injection E as <-; contradiction|]. apply bind_val in E. destruct E as (y & Ey & E).
  apply bind_val in E. destruct E as (r & Er & E). injection E as <-. destruct Hx as [<-|Hx]; [eauto|exact (IH _ _ Er x Hx)].
Qed.
Lemma node_rep_toks {H} (ops : hops H) sto h : names_ok sto -> forall n a x, node_rep ops sto n h a = Val x -> toks x.
Proof.
  intros [N1 N2]. induction n as [|n IH]; intros a x E; [discriminate E|]. cbn [node_rep] in E. apply bind_val in E. destruct E as (d & Ed & E). apply bind_val in E. destruct E as (c & Ec & E).
  assert (One : forall s y, tok s = true -> rnames y = [s] -> toks y) by (intros s y K Ey z Hz; rewrite Ey in Hz; destruct Hz as [<-|[]]; exact K).
  assert (A : forall k b l, node_args (node_rep ops sto n h) k b = Val l -> forall y, In y l -> toks y).
  { intros k b l El y Hy. destruct (node_args_all _ _ _ _ El y Hy) as (e & Ee). exact (IH _ _ Ee). }
  destruct c as [i|z|b v|i m|i m|b]; try discriminate E.
  - destruct (nthZ (s_functors sto) i) as [fv|] eqn:Ev; cbn [of_opt bind] in E; [|discriminate E]. injection E as <-. apply nthZ_in, N1, ftok_tok in Ev. now apply (One (fv_name fv)).
  - injection E as <-. apply (One (string_of_Z z)); [apply wd_tok, int_wd|reflexivity].
  - destruct (nthZ (s_vars sto) v) as [nm|] eqn:Ev; cbn [of_opt bind] in E; [|discriminate E]. injection E as <-. apply nthZ_in, N2 in Ev. now apply (One nm).
  - destruct (nthZ (s_functors sto) i) as [fv|] eqn:Ev; cbn [of_opt bind] in E; [|discriminate E]. apply bind_val in E. destruct E as (l & El & E). injection E as <-. apply nthZ_in, N1, ftok_tok in Ev.
    apply toks_kids; [exact Ev|exact (A _ _ _ El)].
  - destruct (op_name i) as [nm|] eqn:Ev; cbn [of_opt bind] in E; [|discriminate E]. apply bind_val in E. destruct E as (l & El & E). injection E as <-. apply op_tok in Ev.
    apply toks_kids; [exact Ev|exact (A _ _ _ El)].
Qed.
Lemma all_sub n : word_node n -> forall m, Loads.sub m n -> tok (node_name m) = true.
Proof. intros A m S. inversion S as [|? k Hk S']; subst; [apply A; now left|]. apply A. right. apply Loads.below_sub. eauto. Qed.
Lemma replace_toks l : (forall s x, In (s, x) l -> toks x) -> forall n y, (forall m, Loads.sub m n -> tok (node_name m) = true) -> replace_vars l n = Val y -> toks y.
Proof.
  intros L. induction n as [s|s|s|s ks IH|s ks IH] using node_ind'; intros y N E.
  - cbn [replace_vars] in E. destruct (assoc s l) as [x|] eqn:Ea; cbn [of_opt] in E; [|discriminate E]. injection E as <-. apply assoc_in in Ea. exact (L _ _ Ea).
  - injection E as <-. intros z [<-|[]]. exact (N _ (Loads.sub_refl _)).
  - injection E as <-. intros z [<-|[]]. exact (N _ (Loads.sub_refl _)).
  - rewrite replace_fun in E. apply bind_val in E. destruct E as (r & Er & E). injection E as <-. apply toks_kids; [exact (N _ (Loads.sub_refl _))|].
    assert (K : forall k, In k ks -> forall m, Loads.sub m k -> tok (node_name m) = true) by (intros k Hk m S; apply N; refine (Loads.sub_kid _ _ k _ S); exact Hk). clear N.
    revert r Er. induction IH as [|k ks Hk F IHk]; intros r Er x Hx; cbn [omap] in Er; [injection Er as <-; contradiction|].
    apply bind_val in Er. destruct Er as (y & Ey & Er). apply bind_val in Er. destruct Er as (r' & Er' & Er). injection Er as <-.
    destruct Hx as [<-|Hx]; [apply (Hk y); [apply K; now left|exact Ey]|apply (IHk (fun k Hk => K k (or_intror Hk)) r' Er' x Hx)].
  - rewrite replace_ev in E. apply bind_val in E. destruct E as (r & Er & E). injection E as <-. apply toks_kids; [exact (N _ (Loads.sub_refl _))|].
    assert (K : forall k, In k ks -> forall m, Loads.sub m k -> tok (node_name m) = true) by (intros k Hk m S; apply N; refine (Loads.sub_kid _ _ k _ S); exact Hk). clear N.
    revert r Er. induction IH as [|k ks Hk F IHk]; intros r Er x Hx; cbn [omap] in Er; [injection Er as <-; contradiction|].
    apply bind_val in Er. destruct Er as (y & Ey & Er). apply bind_val in Er. destruct Er as (r' & Er' & Er). injection Er as <-.
    destruct Hx as [<-|Hx]; [apply (Hk y); [apply K; now left|exact Ey]|apply (IHk (fun k Hk => K k (or_intror Hk)) r' Er' x Hx)].
Qed.
Lemma name_toks fuel o e x : org_words o -> In e (o_arena o) -> x_state e <> SRunning -> query_name fuel o e = Val x -> toks x.
Proof.
  intros W He Hs E. unfold query_name in E. replace (is_running e) with false in E by (unfold is_running; destruct (x_state e); congruence).
  apply bind_val in E. destruct E as (a & Ea & E). apply bind_val in E. destruct E as (l & El & E). apply bind_val in E. destruct E as (r & Er & E).
  pose proof (ow_arena o W) as F. rewrite Forall_forall in F. specialize (F e He). unfold exec_words in F. unfold solved in Ea. destruct (x_codes e) as [|p codes]; [discriminate Ea|].
  inversion F as [|? ? [_ Hp] _]; subst. unfold follow in Ea. destruct (Nat.eqb _ _); [|discriminate Ea]. injection Ea as <-.
  refine (replace_toks r _ (ca_node (cp_atom p)) x (all_sub _ Hp) E).
  clear - W Er. revert r Er. induction l as [|[s a] l IH]; intros r Er s' y Hy; cbn [reps] in Er; [injection Er as <-; contradiction|].
  apply bind_val in Er. destruct Er as (n & En & Er). apply bind_val in Er. destruct Er as (r' & Er' & Er). injection Er as <-.
  destruct Hy as [K|Hy]; [|exact (IH r' Er' s' y Hy)]. injection K as <- <-. exact (node_rep_toks _ _ _ (ow_sto o W) _ _ _ En).
Qed.

(** --- sessions --- *)
Lemma run_org_words cf o rs o' : run cf o rs o' -> org_words o -> org_words o'.
Proof.
  induction 1 as [o|o rs o1 t H IH|o rs o1 fuel n w r o2 H IH E Hr]; intros W; auto.
  - destruct (IH W). split; assumption.
  - exact (proj1 (answer_words cf fuel n 0 w o1 r o2 (IH W) E)).
Qed.
(** What is read off a label, and off every term bound to a variable. *)
Section Session.
Variable cf : cfg.
Hypothesis OK : ord_ok cf.
Variables (o o' : org) (P : list (list node)) (q : list node) (rs : list (res * Z)).
Hypothesis HS : session cf o P (QFresh q).
Hypothesis HR : run cf o rs o'.
Hypothesis SM : small_tables (o_sto o).
Hypothesis VT : (Z.of_nat (List.length (s_vars (o_sto o))) <= 32768)%Z.
Hypothesis NC : no_clash cf P.
Hypothesis LB : labelled cf P.
Lemma own_plain s : (In s (flat_map nvars (atoms q P)) -> plain s) /\ (In s (flat_map ncons (atoms q P)) -> plain s).
Proof.
  destruct (session_top _ _ _ _ HS) as [TP TQ]. cbn in TQ. rewrite Forall_forall in TP, TQ.
  assert (A : forall n, In n (atoms q P) -> leaves plain plain n).
  { intros n Hn. unfold atoms in Hn. rewrite !in_app_iff in Hn. destruct Hn as [Hn|[Hn|Hn]]; [now apply TQ| |]; apply in_concat in Hn; destruct Hn as (c & Hc & Hn).
    - specialize (TP c Hc). rewrite Forall_forall in TP. now apply TP.
    - now apply (append_top c). }
  assert (B : forall n, leaves plain plain n -> (In s (nvars n) -> plain s) /\ (In s (ncons n) -> plain s)).
  { induction n as [x|x|x|x l IH|x l IH] using node_ind'; cbn [leaves nvars ncons]; intros L.
    - split; [intros [<-|[]]; exact L|intros []].
    - split; [intros []|intros [<-|[]]; exact L].
    - split; intros [].
    - pose proof (proj1 (leaves_all _ _ l) L) as L'. rewrite Forall_forall in IH. split; intros K; apply in_flat_map in K; destruct K as (m & Hm & K); [exact (proj1 (IH m Hm (L' m Hm)) K)|exact (proj2 (IH m Hm (L' m Hm)) K)].
    - pose proof (proj1 (leaves_all _ _ l) L) as L'. rewrite Forall_forall in IH. split; intros K; apply in_flat_map in K; destruct K as (m & Hm & K); [exact (proj1 (IH m Hm (L' m Hm)) K)|exact (proj2 (IH m Hm (L' m Hm)) K)]. }
  split; intros K; apply in_flat_map in K; destruct K as (n & Hn & K); [exact (proj1 (B n (A n Hn)) K)|exact (proj2 (B n (A n Hn)) K)].
Qed.
Lemma own_nice B n : nice (fun s => In s (flat_map nvars (atoms q P))) (fun s => In s (flat_map ncons (atoms q P))) B n -> nice plain plain B n.
Proof. apply nice_mono; [intros s; apply own_plain|intros s; apply own_plain|apply Nat.le_refl]. Qed.
Lemma end_words : org_words o'.
Proof. exact (run_org_words _ _ _ _ HR (session_words _ _ _ _ HS)). Qed.
Theorem label_reads fuel t ex nm str e : make_tree fuel o' = Val t -> In (ex, nm, str) (q_labels t) -> nth_error (o_arena o') ex = Some e ->
  x_state e <> SRunning -> well (reading nm) = true /\ str = lstr (reading nm).
Proof.
  intros E Hin He Hst. destruct (run_labels_nice cf OK o o' P q rs HS HR SM VT NC LB _ _ _ _ _ _ E Hin He Hst) as (En & B & K).
  pose proof (name_toks _ _ _ _ end_words (nth_error_In _ _ He) Hst En) as T. destruct (read_back B nm (own_nice B nm K) T) as (W & R & _). split; [exact W|].
  unfold make_tree in E. apply bind_val in E. destruct E as ([t0 c] & E0 & E). destruct (resolve_labels _ _ _ _ _ _ _ E Hin) as [Z|(e0 & He0 & _ & Es)].
  - now rewrite (make_q_labels _ _ _ _ _ _ _ E0) in Z.
  - unfold node_str in Es. rewrite R in Es. now injection Es.
Qed.
Theorem binds_read fuel t ex nm k l c : make_tree fuel o' = Val t -> In (ex, (nm, k, Some (l, c))) (q_binds t) ->
  exists bs, strs bs = Val l /\ l = map (fun b => (fst (fst b), lstr (reading (snd b)))) bs /\ forall v x, In (v, x) bs -> well (reading x) = true.
Proof.
  intros E Hin. destruct (run_binds_nice cf OK o o' P q rs HS HR SM VT NC LB _ _ _ _ _ _ _ E Hin) as (bs & B & ke & Es & Hk & F).
  assert (A : forall v x, In (v, x) bs -> well (reading x) = true /\ rstr false x = Val (lstr (reading x))).
  { intros v x Hx. destruct (F v x Hx) as [Ex Nx]. destruct (read_back B x (own_nice B x Nx)) as (W & R & _); [|auto].
    exact (node_rep_toks _ _ _ (ow_sto _ end_words) _ _ _ Ex). }
  exists bs. split; [exact Es|]. split; [|intros v x Hx; now apply (A v)]. clear F Hin. revert l Es. induction bs as [|[v x] bs IH]; intros l Es; cbn [strs] in Es; [injection Es as <-; reflexivity|].
  apply bind_val in Es. destruct Es as (s & Ex & Es). apply bind_val in Es. destruct Es as (r & Er & Es). injection Es as <-. cbn [map fst snd].
  unfold node_str in Ex. rewrite (proj2 (A v x (or_introl eq_refl))) in Ex. injection Ex as <-. f_equal. apply IH; [intros; eapply A; right; eauto|exact Er].
Qed.
Theorem labels_alike fuel t ex1 nm1 str1 e1 ex2 nm2 str2 e2 : make_tree fuel o' = Val t -> In (ex1, nm1, str1) (q_labels t) -> In (ex2, nm2, str2) (q_labels t) ->
  nth_error (o_arena o') ex1 = Some e1 -> nth_error (o_arena o') ex2 = Some e2 -> x_state e1 <> SRunning -> x_state e2 <> SRunning ->
  (str1 = str2 <-> reading nm1 = reading nm2).
Proof.
  intros E H1 H2 He1 He2 S1 S2. destruct (label_reads _ _ _ _ _ _ E H1 He1 S1) as [W1 ->]. destruct (label_reads _ _ _ _ _ _ E H2 He2 S2) as [W2 ->].
  split; [now apply lstr_inj|now intros ->].
Qed.
End Session.

(** --- a case: an open and a closed list that look alike --- *)
Definition lab_dec : forall x y : lab, {x = y} + {x <> y}.
Proof.
  fix IH 1. intros [s|s l|s a b|l] [t|t m|t a' b'|m]; try (right; discriminate).
  - destruct (string_dec s t) as [->|N]; [now left|right; congruence].
  - destruct (string_dec s t) as [->|N]; [|right; congruence]. destruct (list_eq_dec IH l m) as [->|N]; [now left|right; congruence].
  - destruct (string_dec s t) as [->|N]; [|right; congruence]. destruct (IH a a') as [->|N]; [|right; congruence]. destruct (IH b b') as [->|N]; [now left|right; congruence].
  - destruct (list_eq_dec IH l m) as [->|N]; [now left|right; congruence].
Defined.
Definition readings (t : qnode) : list lab := map (fun x => reading (snd (fst x))) (q_labels t).
Lemma label_case : exists o P q o' rs t, session cfg0 o P (QFresh q) /\ run cfg0 o rs o' /\ small_tables (o_sto o) /\
  (Z.of_nat (List.length (s_vars (o_sto o))) <= 32768)%Z /\ no_clash cfg0 P /\ labelled cfg0 P /\ make_tree 100 o' = Val t /\
  parse_program "p([a|T],f(U,-5)). p([a,T],f(U,-5))." = Some (COk P) /\ parse_query (append_dot "p(X,Y), r(X,1+Y)") = Some (COk q) /\
  texts t = [(0, "p(X, Y)"); (3, "r([a, T], (1 + f(U, -5)))"); (4, "r([a, T], (1 + f(U, -5)))")] /\
  readings t = [LApp "p" [LWord "X"; LWord "Y"];
    LApp "r" [LList [LWord "a"; LWord "T"]; LOp "+" (LWord "1") (LApp "f" [LWord "U"; LWord "-5"])];
    LApp "r" [LList [LWord "a"; LWord "T"]; LOp "+" (LWord "1") (LApp "f" [LWord "U"; LWord "-5"])]].
Proof.
  destruct (tree_witness "p([a|T],f(U,-5)). p([a,T],f(U,-5))." "p(X,Y), r(X,1+Y)" [w0] (fun o o' P q rs =>
    small_b (o_sto o) && (Z.of_nat (List.length (s_vars (o_sto o))) <=? 32768)%Z && noclash_b cfg0 P && forallb (clause_labels cfg0) P &&
    match make_tree 100 o' with
    | Val t => texts_eqb (texts t) [(0, "p(X, Y)"); (3, "r([a, T], (1 + f(U, -5)))"); (4, "r([a, T], (1 + f(U, -5)))")] &&
        if list_eq_dec lab_dec (readings t) [LApp "p" [LWord "X"; LWord "Y"];
          LApp "r" [LList [LWord "a"; LWord "T"]; LOp "+" (LWord "1") (LApp "f" [LWord "U"; LWord "-5"])];
          LApp "r" [LList [LWord "a"; LWord "T"]; LOp "+" (LWord "1") (LApp "f" [LWord "U"; LWord "-5"])]] then true else false
    | _ => false end))
    as (o & o' & P & q & rs & H1 & H2 & H3 & H4 & H5); [vm_compute; reflexivity|].
  rewrite !andb_true_iff in H5. destruct H5 as [[[[K1 K0] K2] K3] K6].
  destruct (make_tree 100 o') as [t| |] eqn:Et; try discriminate K6. rewrite forallb_forall in K3.
  apply andb_true_iff in K6. destruct K6 as [K6 K7]. destruct (list_eq_dec lab_dec _ _) as [K8|]; [|discriminate K7].
  exists o, P, q, o', rs, t. csplit; auto using small_b_ok, noclash_b_ok, texts_eqb_ok. now apply Z.leb_le.
Qed.
