(** Checking the hypotheses [no_cycles] and [turns_end] for queries with a finite search tree, and a search that is
    stuck in one turn. *)
From Verif Require Import Base Machine Heap Facts Compiler Parser Organizer Spec Print Valuation HeapSim Process Refine Mono Turn Shape Session Code Put Search PutRun Get Alloc Atoms Clause Stack Ready Heads Builtins Sols Solve Terms Shown Parsed Tables Root Order Cells Runs Answers Complete Total Flat Examples Witness.
Open Scope string_scope.
Open Scope list_scope.

Section Tree.
Variable cf : cfg.
Variable sto : storage.
Variable pg : prog.

(** reading a term off a heap *)
Fixpoint rdb (fuel : nat) (h : list cell) (a : nat) : option tm :=
  match fuel with
  | 0 => None
  | S f =>
      let args := fix args a n := match n with 0 => Some [] | S n => match rdb f h a, args (S a) n with Some t, Some l => Some (t :: l) | _, _ => None end end in
      match next h a with
      | Some b => rdb f h b
      | None =>
          match nth_error h a with
          | Some (CRef _ _) => Some (TVar a "")
          | Some (CCons i) => Some (TCon (fn sto i))
          | Some (CInt n) => Some (TInt n)
          | Some (CFun i n) => option_map (TFun (fn sto i)) (args (S a) (Z.to_nat n))
          | Some (CEval i n) => option_map (TEv (opn i)) (args (S a) (Z.to_nat n))
          | _ => None
          end
      end
  end.
Lemma rdb_sound f h : forall a t, rdb f h a = Some t -> rd sto h a t.
Proof.
  induction f as [|f IH]; intros a t E; [discriminate|]. cbn [rdb] in E.
  set (args := fix args a n := match n with 0 => Some [] | S n => match rdb f h a, args (S a) n with Some t, Some l => Some (t :: l) | _, _ => None end end) in *.
  assert (A : forall n a l, args a n = Some l -> rds sto h a n l).
  { induction n as [|n IHn]; intros a0 l El; cbn in El; [injection El as <-; constructor|].
    destruct (rdb f h a0) eqn:E0; [|discriminate]. fold (args (S a0) n) in El. destruct (args (S a0) n) eqn:E1; [|discriminate]. injection El as <-. constructor; auto. }
  destruct (next h a) as [b|] eqn:En; [eapply rd_next; eauto|].
  unfold next in En. destruct (nth_error h a) as [c|] eqn:Ec; [|discriminate]. destruct c as [i|n|a0 v|i n|i n|a0].
  - injection E as <-. eapply rd_con; eauto.
  - injection E as <-. now apply rd_int.
  - injection E as <-. destruct (Nat.eqb_spec a0 a); [subst; eapply rd_var; eauto|discriminate].
  - destruct (args (S a) (Z.to_nat n)) eqn:El; [|discriminate]. injection E as <-. eapply rd_fun; eauto.
  - destruct (args (S a) (Z.to_nat n)) eqn:El; [|discriminate]. injection E as <-. eapply rd_ev; eauto.
  - discriminate.
Qed.
Definition finite_heap (f : nat) (h : list cell) : bool := forallb (fun a => match rdb f h a with Some _ => true | None => false end) (seq 0 (List.length h)).
Lemma finite_heap_ok f h : finite_heap f h = true -> finite_terms sto h.
Proof.
  intros E a La. unfold finite_heap in E. rewrite forallb_forall in E. specialize (E a). rewrite in_seq in E.
  destruct (rdb f h a) as [t|] eqn:Er; [exists t; eapply rdb_sound; eauto|]. discriminate E. lia.
Qed.
Definition ends_ok (F : nat) (p : process) : bool :=
  match run_of cf sto F p with Val (Cont, m) => finite_heap F (m_heap m) | Val _ => true | _ => false end.
Lemma ends_ok_spec F p h : ends_ok F p = true -> ends_with cf sto p h -> finite_terms sto h.
Proof.
  unfold ends_ok, run_of. intros E (f & a & rest & m & Ec & Er & <-). rewrite Ec in E.
  set (n := Nat.max F f). pose proof (le_val _ _ _ (run_local_mono cf sto f n _ (Nat.le_max_r _ _) _) Er) as E1.
  destruct (run_local cf sto F _ _) as [[s m']| |] eqn:E2; try discriminate.
  pose proof (le_val _ _ _ (run_local_mono cf sto F n _ (Nat.le_max_l _ _) _) E2) as E3. rewrite E1 in E3. injection E3 as <- <-.
  eapply finite_heap_ok; eauto.
Qed.
Fixpoint tree_ok (d F : nat) (p : process) : bool :=
  match d with
  | 0 => false
  | S d => match p_turn cf sto F pg p with Val r => ends_ok F p && forallb (tree_ok d F) (kids_of r) | _ => false end
  end.
Lemma tree_ok_path F root pi p : at_path cf sto pg root pi p -> (exists d, tree_ok d F root = true) -> exists d, tree_ok d F p = true.
Proof.
  intros H R. induction H as [|pi p i l k H IH [fuel E] Hn]; [assumption|]. destruct IH as ([|d] & K); [discriminate|]. cbn [tree_ok] in K.
  destruct (p_turn cf sto F pg p) as [r| |] eqn:Er; try discriminate. apply andb_true_iff in K. destruct K as [_ K].
  pose proof (le_val _ _ _ (p_turn_mono cf sto pg F (Nat.max F fuel) p (Nat.le_max_l _ _)) Er) as E1.
  pose proof (le_val _ _ _ (p_turn_mono cf sto pg fuel (Nat.max F fuel) p (Nat.le_max_r _ _)) E) as E2.
  rewrite E1 in E2. injection E2 as ->. cbn [kids_of] in K. rewrite forallb_forall in K. exists d. apply K. eapply nth_error_In; eauto.
Qed.

(** a search that cannot go on *)
Lemma stuck root T0 pi0 p0 Q0 : search cf sto pg root T0 ((pi0, p0) :: Q0) -> (forall r, ~ turns cf sto pg p0 r) ->
  forall T Q, search cf sto pg root T Q -> prefix T T0 /\ Q <> [].
Proof.
  intros S0 N T Q S. destruct (Nat.le_gt_cases (List.length T) (List.length T0)) as [L|L].
  - destruct (search_det _ _ _ _ _ _ _ _ S S0 L) as (Pr & Eq & Ne). split; [assumption|].
    apply Nat.le_lteq in L. destruct L as [L|L]; [now apply Ne|]. rewrite (Eq L). discriminate.
  - exfalso. destruct (search_det _ _ _ _ _ _ _ _ S0 S ltac:(lia)) as ((t & Et) & _).
    destruct t as [|x t]; [rewrite app_nil_r in Et; subst; lia|]. subst T.
    replace (T0 ++ x :: t) with ((T0 ++ [x]) ++ t) in S by now rewrite <- app_assoc.
    destruct (search_prefix _ _ _ _ _ _ _ S) as (Q1 & S1). inversion S1 as [|T pi p r Q2 S2 Ht ET]; [now destruct T0|].
    apply app_inj_tail in ET. destruct ET as [-> <-].
    destruct (search_det _ _ _ _ _ _ _ _ S0 S2 ltac:(lia)) as (_ & Eq & _). specialize (Eq eq_refl). injection Eq as -> -> ->. now apply (N r).
Qed.
(** running a search *)
Fixpoint search_n (F n : nat) (T : list (path * process * step_res)) (Q : list (path * process)) : list (path * process * step_res) * list (path * process) :=
  match n with
  | 0 => (T, Q)
  | S n => match Q with
           | (pi, p) :: Q' => match p_turn cf sto F pg p with Val r => search_n F n (T ++ [(pi, p, r)]) (Q' ++ label pi (kids_of r)) | _ => (T, Q) end
           | [] => (T, Q)
           end
  end.
Lemma search_n_ok root F n : forall T Q, search cf sto pg root T Q -> search cf sto pg root (fst (search_n F n T Q)) (snd (search_n F n T Q)).
Proof.
  induction n as [|n IH]; intros T Q S; [exact S|]. cbn [search_n]. destruct Q as [|[pi p] Q]; [exact S|].
  destruct (p_turn cf sto F pg p) as [r| |] eqn:E; try exact S. apply IH. econstructor; eauto. now exists F.
Qed.
End Tree.

Definition root_proc (o : org) : process :=
  match o_arena o with
  | [e] => init_proc (flat_map (fun c => match follow o c with Val a => [a] | _ => [] end) (x_codes e))
  | _ => init_proc []
  end.
Lemma root_proc_ok o root : root_of o root -> root = root_proc o.
Proof.
  intros (r & Er & ->). unfold root_proc. rewrite Er. f_equal. cbn [x_codes init_exec].
  pose proof (query_ptrs_follow o r) as F. clear Er. revert F. generalize (query_ptrs (o_qgen o) r) as l. induction r as [|a r IH]; intros l F; inversion F as [|c a' l' r' E F' E1 E2]; subst; [reflexivity|].
  cbn [flat_map]. rewrite E. cbn. f_equal. now apply IH.
Qed.
Lemma session_tree cf o d F : tree_ok cf (o_sto o) (o_prog o) d F (root_proc o) = true -> no_cycles cf o /\ turns_end cf o.
Proof.
  intros E. split.
  - intros root pi p h Hr Hp He. apply root_proc_ok in Hr. subst root.
    destruct (tree_ok_path _ _ _ F _ _ _ Hp) as ([|d'] & K); [eauto|discriminate|]. cbn [tree_ok] in K.
    destruct (p_turn _ _ _ _ _); try discriminate. apply andb_true_iff in K. eapply ends_ok_spec; [apply K|exact He].
  - intros root pi p Hr Hp. apply root_proc_ok in Hr. subst root.
    destruct (tree_ok_path _ _ _ F _ _ _ Hp) as ([|d'] & K); [eauto|discriminate|]. cbn [tree_ok] in K.
    destruct (p_turn cf (o_sto o) F (o_prog o) p) as [r| |] eqn:Et; try discriminate. exists r, F. exact Et.
Qed.

(** boolean versions of the other hypotheses *)
Definition small_b (sto : storage) : bool :=
  (Z.of_nat (List.length (s_functors sto)) <=? 32768)%Z && forallb (fun f => (Z.of_nat (fv_arity f) <=? 32767)%Z) (s_functors sto).
Lemma small_b_ok sto : small_b sto = true -> small_tables sto.
Proof.
  unfold small_b. rewrite andb_true_iff, forallb_forall. intros [A B]. apply Z.leb_le in A. split; [assumption|]. intros f Hf. apply Z.leb_le. auto.
Qed.
Definition noclash_b (cf : cfg) (P : list (list node)) : bool := forallb (clause_ok cf) P.
Lemma noclash_b_ok cf P : noclash_b cf P = true -> no_clash cf P.
Proof. unfold noclash_b. rewrite forallb_forall. intros H c Hc. auto. Qed.
Definition goals_b (Q : node -> bool) (P : list (list node)) (q : list node) : bool := forallb (fun c => forallb Q (tl c)) P && forallb Q q.
Lemma goals_b_ok (Q : node -> bool) (R : node -> Prop) P q : (forall n, Q n = true -> R n) -> goals_b Q P q = true -> all_goals R P q.
Proof.
  intros H. unfold goals_b. rewrite andb_true_iff, !forallb_forall. intros [A B]. split; [|auto].
  intros c n Hc Hn. specialize (A c Hc). rewrite forallb_forall in A. auto.
Qed.
Definition nocompare_b (n : node) : bool := negb (fview_eqb (to_fview n) (FV "==" 2)) && negb (fview_eqb (to_fview n) (FV "\==" 2)).
Definition nois_b (n : node) : bool := negb (fview_eqb (to_fview n) (FV "is" 2)).
Lemma nocompare_b_ok n : nocompare_b n = true -> no_compare n.
Proof.
  unfold nocompare_b. rewrite andb_true_iff, !negb_true_iff. intros [A B].
  split; intros E; rewrite E, fview_eqb_refl in *; discriminate.
Qed.
Lemma nois_b_ok n : nois_b n = true -> no_is n.
Proof. unfold nois_b. rewrite negb_true_iff. intros A E. rewrite E, fview_eqb_refl in A. discriminate. Qed.

(** [witness program query ws rs P q]: a session in which the hypotheses of the theorems hold *)
Definition hyps_b (program query : string) (pure : bool) : bool :=
  match loaded program query, parse_program program, parse_query (append_dot query) with
  | Some o, Some (COk P), Some (COk q) =>
      small_b (o_sto o) && noclash_b cfg0 P && (Z.of_nat (List.length (s_vars (o_sto o))) <=? 32768)%Z &&
      tree_ok cfg0 (o_sto o) (o_prog o) 1000 1000 (root_proc o) && (negb pure || (goals_b nocompare_b P q && goals_b nois_b P q))
  | _, _, _ => false
  end.
Lemma hyps_witness program query pure ws rs : hyps_b program query pure = true ->
  match loaded program query with
  | Some o => match calls ws o with Some (rs', _) => rs' = rs | None => False end
  | _ => False
  end ->
  exists o P q o', session cfg0 o P (QFresh q) /\ run cfg0 o rs o' /\
    parse_program program = Some (COk P) /\ parse_query (append_dot query) = Some (COk q) /\
    small_tables (o_sto o) /\ no_clash cfg0 P /\ (Z.of_nat (List.length (s_vars (o_sto o))) <= 32768)%Z /\
    no_cycles cfg0 o /\ turns_end cfg0 o /\
    (pure = true -> all_goals no_compare P q /\ all_goals no_is P q).
Proof.
  unfold hyps_b. destruct (loaded program query) as [o|] eqn:E1; [|discriminate].
  destruct (parse_program program) as [[P| |]|] eqn:E2; try discriminate.
  destruct (parse_query (append_dot query)) as [[q| |]|] eqn:E3; try discriminate.
  rewrite !andb_true_iff. intros [[[[H1 H2] H3] H4] H5]. destruct (calls ws o) as [[rs' o']|] eqn:E4; [|contradiction]. intros ->.
  exists o, P, q, o'. destruct (session_tree _ _ _ _ H4) as [N T]. apply Z.leb_le in H3.
  csplit; auto using small_b_ok, noclash_b_ok.
  - eapply loaded_session; eassumption.
  - eapply calls_run; eassumption.
  - intros ->. cbn [negb orb] in H5. apply andb_true_iff in H5. destruct H5 as [K1 K2]. split.
    + exact (goals_b_ok nocompare_b no_compare _ _ nocompare_b_ok K1).
    + exact (goals_b_ok nois_b no_is _ _ nois_b_ok K2).
Qed.
Lemma loaded_witness program query (K : org -> list (list node) -> list node -> bool) :
  match loaded program query, parse_program program, parse_query (append_dot query) with
  | Some o, Some (COk P), Some (COk q) => K o P q
  | _, _, _ => false
  end = true ->
  exists o P q, session cfg0 o P (QFresh q) /\ parse_program program = Some (COk P) /\ parse_query (append_dot query) = Some (COk q) /\ K o P q = true.
Proof.
  destruct (loaded program query) as [o|] eqn:E1; [|discriminate].
  destruct (parse_program program) as [[P| |]|] eqn:E2; try discriminate.
  destruct (parse_query (append_dot query)) as [[q| |]|] eqn:E3; try discriminate.
  intros H. exists o, P, q. csplit; auto. eapply loaded_session; eassumption.
Qed.
Lemma res_eq_dec (a b : res) : {a = b} + {a <> b}.
Proof.
  assert (E : forall x y : rterr, {x = y} + {x <> y}) by (decide equality; [apply string_dec|decide equality; [apply Nat.eq_dec|apply string_dec]]).
  decide equality. apply list_eq_dec. intros [x1 x2] [y1 y2]. destruct (string_dec x1 y1) as [->|N]; [|right; congruence].
  destruct (string_dec x2 y2) as [->|N]; [now left|right; congruence].
Defined.
Lemma ord_ok_cfg0 : ord_ok cfg0.
Proof. intros l. apply Permutation.Permutation_refl. Qed.
Example lists_fine : hyps_b "rev([],[]). rev([H|T],R) :- rev(T,S), append(S,[H],R)." "append(X,Y,[a,b]), rev(X,Z)" true = true.
Proof. vm_compute. reflexivity. Qed.

Definition leaf_b (n : node) : bool := match n with NVar _ | NCon _ | NInt _ | NFun _ [] => true | _ => false end.
Definition datalog_b (P : list (list node)) (q : list node) : bool :=
  forallb (fun c => forallb (fun n => forallb leaf_b (kids n)) c) P && forallb (fun n => forallb leaf_b (kids n)) q &&
  goals_b (fun n => negb (is_append (to_fview n))) P q && goals_b nois_b P q.
Lemma datalog_b_ok P q : datalog_b P q = true -> datalog P q.
Proof.
  unfold datalog_b. rewrite !andb_true_iff. intros (((A & B) & C) & D).
  assert (K : forall n, forallb leaf_b (kids n) = true -> atom_flat n).
  { intros n H k Hk. rewrite forallb_forall in H. specialize (H k Hk). destruct k as [s|s|s|s [|k' l]|s l]; cbn in *; auto; discriminate. }
  rewrite !forallb_forall in A, B. unfold datalog. csplit.
  - intros c n Hc Hn. apply K. specialize (A c Hc). rewrite forallb_forall in A. auto.
  - intros n Hn. apply K. auto.
  - refine (goals_b_ok _ _ _ _ _ C). intros n H. apply negb_true_iff in H. exact H.
  - exact (goals_b_ok nois_b no_is _ _ nois_b_ok D).
Qed.

Definition pair_dec (a b : string * string) : {a = b} + {a <> b}.
Proof. decide equality; apply string_dec. Defined.
Definition pairs_eqb (a b : list (string * string)) : bool := if list_eq_dec pair_dec a b then true else false.
Fixpoint answers_eqb (rs : list res) (bs : list (list (string * string))) : bool :=
  match rs, bs with
  | [], [] => true
  | RAnswer b :: rs, b' :: bs => pairs_eqb b b' && answers_eqb rs bs
  | _, _ => false
  end.
Lemma answers_eqb_ok rs : forall bs, answers_eqb rs bs = true -> rs = map RAnswer bs.
Proof.
  induction rs as [|r rs IH]; intros [|b bs] E; try discriminate; [reflexivity|destruct r; discriminate|].
  destruct r as [|b'| | |]; try discriminate. cbn in E. apply andb_true_iff in E. destruct E as [A B]. unfold pairs_eqb in A.
  destruct (list_eq_dec _ b' b); [|discriminate]. subst. cbn. f_equal. auto.
Qed.
