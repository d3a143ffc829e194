(** Programs with more constants than indices of type short can tell apart. *)
From Coq Require Import NArith.
From Verif Require Import Base Heap Machine Compiler Parser Print Organizer Examples Session Spec ParserFacts Grammar Roundtrip Exprs Language Texts Shape Code Builtins Runs Isolation Settle Answers Clause Faithful Atoms Finite.
Open Scope string_scope.
Open Scope list_scope.

Fixpoint bits (p : positive) : string := match p with xH => "c" | xO p => String "a" (bits p) | xI p => String "b" (bits p) end.
Lemma bits_inj p q : bits p = bits q -> p = q.
Proof. revert q. induction p as [p IH|p IH|]; intros [q|q|]; cbn; intros E; try discriminate E; [injection E as E; f_equal; auto..|reflexivity]. Qed.
Lemma bits_name p : name_of is_lower (bits p) = true.
Proof.
  assert (A : all_chars is_idc (bits p) = true) by (induction p; cbn; auto). destruct p; cbn [bits name_of all_chars] in *; exact A.
Qed.
Fixpoint pos_seq (p : positive) (k : nat) : list positive := match k with 0 => [] | S k => p :: pos_seq (Pos.succ p) k end.
Lemma pos_seq_ge k : forall p q, In q (pos_seq p k) -> (p <= q)%positive.
Proof. induction k as [|k IH]; intros p q H; [elim H|]. destruct H as [->|H]; [lia|]. specialize (IH _ _ H). lia. Qed.
Definition names (k : nat) : list string := map bits (pos_seq 1 k).
Lemma names_nodup k : NoDup (names k).
Proof.
  apply FinFun.Injective_map_NoDup; [exact bits_inj|]. generalize 1%positive. induction k as [|k IH]; intros p; [constructor|]. cbn [pos_seq]. constructor; [|apply IH].
  intros H. apply pos_seq_ge in H. lia.
Qed.
(** n(c1). n(c2). ... p(z). *)
Definition nfact (c : string) : list node := [NFun "n" [NCon c]].
Definition zfact : list node := [NFun "p" [NCon "z"]].
Definition wide_clauses (l : list string) : list (list node) := map nfact l ++ [zfact].
Fixpoint wide_text (l : list string) : string := match l with [] => "p(z)." | c :: l => "n(" +++ c +++ ")." +++ wide_text l end.
Lemma fact_lang f c : name_of is_lower f = true -> name_of is_lower c = true -> clause_lang [NFun f [NCon c]] (f +++ "(" +++ c +++ ").").
Proof.
  intros F C. pose proof (ct_fact _ _ "" (ht_fun "" f [NCon c] c "" eq_refl F (ts_one _ _ (tt_head _ _ (ht_con "" c eq_refl C))) eq_refl) eq_refl) as K.
  rewrite !app_assoc_s in K. exact K.
Qed.
Lemma wide_parsed l : Forall (fun c => name_of is_lower c = true) l -> parse_program (wide_text l) = Some (COk (wide_clauses l)).
Proof.
  intros N. apply program_accepted. induction N as [|c l C N IH].
  - change (program_lang [zfact] ("p(z)." +++ "")). apply pt_clause; [exact (fact_lang "p" "z" eq_refl eq_refl)|now constructor].
  - cbn [wide_text]. change (wide_clauses (c :: l)) with (nfact c :: wide_clauses l).
    replace ("n(" +++ c +++ ")." +++ wide_text l) with (("n" +++ "(" +++ c +++ ").") +++ wide_text l) by (rewrite !app_assoc_s; reflexivity). apply pt_clause; [|exact IH]. exact (fact_lang "n" c eq_refl C).
Qed.
Definition fact_rule (f c : string) (i : Z) : rule :=
  [ {| ca_regs := 1; ca_code := [IGetStruct (CCons i) 0; IProceed]; ca_subs := []; ca_node := NFun f [NCon c]; ca_user := false |} ].
Definition with_functor (f : fview) (s : storage) : storage := {| s_functors := s_functors s ++ [f]; s_vars := s_vars s |}.
Lemma fv_pos_new f l : ~ In f l -> fv_pos f l = None.
Proof.
  induction l as [|g l IH]; intros N; [reflexivity|]. cbn [fv_pos]. destruct (fview_eqb f g) eqn:E; [apply fview_eqb_eq in E; subst g; elim N; now left|].
  rewrite IH; [reflexivity|]. intros H. apply N. now right.
Qed.
Lemma new_index f s : ~ In f (s_functors s) -> functor_index_of f s = (wrap16 (Z.of_nat (List.length (s_functors s))), with_functor f s).
Proof.
  intros N. unfold functor_index_of. now rewrite (fv_pos_new f _ N).
Qed.
Lemma fact_compiled f c s : f = "n" \/ f = "p" -> compile_program_term cfg0 false [NFun f [NCon c]] s =
  let '(i, s') := functor_index_of (FV c 0) s in (COk (FV f 1, fact_rule f c i), s').
Proof. intros [->| ->]; destruct s as [fs vs]; cbv -[functor_index_of Z.add]; destruct (functor_index_of _ _); reflexivity. Qed.
(** rules for the constants c1, c2, ..., when k functors are in the table already *)
Fixpoint nrules (k : Z) (l : list string) : list rule := match l with [] => [] | c :: l => fact_rule "n" c (wrap16 k) :: nrules (k + 1) l end.
Definition wide_prog (k : Z) (l : list string) : prog := (FV "n" 1, nrules k l) :: [(FV "p" 1, [fact_rule "p" "z" (wrap16 (k + Z.of_nat (List.length l)))])].
Definition wide_sto (s : storage) (l : list string) : storage := {| s_functors := s_functors s ++ map (fun c => FV c 0) l ++ [FV "z" 0]; s_vars := s_vars s |}.
Lemma wide_loop l : forall rs s, NoDup l -> (forall c, In c l -> ~ In (FV c 0) (s_functors s)) -> ~ In "z" l -> ~ In (FV "z" 0) (s_functors s) ->
  compile_clauses cfg0 false (wide_clauses l) [(FV "n" 1, rs)] s =
  (COk ((FV "n" 1, rs ++ nrules (Z.of_nat (List.length (s_functors s))) l) :: [(FV "p" 1, [fact_rule "p" "z" (wrap16 (Z.of_nat (List.length (s_functors s)) + Z.of_nat (List.length l)))])]), wide_sto s l).
Proof.
  induction l as [|c l IH]; intros rs s N D Z Dz.
  - cbn [wide_clauses map app compile_clauses]. unfold cbind, zfact. rewrite (fact_compiled "p" "z" s (or_intror eq_refl)), (new_index _ _ Dz). cbn. rewrite app_nil_r, Z.add_0_r. reflexivity.
  - change (wide_clauses (c :: l)) with (nfact c :: wide_clauses l). cbn [compile_clauses]. unfold cbind, nfact. rewrite (fact_compiled "n" c s (or_introl eq_refl)), (new_index _ _ (D c (or_introl eq_refl))). cbv beta iota.
    inversion N as [|? ? N1 N2]; subst. change (padd (FV "n" 1) ?r [(FV "n" 1, rs)]) with [(FV "n" 1, rs ++ [r])]. rewrite IH.
    + f_equal.
      * f_equal. unfold with_functor. cbn [s_functors nrules]. rewrite app_length. cbn [List.length]. rewrite <- app_assoc. cbn [app].
        replace (Z.of_nat (List.length (s_functors s) + 1)) with (Z.of_nat (List.length (s_functors s)) + 1)%Z by lia.
        replace (Z.of_nat (List.length (s_functors s)) + 1 + Z.of_nat (List.length l))%Z with (Z.of_nat (List.length (s_functors s)) + Z.of_nat (S (List.length l)))%Z by lia. reflexivity.
      * unfold wide_sto, with_functor. cbn [s_functors s_vars map]. now rewrite <- app_assoc.
    + exact N2.
    + intros d Hd K. cbn [with_functor s_functors] in K. apply in_app_or in K. destruct K as [K|[K|[]]]; [exact (D d (or_intror Hd) K)|]. injection K as ->. now apply N1.
    + intros K. apply Z. now right.
    + intros K. cbn [with_functor s_functors] in K. apply in_app_or in K. destruct K as [K|[K|[]]]; [exact (Dz K)|]. injection K as ->. apply Z. now left.
Qed.
Lemma wide_compiled c l s : NoDup (c :: l) -> (forall d, In d (c :: l) -> ~ In (FV d 0) (s_functors s)) -> ~ In "z" (c :: l) -> ~ In (FV "z" 0) (s_functors s) ->
  compile_program cfg0 (wide_clauses (c :: l)) s = (COk (wide_prog (Z.of_nat (List.length (s_functors s))) (c :: l)), wide_sto s (c :: l)).
Proof.
  intros N D Z Dz. unfold compile_program. change (wide_clauses (c :: l)) with (nfact c :: wide_clauses l). cbn [compile_clauses]. unfold cbind, nfact.
  rewrite (fact_compiled "n" c s (or_introl eq_refl)), (new_index _ _ (D c (or_introl eq_refl))). cbv beta iota.
  inversion N as [|? ? N1 N2]; subst. change (padd (FV "n" 1) ?r []) with [(FV "n" 1, [r])]. rewrite wide_loop.
  - f_equal.
    + f_equal. unfold with_functor, wide_prog. cbn [s_functors nrules]. rewrite app_length. cbn [List.length app].
      replace (Z.of_nat (List.length (s_functors s) + 1)) with (Z.of_nat (List.length (s_functors s)) + 1)%Z by lia.
      replace (Z.of_nat (List.length (s_functors s)) + 1 + Z.of_nat (List.length l))%Z with (Z.of_nat (List.length (s_functors s)) + Z.of_nat (S (List.length l)))%Z by lia. reflexivity.
    + unfold wide_sto, with_functor. cbn [s_functors s_vars map]. now rewrite <- app_assoc.
  - exact N2.
  - intros d Hd K. cbn [with_functor s_functors] in K. apply in_app_or in K. destruct K as [K|[K|[]]]; [exact (D d (or_intror Hd) K)|]. injection K as ->. now apply N1.
  - intros K. apply Z. now right.
  - intros K. cbn [with_functor s_functors] in K. apply in_app_or in K. destruct K as [K|[K|[]]]; [exact (Dz K)|]. injection K as ->. apply Z. now left.
Qed.
Definition o_new : org := match new_org cfg0 with Val o => o | _ => {| o_arena := []; o_queue := []; o_stats := 0; o_limit := 0; o_sto := empty_storage; o_prog := []; o_built := []; o_query := []; o_pgen := 0; o_qgen := 0 |} end.
Lemma o_new_eq : new_org cfg0 = Val o_new.
Proof. vm_compute. reflexivity. Qed.
Definition loaded_wide (l : list string) : org :=
  {| o_arena := o_arena o_new; o_queue := o_queue o_new; o_stats := o_stats o_new; o_limit := o_limit o_new; o_sto := wide_sto (o_sto o_new) l;
     o_prog := merge (o_built o_new) (wide_prog 2 l); o_built := o_built o_new; o_query := o_query o_new; o_pgen := 1; o_qgen := 0 |}.
Lemma names_new c k : In c (names k) -> ~ In (FV c 0) (s_functors (o_sto o_new)) /\ c <> "z" /\ name_of is_lower c = true.
Proof.
  intros H. apply in_map_iff in H. destruct H as (p & <- & _). split; [|split; [|apply bits_name]].
  - change (s_functors (o_sto o_new)) with [FV "[" 0; FV "[" 2]. intros [K|[K|[]]]; [|discriminate K]. destruct p; discriminate K.
  - destruct p; discriminate.
Qed.
Lemma wide_loaded k : load_program cfg0 (wide_text (names (S k))) o_new = Some (LOk, loaded_wide (names (S k))).
Proof.
  unfold load_program. rewrite wide_parsed; [|apply Forall_forall; intros c H; now apply names_new in H].
  change (names (S k)) with (bits 1 :: map bits (pos_seq 2 k)). rewrite wide_compiled; [reflexivity|..].
  - exact (names_nodup (S k)).
  - intros d H. exact (proj1 (names_new d (S k) H)).
  - intros H. exact (proj1 (proj2 (names_new "z" (S k) H)) eq_refl).
  - intros [K|[K|[]]]; discriminate K.
Qed.
Lemma wide_session k : session cfg0 (loaded_wide (names (S k))) (wide_clauses (names (S k))) QNone.
Proof.
  change QNone with (q_reload QNone). eapply ss_program; [exact (ss_new cfg0 _ o_new_eq)| |apply wide_loaded].
  apply wide_parsed. apply Forall_forall. intros c H. now apply names_new in H.
Qed.
(** --- what goes wrong --- *)
Lemma wide_asked k t q (K : org -> bool) : parse_query (append_dot t) = Some (COk q) ->
  match load_query cfg0 t (loaded_wide (names (S k))) with Some (LOk, o) => K o | _ => false end = true ->
  exists o, session cfg0 o (wide_clauses (names (S k))) (QFresh q) /\ K o = true.
Proof.
  intros E H. destruct (load_query cfg0 t (loaded_wide (names (S k)))) as [[[] o]|] eqn:L; try discriminate H. exists o. split; [|exact H]. exact (ss_query cfg0 _ _ _ t q o (wide_session k) E L).
Qed.
Lemma wide_clause c l : In c (wide_clauses l) -> exists h, c = [h] /\ (h = NFun "p" [NCon "z"] \/ exists d, h = NFun "n" [NCon d]).
Proof.
  intros H. apply in_app_or in H. destruct H as [H|[<-|[]]]; [|eexists; split; [reflexivity|now left]]. apply in_map_iff in H. destruct H as (d & <- & _). eexists. split; [reflexivity|]. right. now exists d.
Qed.
Lemma wide_no_clash l : no_clash cfg0 (wide_clauses l).
Proof. intros c H. destruct (wide_clause c l H) as (h & -> & _). reflexivity. Qed.
Lemma wide_goals (Q : node -> Prop) l q : (forall n, In n q -> Q n) -> all_goals Q (wide_clauses l) q.
Proof. intros H. split; [|exact H]. intros c n Hc Hn. destruct (wide_clause c l Hc) as (h & -> & _). elim Hn. Qed.
Definition sizes (nf nv : N) (o : org) : bool :=
  N.eqb (N.of_nat (List.length (s_functors (o_sto o)))) nf && N.eqb (N.of_nat (List.length (s_vars (o_sto o)))) nv && forallb (fun f => Nat.leb (fv_arity f) 2) (s_functors (o_sto o)).
Lemma sizes_ok nf nv o : sizes nf nv o = true -> Z.of_nat (List.length (s_functors (o_sto o))) = Z.of_N nf /\ Z.of_nat (List.length (s_vars (o_sto o))) = Z.of_N nv /\
  forall f, In f (s_functors (o_sto o)) -> fv_arity f <= 2.
Proof.
  unfold sizes. intros H. apply andb_prop in H. destruct H as [H H3]. apply andb_prop in H. destruct H as [H1 H2]. apply N.eqb_eq in H1, H2. rewrite forallb_forall in H3. split; [lia|split; [lia|]].
  intros f Hf. apply Nat.leb_le. auto.
Qed.
Definition crashes (o : org) : bool := match get_answer cfg0 1000 1000 w0 o with Ub _ => true | _ => false end.
Lemma wide_crash : exists o P q, session cfg0 o P (QFresh q) /\ Z.of_nat (List.length (s_functors (o_sto o))) = 32769%Z /\
  (forall f, In f (s_functors (o_sto o)) -> fv_arity f <= 2) /\ (Z.of_nat (List.length (s_vars (o_sto o))) <= 32768)%Z /\
  no_clash cfg0 P /\ all_goals no_is P q /\ exists fuel n w u, get_answer cfg0 fuel n w o = Ub u.
Proof.
  destruct (wide_asked (N.to_nat 32765) "p(X)" [NFun "p" [NVar "X"]] (fun o => sizes 32769 4 o && crashes o)) as (o & S & K); [vm_compute; reflexivity|vm_compute; reflexivity|].
  apply andb_prop in K. destruct K as [K1 K2]. destruct (sizes_ok _ _ _ K1) as (L1 & L2 & L3). exists o. do 2 eexists. split; [exact S|]. split; [exact L1|]. split; [exact L3|]. split; [rewrite L2; lia|].
  split; [apply wide_no_clash|]. split; [apply wide_goals; intros n [<-|[]]; discriminate|]. unfold crashes in K2. destruct (get_answer cfg0 1000 1000 w0 o) as [|u|] eqn:E; try discriminate K2.
  exists 1000, 1000, w0, u. exact E.
Qed.
Definition says_yes (o : org) : bool := match get_answer cfg0 1000 1000 w0 o with Val (RAnswer [], _) => true | _ => false end.
Lemma wide_unsound : exists o P q rs o', session cfg0 o P (QFresh q) /\ Z.of_nat (List.length (s_functors (o_sto o))) = 65539%Z /\
  (forall f, In f (s_functors (o_sto o)) -> fv_arity f <= 2) /\ no_clash cfg0 P /\ (forall a, In a (List.concat P ++ q) -> exists f c, a = NFun f [NCon c]) /\
  run cfg0 o rs o' /\ In (RAnswer []) (delivered rs) /\ ~ exists v, forall a, In a q -> prov (pow_of cfg0) (P ++ append_prog) (inst v a).
Proof.
  destruct (wide_asked (N.to_nat 65535) "p(c)" [NFun "p" [NCon "c"]] (fun o => sizes 65539 3 o && says_yes o)) as (o & S & K); [vm_compute; reflexivity|vm_compute; reflexivity|].
  apply andb_prop in K. destruct K as [K1 K2]. destruct (sizes_ok _ _ _ K1) as (L1 & L2 & L3). unfold says_yes in K2. destruct (get_answer cfg0 1000 1000 w0 o) as [[[|b|e| |] o']|u|] eqn:E; try discriminate K2. destruct b; [|discriminate K2].
  exists o. do 2 eexists. exists ([] ++ [(RAnswer [], o_stats o')]), o'. split; [exact S|]. split; [exact L1|]. split; [exact L3|]. split; [apply wide_no_clash|]. split; [|split; [|split]].
  - intros a Ha. apply in_app_or in Ha. destruct Ha as [Ha|[<-|[]]]; [|now exists "p", "c"]. apply in_concat in Ha. destruct Ha as (c & Hc & Ha). destruct (wide_clause c _ Hc) as (h & -> & H). destruct Ha as [<-|[]]. destruct H as [->|(d & ->)]; eauto.
  - eapply run_answer; [constructor|exact E|discriminate].
  - now left.
  - intros [v Hv]. specialize (Hv _ (or_introl eq_refl)). cbn [inst map] in Hv. generalize dependent (names (Datatypes.S (N.to_nat 65535))). intros l _ Hv.
    assert (G : forall t, prov (pow_of cfg0) (wide_clauses l ++ append_prog) t -> forall u, t = GFun "p" u -> u = [GCon "z"]).
    { intros t Ht. destruct Ht as [h b w Hin Hb| | |]; try discriminate. intros u. apply in_app_or in Hin. destruct Hin as [Hin|[Hin|[Hin|[]]]].
      - destruct (wide_clause _ _ Hin) as (h' & Eh & [H|(d & H)]); injection Eh as -> ->; subst h'; cbn; intros Eu; [injection Eu as <-; reflexivity|discriminate Eu].
      - injection Hin as <- <-. discriminate.
      - injection Hin as <- <-. discriminate. }
    specialize (G _ Hv _ eq_refl). discriminate G.
Qed.
(** The only answer to p(X) is X = c, and p(z) is what is true. *)
Definition says_c (o : org) : bool :=
  match get_answer cfg0 1000 1000 w0 o with
  | Val (RAnswer b, o1) => if list_eq_dec res_eq_dec [RAnswer b] [RAnswer [("X", "c")]] then match get_answer cfg0 1000 1000 w0 o1 with Val (RFalse, _) => true | _ => false end else false
  | _ => false
  end.
Lemma wide_incomplete : exists o P q rs o' v, session cfg0 o P (QFresh q) /\ Z.of_nat (List.length (s_functors (o_sto o))) = 65539%Z /\
  (forall f, In f (s_functors (o_sto o)) -> fv_arity f <= 2) /\ no_clash cfg0 P /\ all_goals no_compare P q /\ all_goals no_is P q /\
  run cfg0 o rs o' /\ delivered rs = [RAnswer [("X", "c")]; RFalse] /\ (forall a, In a q -> prov (pow_of cfg0) (P ++ append_prog) (inst v a)) /\
  forall b sg g, In (RAnswer b) (delivered rs) -> Spec.reads b sg -> (forall x, In x (flat_map nvars q) -> spelled (sg x) = true) ->
    exists x, In x (flat_map nvars q) /\ ginst g (sg x) <> v x.
Proof.
  destruct (wide_asked (N.to_nat 65535) "p(X)" [NFun "p" [NVar "X"]] (fun o => sizes 65539 4 o && says_c o)) as (o & S & K); [vm_compute; reflexivity|vm_compute; reflexivity|].
  apply andb_prop in K. destruct K as [K1 K2]. destruct (sizes_ok _ _ _ K1) as (L1 & L2 & L3). unfold says_c in K2. destruct (get_answer cfg0 1000 1000 w0 o) as [[[|b|e| |] o1]|u|] eqn:E1; try discriminate K2.
  destruct (list_eq_dec res_eq_dec _ _) as [Eb|]; [|discriminate K2]. injection Eb as ->. destruct (get_answer cfg0 1000 1000 w0 o1) as [[[|b|e| |] o2]|u|] eqn:E2; try discriminate K2.
  exists o. do 2 eexists. exists (([] ++ [(RAnswer [("X", "c")], o_stats o1)]) ++ [(RFalse, o_stats o2)]), o2, (fun _ => GCon "z"). split; [exact S|]. split; [exact L1|]. split; [exact L3|]. split; [apply wide_no_clash|].
  split; [apply wide_goals; intros n [<-|[]]; split; discriminate|]. split; [apply wide_goals; intros n [<-|[]]; discriminate|]. split; [|split; [reflexivity|split]].
  - eapply run_answer; [eapply run_answer; [constructor|exact E1|discriminate]|exact E2|discriminate].
  - intros a [<-|[]]. change (inst (fun _ => GCon "z") (NFun "p" [NVar "X"])) with (inst (fun _ => GCon "z") (NFun "p" [NCon "z"])). apply (prov_clause (pow_of cfg0) _ _ []); [|intros ? []].
    apply in_app_iff. left. unfold wide_clauses. apply in_app_iff. right. now left.
  - intros b sg g [Hb|[Hb|[]]]; [|discriminate Hb]. injection Hb as <-. intros R Sp. exists "X". split; [now left|]. specialize (R "X" "c" (or_introl eq_refl)). specialize (Sp "X" (or_introl eq_refl)).
    destruct (sg "X") as [a nm|s|n|s l|s l]; cbn; try discriminate.
    + cbn in R. subst nm. discriminate Sp.
    + cbn in R. subst s. discriminate.
Qed.
Definition hangs_cell (o1 : org) : bool :=
  match o_queue o1 with
  | id :: _ => match nth_error (o_arena o1) id, reads o1 id 0 with Some e, Some (CCons i) => Nat.ltb 0 (l_size (m_heap (x_m e))) && (i <? 0)%Z | _, _ => false end
  | [] => false
  end.
Lemma wide_cell : exists o P q o1 id a, session cfg0 o P (QFresh q) /\ Z.of_nat (List.length (s_functors (o_sto o))) = 32769%Z /\
  (forall f, In f (s_functors (o_sto o)) -> fv_arity f <= 2) /\ quiet cfg0 1000 o o1 /\ In id (o_queue o1) /\ allocated o1 id a /\
  forall c, reads o1 id a = Some c -> ~ cell_complete o1 id a c.
Proof.
  destruct (wide_asked (N.to_nat 32765) "p(z)" [NFun "p" [NCon "z"]] (fun o => sizes 32769 3 o && match turnsb 1 o with Some o1 => hangs_cell o1 | None => false end)) as (o & S & K); [vm_compute; reflexivity|vm_compute; reflexivity|].
  apply andb_prop in K. destruct K as [K1 K2]. destruct (sizes_ok _ _ _ K1) as (L1 & L2 & L3). destruct (turnsb 1 o) as [o1|] eqn:T; [|discriminate K2]. unfold hangs_cell in K2.
  destruct (o_queue o1) as [|id qs] eqn:Q; [discriminate K2|]. destruct (nth_error (o_arena o1) id) as [e|] eqn:Ee; [|discriminate K2]. destruct (reads o1 id 0) as [c|] eqn:R; [|discriminate K2]. destruct c; try discriminate K2.
  apply andb_prop in K2. destruct K2 as [K2 K3]. exists o. do 2 eexists. exists o1, id, 0. split; [exact S|]. split; [exact L1|]. split; [exact L3|]. split; [exact (turnsb_quiet 1 o o1 T)|]. split; [rewrite Q; now left|].
  split; [exists e; split; [exact Ee|now apply Nat.ltb_lt]|]. intros c Hc. rewrite R in Hc. injection Hc as <-. intros [s H]. unfold nthZ in H. rewrite K3 in H. discriminate H.
Qed.

(** --- many queries --- *)
Definition pquery (i : Z) : rule :=
  [ {| ca_regs := 2; ca_code := [IPutVar 1 0 i; ICall (FV "p" 1)]; ca_subs := [("X", 1, false)]; ca_node := NFun "p" [NVar "X"]; ca_user := true |} ].
Lemma pquery_compiled s : compile_query cfg0 [NFun "p" [NVar "X"]] s =
  (COk (pquery (wrap16 (Z.of_nat (List.length (s_vars s))))), {| s_functors := s_functors s; s_vars := s_vars s ++ ["X"] |}).
Proof. destruct s as [fs vs]. cbv -[push_back_var]. reflexivity. Qed.
Definition many (o : org) (k : nat) : org :=
  let r := pquery (wrap16 (Z.of_nat (List.length (s_vars (o_sto o)) + k))) in
  {| o_arena := [init_exec (S (o_qgen o + k)) r]; o_queue := [0]; o_stats := 0; o_limit := o_limit o;
     o_sto := {| s_functors := s_functors (o_sto o); s_vars := s_vars (o_sto o) ++ repeat "X" (S k) |}; o_prog := o_prog o; o_built := o_built o; o_query := r;
     o_pgen := o_pgen o; o_qgen := S (o_qgen o + k) |}.
Definition px : list node := [NFun "p" [NVar "X"]].
Lemma px_parsed : parse_query (append_dot "p(X)") = Some (COk px).
Proof. vm_compute. reflexivity. Qed.
Lemma many_first o : load_query cfg0 "p(X)" o = Some (LOk, many o 0).
Proof. unfold load_query. rewrite px_parsed. unfold px. rewrite pquery_compiled. unfold many. rewrite !Nat.add_0_r. reflexivity. Qed.
Lemma many_next o k : load_query cfg0 "p(X)" (many o k) = Some (LOk, many o (S k)).
Proof.
  unfold load_query. rewrite px_parsed. unfold px. rewrite pquery_compiled. unfold many. cbn [o_sto o_limit o_prog o_built o_pgen o_qgen s_functors s_vars].
  rewrite app_length, repeat_length, <- app_assoc, !Nat.add_succ_r. replace (repeat "X" (S k) ++ ["X"]) with (repeat "X" (S (S k))) by apply (repeat_cons (S k) "X"). reflexivity.
Qed.
Lemma many_session o P s k : session cfg0 o P s -> session cfg0 (many o k) P (QFresh px).
Proof.
  intros H. induction k as [|k IH]; [exact (ss_query cfg0 _ _ _ "p(X)" px _ H px_parsed (many_first o))|]. exact (ss_query cfg0 _ _ _ "p(X)" px _ IH px_parsed (many_next o k)).
Qed.
(** the program p(Y). *)
Definition o_py : org := match load_program cfg0 "p(Y)." o_new with Some (_, o) => o | None => o_new end.
Lemma o_py_session : session cfg0 o_py [[NFun "p" [NVar "Y"]]] QNone.
Proof.
  change QNone with (q_reload QNone). eapply (ss_program cfg0 o_new _ _ "p(Y)."); [exact (ss_new cfg0 _ o_new_eq)|vm_compute; reflexivity|vm_compute; reflexivity].
Qed.
Definition prints (o : org) : bool := match get_answer cfg0 1000 1000 w0 o with Val (RAnswer [(x, y)], _) => String.eqb x "X" && String.eqb y "X" | _ => false end.
Lemma prints_ok o : prints o = true -> exists o', get_answer cfg0 1000 1000 w0 o = Val (RAnswer [("X", "X")], o').
Proof.
  unfold prints. intros K. destruct (get_answer cfg0 1000 1000 w0 o) as [[[|b|e| |] o']|u|]; try discriminate K. destruct b as [|[x y] [|]]; try discriminate K.
  apply andb_prop in K. destruct K as [K1 K2]. apply String.eqb_eq in K1, K2. subst. now exists o'.
Qed.
Lemma crashes_ok o : crashes o = true -> exists u, get_answer cfg0 1000 1000 w0 o = Ub u.
Proof. unfold crashes. intros K. destruct (get_answer cfg0 1000 1000 w0 o) as [|u|]; try discriminate K. now exists u. Qed.
Lemma many_small k : small_tables (o_sto (many o_py k)).
Proof. constructor; [vm_compute; discriminate|]. intros f [<-|[<-|[]]]; vm_compute; discriminate. Qed.
Lemma many_crash : exists o : N -> org, (forall k, session cfg0 (o k) [[NFun "p" [NVar "Y"]]] (QFresh px)) /\
  (forall k, load_query cfg0 "p(X)" (o k) = Some (LOk, o (N.succ k))) /\ (forall k, small_tables (o_sto (o k))) /\
  (exists o', get_answer cfg0 1000 1000 w0 (o 32764%N) = Val (RAnswer [("X", "X")], o')) /\ (exists u, get_answer cfg0 1000 1000 w0 (o 32765%N) = Ub u).
Proof.
  exists (fun k => many o_py (N.to_nat k)). split; [intros k; exact (many_session _ _ _ _ o_py_session)|]. split; [intros k; rewrite many_next; do 3 f_equal; lia|]. split; [intros k; apply many_small|].
  split; [apply prints_ok|apply crashes_ok]; vm_compute; reflexivity.
Qed.
