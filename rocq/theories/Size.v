(** The tables grow by no more than twice the number of characters of the texts loaded. *)
From Coq Require Import Lia.
From Verif Require Import Base Machine Heap Facts Compiler Parser ParserFacts Texts Grammar Roundtrip Exprs Language Print Organizer Process Search Atoms Session Runs Answers Settle.
Open Scope string_scope.
Open Scope list_scope.

(** --- the compiler --- *)
Record bounded (k : nat) (s : storage) : Prop := {
  bo_functors : List.length (s_functors s) <= k;
  bo_vars : List.length (s_vars s) <= k;
  bo_arity : forall f, In f (s_functors s) -> fv_arity f <= k }.
Definition grows {A} (k : nat) (m : comp A) : Prop := forall n s, bounded n s -> bounded (n + k) (snd (m s)).
Lemma bounded_le k n s : k <= n -> bounded k s -> bounded n s.
Proof. intros L [A B C]. constructor; [lia|lia|]. intros f H. specialize (C f H). lia. Qed.
Lemma grows_le {A} k n (m : comp A) : k <= n -> grows k m -> grows n m.
Proof. intros L G i s H. eapply bounded_le; [|exact (G i s H)]. lia. Qed.
Lemma grows_ret {A} (a : A) : grows 0 (cret a).
Proof. intros n s H. rewrite Nat.add_0_r. exact H. Qed.
Lemma grows_throw {A} e : grows 0 (@cthrow A e).
Proof. intros n s H. rewrite Nat.add_0_r. exact H. Qed.
Lemma grows_esc {A} : grows 0 (@cesc A).
Proof. intros n s H. rewrite Nat.add_0_r. exact H. Qed.
Lemma grows_bind {A B} k l (m : comp A) (f : A -> comp B) : grows k m -> (forall a, grows l (f a)) -> grows (k + l) (cbind m f).
Proof.
  intros G F n s H. unfold cbind. specialize (G n s H). destruct (m s) as [[a|e|] s1]; cbn [snd] in *.
  - rewrite Nat.add_assoc. apply F. exact G.
  - eapply bounded_le; [|exact G]. lia.
  - eapply bounded_le; [|exact G]. lia.
Qed.
Lemma grows_any {A} k (m : comp A) : grows 0 m -> grows k m.
Proof. apply grows_le. lia. Qed.
Lemma grows_fidx f : grows (1 + fv_arity f) (cfidx f).
Proof.
  intros n s [A B C]. unfold cfidx, functor_index_of. destruct (fv_pos f (s_functors s)); cbn [snd]; constructor; cbn [s_functors s_vars]; try lia.
  - intros g H. specialize (C g H). lia.
  - rewrite app_length. cbn. lia.
  - intros g H. apply in_app_or in H. destruct H as [H|[<-|[]]]; [specialize (C g H); lia|lia].
Qed.
Lemma grows_var nm : grows 1 (cvar nm).
Proof.
  intros n s [A B C]. unfold cvar, push_back_var. cbn [snd]. constructor; cbn [s_functors s_vars]; try lia.
  - rewrite app_length. cbn. lia.
  - intros g H. specialize (C g H). lia.
Qed.
Lemma grows_stoi s : grows 0 (cstoi s).
Proof. unfold cstoi. destruct (int_text_val s); [|apply grows_esc]. destruct (_ && _)%bool; auto using grows_ret, grows_esc. Qed.
Lemma grows_opidx s : grows 0 (copidx s).
Proof. unfold copidx. destruct (op_index s); auto using grows_ret, grows_esc. Qed.
(** one child *)
Ltac one := first
  [ apply grows_any; first [apply grows_ret|apply grows_throw|apply grows_esc]
  | eapply (grows_bind 1 0); [first [apply grows_var|apply (grows_fidx (FV _ 0))|apply grows_any; first [apply grows_stoi|apply grows_opidx]]|intros; first [apply grows_ret|match goal with |- grows 0 (match ?x with _ => _ end) => destruct x; apply grows_ret end]] ].
Lemma query_kid_grows perm k seen : grows 1 (query_kid perm k seen).
Proof. destruct k as [n x]. unfold query_kid. destruct n as [s|s|s|s l|s l]; try one; (destruct (perm s) as [y|] || idtac); match goal with |- context [seen_in ?r seen] => destruct (seen_in r seen) end; one. Qed.
Lemma prog_kid_grows perm k seen : grows 1 (prog_kid perm k seen).
Proof. destruct k as [n x]. unfold prog_kid. destruct n as [s|s|s|s l|s l]; try one; destruct (seen_in (SX x) seen); one. Qed.
Ltac pair_ret := let c := fresh in let d := fresh in intros [c d]; apply grows_ret.
Lemma query_kids_grows perm ks : forall seen, grows (List.length ks) (query_kids perm ks seen).
Proof.
  induction ks as [|k ks IH]; intros seen; cbn [query_kids List.length]; [apply grows_ret|]. apply (grows_bind 1 (List.length ks)); [apply query_kid_grows|]. intros [c1 s1].
  rewrite <- (Nat.add_0_r (List.length ks)). apply grows_bind; [apply IH|pair_ret].
Qed.
Lemma prog_kids_grows perm ks : forall seen, grows (List.length ks) (prog_kids perm ks seen).
Proof.
  induction ks as [|k ks IH]; intros seen; cbn [prog_kids List.length]; [apply grows_ret|]. apply (grows_bind 1 (List.length ks)); [apply prog_kid_grows|]. intros [c1 s1].
  rewrite <- (Nat.add_0_r (List.length ks)). apply grows_bind; [apply IH|pair_ret].
Qed.
(** one node with its children *)
Definition weigh (e : ent) : nat := 1 + List.length (kids (en_node e)) + List.length (en_kids e).
Definition weights (es : list ent) : nat := list_sum (map weigh es).
Lemma weights_cons e es : weights (e :: es) = weigh e + weights es.
Proof. reflexivity. Qed.
Ltac pair_of := let x := fresh in intros x; first [apply grows_ret|destruct x; apply grows_ret].
Ltac small := first
  [ apply grows_any; first [apply grows_ret|apply grows_throw|apply grows_esc]
  | eapply grows_le; [|eapply grows_bind; [apply grows_var|pair_of]]; lia
  | eapply grows_le; [|eapply grows_bind; [apply (grows_fidx (FV _ 0))|pair_of]]; cbn; lia
  | eapply grows_le; [|eapply grows_bind; [apply grows_stoi|pair_of]]; cbn; lia ].
Lemma query_ent_grows perm vx e seen : grows (weigh e) (query_ent perm vx e seen).
Proof.
  unfold query_ent, weigh. destruct (en_node e) as [s|s|s|s l|s l].
  - destruct (en_arg e); [|small]. destruct (perm s); match goal with |- context [seen_in ?r seen] => destruct (seen_in r seen) end; small.
  - small.
  - small.
  - apply grows_bind; [apply (grows_fidx (to_fview (NFun s l)))|]. intros i. rewrite <- (Nat.add_0_r (List.length (en_kids e))). apply grows_bind; [apply query_kids_grows|pair_of].
  - destruct (check_undefined _ _ _ _); [|small]. eapply grows_le; [|eapply grows_bind; [apply grows_opidx|intros i; eapply grows_bind; [apply query_kids_grows|pair_of]]]. cbn. lia.
Qed.
Lemma prog_ent_grows perm e seen : grows (weigh e) (prog_ent perm e seen).
Proof.
  unfold prog_ent, weigh. destruct (en_node e) as [s|s|s|s l|s l].
  - destruct (en_arg e); [|small]. destruct (seen_in _ seen); [small|]. destruct (perm s); small.
  - small.
  - small.
  - apply grows_bind; [apply (grows_fidx (to_fview (NFun s l)))|]. intros i. rewrite <- (Nat.add_0_r (List.length (en_kids e))). apply grows_bind; [apply prog_kids_grows|pair_of].
  - eapply grows_le; [|eapply grows_bind; [apply grows_opidx|intros i; eapply grows_bind; [apply prog_kids_grows|pair_of]]]. cbn. lia.
Qed.
Lemma query_ents_grows perm vx es : forall seen, grows (weights es) (query_ents perm vx es seen).
Proof.
  induction es as [|e es IH]; intros seen; cbn [query_ents]; [apply grows_ret|]. apply (grows_bind (weigh e) (weights es)); [apply query_ent_grows|]. intros [c1 s1].
  rewrite <- (Nat.add_0_r (weights es)). apply grows_bind; [apply IH|pair_of].
Qed.
Lemma prog_ents_grows perm es : forall seen, grows (weights es) (prog_ents perm es seen).
Proof.
  induction es as [|e es IH]; intros seen; cbn [prog_ents]; [apply grows_ret|]. apply (grows_bind (weigh e) (weights es)); [apply prog_ent_grows|]. intros [c1 s1].
  rewrite <- (Nat.add_0_r (weights es)). apply grows_bind; [apply IH|pair_of].
Qed.
Lemma weights_app a b : weights (a ++ b) = weights a + weights b.
Proof. unfold weights. now rewrite map_app, list_sum_app. Qed.
Lemma weights_rev a : weights (rev a) = weights a.
Proof. induction a as [|e a IH]; [reflexivity|]. cbn [rev]. rewrite weights_app, weights_cons, IH, weights_cons. cbn [weights map list_sum fold_right]. change (weights []) with 0. lia. Qed.
Lemma weights_filter f a : weights (filter f a) <= weights a.
Proof. induction a as [|e a IH]; [auto|]. cbn [filter]. destruct (f e); rewrite ?weights_cons; lia. Qed.
Lemma flat_query_weights a : weights (flatten_query a) <= weights (aa_ents a).
Proof.
  unfold flatten_query. pose proof (weights_filter keep_flat (aa_ents a)) as H. unfold flatten_program. destruct (is_constant (aa_top a)); [exact H|].
  rewrite weights_app, weights_rev, Nat.add_comm, <- weights_app, firstn_skipn. exact H.
Qed.
Lemma to_query_grows perm a seen : grows (weights (aa_ents a)) (to_query perm a seen).
Proof. eapply grows_le; [apply flat_query_weights|]. unfold to_query. rewrite <- (Nat.add_0_r (weights _)). apply grows_bind; [apply query_ents_grows|pair_of]. Qed.
Lemma to_program_grows perm a seen : grows (weights (aa_ents a)) (to_program perm a seen).
Proof. eapply grows_le; [apply (weights_filter keep_flat)|]. unfold to_program. rewrite <- (Nat.add_0_r (weights _)). apply grows_bind; [apply prog_ents_grows|pair_of]. Qed.
(** the nodes of a term *)
Definition node_weight (n : node) : nat := 1 + 2 * List.length (kids n).
Definition node_weights (l : list node) : nat := list_sum (map node_weight l).
Lemma node_weights_cons n l : node_weights (n :: l) = node_weight n + node_weights l.
Proof. reflexivity. Qed.
Lemma fsize_app a b : fsize (a ++ b) = fsize a + fsize b.
Proof. unfold fsize. induction a as [|n a IH]; cbn [app fold_right]; [reflexivity|]. rewrite IH. lia. Qed.
Lemma nsize_kids n : nsize n = 1 + fsize (kids n).
Proof. destruct n; reflexivity. Qed.
Lemma fsize_cons n l : fsize (n :: l) = nsize n + fsize l.
Proof. reflexivity. Qed.
Lemma fsize_length l : List.length l <= fsize l.
Proof. induction l as [|n l IH]; [auto|]. rewrite fsize_cons, nsize_kids. cbn [List.length]. lia. Qed.
Lemma bfs_weights k : forall q, node_weights (bfs_q k q) + 2 * List.length q <= 3 * fsize q.
Proof.
  induction k as [|k IH]; intros q; cbn [bfs_q]; [pose proof (fsize_length q); cbn; lia|].
  destruct q as [|n q]; [cbn; lia|]. specialize (IH (q ++ kids n)). rewrite fsize_app, app_length in IH. rewrite fsize_cons, nsize_kids.
  rewrite node_weights_cons. unfold node_weight. cbn [List.length]. lia.
Qed.
Lemma mk_ents_weights nargs l : forall pos rest, weights (mk_ents nargs pos l rest) <= node_weights (map fst l).
Proof.
  induction l as [|[n x] l IH]; intros pos rest; cbn [mk_ents map fst]; [auto|]. specialize (IH (S pos) (skipn (List.length (kids n)) rest)).
  rewrite weights_cons, node_weights_cons. unfold weigh, node_weight. cbn [en_node en_kids].
  pose proof (firstn_le_length (List.length (kids n)) rest). lia.
Qed.
Lemma combine_weights {A} l : forall xs : list A, node_weights (map fst (combine l xs)) <= node_weights l.
Proof. induction l as [|n l IH]; intros [|x xs]; cbn [combine map fst]; rewrite ?node_weights_cons; try (change (node_weights []) with 0; lia). specialize (IH xs). lia. Qed.
Lemma term_weights n m : weights (aa_ents (fst (fst (assign_term n m)))) <= 3 * nsize n.
Proof.
  unfold assign_term. destruct (assign_xs _ _ _ _ _) as [[xs cnt] m']. cbn [fst aa_ents]. eapply Nat.le_trans; [apply mk_ents_weights|].
  eapply Nat.le_trans; [apply combine_weights|]. unfold bfs_below, bfs. pose proof (bfs_weights (fsize (kids n)) (kids n)). rewrite nsize_kids. lia.
Qed.
Lemma const_weights n : is_constant n = true -> weights (aa_ents (const_atom n)) <= 3 * nsize n.
Proof. destruct n; try discriminate. intros _. cbn. lia. Qed.
Lemma one_weights n : weights (aa_ents (fst (assign_one n))) <= 3 * nsize n.
Proof.
  unfold assign_one. destruct (is_constant n) eqn:E; [now apply const_weights|]. pose proof (term_weights n []) as H. destruct (assign_term n []) as [[a c] m]. exact H.
Qed.
Lemma two_weights h b : weights (aa_ents (fst (fst (assign_two h b)))) <= 3 * nsize h /\ weights (aa_ents (snd (fst (assign_two h b)))) <= 3 * nsize b.
Proof.
  unfold assign_two. destruct (is_constant b) eqn:Eb.
  - pose proof (one_weights h) as H. destruct (assign_one h) as [ha c]. split; [exact H|now apply const_weights].
  - destruct (is_constant h) eqn:Eh.
    + pose proof (one_weights b) as H. destruct (assign_one b) as [ba c]. split; [now apply const_weights|exact H].
    + pose proof (term_weights h []) as H. destruct (assign_term h []) as [[ha c1] m1]. pose proof (term_weights b m1) as K. destruct (assign_term b m1) as [[ba c2] m2]. now split.
Qed.
Lemma query_atom_grows perm pre u n seen : grows (3 * nsize n) (compile_query_atom perm pre u n seen).
Proof.
  unfold compile_query_atom. pose proof (one_weights n) as H. destruct (assign_one n) as [a cnt]. cbn [fst] in H. eapply grows_le; [exact H|].
  rewrite <- (Nat.add_0_r (weights _)). apply grows_bind; [apply to_query_grows|pair_of].
Qed.
Lemma query_atoms_grows perm u ns : forall pre seen, grows (3 * fsize ns) (compile_query_atoms perm pre u ns seen).
Proof.
  induction ns as [|n ns IH]; intros pre seen; cbn [compile_query_atoms]; [apply grows_ret|]. rewrite fsize_cons, Nat.mul_add_distr_l.
  apply grows_bind; [apply query_atom_grows|]. intros [a s]. rewrite <- (Nat.add_0_r (3 * fsize ns)). apply grows_bind; [apply IH|pair_of].
Qed.
Lemma compile_query_grows cf q : grows (3 * fsize q) (compile_query cf q).
Proof. apply query_atoms_grows. Qed.
Lemma program_term_grows cf b c : grows (3 * fsize c) (compile_program_term cf b c).
Proof.
  unfold compile_program_term. destruct c as [|h body]; [apply grows_esc|]. destruct (negb b && redefines h); [apply grows_any, grows_throw|]. rewrite fsize_cons, Nat.mul_add_distr_l.
  destruct body as [|n body].
  - pose proof (one_weights h) as H. destruct (assign_one h) as [ha c]. cbn [fst] in H. apply grows_bind; [eapply grows_le; [exact H|apply to_program_grows]|]. intros [hc s1].
    apply (grows_bind 0 0); [apply grows_ret|]. intros [f s3]. apply (grows_bind 0 0); [apply (query_atoms_grows _ _ [])|pair_of].
  - pose proof (two_weights h n) as [H K]. destruct (assign_two h n) as [[ha ba] c]. cbn [fst snd] in H, K. apply grows_bind; [eapply grows_le; [exact H|apply to_program_grows]|]. intros [hc s1].
    rewrite fsize_cons, Nat.mul_add_distr_l. apply grows_bind.
    + eapply grows_le; [exact K|]. rewrite <- (Nat.add_0_r (weights _)). apply grows_bind; [apply to_query_grows|pair_of].
    + intros [f s3]. cbn [tl]. rewrite <- (Nat.add_0_r (3 * fsize body)). apply grows_bind; [apply query_atoms_grows|pair_of].
Qed.
Definition psize (P : list (list node)) : nat := list_sum (map fsize P).
Lemma psize_cons c P : psize (c :: P) = fsize c + psize P.
Proof. reflexivity. Qed.
Lemma clauses_grow cf b cs : forall p, grows (3 * psize cs) (compile_clauses cf b cs p).
Proof.
  induction cs as [|c cs IH]; intros p; cbn [compile_clauses]; [apply grows_ret|]. rewrite psize_cons, Nat.mul_add_distr_l.
  apply grows_bind; [apply program_term_grows|]. intros [f r]. apply IH.
Qed.
Lemma built_ins_grow cf : grows 75 (compile_built_ins cf).
Proof.
  assert (B : forall nm f p, grows 9 (compile_binary cf nm f p)).
  { intros nm f p. unfold compile_binary. destruct (pred_regs (binary_pred nm)) as [xl xr]. apply (grows_bind 9 0); [apply (program_term_grows cf true [binary_pred nm])|pair_of]. }
  eapply grows_le; [|unfold compile_built_ins; eapply grows_bind; [apply B|intros p1; eapply grows_bind; [apply B|intros p2; eapply grows_bind; [apply B|intros p3; apply clauses_grow]]]]. cbn. lia.
Qed.

(** --- the texts --- *)
Lemma text_app a b : slen (a +++ b) = slen a + slen b.
Proof. induction a as [|c a IH]; [reflexivity|]. cbn [String.append String.length]. now rewrite IH. Qed.
Lemma name_len f s : name_of f s = true -> 1 <= slen s.
Proof. destruct s; [discriminate|cbn; lia]. Qed.
Lemma number_len s : number_text s = true -> 1 <= slen s.
Proof. destruct s; [discriminate|cbn; lia]. Qed.
Ltac lens := rewrite ?text_app; cbn [String.length].
Lemma writes_size p n s : writes p n s -> nsize n <= slen s.
Proof.
  induction 1 as [p b s B H|p b s B H|p b b' n s B B' W IH|p b n m s u Lp B W1 IH1 W2 IH2|p b o n m s u Lp B Ho W1 IH1 W2 IH2|p b o n m s u Lp B Ho W1 IH1 W2 IH2]; lens.
  - apply name_len in H. cbn. lia.
  - apply number_len in H. cbn. lia.
  - lia.
  - cbn. lia.
  - destruct Ho as [<-|[<-|[]]]; cbn; lia.
  - destruct Ho as [<-|[<-|[]]]; cbn; lia.
Qed.
Lemma list_node_size l t : nsize (list_node l t) = List.length l + fsize l + nsize t.
Proof. induction l as [|n l IH]; [reflexivity|]. cbn [list_node]. rewrite nsize_kids. cbn [kids]. rewrite !fsize_cons, IH. cbn. lia. Qed.
Lemma texts_size : (forall n w, term_lang n w -> nsize n <= slen w) /\ (forall n w, head_lang n w -> nsize n <= slen w) /\
  (forall n w, list_lang n w -> nsize n <= slen w) /\ (forall l u, terms_lang l u -> fsize l + List.length l <= 1 + slen u).
Proof.
  apply texts_mut; intros; lens; rewrite ?list_node_size.
  - eapply writes_size; eauto.
  - assumption.
  - assumption.
  - match goal with H : name_of _ _ = true |- _ => apply name_len in H end. cbn. lia.
  - match goal with H : name_of _ _ = true |- _ => apply name_len in H end. rewrite nsize_kids. cbn [kids]. destruct l; cbn [List.length] in *; [cbn|]; lia.
  - cbn. lia.
  - cbn [nil_node nsize fold_right]. lia.
  - cbn [nsize]. lia.
  - lia.
  - cbn [List.length]. rewrite fsize_cons. cbn. lia.
  - cbn [List.length]. rewrite fsize_cons. lia.
Qed.
Lemma goal_size n w : goal_lang n w -> nsize n <= slen w.
Proof.
  destruct texts_size as (T & H & _). intros [a w' b c u A B C|a w' b c u A B C|a w' b e u A B F C|m w' A]; lens; [| | |now apply H];
    apply T in A; (apply T in C || apply writes_size in C); rewrite nsize_kids; cbn [kids]; rewrite !fsize_cons; cbn; lia.
Qed.
Lemma goals_size l u : goals_lang l u -> fsize l <= slen u.
Proof. induction 1 as [n w G|n w b l u G B G' IH]; apply goal_size in G; rewrite fsize_cons; lens; [cbn; lia|lia]. Qed.
Lemma clause_size c w : clause_lang c w -> fsize c <= slen w.
Proof.
  destruct texts_size as (_ & H & _). intros [h w' b A B|h w' b l u b' A B G B']; apply H in A; rewrite fsize_cons; lens; [cbn; lia|]. apply goals_size in G. lia.
Qed.
Lemma program_size P s : program_lang P s -> psize P <= slen s.
Proof.
  induction 1 as [b B|P b c t B O L IH|c P w t C L IH]; lens; [cbn; lia|lia|]. apply clause_size in C. rewrite psize_cons. lia.
Qed.
Lemma query_size q s : query_lang q s -> fsize q <= slen s.
Proof. intros (u & b & b' & -> & G & _). lens. apply goals_size in G. lia. Qed.
Lemma dot_len s : slen (append_dot s) <= S (slen s).
Proof.
  destruct (last_char s) as [B|(u & c & b & -> & Hc & B)]; [rewrite (append_dot_blank s B); lia|]. rewrite (append_dot_last u c b Hc B).
  destruct (Ascii.eqb c dot); rewrite !text_app; cbn [String.length]; lia.
Qed.

(** --- a whole use of the interpreter --- *)
(** as [session], and [n] is the number of characters of all texts loaded so far, rejected ones too, and one more per query *)
Inductive typed (cf : cfg) : org -> list (list node) -> qstate -> nat -> Prop :=
| ty_new o : new_org cf = Val o -> typed cf o [] QNone 0
| ty_program o P s n text cs o' : typed cf o P s n -> parse_program text = Some (COk cs) ->
    load_program cf text o = Some (LOk, o') -> typed cf o' cs (q_reload s) (n + slen text)
| ty_program_err o P s n text r o' : typed cf o P s n ->
    load_program cf text o = Some (r, o') -> r <> LOk -> typed cf o' P s (n + slen text)
| ty_query o P s n text q o' : typed cf o P s n -> parse_query (append_dot text) = Some (COk q) ->
    load_query cf text o = Some (LOk, o') -> typed cf o' P (QFresh q) (n + S (slen text))
| ty_query_err o P s n text r o' : typed cf o P s n ->
    load_query cf text o = Some (r, o') -> r <> LOk -> typed cf o' P QNone (n + S (slen text))
| ty_limit o P s n t : typed cf o P s n -> typed cf (set_time_limit t o) P s n
| ty_answer o P s n fuel k w r o' : typed cf o P s n -> s <> QStale ->
    get_answer cf fuel k w o = Val (r, o') -> r <> ROutOfMemory -> typed cf o' P (q_run s) n.
Lemma typed_session cf o P s n : typed cf o P s n -> session cf o P s.
Proof.
  induction 1 as [o E|o P s n text cs o' H IH Ep E|o P s n text r o' H IH E Hr|o P s n text q o' H IH Ep E|o P s n text r o' H IH E Hr|o P s n t H IH|o P s n fuel k w r o' H IH Hs E Hr].
  - now apply ss_new.
  - eapply ss_program; eauto.
  - eapply ss_program_err; eauto.
  - eapply ss_query; eauto.
  - eapply ss_query_err; eauto.
  - apply ss_limit. exact IH.
  - eapply ss_answer; eauto.
Qed.
Lemma session_typed cf o P s : session cf o P s -> exists n, typed cf o P s n.
Proof.
  induction 1 as [o E|o P s text cs o' H [n IH] Ep E|o P s text r o' H [n IH] E Hr|o P s text q o' H [n IH] Ep E|o P s text r o' H [n IH] E Hr|o P s t H [n IH]|o P s fuel k w r o' H [n IH] Hs E Hr].
  - eexists. apply ty_new. exact E.
  - eexists. eapply ty_program; eauto.
  - eexists. eapply ty_program_err; eauto.
  - eexists. eapply ty_query; eauto.
  - eexists. eapply ty_query_err; eauto.
  - eexists. apply ty_limit. exact IH.
  - eexists. eapply ty_answer; eauto.
Qed.
Lemma load_program_grows cf text o r o' k : bounded k (o_sto o) -> load_program cf text o = Some (r, o') -> bounded (k + 3 * slen text) (o_sto o').
Proof.
  intros B. unfold load_program. destruct (parse_program text) as [[cs|e|]|] eqn:Ep; [|intros E; injection E as _ <-; eapply bounded_le; [|exact B]; lia..|discriminate].
  pose proof (clauses_grow cf false cs [] k (o_sto o) B) as G. apply program_exact, program_size in Ep. unfold compile_program.
  destruct (compile_clauses cf false cs [] (o_sto o)) as [[p|e|] s]; cbn [snd] in G; intros E; injection E as _ <-; cbn [o_sto set_sto]; (eapply bounded_le; [|exact G]); lia.
Qed.
Lemma load_query_grows cf text o r o' k : bounded k (o_sto o) -> load_query cf text o = Some (r, o') -> bounded (k + 3 * S (slen text)) (o_sto o').
Proof.
  intros B. unfold load_query. destruct (parse_query (append_dot text)) as [[q|e|]|] eqn:Ep; [|intros E; injection E as _ <-; eapply bounded_le; [|exact B]; lia..|discriminate].
  pose proof (compile_query_grows cf q k (o_sto o) B) as G. apply query_exact, query_size in Ep. pose proof (dot_len text) as D.
  destruct (compile_query cf q (o_sto o)) as [[p|e|] s]; cbn [snd] in G; intros E; injection E as _ <-; cbn [o_sto set_sto]; (eapply bounded_le; [|exact G]); lia.
Qed.
Theorem typed_bounded cf o P s n : typed cf o P s n -> bounded (75 + 3 * n) (o_sto o).
Proof.
  induction 1 as [o E|o P s n text cs o' H IH Ep E|o P s n text r o' H IH E Hr|o P s n text q o' H IH Ep E|o P s n text r o' H IH E Hr|o P s n t H IH|o P s n fuel k w r o' H IH Hs E Hr].
  - unfold new_org in E. assert (G := built_ins_grow cf 0 empty_storage). destruct (compile_built_ins cf empty_storage) as [[p|e|] s]; try discriminate. injection E as <-. cbn [o_sto snd] in *.
    apply G. constructor; [auto|auto|contradiction].
  - eapply bounded_le; [|eapply load_program_grows; eassumption]. lia.
  - eapply bounded_le; [|eapply load_program_grows; eassumption]. lia.
  - eapply bounded_le; [|eapply load_query_grows; eassumption]. lia.
  - eapply bounded_le; [|eapply load_query_grows; eassumption]. lia.
  - exact IH.
  - rewrite (answer_sto cf o P s fuel k w r o' (typed_session _ _ _ _ _ H) Hs E Hr). exact IH.
Qed.
Theorem typed_small cf o P s n : typed cf o P s n -> (Z.of_nat n <= 10000)%Z -> small_tables (o_sto o) /\ (Z.of_nat (List.length (s_vars (o_sto o))) <= 32768)%Z.
Proof.
  intros H L. destruct (typed_bounded _ _ _ _ _ H) as [A B C]. split; [constructor|]; [lia| |lia]. intros f Hf. specialize (C f Hf). lia.
Qed.
