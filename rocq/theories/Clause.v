(** Compiled queries and clauses, as a list of goals to be called one after the other. *)
From Verif Require Import Base Machine Heap Facts Compiler Spec Print Valuation Process Shape Session Code Put Search PutRun Get Alloc Atoms.
From Coq Require Import Sorting.Permutation.
Open Scope list_scope.

(** Code of the goals [ns], called when the variables [D] have values and the permanent registers in [seen] are
    written. *)
Inductive goals_code (sto : storage) (perm : string -> option nat) (u : bool)
  : list node -> list string -> list sreg -> list catom -> Prop :=
| gc_nil D seen : goals_code sto perm u [] D seen []
| gc_cons n ns D D' seen s1 a is r :
    atom_ok n -> (forall s, In s (vars_of n) -> perm s = None -> ~ In s D) ->
    ca_code a = is ++ [ICall (to_fview n)] -> ca_regs a = snd (assign_one n) ->
    ca_subs a = find_var_reg_substitutions perm (fst (assign_one n)) -> ca_user a = u -> ca_node a = n ->
    qents sto perm (flatten_query (fst (assign_one n))) seen is s1 ->
    (forall s, In s D' <-> In s D \/ In s (vars_of n)) ->
    goals_code sto perm u ns D' (remove_x_a_regs s1) r ->
    goals_code sto perm u (n :: ns) D seen (a :: r).

Lemma goals_code_D sto perm u ns D seen r : goals_code sto perm u ns D seen r ->
  forall D2, (forall s, In s D2 <-> In s D) -> goals_code sto perm u ns D2 seen r.
Proof.
  induction 1 as [|n ns D D' seen s1 a is r Ha Ht Ec Er Es Eu En Q HD H IH]; intros D2 E; [constructor|].
  apply (gc_cons sto perm u n ns D2 D' seen s1 a is r); auto.
  - intros s Hs Hp. rewrite E. auto.
  - intros s. rewrite HD, E. reflexivity.
Qed.

Section Decomp.
Variable cf : cfg.
Hypothesis OK : ord_ok cf.
Variable sto : storage.
Hypothesis ok : sto_ok sto.

Lemma aa_top_one n : aa_top (fst (assign_one n)) = n.
Proof.
  unfold assign_one. destruct (is_constant n) eqn:E; [reflexivity|].
  destruct (assign_term n []) as [[a c] m] eqn:Et. cbn. unfold assign_term in Et.
  destruct (assign_xs _ _ _ _ _) as [[xs c'] m']. injection Et as <- <- <-. reflexivity.
Qed.

Lemma query_atoms_code perm u ns : forall seen s r s', compile_query_atoms perm [] u ns seen s = (COk r, s') ->
  sto_ext s' sto -> Forall atom_ok ns -> forall D,
  (forall ns1 n ns2 t, ns = ns1 ++ n :: ns2 -> In t (vars_of n) -> perm t = None -> ~ In t D /\ ~ occ t ns1) ->
  goals_code sto perm u ns D seen r.
Proof.
  induction ns as [|n ns IH]; intros seen s r s' E X Ha D Ht; cbn [compile_query_atoms] in E.
  - injection E as <- <-. constructor.
  - apply cbind_ok in E. destruct E as ([a sa] & t1 & E1 & E). apply cbind_ok in E. destruct E as (r' & t2 & E2 & E).
    injection E as <- <-. inversion Ha as [|? ? Hn Hns]; subst.
    assert (X1 : sto_ext t1 t2) by (pose proof (compile_query_atoms_ext perm u ns [] sa t1) as K; rewrite E2 in K; exact K).
    unfold compile_query_atom in E1. destruct (assign_one n) as [aa cnt] eqn:Ea.
    apply cbind_ok in E1. destruct E1 as ([c sq] & t3 & E1 & E1'). injection E1' as <- <- <-.
    destruct (to_query_rel sto perm ok _ _ _ _ _ _ E1) as (is & -> & Q); [eapply sto_ext_trans; eauto|].
    assert (Et : aa_top aa = n) by (pose proof (aa_top_one n) as K; rewrite Ea in K; exact K).
    rewrite Et. apply (gc_cons sto perm u n ns D (D ++ vars_of n) seen sq _ is r'); cbn [ca_code ca_regs ca_subs ca_user ca_node app]; auto.
    + intros t Hs Hp. apply (Ht [] n ns t); auto.
    + now rewrite Ea.
    + now rewrite Ea.
    + now rewrite Ea.
    + intros t. apply in_app_iff.
    + eapply IH; eauto. intros ns1 m ns2 t Em Hs Hp. destruct (Ht (n :: ns1) m ns2 t) as [A B]; auto; [now rewrite Em|].
      split; [|intros K; apply B, occ_cons; now right]. rewrite in_app_iff. intros [K|K]; [contradiction|].
      apply B, occ_cons. now left.
Qed.

(** A query: the first atom may allocate an environment. *)
Lemma query_code_split q r : query_code cf sto q r -> Forall atom_ok q ->
  (q = [] /\ r = []) \/
  exists n ns a as_, q = n :: ns /\ r = a :: as_ /\
    let perm := permof cf q false in
    let np := List.length (perm_order cf q false) in
    exists a' is, goals_code sto perm true q [] [] (a' :: as_) /\
      ca_code a' = is ++ [ICall (to_fview n)] /\ ca_code a = (alloc_code np ++ is) ++ [ICall (to_fview n)] /\
      ca_regs a = ca_regs a' /\ ca_subs a = ca_subs a' /\ ca_user a = ca_user a' /\ ca_node a = ca_node a'.
Proof.
  intros (s0 & s1 & E & X) Ha. unfold compile_query in E. destruct q as [|n ns].
  - cbn in E. injection E as <- <-. auto.
  - right. set (perm := permof cf (n :: ns) false). set (np := List.length (perm_order cf (n :: ns) false)).
    fold perm in E. change (fun s => pos_of s (perm_order cf (n :: ns) false)) with perm in E. fold np in E.
    cbn [compile_query_atoms] in E.
    apply cbind_ok in E. destruct E as ([a sa] & t1 & E1 & E). apply cbind_ok in E. destruct E as (r' & t2 & E2 & E).
    injection E as <- <-. exists n, ns, a, r'. csplit; auto.
    unfold compile_query_atom in E1. destruct (assign_one n) as [aa cnt] eqn:Ea.
    apply cbind_ok in E1. destruct E1 as ([c sq] & t3 & E1 & E1'). injection E1' as <- <- <-.
    inversion Ha as [|? ? Hn Hns]; subst.
    assert (X1 : sto_ext t3 t2) by (pose proof (compile_query_atoms_ext perm true ns [] (remove_x_a_regs sq) t3) as K;
      rewrite E2 in K; exact K).
    destruct (to_query_rel sto perm ok _ _ _ _ _ _ E1) as (is & -> & Q); [eapply sto_ext_trans; eauto|].
    assert (Et : aa_top aa = n) by (pose proof (aa_top_one n) as K; rewrite Ea in K; exact K). rewrite Et.
    exists {| ca_regs := cnt; ca_code := is ++ [ICall (to_fview n)]; ca_subs := find_var_reg_substitutions perm aa;
              ca_node := n; ca_user := true |}, is. cbn [ca_code ca_regs ca_subs ca_user ca_node].
    csplit; auto; [|now rewrite app_assoc].
    apply (gc_cons sto perm true n ns [] (vars_of n) [] sq _ is r'); cbn [ca_code ca_regs ca_subs ca_user ca_node]; auto.
    + now rewrite Ea.
    + now rewrite Ea.
    + now rewrite Ea.
    + cbn. tauto.
    + eapply query_atoms_code; eauto. intros ns1 m ns2 t Em Hs Hp. subst ns.
      pose proof (temp_query cf n ns1 m ns2 t OK Hp Hs) as K. split; intros K'; apply K, occ_cons; auto.
Qed.

(** --- clauses --- *)
Definition assign_hb (c : list node) : aatom * option aatom * nat :=
  match c with
  | [] => (const_atom (NCon ""), None, 0)
  | [h] => let '(ha, n) := assign_one h in (ha, None, n)
  | h :: b :: _ => let '(ha, ba, n) := assign_two h b in (ha, Some ba, n)
  end.
(** The registers of the head and the first body atom do not clash. *)
Definition clause_ok (cf : cfg) (c : list node) : bool :=
  match c with
  | h :: b :: _ =>
      let perm := permof cf c true in
      let '(ha, ba, nr) := assign_two h b in
      match chk_hents perm nr (flatten_program ha) (ginit h) with
      | Some st =>
          match chk_ents perm nr (flatten_query ba)
                  {| k_seen := erase_head_regs ha (g_seen st); k_F := g_F st; k_D := g_D st |} with
          | Some st' => forallb (fun xn => known (k_F st') (fst xn) (snd xn)) (argq (targs b)) &&
                        forallb (fun s => smem s (k_D st')) (vars_of b) &&
                        forallb (fun s => smem s (vars_of h ++ vars_of b)) (k_D st')
          | None => false
          end
      | None => false
      end
  | _ => true
  end.
(** The registers of the variables of the first body atom still hold them when that atom is called. *)
Definition clause_labels (cf : cfg) (c : list node) : bool :=
  match c with
  | h :: b :: _ =>
      let perm := permof cf c true in
      let '(ha, ba, nr) := assign_two h b in
      match chk_hents perm nr (flatten_program ha) (ginit h) with
      | Some st =>
          match chk_ents perm nr (flatten_query ba)
                  {| k_seen := erase_head_regs ha (g_seen st); k_F := g_F st; k_D := g_D st |} with
          | Some st' => forallb (fun s => match perm s with
                                          | Some _ => true
                                          | None => match assoc s (aa_vx ba) with Some x => known (k_F st') x (NVar s) | None => false end
                                          end) (vars_of b)
          | None => false
          end
      | None => false
      end
  | _ => true
  end.
Definition labelled (cf : cfg) (P : list (list node)) : Prop := forall c, In c P -> clause_labels cf c = true.
(** what is known of the registers [F] includes the variables of [n] *)
Definition shows_vars (perm : string -> option nat) (aa : aatom) (n : node) (F : list (nat * node)) : Prop :=
  forall s, In s (vars_of n) -> perm s = None -> exists x, assoc s (aa_vx aa) = Some x /\ nassoc x F = Some (NVar s).
Definition clause_wf (c : list node) : Prop := match c with [] => False | _ => Forall atom_ok c end.


Lemma assign_hb_head h b : fst (fst (assign_hb (h :: b))) = fst (assign_one h) /\
  snd (assign_one h) <= snd (assign_hb (h :: b)) /\
  match b with [] => snd (fst (assign_hb (h :: b))) = None
  | b1 :: _ => exists ba, snd (fst (assign_hb (h :: b))) = Some ba /\ aa_top ba = b1 end.
Proof.
  destruct b as [|b1 bs]; cbn [assign_hb].
  - destruct (assign_one h) as [ha n]. cbn. auto.
  - unfold assign_two. destruct (is_constant b1) eqn:Eb.
    + destruct (assign_one h) as [ha n]. cbn. csplit; auto. exists (const_atom b1). auto.
    + destruct (is_constant h) eqn:Eh.
      * pose proof (aa_top_one b1) as Et. destruct (assign_one b1) as [ba n]. unfold assign_one. rewrite Eh. cbn in *.
        csplit; auto; [lia|]. exists ba. auto.
      * unfold assign_one. rewrite Eh. destruct (assign_term h []) as [[ha c1] m1].
        destruct (assign_term b1 m1) as [[ba c2] m2] eqn:E2. cbn. csplit; auto; [lia|]. exists ba. split; [reflexivity|].
        unfold assign_term in E2. destruct (assign_xs _ _ _ _ _) as [[xs c'] m']. injection E2 as <- <- <-. reflexivity.
Qed.

Lemma head_ready_any perm h nr : (forall s t y, perm s = Some y -> perm t = Some y -> s = t) ->
  atom_ok h -> snd (assign_one h) <= nr ->
  exists st', chk_hents perm nr (flatten_program (fst (assign_one h))) (ginit h) = Some st' /\ g_T st' = [] /\
    (forall s, In s (g_D st') <-> In s (vars_of h)) /\ sy_seen perm (g_D st') (g_seen st') /\
    List.length (targs h) <= nr.
Proof.
  intros PI Ha Hn. destruct (is_constant h) eqn:Ec.
  - destruct h; try discriminate. unfold assign_one in *. cbn in Hn. cbn. rewrite String.eqb_refl. eexists. split; [reflexivity|].
    cbn. csplit; auto.
    + intros t. reflexivity.
    + intros t y _. cbn. split; [discriminate|intros []].
  - destruct (assign_one h) as [ha cnt] eqn:Ea. destruct (assign_one_alloc h ha cnt Ec Ea) as (lx & TA). cbn [fst snd] in *.
    assert (Hk : forall m, In m (kids h) -> node_ok m) by (destruct h; try contradiction; try discriminate; destruct l; [contradiction|assumption]).
    destruct (head_ready perm h ha cnt nr lx Hk Ec TA Hn) as (st' & E & T & [D SS F Fv]).
    exists st'. csplit; auto.
    + intros s. rewrite D, (lx_var h ha cnt lx TA). split.
      * intros (i & x & _ & H). eauto.
      * intros (i & x & H). exists i, x. split; [eapply nth_error_lt; eauto|assumption].
    + apply (chk_hents_sy perm PI nr _ _ _ E). intros s y _. cbn. split; [discriminate|intros []].
    + unfold targs. rewrite Ec. pose proof (ta_cnt _ _ _ _ TA). lia.
Qed.

Lemma argq_known F l : forallb (fun xn => known F (fst xn) (snd xn)) (argq l) = true ->
  forall i m, nth_error l i = Some m -> nassoc i F = Some m.
Proof.
  intros H i m Hi. rewrite forallb_forall in H. apply known_eq. apply (H (i, m)).
  unfold argq. assert (G : forall k, In (k + i, m) (combine (seq k (List.length l)) l)).
  { clear H. revert i Hi. induction l as [|a l IH]; intros i Hi k; [destruct i; discriminate|].
    destruct i as [|i]; cbn in *.
    - injection Hi as ->. left. now rewrite Nat.add_0_r.
    - right. replace (k + S i) with (S k + i) by lia. now apply IH. }
  exact (G 0).
Qed.

Lemma flatten_ne n m a c m' : kids n <> [] -> assign_term n m = (a, c, m') -> flatten_query a <> [].
Proof.
  unfold assign_term. intros N E. destruct (kids n) as [|k1 ks] eqn:Ek; [contradiction|].
  destruct (bfs_prefix (kids n)) as (w & Ew). unfold bfs_below in E. rewrite Ew, Ek in E. cbn [app] in E.
  destruct (assign_xs (List.length (k1 :: ks)) 0 (k1 :: ks ++ w) (List.length (k1 :: ks)) m) as [[xs c'] m2] eqn:Ex.
  injection E as <- <- <-. cbn [assign_xs] in Ex.
  destruct (match k1 with NVar s => _ | _ => _ end) as [[x c1] m1] in Ex.
  destruct (assign_xs _ 1 (ks ++ w) c1 m1) as [[xs' c2] m2'] in Ex. injection Ex as <- <- <-.
  unfold flatten_query, flatten_program. cbn [aa_top aa_ents combine mk_ents List.length Nat.ltb Nat.leb filter].
  unfold keep_flat at 1 3 5. cbn [en_node en_arg].
  intros H. assert (H' : forall (l : list ent) e, (if is_constant n then e :: l
    else rev (skipn (List.length (kids n)) (e :: l)) ++ firstn (List.length (kids n)) (e :: l)) <> []).
  { intros l e. destruct (is_constant n); [discriminate|]. rewrite Ek. cbn. intros H0. apply app_eq_nil in H0. destruct H0; discriminate. }
  destruct k1; exact (H' _ _ H).
Qed.
Lemma two_ne h b ha ba nr : atom_ok b -> assign_two h b = (ha, ba, nr) -> flatten_query ba <> [].
Proof.
  unfold assign_two. intros Hb E. destruct (is_constant b) eqn:Eb.
  - destruct (assign_one h). injection E as _ <- _. destruct b; try discriminate. 
  - assert (Nk : kids b <> []) by (destruct b; try contradiction; try discriminate; destruct l; [contradiction|discriminate]).
    destruct (is_constant h).
    + unfold assign_one in E. rewrite Eb in E. destruct (assign_term b []) as [[a0 c] m] eqn:Et. injection E as _ <- _.
      eapply flatten_ne; eauto.
    + destruct (assign_term h []) as [[? ?] m1]. destruct (assign_term b m1) as [[a0 c] m] eqn:Et. injection E as _ <- _.
      eapply flatten_ne; eauto.
Qed.

(** The code of a clause. *)
Definition dealloc_code (np : nat) : list catom := if Nat.eqb np 0 then [] else [dealloc_atom].
Record body_code (perm : string -> option nat) (np nr : nat) (ha : aatom) (h b1 : node) (bs : list node) (st : gst)
  (rest : list catom) : Prop := {
  bc_ex : exists ba fa isb s3 st' others,
    rest = fa :: others ++ dealloc_code np /\
    ca_code fa = isb ++ [ICall (to_fview b1)] /\ isb <> [] /\ ca_regs fa = nr /\ ca_user fa = false /\
    qents sto perm (flatten_query ba) (erase_head_regs ha (g_seen st)) isb s3 /\
    chk_ents perm nr (flatten_query ba)
      {| k_seen := erase_head_regs ha (g_seen st); k_F := g_F st; k_D := g_D st |} = Some st' /\
    (forall i m, nth_error (targs b1) i = Some m -> nassoc i (k_F st') = Some m) /\
    (forall s, In s (k_D st') <-> In s (g_D st) \/ In s (vars_of b1)) /\
    goals_code sto perm false bs (k_D st') (remove_x_a_regs s3) others /\
    ca_node fa = b1 /\ aa_top ba = b1 /\ ca_subs fa = find_var_reg_substitutions perm ba /\
    (clause_labels cf (h :: b1 :: bs) = true -> shows_vars perm ba b1 (k_F st')) /\ ents_in b1 (flatten_query ba)
}.
Lemma chk_ents_mono perm nr es : forall st st', chk_ents perm nr es st = Some st' -> forall s, In s (k_D st) -> In s (k_D st').
Proof.
  assert (K : forall k st st', chk_kid perm nr k st = Some st' -> forall s, In s (k_D st) -> In s (k_D st')).
  { intros [n x] st st' E s H. unfold chk_kid in E.
    destruct n as [t|t|t|t l|t l];
      repeat match type of E with context [if ?b then _ else _] => destruct b | context [match perm t with _ => _ end] => destruct (perm t) end;
      try discriminate; injection E as <-; cbn; auto. }
  assert (Ks : forall ks st st', chk_kids perm nr ks st = Some st' -> forall s, In s (k_D st) -> In s (k_D st')).
  { induction ks as [|k ks IH]; intros st st' E s H; cbn [chk_kids] in E; [injection E as <-; assumption|].
    destruct (chk_kid perm nr k st) as [st1|] eqn:E1; [|discriminate]. eauto. }
  induction es as [|e es IH]; intros st st' E s H; cbn [chk_ents] in E; [injection E as <-; assumption|].
  destruct (chk_ent perm nr e st) as [st1|] eqn:E1; [|discriminate]. eapply IH; [eassumption|]. clear E IH.
  unfold chk_ent in E1. destruct (en_node e) as [t|t|t|t l|t l].
  - destruct (en_arg e); [|discriminate].
    repeat match type of E1 with context [if ?b then _ else _] => destruct b | context [match perm t with _ => _ end] => destruct (perm t) end;
      try discriminate; injection E1 as <-; cbn; auto.
  - destruct (Nat.ltb _ _); [|discriminate]. injection E1 as <-. assumption.
  - destruct (Nat.ltb _ _); [|discriminate]. injection E1 as <-. assumption.
  - destruct (_ && _)%bool; [|discriminate]. destruct (chk_kids _ _ _ _) as [st2|] eqn:E2; [|discriminate]. injection E1 as <-.
    cbn. eapply Ks; [exact E2|]. assumption.
  - destruct (_ && _)%bool; [|discriminate]. destruct (chk_kids _ _ _ _) as [st2|] eqn:E2; [|discriminate]. injection E1 as <-.
    cbn. eapply Ks; [exact E2|]. assumption.
Qed.

Lemma chk_hents_seen0 perm nr es st st' c seen' : hents sto perm es (g_seen st) c seen' -> chk_hents perm nr es st = Some st' ->
  g_seen st' = seen'.
Proof.
  revert st c. induction es as [|e es IH]; intros st c Q C; inversion Q; subst.
  - cbn in C. now injection C as <-.
  - cbn [chk_hents] in C. destruct (chk_hent perm nr e st) as [st1|] eqn:C1; [|discriminate].
    eapply IH; [|exact C]. replace (g_seen st1) with s1; [eassumption|].
    match goal with H : hent _ _ _ _ _ _ |- _ => rename H into H2; clear - H2 C1 end.
    unfold chk_hent in C1. destruct (g_T st) as [|[x0 n0] T]; [discriminate|].
    set (st0 := {| g_seen := g_seen st; g_F := g_F st; g_D := g_D st; g_T := T |}) in *.
    change (g_seen st) with (g_seen st0) in H2. remember (g_seen st0) as sn eqn:Esn in H2.
    destruct (node_eqb _ _); [|discriminate].
    destruct H2 as [t x a ks y seen Hp Hs|t x a ks y seen Hp Hs|t x a ks seen Hp Hs|t x a ks seen Hp Hs|t x ks seen|t x a ks seen|t x a ks seen i Hi|n x a ks seen cc code s2 Hc Hk];
      subst seen; cbn [en_node en_arg en_x en_kids] in C1; unfold chk_var in C1.
    + destruct (Nat.eqb _ _); [|discriminate]. rewrite Hs, Hp in C1. destruct (smem _ _); [|discriminate]. injection C1 as <-. reflexivity.
    + destruct (Nat.eqb _ _); [|discriminate]. rewrite Hs, Hp in C1. destruct (smem _ _); [discriminate|]. injection C1 as <-. reflexivity.
    + destruct (Nat.eqb _ _); [|discriminate]. rewrite Hs, Hp in C1. destruct (known _ _ _); [|discriminate]. injection C1 as <-. reflexivity.
    + destruct (Nat.eqb _ _); [|discriminate]. rewrite Hs, Hp in C1. destruct (smem _ _); [discriminate|].
      destruct (_ && _)%bool; [|discriminate]. injection C1 as <-. reflexivity.
    + discriminate.
    + destruct (Nat.eqb _ _); [|discriminate]. injection C1 as <-. reflexivity.
    + destruct (Nat.eqb _ _); [|discriminate]. injection C1 as <-. reflexivity.
    + destruct Hc; (destruct (_ && _)%bool; [|discriminate]); symmetry; eapply chk_hkids_seen; eauto.
Qed.

Lemma clause_code_split b c r : clause_code cf sto b c r -> clause_wf c -> clause_ok cf c = true ->
  exists h body hatom rest hc nr st, c = h :: body /\ r = hatom :: rest /\
    let perm := permof cf c true in
    let np := List.length (perm_order cf c true) in
    let ha := fst (assign_one h) in
    ca_code hatom = (alloc_code np ++ hc) ++ [IProceed] /\ ca_regs hatom = nr /\ ca_user hatom = false /\
    hents sto perm (flatten_program ha) [] hc (g_seen st) /\
    chk_hents perm nr (flatten_program ha) (ginit h) = Some st /\ g_T st = [] /\
    (forall s, In s (g_D st) <-> In s (vars_of h)) /\ sy_seen perm (g_D st) (g_seen st) /\
    List.length (targs h) <= nr /\
    match body with [] => rest = [] /\ np = 0 | b1 :: bs => body_code perm np nr ha h b1 bs st rest end.
Proof.
  intros (s0 & sE & f & E & X) Hw Hk. unfold compile_program_term in E. destruct c as [|h body]; [contradiction|].
  cbn [clause_wf] in Hw. inversion Hw as [|? ? Hh Hb]; subst.
  set (perm := permof cf (h :: body) true) in *. set (np := List.length (perm_order cf (h :: body) true)) in *.
  change (fun s => pos_of s (perm_order cf (h :: body) true)) with perm in E. cbv zeta in E.
  destruct (negb b && redefines h)%bool; [discriminate|]. fold np in E.
  destruct (assign_hb_head h body) as (A1 & A2 & A3).
  replace (match body with [] => let '(ha, c) := assign_one h in (ha, None, c)
           | b0 :: _ => let '(ha, ba, c) := assign_two h b0 in (ha, Some ba, c) end)
    with (assign_hb (h :: body)) in E by (destruct body; reflexivity).
  destruct (assign_hb (h :: body)) as [[ha oba] nr] eqn:Eab. cbn [fst snd] in A1, A2, A3.
  apply cbind_ok in E. destruct E as ([hc0 s1] & t1 & E1 & E).
  apply cbind_ok in E. destruct E as ([firsts s3] & t2 & E2 & E).
  apply cbind_ok in E. destruct E as (others & t3 & E3 & E). injection E as <- <- <-.
  assert (X3 : sto_ext t2 t3) by (pose proof (compile_query_atoms_ext perm false (tl body) [] (remove_x_a_regs s3) t2) as K;
    rewrite E3 in K; exact K).
  assert (X2 : sto_ext t1 t2).
  { destruct oba as [ba|].
    - pose proof (to_query_ext perm ba (erase_head_regs ha s1) t1) as K.
      apply cbind_ok in E2. destruct E2 as ([bc s4] & t4 & E4 & E5). rewrite E4 in K. injection E5 as _ _ <-. exact K.
    - injection E2 as _ _ <-. apply sto_ext_refl. }
  destruct (to_program_rel sto perm ok _ _ _ _ _ _ E1) as (hc & -> & QH).
  { eapply sto_ext_trans; [exact X2|]. eapply sto_ext_trans; eauto. }
  assert (PI : forall s t y, perm s = Some y -> perm t = Some y -> s = t) by (intros s t y; apply permof_inj).
  destruct (head_ready_any perm h nr PI Hh A2) as (st & C1 & C2 & C3 & C4 & C5).
  rewrite <- A1 in C1.
  assert (Es : g_seen st = s1) by (eapply (chk_hents_seen0 perm nr (flatten_program ha) (ginit h)); eauto).
  eexists h, body, _, _, hc, nr, st. csplit; [reflexivity|reflexivity|]. cbv zeta. fold perm np. rewrite <- A1.
  cbn [ca_code ca_regs ca_user]. csplit; auto.
  - now rewrite app_assoc.
  - rewrite Es. exact QH.
  - destruct body as [|b1 bs].
    + rewrite A3 in E2. injection E2 as <- <- <-. cbn in E3. injection E3 as <- <-.
      unfold np, perm_order. cbn [perm_vars].
      assert (Hn : c_ord cf [] = []) by (apply Permutation_nil; symmetry; apply OK). rewrite Hn. auto.
    + destruct A3 as (ba & A3 & A4). rewrite A3 in E2. apply cbind_ok in E2. destruct E2 as ([bc s4] & t4 & E4 & E5).
      injection E5 as <- <- <-. destruct (to_query_rel sto perm ok _ _ _ _ _ _ E4) as (isb & -> & QB);
        [eapply sto_ext_trans; eauto|]. rewrite A4.
      assert (Etwo : assign_two h b1 = (ha, ba, nr)).
      { cbn [assign_hb] in Eab. destruct (assign_two h b1) as [[x y] z]. injection Eab as <- <- <-. injection A3 as <-. reflexivity. }
      unfold clause_ok in Hk. fold perm in Hk. rewrite Etwo, C1 in Hk.
      destruct (chk_ents perm nr (flatten_query ba) _) as [st'|] eqn:C6; [|discriminate].
      apply andb_true_iff in Hk. destruct Hk as [Hk K3]. apply andb_true_iff in Hk. destruct Hk as [K1 K2].
      rewrite forallb_forall in K2, K3.
      assert (HD : forall s, In s (k_D st') <-> In s (g_D st) \/ In s (vars_of b1)).
      { intros s. split.
        - intros H. apply K3 in H. apply smem_in, in_app_iff in H. rewrite C3. assumption.
        - intros [H|H]; [|apply smem_in; now apply K2]. eapply chk_ents_mono; [exact C6|]. exact H. }
      split. exists ba. eexists _, isb, s4, st', others. cbn [app ca_code ca_regs ca_user ca_node ca_subs]. csplit; auto.
      * pose proof (two_ne h b1 ha ba nr (Forall_inv Hb) Etwo) as Ne. intros ->.
        inversion QB as [? Eq|e es0 s00 c1 s11 c2 s2 Q1 Q2 Eq]; rewrite <- Eq in *; [contradiction|].
        match goal with K : _ ++ _ = [] |- _ => apply app_eq_nil in K; destruct K as [-> _] end. inversion Q1; subst e. cbn in C6. discriminate.
      * rewrite Es. exact QB.
      * apply argq_known. exact K1.
      * eapply query_atoms_code; eauto; [inversion Hb; assumption|]. cbn [tl]. intros ns1 m ns2 t Em Hs Hp. subst bs.
        pose proof (temp_clause cf h b1 ns1 m ns2 t OK Hp Hs) as K. rewrite HD, C3. split.
        -- intros K'. apply K. rewrite !occ_cons. tauto.
        -- intros K'. apply K. rewrite !occ_cons. tauto.
      * intros HL s Hs Hp. unfold clause_labels in HL. fold perm in HL. rewrite Etwo, C1, C6 in HL.
        rewrite forallb_forall in HL. specialize (HL s Hs). rewrite Hp in HL. destruct (assoc s (aa_vx ba)) as [x|]; [|discriminate].
        exists x. split; [reflexivity|]. now apply known_eq.
      * apply flatq_in. pose proof (assign_two_in h b1) as K. rewrite Etwo in K. exact K.
Qed.
End Decomp.
