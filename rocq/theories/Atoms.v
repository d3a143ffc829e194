(** Whole atoms: the code of a goal and the code of a clause head pass the checks. *)
From Verif Require Import Base Machine Heap Facts Compiler Spec Print Valuation Process Shape Session Code Put Search PutRun Get Alloc.
From Coq Require Import Sorting.Permutation.
Open Scope list_scope.

(** The atoms the grammar produces: a constant, or a functor with arguments. *)
Definition atom_ok (n : node) : Prop :=
  match n with
  | NCon _ => True
  | NFun _ (_ :: _) => forall m, In m (kids n) -> node_ok m
  | _ => False
  end.
(** What a call puts into the argument registers. *)
Definition targs (n : node) : list node := if is_constant n then [n] else kids n.
Definition sy_seen (perm : string -> option nat) (D : list string) (seen : list sreg) : Prop :=
  forall s y, perm s = Some y -> (seen_in (SY y) seen = true <-> In s D).
Definition no_x (seen : list sreg) : Prop := forall x, seen_in (SX x) seen = false.

Lemma bfs_ok k : forall q, fsize q <= k -> (forall m, In m q -> node_ok m) -> forall m, In m (bfs q) -> node_ok m.
Proof.
  induction k as [|k IH]; intros q Hk H m.
  - destruct q as [|n q]; [intros []|]. cbn in Hk. rewrite nsize_kids in Hk. lia.
  - destruct q as [|n q]; [intros []|]. rewrite bfs_cons. intros [<-|K]; [apply H; now left|].
    apply (IH (q ++ kids n)); auto.
    + rewrite fsize_app. cbn in Hk. fold (fsize q) in Hk. rewrite nsize_kids in Hk. lia.
    + intros a Ha. apply in_app_iff in Ha. destruct Ha as [Ha|Ha]; [apply H; now right|].
      eapply node_ok_kids; [apply H; now left|assumption].
Qed.
Lemma bfs_prefix q : exists w, bfs q = q ++ w.
Proof.
  assert (G : forall m q2, fsize q2 <= m -> exists w, bfs q2 = q2 ++ w).
  { induction m as [|m IHm]; intros q2 Hm.
    - destruct q2 as [|n2 q2]; [exists []; reflexivity|]. cbn in Hm. rewrite nsize_kids in Hm. lia.
    - destruct q2 as [|n2 q2]; [exists []; reflexivity|]. rewrite bfs_cons.
      destruct (IHm (q2 ++ kids n2)) as (w & Ew).
      { rewrite fsize_app. cbn in Hm. fold (fsize q2) in Hm. rewrite nsize_kids in Hm. lia. }
      exists (kids n2 ++ w). rewrite Ew, <- app_assoc. reflexivity. }
  eapply G, Nat.le_refl.
Qed.
Lemma vars_of_in s n : In s (vars_of n) <-> In (NVar s) (bfs_below n).
Proof.
  unfold vars_of. rewrite in_flat_map. split.
  - intros (m & Hm & Hs). destruct m; try contradiction. destruct Hs as [->|[]]. assumption.
  - intros H. exists (NVar s). split; [assumption|now left].
Qed.

(** The allocation of one term. *)
Record term_alloc (n : node) (a : aatom) (cnt : nat) (ta_lx : list (node * nat)) : Prop := {
  ta_map : map fst ta_lx = bfs_below n;
  ta_alloc : forall nr, cnt <= nr -> alloc (List.length (kids n)) nr ta_lx;
  ta_ents : aa_ents a = mk_ents (List.length (kids n)) 0 ta_lx (skipn (List.length (kids n)) ta_lx);
  ta_top : aa_top a = n;
  ta_vx : forall i s x, nth_error ta_lx i = Some (NVar s, x) -> assoc s (aa_vx a) = Some x;
  ta_cnt : List.length (kids n) <= cnt
}.

Lemma assign_term_alloc n a cnt m : assign_term n [] = (a, cnt, m) -> exists lx, term_alloc n a cnt lx.
Proof.
  unfold assign_term. intros E.
  destruct (assign_xs (List.length (kids n)) 0 (bfs_below n) (List.length (kids n)) []) as [[xs c] m'] eqn:Ex.
  injection E as <- <- <-. destruct (assign_alloc _ _ _ _ _ Ex) as (A & B & C & D).
  exists (combine (bfs_below n) xs). split; cbn; auto.
Qed.
Lemma assign_one_alloc n a cnt : is_constant n = false -> assign_one n = (a, cnt) -> exists lx, term_alloc n a cnt lx.
Proof.
  unfold assign_one. intros ->. destruct (assign_term n []) as [[a' c] m] eqn:E. intros K. injection K as <- <-.
  eapply assign_term_alloc; eauto.
Qed.

Section Term.
Variable n : node.
Variable a : aatom.
Variable cnt : nat.
Variable lx : list (node * nat).
Hypothesis TA : term_alloc n a cnt lx.
Let nargs := List.length (kids n).

Lemma lx_split : lx = firstn nargs lx ++ skipn nargs lx /\ map fst (firstn nargs lx) = kids n /\ nargs <= List.length lx.
Proof.
  split; [now rewrite firstn_skipn|]. pose proof (ta_map _ _ _ _ TA) as E. unfold bfs_below in E.
  destruct (bfs_prefix (kids n)) as (w & Ew). rewrite Ew in E. split.
  - rewrite <- firstn_map, E, firstn_app. unfold nargs. rewrite Nat.sub_diag, firstn_O, app_nil_r. apply firstn_all.
  - apply (f_equal (@List.length _)) in E. rewrite map_length, app_length in E. unfold nargs. lia.
Qed.
Lemma lx_blk : Blk (firstn nargs lx) (skipn nargs lx).
Proof.
  destruct lx_split as (E & Ek & _). apply (bfs_blk (fsize (kids n)) (kids n)); auto.
  rewrite <- E. apply TA.
Qed.
Lemma lx_arg i m : nth_error (kids n) i = Some m -> exists x, nth_error lx i = Some (m, x).
Proof.
  intros H. destruct lx_split as (E & Ek & _). rewrite <- Ek in H. rewrite nth_error_map in H.
  destruct (nth_error (firstn nargs lx) i) as [[m' x]|] eqn:Ei; [|discriminate]. cbn in H. injection H as ->.
  exists x. rewrite E, nth_error_app1; [assumption|eapply nth_error_lt; eassumption].
Qed.
Lemma lx_var s : In s (vars_of n) <-> exists i x, nth_error lx i = Some (NVar s, x).
Proof.
  rewrite vars_of_in, <- (ta_map _ _ _ _ TA), in_map_iff. split.
  - intros ([m x] & E & H). cbn in E. subst m. apply In_nth_error in H. destruct H as [i H]. eauto.
  - intros (i & x & H). exists (NVar s, x). split; [reflexivity|]. eapply nth_error_In; eauto.
Qed.
Lemma lx_ok : (forall m, In m (kids n) -> node_ok m) -> forall i m x, nth_error lx i = Some (m, x) -> node_ok m.
Proof.
  intros H i m x Hi. apply (bfs_ok _ (kids n) (Nat.le_refl _)).
  - exact H.
  - change (bfs (kids n)) with (bfs_below n). rewrite <- (ta_map _ _ _ _ TA), in_map_iff. exists (m, x). split; [reflexivity|].
    eapply nth_error_In; eauto.
Qed.
Lemma lx_ents : ents_of nargs lx (aa_ents a).
Proof.
  destruct lx_split as (E & Ek & Hl).
  destruct (mk_ents_at nargs lx (firstn nargs lx) (skipn nargs lx) lx_blk [] 0) as (A & B & C).
  - cbn. exact E.
  - reflexivity.
  - rewrite firstn_length. lia.
  - rewrite <- E in A, B, C. fold nargs in A, B, C. rewrite (ta_ents _ _ _ _ TA). fold nargs. split.
    + exact A.
    + exact B.
    + intros j k Hj. apply C. rewrite firstn_length. lia.
Qed.
End Term.

(** --- goals --- *)
Section Goal.
Variable perm : string -> option nat.
Hypothesis perm_inj : forall s t y, perm s = Some y -> perm t = Some y -> s = t.

Lemma goal_ready n a cnt D seen : atom_ok n -> assign_one n = (a, cnt) ->
  (forall s, In s (vars_of n) -> perm s = None -> ~ In s D) -> no_x seen -> sy_seen perm D seen ->
  exists st', chk_ents perm cnt (flatten_query a) {| k_seen := seen; k_F := []; k_D := D |} = Some st' /\
    (forall i m, nth_error (targs n) i = Some m -> nassoc i (k_F st') = Some m) /\
    (forall s, In s (k_D st') <-> In s D \/ In s (vars_of n)) /\
    sy_seen perm (k_D st') (k_seen st') /\
    (forall s, In s (vars_of n) -> perm s = None -> exists x, assoc s (aa_vx a) = Some x /\ nassoc x (k_F st') = Some (NVar s)) /\
    List.length (targs n) <= cnt.
Proof.
  intros Ha E Ht Hx Hy. destruct (is_constant n) eqn:Ec.
  - destruct n; try discriminate. unfold assign_one in E. cbn in E. injection E as <- <-.
    unfold flatten_query, flatten_program, const_atom. cbn [aa_top is_constant aa_ents filter keep_flat en_node en_arg].
    cbn [chk_ents chk_ent en_x en_node Nat.ltb Nat.leb]. eexists. split; [reflexivity|]. cbn [k_F k_D k_seen targs is_constant].
    csplit.
    + intros [|[|i]] m H; cbn in H |- *; congruence.
    + intros t. cbn. tauto.
    + intros t y Hp. cbn [seen_in existsb sreg_eqb orb]. now apply Hy.
    + intros t [].
    + cbn. lia.
  - destruct (assign_one_alloc n a cnt Ec E) as (lx & TA).
    assert (Hn : forall m, In m (kids n) -> node_ok m) by (destruct n; try contradiction; try discriminate; destruct l; [contradiction|assumption]).
    destruct (lx_split n a cnt lx TA) as (El & Ek & Hl).
    destruct (goal_walk perm perm_inj (List.length (kids n)) cnt lx (ta_alloc _ _ _ _ TA cnt (Nat.le_refl _))
      (lx_ok n a cnt lx TA Hn) D (aa_ents a) (lx_ents n a cnt lx TA) {| k_seen := seen; k_F := []; k_D := D |})
      as (st' & E1 & A & B & C & F).
    + rewrite (eo_len _ _ _ (lx_ents n a cnt lx TA)). assumption.
    + cbn. tauto.
    + intros i s x Hi. apply Ht. apply (lx_var n a cnt lx TA). eauto.
    + exact Hx.
    + exact Hy.
    + exists st'. unfold flatten_query. rewrite (ta_top _ _ _ _ TA), Ec. csplit.
      * exact E1.
      * unfold targs. rewrite Ec. intros i m Hi. destruct (lx_arg n a cnt lx TA i m Hi) as (x & Hx'). apply (A i m x); [|exact Hx'].
        exact (nth_error_lt _ _ _ Hi).
      * intros s. rewrite B, (lx_var n a cnt lx TA). reflexivity.
      * exact C.
      * intros s Hs Hp. apply (lx_var n a cnt lx TA) in Hs. destruct Hs as (i & x & Hi). exists x. split; [|eauto].
        eapply (ta_vx _ _ _ _ TA); eauto.
      * unfold targs. rewrite Ec. exact (ta_cnt _ _ _ _ TA).
Qed.
End Goal.

(** --- heads --- *)
Definition argq (l : list node) : list (nat * node) := combine (seq 0 (List.length l)) l.
Definition ginit (n : node) : gst := {| g_seen := []; g_F := []; g_D := []; g_T := argq (targs n) |}.

Lemma head_ready perm n a cnt nr lx : (forall m, In m (kids n) -> node_ok m) -> is_constant n = false -> term_alloc n a cnt lx -> cnt <= nr ->
  exists st', chk_hents perm nr (flatten_program a) (ginit n) = Some st' /\ g_T st' = [] /\
    HI perm (List.length (kids n)) lx (fun i => i < List.length lx) st'.
Proof.
  intros Hn Ec TA Hnr. destruct (lx_split n a cnt lx TA) as (El & Ek & Hl).
  set (nargs := List.length (kids n)) in *.
  assert (AL : alloc nargs nr lx) by (apply (ta_alloc _ _ _ _ TA); assumption).
  unfold flatten_program. rewrite (ta_ents _ _ _ _ TA). fold nargs.
  replace (mk_ents nargs 0 lx) with (mk_ents nargs 0 (firstn nargs lx ++ skipn nargs lx)) by now rewrite <- El.
  apply (head_walk perm nargs nr lx AL (lx_ok n a cnt lx TA Hn) (firstn nargs lx) (skipn nargs lx) (lx_blk n a cnt lx TA) (ginit n) [] 0).
  - exact El.
  - reflexivity.
  - rewrite firstn_length. lia.
  - unfold ginit. cbn [g_T]. unfold targs. rewrite Ec. unfold argq. fold nargs. rewrite <- Ek.
    assert (G : forall l p, List.length l + p = nargs -> (forall j m x, nth_error l j = Some (m, x) -> nth_error lx (p + j) = Some (m, x)) ->
      combine (seq p (List.length l)) (map fst l) = tq nargs p l).
    { induction l as [|[m x] l IH]; intros p Hp Hj; [reflexivity|]. cbn [List.length seq map fst combine tq].
      cbn in Hp. destruct (Nat.ltb_spec p nargs); [|lia]. rewrite orb_true_r. cbn [app]. f_equal.
      - f_equal. destruct (is_var m) eqn:Hv; [reflexivity|]. symmetry.
        apply (al_arg _ _ _ AL p m x); auto. specialize (Hj 0 m x eq_refl). now rewrite Nat.add_0_r in Hj.
      - apply IH; [lia|]. intros j m' x' H'. replace (S p + j) with (p + S j) by lia. now apply Hj. }
    rewrite <- (G (firstn nargs lx) 0).
    + rewrite firstn_length. now replace (Nat.min nargs (List.length lx)) with nargs by lia.
    + rewrite firstn_length. lia.
    + intros j m x Hj. rewrite El, nth_error_app1; [assumption|eapply nth_error_lt; eassumption].
  - rewrite firstn_length. replace (Nat.min nargs (List.length lx)) with nargs by lia.
    assert (No : forall i, seenp nargs 0 (0 + nargs) i -> False) by (intros i; unfold seenp; lia).
    split; cbn [g_D g_seen g_F ginit].
    + intros s. split; [intros []|]. intros (i & x & Hi & _). now apply No in Hi.
    + intros x. split; [discriminate|]. intros (i & m & Hi & _). now apply No in Hi.
    + intros i s x Hi. now apply No in Hi.
    + intros x m H. discriminate.
Qed.

(** --- a permanent variable's register has been written exactly when the variable has a cell --- *)
Section Sy.
Variable perm : string -> option nat.
Hypothesis perm_inj : forall s t y, perm s = Some y -> perm t = Some y -> s = t.

Lemma sy_x D seen x : sy_seen perm D seen -> sy_seen perm D (SX x :: seen).
Proof. intros H s y Hp. cbn. apply H. assumption. Qed.
Lemma sy_tmp D seen s : perm s = None -> sy_seen perm D seen -> sy_seen perm (s :: D) seen.
Proof. intros Hs H t y Hp. rewrite (H t y Hp). cbn. split; [auto|]. intros [<-|K]; [congruence|assumption]. Qed.
Lemma sy_perm D seen s y : perm s = Some y -> sy_seen perm D seen -> sy_seen perm (s :: D) (SY y :: seen).
Proof.
  intros Hs H t z Hp. cbn [seen_in existsb sreg_eqb]. fold (seen_in (SY z) seen). rewrite orb_true_iff, Nat.eqb_eq, (H t z Hp).
  cbn. split; intros [E|K]; auto.
  - left. subst. eauto.
  - subst. left. congruence.
Qed.
Lemma chk_kid_sy nr k st st' : chk_kid perm nr k st = Some st' -> sy_seen perm (k_D st) (k_seen st) ->
  sy_seen perm (k_D st') (k_seen st').
Proof.
  destruct k as [n x]. unfold chk_kid. intros E H.
  destruct n as [s|s|s|s l|s l].
  - destruct (perm s) as [y|] eqn:Hp.
    + destruct (seen_in (SY y) (k_seen st)); [injection E as <-; assumption|].
      destruct (smem s (k_D st)); [discriminate|]. injection E as <-. cbn. now apply sy_perm.
    + destruct (seen_in (SX x) (k_seen st)).
      * destruct (known _ _ _); [injection E as <-; assumption|discriminate].
      * destruct (smem s (k_D st)); [discriminate|]. destruct (Nat.ltb x nr); [|discriminate]. injection E as <-. cbn [k_D k_seen].
        now apply sy_tmp, sy_x.
  - destruct (Nat.ltb x nr); [|discriminate]. injection E as <-. assumption.
  - destruct (Nat.ltb x nr); [|discriminate]. injection E as <-. assumption.
  - destruct (_ && _)%bool; [|discriminate]. injection E as <-. assumption.
  - destruct (_ && _)%bool; [|discriminate]. injection E as <-. assumption.
Qed.
Lemma chk_kids_sy nr ks : forall st st', chk_kids perm nr ks st = Some st' -> sy_seen perm (k_D st) (k_seen st) ->
  sy_seen perm (k_D st') (k_seen st').
Proof.
  induction ks as [|k ks IH]; cbn [chk_kids]; intros st st' E H; [injection E as <-; assumption|].
  destruct (chk_kid perm nr k st) as [st1|] eqn:E1; [|discriminate]. eapply IH; [eassumption|]. eapply chk_kid_sy; eauto.
Qed.
Lemma chk_ent_sy nr e st st' : chk_ent perm nr e st = Some st' -> sy_seen perm (k_D st) (k_seen st) ->
  sy_seen perm (k_D st') (k_seen st').
Proof.
  unfold chk_ent. intros E H. destruct (en_node e) as [s|s|s|s l|s l].
  - destruct (en_arg e) as [a|]; [|discriminate]. destruct (Nat.ltb a nr); [|discriminate].
    destruct (perm s) as [y|] eqn:Hp.
    + destruct (seen_in (SY y) (k_seen st)); [injection E as <-; assumption|].
      destruct (smem s (k_D st)); [discriminate|]. injection E as <-. cbn. now apply sy_perm.
    + destruct (seen_in (SX (en_x e)) (k_seen st)).
      * destruct (known _ _ _); [injection E as <-; assumption|discriminate].
      * destruct (smem s (k_D st)); [discriminate|]. destruct (Nat.ltb (en_x e) nr); [|discriminate]. injection E as <-. cbn [k_D k_seen].
        now apply sy_tmp, sy_x.
  - destruct (Nat.ltb (en_x e) nr); [|discriminate]. injection E as <-. now apply sy_x.
  - destruct (Nat.ltb (en_x e) nr); [|discriminate]. injection E as <-. now apply sy_x.
  - destruct (_ && _)%bool; [|discriminate]. destruct (chk_kids _ _ _ _) as [st2|] eqn:E2; [|discriminate]. injection E as <-.
    apply (chk_kids_sy _ _ _ _ E2). now apply sy_x.
  - destruct (_ && _)%bool; [|discriminate]. destruct (chk_kids _ _ _ _) as [st2|] eqn:E2; [|discriminate]. injection E as <-.
    apply (chk_kids_sy _ _ _ _ E2). now apply sy_x.
Qed.
Lemma chk_ents_sy nr es : forall st st', chk_ents perm nr es st = Some st' -> sy_seen perm (k_D st) (k_seen st) ->
  sy_seen perm (k_D st') (k_seen st').
Proof.
  induction es as [|e es IH]; cbn [chk_ents]; intros st st' E H; [injection E as <-; assumption|].
  destruct (chk_ent perm nr e st) as [st1|] eqn:E1; [|discriminate]. eapply IH; [eassumption|]. eapply chk_ent_sy; eauto.
Qed.

Lemma chk_var_sy nr s x st st' : chk_var perm nr s x st = Some st' -> sy_seen perm (g_D st) (g_seen st) ->
  sy_seen perm (g_D st') (g_seen st').
Proof.
  unfold chk_var. intros E H. destruct (seen_in (SX x) (g_seen st)).
  - destruct (perm s); [destruct (smem s (g_D st))|destruct (known _ _ _)]; try discriminate; injection E as <-; assumption.
  - destruct (smem s (g_D st)); [discriminate|]. destruct (perm s) as [y|] eqn:Hp.
    + injection E as <-. cbn [g_D g_seen]. apply sy_perm; [assumption|]. now apply sy_x.
    + destruct (_ && _)%bool; [|discriminate]. injection E as <-. cbn [g_D g_seen]. now apply sy_tmp, sy_x.
Qed.
Lemma chk_hkid_sy nr k st st' : chk_hkid perm nr k st = Some st' -> sy_seen perm (g_D st) (g_seen st) ->
  sy_seen perm (g_D st') (g_seen st').
Proof.
  destruct k as [n x]. unfold chk_hkid. intros E H. destruct n as [s|s|s|s l|s l].
  - eapply chk_var_sy; eauto.
  - destruct (_ && _)%bool; [|discriminate]. injection E as <-. assumption.
  - destruct (_ && _)%bool; [|discriminate]. injection E as <-. assumption.
  - destruct (_ && _)%bool; [|discriminate]. injection E as <-. now apply sy_x.
  - destruct (_ && _)%bool; [|discriminate]. injection E as <-. now apply sy_x.
Qed.
Lemma chk_hkids_sy nr ks : forall st st', chk_hkids perm nr ks st = Some st' -> sy_seen perm (g_D st) (g_seen st) ->
  sy_seen perm (g_D st') (g_seen st').
Proof.
  induction ks as [|k ks IH]; cbn [chk_hkids]; intros st st' E H; [injection E as <-; assumption|].
  destruct (chk_hkid perm nr k st) as [st1|] eqn:E1; [|discriminate]. eapply IH; [eassumption|]. eapply chk_hkid_sy; eauto.
Qed.
Lemma chk_hents_sy nr es : forall st st', chk_hents perm nr es st = Some st' -> sy_seen perm (g_D st) (g_seen st) ->
  sy_seen perm (g_D st') (g_seen st').
Proof.
  induction es as [|e es IH]; cbn [chk_hents]; intros st st' E H; [injection E as <-; assumption|].
  destruct (chk_hent perm nr e st) as [st1|] eqn:E1; [|discriminate]. eapply IH; [eassumption|]. clear E IH.
  unfold chk_hent in E1. destruct (g_T st) as [|[x0 n0] T']; [discriminate|].
  destruct (node_eqb n0 (en_node e)); [|discriminate]. destruct (en_node e) as [s|s|s|s l|s l].
  - destruct (en_arg e) as [a|]; [|discriminate]. destruct (Nat.eqb x0 a); [|discriminate]. apply (chk_var_sy _ _ _ _ _ E1). exact H.
  - destruct (Nat.eqb _ _); [|discriminate]. injection E1 as <-. exact H.
  - destruct (Nat.eqb _ _); [|discriminate]. injection E1 as <-. exact H.
  - destruct (_ && _)%bool; [|discriminate]. apply (chk_hkids_sy _ _ _ _ E1). exact H.
  - destruct (_ && _)%bool; [|discriminate]. apply (chk_hkids_sy _ _ _ _ E1). exact H.
Qed.
Lemma sy_remove D seen : sy_seen perm D seen -> sy_seen perm D (remove_x_a_regs seen).
Proof.
  intros H s y Hp. rewrite <- (H s y Hp). unfold seen_in, remove_x_a_regs. rewrite !existsb_exists.
  split; intros (r & Hr & E); exists r; (split; [|assumption]).
  - apply filter_In in Hr. apply Hr.
  - apply filter_In. split; [assumption|]. destruct r; [discriminate|reflexivity].
Qed.
Lemma no_x_remove seen : no_x (remove_x_a_regs seen).
Proof.
  intros x. unfold seen_in, remove_x_a_regs. apply not_true_is_false. rewrite existsb_exists. intros (r & Hr & E).
  apply filter_In in Hr. destruct r; [|discriminate]. destruct Hr. discriminate.
Qed.
Lemma sy_erase D a seen : sy_seen perm D seen -> sy_seen perm D (erase_head_regs a seen).
Proof.
  intros H s y Hp. rewrite <- (H s y Hp). unfold erase_head_regs. destruct (is_constant (aa_top a)); [reflexivity|].
  unfold seen_in at 1 3. rewrite !existsb_exists.
  split; intros (r & Hr & E); exists r; (split; [|assumption]).
  - apply filter_In in Hr. apply Hr.
  - apply filter_In. split; [assumption|]. destruct r; [discriminate|]. apply negb_true_iff, not_true_is_false.
    unfold seen_in. rewrite existsb_exists. intros (r & Hr' & E'). apply in_flat_map in Hr'. destruct Hr' as (e & _ & K).
    destruct (en_node e); try contradiction; destruct K as [<-|[]]; discriminate.
Qed.
Lemma erase_x a seen x : seen_in (SX x) (erase_head_regs a seen) = true -> seen_in (SX x) seen = true.
Proof.
  unfold erase_head_regs. destruct (is_constant (aa_top a)); [auto|]. unfold seen_in. rewrite !existsb_exists.
  intros (r & Hr & E). apply filter_In in Hr. exists r. split; [apply Hr|assumption].
Qed.
End Sy.

(** --- the permanent variables --- *)
Definition occ (s : string) (ns : list node) : Prop := exists n, In n ns /\ In s (vars_of n).
(** [s] occurs in some atom of [ns] and in an earlier one ([pre] included). *)
Definition spans (s : string) (pre ns : list node) : Prop :=
  exists ns1 n ns2, ns = ns1 ++ n :: ns2 /\ In s (vars_of n) /\ occ s (pre ++ ns1).

Lemma assoc_vset s t i (l : vinfo) : assoc s (vset t i l) = if String.eqb s t then Some i else assoc s l.
Proof.
  induction l as [|[u j] l IH]; cbn [vset assoc].
  - destruct (String.eqb_spec s t); reflexivity.
  - destruct (String.eqb_spec t u) as [->|Hn]; cbn [assoc].
    + destruct (String.eqb_spec s u); reflexivity.
    + rewrite IH. destruct (String.eqb_spec s u) as [->|]; [|reflexivity].
      destruct (String.eqb_spec u t); [congruence|reflexivity].
Qed.
Lemma assoc_first k vs : forall l s, assoc s (mark_first k vs l) =
  if smem s vs then Some (k, match assoc s l with Some (_, p) => p | None => false end) else assoc s l.
Proof.
  unfold mark_first. induction vs as [|t vs IH]; intros l s; cbn [fold_left smem existsb]; [reflexivity|].
  rewrite IH. fold (smem s vs). rewrite assoc_vset. destruct (String.eqb_spec s t) as [->|Hn]; cbn [orb]; [|reflexivity].
  destruct (smem t vs); reflexivity.
Qed.
Lemma assoc_later k vs : forall l s, assoc s (mark_later k vs l) =
  if smem s vs then match assoc s l with Some (j, _) => Some (j, negb (Nat.eqb j k)) | None => Some (k, false) end else assoc s l.
Proof.
  unfold mark_later. induction vs as [|t vs IH]; intros l s; cbn [fold_left smem existsb]; [reflexivity|].
  rewrite IH. fold (smem s vs). destruct (assoc t l) as [[j p]|] eqn:Et; rewrite assoc_vset;
    destruct (String.eqb_spec s t) as [->|Hn]; cbn [orb]; try reflexivity; rewrite Et; destruct (smem t vs); try reflexivity.
  now rewrite Nat.eqb_refl.
Qed.
Definition bounded (k : nat) (l : vinfo) : Prop := forall s j p, assoc s l = Some (j, p) -> j < k.
Lemma occ_cons s n ns : occ s (n :: ns) <-> In s (vars_of n) \/ occ s ns.
Proof.
  unfold occ. split.
  - intros (m & [<-|H] & K); eauto.
  - intros [K|(m & H & K)]; [exists n|exists m]; split; auto; [now left|now right].
Qed.
Lemma occ_app s a b : occ s (a ++ b) <-> occ s a \/ occ s b.
Proof.
  unfold occ. split.
  - intros (m & H & K). apply in_app_iff in H. destruct H; [left|right]; eauto.
  - intros [(m & H & K)|(m & H & K)]; exists m; split; auto; apply in_app_iff; auto.
Qed.
Lemma occ_nil s : ~ occ s [].
Proof. intros (n & [] & _). Qed.
Lemma const_no_vars n : is_constant n = true -> vars_of n = [].
Proof. destruct n; [discriminate|reflexivity|discriminate|discriminate|discriminate]. Qed.
Lemma spans_cons s pre n ns : spans s pre (n :: ns) <-> (In s (vars_of n) /\ occ s pre) \/ spans s (pre ++ [n]) ns.
Proof.
  unfold spans. split.
  - intros (ns1 & m & ns2 & E & Hm & Ho). destruct ns1 as [|a ns1].
    + injection E as -> ->. rewrite app_nil_r in Ho. auto.
    + injection E as -> ->. right. exists ns1, m, ns2. rewrite <- app_assoc. auto.
  - intros [[Hn Ho]|(ns1 & m & ns2 & E & Hm & Ho)].
    + exists [], n, ns. rewrite app_nil_r. auto.
    + exists (n :: ns1), m, ns2. subst ns. rewrite <- app_assoc in Ho. auto.
Qed.
Lemma mark_rest_spec s ns : forall k l pre, bounded k l -> (occ s pre <-> exists i, assoc s l = Some i) ->
  ((exists j, assoc s (mark_rest k ns l) = Some (j, true)) <-> (exists j, assoc s l = Some (j, true)) \/ spans s pre ns).
Proof.
  induction ns as [|n ns IH]; intros k l pre Hb Ho; cbn [mark_rest].
  - split; [auto|]. intros [H|(ns1 & n & ns2 & E & _)]; [assumption|]. destruct ns1; discriminate.
  - rewrite spans_cons. destruct (is_constant n) eqn:Ec.
    + rewrite (IH k l (pre ++ [n])); [|assumption|].
      * rewrite (const_no_vars n Ec). cbn. tauto.
      * rewrite occ_app, occ_cons, (const_no_vars n Ec), <- Ho. pose proof (occ_nil s). cbn. tauto.
    + rewrite (IH (S k) (mark_later k (vars_of n) l) (pre ++ [n])).
      * rewrite assoc_later. destruct (smem s (vars_of n)) eqn:Em.
        -- apply smem_in in Em. destruct (assoc s l) as [[j p]|] eqn:El.
           ++ assert (j < k) by eauto. replace (negb (Nat.eqb j k)) with true
                by (symmetry; apply negb_true_iff, Nat.eqb_neq; lia).
              split; [intros [K|K]|intros [K|K]]; auto; try (left; eauto; fail).
              right. left. split; [assumption|]. apply Ho. eauto.
           ++ split.
              ** intros [(j & K)|K]; [discriminate|auto].
              ** intros [(j & K)|[[_ K]|K]]; [discriminate| |auto]. apply Ho in K. destruct K. discriminate.
        -- apply Bool.not_true_iff_false in Em. rewrite smem_in in Em. tauto.
      * intros t j p. rewrite assoc_later. destruct (smem t (vars_of n)).
        -- destruct (assoc t l) as [[j' p']|] eqn:El; intros E; injection E as <- <-; [apply Hb in El|]; lia.
        -- intros E. apply Hb in E. lia.
      * rewrite occ_app, occ_cons, Ho, assoc_later. pose proof (occ_nil s). destruct (smem s (vars_of n)) eqn:Em.
        -- apply smem_in in Em. split; [|auto]. intros _. destruct (assoc s l) as [[j p]|]; eauto.
        -- apply Bool.not_true_iff_false in Em. rewrite smem_in in Em. tauto.
Qed.

Lemma vset_in s t i (l : vinfo) : In s (map fst (vset t i l)) <-> s = t \/ In s (map fst l).
Proof.
  induction l as [|[u j] l IH]; cbn [vset map fst In]; [intuition congruence|].
  destruct (String.eqb_spec t u) as [->|Hn]; cbn [map fst In]; [intuition congruence|]. rewrite IH. tauto.
Qed.
Lemma vset_nodup t i (l : vinfo) : NoDup (map fst l) -> NoDup (map fst (vset t i l)).
Proof.
  induction l as [|[u j] l IH]; cbn [vset map fst]; intros H; [constructor; [tauto|constructor]|].
  inversion H as [|? ? H1 H2]; subst.
  destruct (String.eqb_spec t u) as [->|Hn]; cbn [map fst]; constructor; auto.
  rewrite vset_in. intros [E|K]; [congruence|contradiction].
Qed.
Lemma first_nodup k vs : forall l, NoDup (map fst l) -> NoDup (map fst (mark_first k vs l)).
Proof. unfold mark_first. induction vs as [|t vs IH]; intros l H; cbn [fold_left]; [assumption|]. apply IH, vset_nodup, H. Qed.
Lemma later_nodup k vs : forall l, NoDup (map fst l) -> NoDup (map fst (mark_later k vs l)).
Proof.
  unfold mark_later. induction vs as [|t vs IH]; intros l H; cbn [fold_left]; [assumption|]. apply IH.
  destruct (assoc t l) as [[j p]|]; apply vset_nodup, H.
Qed.
Lemma rest_nodup ns : forall k l, NoDup (map fst l) -> NoDup (map fst (mark_rest k ns l)).
Proof.
  induction ns as [|n ns IH]; intros k l H; cbn [mark_rest]; [assumption|]. destruct (is_constant n); apply IH; [assumption|].
  now apply later_nodup.
Qed.
Definition pnames (l : vinfo) : list string := map fst (filter (fun e => snd (snd e)) l).
Lemma pnames_nodup l : NoDup (map fst l) -> NoDup (pnames l).
Proof.
  unfold pnames. induction l as [|[u [j p]] l IH]; cbn; intros H; [constructor|]. inversion H as [|? ? H1 H2]; subst.
  destruct p; cbn; [|auto]. constructor; [|auto]. intros K. apply H1. apply in_map_iff in K. destruct K as (e & E & K).
  apply filter_In in K. apply in_map_iff. exists e. tauto.
Qed.
Lemma pnames_in s l : NoDup (map fst l) -> (In s (pnames l) <-> exists j, assoc s l = Some (j, true)).
Proof.
  unfold pnames. induction l as [|[u [j p]] l IH]; cbn [map fst filter snd assoc]; intros H.
  - split; [intros []|intros (j & E); discriminate].
  - inversion H as [|? ? H1 H2]; subst. destruct (String.eqb_spec s u) as [->|Hn].
    + split.
      * destruct p; [eauto|]. rewrite IH by assumption. intros (j' & E). exfalso. apply H1. clear -E.
        induction l as [|[t i] l IH]; cbn in *; [discriminate|]. destruct (String.eqb_spec u t); [left; congruence|right; auto].
      * intros (j' & E). injection E as -> ->. now left.
    + rewrite <- IH by assumption. destruct p; cbn; [|reflexivity]. split; [intros [E|K]; [congruence|auto]|auto].
Qed.
Lemma pos_of_nth s l y : pos_of s l = Some y -> nth_error l y = Some s.
Proof.
  revert y. induction l as [|t l IH]; intros y; cbn; [discriminate|]. destruct (String.eqb_spec s t) as [->|].
  - intros E. injection E as <-. reflexivity.
  - destruct (pos_of s l) as [z|]; [|discriminate]. cbn. intros E. injection E as <-. cbn. auto.
Qed.
Lemma pos_of_in s l : In s l <-> exists y, pos_of s l = Some y.
Proof.
  split.
  - induction l as [|t l IH]; cbn; [intros []|]. intros H. destruct (String.eqb_spec s t) as [->|Hn]; [eauto|].
    destruct IH as (y & ->); [destruct H; [congruence|assumption]|]. cbn. eauto.
  - intros (y & H). apply pos_of_nth in H. eapply nth_error_In; eauto.
Qed.
(** C35. The hash map is iterated in some order, each entry once. *)
Definition ord_ok (cf : cfg) : Prop := forall l, Permutation (c_ord cf l) l.
Definition permof (cf : cfg) (atoms : list node) (program_term : bool) : string -> option nat :=
  fun s => pos_of s (perm_order cf atoms program_term).
Lemma permof_inj cf atoms b s t y : permof cf atoms b s = Some y -> permof cf atoms b t = Some y -> s = t.
Proof. unfold permof. intros A B. apply pos_of_nth in A. apply pos_of_nth in B. congruence. Qed.
Lemma permof_lt cf atoms b s y : permof cf atoms b s = Some y -> y < List.length (perm_order cf atoms b).
Proof. intros A. apply pos_of_nth in A. now apply nth_error_lt in A. Qed.

Lemma perm_vars_nodup atoms b : NoDup (perm_vars atoms b).
Proof.
  unfold perm_vars. destruct atoms as [|n0 [|n1 ns]]; try constructor. fold pnames.
  assert (N0 : NoDup (map fst (if is_constant n0 then [] else mark_first 0 (vars_of n0) []))).
  { destruct (is_constant n0); [constructor|]. apply first_nodup. constructor. }
  destruct b; [destruct ns as [|n2 ns]; [constructor|]; destruct (is_constant n1)|]; apply pnames_nodup, rest_nodup; auto.
  now apply first_nodup.
Qed.
Lemma l0_spec s n0 : assoc s (if is_constant n0 then [] else mark_first 0 (vars_of n0) []) =
  if smem s (vars_of n0) then Some (0, false) else None.
Proof.
  destruct (is_constant n0) eqn:E; [rewrite (const_no_vars n0 E); reflexivity|]. rewrite assoc_first. reflexivity.
Qed.
Lemma perm_vars_query s n0 ns : In s (perm_vars (n0 :: ns) false) <-> spans s [n0] ns.
Proof.
  destruct ns as [|n1 ns].
  - cbn. split; [intros []|]. intros (ns1 & n & ns2 & E & _). destruct ns1; discriminate.
  - change (perm_vars (n0 :: n1 :: ns) false)
      with (pnames (mark_rest 1 (n1 :: ns) (if is_constant n0 then [] else mark_first 0 (vars_of n0) []))). rewrite pnames_in.
    + rewrite (mark_rest_spec s (n1 :: ns) 1 _ [n0]).
      * rewrite l0_spec. destruct (smem s (vars_of n0)); split; try tauto; intros [(j & E)|K]; auto; discriminate.
      * intros t j p. rewrite l0_spec. destruct (smem t (vars_of n0)); [|discriminate]. intros E. injection E. lia.
      * rewrite l0_spec, occ_cons, <- smem_in. pose proof (occ_nil s).
        destruct (smem s (vars_of n0)); split; intros K; eauto; [destruct K; [discriminate|contradiction]|destruct K; discriminate].
    + apply rest_nodup. destruct (is_constant n0); [constructor|]. apply first_nodup. constructor.
Qed.
Lemma perm_vars_clause s h b ns : In s (perm_vars (h :: b :: ns) true) <-> spans s [h; b] ns.
Proof.
  destruct ns as [|n2 ns].
  - cbn. split; [intros []|]. intros (ns1 & n & ns2 & E & _). destruct ns1; discriminate.
  - set (l0 := if is_constant h then [] else mark_first 0 (vars_of h) []).
    assert (N0 : NoDup (map fst l0)) by (unfold l0; destruct (is_constant h); [constructor|]; apply first_nodup; constructor).
    change (perm_vars (h :: b :: n2 :: ns) true)
      with (if is_constant b then pnames (mark_rest 1 (n2 :: ns) l0)
            else pnames (mark_rest 2 (n2 :: ns) (mark_first 1 (vars_of b) l0))).
    destruct (is_constant b) eqn:Eb; rewrite pnames_in by (apply rest_nodup; try apply first_nodup; exact N0).
    + rewrite (mark_rest_spec s (n2 :: ns) 1 l0 [h; b]).
      * unfold l0. rewrite l0_spec. destruct (smem s (vars_of h)); split; try tauto; intros [(j & E)|K]; auto; discriminate.
      * intros t j p. unfold l0. rewrite l0_spec. destruct (smem t (vars_of h)); [|discriminate]. intros E. injection E. lia.
      * unfold l0. rewrite l0_spec, !occ_cons, (const_no_vars b Eb), <- smem_in. pose proof (occ_nil s).
        destruct (smem s (vars_of h)); split; intros K; eauto.
        -- destruct K as [K|[[]|K]]; [discriminate|contradiction].
        -- destruct K; discriminate.
    + rewrite (mark_rest_spec s (n2 :: ns) 2 _ [h; b]).
      * rewrite assoc_first. unfold l0. rewrite l0_spec. destruct (smem s (vars_of b)), (smem s (vars_of h)); split; try tauto;
          intros [(j & E)|K]; auto; discriminate.
      * intros t j p. rewrite assoc_first. unfold l0. rewrite l0_spec.
        destruct (smem t (vars_of b)), (smem t (vars_of h)); intros E; try discriminate; injection E; lia.
      * rewrite assoc_first. unfold l0. rewrite l0_spec, !occ_cons, <- !smem_in. pose proof (occ_nil s).
        destruct (smem s (vars_of b)), (smem s (vars_of h)); split; intros K; eauto.
        -- destruct K as [K|[K|K]]; try discriminate; contradiction.
        -- destruct K; discriminate.
Qed.
Lemma permof_some cf atoms b s : ord_ok cf -> (In s (perm_vars atoms b) <-> exists y, permof cf atoms b s = Some y).
Proof.
  intros H. unfold permof. rewrite <- pos_of_in. unfold perm_order. split; apply Permutation_in; [symmetry|]; apply H.
Qed.
(** a temporary variable does not reach into a later atom *)
Lemma temp_query cf n0 ns1 n ns2 s : ord_ok cf -> permof cf (n0 :: ns1 ++ n :: ns2) false s = None -> In s (vars_of n) ->
  ~ occ s (n0 :: ns1).
Proof.
  intros H E Hs Ho. assert (K : exists y, permof cf (n0 :: ns1 ++ n :: ns2) false s = Some y).
  { apply permof_some; [assumption|]. apply perm_vars_query. exists ns1, n, ns2. csplit; auto. }
  destruct K. congruence.
Qed.
Lemma temp_clause cf h b ns1 n ns2 s : ord_ok cf -> permof cf (h :: b :: ns1 ++ n :: ns2) true s = None -> In s (vars_of n) ->
  ~ occ s (h :: b :: ns1).
Proof.
  intros H E Hs Ho. assert (K : exists y, permof cf (h :: b :: ns1 ++ n :: ns2) true s = Some y).
  { apply permof_some; [assumption|]. apply perm_vars_clause. exists ns1, n, ns2. csplit; auto. }
  destruct K. congruence.
Qed.

(** The nodes whose code an atom's entries produce are the atom itself or below it. *)
Definition ents_in (n : node) (es : list ent) : Prop :=
  forall e, In e es -> In (en_node e) (n :: bfs_below n) /\ forall k, In k (en_kids e) -> In (fst k) (n :: bfs_below n).
Lemma mk_ents_in nargs l : forall pos rest e, In e (mk_ents nargs pos l rest) ->
  In (en_node e) (map fst l) /\ forall k, In k (en_kids e) -> In k rest.
Proof.
  induction l as [|[n x] l IH]; intros pos rest e H; [contradiction|]. cbn [mk_ents] in H. destruct H as [<-|H].
  - cbn [en_node en_kids]. split; [now left|]. intros k Hk. rewrite <- (firstn_skipn (List.length (kids n)) rest). apply in_app_iff. now left.
  - destruct (IH _ _ _ H) as [A B]. split; [now right|]. intros k Hk. rewrite <- (firstn_skipn (List.length (kids n)) rest). apply in_app_iff.
    right. now apply B.
Qed.
Lemma assign_term_in n m : ents_in n (aa_ents (fst (fst (assign_term n m)))).
Proof.
  unfold assign_term. destruct (assign_xs _ _ _ _ _) as [[xs c1] m1]. cbn [fst aa_ents]. intros e He.
  destruct (mk_ents_in _ _ _ _ _ He) as [A B].
  assert (G : forall k : node * nat, In k (combine (bfs_below n) xs) -> In (fst k) (n :: bfs_below n)).
  { intros [k x] Hk. right. apply in_combine_l in Hk. exact Hk. }
  split.
  - apply in_map_iff in A. destruct A as (k & <- & Hk). now apply G.
  - intros k Hk. apply G. specialize (B k Hk). rewrite <- (firstn_skipn (List.length (kids n)) (combine (bfs_below n) xs)).
    apply in_app_iff. now right.
Qed.
Lemma const_in n : ents_in n (aa_ents (const_atom n)).
Proof. intros e [<-|[]]. cbn. split; [now left|intros k []]. Qed.
Lemma assign_one_in n : ents_in n (aa_ents (fst (assign_one n))).
Proof.
  unfold assign_one. destruct (is_constant n); [apply const_in|]. pose proof (assign_term_in n []) as K. destruct (assign_term n []) as [[a c] m]. exact K.
Qed.
Lemma assign_two_in h b : ents_in b (aa_ents (snd (fst (assign_two h b)))).
Proof.
  unfold assign_two. destruct (is_constant b); [destruct (assign_one h); apply const_in|].
  destruct (is_constant h); [pose proof (assign_one_in b) as K; destruct (assign_one b); exact K|].
  destruct (assign_term h []) as [[ha c1] m1]. pose proof (assign_term_in b m1) as K. destruct (assign_term b m1) as [[ba c2] m2]. exact K.
Qed.
Lemma flat_in n a : ents_in n (aa_ents a) -> ents_in n (flatten_program a).
Proof. intros H e He. apply filter_In in He. apply H, He. Qed.
Lemma flatq_in n a : ents_in n (aa_ents a) -> ents_in n (flatten_query a).
Proof.
  intros H e He. apply (flat_in n a H). unfold flatten_query in He. destruct (is_constant (aa_top a)); [exact He|].
  rewrite <- (firstn_skipn (List.length (kids (aa_top a))) (flatten_program a)). apply in_app_iff in He. apply in_app_iff.
  destruct He as [He|He]; [right; now apply in_rev|now left].
Qed.
