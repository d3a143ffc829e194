(** Functor indices and permanent variables. *)
From Verif Require Import Base Machine Heap Facts Compiler Parser Print Organizer Spec Valuation Process Session Search Shape Code Alloc Atoms Clause Tables Examples Witness.
From Coq Require Import Sorting.Permutation.
Open Scope string_scope.
Open Scope list_scope.

Lemma index_entry f s i s' : functor_index_of f s = (i, s') -> (Z.of_nat (List.length (s_functors s')) <= 32768)%Z ->
  sto_ext s s' /\ nthZ (s_functors s') i = Some f.
Proof.
  unfold functor_index_of. intros E L.
  assert (G : forall k, nth_error (s_functors s') k = Some f -> nthZ (s_functors s') (wrap16 (Z.of_nat k)) = Some f).
  { intros k Hk. pose proof (nth_error_lt _ _ _ Hk) as Hl. rewrite wrap16_small by lia. unfold nthZ. destruct (Z.ltb_spec (Z.of_nat k) 0); [lia|]. now rewrite Nat2Z.id. }
  destruct (fv_pos f (s_functors s)) as [k|] eqn:Ep; injection E as <- <-.
  - split; [apply sto_ext_refl|]. apply G. now apply fv_pos_some.
  - split; [split; [now exists [f]|exists []; now rewrite app_nil_r]|]. apply G. cbn. rewrite nth_error_app2, Nat.sub_diag by lia. reflexivity.
Qed.
Lemma nthZ_nodup {A} (l : list A) i j x : NoDup l -> nthZ l i = Some x -> nthZ l j = Some x -> i = j.
Proof.
  intros N. unfold nthZ. destruct (Z.ltb_spec i 0); [discriminate|]. destruct (Z.ltb_spec j 0); [discriminate|]. intros Hi Hj.
  assert (E : Z.to_nat i = Z.to_nat j) by (apply (proj1 (NoDup_nth_error l) N); [now apply nth_error_lt in Hi|congruence]). lia.
Qed.
Lemma nthZ_ext {A} (l e : list A) i x : nthZ l i = Some x -> nthZ (l ++ e) i = Some x.
Proof. unfold nthZ. destruct (i <? 0)%Z; [discriminate|]. intros H. rewrite nth_error_app1; [exact H|now apply nth_error_lt in H]. Qed.

Lemma functors_distinct cf o P s f g i j s1 s2 : session cf o P s ->
  functor_index_of f (o_sto o) = (i, s1) -> functor_index_of g s1 = (j, s2) ->
  (Z.of_nat (List.length (s_functors s2)) <= 32768)%Z -> (i = j <-> f = g).
Proof.
  intros HS E1 E2 L. pose proof (session_nodup _ _ _ _ HS) as N0. assert (N1 : NoDup (s_functors s1)) by (pose proof (functor_nodup f _ N0) as K; now rewrite E1 in K).
  assert (N2 : NoDup (s_functors s2)) by (pose proof (functor_nodup g _ N1) as K; now rewrite E2 in K).
  destruct (index_entry g s1 j s2 E2 L) as [[[e Ee] _] J]. assert (L1 : (Z.of_nat (List.length (s_functors s1)) <= 32768)%Z) by (rewrite Ee, app_length in L; lia).
  destruct (index_entry f _ i s1 E1 L1) as [_ I]. apply (nthZ_ext _ e) in I. rewrite <- Ee in I. split; [intros <-; congruence|intros <-; exact (nthZ_nodup _ _ _ _ N2 I J)].
Qed.
(** entries stay where they are *)
Lemma index_stays f s i s1 s2 : functor_index_of f s = (i, s1) -> sto_ext s1 s2 -> (Z.of_nat (List.length (s_functors s2)) <= 32768)%Z ->
  functor_index_of f s2 = (i, s2).
Proof.
  intros E [[e Ee] _] L. assert (G : forall l f k, fv_pos f l = Some k -> fv_pos f (l ++ e) = Some k).
  { induction l as [|g l IH]; intros f0 k H; [discriminate H|]. cbn in *. destruct (fview_eqb f0 g); [exact H|]. destruct (fv_pos f0 l) as [j|] eqn:Ej; [|discriminate H]. now rewrite (IH _ _ Ej). }
  unfold functor_index_of in *. rewrite Ee. destruct (fv_pos f (s_functors s)) as [k|] eqn:Ep; injection E as <- <-.
  - now rewrite (G _ _ _ Ep).
  - cbn [s_functors]. assert (K : fv_pos f (s_functors s ++ [f]) = Some (List.length (s_functors s))).
    { clear Ee. revert Ep. induction (s_functors s) as [|g l IH]; cbn; [now rewrite fview_eqb_refl|]. destruct (fview_eqb f g); [discriminate|]. intros H. destruct (fv_pos f l); [discriminate H|]. now rewrite (IH eq_refl). }
    now rewrite (G _ _ _ K).
Qed.
Lemma functors_wrap : exists s f g i s', NoDup (s_functors s) /\ f <> g /\ functor_index_of f s = (i, s) /\ functor_index_of g s = (i, s').
Proof.
  assert (N : exists n, Z.of_nat n = 65535%Z) by (exists (Z.to_nat 65535); apply Z2Nat.id; lia). destruct N as (n & N).
  set (l := map (FV "g") (seq 1 n)).
  assert (Ll : List.length l = n) by (unfold l; now rewrite map_length, seq_length).
  assert (G : forall f, fv_name f = "g" -> fv_arity f = 0 -> fv_pos f l = None).
  { intros f _ Hf. unfold l. assert (K : forall n (f : fview), fv_arity f = 0 -> forall a, 0 < a -> fv_pos f (map (FV "g") (seq a n)) = None).
    { clear. induction n as [|n IH]; intros f Hf a Ha; [reflexivity|]. cbn [seq map fv_pos]. unfold fview_eqb. cbn [fv_arity]. rewrite Hf. destruct (Nat.eqb_spec 0 a); [lia|]. cbn [andb]. rewrite IH by (assumption || lia). reflexivity. }
    apply K; [exact Hf|lia]. }
  set (s := {| s_functors := FV "f" 0 :: l; s_vars := [] |}).
  exists s, (FV "f" 0), (FV "g" 0), 0%Z, {| s_functors := s_functors s ++ [FV "g" 0]; s_vars := [] |}. split; [|split; [discriminate|split; [reflexivity|]]].
  - cbn [s_functors s]. constructor.
    + unfold l. intros H. apply in_map_iff in H. destruct H as (k & E & _). discriminate E.
    + unfold l. apply FinFun.Injective_map_NoDup; [intros a b E; now injection E|apply seq_NoDup].
  - unfold functor_index_of. cbn [s_functors s fv_pos]. change (fview_eqb (FV "g" 0) (FV "f" 0)) with false. rewrite (G (FV "g" 0) eq_refl eq_refl). cbn [option_map List.length]. rewrite Ll, Nat2Z.inj_succ, N. reflexivity.
Qed.

(** --- permanent variables --- *)
Lemma slot_clause cf h b bs v : ord_ok cf ->
  (exists y, pos_of v (perm_order cf (h :: b :: bs) true) = Some y) <->
  (exists b1 n b2, bs = b1 ++ n :: b2 /\ In v (vars_of n) /\ occ v (h :: b :: b1)).
Proof. intros O. pose proof (permof_some cf (h :: b :: bs) true v O) as K. unfold permof in K. rewrite <- K. exact (perm_vars_clause v h b bs). Qed.
Lemma slot_query cf a q v : ord_ok cf ->
  (exists y, pos_of v (perm_order cf (a :: q) false) = Some y) <->
  (exists q1 n q2, q = q1 ++ n :: q2 /\ In v (vars_of n) /\ occ v (a :: q1)).
Proof. intros O. pose proof (permof_some cf (a :: q) false v O) as K. unfold permof in K. rewrite <- K. exact (perm_vars_query v a q). Qed.
Lemma slot_fact cf h v : ord_ok cf -> pos_of v (perm_order cf [h] true) = None.
Proof.
  intros O. destruct (pos_of v (perm_order cf [h] true)) as [y|] eqn:E; [|reflexivity]. pose proof (proj2 (permof_some cf [h] true v O) (ex_intro _ y E)) as K. destruct K.
Qed.
Lemma slot_distinct cf ns b v w y : pos_of v (perm_order cf ns b) = Some y -> pos_of w (perm_order cf ns b) = Some y -> v = w.
Proof. exact (permof_inj cf ns b v w y). Qed.
Lemma slot_bound cf ns b v y : pos_of v (perm_order cf ns b) = Some y -> y < List.length (perm_order cf ns b).
Proof. exact (permof_lt cf ns b v y). Qed.

Lemma table_witness program query f g :
  match loaded program query, parse_program program, parse_query (append_dot query) with
  | Some o, Some (COk _), Some (COk _) =>
      let s1 := snd (functor_index_of f (o_sto o)) in let s2 := snd (functor_index_of g s1) in
      (Z.of_nat (List.length (s_functors s2)) <= 32768)%Z /\ s1 = o_sto o /\ s2 <> s1
  | _, _, _ => False
  end ->
  exists o P q i j s1 s2, session cfg0 o P (QFresh q) /\
    functor_index_of f (o_sto o) = (i, s1) /\ functor_index_of g s1 = (j, s2) /\
    (Z.of_nat (List.length (s_functors s2)) <= 32768)%Z /\ s1 = o_sto o /\ s2 <> s1 /\
    parse_program program = Some (COk P) /\ parse_query (append_dot query) = Some (COk q).
Proof.
  destruct (loaded program query) as [o|] eqn:E1; [|contradiction].
  destruct (parse_program program) as [[cs| |]|] eqn:E2; try contradiction.
  destruct (parse_query (append_dot query)) as [[q| |]|] eqn:E3; try contradiction.
  destruct (functor_index_of f (o_sto o)) as [i s1] eqn:E4. destruct (functor_index_of g s1) as [j s2] eqn:E5. cbn [snd]. rewrite E5. cbn [snd]. intros (H1 & H2 & H3).
  exists o, cs, q, i, j, s1, s2. split; [eapply loaded_session; eassumption|]. auto 12.
Qed.
