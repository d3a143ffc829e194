(** The layered copy-on-write heap behaves like a flat heap, instruction by instruction. *)
From Verif Require Import Base Machine Heap Facts.

Section Sim.
Variable par : nat -> option cell.
Variable cf : cfg.
Variable sto : storage.

Definition hrel (lh : lheap) (fh : list cell) : Prop :=
  l_size lh = List.length fh /\ forall i, l_at par lh i = nth_error fh i.
Definition mrel (m : mst lheap) (fm : mst (list cell)) : Prop :=
  hrel (m_heap m) (m_heap fm) /\ m_regs m = m_regs fm /\ m_mode m = m_mode fm /\ m_S m = m_S fm /\
  m_envs m = m_envs fm.

Lemma hrel_push lh fh c : hrel lh fh -> hrel (l_push lh c) (fh ++ [c]).
Proof.
  intros [Hs Ha]. split.
  - unfold l_size, l_push in *. cbn. rewrite !app_length. cbn. lia.
  - intros i. rewrite nth_error_snoc, <- Hs. specialize (Ha i). unfold l_at, l_size, l_push in *. cbn [l_start l_changes l_own].
    rewrite app_length. cbn [List.length].
    destruct (Nat.eqb_spec i (l_start lh + List.length (l_own lh))) as [->|Hne].
    + rewrite (proj2 (Nat.ltb_lt _ _)) by lia. rewrite (proj2 (Nat.leb_le _ _)) by lia.
      rewrite nth_error_snoc. replace (_ - _) with (List.length (l_own lh)) by lia. now rewrite Nat.eqb_refl.
    + rewrite <- Ha. destruct (Nat.ltb_spec i (l_start lh + List.length (l_own lh))) as [Hlt|Hge].
      * rewrite (proj2 (Nat.ltb_lt _ _)) by lia. destruct (Nat.leb_spec (l_start lh) i); [|reflexivity].
        rewrite nth_error_snoc. destruct (Nat.eqb_spec (i - l_start lh) (List.length (l_own lh))); [lia|reflexivity].
      * rewrite (proj2 (Nat.ltb_ge _ _)) by lia. reflexivity.
Qed.

Lemma hrel_set lh fh i c : hrel lh fh ->
  match l_set par lh i c, upd fh i c with
  | Some lh', Some fh' => hrel lh' fh'
  | None, None => True
  | _, _ => False
  end.
Proof.
  intros [Hs Ha]. unfold l_set. pose proof (Ha i) as Hi.
  destruct (l_at par lh i) as [old|] eqn:E.
  - pose proof (nth_error_lt _ _ _ (eq_sym Hi)) as Hlt.
    destruct (upd_some fh i c Hlt) as [fh' Hf]. rewrite Hf.
    pose proof (upd_length _ _ _ _ Hf) as Hlen. pose proof (fun j => upd_nth _ _ _ _ j Hf) as Hn.
    destruct (Nat.leb_spec (l_start lh) i) as [Hle|Hgt].
    + unfold l_size in Hs.
      destruct (upd_some (l_own lh) (i - l_start lh) c) as [o Ho]; [lia|]. rewrite Ho. cbn.
      pose proof (upd_length _ _ _ _ Ho) as Holen. split; [unfold l_size; cbn; lia|].
      intros j. rewrite Hn. specialize (Ha j). unfold l_at, l_size in *. cbn [l_start l_changes l_own]. rewrite Holen.
      destruct (Nat.eqb_spec j i) as [->|Hne].
      * rewrite (proj2 (Nat.ltb_lt _ _)) by lia. rewrite (proj2 (Nat.leb_le _ _)) by lia.
        rewrite (upd_nth _ _ _ _ _ Ho). now rewrite Nat.eqb_refl.
      * rewrite <- Ha. destruct (Nat.ltb_spec j (l_start lh + List.length (l_own lh))); [|reflexivity].
        destruct (Nat.leb_spec (l_start lh) j); [|reflexivity].
        rewrite (upd_nth _ _ _ _ _ Ho). destruct (Nat.eqb_spec (j - l_start lh) (i - l_start lh)); [lia|reflexivity].
    + split; [unfold l_size in *; cbn; lia|]. intros j. rewrite Hn. specialize (Ha j).
      unfold l_at, l_size in *. cbn [l_start l_changes l_own find_change].
      destruct (Nat.eqb_spec j i) as [->|Hne].
      * rewrite (proj2 (Nat.ltb_lt _ _)) by lia. rewrite (proj2 (Nat.leb_gt _ _)) by lia. reflexivity.
      * rewrite <- Ha. reflexivity.
  - rewrite upd_none; [exact I|]. apply nth_error_None. congruence.
Qed.

Notation L := (lops par).

Lemma at_sim lh fh i : hrel lh fh -> at_ lheap L lh i = at_ (list cell) fops fh i.
Proof. intros [_ Ha]. unfold at_. cbn. now rewrite Ha. Qed.
Lemma hset_sim lh fh i c : hrel lh fh ->
  out_rel hrel (hset lheap L lh i c) (hset (list cell) fops fh i c).
Proof.
  intros H. unfold hset. cbn. pose proof (hrel_set lh fh i c H) as K.
  destruct (l_set par lh i c), (upd fh i c); cbn; try contradiction; auto.
Qed.
Lemma deref_aux_sim lh fh : hrel lh fh -> forall n a,
  deref_aux lheap L n lh a = deref_aux (list cell) fops n fh a.
Proof.
  intros H n. induction n as [|n IH]; intros a; cbn; [reflexivity|].
  rewrite (at_sim _ _ _ H). destruct (at_ _ fops fh a) as [[| |b ?| | |b]| |]; cbn; auto;
    destruct (Nat.eqb b a); auto.
Qed.
Lemma deref_sim lh fh a : hrel lh fh -> deref lheap L lh a = deref (list cell) fops fh a.
Proof.
  intros H. unfold deref. destruct H as [Hs Ha]. cbn [h_size lops fops]. rewrite Hs.
  apply deref_aux_sim. now split.
Qed.
Lemma bind_ref_sim lh fh d t : hrel lh fh ->
  out_rel hrel (bind_ref lheap L lh d t) (bind_ref (list cell) fops fh d t).
Proof.
  intros H. unfold bind_ref. rewrite (at_sim _ _ _ H).
  destruct (at_ _ fops fh d) as [[]| |]; cbn; auto. now apply hset_sim.
Qed.

Definition prel {A} (x : A * lheap) (y : A * list cell) := fst x = fst y /\ hrel (snd x) (snd y).
Lemma unify_sim n : forall pdl lh fh, hrel lh fh ->
  out_rel prel (unify_loop lheap L n lh pdl) (unify_loop (list cell) fops n fh pdl).
Proof.
  induction n as [|n IH]; intros [|a [|b pdl]] lh fh H; cbn; auto; try (split; auto; fail).
  rewrite !(deref_sim _ _ _ H).
  destruct (deref _ fops fh a) as [d1| |]; cbn; auto.
  destruct (deref _ fops fh b) as [d2| |]; cbn; auto.
  destruct (Nat.eqb d1 d2); [now apply IH|].
  rewrite !(at_sim _ _ _ H).
  destruct (at_ _ fops fh d1) as [c1| |]; cbn; auto.
  destruct (at_ _ fops fh d2) as [c2| |]; cbn; auto.
  destruct c1, c2; cbn; auto;
    try (eapply out_rel_bind; [now apply bind_ref_sim|]; intros ? ? ?; now apply IH);
    try (destruct (Z.eqb _ _); cbn; auto; split; cbn; auto; fail);
    split; cbn; auto.
Qed.

Definition srel {A} (x : A * mst lheap) (y : A * mst (list cell)) := fst x = fst y /\ mrel (snd x) (snd y).

Lemma mrel_set_heap m fm h fh : mrel m fm -> hrel h fh -> mrel (set_heap m h) (set_heap fm fh).
Proof. intros [? (?&?&?&?)] ?. repeat split; cbn; auto; apply H4. Qed.
Lemma mrel_set_regs m fm r : mrel m fm -> mrel (set_regs m r) (set_regs fm r).
Proof. intros [? (?&?&?&?)]. repeat split; cbn; auto; apply H. Qed.
Lemma mrel_set_envs m fm r : mrel m fm -> mrel (set_envs m r) (set_envs fm r).
Proof. intros [? (?&?&?&?)]. repeat split; cbn; auto; apply H. Qed.
Lemma mrel_set_mode m fm w s : mrel m fm -> mrel (set_mode m w s) (set_mode fm w s).
Proof. intros [? (?&?&?&?)]. repeat split; cbn; auto; apply H. Qed.
Lemma mrel_inc m fm : mrel m fm -> mrel (inc_S m) (inc_S fm).
Proof. intros [? (?&?&?&?)]. repeat split; cbn; auto; apply H. Qed.
Lemma mrel_push m fm c : mrel m fm -> mrel (push lheap L m c) (push (list cell) fops fm c).
Proof. intros H. unfold push. apply mrel_set_heap; [assumption|]. cbn. apply hrel_push. apply H. Qed.
Lemma hsize_sim m fm : mrel m fm -> hsize lheap L m = hsize (list cell) fops fm.
Proof. intros [[H _] _]. exact H. Qed.
Lemma wreg_sim m fm i c : mrel m fm -> out_rel mrel (wreg lheap m i c) (wreg (list cell) fm i c).
Proof.
  intros H. unfold wreg. destruct (H) as [_ (Hr&_)]. rewrite Hr.
  destruct (upd (m_regs fm) i c); cbn; auto. now apply mrel_set_regs.
Qed.
Lemma wperm_sim m fm i c : mrel m fm -> out_rel mrel (wperm lheap m i c) (wperm (list cell) fm i c).
Proof.
  intros H. unfold wperm. destruct (H) as [_ (_&_&_&He)]. rewrite He.
  destruct (m_envs fm) as [|e es]; cbn; auto. destruct (upd e i c); cbn; auto. now apply mrel_set_envs.
Qed.
Lemma rreg_sim m fm i : mrel m fm -> rreg lheap m i = rreg (list cell) fm i.
Proof. intros [_ (H&_)]. unfold rreg. now rewrite H. Qed.
Lemma rperm_sim m fm i : mrel m fm -> rperm lheap m i = rperm (list cell) fm i.
Proof. intros [_ (_&_&_&H)]. unfold rperm. now rewrite H. Qed.
Lemma unify_m_sim n m fm a b : mrel m fm ->
  out_rel srel (unify_m lheap L n m a b) (unify_m (list cell) fops n fm a b).
Proof.
  intros H. unfold unify_m, unify. eapply out_rel_bind; [apply unify_sim, H|].
  intros [ok h] [ok' h'] [E Hh]. cbn in *. subst ok'. split; cbn; [reflexivity|]. now apply mrel_set_heap.
Qed.
Lemma push_bind_sim m fm c d : mrel m fm ->
  out_rel hrel (bind_ref lheap L (m_heap (push lheap L m c)) d (hsize lheap L (push lheap L m c) - 1))
               (bind_ref (list cell) fops (m_heap (push (list cell) fops fm c)) d
                         (hsize (list cell) fops (push (list cell) fops fm c) - 1)).
Proof.
  intros H. rewrite (hsize_sim _ _ (mrel_push m fm c H)). apply bind_ref_sim. apply (mrel_push m fm c H).
Qed.

Lemma get_structure_sim m fm c x : mrel m fm ->
  out_rel srel (get_structure lheap L m c x) (get_structure (list cell) fops fm c x).
Proof.
  intros H. unfold get_structure. rewrite (rreg_sim _ _ _ H).
  destruct (rreg _ fm x) as [r| |]; cbn [bind out_rel]; auto.
  destruct (get_heap_i r) as [a0| |]; cbn [bind out_rel]; auto.
  rewrite (deref_sim _ _ _ (proj1 H)). destruct (deref _ fops (m_heap fm) a0) as [d| |]; cbn [bind out_rel]; auto.
  rewrite (at_sim _ _ _ (proj1 H)). destruct (at_ _ fops (m_heap fm) d) as [cc| |]; cbn [bind out_rel]; auto.
  assert (HS : m_S m = m_S fm) by apply H.
  destruct cc; try (destruct (cell_eqb _ c); cbn [out_rel]; split; auto; cbn [snd]; now apply mrel_set_mode).
  eapply out_rel_bind; [now apply push_bind_sim|]. intros h fh Hh. cbn [out_rel]. split; [reflexivity|]. cbn [snd].
  rewrite HS. apply mrel_set_mode, mrel_set_heap; [|assumption]. now apply mrel_push.
Qed.
Lemma unify_structure_sim m fm c x : mrel m fm ->
  out_rel srel (unify_structure lheap L m c x) (unify_structure (list cell) fops fm c x).
Proof.
  intros H. unfold unify_structure. assert (Hm : m_mode m = m_mode fm) by apply H. rewrite Hm.
  assert (HS : m_S m = m_S fm) by apply H. rewrite HS.
  destruct (m_mode fm) as [[]|]; cbn [out_rel]; auto.
  - rewrite (deref_sim _ _ _ (proj1 H)). destruct (deref _ fops (m_heap fm) _) as [d| |]; cbn [bind out_rel]; auto.
    rewrite (at_sim _ _ _ (proj1 H)). destruct (at_ _ fops (m_heap fm) d) as [cc| |]; cbn [bind out_rel]; auto.
    destruct cc; try (destruct (cell_eqb _ c); cbn [out_rel]; split; auto; cbn [snd]; now apply mrel_inc).
    eapply out_rel_bind; [now apply push_bind_sim|]. intros h fh Hh. cbn [out_rel]. split; [reflexivity|]. cbn [snd].
    apply mrel_inc, mrel_set_heap; [|assumption]. now apply mrel_push.
  - pose proof (mrel_push m fm c H) as Hp. rewrite (hsize_sim _ _ Hp).
    eapply out_rel_bind; [now apply wreg_sim|]. intros ? ? ?. cbn [out_rel]. split; [reflexivity|]. now apply mrel_inc.
Qed.
Lemma unify_variable_sim wr fwr m fm x v : mrel m fm ->
  (forall m fm c, mrel m fm -> out_rel mrel (wr m x c) (fwr fm x c)) ->
  out_rel srel (unify_variable lheap L wr m x v) (unify_variable (list cell) fops fwr fm x v).
Proof.
  intros H Hw. unfold unify_variable. assert (Hm : m_mode m = m_mode fm) by apply H. rewrite Hm.
  assert (HS : m_S m = m_S fm) by apply H. rewrite HS.
  destruct (m_mode fm) as [[]|]; cbn [out_rel]; auto.
  - eapply out_rel_bind; [now apply Hw|]. intros ? ? ?. split; [reflexivity|]. now apply mrel_inc.
  - unfold push_ref. rewrite (hsize_sim _ _ H). eapply out_rel_bind; [apply Hw; now apply mrel_push|].
    intros ? ? ?. split; [reflexivity|]. now apply mrel_inc.
Qed.
Lemma unify_value_sim n m fm c : mrel m fm ->
  out_rel srel (unify_value lheap L n m c) (unify_value (list cell) fops n fm c).
Proof.
  intros H. unfold unify_value. assert (Hm : m_mode m = m_mode fm) by apply H. rewrite Hm.
  assert (HS : m_S m = m_S fm) by apply H. rewrite HS.
  destruct (m_mode fm) as [[]|]; cbn [out_rel]; auto.
  - destruct (get_heap_i c) as [a| |]; cbn [bind out_rel]; auto.
    eapply out_rel_bind; [now apply unify_m_sim|]. intros [s m1] [s' m1'] [E Hr]. cbn in *. subst s'.
    split; [reflexivity|]. now apply mrel_inc.
  - destruct (get_heap_i c) as [a| |]; cbn [bind out_rel]; auto.
    rewrite (deref_sim _ _ _ (proj1 H)). destruct (deref _ fops (m_heap fm) _) as [d| |]; cbn [bind out_rel]; auto.
    rewrite (at_sim _ _ _ (proj1 H)). destruct (at_ _ fops (m_heap fm) d) as [cc| |]; cbn [bind out_rel]; auto.
    destruct cc; cbn [out_rel]; auto; split; try reflexivity; apply mrel_inc; now apply mrel_push.
Qed.
Lemma get_value_sim n m fm c d : mrel m fm ->
  out_rel srel (get_value lheap L n m c d) (get_value (list cell) fops n fm c d).
Proof.
  intros H. unfold get_value. destruct (get_heap_i c); cbn [bind out_rel]; auto.
  destruct (get_heap_i d); cbn [bind out_rel]; auto. now apply unify_m_sim.
Qed.
Lemma args_equal_ext (f g : nat -> nat -> out bool) : (forall a b, f a b = g a b) ->
  forall n a b, args_equal f n a b = args_equal g n a b.
Proof.
  intros H n. induction n as [|n IH]; intros a b; cbn; [reflexivity|]. rewrite H.
  destruct (g a b) as [[]| |]; cbn; auto.
Qed.
Lemma heap_reg_equals_sim lh fh : hrel lh fh -> forall n a b,
  heap_reg_equals lheap L n lh a b = heap_reg_equals (list cell) fops n fh a b.
Proof.
  intros H n. induction n as [|n IH]; intros a b; cbn; [reflexivity|].
  rewrite !(deref_sim _ _ _ H). destruct (deref _ fops fh a) as [d1| |]; cbn; auto.
  destruct (deref _ fops fh b) as [d2| |]; cbn; auto.
  rewrite !(at_sim _ _ _ H). destruct (at_ _ fops fh d1) as [c1| |]; cbn; auto.
  destruct (at_ _ fops fh d2) as [c2| |]; cbn; auto.
  destruct (cell_eqb c1 c2); auto. destruct c1; auto; now apply args_equal_ext.
Qed.
Lemma equals_sim n m fm x y : mrel m fm ->
  out_rel srel (equals_check lheap L n m x y) (equals_check (list cell) fops n fm x y).
Proof.
  intros H. unfold equals_check. rewrite !(rreg_sim _ _ _ H).
  destruct (rreg _ fm x) as [c| |]; cbn [bind out_rel]; auto.
  destruct (get_heap_i c); cbn [bind out_rel]; auto.
  destruct (rreg _ fm y) as [d| |]; cbn [bind out_rel]; auto.
  destruct (get_heap_i d); cbn [bind out_rel]; auto.
  rewrite (heap_reg_equals_sim _ _ (proj1 H)).
  destruct (heap_reg_equals _ fops n (m_heap fm) _ _); cbn [bind out_rel]; auto. split; auto.
Qed.
Lemma err_functor_sim lh fh i : hrel lh fh ->
  err_functor lheap L sto lh i = err_functor (list cell) fops sto fh i.
Proof. intros H. unfold err_functor. now rewrite (at_sim _ _ _ H). Qed.
Lemma eval_sim lh fh : hrel lh fh -> forall n a,
  eval_reg lheap L cf sto n lh a = eval_reg (list cell) fops cf sto n fh a.
Proof.
  intros H n. induction n as [|n IH]; intros a; cbn; [reflexivity|].
  rewrite (deref_sim _ _ _ H). destruct (deref _ fops fh a) as [d| |]; cbn; auto.
  rewrite (at_sim _ _ _ H). destruct (at_ _ fops fh d) as [[]| |]; cbn; auto;
    try (now rewrite (err_functor_sim _ _ _ H)).
  rewrite !IH. reflexivity.
Qed.
Lemma is_sim n m fm x y : mrel m fm ->
  out_rel srel (is_pred lheap L cf sto n m x y) (is_pred (list cell) fops cf sto n fm x y).
Proof.
  intros H. unfold is_pred. rewrite !(rreg_sim _ _ _ H).
  destruct (rreg _ fm y) as [d| |]; cbn [bind out_rel]; auto.
  destruct (get_heap_i d) as [b| |]; cbn [bind out_rel]; auto.
  rewrite (eval_sim _ _ (proj1 H)). destruct (eval_reg _ fops cf sto n (m_heap fm) b) as [[v|e]| |]; cbn [bind out_rel]; auto.
  - destruct (rreg _ fm x) as [c| |]; cbn [bind out_rel]; auto.
    destruct (get_heap_i c) as [a| |]; cbn [bind out_rel]; auto.
    rewrite (deref_sim _ _ _ (proj1 H)). destruct (deref _ fops (m_heap fm) a) as [d'| |]; cbn [bind out_rel]; auto.
    rewrite (at_sim _ _ _ (proj1 H)). destruct (at_ _ fops (m_heap fm) d') as [cc| |]; cbn [bind out_rel]; auto.
    destruct cc; try (split; auto; fail).
    eapply out_rel_bind; [now apply push_bind_sim|]. intros h fh Hh. split; [reflexivity|]. cbn [snd].
    apply mrel_set_heap; [|assumption]. now apply mrel_push.
  - split; auto.
Qed.

Lemma ok_sim x y : out_rel mrel x y ->
  out_rel (@srel istat) (m1 <- x ;; Val (Cont, m1)) (m1 <- y ;; Val (Cont, m1)).
Proof. intros H. eapply out_rel_bind; [exact H|]. intros a b Hab. split; auto. Qed.

Lemma local_step_sim n i m fm : mrel m fm ->
  out_rel srel (local_step lheap L cf sto n i m) (local_step (list cell) fops cf sto n i fm).
Proof.
  intros H. unfold local_step. destruct i; unfold push_ref;
    try rewrite (hsize_sim _ _ (mrel_push m fm c H)); try rewrite (hsize_sim _ _ H);
    try rewrite (rreg_sim _ _ _ H); try rewrite (rperm_sim _ _ _ H); try (cbn [out_rel]; reflexivity).
  - apply ok_sim, wreg_sim. now apply mrel_push.
  - apply ok_sim, wreg_sim. now apply mrel_push.
  - apply ok_sim, wperm_sim. now apply mrel_push.
  - destruct (rreg _ fm x); cbn [bind out_rel]; auto. split; [reflexivity|]. now apply mrel_push.
  - destruct (rperm _ fm y); cbn [bind out_rel]; auto. split; [reflexivity|]. now apply mrel_push.
  - now apply get_structure_sim.
  - now apply unify_structure_sim.
  - apply unify_variable_sim; auto using wreg_sim.
  - apply unify_variable_sim; auto using wperm_sim.
  - destruct (rreg _ fm x); cbn [bind out_rel]; auto. now apply unify_value_sim.
  - destruct (rperm _ fm y); cbn [bind out_rel]; auto. now apply unify_value_sim.
  - eapply out_rel_bind; [apply wreg_sim; now apply mrel_push|]. intros ? ? ?. apply ok_sim. now apply wreg_sim.
  - eapply out_rel_bind; [apply wperm_sim; now apply mrel_push|]. intros ? ? ?. apply ok_sim. now apply wreg_sim.
  - destruct (rreg _ fm x); cbn [bind out_rel]; auto. apply ok_sim. now apply wreg_sim.
  - destruct (rperm _ fm y); cbn [bind out_rel]; auto. apply ok_sim. now apply wreg_sim.
  - destruct (rreg _ fm a); cbn [bind out_rel]; auto. apply ok_sim. now apply wreg_sim.
  - destruct (rreg _ fm a); cbn [bind out_rel]; auto. apply ok_sim. now apply wperm_sim.
  - destruct (rreg _ fm x); cbn [bind out_rel]; auto. rewrite (rreg_sim _ _ _ H).
    destruct (rreg _ fm a); cbn [bind out_rel]; auto. now apply get_value_sim.
  - destruct (rperm _ fm y); cbn [bind out_rel]; auto. try rewrite (rreg_sim _ _ _ H).
    destruct (rreg _ fm a); cbn [bind out_rel]; auto. now apply get_value_sim.
  - assert (He : m_envs m = m_envs fm) by apply H. rewrite He. split; [reflexivity|]. now apply mrel_set_envs.
  - now apply is_sim.
  - now apply equals_sim.
  - unfold not_equals_check. eapply out_rel_bind; [now apply equals_sim|].
    intros [s m1] [s' m1'] [E Hr]. cbn in *. subst s'. split; auto.
Qed.
End Sim.
