(** The search tree and the order in which it is visited. *)
From Coq Require Import Sorted.
From Verif Require Import Base Machine Heap Facts HeapSim Compiler Parser Print Organizer Process Refine Turn Shape Mono
  Session Search.
Open Scope list_scope.

(** The search tree: a branch is named by the choices that lead to it; its children are what one turn makes of it. *)
Inductive at_path cf sto pg (root : process) : path -> process -> Prop :=
| ap_root : at_path cf sto pg root [] root
| ap_kid pi p i l k : at_path cf sto pg root pi p -> turns cf sto pg p (PKids l) -> nth_error l i = Some k ->
    at_path cf sto pg root (pi ++ [i]) k.
(** A branch that ends with a result (an answer or a runtime error). *)
Definition answer_at cf sto pg root (pi : path) (x : res) : Prop :=
  exists p r, at_path cf sto pg root pi p /\ turns cf sto pg p r /\ result_of r = Some x.

(** shallower first, then leftmost *)
Fixpoint lexlt (a b : path) : Prop :=
  match a, b with
  | x :: a', y :: b' => x < y \/ (x = y /\ lexlt a' b')
  | _, _ => False
  end.
Definition plt (a b : path) : Prop := List.length a < List.length b \/ (List.length a = List.length b /\ lexlt a b).

Lemma lexlt_irrefl a : ~ lexlt a a.
Proof. induction a as [|x a IH]; cbn; [auto|]. intros [H|[_ H]]; [lia|auto]. Qed.
Lemma lexlt_trans a : forall b c, lexlt a b -> lexlt b c -> lexlt a c.
Proof.
  induction a as [|x a IH]; intros [|y b] [|z c]; cbn; try contradiction.
  intros [H|[-> H]] [K|[-> K]]; try (left; lia). right. eauto.
Qed.
Lemma plt_irrefl a : ~ plt a a.
Proof. intros [H|[_ H]]; [lia|]. exact (lexlt_irrefl _ H). Qed.
Lemma plt_trans a b c : plt a b -> plt b c -> plt a c.
Proof.
  intros [H|[E H]] [K|[F K]]; unfold plt; try (left; lia). right. split; [lia|]. eapply lexlt_trans; eassumption.
Qed.
Lemma lexlt_snoc a : forall b i j, List.length a = List.length b ->
  (lexlt (a ++ [i]) (b ++ [j]) <-> lexlt a b \/ (a = b /\ i < j)).
Proof.
  induction a as [|x a IH]; intros [|y b] i j E; cbn in *; try discriminate.
  - intuition.
  - injection E as E. rewrite IH by assumption. split.
    + intros [H|[-> [H|[-> H]]]]; auto.
    + intros [[H|[-> H]]|[H K]]; auto. injection H as -> ->. auto.
Qed.
Lemma plt_snoc a b i j : plt a b \/ (a = b /\ i < j) -> plt (a ++ [i]) (b ++ [j]).
Proof.
  unfold plt. rewrite !app_length. cbn. intros [[H|[E H]]|[-> H]].
  - left. lia.
  - right. split; [lia|]. apply lexlt_snoc; auto.
  - right. split; [lia|]. apply lexlt_snoc; auto.
Qed.
Lemma plt_root a i : plt [] (a ++ [i]).
Proof. left. rewrite app_length. cbn. lia. Qed.
Lemma plt_extend a t : t <> [] -> plt a (a ++ t).
Proof. intros H. left. rewrite app_length. destruct t; [congruence|]. cbn. lia. Qed.

Definition paths_t (T : list (path * process * step_res)) : list path := map (fun t => fst (fst t)) T.
Definition paths_q (Q : list (path * process)) : list path := map fst Q.

Lemma in_label_from pi l : forall i s k, In (s, k) (label_from i pi l) <->
  exists j, s = pi ++ [i + j] /\ nth_error l j = Some k.
Proof.
  induction l as [|p l IH]; intros i s k; cbn.
  - split; [contradiction|]. intros (j & _ & H). destruct j; discriminate.
  - rewrite IH. split.
    + intros [H|(j & -> & H)].
      * injection H as <- <-. exists 0. rewrite Nat.add_0_r. auto.
      * exists (S j). split; [f_equal; f_equal; lia|assumption].
    + intros ([|j] & -> & H).
      * cbn in H. injection H as <-. rewrite Nat.add_0_r. auto.
      * right. exists j. split; [f_equal; f_equal; lia|assumption].
Qed.
Lemma in_label pi l s k : In (s, k) (label pi l) <-> exists j, s = pi ++ [j] /\ nth_error l j = Some k.
Proof. unfold label. rewrite in_label_from. reflexivity. Qed.
Lemma label_sorted pi l : forall i, StronglySorted plt (paths_q (label_from i pi l)).
Proof.
  induction l as [|p l IH]; intros i; cbn; constructor; [apply IH|].
  apply Forall_forall. intros s Hs. unfold paths_q in Hs. apply in_map_iff in Hs. destruct Hs as ([s' k] & <- & Hs).
  apply in_label_from in Hs. destruct Hs as (j & -> & _). apply plt_snoc. right. split; [reflexivity|lia].
Qed.
Lemma sorted_app l k : StronglySorted plt l -> StronglySorted plt k -> (forall a b, In a l -> In b k -> plt a b) ->
  StronglySorted plt (l ++ k).
Proof.
  intros Hl Hk H. induction Hl as [|a l Hl IH Ha]; cbn; [assumption|]. constructor.
  - apply IH. intros. apply H; [right|]; assumption.
  - apply Forall_app. split; [assumption|]. apply Forall_forall. intros b Hb. apply H; [left; reflexivity|assumption].
Qed.
Lemma sorted_app_inv l k : StronglySorted plt (l ++ k) ->
  StronglySorted plt l /\ StronglySorted plt k /\ (forall a b, In a l -> In b k -> plt a b).
Proof.
  induction l as [|a l IH]; cbn; intros H; [repeat split; auto; [constructor|contradiction]|].
  inversion H as [|? ? H1 H2]; subst. destruct (IH H1) as (A & B & C). apply Forall_app in H2. destruct H2 as [H2 H3].
  repeat split; auto.
  - constructor; assumption.
  - intros x b [<-|Hx] Hb; [|auto]. rewrite Forall_forall in H3. auto.
Qed.

Section Order.
Variable cf : cfg.
Variable sto : storage.
Variable pg : prog.
Variable root : process.
Notation search := (search cf sto pg root).
Notation at_path := (at_path cf sto pg root).
Notation turns := (turns cf sto pg).

Lemma at_path_det s a : at_path s a -> forall b, at_path s b -> a = b.
Proof.
  intros H. induction H as [|s a i l k H IH Ht Hn]; intros b Hb.
  - inversion Hb as [|pi ? ? ? ? ? ? ? E]; [reflexivity|]. destruct pi; discriminate.
  - inversion Hb as [E|s' a' i' l' k' H' Ht' Hn' E]; [destruct s; discriminate|].
    apply app_inj_tail in E. destruct E as [-> ->]. specialize (IH _ H'). subst a'.
    pose proof (turns_det cf sto sto pg _ _ _ (sto_ext_refl _) Ht Ht') as E2.
    injection E2 as ->. congruence.
Qed.

Lemma search_order T Q : search T Q ->
  StronglySorted plt (paths_t T ++ paths_q Q) /\
  (forall s, In s (paths_t T ++ paths_q Q) -> s = [] \/ exists s' j, s = s' ++ [j] /\ In s' (paths_t T)) /\
  (forall s p r, In (s, p, r) T -> at_path s p /\ turns p r) /\
  (forall s p, In (s, p) Q -> at_path s p) /\
  (forall s p, at_path s p -> (exists r, In (s, p, r) T) \/ exists s0 p0 t, In (s0, p0) Q /\ s = s0 ++ t).
Proof.
  induction 1 as [|T pi p r Q HS (S1 & S2 & S3 & S4 & S5) Ht].
  - cbn. split; [repeat constructor|]. split; [intros s [<-|[]]; auto|]. split; [intros ? ? ? []|]. split.
    + intros s p [E|[]]. injection E as <- <-. constructor.
    + intros s p Hs. right. exists [], root, s. auto.
  - set (K := kids_of r) in *.
    assert (EK : forall s k, In (s, k) (label pi K) -> exists j l, r = PKids l /\ s = pi ++ [j] /\ nth_error l j = Some k).
    { intros s k Hin. apply in_label in Hin. destruct Hin as (j & -> & Hj). destruct r; cbn in Hj; try now destruct j.
      exists j, l. auto. }
    pose proof (S4 _ _ (or_introl eq_refl)) as Hpi.
    assert (Epaths : paths_t (T ++ [(pi, p, r)]) ++ paths_q (Q ++ label pi K)
                     = (paths_t T ++ paths_q ((pi, p) :: Q)) ++ paths_q (label pi K)).
    { unfold paths_t, paths_q. rewrite !map_app. cbn. rewrite <- !app_assoc. reflexivity. }
    assert (HinT : forall s, In s (paths_t T) -> In s (paths_t (T ++ [(pi, p, r)]))).
    { intros s. unfold paths_t. rewrite map_app, in_app_iff. auto. }
    destruct (sorted_app_inv _ _ S1) as (_ & _ & S13).
    split; [|split; [|split; [|split]]].
    + rewrite Epaths. apply sorted_app; [assumption|apply label_sorted|].
      intros a b Ha Hb. unfold paths_q in Hb. apply in_map_iff in Hb. destruct Hb as ([s k] & <- & Hb). cbn.
      apply in_label in Hb. destruct Hb as (j & -> & _).
      destruct (S2 _ Ha) as [->|(s' & i & -> & Hs')]; [apply plt_root|].
      apply plt_snoc. left. apply S13; [assumption|left; reflexivity].
    + intros s Hs. rewrite Epaths in Hs. apply in_app_iff in Hs. destruct Hs as [Hs|Hs].
      * destruct (S2 _ Hs) as [->|(s' & i & -> & Hs')]; eauto 6.
      * unfold paths_q in Hs. apply in_map_iff in Hs. destruct Hs as ([s1 k] & <- & Hs). cbn.
        apply in_label in Hs. destruct Hs as (j & -> & _). right. exists pi, j. split; [reflexivity|].
        unfold paths_t. rewrite map_app, in_app_iff. right. left. reflexivity.
    + intros s p' r' Hin. apply in_app_iff in Hin. destruct Hin as [Hin|[E|[]]]; [auto|].
      injection E as <- <- <-. auto.
    + intros s p' Hin. apply in_app_iff in Hin. destruct Hin as [Hin|Hin]; [apply S4; now right|].
      destruct (EK _ _ Hin) as (j & l & -> & -> & Hj). econstructor; eassumption.
    + intros s p' Hs. induction Hs as [|s0 p0 i l k Hs IH Htu Hn].
      * destruct (S5 [] root ltac:(constructor)) as [(r0 & Hr)|(s0 & p0 & t & Hin & E)].
        -- left. exists r0. apply in_app_iff. auto.
        -- symmetry in E. apply app_eq_nil in E. destruct E as [-> ->].
           destruct Hin as [E|Hin].
           ++ injection E as E1 E2. left. exists r. apply in_app_iff. right. left. rewrite E1 in Hpi |- *.
              f_equal. f_equal. exact (at_path_det _ _ Hpi _ (ap_root _ _ _ _)).
           ++ right. exists [], p0, []. split; [apply in_app_iff; auto|reflexivity].
      * destruct IH as [(r0 & Hr)|(s1 & p1 & t & Hin & ->)].
        -- apply in_app_iff in Hr. destruct Hr as [Hr|[E|[]]].
           ++ assert (Hk : at_path (s0 ++ [i]) k) by (econstructor; eassumption).
              destruct (S5 _ _ Hk) as [(r1 & Hr1)|(s1 & p1 & t & Hin & E)].
              ** left. exists r1. apply in_app_iff. auto.
              ** destruct Hin as [E'|Hin].
                 --- injection E' as <- <-. destruct (list_eq_dec Nat.eq_dec t []) as [->|Ht0].
                     +++ rewrite app_nil_r in E. left. exists r. apply in_app_iff. right. left. rewrite E.
                         f_equal. f_equal. rewrite E in Hk. symmetry; exact (at_path_det _ _ Hk _ Hpi).
                     +++ exfalso. pose proof (S13 s0 pi) as Hlt.
                         assert (In s0 (paths_t T)) by (unfold paths_t; apply in_map_iff; exists (s0, p0, r0); auto).
                         specialize (Hlt H ltac:(left; reflexivity)).
                         destruct (exists_last Ht0) as (t' & x & ->). rewrite app_assoc in E.
                         apply app_inj_tail in E. destruct E as [-> ->].
                         destruct t'; [rewrite app_nil_r in Hlt; exact (plt_irrefl _ Hlt)|].
                         apply (plt_irrefl pi). eapply plt_trans; [|exact Hlt]. apply plt_extend. discriminate.
                 --- right. exists s1, p1, t. split; [apply in_app_iff; auto|assumption].
           ++ injection E as <- <- <-. right. pose proof (turns_det cf sto sto pg _ _ _ (sto_ext_refl _) Ht Htu) as ->.
              exists (pi ++ [i]), k, []. rewrite app_nil_r. split; [|reflexivity].
              apply in_app_iff. right. apply in_label. exists i. split; [reflexivity|exact Hn].
        -- right. exists s1, p1, (t ++ [i]). split; [assumption|now rewrite app_assoc].
Qed.
End Order.
