(** Ground terms on the heap and their print. *)
From Verif Require Import Base Machine Heap Facts Compiler Spec Print Valuation Session Search Alloc Terms Shown Total.
Open Scope string_scope.
Open Scope list_scope.

Lemma ground_tm t' : forall t, (forall g, ginst g t' = t) -> t' = tm_of t.
Proof.
  revert t'. fix IH 1. intros [a nm|s|n|s l|s l] t H.
  - exfalso. pose proof (H (fun _ => GCon "a")) as A. pose proof (H (fun _ => GCon "b")) as B. cbn in A, B. congruence.
  - rewrite <- (H (fun _ => GCon "a")). reflexivity.
  - rewrite <- (H (fun _ => GCon "a")). reflexivity.
  - pose proof (H (fun _ => GCon "a")) as A. cbn in A. subst t. cbn. f_equal.
    assert (K : forall g, map (ginst g) l = map (ginst (fun _ => GCon "a")) l) by (intros g; specialize (H g); cbn in H; congruence).
    clear H. induction l as [|x l IHl]; [reflexivity|]. cbn [map]. f_equal.
    + apply IH. intros g. specialize (K g). cbn in K. congruence.
    + apply IHl. intros g. specialize (K g). cbn in K. congruence.
  - pose proof (H (fun _ => GCon "a")) as A. cbn in A. subst t. cbn. f_equal.
    assert (K : forall g, map (ginst g) l = map (ginst (fun _ => GCon "a")) l) by (intros g; specialize (H g); cbn in H; congruence).
    clear H. induction l as [|x l IHl]; [reflexivity|]. cbn [map]. f_equal.
    + apply IH. intros g. specialize (K g). cbn in K. congruence.
    + apply IHl. intros g. specialize (K g). cbn in K. congruence.
Qed.
Lemma ginst_tm_of g t : ginst g (tm_of t) = t.
Proof.
  revert t. fix IH 1. intros [s|n|s l|s l]; cbn; try reflexivity; f_equal; rewrite map_map; (induction l as [|x l IHl]; [reflexivity|]; cbn [map]; f_equal; [apply IH|apply IHl]).
Qed.
Theorem ground_printed sto h users a t : wfh sto 0 h ->
  (forall d i n nm k, nth_error h d = Some (CFun i n) -> nthZ (s_functors sto) i = Some (FV nm k) -> fun_ok nm k) ->
  (forall d b v, nth_error h d = Some (CRef b v) -> nthZ (s_vars sto) v <> None) ->
  a < List.length h -> rd sto h a (tm_of t) -> proper (tm_of t) = true ->
  (exists n, forall fuel, n <= fuel -> str_of (list cell) fops sto fuel h users false a = Val (show_ground t)) /\
  forall fuel, str_of (list cell) fops sto fuel h users false a = Val (show_ground t) \/ str_of (list cell) fops sto fuel h users false a = Fuel.
Proof.
  intros W FO VO La R Pr.
  assert (K : forall fuel s, str_of (list cell) fops sto fuel h users false a = Val s -> s = show_ground t).
  { intros fuel s E. destruct (str_printed sto h users W FO fuel false a s E) as (t' & R' & ->).
    assert (t' = tm_of t) as ->.
    { apply ground_tm. intros g. rewrite <- (ginst_tm_of g t). eapply rd_agree; eauto. }
    apply (printed_show _ Pr). }
  split.
  - destruct (rd_prints sto h users W FO VO a _ R La) as (n & Hn). exists n. intros fuel L. destruct (Hn false) as (s & E).
    pose proof (str_more sto h users n fuel false a s L E) as E'. now rewrite <- (K _ _ E').
  - intros fuel. pose proof (str_ub sto h users W FO VO fuel false a La) as U. destruct (str_of _ _ _ _ _ _ _ _) as [s|u|] eqn:E; [left; f_equal; eauto|now elim (U u)|now right].
Qed.
