(** The boxes of the page do not interfere; what the window with the tree shows. *)
From Verif Require Import Base Machine Heap Facts Compiler Parser Print Organizer Process Refine Search Tree Terminal Web Page.
Open Scope list_scope.

Lemma set_nth_same {A} i (x : A) : forall l, i < List.length l -> nth_error (set_nth i x l) i = Some x.
Proof. induction i as [|i IH]; intros [|y l] H; cbn in *; try lia; auto; try (apply IH; lia). Qed.
Lemma set_nth_other {A} i j (x : A) : i <> j -> forall l, nth_error (set_nth i x l) j = nth_error l j.
Proof. revert j. induction i as [|i IH]; intros [|j] H [|y l]; cbn; auto; try congruence; try (apply IH; congruence). Qed.
Lemma set_nth_len {A} i (x : A) : forall l, List.length (set_nth i x l) = List.length l.
Proof. induction i as [|i IH]; intros [|y l]; cbn; auto. Qed.
Lemma set_nth_inv {A} i j (x y : A) l : nth_error (set_nth i x l) j = Some y ->
  (i = j /\ y = x) \/ (i <> j /\ nth_error l j = Some y).
Proof.
  intros H. destruct (Nat.eq_dec i j) as [->|N].
  - left. split; [reflexivity|]. destruct (lt_dec j (List.length l)) as [L|L].
    + rewrite set_nth_same in H by assumption. congruence.
    + assert (K : nth_error (set_nth j x l) j = None) by (apply nth_error_None; rewrite set_nth_len; lia). congruence.
  - right. split; [assumption|]. now rewrite set_nth_other in H.
Qed.
Ltac gety E x Ex := match type of E with bind ?m _ = _ => destruct m as [x|?|] eqn:Ex; cbn [bind] in E; try discriminate E end.

(** --- every box by itself --- *)
Definition box_life (cf : cfg) (b : box) : Prop :=
  exists v program query b0 es, run_clicked cf v program query = Val (Opened b0) /\ steps cf es b0 = Val b.
Lemma steps_app cf es : forall es' b b' b'', steps cf es b = Val b' -> steps cf es' b' = Val b'' -> steps cf (es ++ es') b = Val b''.
Proof.
  induction es as [|e es IH]; intros es' b b' b'' E E'; cbn [steps app] in *; [injection E as ->; assumption|].
  gety E b1 E1. cbn [bind]. eauto.
Qed.
Lemma box_life_step cf b e b' : box_life cf b -> step cf e b = Val b' -> box_life cf b'.
Proof.
  intros (v & p & q & b0 & es & R & S) E. exists v, p, q, b0, (es ++ [e]). split; [assumption|]. eapply steps_app; [exact S|]. cbn. now rewrite E.
Qed.
Definition all_live (cf : cfg) (p : page) : Prop := forall i b d, nth_error (pg_boxes p) i = Some (b, d) -> box_life cf b.

Record page_ok (p : page) : Prop := {
  po_start : 1 <= pg_newest p;
  po_max : forall i b d, nth_error (pg_boxes p) i = Some (b, d) -> d <= pg_newest p;
  po_own : forall i b, nth_error (pg_boxes p) i = Some (b, pg_newest p) -> exists o, pg_window p = Some (i, o)
}.
(** the window is up to date for the box [i] if it thinks so *)
Definition current (i : nat) (p : page) : Prop :=
  forall b, nth_error (pg_boxes p) i = Some (b, pg_newest p) -> b_alive b = true -> pg_window p = Some (i, b_org b).

Lemma draw_ok i b d p : page_ok p -> nth_error (pg_boxes p) i = Some (b, d) -> page_ok (draw_box i b d p).
Proof.
  intros [A B C] H. unfold draw_box. destruct (Nat.eqb_spec d (pg_newest p)) as [E|E]; [now constructor|].
  constructor; cbn [pg_boxes pg_newest pg_window].
  - lia.
  - intros j b' d' K. apply set_nth_inv in K. destruct K as [(_ & K)|(_ & K)]; [injection K as <- <-; lia|]. apply B in K. lia.
  - intros j b' K. apply set_nth_inv in K. destruct K as [(<- & K)|(_ & K)]; [eauto|]. apply B in K. lia.
Qed.
Lemma bump_ok p : page_ok p -> page_ok (bump p).
Proof.
  intros [A B C]. constructor; cbn.
  - lia. - intros j b d K. apply B in K. lia. - intros j b K. apply B in K. lia.
Qed.
Lemma box_ok i b b' d p : page_ok p -> nth_error (pg_boxes p) i = Some (b, d) -> page_ok (with_box p i b' d).
Proof.
  intros [A B C] H. constructor; cbn; auto.
  - intros j b1 d1 K. apply set_nth_inv in K. destruct K as [(<- & K)|(_ & K)]; [injection K as <- <-|]; eauto.
  - intros j b1 K. apply set_nth_inv in K. destruct K as [(<- & K)|(_ & K)]; [injection K as <- <-|]; eauto.
Qed.
Lemma with_box_at i b b' d p : nth_error (pg_boxes p) i = Some (b, d) -> nth_error (pg_boxes (with_box p i b' d)) i = Some (b', d).
Proof. intros H. cbn. apply set_nth_same. apply nth_error_Some. congruence. Qed.

Lemma pstep_ok cf e p p' : page_ok p -> pstep cf e p = Val p' -> page_ok p'.
Proof.
  intros K E. destruct e as [v pr qu|i k v|i v|i|i|v]; cbn [pstep] in E.
  - gety E x Ex. injection E as <-. destruct x as [r|b]; [assumption|]. destruct K as [A B C]. constructor; cbn.
    + lia.
    + intros i b' d H. destruct (lt_dec i (List.length (pg_boxes p))) as [L|L].
      * rewrite nth_error_app1 in H by assumption. apply B in H. lia.
      * rewrite nth_error_app2 in H by lia. destruct (i - List.length (pg_boxes p)) as [|m]; [|destruct m; discriminate H]. injection H as <- <-. lia.
    + intros i b' H. destruct (lt_dec i (List.length (pg_boxes p))) as [L|L].
      * rewrite nth_error_app1 in H by assumption. apply B in H. lia.
      * rewrite nth_error_app2 in H by lia. destruct (i - List.length (pg_boxes p)) as [|m]; [|destruct m; discriminate H]. discriminate H.
  - destruct (nth_error (pg_boxes p) i) as [[b d]|] eqn:H; [|injection E as <-; assumption]. gety E b1 E1. injection E as <-. eapply box_ok; eauto.
  - destruct (nth_error (pg_boxes p) i) as [[b d]|] eqn:H; [|injection E as <-; assumption].
    destruct (b_alive b && b_next b)%bool; [|injection E as <-; assumption]. gety E b1 E1. injection E as <-. apply bump_ok. eapply box_ok; eauto.
  - destruct (nth_error (pg_boxes p) i) as [[b d]|] eqn:H; [|injection E as <-; assumption]. gety E b1 E1. injection E as <-. eapply box_ok; eauto.
  - destruct (nth_error (pg_boxes p) i) as [[b d]|] eqn:H; [|injection E as <-; assumption]. injection E as <-.
    destruct (b_alive b && b_tree b)%bool; [|assumption]. now apply draw_ok.
  - destruct (pg_window p) as [[i o]|] eqn:W; [|injection E as <-; assumption].
    destruct (nth_error (pg_boxes p) i) as [[b d]|] eqn:H; [|injection E as <-; assumption].
    destruct (b_alive b); [|injection E as <-; now apply bump_ok]. gety E b1 E1. injection E as <-.
    apply draw_ok; [apply bump_ok; eapply box_ok; eauto|]. exact (with_box_at _ _ _ _ _ H).
Qed.
Lemma psteps_ok cf es : forall p p', page_ok p -> psteps cf es p = Val p' -> page_ok p'.
Proof.
  induction es as [|e es IH]; intros p p' K E; cbn in E; [injection E as <-; assumption|]. gety E p1 E1. eapply IH; [|exact E]. eapply pstep_ok; eauto.
Qed.
Lemma first_ok : page_ok first_page.
Proof. constructor; cbn; auto; intros [|i] *; discriminate. Qed.

Definition is_timer (i : nat) (e : pevent) : bool := match e with PTimer j _ _ => Nat.eqb i j | _ => false end.
Lemma newer_current i p k : page_ok p -> (forall b d, nth_error (pg_boxes k) i = Some (b, d) -> d <= pg_newest p) ->
  pg_newest p < pg_newest k -> current i k.
Proof. intros _ H L b K. apply H in K. lia. Qed.

Lemma draw_current i j b d p : page_ok p -> nth_error (pg_boxes p) j = Some (b, d) -> (current i p \/ d <> pg_newest p) -> current i (draw_box j b d p).
Proof.
  intros K H C. unfold draw_box. destruct (Nat.eqb_spec d (pg_newest p)) as [E|E]; [destruct C; tauto|].
  intros b' H' A. cbn in *. apply set_nth_inv in H'. destruct H' as [(<- & H')|(_ & H')]; [injection H' as <-; reflexivity|].
  pose proof (po_max _ K _ _ _ H'). lia.
Qed.
Lemma bump_current i p : page_ok p -> current i (bump p).
Proof. intros K b H. cbn in H. pose proof (po_max _ K _ _ _ H). lia. Qed.

Lemma pstep_current cf i e p p' : page_ok p -> current i p -> is_timer i e = false -> pstep cf e p = Val p' -> current i p'.
Proof.
  intros K C T E. destruct e as [v pr qu|j k v|j v|j|j|v]; cbn [pstep is_timer] in *.
  - gety E x Ex. injection E as <-. destruct x as [r|b]; [assumption|]. intros b' H A. cbn in *.
    destruct (lt_dec i (List.length (pg_boxes p))) as [L|L].
    + rewrite nth_error_app1 in H by assumption. pose proof (po_max _ K _ _ _ H). lia.
    + rewrite nth_error_app2 in H by lia. destruct (i - List.length (pg_boxes p)) as [|m]; [|destruct m; discriminate H]. discriminate H.
  - destruct (nth_error (pg_boxes p) j) as [[b d]|] eqn:H; [|injection E as <-; assumption]. gety E b1 E1. injection E as <-.
    intros b' H' A. cbn in H'. apply Nat.eqb_neq in T. rewrite set_nth_other in H' by congruence. exact (C _ H' A).
  - destruct (nth_error (pg_boxes p) j) as [[b d]|] eqn:H; [|injection E as <-; assumption].
    destruct (b_alive b && b_next b)%bool; [|injection E as <-; assumption]. gety E b1 E1. injection E as <-. apply bump_current. eapply box_ok; eauto.
  - destruct (nth_error (pg_boxes p) j) as [[b d]|] eqn:H; [|injection E as <-; assumption]. gety E b1 E1. injection E as <-.
    intros b' H' A. cbn in H'. apply set_nth_inv in H'. destruct H' as [(-> & H')|(_ & H')]; [|exact (C _ H' A)].
    injection H' as <- <-. cbn in E1. destruct (b_alive b) eqn:Ab; injection E1 as <-; [discriminate A|congruence].
  - destruct (nth_error (pg_boxes p) j) as [[b d]|] eqn:H; [|injection E as <-; assumption]. injection E as <-.
    destruct (b_alive b && b_tree b)%bool; [|assumption]. apply draw_current; auto.
  - destruct (pg_window p) as [[j o]|] eqn:W; [|injection E as <-; assumption].
    destruct (nth_error (pg_boxes p) j) as [[b d]|] eqn:H; [|injection E as <-; assumption].
    destruct (b_alive b); [|injection E as <-; now apply bump_current]. gety E b1 E1. injection E as <-.
    assert (K1 : page_ok (with_box p j b1 d)) by (eapply box_ok; eauto).
    apply draw_current; [now apply bump_ok|exact (with_box_at _ _ _ _ _ H)|left; now apply bump_current].
Qed.
Lemma psteps_current cf i es : forall p p', page_ok p -> current i p -> existsb (is_timer i) es = false -> psteps cf es p = Val p' -> current i p'.
Proof.
  induction es as [|e es IH]; intros p p' K C T E; cbn in E; [injection E as <-; assumption|]. gety E p1 E1.
  cbn in T. apply orb_false_elim in T. destruct T as [T1 T2]. eapply IH; [| |exact T2|exact E].
  - eapply pstep_ok; eauto. - eapply pstep_current; eauto.
Qed.
(** whatever makes drawings outdated *)
Lemma newer cf i e p p' : page_ok p -> pstep cf e p = Val p' -> pg_newest p < pg_newest p' -> current i p'.
Proof.
  intros K E L. destruct e as [v pr qu|j k v|j v|j|j|v]; cbn [pstep] in E.
  - gety E x Ex. injection E as <-. destruct x as [r|b]; [lia|]. intros b' H A. cbn in *.
    destruct (lt_dec i (List.length (pg_boxes p))) as [L'|L'].
    + rewrite nth_error_app1 in H by assumption. pose proof (po_max _ K _ _ _ H). lia.
    + rewrite nth_error_app2 in H by lia. destruct (i - List.length (pg_boxes p)) as [|m]; [|destruct m; discriminate H]. discriminate H.
  - destruct (nth_error (pg_boxes p) j) as [[b d]|] eqn:H; [gety E b1 E1|]; injection E as <-; cbn in L; lia.
  - destruct (nth_error (pg_boxes p) j) as [[b d]|] eqn:H; [|injection E as <-; lia].
    destruct (b_alive b && b_next b)%bool; [|injection E as <-; lia]. gety E b1 E1. injection E as <-. apply bump_current. eapply box_ok; eauto.
  - destruct (nth_error (pg_boxes p) j) as [[b d]|] eqn:H; [gety E b1 E1|]; injection E as <-; cbn in L; lia.
  - destruct (nth_error (pg_boxes p) j) as [[b d]|] eqn:H; [|injection E as <-; lia]. injection E as <-.
    destruct (b_alive b && b_tree b)%bool; [|lia]. apply draw_current; auto. right. intros ->. unfold draw_box in L. rewrite Nat.eqb_refl in L. lia.
  - destruct (pg_window p) as [[j o]|] eqn:W; [|injection E as <-; lia].
    destruct (nth_error (pg_boxes p) j) as [[b d]|] eqn:H; [|injection E as <-; lia].
    destruct (b_alive b); [|injection E as <-; now apply bump_current]. gety E b1 E1. injection E as <-.
    assert (K1 : page_ok (with_box p j b1 d)) by (eapply box_ok; eauto).
    apply draw_current; [now apply bump_ok|exact (with_box_at _ _ _ _ _ H)|left; now apply bump_current].
Qed.

(** --- the button "Show tree view" --- *)
Definition can_open (b : box) : bool := (b_alive b && b_tree b)%bool.
Lemma open_window cf i p b d : page_ok p -> nth_error (pg_boxes p) i = Some (b, d) -> can_open b = true ->
  exists p' o, pstep cf (PTree i) p = Val p' /\ pg_window p' = Some (i, o) /\ (current i p -> o = b_org b).
Proof.
  intros K H A. cbn [pstep]. rewrite H. fold (can_open b). rewrite A. unfold draw_box. destruct (Nat.eqb_spec d (pg_newest p)) as [->|N].
  - destruct (po_own _ K _ _ H) as (o & W). exists p, o. csplit; auto. intros C. unfold can_open in A. apply andb_prop in A.
    rewrite (C _ H (proj1 A)) in W. congruence.
  - eexists _, _. csplit; reflexivity || auto.
Qed.
Lemma page_window cf es p i b d : psteps cf es first_page = Val p -> nth_error (pg_boxes p) i = Some (b, d) -> can_open b = true ->
  exists p' o, pstep cf (PTree i) p = Val p' /\ pg_window p' = Some (i, o).
Proof.
  intros E H A. destruct (open_window cf i p b d (psteps_ok _ _ _ _ first_ok E) H A) as (p' & o & X & Y & _). eauto.
Qed.
Lemma page_current_never cf es p i b d : psteps cf es first_page = Val p -> existsb (is_timer i) es = false ->
  nth_error (pg_boxes p) i = Some (b, d) -> can_open b = true ->
  exists p', pstep cf (PTree i) p = Val p' /\ pg_window p' = Some (i, b_org b).
Proof.
  intros E T H A. destruct (open_window cf i p b d (psteps_ok _ _ _ _ first_ok E) H A) as (p' & o & X & Y & Z). exists p'. split; [assumption|].
  rewrite <- Z; [assumption|]. eapply psteps_current; [exact first_ok| |exact T|exact E]. intros b' K. destruct i; discriminate K.
Qed.
Lemma page_current_since cf es e es' p p1 p2 i b d : psteps cf es first_page = Val p -> pstep cf e p = Val p1 -> pg_newest p < pg_newest p1 ->
  psteps cf es' p1 = Val p2 -> existsb (is_timer i) es' = false -> nth_error (pg_boxes p2) i = Some (b, d) -> can_open b = true ->
  exists p3, pstep cf (PTree i) p2 = Val p3 /\ pg_window p3 = Some (i, b_org b).
Proof.
  intros E E1 L E2 T H A. pose proof (psteps_ok _ _ _ _ first_ok E) as K. pose proof (pstep_ok _ _ _ _ K E1) as K1. pose proof (psteps_ok _ _ _ _ K1 E2) as K2.
  destruct (open_window cf i p2 b d K2 H A) as (p' & o & X & Y & Z). exists p'. split; [assumption|]. rewrite <- Z; [assumption|].
  eapply psteps_current; [exact K1| |exact T|exact E2]. exact (newer cf i e p p1 K E1 L).
Qed.

(** --- no interference --- *)
Lemma draw_live cf i b d p : all_live cf p -> nth_error (pg_boxes p) i = Some (b, d) -> all_live cf (draw_box i b d p).
Proof.
  intros A H. unfold draw_box. destruct (Nat.eqb d (pg_newest p)); [assumption|]. intros j b' d' K. cbn in K. apply set_nth_inv in K.
  destruct K as [(<- & K)|(_ & K)]; [injection K as -> ->; exact (A _ _ _ H)|exact (A _ _ _ K)].
Qed.
Lemma box_live cf i b b' d e p : all_live cf p -> nth_error (pg_boxes p) i = Some (b, d) -> step cf e b = Val b' -> all_live cf (with_box p i b' d).
Proof.
  intros A H E j b1 d1 K. cbn in K. apply set_nth_inv in K.
  destruct K as [(<- & K)|(_ & K)]; [injection K as <- <-; exact (box_life_step _ _ _ _ (A _ _ _ H) E)|exact (A _ _ _ K)].
Qed.
Lemma pstep_live cf e p p' : all_live cf p -> pstep cf e p = Val p' -> all_live cf p'.
Proof.
  intros A E. destruct e as [v pr qu|i k v|i v|i|i|v]; cbn [pstep] in E.
  - gety E x Ex. injection E as <-. destruct x as [r|b]; [assumption|]. intros i b' d H. cbn in H.
    destruct (lt_dec i (List.length (pg_boxes p))) as [L|L].
    + rewrite nth_error_app1 in H by assumption. eauto.
    + rewrite nth_error_app2 in H by lia. destruct (i - List.length (pg_boxes p)) as [|m]; [|destruct m; discriminate H]. injection H as <- <-.
      exists v, pr, qu, b, []. split; [assumption|reflexivity].
  - destruct (nth_error (pg_boxes p) i) as [[b d]|] eqn:H; [|injection E as <-; assumption]. gety E b1 E1. injection E as <-. eapply box_live; eauto.
  - destruct (nth_error (pg_boxes p) i) as [[b d]|] eqn:H; [|injection E as <-; assumption].
    destruct (b_alive b && b_next b)%bool; [|injection E as <-; assumption]. gety E b1 E1. injection E as <-.
    exact (box_live _ _ _ _ _ _ _ A H E1).
  - destruct (nth_error (pg_boxes p) i) as [[b d]|] eqn:H; [|injection E as <-; assumption]. gety E b1 E1. injection E as <-. exact (box_live _ _ _ _ _ _ _ A H E1).
  - destruct (nth_error (pg_boxes p) i) as [[b d]|] eqn:H; [|injection E as <-; assumption]. injection E as <-.
    destruct (b_alive b && b_tree b)%bool; [|assumption]. now apply draw_live.
  - destruct (pg_window p) as [[i o]|] eqn:W; [|injection E as <-; assumption].
    destruct (nth_error (pg_boxes p) i) as [[b d]|] eqn:H; [|injection E as <-; assumption].
    destruct (b_alive b); [|injection E as <-; exact A]. gety E b1 E1. injection E as <-.
    apply draw_live; [|exact (with_box_at _ _ _ _ _ H)]. exact (box_live _ _ _ _ _ _ _ A H E1).
Qed.
Lemma page_boxes cf es p i b d : psteps cf es first_page = Val p -> nth_error (pg_boxes p) i = Some (b, d) -> box_life cf b.
Proof.
  intros E. revert i b d. change (all_live cf p). assert (A : all_live cf first_page) by (intros [|i] b d H; discriminate H).
  revert A E. generalize first_page as p0. induction es as [|e es IH]; intros p0 A E; cbn in E; [injection E as <-; assumption|].
  gety E p1 E1. apply (IH p1); auto. eapply pstep_live; eauto.
Qed.
