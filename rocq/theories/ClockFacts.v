(** As long as the clock says something else at each Run, every element belongs to one object, and they form a box. *)
From Verif Require Import Base Machine Heap Facts Compiler Parser Print Organizer Process Search Terminal Web Page PageFacts Clock.
Open Scope list_scope.

Definition swap_in (e : nat) (o : option elt) (l : list elt) : list elt := firstn e l ++ (match o with Some y => [y] | None => [] end) ++ skipn (S e) l.
Lemma by_id_at f : forall l e x, NoDup (map el_id l) -> nth_error l e = Some x -> by_id (el_id x) f l = Some (swap_in e (f x) l).
Proof.
  induction l as [|y l IH]; intros e x D H; [destruct e; discriminate H|]. cbn [map] in D. inversion D as [|? ? N D']; subst. destruct e as [|e]; cbn [nth_error] in H.
  - injection H as ->. cbn [by_id]. rewrite Z.eqb_refl. unfold swap_in. cbn. destruct (f x); reflexivity.
  - cbn [by_id]. destruct (Z.eqb_spec (el_id y) (el_id x)) as [E|E].
    + destruct N. rewrite E. apply in_map. eapply nth_error_In; eauto.
    + rewrite (IH e x D' H). unfold swap_in. cbn [firstn skipn app]. reflexivity.
Qed.
Lemma snoc_nodup {A} (l : list A) x : NoDup l -> ~ In x l -> NoDup (l ++ [x]).
Proof.
  induction l as [|y l IH]; intros D N; cbn; [constructor; [intros []|constructor]|]. inversion D; subst. constructor.
  - intros H. apply in_app_or in H. destruct H as [H|[<-|[]]]; [auto|]. apply N. now left.
  - apply IH; [assumption|]. intros H. apply N. now right.
Qed.
Lemma put_same j x : forall l, j < List.length l -> nth_error (put j x l) j = Some x.
Proof. induction j as [|j IH]; intros [|y l] H; cbn in *; try lia; auto; try (apply IH; lia). Qed.
Lemma put_other j k x : j <> k -> forall l, nth_error (put j x l) k = nth_error l k.
Proof. revert k. induction j as [|j IH]; intros [|k] H [|y l]; cbn; auto; try congruence; try (apply IH; congruence). Qed.
Lemma put_ids j x : forall l y, nth_error l j = Some y -> ob_id y = ob_id x -> map ob_id (put j x l) = map ob_id l.
Proof. induction j as [|j IH]; intros [|z l] y H E; cbn in *; try discriminate H; [injection H as ->; now rewrite E|]. f_equal. eauto. Qed.
Lemma put_inv j k x y l : nth_error (put j x l) k = Some y -> (j = k /\ y = x /\ exists z, nth_error l j = Some z) \/ (j <> k /\ nth_error l k = Some y).
Proof.
  intros H. destruct (Nat.eq_dec j k) as [->|N]; [left|right; split; [assumption|now rewrite put_other in H]].
  destruct (nth_error l k) as [z|] eqn:E.
  - rewrite put_same in H by (apply nth_error_Some; congruence). injection H as <-. eauto.
  - exfalso. revert k l H E. clear. induction k as [|k IH]; intros [|w l] H E; cbn in *; try discriminate; eauto.
Qed.
Lemma swap_in_some e x y l : nth_error l e = Some x -> el_id y = el_id x -> map el_id (swap_in e (Some y) l) = map el_id l.
Proof.
  revert l. induction e as [|e IH]; intros [|z l] H E; cbn in *; try discriminate H; [injection H as ->; now rewrite E|].
  unfold swap_in in *. cbn [firstn skipn app map]. f_equal. exact (IH l H E).
Qed.
Lemma swap_in_In e o l z : In z (swap_in e o l) -> o = Some z \/ exists k, k <> e /\ nth_error l k = Some z.
Proof.
  unfold swap_in. intros H. apply in_app_or in H. destruct H as [H|H].
  - right. apply In_nth_error in H. destruct H as (k & H). exists k.
    assert (L : k < List.length (firstn e l)) by (apply nth_error_Some; congruence). rewrite firstn_length in L. split; [lia|].
    rewrite <- (firstn_skipn e l) at 1. rewrite nth_error_app1 by (rewrite firstn_length; lia). assumption.
  - apply in_app_or in H. destruct H as [H|H].
    + destruct o as [y|]; [|destruct H]. destruct H as [->|[]]. now left.
    + right. apply In_nth_error in H. destruct H as (k & H). exists (S e + k). split; [lia|].
      rewrite <- (firstn_skipn (S e) l) at 1.
      assert (L : S e <= List.length l). { destruct (le_lt_dec (S e) (List.length l)); [assumption|]. rewrite skipn_all2 in H by lia. destruct k; discriminate H. }
      rewrite nth_error_app2 by (rewrite firstn_length; lia). rewrite firstn_length. replace (S e + k - Nat.min (S e) (List.length l)) with k by lia. assumption.
Qed.
Lemma In_swap_in e o l k z : k <> e -> nth_error l k = Some z -> In z (swap_in e o l).
Proof.
  intros N H. unfold swap_in. apply in_or_app. destruct (le_lt_dec e k) as [L|L].
  - right. apply in_or_app. right. apply nth_error_In with (n := k - S e).
    assert (L2 : S e <= List.length l). { assert (k < List.length l) by (apply nth_error_Some; congruence). lia. }
    rewrite <- (firstn_skipn (S e) l) in H. rewrite nth_error_app2 in H by (rewrite firstn_length; lia). rewrite firstn_length in H.
    replace (k - Nat.min (S e) (List.length l)) with (k - S e) in H by lia. assumption.
  - left. apply nth_error_In with (n := k). rewrite <- (firstn_skipn e l) in H. rewrite nth_error_app1 in H; [assumption|].
    rewrite firstn_length. assert (k < List.length (firstn e l ++ skipn e l)) by (apply nth_error_Some; congruence). rewrite firstn_skipn in *. lia.
Qed.
Lemma nodup_at {A} (f : A -> Z) l i j x y : NoDup (map f l) -> nth_error l i = Some x -> nth_error l j = Some y -> f x = f y -> i = j.
Proof.
  intros D H K E. apply (NoDup_nth_error (map f l)); [assumption| |].
  - rewrite map_length. apply nth_error_Some. congruence.
  - now rewrite (map_nth_error f _ _ H), (map_nth_error f _ _ K), E.
Qed.

(** [apart t p]: all is well, except that nothing is said about what has the number [t] *)
Record apart (cf : cfg) (t : Z -> Prop) (p : doc) : Prop := {
  a_ids : NoDup (map ob_id (dc_objs p));
  a_inst : forall j ob, nth_error (dc_objs p) j = Some ob -> look (ob_id ob) (dc_inst p) = Some j;
  a_dom : NoDup (map el_id (dc_dom p));
  a_own : forall x, In x (dc_dom p) -> ~ t (el_id x) -> exists j ob, nth_error (dc_objs p) j = Some ob /\ ob_id ob = el_id x /\ ob_alive ob = true /\ box_life cf (box_of ob x);
  a_idle : forall j ob, nth_error (dc_objs p) j = Some ob -> ~ t (ob_id ob) ->
    (exists x, In x (dc_dom p) /\ el_id x = ob_id ob) \/ ob_alive ob = false \/ ob_timers ob = []
}.
Definition nobody (_ : Z) : Prop := False.
Lemma apart_weak cf (t u : Z -> Prop) p : (forall z, t z -> u z) -> apart cf t p -> apart cf u p.
Proof. intros W [A B C D E]. constructor; auto; intros; eapply E; eauto. Qed.

Definition same_place (j e : nat) (p : doc) (ob2 : obj) (x2 : elt) : doc :=
  {| dc_objs := put j ob2 (dc_objs p); dc_inst := dc_inst p; dc_dom := swap_in e (Some x2) (dc_dom p) |}.
Lemma swap_in_same e x l : nth_error l e = Some x -> swap_in e (Some x) l = l.
Proof. revert l. induction e as [|e IH]; intros [|z l] H; cbn in *; try discriminate H; [injection H as ->; reflexivity|]. unfold swap_in in *. cbn [firstn skipn app]. f_equal. exact (IH l H). Qed.

Lemma answer_frames cf v first j ob p p' e x : NoDup (map el_id (dc_dom p)) -> nth_error (dc_dom p) e = Some x -> el_id x = ob_id ob -> ob_alive ob = true ->
  answer_of cf v first j ob p = Val p' ->
  exists ob2 x2, ob_id ob2 = ob_id ob /\ el_id x2 = el_id x /\ ob_alive ob2 = true /\ p' = same_place j e p ob2 x2 /\
    run_once cf v first (box_of ob x) = Val (box_of ob2 x2).
Proof.
  intros D H I A E. unfold answer_of in E. rewrite A in E. unfold run_once. cbn [b_alive box_of b_org]. rewrite A.
  destruct (get_answer cf (v_fuel v) (v_n v) (v_world v) (ob_org ob)) as [[r o]|u|] eqn:G; cbn [bind] in E; try discriminate E.
  assert (T : forall s, exists ob2 x2, ob_id ob2 = ob_id ob /\ el_id x2 = el_id x /\ ob_alive ob2 = true /\
    {| dc_objs := put j (ob_with ob o (ob_timers ob)) (dc_objs p); dc_inst := dc_inst p;
       dc_dom := or_else (by_id (ob_id ob) (el_callback first s) (dc_dom p)) (dc_dom p) |} = same_place j e p ob2 x2 /\
    Val (callback first s (with_org (box_of ob x) o)) = Val (box_of ob2 x2)).
  { intros s. exists (ob_with ob o (ob_timers ob)), (match el_callback first s x with Some y => y | None => x end).
    rewrite <- I, (by_id_at _ _ _ _ D H). cbn [el_callback el_id ob_id ob_with ob_alive]. csplit; auto. }
  cbn [bind]. injection E as <-. destruct r as [|b|er| |]; try (apply T). destruct (v_memory v); [apply T|].
  exists (ob_with ob o (ob_timers ob ++ [first])), x. csplit; auto. unfold same_place. now rewrite (swap_in_same _ _ _ H).
Qed.

Lemma place_good cf p j e ob ob2 x x2 : apart cf (fun z => z = ob_id ob) p -> nth_error (dc_objs p) j = Some ob -> nth_error (dc_dom p) e = Some x ->
  el_id x = ob_id ob -> ob_id ob2 = ob_id ob -> el_id x2 = el_id x -> ob_alive ob2 = true -> box_life cf (box_of ob2 x2) ->
  apart cf nobody (same_place j e p ob2 x2).
Proof.
  intros [A B C D E] Hj He I I2 J2 L F. constructor; cbn [same_place dc_objs dc_inst dc_dom].
  - now rewrite (put_ids _ _ _ _ Hj (eq_sym I2)).
  - intros k y K. apply put_inv in K. destruct K as [(<- & -> & _)|(_ & K)]; [rewrite I2|]; auto.
  - now rewrite (swap_in_some _ _ _ _ He J2).
  - intros y Hy _. apply swap_in_In in Hy. destruct Hy as [Hy|(k & N & Hy)].
    + injection Hy as <-. exists j, ob2. csplit; auto; [|congruence]. apply put_same. apply nth_error_Some. congruence.
    + assert (Ne : el_id y <> ob_id ob) by (intros Q; apply N; rewrite <- I in Q; exact (nodup_at el_id _ _ _ _ _ C Hy He Q)).
      destruct (D y (nth_error_In _ _ Hy) Ne) as (m & w & K & K1 & K2 & K3). exists m, w. csplit; auto. rewrite put_other; [assumption|].
      intros <-. rewrite Hj in K. injection K as <-. congruence.
  - intros k y K _. apply put_inv in K. destruct K as [(<- & -> & _)|(N & K)].
    + left. exists x2. split; [|congruence]. unfold swap_in. apply in_or_app. right. now left.
    + assert (Ne : ob_id y <> ob_id ob) by (intros Q; apply N; symmetry; exact (nodup_at ob_id _ _ _ _ _ A K Hj Q)).
      destruct (E k y K Ne) as [(z & Hz & Qz)|R]; [left|right; assumption]. apply In_nth_error in Hz. destruct Hz as (m & Hz).
      exists z. split; [|assumption]. apply In_swap_in with (k := m); [|assumption]. intros ->. congruence.
Qed.
Lemma good_place cf p j e ob ob2 x x2 : apart cf nobody p -> nth_error (dc_objs p) j = Some ob -> nth_error (dc_dom p) e = Some x ->
  el_id x = ob_id ob -> ob_id ob2 = ob_id ob -> el_id x2 = el_id x -> ob_alive ob2 = true -> box_life cf (box_of ob2 x2) ->
  apart cf nobody (same_place j e p ob2 x2).
Proof. intros A. apply place_good. eapply apart_weak; [|exact A]. intros z []. Qed.

Lemma enter_good cf t o p : apart cf nobody p -> ~ In t (map ob_id (dc_objs p)) -> apart cf nobody (enter t o p).
Proof.
  intros [A B C D E] N. constructor; cbn [enter dc_objs dc_inst dc_dom].
  - rewrite map_app. cbn [map ob_id]. apply snoc_nodup; assumption.
  - intros j ob H. cbn [look]. destruct (lt_dec j (List.length (dc_objs p))) as [L|L].
    + rewrite nth_error_app1 in H by assumption. destruct (Z.eqb_spec t (ob_id ob)) as [Q|Q]; [|auto]. destruct N. rewrite Q. apply in_map. eapply nth_error_In; eauto.
    + rewrite nth_error_app2 in H by lia. destruct (j - List.length (dc_objs p)) as [|m] eqn:Q; [|destruct m; discriminate H]. injection H as <-. cbn. rewrite Z.eqb_refl. f_equal. lia.
  - assumption.
  - intros x H Q. destruct (D x H Q) as (j & ob & K & R). exists j, ob. split; [|assumption]. rewrite nth_error_app1; [assumption|]. apply nth_error_Some. congruence.
  - intros j ob H Q. destruct (lt_dec j (List.length (dc_objs p))) as [L|L].
    + rewrite nth_error_app1 in H by assumption. eauto.
    + rewrite nth_error_app2 in H by lia. destruct (j - List.length (dc_objs p)) as [|m]; [|destruct m; discriminate H]. injection H as <-. right. right. reflexivity.
Qed.
Lemma dom_ids cf p t : apart cf nobody p -> ~ In t (map ob_id (dc_objs p)) -> ~ In t (map el_id (dc_dom p)).
Proof.
  intros G N H. apply in_map_iff in H. destruct H as (x & <- & H). destruct (a_own _ _ _ G x H (fun z => z)) as (j & ob & K & R & _). apply N. rewrite <- R.
  apply in_map. eapply nth_error_In; eauto.
Qed.

(** --- Run --- *)
Lemma run_good cf t v pr qu p p' : apart cf nobody p -> ~ In t (map ob_id (dc_objs p)) -> doc_run cf t v pr qu p = Val p' ->
  apart cf nobody p' /\ map ob_id (dc_objs p') = map ob_id (dc_objs p) ++ [t].
Proof.
  intros G N E. unfold doc_run in E. gety E o E0. destruct (load_program cf pr (set_time_limit 100000 o)) as [[r o1]|] eqn:L1; [|discriminate E].
  assert (J : forall o3, map ob_id (dc_objs (enter t o3 p)) = map ob_id (dc_objs p) ++ [t]) by (intros o3; cbn; now rewrite map_app).
  destruct (reports_error r) eqn:R1; [injection E as <-; split; [now apply enter_good|apply J]|].
  destruct (load_query cf qu o1) as [[r2 o2]|] eqn:L2; [|discriminate E].
  destruct (reports_error r2) eqn:R2; [injection E as <-; split; [now apply enter_good|apply J]|].
  set (ob := {| ob_id := t; ob_org := o2; ob_alive := true; ob_timers := [] |}) in *. set (q := add_elt (new_elt t qu) (enter t o2 p)) in *.
  assert (Hd : nth_error (dc_dom q) (List.length (dc_dom p)) = Some (new_elt t qu)) by (cbn; rewrite nth_error_app2 by lia; rewrite Nat.sub_diag; reflexivity).
  assert (Ho : nth_error (dc_objs q) (List.length (dc_objs p)) = Some ob) by (cbn; rewrite nth_error_app2 by lia; rewrite Nat.sub_diag; reflexivity).
  assert (Nd : NoDup (map el_id (dc_dom q))) by (cbn; rewrite map_app; apply snoc_nodup; [exact (a_dom _ _ _ G)|exact (dom_ids _ _ _ G N)]).
  destruct (answer_frames cf v true _ ob q p' _ _ Nd Hd eq_refl eq_refl E) as (ob2 & x2 & Q1 & Q2 & Q3 & -> & Q5).
  split; [|cbn [same_place dc_objs]; rewrite (put_ids _ _ _ _ Ho (eq_sym Q1)); apply J].
  eapply place_good; [|exact Ho|exact Hd|reflexivity|exact Q1|exact Q2|exact Q3|].
  - pose proof (enter_good cf t o2 p G N) as [A B C D F]. constructor; cbn [q add_elt dc_objs dc_inst dc_dom]; auto.
    + intros x Hx Nx. apply in_app_or in Hx. destruct Hx as [Hx|[<-|[]]]; [apply D; auto|]. destruct Nx. reflexivity.
    + intros j w Hw Nw. destruct (F j w Hw (fun z => z)) as [(z & Hz & Qz)|R]; [left; exists z; split; [apply in_or_app; now left|assumption]|right; assumption].
  - exists v, pr, qu, (box_of ob2 x2), []. split; [|reflexivity]. unfold run_clicked. rewrite E0. cbn [bind]. rewrite L1, R1, L2, R2.
    change (opened o2 qu) with (box_of ob (new_elt t qu)). rewrite Q5. reflexivity.
Qed.

(** --- the other events --- *)
Lemma called_own cf p x : apart cf nobody p -> In x (dc_dom p) -> exists j ob, called x p = Some (j, ob) /\ nth_error (dc_objs p) j = Some ob /\
  ob_id ob = el_id x /\ ob_alive ob = true /\ box_life cf (box_of ob x).
Proof.
  intros G H. destruct (a_own _ _ _ G x H (fun z => z)) as (j & ob & K & R & L & B). exists j, ob. csplit; auto. unfold called.
  rewrite <- R, (a_inst _ _ _ G _ _ K), K. reflexivity.
Qed.
Lemma click_good cf p e x v p' j ob ev : apart cf nobody p -> nth_error (dc_dom p) e = Some x -> nth_error (dc_objs p) j = Some ob -> ob_id ob = el_id x ->
  ob_alive ob = true -> box_life cf (box_of ob x) -> step cf ev (box_of ob x) = run_once cf v false (box_of ob x) -> answer_of cf v false j ob p = Val p' ->
  exists ob2 x2, ob_id ob2 = ob_id ob /\ el_id x2 = el_id x /\ ob_alive ob2 = true /\ p' = same_place j e p ob2 x2 /\ apart cf nobody p' /\
    step cf ev (box_of ob x) = Val (box_of ob2 x2).
Proof.
  intros G H K I L B S E. destruct (answer_frames cf v false j ob p p' e x (a_dom _ _ _ G) H (eq_sym I) L E) as (ob2 & x2 & Q1 & Q2 & Q3 & -> & Q5).
  exists ob2, x2. rewrite S. csplit; auto. eapply good_place; eauto. eapply box_life_step; [exact B|]. rewrite S. exact Q5.
Qed.
Definition closed_ob (ob : obj) : obj := {| ob_id := ob_id ob; ob_org := clear_memory (ob_org ob); ob_alive := false; ob_timers := ob_timers ob |}.
Lemma kill_form cf p e x p' : apart cf nobody p -> nth_error (dc_dom p) e = Some x -> dstep cf (DKill e) p = Val p' ->
  exists j ob, nth_error (dc_objs p) j = Some ob /\ ob_id ob = el_id x /\ ob_alive ob = true /\
    p' = {| dc_objs := put j (closed_ob ob) (dc_objs p); dc_inst := dc_inst p; dc_dom := firstn e (dc_dom p) ++ skipn (S e) (dc_dom p) |}.
Proof.
  intros G H E. destruct (called_own cf p x G (nth_error_In _ _ H)) as (j & ob & C & K & I & L & _). exists j, ob. csplit; auto.
  cbn [dstep] in E. rewrite H, C, L, I, (by_id_at _ _ _ _ (a_dom _ _ _ G) H) in E. cbn [or_else] in E. unfold swap_in in E. cbn [app] in E. injection E as <-.
  unfold closed_ob. now rewrite I.
Qed.
Lemma NoDup_cut {A} (l : list A) : forall e, NoDup l -> NoDup (firstn e l ++ skipn (S e) l).
Proof.
  intros e D. rewrite <- (firstn_skipn e l) in D. destruct (skipn e l) as [|x r] eqn:Q.
  - rewrite app_nil_r in D. assert (skipn (S e) l = []) as ->; [|now rewrite app_nil_r]. apply skipn_all2.
    assert (List.length (skipn e l) = 0) by now rewrite Q. rewrite skipn_length in *. lia.
  - assert (skipn (S e) l = r) as ->; [|now apply NoDup_remove_1 in D].
    clear D. revert l Q. induction e as [|e IH]; intros [|y l] Q; cbn [skipn] in *; try discriminate Q; [now injection Q as -> ->|]. exact (IH l Q).
Qed.
Lemma kill_good cf p e x p' : apart cf nobody p -> nth_error (dc_dom p) e = Some x -> dstep cf (DKill e) p = Val p' -> apart cf nobody p'.
Proof.
  intros G H E. destruct (kill_form cf p e x p' G H E) as (j & ob & K & I & L & ->). destruct G as [A B C D F].
  constructor; cbn [dc_objs dc_inst dc_dom].
  - rewrite (put_ids _ _ _ _ K); [assumption|reflexivity].
  - intros k y Y. apply put_inv in Y. destruct Y as [(<- & -> & _)|(_ & Y)]; auto. exact (B _ _ K).
  - rewrite map_app, <- firstn_map, <- skipn_map. now apply NoDup_cut.
  - intros y Hy _. change (firstn e (dc_dom p) ++ skipn (S e) (dc_dom p)) with (swap_in e None (dc_dom p)) in Hy. apply swap_in_In in Hy.
    destruct Hy as [Hy|(k & N & Hy)]; [discriminate Hy|]. destruct (D y (nth_error_In _ _ Hy) (fun z => z)) as (m & w & W & R).
    exists m, w. split; [|assumption]. rewrite put_other; [assumption|]. intros <-. apply N. rewrite K in W. injection W as <-. destruct R as (R & _). rewrite I in R.
    exact (nodup_at el_id _ _ _ _ _ C Hy H (eq_sym R)).
  - intros k y Y _. apply put_inv in Y. destruct Y as [(<- & -> & _)|(N & Y)]; [right; left; reflexivity|].
    destruct (F k y Y (fun z => z)) as [(z & Hz & Qz)|R]; [left|right; assumption]. apply In_nth_error in Hz. destruct Hz as (m & Hz). exists z. split; [|assumption].
    change (firstn e (dc_dom p) ++ skipn (S e) (dc_dom p)) with (swap_in e None (dc_dom p)). apply In_swap_in with (k := m); [|assumption].
    intros ->. rewrite H in Hz. injection Hz as <-. apply N. eapply (nodup_at ob_id); [exact A|exact K|exact Y|congruence].
Qed.
Lemma put_self j ob : forall l, nth_error l j = Some ob -> put j ob l = l.
Proof. induction j as [|j IH]; intros [|y l] H; cbn in *; try discriminate H; [injection H as ->; reflexivity|]. f_equal. auto. Qed.
Lemma timer_good cf p j k v p' : apart cf nobody p -> dstep cf (DTimer j k v) p = Val p' -> apart cf nobody p' /\ map ob_id (dc_objs p') = map ob_id (dc_objs p).
Proof.
  intros G E. cbn [dstep] in E. destruct (nth_error (dc_objs p) j) as [ob|] eqn:K; [|injection E as <-; auto].
  destruct (nth_error (ob_timers ob) k) as [first|] eqn:T; [|injection E as <-; auto].
  set (ob' := ob_with ob (ob_org ob) (firstn k (ob_timers ob) ++ skipn (S k) (ob_timers ob))) in *.
  destruct (ob_alive ob) eqn:L.
  - destruct (a_idle _ _ _ G j ob K (fun z => z)) as [(x & Hx & I)|[R|R]]; [|congruence|rewrite R in T; destruct k; discriminate T].
    apply In_nth_error in Hx. destruct Hx as (e & He). destruct (called_own cf p x G (nth_error_In _ _ He)) as (j' & w & _ & W & Iw & Lw & Bw).
    assert (j' = j) as -> by (eapply (nodup_at ob_id); [exact (a_ids _ _ _ G)|exact W|exact K|congruence]). rewrite K in W. injection W as <-.
    destruct (answer_frames cf v first j ob' p p' e x (a_dom _ _ _ G) He I L E) as (ob2 & x2 & Q1 & Q2 & Q3 & -> & Q5).
    split; [|cbn [same_place dc_objs]; now rewrite (put_ids _ _ _ _ K (eq_sym Q1))].
    eapply good_place; eauto. eapply box_life_step; [exact Bw|]. instantiate (1 := EvTimer k v). cbn [step box_of b_timers]. rewrite T. exact Q5.
  - unfold answer_of in E. change (ob_alive ob') with (ob_alive ob) in E. rewrite L in E. injection E as <-.
    split; [|cbn [dc_objs]; now rewrite (put_ids _ _ _ _ K)]. destruct G as [A B C D F]. constructor; cbn [dc_objs dc_inst dc_dom].
    + now rewrite (put_ids _ _ _ _ K).
    + intros m y Y. apply put_inv in Y. destruct Y as [(<- & -> & _)|(_ & Y)]; auto. exact (B _ _ K).
    + assumption.
    + intros x Hx Nx. destruct (D x Hx Nx) as (m & w & W & R1 & R2 & R3). exists m, w. csplit; auto. rewrite put_other; [assumption|]. intros <-. congruence.
    + intros m y Y Ny. apply put_inv in Y. destruct Y as [(<- & -> & _)|(_ & Y)]; [right; left; exact L|eauto].
Qed.
Lemma next_form cf p e x v p' : apart cf nobody p -> nth_error (dc_dom p) e = Some x -> el_next x = true -> dstep cf (DNext e v) p = Val p' ->
  exists j ob ob2 x2, nth_error (dc_objs p) j = Some ob /\ ob_id ob = el_id x /\ ob_id ob2 = ob_id ob /\ el_id x2 = el_id x /\
    p' = same_place j e p ob2 x2 /\ apart cf nobody p' /\ step cf (EvNext v) (box_of ob x) = Val (box_of ob2 x2).
Proof.
  intros G H Nx E. destruct (called_own cf p x G (nth_error_In _ _ H)) as (j & ob & C & K & I & L & B). cbn [dstep] in E. rewrite H, Nx, C in E.
  destruct (click_good cf p e x v p' j ob (EvNext v) G H K I L B) as (ob2 & x2 & Q1 & Q2 & Q3 & Q4 & Q5 & Q6); auto.
  - cbn [step box_of b_alive b_next]. rewrite L, Nx. reflexivity.
  - exists j, ob, ob2, x2. csplit; auto.
Qed.
Lemma continue_form cf p e x v p' : apart cf nobody p -> nth_error (dc_dom p) e = Some x -> el_tree x = true -> dstep cf (DContinue e v) p = Val p' ->
  exists j ob ob2 x2, nth_error (dc_objs p) j = Some ob /\ ob_id ob = el_id x /\ ob_id ob2 = ob_id ob /\ el_id x2 = el_id x /\
    p' = same_place j e p ob2 x2 /\ apart cf nobody p' /\ step cf (EvContinue v) (box_of ob x) = Val (box_of ob2 x2).
Proof.
  intros G H Nx E. destruct (called_own cf p x G (nth_error_In _ _ H)) as (j & ob & C & K & I & L & B). cbn [dstep] in E. rewrite H, Nx, C in E.
  destruct (click_good cf p e x v p' j ob (EvContinue v) G H K I L B) as (ob2 & x2 & Q1 & Q2 & Q3 & Q4 & Q5 & Q6); auto.
  - cbn [step box_of b_alive b_tree]. rewrite L, Nx. reflexivity.
  - exists j, ob, ob2, x2. csplit; auto.
Qed.
Definition clock_of (ev : devent) : list Z := match ev with DRun t _ _ _ => [t] | _ => [] end.
Lemma dstep_good cf ev p p' : apart cf nobody p -> NoDup (map ob_id (dc_objs p) ++ clock_of ev) -> dstep cf ev p = Val p' ->
  apart cf nobody p' /\ map ob_id (dc_objs p') = map ob_id (dc_objs p) ++ clock_of ev.
Proof.
  intros G D E. destruct ev as [t v pr qu|j k v|e v|e v|e]; cbn [clock_of] in *; rewrite ?app_nil_r.
  - apply (run_good cf t v pr qu p p' G); [|exact E]. intros H. apply NoDup_remove_2 in D. apply D. now rewrite app_nil_r.
  - exact (timer_good cf p j k v p' G E).
  - destruct (nth_error (dc_dom p) e) as [x|] eqn:H; [|cbn in E; rewrite H in E; injection E as <-; auto].
    destruct (el_next x) eqn:Nx; [|cbn in E; rewrite H, Nx in E; injection E as <-; auto].
    destruct (next_form cf p e x v p' G H Nx E) as (j & ob & ob2 & x2 & K & _ & I & _ & -> & Q & _). split; [assumption|]. cbn [same_place dc_objs]. now rewrite (put_ids _ _ _ _ K).
  - destruct (nth_error (dc_dom p) e) as [x|] eqn:H; [|cbn in E; rewrite H in E; injection E as <-; auto].
    destruct (el_tree x) eqn:Nx; [|cbn in E; rewrite H, Nx in E; injection E as <-; auto].
    destruct (continue_form cf p e x v p' G H Nx E) as (j & ob & ob2 & x2 & K & _ & I & _ & -> & Q & _). split; [assumption|]. cbn [same_place dc_objs]. now rewrite (put_ids _ _ _ _ K).
  - destruct (nth_error (dc_dom p) e) as [x|] eqn:H; [|cbn in E; rewrite H in E; injection E as <-; auto].
    split; [exact (kill_good cf p e x p' G H E)|]. destruct (kill_form cf p e x p' G H E) as (j & ob & K & _ & _ & ->). cbn [dc_objs]. now rewrite (put_ids _ _ _ _ K).
Qed.
Lemma first_good cf : apart cf nobody first_doc.
Proof. constructor; cbn; try constructor; intros; try contradiction; destruct j; discriminate. Qed.
Lemma clocks_cons ev es : clocks (ev :: es) = clock_of ev ++ clocks es.
Proof. destruct ev; reflexivity. Qed.
Lemma dsteps_good cf es : forall p p', apart cf nobody p -> NoDup (map ob_id (dc_objs p) ++ clocks es) -> dsteps cf es p = Val p' -> apart cf nobody p'.
Proof.
  induction es as [|ev es IH]; intros p p' G D E; cbn in E; [injection E as <-; assumption|]. gety E p1 E1. rewrite clocks_cons, app_assoc in D.
  destruct (dstep_good cf ev p p1 G) as [G1 M]; [|exact E1|].
  - clear - D. revert D. generalize (map ob_id (dc_objs p) ++ clock_of ev). intros l. induction l as [|a l IH]; intros D; [constructor|]. inversion D; subst. constructor; [|auto].
    intros H. apply H1. apply in_or_app. now left.
  - apply (IH p1); auto. now rewrite M.
Qed.
Lemma doc_good cf es p : dsteps cf es first_doc = Val p -> NoDup (clocks es) -> apart cf nobody p.
Proof. intros E D. exact (dsteps_good cf es _ _ (first_good cf) D E). Qed.
Lemma next_own cf es p p' e x v : dsteps cf es first_doc = Val p -> NoDup (clocks es) -> nth_error (dc_dom p) e = Some x -> el_next x = true ->
  dstep cf (DNext e v) p = Val p' -> exists j ob ob2 x2, nth_error (dc_objs p) j = Some ob /\ ob_id ob = el_id x /\ nth_error (dc_objs p') j = Some ob2 /\
    (forall k, k <> j -> nth_error (dc_objs p') k = nth_error (dc_objs p) k) /\
    dc_dom p' = firstn e (dc_dom p) ++ x2 :: skipn (S e) (dc_dom p) /\ step cf (EvNext v) (box_of ob x) = Val (box_of ob2 x2).
Proof.
  intros E D H Nx S. destruct (next_form cf p e x v p' (doc_good cf es p E D) H Nx S) as (j & ob & ob2 & x2 & K & I & _ & _ & -> & _ & T).
  exists j, ob, ob2, x2. csplit; auto.
  - cbn. apply put_same. apply nth_error_Some. congruence.
  - intros k N. cbn. apply put_other. congruence.
Qed.
Lemma close_own cf es p p' e x : dsteps cf es first_doc = Val p -> NoDup (clocks es) -> nth_error (dc_dom p) e = Some x -> dstep cf (DKill e) p = Val p' ->
  dc_dom p' = firstn e (dc_dom p) ++ skipn (S e) (dc_dom p) /\
  exists j ob, nth_error (dc_objs p) j = Some ob /\ ob_id ob = el_id x /\ ob_alive ob = true /\
    nth_error (dc_objs p') j = Some (closed_ob ob) /\ forall k, k <> j -> nth_error (dc_objs p') k = nth_error (dc_objs p) k.
Proof.
  intros E D H S. destruct (kill_form cf p e x p' (doc_good cf es p E D) H S) as (j & ob & K & I & L & ->). split; [reflexivity|].
  exists j, ob. csplit; auto.
  - cbn. apply put_same. apply nth_error_Some. congruence.
  - intros k N. cbn. apply put_other. congruence.
Qed.
