(** Two clicks on Run at which the clock says the same. *)
From Verif Require Import Base Machine Heap Facts Compiler Parser Print Organizer Process Search Terminal Web Page PageFacts Clock ClockFacts Examples WebCase.
Open Scope string_scope.
Open Scope list_scope.

(** --- a box that cannot be closed --- *)
Definition linked (p : doc) : Prop := forall k m, look k (dc_inst p) = Some m -> exists ob, nth_error (dc_objs p) m = Some ob /\ ob_id ob = k.
Definition orphan (t : Z) (p : doc) : Prop := In t (map el_id (dc_dom p)) /\ exists j ob, look t (dc_inst p) = Some j /\ nth_error (dc_objs p) j = Some ob /\ ob_alive ob = false.
Lemma put_at j x l z : nth_error l j = Some z -> nth_error (put j x l) j = Some x.
Proof. intros H. apply put_same. apply nth_error_Some. congruence. Qed.
Lemma put_linked p j ob ob2 d : linked p -> nth_error (dc_objs p) j = Some ob -> ob_id ob2 = ob_id ob -> linked {| dc_objs := put j ob2 (dc_objs p); dc_inst := dc_inst p; dc_dom := d |}.
Proof.
  intros L K I k m H. destruct (L k m H) as (w & W & J). cbn [dc_objs dc_inst] in *. destruct (Nat.eq_dec j m) as [->|N].
  - exists ob2. split; [eapply put_at; eauto|]. rewrite K in W. injection W as <-. congruence.
  - exists w. rewrite put_other by assumption. auto.
Qed.
Lemma put_orphan p j ob ob2 d t : orphan t p -> nth_error (dc_objs p) j = Some ob -> (ob_alive ob = false -> ob_alive ob2 = false) -> In t (map el_id d) ->
  orphan t {| dc_objs := put j ob2 (dc_objs p); dc_inst := dc_inst p; dc_dom := d |}.
Proof.
  intros (_ & k & w & L & W & A) K F H. split; [assumption|]. cbn [dc_objs dc_inst]. destruct (Nat.eq_dec j k) as [->|N].
  - exists k, ob2. csplit; auto; [eapply put_at; eauto|]. rewrite K in W. injection W as <-. auto.
  - exists k, w. rewrite put_other by assumption. auto.
Qed.
Lemma callback_ids t first s l : map el_id (or_else (by_id t (el_callback first s) l) l) = map el_id l.
Proof.
  induction l as [|x l IH]; [reflexivity|]. cbn [by_id]. destruct (Z.eqb (el_id x) t); [reflexivity|]. destruct (by_id t _ l); cbn in *; [now rewrite IH|reflexivity].
Qed.
Lemma answer_shape cf v first j ob p p' : answer_of cf v first j ob p = Val p' ->
  exists ob2 d, p' = {| dc_objs := put j ob2 (dc_objs p); dc_inst := dc_inst p; dc_dom := d |} /\ ob_id ob2 = ob_id ob /\ ob_alive ob2 = ob_alive ob /\ map el_id d = map el_id (dc_dom p).
Proof.
  intros E. unfold answer_of in E. destruct (ob_alive ob) eqn:A; [|injection E as <-; exists ob, (dc_dom p); auto].
  gety E ro E0. destruct ro as [r o]. injection E as <-.
  assert (T : forall s, exists ob2 d, {| dc_objs := put j (ob_with ob o (ob_timers ob)) (dc_objs p); dc_inst := dc_inst p;
    dc_dom := or_else (by_id (ob_id ob) (el_callback first s) (dc_dom p)) (dc_dom p) |} = {| dc_objs := put j ob2 (dc_objs p); dc_inst := dc_inst p; dc_dom := d |} /\
    ob_id ob2 = ob_id ob /\ ob_alive ob2 = true /\ map el_id d = map el_id (dc_dom p)).
  { intros s. eexists _, _. csplit; [reflexivity|reflexivity|exact A|apply callback_ids]. }
  destruct r as [|b|er| |]; try apply T. destruct (v_memory v); [apply T|]. eexists _, _. csplit; [reflexivity|reflexivity|exact A|reflexivity].
Qed.
Lemma remove_other t u l : t <> u -> In t (map el_id l) -> In t (map el_id (or_else (by_id u (fun _ => None) l) l)).
Proof.
  intros N. induction l as [|x l IH]; [intros []|]. cbn [by_id map]. destruct (Z.eqb_spec (el_id x) u) as [E|E].
  - intros [H|H]; [congruence|exact H].
  - destruct (by_id u (fun _ => None) l) as [r|]; cbn in *; intros [H|H]; auto.
Qed.
Lemma enter_linked t o p : linked p -> linked (enter t o p).
Proof.
  intros L k m H. cbn in H. destruct (Z.eqb_spec t k) as [<-|N].
  - injection H as <-. eexists. split; [cbn; rewrite nth_error_app2 by lia; rewrite Nat.sub_diag; reflexivity|reflexivity].
  - destruct (L k m H) as (w & W & J). exists w. split; [|assumption]. cbn. rewrite nth_error_app1; [assumption|]. apply nth_error_Some. congruence.
Qed.
Lemma enter_orphan t u o p : t <> u -> orphan t p -> orphan t (enter u o p).
Proof.
  intros N (H & j & ob & L & K & A). split; [assumption|]. exists j, ob. csplit; auto.
  - cbn. destruct (Z.eqb_spec u t); [congruence|assumption].
  - cbn. rewrite nth_error_app1; [assumption|]. apply nth_error_Some. congruence.
Qed.
Lemma called_at x p j ob : linked p -> called x p = Some (j, ob) -> look (el_id x) (dc_inst p) = Some j /\ nth_error (dc_objs p) j = Some ob /\ ob_id ob = el_id x.
Proof.
  intros L C. unfold called in C. destruct (look (el_id x) (dc_inst p)) as [m|] eqn:K; [|discriminate C]. destruct (L _ _ K) as (w & W & J). rewrite W in C. injection C as <- <-. auto.
Qed.
Lemma answer_kept cf v first j ob0 ob p p' t : linked p -> nth_error (dc_objs p) j = Some ob0 -> ob_id ob = ob_id ob0 -> ob_alive ob = ob_alive ob0 ->
  answer_of cf v first j ob p = Val p' -> linked p' /\ (orphan t p -> orphan t p').
Proof.
  intros L K I A E. destruct (answer_shape _ _ _ _ _ _ _ E) as (ob2 & d & -> & I2 & A2 & D). split.
  - eapply put_linked; eauto. congruence.
  - intros O. eapply put_orphan; [exact O|exact K|congruence|]. rewrite D. exact (proj1 O).
Qed.
Lemma dstep_kept cf ev p p' t : linked p -> dstep cf ev p = Val p' -> linked p' /\ (~ In t (clock_of ev) -> orphan t p -> orphan t p').
Proof.
  intros L E. destruct ev as [u v pr qu|j k v|e v|e v|e]; cbn [dstep clock_of] in *.
  - unfold doc_run in E. gety E o E0. destruct (load_program cf pr (set_time_limit 100000 o)) as [[r o1]|]; [|discriminate E].
    assert (Enter : forall o3, linked (enter u o3 p) /\ (~ In t [u] -> orphan t p -> orphan t (enter u o3 p))).
    { intros o3. split; [now apply enter_linked|]. intros N. apply enter_orphan. intros ->. apply N. now left. }
    destruct (reports_error r); [injection E as <-; apply Enter|]. destruct (load_query cf qu o1) as [[r2 o2]|]; [|discriminate E].
    destruct (reports_error r2); [injection E as <-; apply Enter|]. destruct (Enter o2) as [L1 O1].
    assert (L2 : linked (add_elt (new_elt u qu) (enter u o2 p))) by exact L1.
    assert (K : nth_error (dc_objs (add_elt (new_elt u qu) (enter u o2 p))) (List.length (dc_objs p)) = Some {| ob_id := u; ob_org := o2; ob_alive := true; ob_timers := [] |})
      by (cbn; rewrite nth_error_app2 by lia; rewrite Nat.sub_diag; reflexivity).
    destruct (answer_kept cf v true _ _ _ _ p' t L2 K eq_refl eq_refl E) as [L3 O3]. split; [assumption|]. intros N O. apply O3. destruct (O1 N O) as [H R]. split; [|exact R].
    cbn in *. rewrite map_app. apply in_or_app. now left.
  - destruct (nth_error (dc_objs p) j) as [ob|] eqn:K; [|injection E as <-; auto]. destruct (nth_error (ob_timers ob) k) as [first|]; [|injection E as <-; auto].
    destruct (answer_kept cf v first j ob (ob_with ob (ob_org ob) (firstn k (ob_timers ob) ++ skipn (S k) (ob_timers ob))) p p' t L K eq_refl eq_refl E); auto.
  - destruct (nth_error (dc_dom p) e) as [x|]; [|injection E as <-; auto]. destruct (el_next x); [|injection E as <-; auto].
    destruct (called x p) as [[j ob]|] eqn:C; [|injection E as <-; auto]. destruct (called_at _ _ _ _ L C) as (_ & K & _).
    destruct (answer_kept cf v false j ob ob p p' t L K eq_refl eq_refl E); auto.
  - destruct (nth_error (dc_dom p) e) as [x|]; [|injection E as <-; auto]. destruct (el_tree x); [|injection E as <-; auto].
    destruct (called x p) as [[j ob]|] eqn:C; [|injection E as <-; auto]. destruct (called_at _ _ _ _ L C) as (_ & K & _).
    destruct (answer_kept cf v false j ob ob p p' t L K eq_refl eq_refl E); auto.
  - destruct (nth_error (dc_dom p) e) as [x|]; [|injection E as <-; auto].
    destruct (called x p) as [[j ob]|] eqn:C; [|injection E as <-; auto]. destruct (called_at _ _ _ _ L C) as (Q & K & I). injection E as <-.
    destruct (ob_alive ob) eqn:A; [|auto]. split; [eapply put_linked; eauto|]. intros _ O. eapply put_orphan; [exact O|exact K|intros; reflexivity|].
    apply remove_other; [|exact (proj1 O)]. intros ->. destruct O as (_ & m & w & Q' & W & F). rewrite I, Q in Q'. injection Q' as <-. congruence.
Qed.
Lemma dsteps_kept cf t es : forall p p', linked p -> dsteps cf es p = Val p' -> linked p' /\ (~ In t (clocks es) -> orphan t p -> orphan t p').
Proof.
  induction es as [|ev es IH]; intros p p' L E; cbn in E; [injection E as <-; auto|]. gety E p1 E1. destruct (dstep_kept cf ev p p1 t L E1) as [L1 O1].
  destruct (IH p1 p' L1 E) as [L2 O2]. split; [assumption|]. rewrite clocks_cons. intros N O. apply O2; [|apply O1; [|exact O]]; intros H; apply N; apply in_or_app; auto.
Qed.
Lemma stuck cf es p es' p' e x j ob : dsteps cf es first_doc = Val p -> nth_error (dc_dom p) e = Some x -> called x p = Some (j, ob) -> ob_alive ob = false ->
  dsteps cf es' p = Val p' -> ~ In (el_id x) (clocks es') -> exists x', In x' (dc_dom p') /\ el_id x' = el_id x.
Proof.
  intros E H C A E' N. assert (L0 : linked first_doc) by (intros k m F; discriminate F).
  destruct (dsteps_kept cf 0%Z es _ _ L0 E) as [L _]. destruct (called_at _ _ _ _ L C) as (Q & K & I).
  destruct (dsteps_kept cf (el_id x) es' _ _ L E') as [_ O]. destruct O as [O _]; [assumption| |].
  - split; [apply in_map; eapply nth_error_In; eauto|]. exists j, ob. auto.
  - apply in_map_iff in O. destruct O as (y & Y & Hy). exists y. auto.
Qed.

(** --- examples --- *)
Definition state_of (x : out doc) : option (list (Z * string * list string * bool) * list bool) :=
  match x with Val p => Some (map (fun x => (el_id x, el_head x, el_shown x, el_next x)) (dc_dom p), map ob_alive (dc_objs p)) | _ => None end.
Lemma state_exists es s : state_of (dsteps cfg0 es first_doc) = Some s ->
  exists p, dsteps cfg0 es first_doc = Val p /\ map (fun x => (el_id x, el_head x, el_shown x, el_next x)) (dc_dom p) = fst s /\ map ob_alive (dc_objs p) = snd s.
Proof. destruct (dsteps cfg0 es first_doc) as [p|u|]; cbn [state_of]; intros H; [|discriminate H|discriminate H]. exists p. injection H as <-. auto. Qed.
Definition mixed_events : list devent := [DRun 7 v_good letters "p(X)"; DRun 7 v_good letters "q"].
Definition mixed_state := ([(7%Z, "p(X)", ["[X / a]"; "false"], true); (7%Z, "q", [], false)], [true; true]).
Lemma mixed_is : state_of (dsteps cfg0 mixed_events first_doc) = Some mixed_state.
Proof. vm_compute. reflexivity. Qed.
Definition two_runs : list devent := [DRun 7 v_good letters "p(X)"; DRun 7 v_good letters "p(b)"].
Definition wrong_events : list devent := two_runs ++ [DKill 0].
Definition wrong_state := ([(7%Z, "p(b)", @nil string, false)], [true; false]).
Lemma wrong_is : state_of (dsteps cfg0 wrong_events first_doc) = Some wrong_state.
Proof. vm_compute. reflexivity. Qed.
Definition first_called (x : out doc) : option (nat * bool) :=
  match x with
  | Val p => match dc_dom p with [x] => match called x p with Some (j, ob) => Some (j, ob_alive ob) | None => None end | _ => None end
  | _ => None
  end.
Lemma wrong_called_is : first_called (dsteps cfg0 wrong_events first_doc) = Some (1, false).
Proof. vm_compute. reflexivity. Qed.
Lemma stuck_exists y t h l n : state_of y = Some ([(t, h, l, n)], [true; false]) -> first_called y = Some (1, false) ->
  exists p x j ob, y = Val p /\ dc_dom p = [x] /\ el_head x = h /\ map ob_alive (dc_objs p) = [true; false] /\ called x p = Some (j, ob) /\ ob_alive ob = false.
Proof.
  destruct y as [p|u|]; cbn [state_of first_called]; intros H K; try discriminate H. destruct (dc_dom p) as [|x [|z r]] eqn:X; try discriminate K.
  destruct (called x p) as [[j ob]|] eqn:Q; [|discriminate K]. exists p, x, j, ob. injection K as _ A. cbn [map] in H. injection H as _ B _ _ C. auto 10.
Qed.
Lemma wrong_stuck : exists p x j ob, dsteps cfg0 wrong_events first_doc = Val p /\ dc_dom p = [x] /\ el_head x = "p(b)" /\ map ob_alive (dc_objs p) = [true; false] /\
  called x p = Some (j, ob) /\ ob_alive ob = false.
Proof. exact (stuck_exists _ _ _ _ _ wrong_is wrong_called_is). Qed.
Definition fine_events : list devent := [DRun 7 v_good letters "p(X)"; DRun 8 v_good letters "p(b)"; DRun 9 v_good "p(" "q"; DNext 0 v_slow; DRun 10 v_slow letters "q"; DNext 0 v_good; DTimer 3 0 v_good; DKill 1].
Definition fine_state := ([(7%Z, "p(X)", ["[X / a]"; "[X / b]"], true); (10%Z, "q", ["false"], false)], [true; false; true; true]).
Lemma fine_is : state_of (dsteps cfg0 fine_events first_doc) = Some fine_state.
Proof. vm_compute. reflexivity. Qed.
Lemma fine_case : exists es p, NoDup (clocks es) /\ List.length (clocks es) = 4 /\ dsteps cfg0 es first_doc = Val p /\
  map (fun x => (el_id x, el_head x, el_shown x, el_next x)) (dc_dom p) = [(7%Z, "p(X)", ["[X / a]"; "[X / b]"], true); (10%Z, "q", ["false"], false)] /\
  map ob_alive (dc_objs p) = [true; false; true; true].
Proof.
  destruct (state_exists _ _ fine_is) as (p & E & D & A). exists fine_events, p. csplit; [|reflexivity|exact E|exact D|exact A]. cbn [clocks fine_events]. repeat constructor; cbn; intuition discriminate.
Qed.
Lemma mixed_case : exists es p, clocks es = [7%Z; 7%Z] /\ dsteps cfg0 es first_doc = Val p /\
  map (fun x => (el_id x, el_head x, el_shown x, el_next x)) (dc_dom p) = [(7%Z, "p(X)", ["[X / a]"; "false"], true); (7%Z, "q", [], false)].
Proof. destruct (state_exists _ _ mixed_is) as (p & E & D & A). exists mixed_events, p. csplit; [reflexivity|exact E|exact D]. Qed.
Lemma wrong_case : exists es p x j ob, dsteps cfg0 (es ++ [DKill 0]) first_doc = Val p /\ clocks es = [7%Z; 7%Z] /\ dc_dom p = [x] /\ el_head x = "p(b)" /\
  map ob_alive (dc_objs p) = [true; false] /\ called x p = Some (j, ob) /\ ob_alive ob = false.
Proof.
  destruct wrong_stuck as (p & x & j & ob & E & R). exists two_runs, p, x, j, ob.
  split; [exact E|]. split; [reflexivity|]. exact R.
Qed.
