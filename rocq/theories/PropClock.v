(** Theorems about the result boxes as elements of the document, found by a number taken from the clock. *)
From Verif Require Import Base Machine Compiler Parser Print Organizer Web Page PageFacts Clock ClockFacts ClockCase Examples WebCase.
Open Scope string_scope.
Open Scope list_scope.

(** C76. [dsteps cf es first_doc]: the document after any clicks on Run, Next, "*continue search*" and crosses, and timers;
    [clocks es]: what Date.now() said at the clicks on Run. If these numbers differ, every element of the document belongs to
    an object that is alive and that its buttons call, and the two are a box as in Web.v, so C65, C66 and C68 hold for it. *)
Theorem C76_own_partial cf es p x : dsteps cf es first_doc = Val p -> NoDup (clocks es) -> In x (dc_dom p) ->
  exists j ob, called x p = Some (j, ob) /\ ob_id ob = el_id x /\ ob_alive ob = true /\
    exists v program query b0 es', run_clicked cf v program query = Val (Opened b0) /\ steps cf es' b0 = Val (box_of ob x).
Proof.
  intros E D H. destruct (called_own cf p x (doc_good cf es p E D) H) as (j & ob & C & _ & I & L & B). exact (ex_intro _ j (ex_intro _ ob (conj C (conj I (conj L B))))).
Qed.
Print Assumptions C76_own_partial.

(** Next changes the element it stands in, as in Web.v, and no other one: [x2] takes the place of [x]. *)
Theorem C76_next_partial cf es p p' e x v : dsteps cf es first_doc = Val p -> NoDup (clocks es) -> nth_error (dc_dom p) e = Some x -> el_next x = true ->
  dstep cf (DNext e v) p = Val p' -> exists j ob ob2 x2, nth_error (dc_objs p) j = Some ob /\ ob_id ob = el_id x /\ nth_error (dc_objs p') j = Some ob2 /\
    (forall k, k <> j -> nth_error (dc_objs p') k = nth_error (dc_objs p) k) /\
    dc_dom p' = firstn e (dc_dom p) ++ x2 :: skipn (S e) (dc_dom p) /\ step cf (EvNext v) (box_of ob x) = Val (box_of ob2 x2).
Proof. exact (next_own cf es p p' e x v). Qed.
Print Assumptions C76_next_partial.

(** The cross removes the element it stands in, and clears the interpreter of that box and of no other one. *)
Theorem C76_close_partial cf es p p' e x : dsteps cf es first_doc = Val p -> NoDup (clocks es) -> nth_error (dc_dom p) e = Some x -> dstep cf (DKill e) p = Val p' ->
  dc_dom p' = firstn e (dc_dom p) ++ skipn (S e) (dc_dom p) /\
  exists j ob, nth_error (dc_objs p) j = Some ob /\ ob_id ob = el_id x /\ ob_alive ob = true /\
    nth_error (dc_objs p') j = Some {| ob_id := ob_id ob; ob_org := clear_memory (ob_org ob); ob_alive := false; ob_timers := ob_timers ob |} /\
    forall k, k <> j -> nth_error (dc_objs p') k = nth_error (dc_objs p) k.
Proof. exact (close_own cf es p p' e x). Qed.
Print Assumptions C76_close_partial.
Example C76_hypotheses_met : exists es p, NoDup (clocks es) /\ List.length (clocks es) = 4 /\ dsteps cfg0 es first_doc = Val p /\
  map (fun x => (el_id x, el_head x, el_shown x, el_next x)) (dc_dom p) = [(7%Z, "p(X)", ["[X / a]"; "[X / b]"], true); (10%Z, "q", ["false"], false)] /\
  map ob_alive (dc_objs p) = [true; false; true; true].
Proof. exact fine_case. Qed.

(** If the clock says the same twice, the answer to the second query is shown in the box of the first, *)
Theorem C76_answer_refuted : exists es p, clocks es = [7%Z; 7%Z] /\ dsteps cfg0 es first_doc = Val p /\
  map (fun x => (el_id x, el_head x, el_shown x, el_next x)) (dc_dom p) = [(7%Z, "p(X)", ["[X / a]"; "false"], true); (7%Z, "q", [], false)].
Proof. exact mixed_case. Qed.
Print Assumptions C76_answer_refuted.
(** and the cross of the first box removes the first box but clears the interpreter of the second: the first one is never
    cleared, and the second box calls an object without an interpreter, *)
Theorem C76_close_refuted : exists es p x j ob, dsteps cfg0 (es ++ [DKill 0]) first_doc = Val p /\ clocks es = [7%Z; 7%Z] /\ dc_dom p = [x] /\ el_head x = "p(b)" /\
  map ob_alive (dc_objs p) = [true; false] /\ called x p = Some (j, ob) /\ ob_alive ob = false.
Proof. exact wrong_case. Qed.
Print Assumptions C76_close_refuted.
(** so that it stays on the page whatever happens, unless the clock says that number a third time. *)
Theorem C76_stays cf es p es' p' e x j ob : dsteps cf es first_doc = Val p -> nth_error (dc_dom p) e = Some x -> called x p = Some (j, ob) -> ob_alive ob = false ->
  dsteps cf es' p = Val p' -> ~ In (el_id x) (clocks es') -> exists x', In x' (dc_dom p') /\ el_id x' = el_id x.
Proof. exact (stuck cf es p es' p' e x j ob). Qed.
Print Assumptions C76_stays.
