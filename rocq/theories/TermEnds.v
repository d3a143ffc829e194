(** The terminal program: q. ends it; which of the names on the command line counts. *)
From Verif Require Import Base Machine Heap Compiler Parser Print Organizer Session Runs Examples Terminal TermFacts TermCase TermText.
Open Scope string_scope.
Open Scope list_scope.

Lemma mode_step cf fuel n ws paths input k w s : normal_mode cf fuel n ws paths input k = Val (w, inl s) ->
  normal_mode cf fuel n ws paths input (S k) = ('(v, x) <- tstep cf fuel n ws s ;; Val ((w ++ v)%string, x)).
Proof.
  unfold normal_mode. destruct (new_org cf) as [o| |]; cbn [bind]; try discriminate. destruct (load_files cf paths o) as [[o1|]| |]; cbn [bind]; try discriminate.
  match goal with |- context [tsteps cf fuel n ws k ?a] => set (s0 := a) end. intros H.
  destruct (tsteps cf fuel n ws k s0) as [[v y]| |] eqn:E; cbn [bind] in H; try discriminate H. injection H as <- ->.
  rewrite (steps_next _ _ _ _ _ _ _ _ E). destruct (tstep cf fuel n ws s) as [[v1 x1]| |]; cbn [bind]; try reflexivity. now rewrite !sapp_assoc.
Qed.
Lemma steps_stay cf fuel n ws k : forall s v e, tsteps cf fuel n ws k s = Val (v, inr e) -> tsteps cf fuel n ws (S k) s = Val (v, inr e).
Proof.
  induction k as [|k IH]; intros s v e H; [discriminate H|].
  change (tsteps cf fuel n ws (S (S k)) s) with
    ('(w, x) <- tstep cf fuel n ws s ;; match x with inr e => Val (w, inr e) | inl s' => '(v, y) <- tsteps cf fuel n ws (S k) s' ;; Val ((w ++ v)%string, y) end).
  cbn [tsteps] in H. destruct (tstep cf fuel n ws s) as [[w [s'|e']]| |]; cbn [bind] in H |- *; try discriminate H; [|exact H].
  destruct (tsteps cf fuel n ws k s') as [[v' y]| |] eqn:E; cbn [bind] in H; try discriminate H. injection H as <- ->. now rewrite (IH _ _ _ E).
Qed.
Lemma mode_stay cf fuel n ws paths input k w e j : normal_mode cf fuel n ws paths input k = Val (w, inr e) -> normal_mode cf fuel n ws paths input (j + k) = Val (w, inr e).
Proof.
  intros H. induction j as [|j IH]; [exact H|]. cbn [Nat.add]. revert IH. generalize (j + k) as m. intros m. unfold normal_mode.
  destruct (new_org cf) as [o| |]; cbn [bind]; try discriminate. destruct (load_files cf paths o) as [[o1|]| |]; cbn [bind]; try discriminate; [|exact (fun x => x)].
  match goal with |- context [tsteps cf fuel n ws m ?a] => set (s0 := a) end. intros K.
  destruct (tsteps cf fuel n ws m s0) as [[v y]| |] eqn:E; cbn [bind] in K; try discriminate K. injection K as <- ->. now rewrite (steps_stay _ _ _ _ _ _ _ _ E).
Qed.
Theorem q_ends cf fuel n ws paths input k w s rest : normal_mode cf fuel n ws paths input k = Val (w, inl s) -> t_show s = None ->
  i_good (t_in s) = true -> i_rest (t_in s) = "q" \/ i_rest (t_in s) = ("q." ++ rest)%string ->
  forall j, normal_mode cf fuel n ws paths input (j + S k) = Val ((w ++ "?- ")%string, inr TQuit).
Proof.
  intros H Sh Gd In j. apply mode_stay. rewrite (mode_step _ _ _ _ _ _ _ _ _ H). unfold tstep. rewrite Sh. unfold at_prompt, getline. rewrite Gd.
  destruct In as [-> | ->]; reflexivity.
Qed.
Lemma q_case : exists w s rest, normal_mode cfg0 100 100 (fun _ => w0) [] ("append(X,Y,[a])." ++ nl ++ ";" ++ nl ++ "x" ++ nl ++ "q. bye" ++ nl) 3 = Val (w, inl s) /\
  t_show s = None /\ i_good (t_in s) = true /\ i_rest (t_in s) = ("q." ++ rest)%string.
Proof.
  set (x := ("append(X,Y,[a])." ++ nl ++ ";" ++ nl ++ "x" ++ nl ++ "q. bye" ++ nl)%string).
  destruct (prompt_at (normal_mode cfg0 100 100 (fun _ => w0) [] x 3)) as [[w i]|] eqn:E; [|vm_compute in E; discriminate E].
  destruct (prompt_at_some _ _ _ E) as (s & Sh & Hi & N). exists w, s, (" bye" ++ nl)%string. split; [exact N|]. split; [exact Sh|].
  rewrite Hi. vm_compute in E. injection E as _ <-. split; reflexivity.
Qed.
(** an empty line before it, and it is a query *)
Lemma blank_q : exists w s, normal_mode cfg0 100 100 (fun _ => w0) [] (nl ++ "q." ++ nl) 1 = Val (w, inl s) /\ w = (header [] ++ "?- false" ++ nl)%string.
Proof.
  destruct (output_prompt (normal_mode cfg0 100 100 (fun _ => w0) [] (nl ++ "q." ++ nl) 1) (header [] ++ "?- false" ++ nl)) as (s & _ & _ & E); [vm_compute; reflexivity|].
  eauto.
Qed.

(** --- names --- *)
Lemma load_files_app cf a b : forall o, load_files cf (a ++ b) o = (x <- load_files cf a o ;; match x with None => Val None | Some o1 => load_files cf b o1 end).
Proof.
  induction a as [|p a IH]; intros o; [reflexivity|]. cbn [app load_files]. destruct (load_program cf p o) as [[[|e|] o']|]; cbn [bind]; auto.
Qed.
Theorem last_name cf a p b o o1 : load_files cf (a ++ p :: b) o = Val (Some o1) -> (forall x, In x b -> exists e, parse_program x = Some (CErr e)) ->
  exists o0 r, load_files cf a o = Val (Some o0) /\ load_program cf p o0 = Some (r, o1).
Proof.
  intros H B. rewrite load_files_app in H. destruct (load_files cf a o) as [[o0|]| |]; cbn [bind] in H; try discriminate H.
  cbn [load_files] in H. destruct (load_program cf p o0) as [[r o2]|] eqn:E; [|discriminate H]. exists o0, r. split; [reflexivity|].
  destruct r as [|e|]; [| |discriminate H]; rewrite (load_files_rejected cf b o2 B) in H; injection H as ->; exact E.
Qed.
Lemma last_case : exists o o1, new_org cfg0 = Val o /\ load_files cfg0 (["prog.pl"; "p(a)."] ++ "p(b)." :: ["family.pl"]) o = Val (Some o1) /\
  (forall x, In x ["family.pl"] -> exists e, parse_program x = Some (CErr e)) /\
  exists o0, load_files cfg0 ["prog.pl"; "p(a)."] o = Val (Some o0) /\ load_program cfg0 "p(b)." o0 = Some (LOk, o1).
Proof.
  destruct (new_org cfg0) as [o| |] eqn:N; try (vm_compute in N; discriminate N). exists o.
  assert (B : forall x, In x ["family.pl"] -> exists e, parse_program x = Some (CErr e)) by (intros x [<-|[]]; exists CParser; vm_compute; reflexivity).
  destruct (load_files cfg0 ["prog.pl"; "p(a)."] o) as [[o0|]| |] eqn:L; try (vm_compute in N; injection N as <-; vm_compute in L; discriminate L).
  destruct (load_program cfg0 "p(b)." o0) as [[r o1]|] eqn:Q.
  2: { vm_compute in N; injection N as <-; vm_compute in L; injection L as <-; vm_compute in Q; discriminate Q. }
  assert (r = LOk) as -> by (vm_compute in N; injection N as <-; vm_compute in L; injection L as <-; vm_compute in Q; injection Q as <- _; reflexivity).
  exists o1. split; [reflexivity|]. split; [|split; [exact B|eauto]].
  rewrite load_files_app, L. cbn [bind load_files]. rewrite Q. exact (load_files_rejected cfg0 ["family.pl"] o1 B).
Qed.
