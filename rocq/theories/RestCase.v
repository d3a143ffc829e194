(** Cases for C31, C32 and C39. *)
From Verif Require Import Base Machine Heap Facts Compiler Parser Print Organizer Spec Examples Valuation Process Order Session Search Atoms Tables Runs Answers Witness Finite
  LockHist Refute Safe Reload Memory Trailing.
Open Scope string_scope.
Open Scope list_scope.

Definition rest_prog := "p(a). p(b). p(f(X)) :- p(X).".
Definition rest_new := "p(c). r(X) :- p(X).".
Lemma reload_case : exists o P q o1 o2, parse_program rest_prog = Some (COk P) /\ parse_query (append_dot "p(X)") = Some (COk q) /\
  session cfg0 o P (QFresh q) /\ get_answer cfg0 100 100 w0 o = Val (RAnswer [("X", "a")], o1) /\ session cfg0 o1 P (QStarted q) /\
  load_program cfg0 rest_new o1 = Some (LOk, o2) /\ next_code o1 = Some SrcProg /\ (w_time w0 0 <= o_limit o1)%Z /\ w_oom w0 0 = false.
Proof.
  destruct (loaded_witness rest_prog "p(X)" (fun o P q =>
    match get_answer cfg0 100 100 w0 o with
    | Val (RAnswer b, o1) => pairs_eqb b [("X", "a")] && match load_program cfg0 rest_new o1 with Some (LOk, _) => true | _ => false end &&
        match next_code o1 with Some SrcProg => true | _ => false end && (0 <=? o_limit o1)%Z
    | _ => false
    end)) as (o & P & q & S & Ep & Eq & K); [vm_compute; reflexivity|].
  destruct (get_answer cfg0 100 100 w0 o) as [[[|b|e| |] o1]| |] eqn:G; try discriminate K. rewrite !andb_true_iff in K. destruct K as [[[K1 K2] K3] K4].
  unfold pairs_eqb in K1. destruct (list_eq_dec pair_dec b [("X", "a")]) as [->|]; [|discriminate K1].
  destruct (load_program cfg0 rest_new o1) as [[[] o2]|] eqn:L; try discriminate K2. destruct (next_code o1) as [[]|] eqn:N; try discriminate K3.
  exists o, P, q, o1, o2. apply Z.leb_le in K4. csplit; try assumption; try reflexivity.
  change (QStarted q) with (q_run (QFresh q)). eapply ss_answer; [exact S|intros H; discriminate H|exact G|intros H; discriminate H].
Qed.
Lemma reload_safe_case : exists o P q cs o', parse_program rest_prog = Some (COk P) /\ parse_query (append_dot "p(X)") = Some (COk q) /\
  session cfg0 o P (QFresh q) /\ (forall x, QFresh q <> QStarted x) /\ QFresh q <> QStale /\
  parse_program rest_new = Some (COk cs) /\ load_program cfg0 rest_new o = Some (LOk, o') /\
  small_tables (o_sto o') /\ (Z.of_nat (List.length (s_vars (o_sto o'))) <= 32768)%Z /\ no_clash cfg0 cs /\ all_goals no_is cs (qgoals (QFresh q)) /\
  exists o1, get_answer cfg0 100 100 w0 o' = Val (RAnswer [("X", "c")], o1).
Proof.
  destruct (loaded_witness rest_prog "p(X)" (fun o P q =>
    match parse_program rest_new, load_program cfg0 rest_new o with
    | Some (COk cs), Some (LOk, o') => small_b (o_sto o') && (Z.of_nat (List.length (s_vars (o_sto o'))) <=? 32768)%Z && noclash_b cfg0 cs && goals_b nois_b cs q &&
        match get_answer cfg0 100 100 w0 o' with Val (RAnswer b, _) => pairs_eqb b [("X", "c")] | _ => false end
    | _, _ => false
    end)) as (o & P & q & S & Ep & Eq & K); [vm_compute; reflexivity|].
  destruct (parse_program rest_new) as [[cs| |]|] eqn:E1; try discriminate K.
  destruct (load_program cfg0 rest_new o) as [[[] o']|] eqn:L; try discriminate K. rewrite !andb_true_iff in K. destruct K as [[[[K1 K2] K3] K4] K5].
  destruct (get_answer cfg0 100 100 w0 o') as [[[|b|e| |] o1]| |] eqn:G; try discriminate K5.
  unfold pairs_eqb in K5. destruct (list_eq_dec pair_dec b [("X", "c")]) as [->|]; [|discriminate K5].
  exists o, P, q, cs, o'. split; [exact Ep|]. split; [exact Eq|]. split; [exact S|]. split; [intros x H; discriminate H|]. split; [intros H; discriminate H|].
  split; [reflexivity|]. split; [exact L|]. split; [now apply small_b_ok|]. csplit; [|now apply noclash_b_ok|..].
  - now apply Z.leb_le.
  - exact (goals_b_ok nois_b no_is _ _ nois_b_ok K4).
  - eauto.
Qed.
Lemma oom_case : exists o o1, loaded "p(a)." "p(X)" = Some o /\ get_answer cfg0 1000 1000 w_full o = Val (ROutOfMemory, o1) /\
  play cfg0 [CallProgram rest_prog; CallQuery "p(X)"; CallAnswer 100 100 w0] o1 = [Val (ReplyLoad LOk); Val (ReplyLoad LOk); Val (ReplyAnswer (RAnswer [("X", "a")]) 1)].
Proof.
  assert (E : exists o, loaded "p(a)." "p(X)" = Some o) by (eexists; vm_compute; reflexivity). destruct E as (o & L).
  assert (G : exists o1, get_answer cfg0 1000 1000 w_full o = Val (ROutOfMemory, o1) /\ o_limit o1 = 100000%Z).
  { revert L. vm_compute. intros L. injection L as <-. eexists. split; reflexivity. }
  destruct G as (o1 & G & Li). exists o, o1. split; [exact L|]. split; [exact G|].
  rewrite (oom_bare _ _ _ _ _ _ _ _ _ ord_ok_cfg0 G), Li. vm_compute. reflexivity.
Qed.
