(** Concrete pages. *)
From Verif Require Import Base Machine Heap Compiler Parser Print Organizer Examples Web.
Open Scope string_scope.
Open Scope list_scope.

Definition v_good : view := {| v_fuel := 100; v_n := 100; v_world := {| w_time := fun _ => 0%Z; w_oom := fun _ => false |}; v_memory := false |}.
Definition v_slow : view := {| v_fuel := 100; v_n := 100; v_world := {| w_time := fun _ => 200000%Z; w_oom := fun _ => false |}; v_memory := false |}.
Definition v_full : view := {| v_fuel := 100; v_n := 100; v_world := {| w_time := fun _ => 200000%Z; w_oom := fun _ => false |}; v_memory := true |}.
Definition v_fails : view := {| v_fuel := 100; v_n := 100; v_world := {| w_time := fun _ => 0%Z; w_oom := fun k => Nat.eqb k 1 |}; v_memory := false |}.
(** the paragraphs, the state of Next and the number of timers *)
Definition seen (x : out box) : option (list string * bool * nat) := match x with Val b => Some (b_shown b, b_next b, List.length (b_timers b)) | _ => None end.
Definition seen_after (v : view) (program query : string) (es : list event) : option (list string * bool * nat) :=
  match run_clicked cfg0 v program query with Val (Opened b) => seen (steps cfg0 es b) | _ => None end.
Definition letters : string := "p(a). p(b). p(c).".
(** two clicks on Next answered after time-outs, in the other order *)
Lemma web_case : seen_after v_slow letters "p(X)" [EvTimer 0 v_slow; EvTimer 0 v_good; EvNext v_slow; EvNext v_slow; EvTimer 1 v_good; EvTimer 0 v_full; EvContinue v_good; EvNext v_good; EvContinue v_good]
  = Some (["[X / a]"; "[X / b]"; "Soft memory limit reached. Please close some results."; "[X / c]"; "false"; "false"], false, 0).
Proof. vm_compute. reflexivity. Qed.
Lemma web_pending : seen_after v_good letters "p(X)" [EvNext v_slow; EvNext v_slow; EvTimer 1 v_good] = Some (["[X / a]"; "[X / b]"], true, 1).
Proof. vm_compute. reflexivity. Qed.
Definition divide : string := "p(X) :- X is 1 // 0. p(b).".
Lemma web_error : seen_after v_good divide "p(X)" [EvNext v_good] = Some (["[X / b]"; "ERROR: Arithmetic: evaluation error: zero_divisor"], true, 0).
Proof. vm_compute. reflexivity. Qed.
Lemma web_case_exists v program query es r : seen_after v program query es = Some r -> exists b0 b, run_clicked cfg0 v program query = Val (Opened b0) /\ steps cfg0 es b0 = Val b /\
  (b_shown b, b_next b, List.length (b_timers b)) = r.
Proof.
  unfold seen_after. destruct (run_clicked cfg0 v program query) as [[l|b0]|u|]; try discriminate. unfold seen. destruct (steps cfg0 es b0) as [b|u|] eqn:E; try discriminate.
  intros [= <-]. exists b0, b. auto.
Qed.
Lemma web_memory : seen_after v_fails letters "p(X)" [EvNext v_good] = Some (["Memory exhausted."; "false"], false, 0).
Proof. vm_compute. reflexivity. Qed.
Lemma web_first : seen_after v_good letters "p(X)" [] = Some (["[X / a]"], true, 0).
Proof. vm_compute. reflexivity. Qed.
Lemma web_dropped : seen_after v_good letters "p(X). q(Y)" [] = Some (["false"], false, 0).
Proof. vm_compute. reflexivity. Qed.
Lemma web_markup : seen_after v_good letters "p(X).<img src=x onerror=f()>" [] = Some (["false"], false, 0).
Proof. vm_compute. reflexivity. Qed.
Lemma false_refuted : exists v v' program query es b0 b b1,
  run_clicked cfg0 v program query = Val (Opened b0) /\ steps cfg0 es b0 = Val b /\ b_shown b = ["Memory exhausted."; "false"] /\ b_next b = false /\
  run_clicked cfg0 v' program query = Val (Opened b1) /\ b_shown b1 = ["[X / a]"].
Proof.
  destruct (web_case_exists _ _ _ _ _ web_memory) as (b0 & b & R & S & E). destruct (web_case_exists _ _ _ _ _ web_first) as (b1 & b2 & R1 & S1 & E1).
  injection E as E2 E3 _. cbn in S1. injection S1 as ->. injection E1 as E4 _ _.
  exists v_fails, v_good, letters, "p(X)", [EvNext v_good], b0, b, b2. auto 6.
Qed.
Lemma dropped_refuted : exists v program q1 q2 b1 b2, run_clicked cfg0 v program q1 = Val (Opened b1) /\ b_shown b1 = ["[X / a]"] /\
  run_clicked cfg0 v program (q1 ++ ". " ++ q2) = Val (Opened b2) /\ b_shown b2 = ["false"].
Proof.
  destruct (web_case_exists _ _ _ _ _ web_first) as (b1 & b1' & R1 & S1 & E1). destruct (web_case_exists _ _ _ _ _ web_dropped) as (b2 & b2' & R2 & S2 & E2).
  cbn in S1, S2. injection S1 as ->. injection S2 as ->. injection E1 as E1 _ _. injection E2 as E2 _ _. exists v_good, letters, "p(X)", "q(Y)", b1', b2'. auto.
Qed.
Lemma markup_refuted : exists v program query b, run_clicked cfg0 v program query = Val (Opened b) /\ b_head b = "p(X).<img src=x onerror=f()>".
Proof.
  assert (K : match run_clicked cfg0 v_good letters "p(X).<img src=x onerror=f()>" with Val (Opened b) => String.eqb (b_head b) "p(X).<img src=x onerror=f()>" | _ => false end = true) by (vm_compute; reflexivity).
  exists v_good, letters, "p(X).<img src=x onerror=f()>". destruct (run_clicked _ _ _ _) as [[l|b]|u|]; try discriminate K. exists b. split; [reflexivity|]. now apply String.eqb_eq.
Qed.
