(** The time limit of the interpreters of the page. *)
From Verif Require Import Base Machine Heap Compiler Parser Print Organizer Examples Terminal Limit Web WebCase BoxSize.
Open Scope string_scope.
Open Scope list_scope.

Lemma run_once_lim cf v first b b' : run_once cf v first b = Val b' -> o_limit (b_org b') = o_limit (b_org b).
Proof.
  unfold run_once. destruct (b_alive b); [|intros E; injection E as <-; reflexivity].
  destruct (get_answer cf (v_fuel v) (v_n v) (v_world v) (b_org b)) as [[r o]|u|] eqn:G; try discriminate. cbn [bind]. intros E. injection E as <-.
  rewrite <- (answer_lim _ _ _ _ _ _ _ G). destruct r; try reflexivity. destruct (v_memory v); reflexivity.
Qed.
Lemma step_lim cf e b b' : step cf e b = Val b' -> o_limit (b_org b') = o_limit (b_org b).
Proof.
  destruct e as [i v|v|v|]; cbn [step].
  - destruct (nth_error (b_timers b) i) as [f|]; [|intros E; injection E as <-; reflexivity]. intros E. apply run_once_lim in E. exact E.
  - destruct (b_alive b && b_next b)%bool; [apply run_once_lim|intros E; injection E as <-; reflexivity].
  - destruct (b_alive b && b_tree b)%bool; [apply run_once_lim|intros E; injection E as <-; reflexivity].
  - destruct (b_alive b); intros E; injection E as <-; reflexivity.
Qed.
Lemma steps_lim cf es : forall b b', steps cf es b = Val b' -> o_limit (b_org b') = o_limit (b_org b).
Proof.
  induction es as [|e es IH]; intros b b' E; cbn [steps] in E; [injection E as <-; reflexivity|].
  destruct (step cf e b) as [b1|u|] eqn:S; try discriminate E. cbn [bind] in E. rewrite (IH b1 b' E). exact (step_lim cf e b b1 S).
Qed.
Theorem page_limit cf v program query b0 es b : run_clicked cf v program query = Val (Opened b0) -> steps cf es b0 = Val b -> o_limit (b_org b) = 100000%Z.
Proof.
  unfold run_clicked. intros E S. rewrite (steps_lim cf es b0 b S). clear S.
  destruct (new_org cf) as [o|u|]; try discriminate E. cbn [bind] in E.
  destruct (load_program cf program (set_time_limit 100000 o)) as [[r o1]|] eqn:E1; [|discriminate E]. destruct (reports_error r); [discriminate E|].
  destruct (load_query cf query o1) as [[r2 o2]|] eqn:E2; [|discriminate E]. destruct (reports_error r2); [discriminate E|].
  destruct (run_once cf v true (opened o2 query)) as [b1|u|] eqn:E3; try discriminate E. cbn [bind] in E. injection E as <-.
  rewrite (run_once_lim _ _ _ _ _ E3). cbn [opened b_org]. rewrite (load_query_lim _ _ _ _ _ E2), (load_program_lim _ _ _ _ _ E1). reflexivity.
Qed.
