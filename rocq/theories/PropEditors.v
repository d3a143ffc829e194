(** Theorems about the places marked in the editors of the page. *)
From Verif Require Import Base Machine Compiler Print Parser Texts Grammar Organizer Examples Atoms Roundtrip Language Positions Column CompAt ErrPos Finite Loads Web Alert Editors.
Open Scope string_scope.
Open Scope list_scope.

(** C73. The row and the column marked for a syntax error in a program without tabs: the text is some whole lines l, the beginning b of another, and a rest t; what is before t can be
    continued to a program; the mark is at the end of b. Older releases of Boost count one column more in every line but the first. *)
Theorem C73_program_partial cf what program query a : ord_ok cf -> no_tabs program -> (forall P, ~ program_lang P program) -> run_alert cf what program query = Val (Some a) ->
  exists l b t, program = (l +++ b) +++ t /\ whole_lines l /\ no_breaks b /\ (exists P v, program_lang P ((l +++ b) +++ v)) /\
    al_mark a = Some ("program", (Z.of_N (line_of (l +++ b)) - 1)%Z,
      (Z.of_nat (String.length b) + (if sp_old what then match l with EmptyString => 0 | _ => 1 end else 0))%Z).
Proof. exact (program_column cf what program query a). Qed.
Print Assumptions C73_program_partial.
Theorem C73_query_partial cf what program query a : ord_ok cf -> no_tabs (append_dot query) -> (exists P, program_lang P program) -> (forall l, ~ query_lang l (append_dot query)) ->
  al_mark a <> None -> (forall row col, al_mark a <> Some ("program", row, col)) -> run_alert cf what program query = Val (Some a) ->
  exists l b t, append_dot query = (l +++ b) +++ t /\ whole_lines l /\ no_breaks b /\ (exists q v, query_lang q ((l +++ b) +++ v)) /\
    al_mark a = Some ("query", (Z.of_N (line_of (l +++ b)) - 1)%Z,
      (Z.of_nat (String.length b) + (if sp_old what then match l with EmptyString => 0 | _ => 1 end else 0))%Z).
Proof. exact (query_column cf what program query a). Qed.
Print Assumptions C73_query_partial.
Example C73_hypotheses_met : let program := "p." +++ nl +++ "q r." in
  no_tabs program /\ (forall P, ~ program_lang P program) /\ (exists P, program_lang P "p.") /\ no_tabs (append_dot "p(") /\ (forall l, ~ query_lang l (append_dot "p(")) /\
  exists a, run_alert cfg0 spirit0 "p." "p(" = Val (Some a) /\ al_mark a = Some ("query", 0%Z, 2%Z).
Proof. exact column_met. Qed.
Example C73_program_hypotheses_met : forall w, exists a, run_alert cfg0 {| sp_words := w; sp_old := false |} ("p." +++ nl +++ "q r.") "p" = Val (Some a) /\ al_mark a = Some ("program", 1%Z, 2%Z).
Proof. exact new_case. Qed.
(** In full it is false: a tab counts as several columns; the mark is behind the end of this text of five characters; *)
Theorem C73_tab_refuted : exists program, String.length program = 5 /\
  forall what, exists a, run_alert cfg0 what program "p" = Val (Some a) /\ al_mark a = Some ("program", 0%Z, 6%Z).
Proof. exact (ex_intro _ tab_text (conj eq_refl tab_case)). Qed.
Print Assumptions C73_tab_refuted.
(** and with an older release the mark is one column too far. *)
Theorem C73_old_refuted : exists program, forall w, exists a b, run_alert cfg0 {| sp_words := w; sp_old := true |} program "p" = Val (Some a) /\
  run_alert cfg0 {| sp_words := w; sp_old := false |} program "p" = Val (Some b) /\ al_mark a = Some ("program", 1%Z, 3%Z) /\ al_mark b = Some ("program", 1%Z, 2%Z).
Proof.
  exact (ex_intro _ _ (fun w => match old_case w, new_case w with ex_intro _ a (conj A B), ex_intro _ b (conj C D) => ex_intro _ a (ex_intro _ b (conj A (conj C (conj B D)))) end)).
Qed.
Print Assumptions C73_old_refuted.
(** The cursor is always sent to the line before the one marked. *)
Theorem C73_cursor cf what u u' a w row col : run_alert cf what (s_text (u_program u)) (s_text (u_query u)) = Val (Some a) -> al_mark a = Some (w, row, col) ->
  step cf what Run u = Val u' -> s_cursor (at_ed u' (editor_of w)) = Some ((row - 1)%Z, col).
Proof. exact (fun R M E => proj2 (proj2 (proj2 (report_shown cf what u u' a w row col R M E)))). Qed.
Print Assumptions C73_cursor.
Example C73_cursor_hypotheses_met : forall what, exists a col u, run_alert cfg0 what ("p." +++ nl +++ "q r.") "p" = Val (Some a) /\ al_mark a = Some ("program", 1%Z, col) /\
  step cfg0 what Run (fresh_ui ("p." +++ nl +++ "q r.") "p") = Val u /\ s_cursor (u_program u) = Some (0%Z, col).
Proof. exact cursor_case. Qed.

(** C74. [steps cf what evs (fresh_ui p q)]: the page after the events evs (clicks on Run, changes of an editor, clicks on the cross of the alert), at first with the texts p and q.
    A rejected click on Run shows the alert and marks the line and the column, *)
Theorem C74_shown cf what u u' a w row col : run_alert cf what (s_text (u_program u)) (s_text (u_query u)) = Val (Some a) -> al_mark a = Some (w, row, col) ->
  step cf what Run u = Val u' ->
  u_alert u' = Some (al_text a) /\
  exists i j, s_marks (at_ed u' (editor_of w)) = (j, {| m_whole := false; m_row := row; m_col := col |}) :: (i, {| m_whole := true; m_row := row; m_col := col |}) :: s_marks (at_ed u (editor_of w)).
Proof.
  exact (fun R M E => match report_shown cf what u u' a w row col R M E with conj A (conj _ (conj B _)) => conj A (ex_intro _ _ (ex_intro _ _ B)) end).
Qed.
Print Assumptions C74_shown.
(** and if the rejected text is changed next, the alert is hidden and exactly these marks are removed. *)
Theorem C74_removed cf what p q evs u u' a w row col text : steps cf what evs (fresh_ui p q) = Val u ->
  run_alert cf what (s_text (u_program u)) (s_text (u_query u)) = Val (Some a) -> al_mark a = Some (w, row, col) ->
  steps cf what [Run; Edit (editor_of w) text] u = Val u' ->
  u_alert u' = None /\ s_text (at_ed u' (editor_of w)) = text /\ s_marks (u_program u') = s_marks (u_program u) /\ s_marks (u_query u') = s_marks (u_query u).
Proof. exact (fun E => report_edit cf what u u' a w row col text (sane_steps cf what evs _ _ (sane_fresh p q) E)). Qed.
Print Assumptions C74_removed.
(** If every rejected text is changed before the next click on Run ([used u o]; o: where the last error was reported, None once the text there was changed),
    nothing is marked but the place of the last error, and nothing once the text there was changed. *)
Theorem C74_tidy_partial cf what p q u o : used cf what p q u o -> forall e k m, In (k, m) (s_marks (at_ed u e)) -> o = Some (e, m_row m, m_col m).
Proof.
  exact (fun U e k m H => match proj2 (used_tidy cf what p q u o U) e k m H with
    ex_intro _ r (ex_intro _ c (ex_intro _ a (ex_intro _ b (conj E (conj R (conj C _)))))) => eq_trans E (f_equal2 (fun x y => Some (e, x, y)) (eq_sym R) (eq_sym C)) end).
Qed.
Print Assumptions C74_tidy_partial.
Example C74_hypotheses_met : used cfg0 spirit0 "p. q r." "p(" (state_after "p. q r." "p(" [Run; Edit Program "p."; Run]) (Some (Query, 0%Z, 2%Z)).
Proof. exact used_case. Qed.
(** In full it is false: a mark that is there when another error is reported stays for ever, whatever is done, *)
Theorem C74_for_ever cf what p q before u a w row col e i m after u' :
  steps cf what before (fresh_ui p q) = Val u -> In (i, m) (s_marks (at_ed u e)) ->
  run_alert cf what (s_text (u_program u)) (s_text (u_query u)) = Val (Some a) -> al_mark a = Some (w, row, col) ->
  steps cf what (Run :: after) u = Val u' -> In (i, m) (s_marks (at_ed u' e)).
Proof. exact (mark_for_ever cf what p q before u a w row col e i m after u'). Qed.
Print Assumptions C74_for_ever.
(** as after two clicks on Run, though the mistake is corrected and the last click opens a box; *)
Theorem C74_twice_refuted : exists p q t m1 m2, marks_after p q [Run; Run; Edit Program t; Run] = Some ([m1; m2], [], None).
Proof. exact (ex_intro _ _ (ex_intro _ _ (ex_intro _ _ (ex_intro _ _ (ex_intro _ _ twice_case))))). Qed.
Print Assumptions C74_twice_refuted.
(** a change of the program may remove the mark and the alert of a mistake in the query; *)
Theorem C74_elsewhere_refuted : exists p q t t', (exists m1 m2 s, marks_after p q [Run; Edit Program t; Run] = Some ([], [m1; m2], Some s)) /\
  marks_after p q [Run; Edit Program t; Run; Edit Program t'] = Some ([], [], None).
Proof. exact (ex_intro _ _ (ex_intro _ _ (ex_intro _ _ (ex_intro _ _ elsewhere_case)))). Qed.
Print Assumptions C74_elsewhere_refuted.
(** the alert about a number that is too large is still shown after it was corrected and the query run. *)
Theorem C74_lasting_refuted : exists p q t, marks_after p q [Run; Edit Program t; Run] = Some ([], [], Some (al_text escaped)).
Proof. exact (ex_intro _ _ (ex_intro _ _ (ex_intro _ _ lasting_case))). Qed.
Print Assumptions C74_lasting_refuted.
