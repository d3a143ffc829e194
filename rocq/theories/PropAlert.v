(** Theorems about what the page tells when a program or a query is rejected. *)
From Verif Require Import Base Machine Compiler Print Parser Texts Grammar Organizer Examples Atoms Roundtrip Language Positions Column CompAt ErrPos Finite Loads Web Alert.
Open Scope string_scope.
Open Scope list_scope.

(** C71. [run_alert cf what program query]: the alert shown after a click on Run, if any; [what]: the words Spirit finds for what it expected, and its release.
    There is one exactly if no result box is opened. *)
Theorem C71_alert_or_box cf what v program query : ord_ok cf ->
  match run_clicked cf v program query with
  | Val (Alerted _) => exists a, run_alert cf what program query = Val (Some a)
  | Val (Opened _) => run_alert cf what program query = Val None
  | _ => True
  end.
Proof. exact (alert_or_box cf what v program query). Qed.
Print Assumptions C71_alert_or_box.

(** It names the reason and the line: of a place up to which the text could be continued to a program or a query; of a head that redefines append or is,
    the first such head of the text; of a goal with an expression over a variable that is not known there. Otherwise a number is too large. *)
Theorem C71_reason_partial cf what program query a : ord_ok cf -> run_alert cf what program query = Val (Some a) ->
  ((exists u t, program = u +++ t /\ (exists P v, program_lang P (u +++ v)) /\ (forall P, ~ program_lang P program) /\
     a = {| al_text := "Syntax error in program line " +++ string_of_Z (Z.of_N (line_of u)) +++ ". Expected: " +++ sp_words what t;
            al_mark := Some ("program", (Z.of_N (line_of u) - 1)%Z, (Z.of_N (get_column (sp_old what) u) - 1)%Z) |}) \/
   (exists P1 c P2 h i b, program_at "" (P1 ++ c :: P2) program /\ snd c = (h, i) :: b /\ redefines h = true /\ (forall c0, In c0 P1 -> forall j, ~ redef_at (snd c0) j) /\
     a = {| al_text := "Compiler error in program line " +++ string_of_Z (Z.of_N (i_begin i)) +++ ". Redefinition of built in predicate " +++ node_name h +++ " is prohibited.";
            al_mark := Some ("program", (Z.of_N (i_begin i) - 1)%Z, (-1)%Z) |}) \/
   (exists P1 c P2 i, program_at "" (P1 ++ c :: P2) program /\ free_at (snd c) i /\
     a = {| al_text := "Compiler error in program line " +++ string_of_Z (Z.of_N (i_begin i)) +++ ". Any variable inside an expression must be defined before.";
            al_mark := Some ("program", (Z.of_N (i_begin i) - 1)%Z, 2147483646%Z) |}) \/
   (exists P c n, parse_program program = Some (COk P) /\ In c P /\ In n c /\ big_literal n /\ a = escaped)) \/
  (exists P, parse_program program = Some (COk P)) /\
  ((exists u t, append_dot query = u +++ t /\ (exists l v, query_lang l (u +++ v)) /\ (forall l, ~ query_lang l (append_dot query)) /\
     a = {| al_text := "Syntax error in query line " +++ string_of_Z (Z.of_N (line_of u)) +++ ". Expected: " +++ sp_words what t;
            al_mark := Some ("query", (Z.of_N (line_of u) - 1)%Z, (Z.of_N (get_column (sp_old what) u) - 1)%Z) |}) \/
   (exists j l i, parse_query_at (append_dot query) = Some (COk (j, l)) /\ culprit (fun _ => False) l i /\
     a = {| al_text := "Compiler error in query line " +++ string_of_Z (Z.of_N (i_begin i)) +++ ". Any variable inside an expression must be defined before.";
            al_mark := Some ("query", (Z.of_N (i_begin i) - 1)%Z, 2147483646%Z) |}) \/
   (exists l n, parse_query (append_dot query) = Some (COk l) /\ In n l /\ big_literal n /\ a = escaped)).
Proof. exact (alert_says cf what program query a). Qed.
Print Assumptions C71_reason_partial.

(** Without an alert the program was accepted, and the query too, or it has text behind its dot. *)
Theorem C71_silence_partial cf what program query : ord_ok cf -> run_alert cf what program query = Val None ->
  (exists P, parse_program program = Some (COk P)) /\
  ((exists l, parse_query (append_dot query) = Some (COk l)) \/ parse_query (append_dot query) = Some (CErr CNone)).
Proof. exact (alert_missing cf what program query). Qed.
Print Assumptions C71_silence_partial.

Example C71_hypotheses_met :
  said ("p." +++ nl +++ "append(X,Y,Z).") "p" = Some ("Compiler error in program line 2. Redefinition of built in predicate append is prohibited.", Some ("program", 1%Z, (-1)%Z)) /\
  said ("p." +++ nl +++ " q :- " +++ nl +++ " r(X+1).") "p" = Some ("Compiler error in program line 3. Any variable inside an expression must be defined before.", Some ("program", 2%Z, 2147483646%Z)) /\
  said "p. q r." "p" = Some ("Syntax error in program line 1. Expected: <...>", Some ("program", 0%Z, 5%Z)) /\
  said "p." ("p," +++ nl +++ " Y is X+1") = Some ("Compiler error in query line 2. Any variable inside an expression must be defined before.", Some ("query", 1%Z, 2147483646%Z)) /\
  said "p." "p(" = Some ("Syntax error in query line 1. Expected: <...>", Some ("query", 0%Z, 2%Z)) /\
  said "p." "p" = None.
Proof. exact said_cases. Qed.

(** In full it is false. A query with text behind its dot is no query, and nothing is said; *)
Theorem C71_silent_refuted : exists program query, (forall what, run_alert cfg0 what program query = Val None) /\ forall l, ~ query_lang l (append_dot query).
Proof. exact (ex_intro _ _ (ex_intro _ _ (conj (fun what => proj1 (silent_case what)) (proj2 (silent_case {| sp_words := fun s => s; sp_old := false |}))))). Qed.
Print Assumptions C71_silent_refuted.
(** a number that is too large is taken for a lack of memory; *)
Theorem C71_memory_refuted : exists program query, forall what, run_alert cfg0 what program query = Val (Some escaped).
Proof. exact (ex_intro _ _ (ex_intro _ _ escaped_case)). Qed.
Print Assumptions C71_memory_refuted.
(** and the column marked for an error of the compiler is not one of the text. *)
Theorem C71_column_refuted : forall what, exists program a, run_alert cfg0 what program "p" = Val (Some a) /\ String.length program < 20 /\
  al_mark a = Some ("program", 0%Z, 2147483646%Z).
Proof. exact column_case. Qed.
Print Assumptions C71_column_refuted.
