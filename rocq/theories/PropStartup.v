(** Theorems about the texts saved by the page. *)
From Verif Require Import Base Machine Compiler Parser Texts Grammar Roundtrip Startup.
Open Scope string_scope.
Open Scope list_scope.

(** C75. What is saved in a cookie is read back unchanged, whatever the text. *)
Theorem C75_read_back s : text_of (cookie_text s) = s.
Proof. exact (text_of_cookie s). Qed.
Print Assumptions C75_read_back.
(** A saved text contains no character that would end the value of a cookie: ; , a blank or a quotation mark. *)
Theorem C75_clean s : all_chars (fun c => negb (among c ("; ," +++ String "034" ""))) (cookie_text s) = true.
Proof. exact (stored_clean s). Qed.
Print Assumptions C75_clean.
(** Texts that are not empty and whose cookies have at most 4096 bytes are there when the page is opened again, *)
Theorem C75_saved_partial program query j :
  (N.of_nat (String.length "programcode" + String.length (cookie_text program)) <= 4096)%N -> (N.of_nat (String.length "querycode" + String.length (cookie_text query)) <= 4096)%N ->
  program <> "" -> query <> "" -> opened (autosave program query j) = (program, query).
Proof. exact (saved program query j). Qed.
Print Assumptions C75_saved_partial.
(** in particular all texts up to these lengths; *)
Theorem C75_short_partial program query j : (N.of_nat (String.length program) <= 1361)%N -> (N.of_nat (String.length query) <= 1362)%N -> program <> "" -> query <> "" ->
  opened (autosave program query j) = (program, query).
Proof. exact (fun A B => match short_fits program query A B with conj F G => saved program query j F G end). Qed.
Print Assumptions C75_short_partial.
Example C75_hypotheses_met : let program := "p(a). % %41; x" +++ String "010" ("q :- " +++ String "034" "p.") in
  opened (autosave program "p(X), [Y|Z] == X" {| j_program := None; j_query := None |}) = (program, "p(X), [Y|Z] == X").
Proof. exact saved_case. Qed.
(** In full it is false: an emptied editor is filled with a program, *)
Theorem C75_empty_refuted : forall query j, fst (opened (autosave "" query j)) = "your_program_code_here." /\
  parse_program "your_program_code_here." = Some (COk [[NCon "your_program_code_here"]]).
Proof. exact (fun query j => conj (saved_empty query j) eq_refl). Qed.
Print Assumptions C75_empty_refuted.
(** and a program that is too long is not saved: the one saved before comes back. 1400 characters can be too long. *)
Theorem C75_long_refuted : exists program, (N.of_nat (String.length program) < 1400)%N /\
  forall old query query' j, (N.of_nat (String.length old) <= 1361)%N -> old <> "" -> fst (opened (autosave program query' (autosave old query j))) = old.
Proof.
  exact (match long_case with ex_intro _ p (conj L F) => ex_intro _ p (conj L (fun old query query' j A N =>
    saved_long old query p query' j (proj1 (short_fits old "" A (N.le_0_l _))) N F)) end).
Qed.
Print Assumptions C75_long_refuted.
