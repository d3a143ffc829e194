(** Theorems about the texts of answers. *)
From Verif Require Import Base Machine Compiler Print Organizer Examples LockHist AnswerText.
Open Scope string_scope.
Open Scope list_scope.

(** C63: whatever was called before on either of two objects, two results with the same text are the same. *)
Theorem C63_text_determines_answer cf1 cf2 o1 o2 cs1 cs2 r1 r2 n1 n2 a1 a2 : new_org cf1 = Val o1 -> new_org cf2 = Val o2 ->
  In (Val (ReplyAnswer r1 n1)) (play cf1 cs1 o1) -> In (Val (ReplyAnswer r2 n2)) (play cf2 cs2 o2) ->
  answer_of r1 = Some a1 -> answer_of r2 = Some a2 -> answer_str a1 = answer_str a2 -> a1 = a2.
Proof. exact (text_determines cf1 cf2 o1 o2 cs1 cs2 r1 r2 n1 n2 a1 a2). Qed.
Print Assumptions C63_text_determines_answer.

Theorem C63_form a : answer_str a =
  match a with
  | None => "false"
  | Some [] => "true"
  | Some l => String.concat " " (map (fun b => ("[" ++ fst b ++ " / " ++ snd b ++ "]")%string) l)
  end.
Proof. exact (text_form a). Qed.
Print Assumptions C63_form.

(** Names contain no blank and no term contains what separates two bindings, so the text can be cut there. *)
Theorem C63_parts cf o cs b n : new_org cf = Val o -> In (Val (ReplyAnswer (RAnswer b) n)) (play cf cs o) ->
  Forall (fun x => ~ In " "%char (list_ascii_of_string (fst x)) /\ forall s t, snd x <> (s ++ "] [" ++ t)%string) b.
Proof. exact (text_parts cf o cs b n). Qed.
Print Assumptions C63_parts.

Example C63_hypotheses_met : exists o, new_org cfg0 = Val o /\
  texts_of (play cfg0 case_cs o) = ["[C / a] [A / (3 + Y4)] [B / [Y|Z]]"; "[C / [1,2]] [A / (3 + Y4)] [B / [Y|Z]]"; "false"].
Proof. eexists. split; [reflexivity|]. vm_compute. reflexivity. Qed.
