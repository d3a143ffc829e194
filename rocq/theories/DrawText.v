(** The texts of answers in the picture, and the texts shown with positions. *)
From Verif Require Import Base Machine Compiler Print Organizer Tree Draw DrawFacts Parser Session Positions CompAt LockHist Shown AnswerText OrgAt TipAt.
Open Scope string_scope.
Open Scope list_scope.

Lemma final_answer x b : final_str (x :: b) = (answer_str (Some (x :: b)) ++ " ")%string.
Proof.
  cbn [answer_str]. unfold final_str. revert x. induction b as [|y b IH]; intros x; [reflexivity|].
  change (bindings_str (x :: y :: b)) with (binding_str x +++ " " +++ bindings_str (y :: b)).
  cbn [fold_right] in *. rewrite IH. now rewrite !append_assoc.
Qed.
Lemma label_form b : answer_label (RAnswer b) =
  match b with [] => "true" | _ => String.concat "" (map (fun x => ("[" ++ fst x ++ " / " ++ snd x ++ "] ")%string) b) end.
Proof.
  unfold answer_label, final_str. destruct b as [|x b]; [reflexivity|]. revert x. induction b as [|y b IH]; intros x.
  - unfold binding_str. cbn [map fold_right String.concat fst snd]. rewrite !append_assoc. reflexivity.
  - change (String.concat "" (map (fun z : string * string => ("[" ++ fst z ++ " / " ++ snd z ++ "] ")%string) (x :: y :: b)))
      with (("[" ++ fst x ++ " / " ++ snd x ++ "] ") ++ "" ++ String.concat "" (map (fun z : string * string => ("[" ++ fst z ++ " / " ++ snd z ++ "] ")%string) (y :: b)))%string.
    rewrite <- IH. cbn [fold_right]. unfold binding_str. rewrite !append_assoc. reflexivity.
Qed.
Lemma app_last_inj (a b : string) : (a ++ " ")%string = (b ++ " ")%string -> a = b.
Proof.
  revert b. induction a as [|x a IH]; intros [|y b] E; cbn in E.
  - reflexivity.
  - injection E as -> E. destruct b; discriminate E.
  - injection E as -> E. destruct a; discriminate E.
  - injection E as -> E. f_equal. now apply IH.
Qed.
Lemma final_inj b1 b2 : Forall bound_ok b1 -> Forall bound_ok b2 -> final_str b1 = final_str b2 -> b1 = b2.
Proof.
  intros F1 F2 E. assert (K : forall x l, final_str (x :: l) <> "true").
  { intros x l. rewrite final_answer. cbn [answer_str]. destruct (bindings_cons x l) as (r & _ & -> & _). discriminate. }
  destruct b1 as [|x1 l1], b2 as [|x2 l2].
  - reflexivity.
  - exfalso. exact (K x2 l2 (eq_sym E)).
  - exfalso. exact (K x1 l1 E).
  - rewrite !final_answer in E. apply app_last_inj in E. now apply bindings_inj.
Qed.
Theorem label_determines cf1 cf2 o1 o2 cs1 cs2 b1 b2 n1 n2 : new_org cf1 = Val o1 -> new_org cf2 = Val o2 ->
  In (Val (ReplyAnswer (RAnswer b1) n1)) (play cf1 cs1 o1) -> In (Val (ReplyAnswer (RAnswer b2) n2)) (play cf2 cs2 o2) ->
  answer_label (RAnswer b1) = answer_label (RAnswer b2) -> b1 = b2.
Proof.
  intros N1 N2 H1 H2. apply (play_words _ _ _ _ (new_words _ _ N1)) in H1. apply (play_words _ _ _ _ (new_words _ _ N2)) in H2. now apply final_inj.
Qed.

(** --- texts shown with positions --- *)
Lemma tip_form i : tip i = (if (i_begin i =? 1696969)%N then "built-in predicate: " ++ i_text i else "Line " ++ string_of_Z (Z.of_N (i_begin i)) ++ ": " ++ i_text i)%string.
Proof. unfold tip, line_text, built_in_line. destruct (i_begin i =? 1696969)%N; [reflexivity|]. now rewrite append_assoc. Qed.
Definition tips_of (c : list pgoal) : list string := map (fun g => tip (snd g)) c.
Lemma built_in_tips P :
  map tips_of (clauses_at P (FV "is" 2)) = [["built-in predicate: Lhs is Rhs"]] /\
  map tips_of (clauses_at P (FV "==" 2)) = [["built-in predicate: Lhs == Rhs"]] /\
  map tips_of (clauses_at P (FV "\==" 2)) = [["built-in predicate: Lhs \== Rhs"]] /\
  map tips_of (clauses_at P (FV "append" 3)) = [["built-in predicate: append([], List2, List2)"];
    ["built-in predicate: append([X | Xs], Ys, [X | Rs])"; "built-in predicate: append(Xs, Ys, Rs)"]].
Proof. repeat split. Qed.
