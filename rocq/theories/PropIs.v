(** The answers to Z is E: property C16. *)
From Verif Require Import Base Machine Heap Compiler Parser Print Organizer Examples Spec Session Runs Builtins Alloc Atoms Clause Answers Append Clash Linear Size IsAnswer.
Open Scope string_scope.
Open Scope list_scope.

(** C16. Every answer to the query [z is e], where [e] has no variables, shows exactly the value of [e] in unbounded integers
    ([pow_of cf]: the value of ^ as computed by powf). *)
Theorem C16_answer cf o P z e rs o' b : ord_ok cf -> session cf o P (QFresh [NFun "is" [NVar z; e]]) ->
  small_tables (o_sto o) -> no_clash cf P -> no_cycles cf o -> closed e -> run cf o rs o' -> In (RAnswer b) (delivered rs) ->
  exists n, b = [(z, string_of_Z n)] /\ forall v, aeval (pow_of cf) (inst v e) = Some n.
Proof. exact (is_answer cf o P z e rs o' b). Qed.
Print Assumptions C16_answer.
Theorem C16_short_texts cf o P z e n rs o' b : ord_ok cf -> typed cf o P (QFresh [NFun "is" [NVar z; e]]) n -> (Z.of_nat n <= 10000)%Z ->
  Forall roomy_clause P -> linear P [NFun "is" [NVar z; e]] -> closed e -> run cf o rs o' -> In (RAnswer b) (delivered rs) ->
  exists k, b = [(z, string_of_Z k)] /\ forall v, aeval (pow_of cf) (inst v e) = Some k.
Proof. exact (is_short cf o P z e n rs o' b). Qed.
Print Assumptions C16_short_texts.
Example C16_short_hypotheses_met : exists o P e rs o', typed cfg0 o P (QFresh [NFun "is" [NVar "Z"; e]]) (String.length is_text + S (String.length "Z is (2+3)*4-100//(1+6)")) /\
  (Z.of_nat (String.length is_text + S (String.length "Z is (2+3)*4-100//(1+6)")) <= 10000)%Z /\
  Forall roomy_clause P /\ linear P [NFun "is" [NVar "Z"; e]] /\ closed e /\ run cfg0 o rs o' /\ In (RAnswer [("Z", "6")]) (delivered rs).
Proof. exact is_case. Qed.
