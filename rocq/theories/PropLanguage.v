(** The language of the texts that are accepted. *)
From Verif Require Import Base Machine Compiler Parser ParserFacts Texts Grammar Roundtrip Exprs Language.
Open Scope string_scope.
Open Scope list_scope.

(** C59. [program_lang P s]: the text s stands for the clauses P; [query_lang]: for a query. *)
Theorem C59_program P s : parse_program s = Some (COk P) <-> program_lang P s.
Proof. exact (program_exact P s). Qed.
Print Assumptions C59_program.
Theorem C59_query q s : parse_query s = Some (COk q) <-> query_lang q s.
Proof. exact (query_exact q s). Qed.
Print Assumptions C59_query.
Theorem C59_program_unique P Q s : program_lang P s -> program_lang Q s -> P = Q.
Proof. exact (program_lang_unique P Q s). Qed.
Print Assumptions C59_program_unique.
Theorem C59_query_unique P Q s : query_lang P s -> query_lang Q s -> P = Q.
Proof. exact (query_lang_unique P Q s). Qed.
Print Assumptions C59_query_unique.
Theorem C59_rejected s : (exists e, parse_program s = Some (CErr e)) <-> ~ exists P, program_lang P s.
Proof. exact (program_rejected s). Qed.
Print Assumptions C59_rejected.

(** each of the forms, with blanks in unusual places *)
Example C59_hypotheses_met :
  program_lang [[NFun "p" [list_node [NInt "1"; NVar "X"] (NVar "Y")]; NFun "is" [NEv "+" [NInt "2"; NInt "3"]; NVar "Z"]; NFun "\==" [NCon "a"; NVar "X"]]; [NCon "q"]]
    ("p([1 ,X| Y ] ):-" +++ " 2+3is Z,a\== X." +++ "% note" +++ String "010" "q .") /\
  ~ (exists P, program_lang P "p (a).") /\ query_lang [NFun "is" [NInt "1"; NInt "1"]] "1is 1 . " /\ ~ (exists q, query_lang q "Xis 1.").
Proof.
  split; [apply C59_program; vm_compute; reflexivity|]. split; [intros (P & H); apply C59_program in H; vm_compute in H; discriminate H|].
  split; [apply C59_query; vm_compute; reflexivity|]. intros (q & H). apply C59_query in H. vm_compute in H. discriminate H.
Qed.
