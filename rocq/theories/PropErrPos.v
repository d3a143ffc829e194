(** Where syntax errors are reported. *)
From Verif Require Import Base Machine Compiler Parser ParserFacts Texts Grammar Roundtrip Exprs Language Positions ErrPos.
Open Scope string_scope.
Open Scope list_scope.

(** C62. [Stopped t]: a syntax error is reported at the position after which the text t remains; [Unset]: parsing fails and no error is filled in.
    The text before the position reported can be continued to a program. *)
Theorem C62_program_partial s t : parse_program_x s = Some (Stopped t) -> exists u, s = u +++ t /\ error_line s t = line_of u /\ exists P v, program_lang P (u +++ v).
Proof. exact (program_stopped s t). Qed.
Print Assumptions C62_program_partial.
Theorem C62_query_partial s t : parse_query_x s = Some (Stopped t) -> exists u, s = u +++ t /\ error_line s t = line_of u /\ exists l v, query_lang l (u +++ v).
Proof. exact (query_stopped s t). Qed.
Print Assumptions C62_query_partial.
(** so if the mistake is in the text x already, the position is inside of x *)
Theorem C62_not_late_partial s t x y : parse_program_x s = Some (Stopped t) -> s = x +++ y -> ~ (exists P v, program_lang P (x +++ v)) -> exists u, s = u +++ t /\ slen u < slen x.
Proof. exact (not_reported_late s t x y). Qed.
Print Assumptions C62_not_late_partial.
Theorem C62_same_program s : parse_program s =
  match parse_program_x s with
  | Some (Read P) => Some (COk P)
  | Some (Stopped _) | Some Unset => Some (CErr CParser)
  | None => None
  end.
Proof. exact (program_plain s). Qed.
Print Assumptions C62_same_program.
Theorem C62_same_query s : parse_query s =
  match parse_query_x s with
  | Some (Read q) => Some (COk q)
  | Some (Stopped _) => Some (CErr CParser)
  | Some Unset => Some (CErr CNone)
  | None => None
  end.
Proof. exact (query_plain s). Qed.
Print Assumptions C62_same_query.
Theorem C62_program_filled s : parse_program_x s <> Some Unset.
Proof. exact (program_never_unset s). Qed.
Print Assumptions C62_program_filled.

Definition lf : string := String "010" "".
Definition spot {A} (s : string) (r : option (parsed A)) : option (N * string) :=
  match r with Some (Stopped t) => Some (error_line s t, t) | _ => None end.
Definition bad_arg : string := "p(a)." +++ lf +++ "q(X) :- r(X,f( ))," +++ lf +++ "s.".
Definition no_dot : string := "p(a)." +++ lf +++ "q(X) " +++ lf +++ "r.".
Definition bad_sum : string := "p :- X is (1 + 2" +++ lf +++ " .".
Definition bad_query : string := "p(X)," +++ lf +++ "q(X,Y" +++ lf +++ ".".
Example C62_hypotheses_met :
  spot bad_arg (parse_program_x bad_arg) = Some (2%N, " ))," +++ lf +++ "s.") /\
  spot no_dot (parse_program_x no_dot) = Some (3%N, "r.") /\
  spot bad_sum (parse_program_x bad_sum) = Some (2%N, ".") /\
  spot bad_query (parse_query_x bad_query) = Some (3%N, ".").
Proof. repeat split; vm_compute; reflexivity. Qed.

(** The line reported is not always that of the mistake: in [early_text] the comma on line 2 is named, though the text up to line 3 can be continued. *)
Theorem C62_line_refuted : exists s t u x y, parse_program_x s = Some (Stopped t) /\ s = u +++ t /\ t = x +++ y /\ (line_of u < line_of (u +++ x))%N /\
  exists P v, program_lang P (u +++ x +++ v).
Proof. exact early_reported. Qed.
Print Assumptions C62_line_refuted.
(** A query with text behind its dot fails without a position. *)
Theorem C62_unset_refuted : exists s, parse_query_x s = Some Unset.
Proof. exact unset_query. Qed.
Print Assumptions C62_unset_refuted.
