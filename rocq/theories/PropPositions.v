(** The lines and the texts recorded with clauses, atoms and errors. *)
From Verif Require Import Base Machine Compiler Parser ParserFacts Organizer Examples Grammar Roundtrip Atoms Session Finite Loads Exprs Language Positions CompAt.
Open Scope string_scope.
Open Scope list_scope.

(** C60. [program_at "" P s]: the text s reads as P, where every clause and every atom carries its own text, without blanks around it,
    and the lines on which this text begins and ends ([located]). *)
Theorem C60_program P s : parse_program_at s = Some (COk P) <-> program_at "" P s.
Proof. exact (program_positions P s). Qed.
Print Assumptions C60_program.
Theorem C60_query i l s : parse_query_at s = Some (COk (i, l)) <->
  exists b v b1 b2, s = (b +++ v) +++ b1 +++ "." +++ b2 /\ blank b /\ solid v /\ goals_at "" l (b +++ v) /\ blank b1 /\ blank b2 /\
    i = {| i_begin := unsigned_max; i_end := unsigned_max; i_text := v |}.
Proof. exact (query_positions i l s). Qed.
Print Assumptions C60_query.
Theorem C60_same_program s : parse_program s =
  match parse_program_at s with
  | Some (COk P) => Some (COk (map (fun c => map fst (snd c)) P))
  | Some (CErr e) => Some (CErr e)
  | Some CEsc => Some CEsc
  | None => None
  end.
Proof. exact (program_erased s). Qed.
Print Assumptions C60_same_program.
Theorem C60_same_query s : parse_query s =
  match parse_query_at s with
  | Some (COk l) => Some (COk (map fst (snd l)))
  | Some (CErr e) => Some (CErr e)
  | Some CEsc => Some CEsc
  | None => None
  end.
Proof. exact (query_erased s). Qed.
Print Assumptions C60_same_query.
(** lines count from 1; without carriage returns, one more for every newline before *)
Theorem C60_lines s : no_return s -> line_of s = (1 + newlines s)%N.
Proof. exact (line_newlines s). Qed.
Print Assumptions C60_lines.

Definition nl : string := String "010" "".
Definition two_clauses : string := " p(X) :-" +++ nl +++ "  q(X," +++ nl +++ " a) ,r . % last" +++ nl +++ nl +++ "s.".
Example C60_hypotheses_met :
  parse_program_at two_clauses = Some (COk
    [ ({| i_begin := 1; i_end := 3; i_text := "p(X) :-" +++ nl +++ "  q(X," +++ nl +++ " a) ,r ." |},
       [ (NFun "p" [NVar "X"], {| i_begin := 1; i_end := 1; i_text := "p(X)" |});
         (NFun "q" [NVar "X"; NCon "a"], {| i_begin := 2; i_end := 3; i_text := "q(X," +++ nl +++ " a)" |});
         (NCon "r", {| i_begin := 3; i_end := 3; i_text := "r" |}) ]);
      ({| i_begin := 5; i_end := 5; i_text := "s." |}, [ (NCon "s", {| i_begin := 5; i_end := 5; i_text := "s" |}) ]) ]) /\
  parse_query_at (" q(Y) ,X is" +++ nl +++ "1 .") = Some (COk
    ({| i_begin := unsigned_max; i_end := unsigned_max; i_text := "q(Y) ,X is" +++ nl +++ "1" |},
     [ (NFun "q" [NVar "Y"], {| i_begin := 1; i_end := 1; i_text := "q(Y)" |});
       (NFun "is" [NVar "X"; NInt "1"], {| i_begin := 1; i_end := 2; i_text := "X is" +++ nl +++ "1" |}) ])).
Proof. split; vm_compute; reflexivity. Qed.

(** C61. [compile_clauses_at]: compilation with the positions; [rules_for f q]: the rules stored for f; [stems c r]: the rule r carries the position of
    the clause c, and its atoms those of the atoms of c in order, except for a last atom that stands for no text. *)
Theorem C61_recorded cf s P st q st' : program_at "" P s -> compile_clauses_at cf false P [] st = (AOk q, st') ->
  parse_program s = Some (COk (map (fun c => map fst (snd c)) P)) /\ compile_program cf (map (fun c => map fst (snd c)) P) st = (COk (plain_prog q), st') /\
  forall f, Forall2 stems (filter (head_is f) P) (rules_for f q).
Proof. exact (text_recorded cf s P st q st'). Qed.
Print Assumptions C61_recorded.
(** An error carries the position of a head that redefines a built-in predicate, or of a goal with an expression over a variable that occurs neither
    in the head nor in an earlier goal; no clause before redefines a built-in predicate. *)
Theorem C61_program_error cf s P st e i st' : ord_ok cf -> program_at "" P s -> compile_clauses_at cf false P [] st = (AErr e i, st') ->
  compile_program cf (map (fun c => map fst (snd c)) P) st = (CErr e, st') /\
  exists P1 c P2, P = P1 ++ c :: P2 /\ (forall c0, In c0 P1 -> forall j, ~ redef_at (snd c0) j) /\ ((e = CRedef /\ redef_at (snd c) i) \/ (e = CNotInst /\ free_at (snd c) i)).
Proof. exact (text_culprit cf s P st e i st'). Qed.
Print Assumptions C61_program_error.
Theorem C61_query_error cf q st e i st' : ord_ok cf -> compile_query_at cf q st = (AErr e i, st') ->
  compile_query cf (map fst q) st = (CErr e, st') /\ e = CNotInst /\ culprit (fun _ => False) q i.
Proof. exact (query_culprit cf q st e i st'). Qed.
Print Assumptions C61_query_error.
Theorem C61_same cf cs p s : forget plain_prog (compile_clauses_at cf false cs p s) = compile_clauses cf false (map (fun c => map fst (snd c)) cs) (plain_prog p) s.
Proof. exact (clauses_erased cf false cs p s). Qed.
Print Assumptions C61_same.

Definition located_error (text : string) : option (cerr * N * string) :=
  match parse_program_at text with
  | Some (COk P) => match fst (compile_clauses_at cfg0 false P [] empty_storage) with AErr e i => Some (e, i_begin i, i_text i) | _ => None end
  | _ => None
  end.
Definition located_rules (text : string) (f : fview) : option (list (info * list (node * option info))) :=
  match parse_program_at text with
  | Some (COk P) => match fst (compile_clauses_at cfg0 false P [] empty_storage) with AOk q => Some (map source_of (rules_for f q)) | _ => None end
  | _ => None
  end.
Example C61_hypotheses_met :
  located_error ("p(a)." +++ nl +++ "q :- r," +++ nl +++ " p(X + 1)." +++ nl +++ "append(X,Y,Z).") = Some (CNotInst, 3%N, "p(X + 1)") /\
  located_error ("p(a)." +++ nl +++ "append(X,Y,Z)." +++ nl +++ "q(X + 1) :- r.") = Some (CRedef, 2%N, "append(X,Y,Z)") /\
  located_rules ("p :- q(X)," +++ nl +++ "r(X). s." +++ nl +++ "p.") (FV "p" 0) = Some
    [ ({| i_begin := 1; i_end := 2; i_text := "p :- q(X)," +++ nl +++ "r(X)." |},
       [ (NCon "p", Some {| i_begin := 1; i_end := 1; i_text := "p" |}); (NFun "q" [NVar "X"], Some {| i_begin := 1; i_end := 1; i_text := "q(X)" |});
         (NFun "r" [NVar "X"], Some {| i_begin := 2; i_end := 2; i_text := "r(X)" |}); (NCon "DEALLOCATE", None) ]);
      ({| i_begin := 3; i_end := 3; i_text := "p." |}, [ (NCon "p", Some {| i_begin := 3; i_end := 3; i_text := "p" |}) ]) ] /\
  option_map (fun x => match x with COk (_, q) => match fst (compile_query_at cfg0 q empty_storage) with AErr e i => Some (e, i_begin i, i_text i) | _ => None end | _ => None end)
    (parse_query_at ("p(Y)," +++ nl +++ "q(f(X + Y)) .")) = Some (Some (CNotInst, 2%N, "q(f(X + Y))")).
Proof. repeat split; vm_compute; reflexivity. Qed.
