(** Properties of program and query texts, of loading and validating, and of append/3. *)
From Verif Require Import Base Machine Heap Compiler Parser Print Organizer Spec Examples Valuation Process Order Atoms Terms Shown Ground Session Search Runs Answers Root Clause Tables
  Witness Append ParserFacts Texts Grammar Roundtrip Loads.
Open Scope string_scope.
Open Scope list_scope.

(** C41. [g_query], [g_clause]: the syntax trees of the grammar; [query_text], [program_text]: their canonical texts. *)
Theorem C41_query_roundtrip q : g_query q = true -> parse_query (query_text q) = Some (COk q).
Proof. exact (query_roundtrip q). Qed.
Print Assumptions C41_query_roundtrip.
Theorem C41_program_roundtrip P : forallb g_clause P = true -> parse_program (program_text P) = Some (COk P).
Proof. exact (program_roundtrip P). Qed.
Print Assumptions C41_program_roundtrip.
(** [g_query] and [g_clause] leave nothing out *)
Theorem C41_all_queries text q : parse_query text = Some (COk q) -> g_query q = true.
Proof. exact (parse_query_g text q). Qed.
Print Assumptions C41_all_queries.
Theorem C41_all_programs text P : parse_program text = Some (COk P) -> forallb g_clause P = true.
Proof. exact (parse_program_g text P). Qed.
Print Assumptions C41_all_programs.

Example C41_hypotheses_met :
  let q := [NFun "p" [NVar "X"; NFun "[" [NInt "-3"; NFun "[" [NCon "a"; NVar "T"]]]; NFun "is" [NVar "Y"; NEv "*" [NEv "-" [NInt "1"; NInt "2"]; NVar "X"]]] in
  g_query q = true /\ query_text q = "p(X,[-3,a|T]),is(Y,((1-2)*X)).".
Proof. split; vm_compute; reflexivity. Qed.
Example C41_program_hypotheses_met :
  let P := [[NFun "p" [NVar "X"; NCon "b"]; NFun "q" [NFun "[" []]; NFun "==" [NVar "X"; NFun "f" [NVar "Z"]]]; [NCon "r"]] in
  forallb g_clause P = true /\ program_text P <> "".
Proof. split; [vm_compute; reflexivity|vm_compute; discriminate]. Qed.

(** the characters of names, numbers and blanks *)
Theorem C41_characters c :
  (is_lower c = true <-> In c (list_ascii_of_string "abcdefghijklmnopqrstuvwxyz")) /\
  (is_upper c = true <-> In c (list_ascii_of_string "ABCDEFGHIJKLMNOPQRSTUVWXYZ")) /\
  (is_digit c = true <-> In c (list_ascii_of_string "0123456789")) /\
  (is_space c = true <-> c = " "%char \/ In (nat_of_ascii c) [9; 10; 11; 12; 13]) /\
  (is_idc c = true <-> is_lower c = true \/ is_upper c = true \/ is_digit c = true \/ c = "_"%char).
Proof. exact (characters c). Qed.
Print Assumptions C41_characters.

(** C42. [gap]: any number of blanks and of comments ended by a newline. The text before the gap consists of clauses. *)
Theorem C42_gaps_ignored cf s g t l o : parse_program s = Some (COk l) -> gap g ->
  load_program cf (String.append s (String.append g t)) o = load_program cf (String.append s t) o.
Proof. intros E G. unfold load_program. now rewrite (gap_ignored s g t l E G). Qed.
Print Assumptions C42_gaps_ignored.

Example C42_hypotheses_met : parse_program "p(a). q(X) :- p(X)." = Some (COk [[NFun "p" [NCon "a"]]; [NFun "q" [NVar "X"]; NFun "p" [NVar "X"]]]) /\
  gap (String " " (String "%" (String.append "r(b). it's" (String "010" "")))).
Proof. split; [vm_compute; reflexivity|]. apply gap_blank; [reflexivity|]. apply gap_comment; [cbn; repeat split; discriminate|constructor]. Qed.

(** C28. [blanks]: only blank characters. *)
Theorem C28_missing_dot cf u c b o : is_space c = false -> c <> "."%char -> blanks b ->
  load_query cf (String.append u (String c b)) o = load_query cf (String.append u (String c (String "." b))) o /\
  validate_query (String.append u (String c b)) = validate_query (String.append u (String c (String "." b))).
Proof. exact (missing_dot cf u c b o). Qed.
Print Assumptions C28_missing_dot.
Theorem C28_left_alone s : blanks s \/ (exists u b, s = String.append u (String "." b) /\ blanks b) -> append_dot s = s.
Proof. exact (dot_left_alone s). Qed.
Print Assumptions C28_left_alone.
Theorem C28_all_texts s : blanks s \/ (exists u b, s = String.append u (String "." b) /\ blanks b) \/
  (exists u c b, s = String.append u (String c b) /\ is_space c = false /\ c <> "."%char /\ blanks b).
Proof. exact (dot_cases s). Qed.
Print Assumptions C28_all_texts.
Theorem C28_twice s : append_dot (append_dot s) = append_dot s.
Proof. exact (append_dot_twice s). Qed.
Print Assumptions C28_twice.

Example C28_hypotheses_met : is_space ")" = false /\ ")"%char <> "."%char /\ blanks "  " /\
  append_dot "p(X)  " = String.append "p(X" (String ")" (String "." "  ")).
Proof. split; [reflexivity|]. split; [discriminate|]. split; [cbn; auto|reflexivity]. Qed.

(** C36. [redef_clause]: the head is append/3 or is/2; [free_expr]: a goal has an expression over a variable that occurs
    neither in the head nor in an earlier goal; [big_literal]: an integer literal out of range. Refuted for queries
    followed by more text, for which neither call reports an error: [C36_trailing_text_refuted]. *)
Theorem C36_program cf text o : ord_ok cf ->
  exists r o', load_program cf text o = Some (r, o') /\
  match validate_program text with
  | Some LOk => exists P, parse_program text = Some (COk P) /\
      match r with
      | LOk => Forall (fun c => redef_clause c = false) P /\ Forall (Forall (fun n => ~ big_literal n)) P
      | LErr CRedef => exists c, In c P /\ redef_clause c = true
      | LErr CNotInst => exists c, In c P /\ free_expr c
      | LErr _ => False
      | LEscape => exists c n, In c P /\ In n c /\ big_literal n
      end
  | Some (LErr e) => e = CParser /\ r = LErr e /\ o' = o
  | _ => False
  end.
Proof. exact (load_program_reasons cf text o). Qed.
Print Assumptions C36_program.
(** [unseen_expr]: a goal has an expression over a variable that occurs in no earlier goal and in no part of the same goal compiled
    before *)
Theorem C36_query_partial cf text o : ord_ok cf ->
  exists r o', load_query cf text o = Some (r, o') /\
  match validate_query text with
  | Some LOk => exists q, parse_query (append_dot text) = Some (COk q) /\
      match r with
      | LOk => ~ unseen_expr q /\ Forall (fun n => ~ big_literal n) q
      | LErr CNotInst => unseen_expr q
      | LErr _ => False
      | LEscape => exists n, In n q /\ big_literal n
      end
  | Some (LErr e) => r = LErr e /\ (e = CParser \/ e = CNone)
  | _ => False
  end.
Proof. exact (load_query_reasons cf text o). Qed.
Print Assumptions C36_query_partial.
Theorem C36_trailing_text_refuted : exists text, validate_query text = Some (LErr CNone) /\ reports_error (LErr CNone) = false /\
  ~ exists q, parse_query (append_dot text) = Some (COk q).
Proof. exact trailing_text_validates. Qed.
Print Assumptions C36_trailing_text_refuted.

Example C36_all_cases :
  map (fun t => (validate_program t, ask 1 t "p(X)")) ["p(X) :- q(X"; "p(a). append(X,Y,Z)."; "p(Y+1) :- q(X), r(Y+1)."; "p(99999999999)."; "p(a)."] =
  [ (Some (LErr CParser), Some (LErr CParser, LOk, [Val RFalse]));
    (Some LOk, Some (LErr CRedef, LOk, [Val RFalse]));
    (Some LOk, Some (LOk, LOk, [Val RFalse]));
    (Some LOk, Some (LEscape, LOk, [Val RFalse]));
    (Some LOk, Some (LOk, LOk, [Val (RAnswer [("X", "a")])])) ].
Proof. vm_compute. reflexivity. Qed.
Example C36_free_expr : option_map (fun x => fst (fst x)) (ask 1 "p(Y) :- q(X), r(Z+1)." "p(X)") = Some (LErr CNotInst).
Proof. vm_compute. reflexivity. Qed.

(** C34. Refuted if "earlier in the same atom" means further left, [C34_textually_earlier_refuted]: structures below the arguments are
    compiled before the arguments, last ones first. What is rejected exactly: *)
Theorem C34_exact cf text o q : ord_ok cf -> parse_query (append_dot text) = Some (COk q) -> Forall (fun n => ~ big_literal n) q ->
  exists r o', load_query cf text o = Some (r, o') /\ (r = LErr CNotInst <-> unseen_expr q) /\
    (r = LErr CNotInst -> forall fuel n w, get_answer cf fuel (S n) w o' = Val (RFalse, o') /\ o_stats o' = 0%Z).
Proof. exact (unseen_exact cf text o q). Qed.
Print Assumptions C34_exact.
(** A variable that occurs in no earlier goal and in its goal only directly in expressions is not seen, so the query is
    rejected; and a query is rejected only for a variable of an expression that is in no earlier goal. *)
Theorem C34_unseen cf text o q1 n q2 v : ord_ok cf -> parse_query (append_dot text) = Some (COk (q1 ++ n :: q2)) ->
  Forall (fun n => ~ big_literal n) (q1 ++ n :: q2) ->
  sub (NVar v) n -> (forall m, sub m n -> In (NVar v) (kids m) -> is_ev m = true) -> (forall m, In m q1 -> ~ sub (NVar v) m) ->
  exists o', load_query cf text o = Some (LErr CNotInst, o') /\ forall fuel n w, get_answer cf fuel (S n) w o' = Val (RFalse, o').
Proof. exact (unseen_rejected cf text o q1 n q2 v). Qed.
Print Assumptions C34_unseen.
Theorem C34_only_unseen cf text o q o' : ord_ok cf -> parse_query (append_dot text) = Some (COk q) ->
  load_query cf text o = Some (LErr CNotInst, o') ->
  exists q1 n q2 e v, q = q1 ++ n :: q2 /\ sub e n /\ is_ev e = true /\ sub (NVar v) e /\ forall m, In m q1 -> ~ sub (NVar v) m.
Proof. exact (rejected_unseen cf text o q o'). Qed.
Print Assumptions C34_only_unseen.
Theorem C34_textually_earlier_refuted :
  (exists text rest, parse_query (append_dot text) = Some (COk [NFun "p" (NEv "+" [NVar "X"; NInt "1"] :: rest)]) /\
    ask 1 "p(2+1,g(f(2)))." text = Some (LOk, LOk, [Val (RAnswer [("X", "2")])])) /\
  (exists text, parse_query (append_dot text) = Some (COk [NFun "p" [NVar "Y"; NFun "f" [NEv "+" [NVar "Y"; NInt "1"]]]]) /\
    ask 1 "p(2,f(2+1))." text = Some (LOk, LErr CNotInst, [Val RFalse])).
Proof. exact earlier_witness. Qed.
Print Assumptions C34_textually_earlier_refuted.

Example C34_hypotheses_met :
  parse_query (append_dot "q(X), p(X, f(Y+1))") = Some (COk ([NFun "q" [NVar "X"]] ++ NFun "p" [NVar "X"; NFun "f" [NEv "+" [NVar "Y"; NInt "1"]]] :: [])) /\
  ask 1 "q(a). p(a,f(2+1))." "q(X), p(X, f(Y+1))" = Some (LOk, LErr CNotInst, [Val RFalse]).
Proof. split; vm_compute; reflexivity. Qed.

(** C22. Later calls after a rejected program: PropIndep.v. *)
Theorem C22_redefinition cf text o P c : ord_ok cf -> parse_program text = Some (COk P) -> In c P -> redef_clause c = true ->
  exists r o', load_program cf text o = Some (r, o') /\ r <> LOk.
Proof. exact (redefinition_rejected cf text o P c). Qed.
Print Assumptions C22_redefinition.
Theorem C22_rejected_partial cf text o r o' : load_program cf text o = Some (r, o') -> r <> LOk ->
  exists s, o' = set_sto o s /\ sto_ext (o_sto o) s.
Proof. exact (load_program_err cf text o r o'). Qed.
Print Assumptions C22_rejected_partial.

Example C22_hypotheses_met : exists P, parse_program "p(a). is(X,Y) :- p(X). q(b)." = Some (COk P) /\ exists c, In c P /\ redef_clause c = true.
Proof. eexists. split; [vm_compute; reflexivity|]. eexists. split; [right; left; reflexivity|reflexivity]. Qed.

(** C21. [prov]: provable from the clauses; [glist]: proper lists; [glist_onto xs t]: the elements [xs] before [t]. *)
Theorem C21_append cf o P s pw xs ys zs : session cf o P s ->
  (prov pw (P ++ append_prog) (GFun "append" [glist xs; glist ys; glist zs]) <-> zs = xs ++ ys).
Proof. exact (append_lists cf o P s pw xs ys zs). Qed.
Print Assumptions C21_append.
Theorem C21_append_any cf o P s pw : session cf o P s ->
  (forall xs y z, prov pw (P ++ append_prog) (GFun "append" [glist xs; y; z]) <-> z = glist_onto xs y) /\
  (forall zs a b, prov pw (P ++ append_prog) (GFun "append" [a; b; glist zs]) <-> exists xs ys, a = glist xs /\ b = glist ys /\ xs ++ ys = zs).
Proof. exact (session_append cf o P s pw). Qed.
Print Assumptions C21_append_any.
(** The trees built by append.cpp ([append_clauses]) are those of this text, and they are free of register clashes ([clause_ok]),
    so that C01 and C02 apply to them without condition. *)
Theorem C21_faithful cf : ord_ok cf ->
  parse_program "append([],List2,List2). append([X|Xs],Ys,[X|Rs]) :- append(Xs,Ys,Rs)." = Some (COk append_clauses) /\
  forall c, In c append_clauses -> clause_ok cf c = true.
Proof. exact (append_faithful cf). Qed.
Print Assumptions C21_faithful.
Theorem C21_answer cf o P xs ys z rs o' b : ord_ok cf ->
  session cf o P (QFresh [NFun "append" [nlist xs; nlist ys; NVar z]]) ->
  small_tables (o_sto o) -> no_clash cf P -> no_cycles cf o -> Forall closed xs -> Forall closed ys ->
  run cf o rs o' -> In (RAnswer b) (delivered rs) ->
  forall v, proper (tm_of (glist (map (inst v) (xs ++ ys)))) = true -> b = [(z, show_ground (glist (map (inst v) (xs ++ ys))))].
Proof. exact (append_answer cf o P xs ys z rs o' b). Qed.
Print Assumptions C21_answer.
