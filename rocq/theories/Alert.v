(** What the page tells about a program or a query that is rejected. *)
From Verif Require Import Base Machine Compiler Print Parser ParserFacts Texts Grammar Organizer Examples Atoms Roundtrip Exprs Language Positions Column CompAt ErrPos OrgAt Terminal Web Finite Loads Session.
Open Scope string_scope.
Open Scope list_scope.

(** compiler_error.h 13-48: [er_syntax] is is_parser_error; rows and columns fit into 32 bits. *)
Record error := { er_syntax : bool; er_row : N; er_col : Z; er_cause : string }.
(** Boost.Spirit: the words it makes of what was expected where this text remains, and whether it is one of the older releases (Column.v) *)
Record spirit := { sp_words : string -> string; sp_old : bool }.
(** undefined_var.cpp 18-22, redefinition_of_built_in_pred.cpp 11-16; [n]: the name of the head *)
Definition cause (e : cerr) (n : string) : string :=
  match e with
  | CNotInst => "Any variable inside an expression must be defined before."
  | CRedef => "Redefinition of built in predicate " +++ n +++ " is prohibited."
  | _ => ""
  end.
(** the same places and compiler_error.h 23 *)
Definition column (e : cerr) : Z := match e with CRedef => 0 | _ => 2147483647 end.
(** the name of the head of the clause that could not be compiled (compiler.cpp 467-484) *)
Fixpoint rejected_head (cf : cfg) (cs : list (info * list (node * info))) (s : storage) : string :=
  match cs with
  | [] => ""
  | (_, c) :: cs' =>
      match compile_program_term_at cf false c s with
      | (AOk _, s') => rejected_head cf cs' s'
      | _ => match c with (h, _) :: _ => node_name h | [] => "" end
      end
  end.
Definition compiler_error (e : cerr) (i : info) (n : string) : error :=
  {| er_syntax := false; er_row := i_begin i; er_col := column e; er_cause := cause e n |}.
(** error_handler.h 24-32; base_grammar.h 163-172, program_grammar.h 54, query_grammar.h 36: begin is the beginning of the text *)
Definition syntax_error (what : spirit) (s t : string) : error :=
  {| er_syntax := true; er_row := error_line s t; er_col := Z.of_N (get_column (sp_old what) (before s t)); er_cause := sp_words what t |}.

(** Alert.js 9-13, SyntaxError.js 12-46: the text, in which editor a place is marked, its line and column (from 0) *)
Record alert := { al_text : string; al_mark : option (string * Z * Z) }.
(** InterpreterHandler.js 48-57, 62-71; [w]: "program" or "query" *)
Definition show (w : string) (e : error) : alert :=
  {| al_text := if er_syntax e then "Syntax error in " +++ w +++ " line " +++ string_of_Z (Z.of_N (er_row e)) +++ ". Expected: " +++ er_cause e
                else "Compiler error in " +++ w +++ " line " +++ string_of_Z (Z.of_N (er_row e)) +++ ". " +++ er_cause e;
     al_mark := Some (w, (Z.of_N (er_row e) - 1)%Z, (er_col e - 1)%Z) |}.
(** main.js 71 *)
Definition escaped : alert :=
  {| al_text := "Error getting result. Probably ran out of memory (infinite loop?). Please close some answers (gray boxes) using the X on the top right to free up memory.";
     al_mark := None |}.

(** bfs_organizer.cpp 20-47 with InterpreterHandler.js 47-58: the alert, or the object after loading *)
Inductive told := Told (a : alert) | Loaded (o : org_at).
Definition tell_program (cf : cfg) (what : spirit) (text : string) (o : org_at) : option told :=
  match parse_program_x text, parse_program_at text with
  | Some (Stopped t), _ => Some (Told (show "program" (syntax_error what text t)))
  | Some (Read _), Some (COk cs) =>
      match load_program_at cf text o with
      | Some ((LErr e, Some i), _) => Some (Told (show "program" (compiler_error e i (rejected_head cf cs (a_sto o)))))
      | Some ((LEscape, _), _) => Some (Told escaped)
      | Some ((LOk, _), o') => Some (Loaded o')
      | _ => None
      end
  | _, _ => None
  end.
(** bfs_organizer.cpp 109-134 with InterpreterHandler.js 61-72 *)
Definition tell_query (cf : cfg) (what : spirit) (text : string) (o : org_at) : option told :=
  match parse_query_x (append_dot text), load_query_at cf text o with
  | Some (Stopped t), _ => Some (Told (show "query" (syntax_error what (append_dot text) t)))
  (* exists() is false *)
  | Some Unset, Some (_, o') => Some (Loaded o')
  | Some (Read _), Some ((LErr e, Some i), _) => Some (Told (show "query" (compiler_error e i "")))
  | Some (Read _), Some ((LEscape, _), _) => Some (Told escaped)
  | Some (Read _), Some ((LOk, _), o') => Some (Loaded o')
  | _, _ => None
  end.
(** InterpreterHandler.js 15-27, 43-72, main.js 58-73 *)
Definition run_alert (cf : cfg) (what : spirit) (program query : string) : out (option alert) :=
  o <- new_at cf ;;
  match tell_program cf what program (set_limit_at 100000 o) with
  | None => Fuel
  | Some (Told a) => Val (Some a)
  | Some (Loaded o1) =>
      match tell_query cf what query o1 with
      | None => Fuel
      | Some (Told a) => Val (Some a)
      | Some (Loaded _) => Val None
      end
  end.

(** --- there is an alert exactly if no box is opened --- *)
Definition agrees (r : option (load_res * org)) (t : option told) : Prop :=
  match r with
  | None => t = None
  | Some (r, o) => if reports_error r then exists a, t = Some (Told a) else exists o', t = Some (Loaded o') /\ plain o' = o
  end.
Lemma clauses_kind cf cs s e i s' : ord_ok cf -> compile_clauses_at cf false cs [] s = (AErr e i, s') -> e = CRedef \/ e = CNotInst.
Proof. intros O E. destruct (clauses_culprit cf cs O [] s e i s' E) as (cs1 & c & cs2 & _ & _ & [[-> _]|[-> _]]); auto. Qed.
Lemma tell_program_agrees cf what text o : ord_ok cf -> agrees (load_program cf text (plain o)) (tell_program cf what text o).
Proof.
  intros O. rewrite load_program_plain. unfold tell_program, load_program_at. pose proof (program_plain text) as X. rewrite program_erased in X. pose proof (program_never_unset text) as U.
  destruct (parse_program_x text) as [[P|t|]|]; [| |now elim U|]; destruct (parse_program_at text) as [[cs|e|]|]; try discriminate X; cbn [option_map agrees fst snd].
  - destruct (compile_clauses_at cf false cs [] (a_sto o)) as [[p|e i|] s] eqn:E; cbn [option_map agrees fst snd reports_error].
    + eexists. split; reflexivity.
    + destruct (clauses_kind cf cs _ e i s O E) as [-> | ->]; eexists; reflexivity.
    + eexists. reflexivity.
  - injection X as ->. eexists. reflexivity.
  - reflexivity.
Qed.
Lemma tell_query_agrees cf what text o : ord_ok cf -> agrees (load_query cf text (plain o)) (tell_query cf what text o).
Proof.
  intros O. rewrite load_query_plain. unfold tell_query, load_query_at. pose proof (query_plain (append_dot text)) as X. rewrite query_erased in X.
  destruct (parse_query_x (append_dot text)) as [[P|t|]|]; destruct (parse_query_at (append_dot text)) as [[q|e|]|]; try discriminate X; cbn [option_map agrees fst snd].
  - destruct (compile_query_at cf (snd q) (a_sto o)) as [[p|e i|] s] eqn:E; cbn [option_map agrees fst snd reports_error].
    + eexists. split; reflexivity.
    + destruct (compile_query_culprit cf (snd q) _ e i s O E) as [-> _]. eexists. reflexivity.
    + eexists. reflexivity.
  - injection X as ->. eexists. reflexivity.
  - injection X as ->. eexists. split; reflexivity.
  - reflexivity.
Qed.
Theorem alert_or_box cf what v program query : ord_ok cf ->
  match run_clicked cf v program query with
  | Val (Alerted _) => exists a, run_alert cf what program query = Val (Some a)
  | Val (Opened _) => run_alert cf what program query = Val None
  | _ => True
  end.
Proof.
  intros O. unfold run_clicked, run_alert. rewrite new_plain. destruct (new_at cf) as [o| |]; cbn [omap bind]; try exact I.
  change (set_time_limit 100000 (plain o)) with (plain (set_limit_at 100000 o)). pose proof (tell_program_agrees cf what program (set_limit_at 100000 o) O) as A. unfold agrees in A.
  destruct (load_program cf program (plain (set_limit_at 100000 o))) as [[r o1]|]; [|exact I].
  destruct (reports_error r); [destruct A as [a ->]; eauto|]. destruct A as (o1' & -> & <-).
  pose proof (tell_query_agrees cf what query o1' O) as B. unfold agrees in B. destruct (load_query cf query (plain o1')) as [[r2 o2]|]; [|exact I].
  destruct (reports_error r2); [destruct B as [a ->]; eauto|]. destruct B as (o2' & -> & <-).
  destruct (run_once cf v true (opened (plain o2') query)); exact eq_refl || exact I.
Qed.

(** --- what the alerts say --- *)
Definition line_no (n : N) : string := string_of_Z (Z.of_N n).
Lemma rejected_redef cf cs : ord_ok cf -> forall p s i s', compile_clauses_at cf false cs p s = (AErr CRedef i, s') ->
  exists cs1 c cs2 h b, cs = cs1 ++ c :: cs2 /\ snd c = (h, i) :: b /\ redefines h = true /\ (forall c0, In c0 cs1 -> forall j, ~ redef_at (snd c0) j) /\ rejected_head cf cs s = node_name h.
Proof.
  intros O. induction cs as [|[j c] cs IH]; intros p s i s' E; [discriminate E|]. cbn [compile_clauses_at] in E. unfold abind in E. cbn [rejected_head].
  destruct (compile_program_term_at cf false c s) as [[[f r]|e1 k|] s1] eqn:E1; try discriminate E.
  - destruct (IH _ _ _ _ E) as (cs1 & c0 & cs2 & h & b & -> & H1 & H2 & F & K). exists ((j, c) :: cs1), c0, cs2, h, b. split; [reflexivity|]. do 2 (split; [assumption|]). split; [|exact K].
    intros x [<-|Hx]; [|exact (F x Hx)]. cbn [snd]. intros l (h' & b' & -> & R). cbn [compile_program_term_at negb andb] in E1. rewrite R in E1. discriminate E1.
  - injection E as -> <- _. destruct (clause_culprit cf false c s CRedef k s1 O E1) as [(_ & _ & h & b & -> & R)|[K _]]; [|discriminate K].
    exists [], (j, (h, k) :: b), cs, h, b. split; [reflexivity|]. split; [reflexivity|]. split; [exact R|]. split; [intros x []|reflexivity].
Qed.
Definition program_says (what : spirit) (text : string) (a : alert) : Prop :=
  (exists u t, text = u +++ t /\ (exists P v, program_lang P (u +++ v)) /\ (forall P, ~ program_lang P text) /\
     a = {| al_text := "Syntax error in program line " +++ line_no (line_of u) +++ ". Expected: " +++ sp_words what t; al_mark := Some ("program", (Z.of_N (line_of u) - 1)%Z, (Z.of_N (get_column (sp_old what) u) - 1)%Z) |}) \/
  (exists P1 c P2 h i b, program_at "" (P1 ++ c :: P2) text /\ snd c = (h, i) :: b /\ redefines h = true /\ (forall c0, In c0 P1 -> forall j, ~ redef_at (snd c0) j) /\
     a = {| al_text := "Compiler error in program line " +++ line_no (i_begin i) +++ ". Redefinition of built in predicate " +++ node_name h +++ " is prohibited.";
            al_mark := Some ("program", (Z.of_N (i_begin i) - 1)%Z, (-1)%Z) |}) \/
  (exists P1 c P2 i, program_at "" (P1 ++ c :: P2) text /\ free_at (snd c) i /\
     a = {| al_text := "Compiler error in program line " +++ line_no (i_begin i) +++ ". Any variable inside an expression must be defined before.";
            al_mark := Some ("program", (Z.of_N (i_begin i) - 1)%Z, 2147483646%Z) |}) \/
  (exists P c n, parse_program text = Some (COk P) /\ In c P /\ In n c /\ big_literal n /\ a = escaped).
Lemma program_told cf what text o a : ord_ok cf -> tell_program cf what text o = Some (Told a) -> program_says what text a.
Proof.
  intros O E. unfold tell_program in E. pose proof (program_plain text) as X. destruct (parse_program_x text) as [[P|t|]|] eqn:Ex; try discriminate E.
  - destruct (parse_program_at text) as [[cs|e|]|] eqn:Ea; try discriminate E. assert (A : program_at "" cs text) by now apply program_positions.
    pose proof (load_program_plain cf text o) as L. unfold load_program_at in E, L. rewrite Ea in E, L.
    destruct (compile_clauses_at cf false cs [] (a_sto o)) as [[p|e i|] s] eqn:Ec; cbn [option_map fst snd] in L; try discriminate E.
    + injection E as <-. destruct (clauses_kind cf cs _ e i s O Ec) as [-> | ->].
      * right. left. destruct (rejected_redef cf cs O _ _ _ _ Ec) as (P1 & c & P2 & h & b & Hcs & H1 & H2 & H3 & ->). exists P1, c, P2, h, i, b. rewrite <- Hcs. repeat (split; [assumption|]). reflexivity.
      * right. right. left. destruct (clauses_culprit cf cs O [] _ _ i s Ec) as (P1 & c & P2 & Hcs & _ & [[K _]|[_ K]]); [discriminate K|]. exists P1, c, P2, i. rewrite <- Hcs. repeat (split; [assumption|]). reflexivity.
    + injection E as <-. right. right. right. destruct (load_program_reasons cf text (plain o) O) as (r & o' & L' & K). rewrite L in L'. injection L' as <- _.
      unfold validate_program in K. rewrite X in K. destruct K as (P' & EP & c & n & H1 & H2 & H3). exists P', c, n. rewrite X. auto.
  - injection E as <-. left. destruct (program_stopped text t Ex) as (u & Hs & Hl & P & v & H). exists u, t. split; [exact Hs|]. split; [now exists P, v|]. split.
    + intros Q HQ. apply program_accepted in HQ. congruence.
    + unfold show, syntax_error. cbn. rewrite Hl. rewrite Hs at 1. now rewrite before_app.
Qed.
Definition query_says (what : spirit) (text : string) (a : alert) : Prop :=
  (exists u t, append_dot text = u +++ t /\ (exists l v, query_lang l (u +++ v)) /\ (forall l, ~ query_lang l (append_dot text)) /\
     a = {| al_text := "Syntax error in query line " +++ line_no (line_of u) +++ ". Expected: " +++ sp_words what t; al_mark := Some ("query", (Z.of_N (line_of u) - 1)%Z, (Z.of_N (get_column (sp_old what) u) - 1)%Z) |}) \/
  (exists j l i, parse_query_at (append_dot text) = Some (COk (j, l)) /\ culprit (fun _ => False) l i /\
     a = {| al_text := "Compiler error in query line " +++ line_no (i_begin i) +++ ". Any variable inside an expression must be defined before.";
            al_mark := Some ("query", (Z.of_N (i_begin i) - 1)%Z, 2147483646%Z) |}) \/
  (exists l n, parse_query (append_dot text) = Some (COk l) /\ In n l /\ big_literal n /\ a = escaped).
Lemma query_told cf what text o a : ord_ok cf -> tell_query cf what text o = Some (Told a) -> query_says what text a.
Proof.
  intros O E. unfold tell_query in E. pose proof (query_plain (append_dot text)) as X. pose proof (query_erased (append_dot text)) as Y.
  destruct (parse_query_x (append_dot text)) as [[P|t|]|] eqn:Ex; try discriminate E.
  - pose proof (load_query_plain cf text o) as L. unfold load_query_at in E, L. destruct (parse_query_at (append_dot text)) as [[q|e|]|] eqn:Ea; try (rewrite X in Y; discriminate Y).
    destruct (compile_query_at cf (snd q) (a_sto o)) as [[p|e i|] s] eqn:Ec; cbn [option_map fst snd] in L; try discriminate E.
    + injection E as <-. destruct (compile_query_culprit cf (snd q) _ e i s O Ec) as [-> K]. right. left. destruct q as [j l]. exists j, l, i. auto.
    + injection E as <-. right. right. destruct (load_query_reasons cf text (plain o) O) as (r & o' & L' & K). rewrite L in L'. injection L' as <- _.
      unfold validate_query in K. rewrite X in K. destruct K as (P' & EP & n & H1 & H2). exists P', n. rewrite X. auto.
  - destruct (load_query_at cf text o) as [[[r i] o']|]; injection E as <-; left; destruct (query_stopped _ t Ex) as (u & Hs & Hl & l & v & H); exists u, t; (split; [exact Hs|]); (split; [now exists l, v|]); (split;
    [ intros Q HQ; apply query_accepted in HQ; congruence | unfold show, syntax_error; cbn; rewrite Hl; rewrite Hs at 1; now rewrite before_app ]).
  - destruct (load_query_at cf text o) as [[[r i] o']|]; discriminate E.
Qed.
Theorem alert_says cf what program query a : ord_ok cf -> run_alert cf what program query = Val (Some a) ->
  program_says what program a \/ (exists P, parse_program program = Some (COk P)) /\ query_says what query a.
Proof.
  intros O E. unfold run_alert in E. destruct (new_at cf) as [o| |]; cbn [bind] in E; try discriminate E.
  destruct (tell_program cf what program (set_limit_at 100000 o)) as [[b|o1]|] eqn:E1; try discriminate E.
  - injection E as ->. left. exact (program_told _ _ _ _ _ O E1).
  - destruct (tell_query cf what query o1) as [[b|o2]|] eqn:E2; try discriminate E. injection E as ->. right. split; [|exact (query_told _ _ _ _ _ O E2)].
    unfold tell_program in E1. pose proof (program_plain program) as X. destruct (parse_program_x program) as [[P|t|]|]; try discriminate E1. exists P. exact X.
Qed.
(** rejected and accepted texts *)
Theorem alert_missing cf what program query : ord_ok cf -> run_alert cf what program query = Val None ->
  (exists P, parse_program program = Some (COk P)) /\ ((exists l, parse_query (append_dot query) = Some (COk l)) \/ parse_query (append_dot query) = Some (CErr CNone)).
Proof.
  intros O E. unfold run_alert in E. destruct (new_at cf) as [o| |]; cbn [bind] in E; try discriminate E.
  destruct (tell_program cf what program (set_limit_at 100000 o)) as [[b|o1]|] eqn:E1; try discriminate E.
  destruct (tell_query cf what query o1) as [[b|o2]|] eqn:E2; try discriminate E.
  unfold tell_program in E1. unfold tell_query in E2. pose proof (program_plain program) as X. pose proof (query_plain (append_dot query)) as Y.
  destruct (parse_program_x program) as [[P|t|]|]; try discriminate E1. split; [now exists P|].
  destruct (parse_query_x (append_dot query)) as [[l|t|]|]; [left; now exists l| |now right|].
  - destruct (load_query_at cf query o1) as [[[r i] o']|]; discriminate E2.
  - discriminate E2.
Qed.

(** --- cases --- *)
Definition nl : string := String "010" "".
Definition said (program query : string) : option (string * option (string * Z * Z)) :=
  match run_alert cfg0 {| sp_words := fun _ => "<...>"; sp_old := false |} program query with Val (Some a) => Some (al_text a, al_mark a) | _ => None end.
Lemma said_cases :
  said ("p." +++ nl +++ "append(X,Y,Z).") "p" = Some ("Compiler error in program line 2. Redefinition of built in predicate append is prohibited.", Some ("program", 1%Z, (-1)%Z)) /\
  said ("p." +++ nl +++ " q :- " +++ nl +++ " r(X+1).") "p" = Some ("Compiler error in program line 3. Any variable inside an expression must be defined before.", Some ("program", 2%Z, 2147483646%Z)) /\
  said "p. q r." "p" = Some ("Syntax error in program line 1. Expected: <...>", Some ("program", 0%Z, 5%Z)) /\
  said "p." ("p," +++ nl +++ " Y is X+1") = Some ("Compiler error in query line 2. Any variable inside an expression must be defined before.", Some ("query", 1%Z, 2147483646%Z)) /\
  said "p." "p(" = Some ("Syntax error in query line 1. Expected: <...>", Some ("query", 0%Z, 2%Z)) /\
  said "p." "p" = None.
Proof. vm_compute. repeat split. Qed.
Lemma silent_case what : run_alert cfg0 what "f(a). g(b)." "f(a). g(b)." = Val None /\ forall l, ~ query_lang l (append_dot "f(a). g(b).").
Proof. split; [vm_compute; reflexivity|]. intros l H. apply query_accepted in H. vm_compute in H. discriminate H. Qed.
Lemma escaped_case what : run_alert cfg0 what "p(2147483648)." "p(X)" = Val (Some escaped).
Proof. vm_compute. reflexivity. Qed.
Lemma column_case what : exists program a, run_alert cfg0 what program "p" = Val (Some a) /\ slen program < 20 /\ al_mark a = Some ("program", 0%Z, 2147483646%Z).
Proof. exists "q :- r(X+1).". eexists. split; [vm_compute; reflexivity|]. split; [cbn; lia|reflexivity]. Qed.
