(** The terminal program: properties C55-C58. *)
From Verif Require Import Base Machine Heap Compiler Parser Print Organizer Session Runs Examples Terminal TermFacts TermCase.
Open Scope string_scope.
Open Scope list_scope.

(** C55. Refuted: a program named on the command line is never read, its name is taken for its text. Here the file holds [p(a).],
    and still [p(X)] has no answer. *)
Theorem C55_files_refuted : exists path contents o o1 o2 o3 k s,
  new_org cfg0 = Val o /\ load_program cfg0 contents o = Some (LOk, o1) /\ load_query cfg0 "p(X)" o1 = Some (LOk, o2) /\
  get_answer cfg0 100 100 w0 o2 = Val (RAnswer [("X", "a")], o3) /\
  normal_mode cfg0 100 100 (fun _ => w0) [path] ("p(X)." ++ nl) k = Val ((header [path] ++ "?- false" ++ nl)%string, inl s).
Proof. exact files_not_read. Qed.
Print Assumptions C55_files_refuted.
(** What happens instead: names that are no program texts change nothing, without a message. Missing: names that happen to be
    program texts; these are loaded. *)
Theorem C55_names_partial cf paths o : (forall p, In p paths -> exists e, parse_program p = Some (CErr e)) ->
  load_files cf paths o = Val (Some o).
Proof. exact (load_files_rejected cf paths o). Qed.
Print Assumptions C55_names_partial.
Example C55_hypotheses_met : forall p, In p ["prog.pl"; "family.pl"; "/home/a/b.pl"] -> exists e, parse_program p = Some (CErr e).
Proof. intros p [<-|[<-|[<-|[]]]]; exists CParser; vm_compute; reflexivity. Qed.

(** C56. At every prompt: queries were asked one after the other, each followed by calls of get_answer; the output shows all their
    results in order and nothing else; and the input was the texts of these queries, a semicolon for every further result. *)
Theorem C56_dialogue cf fuel n ws paths input k w s : normal_mode cf fuel n ws paths input k = Val (w, inl s) -> t_show s = None ->
  exists o0 o1 l, new_org cf = Val o0 /\ load_files cf paths o0 = Val (Some o1) /\ dialogue cf o1 l (t_org s) /\
    w = (header paths ++ dialogue_text l)%string /\ (i_good (t_in s) = true -> typed input l (i_rest (t_in s))).
Proof. exact (dialogue_shown cf fuel n ws paths input k w s). Qed.
Print Assumptions C56_dialogue.
(** ... and each query was either loaded, so that what is known of runs of a query (C01, C04, C43, ...) holds of its results, or
    rejected, and has no answer. *)
Theorem C56_queries cf fuel n ws paths input k w s : normal_mode cf fuel n ws paths input k = Val (w, inl s) -> t_show s = None ->
  exists o1 l P, dialogue cf o1 l (t_org s) /\ w = (header paths ++ dialogue_text l)%string /\
    (P = [] \/ exists p, In p paths /\ parse_program p = Some (COk P)) /\
    ((forall t rs, In (t, rs) l -> ~ In ROutOfMemory rs) -> forall t rs, In (t, rs) l -> exists o,
      (exists q rs' o', parse_query (append_dot t) = Some (COk q) /\ session cf o P (QFresh q) /\ run cf o rs' o' /\ map fst rs' = rs) \/
      (session cf o P QNone /\ forall r, In r rs -> r = RFalse)).
Proof. exact (queries_shown cf fuel n ws paths input k w s). Qed.
Print Assumptions C56_queries.
Example C56_hypotheses_met : exists w s, t_show s = None /\ i_good (t_in s) = true /\
  normal_mode cfg0 100 100 (fun _ => w0) [] ("append(X,Y,[a])." ++ nl ++ ";" ++ nl ++ ";" ++ nl ++ "p(" ++ "." ++ nl ++ "X is 1//0." ++ nl) 5 = Val (w, inl s) /\
  w = (header [] ++ "?- [X / []]" ++ nl ++ "[Y / [a]][X / [a]]" ++ nl ++ "[Y / []]false" ++ nl ++ "?- false" ++ nl ++
       "?- error: ERROR: Arithmetic: evaluation error: zero_divisor" ++ nl)%string.
Proof. exact dialogue_case. Qed.

(** C57. Refuted: if a further answer is asked for and there is an error, the program fails. *)
Theorem C57_error_refuted : exists input k w, normal_mode cfg0 100 100 (fun _ => w0) [] input k = Val (w, inr TAbort) /\
  w = (header [] ++ "?- [W / 1]" ++ nl ++ "[Y / 1]" ++ nl ++ "[X / []]" ++ nl ++ "[Z / [0]]" ++
       "Error: ERROR: Arithmetic: evaluation error: zero_divisor" ++ nl)%string.
Proof. exact error_aborts. Qed.
Print Assumptions C57_error_refuted.
(** It fails in no other way, apart from numbers too big for the compiler (C38). *)
Theorem C57_only_partial cf fuel n ws paths input k w : normal_mode cf fuel n ws paths input k = Val (w, inr TAbort) ->
  exists o0, new_org cf = Val o0 /\
  (load_files cf paths o0 = Val None \/
   exists o1, load_files cf paths o0 = Val (Some o1) /\
     ((exists l o t o2, dialogue cf o1 l o /\ load_query cf t o = Some (LEscape, o2) /\ w = (header paths ++ dialogue_text l ++ "?- ")%string) \/
      (exists l t rs b r o2, dialogue cf o1 (l ++ [(t, rs ++ [RAnswer b; r])]) o2 /\ b <> [] /\ explain r <> None /\
         w = (header paths ++ dialogue_text (l ++ [(t, rs ++ [RAnswer b; r])]%list))%string))).
Proof. exact (aborts_only cf fuel n ws paths input k w). Qed.
Print Assumptions C57_only_partial.

(** C58. Refuted: when the input ends the program goes on for ever. *)
Theorem C58_end_refuted : exists input, forall k, exists w s, normal_mode cfg0 100 100 (fun _ => w0) [] input k = Val (w, inl s).
Proof. exact never_ends. Qed.
Print Assumptions C58_end_refuted.
(** It ends only if [q.] is typed at the prompt, or the input ends with [q] there. *)
Theorem C58_quits_partial cf fuel n ws paths input k w : normal_mode cf fuel n ws paths input k = Val (w, inr TQuit) ->
  exists o0 o1 o2 l, new_org cf = Val o0 /\ load_files cf paths o0 = Val (Some o1) /\ dialogue cf o1 l o2 /\
    w = (header paths ++ dialogue_text l ++ "?- ")%string /\ (typed input l "q" \/ exists rest, typed input l ("q." ++ rest)).
Proof. exact (quits cf fuel n ws paths input k w). Qed.
Print Assumptions C58_quits_partial.
Example C58_hypotheses_met : exists w, normal_mode cfg0 100 100 (fun _ => w0) [] ("append(X,Y,[a])." ++ nl ++ ";" ++ nl ++ "x" ++ nl ++ "q.") 4 = Val (w, inr TQuit).
Proof. exact quit_case. Qed.
