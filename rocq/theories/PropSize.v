(** Short texts: no assumption about the tables is needed. *)
From Verif Require Import Base Machine Heap Compiler Parser Print Organizer Examples Spec Valuation Process Session Search Order Terms Builtins Shown Runs Atoms Clause Answers Complete
  HeapSim Safe Nearer Naming Meaning Tree TreeRun TreeFacts TreeSrc TreeShape Clash Labels Bound Unfit Shows Tables Unambiguous Linear LinearCase Size SizeCase Web WebFacts WebCase BoxSize.
Open Scope string_scope.
Open Scope list_scope.

(** C77. [typed cf o P s n]: any use of the interpreter (as [session]), in which texts of altogether [n] characters were loaded, the
    rejected ones too, counting one more for each query. The tables then have at most 75 + 3n entries and arities. *)
Theorem C77_bound cf o P s n : typed cf o P s n ->
  List.length (s_functors (o_sto o)) <= 75 + 3 * n /\ List.length (s_vars (o_sto o)) <= 75 + 3 * n /\
  forall f, In f (s_functors (o_sto o)) -> fv_arity f <= 75 + 3 * n.
Proof. intros H. destruct (typed_bounded cf o P s n H) as [A B C]. exact (conj A (conj B C)). Qed.
Print Assumptions C77_bound.
(** So up to 10000 characters they are small in the sense of all theorems that ask for it. *)
Theorem C77_small cf o P s n : typed cf o P s n -> (Z.of_nat n <= 10000)%Z ->
  small_tables (o_sto o) /\ (Z.of_nat (List.length (s_vars (o_sto o))) <= 32768)%Z.
Proof. exact (typed_small cf o P s n). Qed.
Print Assumptions C77_small.
(** every use is such a use *)
Theorem C77_any cf o P s : session cf o P s <-> exists n, typed cf o P s n.
Proof. split; [exact (session_typed cf o P s)|]. intros [n H]. exact (typed_session cf o P s n H). Qed.
Print Assumptions C77_any.
(** the size of what is parsed is at most that of the text *)
Theorem C77_program_size text P : parse_program text = Some (COk P) -> list_sum (map fsize P) <= String.length text.
Proof. intros H. exact (program_size P text (proj1 (Language.program_exact P text) H)). Qed.
Print Assumptions C77_program_size.
Theorem C77_query_size text q : parse_query text = Some (COk q) -> fsize q <= String.length text.
Proof. intros H. exact (query_size q text (proj1 (Language.query_exact q text) H)). Qed.
Print Assumptions C77_query_size.

(** With rules that need no more registers than their heads ([roomy_clause]) and heads without repeated variables ([linear], no call of
    append/3), every hypothesis of the theorems on C01 and its kin can be read off the texts. *)
Theorem C77_rules cf o P q n : ord_ok cf -> typed cf o P (QFresh q) n -> (Z.of_nat n <= 10000)%Z -> Forall roomy_clause P -> linear P q ->
  no_clash cf P /\ labelled cf P /\ no_cycles cf o /\ (all_goals no_is P q -> turns_end cf o).
Proof.
  intros OK H L R LN. exact (let F := short_fine cf o P (QFresh q) n OK H L R in let G := short_linear cf o P q n OK H L R LN in
    conj (proj1 (proj2 (proj2 (proj2 F)))) (conj (proj2 (proj2 (proj2 (proj2 F)))) G)).
Qed.
Print Assumptions C77_rules.
(** C01 *)
Theorem C01_short_texts cf o P q n rs o' b : ord_ok cf -> typed cf o P (QFresh q) n -> (Z.of_nat n <= 10000)%Z -> Forall roomy_clause P -> linear P q ->
  run cf o rs o' -> In (RAnswer b) (delivered rs) ->
  exists sg, reads b sg /\ (forall x s, In (x, s) b -> proper (sg x) = true -> s = show (sg x)) /\
     (forall x, In x (flat_map nvars q) -> spelled (sg x) = true) /\
     forall g a, In a q -> prov (pow_of cf) (P ++ append_prog) (inst (fun x => ginst g (sg x)) a).
Proof. exact (short_sound cf o P q n rs o' b). Qed.
Print Assumptions C01_short_texts.
(** C04 *)
Theorem C04_short_texts cf o P q n v : ord_ok cf -> typed cf o P (QFresh q) n -> (Z.of_nat n <= 10000)%Z -> Forall roomy_clause P -> linear P q ->
  all_goals no_compare P q -> all_goals no_is P q ->
  (forall a, In a q -> prov (pow_of cf) (P ++ append_prog) (inst v a)) ->
  exists N, (exists rs o', run cf o rs o' /\ List.length rs = N /\ forall r, In r (map fst rs) -> exists b, r = RAnswer b) /\
    forall rs o', run cf o rs o' -> N <= List.length (delivered rs) -> exists b, In (RAnswer b) (delivered rs) /\
      exists sg g, shown_as cf o P q b sg /\ forall x, In x (flat_map nvars q) -> ginst g (sg x) = v x.
Proof.
  intros OK H L R LN NCm NI. destruct (typed_small cf o P _ n H L) as [SM SV].
  exact (roomy_linear_complete cf o P q v OK (typed_session cf o P _ n H) SM SV R NCm NI LN).
Qed.
Print Assumptions C04_short_texts.
(** C37: no undefined behaviour, whatever the heads are *)
Theorem C37_short_texts cf o P s n : ord_ok cf -> typed cf o P s n -> (Z.of_nat n <= 10000)%Z -> Forall roomy_clause P -> s <> QStale ->
  all_goals no_is P (qgoals s) -> forall fuel k w u, get_answer cf fuel k w o <> Ub u.
Proof.
  intros OK H L R Hs. destruct (short_fine cf o P s n OK H L R) as (HS & SM & SV & NC & _). exact (session_no_ub cf o P s OK HS Hs SM SV NC).
Qed.
Print Assumptions C37_short_texts.
(** C06 *)
Theorem C06_short_texts cf o P q n rs o' pre b post : ord_ok cf -> typed cf o P (QFresh q) n -> (Z.of_nat n <= 10000)%Z -> Forall roomy_clause P -> linear P q ->
  all_goals no_compare P q -> run cf o rs o' -> delivered rs = pre ++ RAnswer b :: post -> (forall x, ~ In (RError (EUnbound x)) pre) ->
  exists sg, shown_as cf o P q b sg /\ forall v k, proved_with cf P q v k ->
    (exists g, forall n, proved_with cf P q (fun x => ginst g (sg x)) n -> 3 * k < 2 * n) ->
    exists b', In (RAnswer b') pre /\ exists sg' g', shown_as cf o P q b' sg' /\ forall x, In x (flat_map nvars q) -> ginst g' (sg' x) = v x.
Proof.
  intros OK H L R LN NCm. destruct (short_fine cf o P _ n OK H L R) as (HS & SM & _ & NC & _).
  exact (nearer_half_shown cf OK o P q HS SM NC rs o' pre b post NCm (proj1 (short_linear cf o P q n OK H L R LN))).
Qed.
Print Assumptions C06_short_texts.
(** C48 *)
Theorem C48_short_texts cf o P q n rs o' fuel t ex nm str e : ord_ok cf -> typed cf o P (QFresh q) n -> (Z.of_nat n <= 10000)%Z -> Forall roomy_clause P -> linear P q ->
  run cf o rs o' -> make_tree fuel o' = Val t -> In (ex, nm, str) (q_labels t) -> nth_error (o_arena o') ex = Some e -> x_state e <> SRunning ->
  exists a f h, solved o' e = Val a /\ last (ca_code a) IProceed = ICall f /\
    node_str nm = Val str /\ rname nm = fv_name f /\ List.length (rkids nm) = fv_arity f /\
    hrel (heap_at (o_arena o') (x_parent e)) (m_heap (x_m e)) h /\
    forall i x, nth_error (rkids nm) i = Some x ->
      exists c b, nth_error (m_regs (x_m e)) i = Some c /\ get_heap_i c = Val b /\ rd (o_sto o') h b (rterm x).
Proof.
  intros OK H L R LN HR. destruct (short_fine cf o P _ n OK H L R) as (HS & SM & _ & NC & LB).
  exact (run_labels cf OK o P q rs o' fuel t ex nm str e HS HR SM NC LB (proj1 (short_linear cf o P q n OK H L R LN))).
Qed.
Print Assumptions C48_short_texts.
(** C49 *)
Theorem C49_short_texts cf o P q n rs o' : ord_ok cf -> typed cf o P (QFresh q) n -> (Z.of_nat n <= 10000)%Z -> Forall roomy_clause P -> linear P q ->
  run cf o rs o' -> exists N t, forall fuel, N <= fuel -> make_tree fuel o' = Val t.
Proof.
  intros OK H L R LN HR. destruct (typed_small cf o P _ n H L) as [SM SV]. exact (roomy_linear_returns cf o P q rs o' OK (typed_session cf o P _ n H) HR SM SV R LN).
Qed.
Print Assumptions C49_short_texts.
(** C51 *)
Theorem C51_short_texts cf o P q n rs o' fuel t ex nm k bs : ord_ok cf -> typed cf o P (QFresh q) n -> (Z.of_nat n <= 10000)%Z -> Forall roomy_clause P -> linear P q ->
  run cf o rs o' -> make_tree fuel o' = Val t -> In (ex, (nm, k, bs)) (q_binds t) ->
  exists ke, nth_error (o_arena o') k = Some ke /\
    match bs with
    | None => (has_failed ke || is_running ke)%bool = true
    | Some (l, c) => (has_failed ke || is_running ke)%bool = false /\
        exists hd w qb fb, works_on o' ke hd /\ strs (qb ++ fb) = Val l /\ c = List.length qb /\ unifier_shown nm hd w qb fb
    end.
Proof.
  intros OK H L R LN HR. destruct (short_fine cf o P _ n OK H L R) as (HS & SM & _ & NC & LB).
  exact (run_binds cf OK o P q rs o' fuel t ex nm k bs HS HR SM NC LB (proj1 (short_linear cf o P q n OK H L R LN))).
Qed.
Print Assumptions C51_short_texts.
(** C69 *)
Theorem C69_short_texts cf o P q n rs o' fuel t ex nm k bs ke : ord_ok cf -> typed cf o P (QFresh q) n -> (Z.of_nat n <= 10000)%Z -> Forall roomy_clause P -> linear P q ->
  run cf o rs o' -> make_tree fuel o' = Val t -> In (ex, (nm, k, bs)) (q_binds t) -> nth_error (o_arena o') k = Some ke ->
  match x_state ke with
  | SFail => exists hd, works_on o' ke hd /\ unfit (pow_of cf) nm hd
  | SError er => exists hd, works_on o' ke hd /\ erring (pow_of cf) nm er
  | _ => True
  end.
Proof.
  intros OK H L R LN HR E Hin Hk. destruct (short_fine cf o P _ n OK H L R) as (HS & SM & _ & NC & LB).
  exact (run_unfit cf OK o P q rs o' fuel t ex nm k bs ke HS HR SM NC LB (proj1 (short_linear cf o P q n OK H L R LN)) E Hin Hk).
Qed.
Print Assumptions C69_short_texts.
(** C72 *)
Theorem C72_short_texts cf o P q n rs o' b : ord_ok cf -> typed cf o P (QFresh q) n -> (Z.of_nat n <= 10000)%Z -> Forall roomy_clause P -> linear P q ->
  run cf o rs o' -> In (RAnswer b) (delivered rs) ->
  exists sg, shown_as cf o P q b sg /\ ((forall x, In x (flat_map nvars q) -> proper (sg x) = true) ->
    (forall rd, (forall x s, In (x, s) b -> s = show (rd x) /\ spelled (rd x) = true) -> forall x, In x (flat_map nvars q) -> anon (rd x) = anon (sg x)) /\
    (forall v, (forall x s, In (x, s) b -> s = show_ground (v x) /\ spelled (tm_of (v x)) = true) ->
       forall a, In a q -> prov (pow_of cf) (P ++ append_prog) (inst v a))).
Proof.
  intros OK H L R LN. destruct (short_fine cf o P _ n OK H L R) as (HS & SM & SV & NC & _).
  exact (answers_readable cf o P q rs o' b OK HS SM SV NC (proj1 (short_linear cf o P q n OK H L R LN))).
Qed.
Print Assumptions C72_short_texts.
(** infinitely many branches; the hypotheses of all the theorems above *)
Example C77_hypotheses_met : exists o P q rs o', typed cfg0 o P (QFresh q) (String.length len_text + S (String.length "len(L,N), two(N)")) /\
  (Z.of_nat (String.length len_text + S (String.length "len(L,N), two(N)")) <= 10000)%Z /\
  parse_program len_text = Some (COk P) /\ parse_query (append_dot "len(L,N), two(N)") = Some (COk q) /\
  run cfg0 o rs o' /\ delivered rs = [RAnswer [("N", "s(s(z))"); ("L", "[X3,X8]")]] /\
  Forall roomy_clause P /\ all_goals no_compare P q /\ all_goals no_is P q /\ linear P q.
Proof. exact short_case. Qed.

(** C78. From the two texts in the editors to the paragraphs of a result box of the web page. [es]: anything that happens to the box.
    [line_text]: the text of a paragraph. Every paragraph that is an answer is sound. Missing: [roomy_clause], [linear], longer texts. *)
Theorem C78_sound_partial cf v program query b0 es b P q : ord_ok cf -> run_clicked cf v program query = Val (Opened b0) -> steps cf es b0 = Val b -> b_alive b = true ->
  parse_program program = Some (COk P) -> parse_query (append_dot query) = Some (COk q) ->
  (Z.of_nat (String.length program) + Z.of_nat (String.length query) < 10000)%Z -> Forall roomy_clause P -> linear P q ->
  exists ls, b_shown b = map line_text ls /\ forall ans, In (LResult (RAnswer ans)) ls ->
    exists sg, reads ans sg /\ (forall x s, In (x, s) ans -> proper (sg x) = true -> s = show (sg x)) /\
     (forall x, In x (flat_map nvars q) -> spelled (sg x) = true) /\
     forall g a, In a q -> prov (pow_of cf) (P ++ append_prog) (inst (fun x => ginst g (sg x)) a).
Proof. exact (box_sound cf v program query b0 es b P q). Qed.
Print Assumptions C78_sound_partial.
(** When "false" is shown and memory was never exhausted, every solution is an instance of a paragraph of the box.
    Missing: [roomy_clause], longer texts, == and \== and is. *)
Theorem C78_complete_partial cf v program query b0 es b P q : ord_ok cf -> run_clicked cf v program query = Val (Opened b0) -> steps cf es b0 = Val b -> b_alive b = true ->
  parse_program program = Some (COk P) -> parse_query (append_dot query) = Some (COk q) ->
  (Z.of_nat (String.length program) + Z.of_nat (String.length query) < 10000)%Z -> Forall roomy_clause P ->
  all_goals no_compare P q -> all_goals no_is P q -> In "false" (b_shown b) -> ~ In "Memory exhausted." (b_shown b) ->
  forall f, (forall a, In a q -> prov (pow_of cf) (P ++ append_prog) (inst f a)) ->
  exists ans, In (page_text (RAnswer ans)) (b_shown b) /\ exists sg g, reads ans sg /\ (forall x, In x (flat_map nvars q) -> spelled (sg x) = true) /\
    forall x, In x (flat_map nvars q) -> ginst g (sg x) = f x.
Proof. exact (box_complete cf v program query b0 es b P q). Qed.
Print Assumptions C78_complete_partial.
Example C78_hypotheses_met : exists P q b0 b, run_clicked cfg0 v_good box_prog "len([a,b],N)" = Val (Opened b0) /\ steps cfg0 [EvNext v_good] b0 = Val b /\ b_alive b = true /\
  parse_program box_prog = Some (COk P) /\ parse_query (append_dot "len([a,b],N)") = Some (COk q) /\
  (Z.of_nat (String.length box_prog) + Z.of_nat (String.length "len([a,b],N)") < 10000)%Z /\ Forall roomy_clause P /\ linear P q /\
  all_goals no_compare P q /\ all_goals no_is P q /\ b_shown b = ["[N / s(s(z))]"; "false"].
Proof. exact box_case. Qed.
(** In full it is false: a box that says "true" to a query that has no solution. *)
Theorem C78_sound_refuted : exists P q b, run_clicked cfg0 v_good "q :- p(Y,f(Y)). p(X,X)." "q" = Val (Opened b) /\ b_shown b = ["true"] /\
  parse_program "q :- p(Y,f(Y)). p(X,X)." = Some (COk P) /\ parse_query (append_dot "q") = Some (COk q) /\
  ~ exists v, forall a, In a q -> prov (pow_of cfg0) (P ++ append_prog) (inst v a).
Proof. exact box_unsound. Qed.
Print Assumptions C78_sound_refuted.
