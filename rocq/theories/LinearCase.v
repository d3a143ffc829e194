(** Consequences for programs whose clause heads repeat no variable, and a case. *)
From Verif Require Import Base Machine Heap Facts Compiler Parser Print Organizer Examples Spec Valuation Process Session Search Order Runs
  Builtins Sols Solve Witness Terms Shown Put Parsed Tables Root Alloc Atoms Clause Answers Complete Total Flat Safe Finite Cyclic Ground Once Settle Naming Meaning Tree Clash Labels Shows Linear.
Open Scope string_scope.
Open Scope list_scope.

Lemma linear_sound cf o P q rs o' b : ord_ok cf -> session cf o P (QFresh q) ->
  small_tables (o_sto o) -> no_clash cf P -> linear P q -> run cf o rs o' -> In (RAnswer b) (delivered rs) ->
  exists sg, reads b sg /\ (forall x s, In (x, s) b -> proper (sg x) = true -> s = show (sg x)) /\
     ((Z.of_nat (List.length (s_vars (o_sto o))) <= 32768)%Z -> forall x, In x (flat_map nvars q) -> spelled (sg x) = true) /\
     forall g a, In a q -> prov (pow_of cf) (P ++ append_prog) (inst (fun x => ginst g (sg x)) a).
Proof.
  intros OK HS SM NC LN HR Hb. destruct (answers_shown cf OK o P q HS SM NC rs o' b HR Hb) as (sg & A & B & C).
  exists sg. split; [exact A|]. split; [|split; [exact B|exact (C (linear_acyclic cf OK o P q HS SM NC LN))]].
  intros x s Hx Pr. rewrite (A x s Hx). apply (printed_show _ Pr).
Qed.
Lemma roomy_session cf o P s : ord_ok cf -> session cf o P s -> Forall roomy_clause P -> no_clash cf P /\ labelled cf P.
Proof.
  intros OK HS R. destruct (session_parsed _ _ _ _ HS) as [[PW _] _]. split; [now apply roomy_no_clash|now apply roomy_labelled].
Qed.
Lemma roomy_linear_complete cf o P q v : ord_ok cf -> session cf o P (QFresh q) ->
  small_tables (o_sto o) -> (Z.of_nat (List.length (s_vars (o_sto o))) <= 32768)%Z -> Forall roomy_clause P ->
  all_goals no_compare P q -> all_goals no_is P q -> linear P q ->
  (forall a, In a q -> prov (pow_of cf) (P ++ append_prog) (inst v a)) ->
  exists N, (exists rs o', run cf o rs o' /\ List.length rs = N /\ forall r, In r (map fst rs) -> exists b, r = RAnswer b) /\
    forall rs o', run cf o rs o' -> N <= List.length (delivered rs) -> exists b, In (RAnswer b) (delivered rs) /\
      exists sg g, shown_as cf o P q b sg /\ forall x, In x (flat_map nvars q) -> ginst g (sg x) = v x.
Proof.
  intros OK HS SM SV R NCm NI LN. destruct (roomy_session cf o P _ OK HS R) as [NC _].
  exact (complete_shown cf OK o P q HS SM NC NCm NI (linear_ends cf OK o P q HS SM NC LN SV NI) v).
Qed.
Lemma roomy_linear_returns cf o P q rs o' : ord_ok cf -> session cf o P (QFresh q) -> run cf o rs o' -> small_tables (o_sto o) ->
  (Z.of_nat (List.length (s_vars (o_sto o))) <= 32768)%Z -> Forall roomy_clause P -> linear P q ->
  exists N t, forall fuel, N <= fuel -> make_tree fuel o' = Val t.
Proof.
  intros OK HS HR SM SV R LN. destruct (roomy_session cf o P _ OK HS R) as [NC LB].
  exact (run_returns cf OK o P q rs o' HS HR SM SV NC LB (linear_acyclic cf OK o P q HS SM NC LN)).
Qed.

Fixpoint nodup_b (l : list string) : bool := match l with [] => true | x :: l => negb (smem x l) && nodup_b l end.
Lemma nodup_b_ok l : nodup_b l = true -> NoDup l.
Proof.
  induction l as [|x l IH]; cbn; [constructor|]. rewrite andb_true_iff, negb_true_iff. intros [A B]. constructor; [|auto].
  intros K. apply smem_in in K. congruence.
Qed.
Definition linear_b (P : list (list node)) (q : list node) : bool :=
  forallb (fun c => match c with h :: _ => nodup_b (nvars h) | [] => true end) P && goals_b (fun n => negb (is_append (to_fview n))) P q.
Lemma linear_b_ok P q : linear_b P q = true -> linear P q.
Proof.
  unfold linear_b. rewrite andb_true_iff, forallb_forall. intros [A B]. split.
  - intros h b Hc. apply nodup_b_ok. exact (A _ Hc).
  - refine (goals_b_ok _ _ _ _ _ B). intros n H. apply negb_true_iff in H. exact H.
Qed.
Lemma linear_case : exists o P q rs o', session cfg0 o P (QFresh q) /\
  parse_program "len([],z). len([X|T],s(N)) :- len(T,N). two(s(s(z)))." = Some (COk P) /\
  parse_query (append_dot "len(L,N), two(N)") = Some (COk q) /\
  run cfg0 o rs o' /\ delivered rs = [RAnswer [("N", "s(s(z))"); ("L", "[X3,X8]")]] /\
  small_tables (o_sto o) /\ (Z.of_nat (List.length (s_vars (o_sto o))) <= 32768)%Z /\ no_clash cfg0 P /\ Forall roomy_clause P /\
  all_goals no_compare P q /\ all_goals no_is P q /\ linear P q.
Proof.
  destruct (loaded_witness "len([],z). len([X|T],s(N)) :- len(T,N). two(s(s(z)))." "len(L,N), two(N)" (fun o P q =>
    small_b (o_sto o) && (Z.of_nat (List.length (s_vars (o_sto o))) <=? 32768)%Z && forallb roomy_clause_b P && goals_b nocompare_b P q &&
    goals_b nois_b P q && linear_b P q &&
    match calls [w0] o with Some (rs, _) => answers_eqb (delivered rs) [[("N", "s(s(z))"); ("L", "[X3,X8]")]] | None => false end))
    as (o & P & q & A & B & C & D); [vm_compute; reflexivity|].
  rewrite !andb_true_iff in D. destruct D as ((((((D1 & D2) & D3) & D4) & D5) & D6) & D7).
  destruct (calls [w0] o) as [[rs o']|] eqn:Ec; [|discriminate].
  assert (R : Forall roomy_clause P) by (apply Forall_forall; intros c Hc; rewrite forallb_forall in D3; now apply roomy_clause_b_ok, D3).
  assert (OK : ord_ok cfg0) by (intros l; apply Permutation.Permutation_refl).
  exists o, P, q, rs, o'. split; [exact A|]. split; [exact B|]. split; [exact C|]. split; [exact (calls_run _ _ _ _ Ec)|].
  split; [exact (answers_eqb_ok _ _ D7)|]. split; [exact (small_b_ok _ D1)|]. split; [apply Z.leb_le; exact D2|].
  split; [exact (proj1 (roomy_session cfg0 o P _ OK A R))|]. split; [exact R|].
  split; [exact (goals_b_ok nocompare_b no_compare _ _ nocompare_b_ok D4)|]. split; [exact (goals_b_ok nois_b no_is _ _ nois_b_ok D5)|].
  exact (linear_b_ok _ _ D6).
Qed.
