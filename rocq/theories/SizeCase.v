(** Consequences for short texts, and cases. *)
From Coq Require Import Lia.
From Verif Require Import Base Machine Heap Facts Compiler Parser Print Organizer Examples Spec Valuation Process Session Search Order Runs
  Builtins Sols Solve Witness Terms Shown Put Parsed Tables Root Alloc Atoms Clause Answers Complete Total Flat Safe Finite Cyclic Ground Once Settle Naming Meaning Tree Clash Labels Shows Linear LinearCase Size.
Open Scope string_scope.
Open Scope list_scope.

Lemma short_fine cf o P s n : ord_ok cf -> typed cf o P s n -> (Z.of_nat n <= 10000)%Z -> Forall roomy_clause P ->
  session cf o P s /\ small_tables (o_sto o) /\ (Z.of_nat (List.length (s_vars (o_sto o))) <= 32768)%Z /\ no_clash cf P /\ labelled cf P.
Proof.
  intros OK H L R. pose proof (typed_session _ _ _ _ _ H) as HS. destruct (typed_small _ _ _ _ _ H L) as [SM SV].
  destruct (roomy_session cf o P s OK HS R) as [NC LB]. csplit; assumption.
Qed.
Lemma short_linear cf o P q n : ord_ok cf -> typed cf o P (QFresh q) n -> (Z.of_nat n <= 10000)%Z -> Forall roomy_clause P -> linear P q ->
  no_cycles cf o /\ (all_goals no_is P q -> turns_end cf o).
Proof.
  intros OK H L R LN. destruct (short_fine _ _ _ _ _ OK H L R) as (HS & SM & SV & NC & LB). split; [exact (linear_acyclic cf OK o P q HS SM NC LN)|].
  intros NI. exact (linear_ends cf OK o P q HS SM NC LN SV NI).
Qed.
Lemma short_sound cf o P q n rs o' b : ord_ok cf -> typed cf o P (QFresh q) n -> (Z.of_nat n <= 10000)%Z -> Forall roomy_clause P -> linear P q ->
  run cf o rs o' -> In (RAnswer b) (delivered rs) ->
  exists sg, reads b sg /\ (forall x s, In (x, s) b -> proper (sg x) = true -> s = show (sg x)) /\
     (forall x, In x (flat_map nvars q) -> spelled (sg x) = true) /\
     forall g a, In a q -> prov (pow_of cf) (P ++ append_prog) (inst (fun x => ginst g (sg x)) a).
Proof.
  intros OK H L R LN HR Hb. destruct (short_fine _ _ _ _ _ OK H L R) as (HS & SM & SV & NC & LB).
  destruct (linear_sound cf o P q rs o' b OK HS SM NC LN HR Hb) as (sg & A & B & C & D). exists sg. csplit; auto.
Qed.
Lemma loaded_typed program query o cs q : loaded program query = Some o ->
  parse_program program = Some (COk cs) -> parse_query (append_dot query) = Some (COk q) ->
  typed cfg0 o cs (QFresh q) (String.length program + S (String.length query)).
Proof.
  unfold loaded. intros E Ep Eq.
  destruct (new_org cfg0) as [o0| |] eqn:E0; try discriminate.
  destruct (load_program cfg0 program o0) as [[[] o1]|] eqn:E1; try discriminate.
  destruct (load_query cfg0 query o1) as [[[] o2]|] eqn:E2; try discriminate. injection E as <-.
  eapply ty_query; [|eassumption|eassumption]. exact (ty_program cfg0 o0 [] QNone 0 program cs o1 (ty_new cfg0 o0 E0) Ep E1).
Qed.
Lemma typed_witness program query (K : org -> list (list node) -> list node -> bool) :
  match loaded program query, parse_program program, parse_query (append_dot query) with
  | Some o, Some (COk P), Some (COk q) => K o P q
  | _, _, _ => false
  end = true ->
  exists o P q, typed cfg0 o P (QFresh q) (String.length program + S (String.length query)) /\ parse_program program = Some (COk P) /\
    parse_query (append_dot query) = Some (COk q) /\ K o P q = true.
Proof.
  destruct (loaded program query) as [o|] eqn:E1; [|discriminate].
  destruct (parse_program program) as [[P| |]|] eqn:E2; try discriminate.
  destruct (parse_query (append_dot query)) as [[q| |]|] eqn:E3; try discriminate.
  intros H. exists o, P, q. split; [|auto]. eapply loaded_typed; eassumption.
Qed.
Definition len_text : string := "len([],z). len([X|T],s(N)) :- len(T,N). two(s(s(z))).".
Lemma short_case : exists o P q rs o', typed cfg0 o P (QFresh q) (String.length len_text + S (String.length "len(L,N), two(N)")) /\
  (Z.of_nat (String.length len_text + S (String.length "len(L,N), two(N)")) <= 10000)%Z /\
  parse_program len_text = Some (COk P) /\ parse_query (append_dot "len(L,N), two(N)") = Some (COk q) /\
  run cfg0 o rs o' /\ delivered rs = [RAnswer [("N", "s(s(z))"); ("L", "[X3,X8]")]] /\
  Forall roomy_clause P /\ all_goals no_compare P q /\ all_goals no_is P q /\ linear P q.
Proof.
  destruct (typed_witness len_text "len(L,N), two(N)" (fun o P q =>
    forallb roomy_clause_b P && goals_b nocompare_b P q && goals_b nois_b P q && linear_b P q &&
    match calls [w0] o with Some (rs, _) => answers_eqb (delivered rs) [[("N", "s(s(z))"); ("L", "[X3,X8]")]] | None => false end))
    as (o & P & q & A & B & C & D); [vm_compute; reflexivity|].
  rewrite !andb_true_iff in D. destruct D as ((((D3 & D4) & D5) & D6) & D7).
  destruct (calls [w0] o) as [[rs o']|] eqn:Ec; [|discriminate].
  assert (R : Forall roomy_clause P) by (apply Forall_forall; intros c Hc; rewrite forallb_forall in D3; now apply roomy_clause_b_ok, D3).
  exists o, P, q, rs, o'. split; [exact A|]. split; [vm_compute; discriminate|]. split; [exact B|]. split; [exact C|]. split; [exact (calls_run _ _ _ _ Ec)|].
  split; [exact (answers_eqb_ok _ _ D7)|]. split; [exact R|].
  split; [exact (goals_b_ok nocompare_b no_compare _ _ nocompare_b_ok D4)|]. split; [exact (goals_b_ok nois_b no_is _ _ nois_b_ok D5)|].
  exact (linear_b_ok _ _ D6).
Qed.
