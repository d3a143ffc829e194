(** A case with a tree for the consequences for short texts. *)
From Verif Require Import Base Machine Heap Facts Compiler Parser Print Organizer Examples Spec Valuation Process Session Search Order Runs
  Builtins Sols Solve Witness Terms Shown Put Parsed Tables Root Alloc Atoms Clause Answers Complete Total Flat Safe Finite Cyclic Ground Once Settle Naming Meaning Tree Clash Labels Shows Linear LinearCase Size TreeRun TreeFacts TreeSrc TreeShape TreeCase SizeCase.
Open Scope string_scope.
Open Scope list_scope.
Lemma tree_case : exists o P q rs o' t, typed cfg0 o P (QFresh q) (String.length len_text + S (String.length "len([a],N)")) /\
  (Z.of_nat (String.length len_text + S (String.length "len([a],N)")) <= 10000)%Z /\
  parse_program len_text = Some (COk P) /\ parse_query (append_dot "len([a],N)") = Some (COk q) /\
  run cfg0 o rs o' /\ delivered rs = [RAnswer [("N", "s(z)")]] /\ make_tree 100 o' = Val t /\ map snd (q_labels t) = ["len([a], N)"; "len([], N)"] /\
  Forall roomy_clause P /\ all_goals no_compare P q /\ all_goals no_is P q /\ linear P q.
Proof.
  destruct (typed_witness len_text "len([a],N)" (fun o P q =>
    forallb roomy_clause_b P && goals_b nocompare_b P q && goals_b nois_b P q && linear_b P q &&
    match calls [w0] o with
    | Some (rs, o') => answers_eqb (delivered rs) [[("N", "s(z)")]] &&
        match make_tree 100 o' with Val t => if list_eq_dec string_dec (map snd (q_labels t)) ["len([a], N)"; "len([], N)"] then true else false | _ => false end
    | None => false end))
    as (o & P & q & A & B & C & D); [vm_compute; reflexivity|].
  rewrite !andb_true_iff in D. destruct D as ((((D3 & D4) & D5) & D6) & D7).
  destruct (calls [w0] o) as [[rs o']|] eqn:Ec; [|discriminate]. rewrite andb_true_iff in D7. destruct D7 as [D7 D8].
  destruct (make_tree 100 o') as [t| |] eqn:Et; try discriminate D8. destruct (list_eq_dec string_dec (map snd (q_labels t)) ["len([a], N)"; "len([], N)"]) as [D9|]; [|discriminate D8].
  assert (R : Forall roomy_clause P) by (apply Forall_forall; intros c Hc; rewrite forallb_forall in D3; now apply roomy_clause_b_ok, D3).
  exists o, P, q, rs, o', t. split; [exact A|]. split; [vm_compute; discriminate|]. split; [exact B|]. split; [exact C|]. split; [exact (calls_run _ _ _ _ Ec)|].
  split; [exact (answers_eqb_ok _ _ D7)|]. split; [exact Et|]. split; [exact D9|]. split; [exact R|].
  split; [exact (goals_b_ok nocompare_b no_compare _ _ nocompare_b_ok D4)|]. split; [exact (goals_b_ok nois_b no_is _ _ nois_b_ok D5)|].
  exact (linear_b_ok _ _ D6).
Qed.
