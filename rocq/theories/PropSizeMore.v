(** Short texts, further properties. [typed cf o P s n]: any use of the interpreter in which texts of altogether [n] characters were loaded (PropSize.v);
    [roomy_clause]: no more registers needed than by the head. *)
From Verif Require Import Base Machine Heap Facts Compiler Parser Print Organizer Examples Spec Valuation Process Session Search Order Terms Builtins Shown Runs Witness Atoms Clause Answers Complete
  Finite HeapSim Safe Settle Naming Meaning Parsed Tables Tree TreeRun TreeFacts TreeSrc TreeShape TreeAll TreeCase Clash Labels Bound Shows AnswerText LabelText Lists Linear LinearCase Size SizeCase SizeTree.
Open Scope string_scope.
Open Scope list_scope.

(** C27: [printed] is the text of every answer *)
Theorem C27_short_texts cf o P q n rs o' b : ord_ok cf -> typed cf o P (QFresh q) n -> (Z.of_nat n <= 10000)%Z -> Forall roomy_clause P ->
  run cf o rs o' -> In (RAnswer b) (delivered rs) ->
  exists sg, (forall x s, In (x, s) b -> s = printed false (sg x) /\
      forall ts tail, ts <> [] -> sg x = tm_list ts tail ->
        s = ("[" ++ String.concat "," (map (printed false) ts) ++ relast (tail_sep tail ++ printed true tail) "]")%string) /\
    (linear P q -> forall g a, In a q -> prov (pow_of cf) (P ++ append_prog) (inst (fun x => ginst g (sg x)) a)).
Proof.
  intros OK H L R HR Hb. destruct (short_fine cf o P _ n OK H L R) as (HS & SM & SV & NC & _).
  destruct (answers_lists cf o P q rs o' b OK HS SM SV NC HR Hb) as (sg & A & B).
  exact (ex_intro _ sg (conj A (fun LN => B (proj1 (short_linear cf o P q n OK H L R LN))))).
Qed.
Print Assumptions C27_short_texts.
(** C43 *)
Theorem C43_short_texts cf o P q n rs o' : ord_ok cf -> typed cf o P (QFresh q) n -> (Z.of_nat n <= 10000)%Z -> Forall roomy_clause P ->
  run cf o rs o' -> In RFalse (delivered rs) ->
  o_queue o' = [] /\
  (forall fuel w r o2, forall n, get_answer cf fuel n w o' = Val (r, o2) -> r = RFalse) /\
  (all_goals no_compare P q -> (all_goals no_is P q \/ forall x, ~ In (RError (EUnbound x)) (delivered rs)) -> forall v,
     (forall a, In a q -> prov (pow_of cf) (P ++ append_prog) (inst v a)) -> exists b, In (RAnswer b) (delivered rs) /\
      exists sg g, shown_as cf o P q b sg /\ forall x, In x (flat_map nvars q) -> ginst g (sg x) = v x).
Proof.
  intros OK H L R. destruct (short_fine cf o P _ n OK H L R) as (HS & SM & _ & NC & _). exact (failure_shown cf OK o P q HS SM NC rs o').
Qed.
Print Assumptions C43_short_texts.
(** C44 *)
Theorem C44_short_texts cf o P q n rs o' b : ord_ok cf -> typed cf o P (QFresh q) n -> (Z.of_nat n <= 10000)%Z -> Forall roomy_clause P ->
  run cf o rs o' -> In (RAnswer b) (delivered rs) ->
  exists sg base, reads b sg /\
    (forall x, In x (flat_map nvars q) -> (
      (forall k nm, In (k, nm) (tm_vars (sg x)) -> In (base k) (flat_map nvars (atoms q P)) /\
        (nm = base k \/ (nm = (base k ++ string_of_nat k)%string /\ ~ In (base k) (flat_map nvars q)))) /\
      (forall s, In s (tm_cons (sg x)) -> In s (flat_map ncons (atoms q P)))) /\ spelled (sg x) = true) /\
    (no_cycles cf o -> forall g a, In a q -> prov (pow_of cf) (P ++ append_prog) (inst (fun x => ginst g (sg x)) a)).
Proof.
  intros OK H L R. destruct (short_fine cf o P _ n OK H L R) as (HS & SM & SV & NC & _). exact (answers_named cf OK o P q HS SM SV NC rs o' b).
Qed.
Print Assumptions C44_short_texts.
(** C45, whatever the rules are *)
Theorem C45_short_texts cf o P s n fuel o1 : ord_ok cf -> typed cf o P s n -> (Z.of_nat n <= 10000)%Z -> s <> QStale ->
  Isolation.quiet cf fuel o o1 -> forall id a, In id (o_queue o1) -> Settle.allocated o1 id a ->
  exists c, Isolation.reads o1 id a = Some c /\ Settle.cell_complete o1 id a c.
Proof. intros OK H L Ns Q. exact (Settle.pending_complete cf o P s fuel o1 OK (typed_session cf o P s n H) Ns (proj1 (typed_small cf o P s n H L)) Q). Qed.
Print Assumptions C45_short_texts.
(** C50 *)
Theorem C50_short_texts cf o P q n rs o' fuel t ex nm str e : ord_ok cf -> typed cf o P (QFresh q) n -> (Z.of_nat n <= 10000)%Z -> Forall roomy_clause P ->
  run cf o rs o' -> make_tree fuel o' = Val t -> In (ex, nm, str) (q_labels t) -> nth_error (o_arena o') ex = Some e -> x_state e <> SRunning ->
  well (reading nm) = true /\ str = lstr (reading nm).
Proof.
  intros OK H L R HR. destruct (short_fine cf o P _ n OK H L R) as (HS & SM & SV & NC & LB). exact (label_reads cf OK o o' P q rs HS HR SM SV NC LB fuel t ex nm str e).
Qed.
Print Assumptions C50_short_texts.
(** C52 *)
Theorem C52_short_texts cf o P q n rs o' fuel t : ord_ok cf -> typed cf o P (QFresh q) n -> (Z.of_nat n <= 10000)%Z -> Forall roomy_clause P ->
  run cf o rs o' -> make_tree fuel o' = Val t ->
  (forall ex nm str e, In (ex, nm, str) (q_labels t) -> nth_error (o_arena o') ex = Some e -> x_state e <> SRunning -> sourced q P nm) /\
  (forall ex nm k l c, In (ex, (nm, k, Some (l, c))) (q_binds t) -> exists bs, strs bs = Val l /\ forall v x, In (v, x) bs -> sourced q P x).
Proof.
  intros OK H L R HR Ht. destruct (short_fine cf o P _ n OK H L R) as (HS & SM & SV & NC & LB).
  exact (conj (fun ex nm str e => run_labels_sourced cf OK o o' P q rs HS HR SM SV NC LB fuel t ex nm str e Ht) (fun ex nm k l c => run_binds_sourced cf OK o o' P q rs HS HR SM SV NC LB fuel t ex nm k l c Ht)).
Qed.
Print Assumptions C52_short_texts.
Example C52_short_hypotheses_met : exists o P q rs o' t, typed cfg0 o P (QFresh q) (String.length len_text + S (String.length "len([a],N)")) /\
  (Z.of_nat (String.length len_text + S (String.length "len([a],N)")) <= 10000)%Z /\
  parse_program len_text = Some (COk P) /\ parse_query (append_dot "len([a],N)") = Some (COk q) /\
  run cfg0 o rs o' /\ delivered rs = [RAnswer [("N", "s(z)")]] /\ make_tree 100 o' = Val t /\ map snd (q_labels t) = ["len([a], N)"; "len([], N)"] /\
  Forall roomy_clause P /\ all_goals no_compare P q /\ all_goals no_is P q /\ linear P q.
Proof. exact tree_case. Qed.
