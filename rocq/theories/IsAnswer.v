(** The answers to Z is E. *)
From Verif Require Import Base Machine Heap Facts Compiler Parser Print Organizer Spec Valuation Process Session Search Order Runs
  Builtins Sols Solve Witness Terms Shown Alloc Atoms Clause Root Answers Ground Append Total Flat Safe Finite Cyclic Tree Clash Labels Shows Linear LinearCase Size SizeCase Examples.
Open Scope string_scope.
Open Scope list_scope.

Lemma is_inv pw P t : session_prog P -> prov pw (P ++ append_prog) t -> forall a e, t = GFun "is" [a; e] -> exists n, a = GInt n /\ aeval pw e = Some n.
Proof.
  intros SP H a e0 E. destruct H as [h bd v Hin Hb|t|t u|n e He]; try discriminate E.
  - exfalso. apply in_app_iff in Hin. destruct Hin as [Hin|[Hin|[Hin|[]]]].
    + pose proof (proj1 (Forall_forall _ _) (sp_wf _ SP) _ Hin) as W. cbn in W. inversion W as [|? ? Wh Wb]; subst.
      assert (K : to_fview h = FV "is" 2).
      { destruct h as [s|s|s|s l|s l]; cbn in E; try discriminate E; [destruct Wh|].
        injection E as -> E. destruct l as [|? [|? [|? ?]]]; try discriminate E. reflexivity. }
      assert (N : In (h :: bd) (clauses_of (FV "is" 2) P)).
      { unfold clauses_of. apply filter_In. split; [exact Hin|]. now apply has_head_eq. }
      rewrite (sp_nr _ SP) in N; [destruct N|]. left. discriminate.
    + injection Hin as <- <-. discriminate E.
    + injection Hin as <- <-. discriminate E.
  - injection E as <- <-. eauto.
Qed.
Theorem is_answer cf o P z e rs o' b : ord_ok cf -> session cf o P (QFresh [NFun "is" [NVar z; e]]) ->
  small_tables (o_sto o) -> no_clash cf P -> no_cycles cf o -> closed e -> run cf o rs o' -> In (RAnswer b) (delivered rs) ->
  exists n, b = [(z, string_of_Z n)] /\ forall v, aeval (pow_of cf) (inst v e) = Some n.
Proof.
  intros OK HS SM NC Cy Ce HR Hb.
  destruct (answers_sound cf OK o P _ HS SM NC rs o' b HR Hb) as (ND & Nm & K).
  destruct (K Cy) as (sg & Rd & Pv). destruct (session_parsed _ _ _ _ HS) as [SP _].
  assert (E : forall g, exists n, ginst g (sg z) = GInt n /\ forall v, aeval (pow_of cf) (inst v e) = Some n).
  { intros g. specialize (Pv g _ (or_introl eq_refl)). cbn [inst map] in Pv. destruct (is_inv _ _ _ SP Pv _ _ eq_refl) as (n & A & B). exists n. split; [exact A|].
    intros v. rewrite <- B. f_equal. now apply closed_inst. }
  destruct (E (fun _ => GInt 0)) as (n & _ & V).
  assert (E' : forall g, ginst g (sg z) = GInt n).
  { intros g. destruct (E g) as (m & A & B). specialize (B (fun _ => GInt 0)). rewrite (V (fun _ => GInt 0)) in B. injection B as <-. exact A. }
  apply ground_tm in E'. exists n. split; [|exact V].
  assert (Nm' : forall x, In x (map fst b) <-> x = z).
  { intros x. rewrite Nm. unfold closed in Ce. cbn [flat_map nvars]. rewrite Ce. cbn. split; [intros [H|[]]; now symmetry|intros ->; now left]. }
  destruct b as [|[x s] [|[x2 s2] b]].
  - exfalso. apply (proj2 (Nm' z) eq_refl).
  - assert (x = z) as -> by (apply Nm'; now left). f_equal. f_equal. rewrite (Rd z s (or_introl eq_refl)), E'. reflexivity.
  - exfalso. cbn in ND. inversion ND as [|? ? N1 _]; subst. apply N1.
    assert (x = z) as -> by (apply Nm'; now left). assert (x2 = z) as -> by (apply Nm'; right; now left). now left.
Qed.
Theorem is_short cf o P z e n rs o' b : ord_ok cf -> typed cf o P (QFresh [NFun "is" [NVar z; e]]) n -> (Z.of_nat n <= 10000)%Z ->
  Forall roomy_clause P -> linear P [NFun "is" [NVar z; e]] -> closed e -> run cf o rs o' -> In (RAnswer b) (delivered rs) ->
  exists k, b = [(z, string_of_Z k)] /\ forall v, aeval (pow_of cf) (inst v e) = Some k.
Proof.
  intros OK H L R LN Ce HR Hb. destruct (short_fine cf o P _ n OK H L R) as (HS & SM & SV & NC & _).
  exact (is_answer cf o P z e rs o' b OK HS SM NC (proj1 (short_linear cf o P _ n OK H L R LN)) Ce HR Hb).
Qed.
Definition is_text : string := "num(z,0). num(s(N),M) :- num(N,K), M is K+1.".
Lemma is_case : exists o P e rs o', typed cfg0 o P (QFresh [NFun "is" [NVar "Z"; e]]) (String.length is_text + S (String.length "Z is (2+3)*4-100//(1+6)")) /\
  (Z.of_nat (String.length is_text + S (String.length "Z is (2+3)*4-100//(1+6)")) <= 10000)%Z /\
  Forall roomy_clause P /\ linear P [NFun "is" [NVar "Z"; e]] /\ closed e /\ run cfg0 o rs o' /\ In (RAnswer [("Z", "6")]) (delivered rs).
Proof.
  destruct (typed_witness is_text "Z is (2+3)*4-100//(1+6)" (fun o P q =>
    forallb roomy_clause_b P && linear_b P q &&
    match q with [NFun "is" [NVar "Z"; e]] => match nvars e with [] => true | _ => false end | _ => false end &&
    match calls [w0] o with Some (rs, _) => answers_eqb (delivered rs) [[("Z", "6")]] | None => false end))
    as (o & P & q & A & B & C & D); [vm_compute; reflexivity|].
  assert (Q : exists e, q = [NFun "is" [NVar "Z"; e]]).
  { assert (K : parse_query (append_dot "Z is (2+3)*4-100//(1+6)") = Some (COk [NFun "is" [NVar "Z"; NEv "-" [NEv "*" [NEv "+" [NInt "2"; NInt "3"]; NInt "4"]; NEv "//" [NInt "100"; NEv "+" [NInt "1"; NInt "6"]]]]]))
      by (vm_compute; reflexivity).
    rewrite C in K. injection K as ->. eauto. }
  destruct Q as (e & ->). rewrite !andb_true_iff in D. destruct D as (((D1 & D2) & D3) & D4).
  destruct (calls [w0] o) as [[rs o']|] eqn:Ec; [|discriminate D4].
  exists o, P, e, rs, o'. split; [exact A|]. split; [vm_compute; discriminate|].
  split; [apply Forall_forall; intros c Hc; rewrite forallb_forall in D1; now apply roomy_clause_b_ok, D1|]. split; [exact (linear_b_ok _ _ D2)|].
  split; [unfold closed; destruct (nvars e); [reflexivity|discriminate D3]|]. split; [exact (calls_run _ _ _ _ Ec)|].
  rewrite (answers_eqb_ok _ _ D4). now left.
Qed.
