(** Programs whose answers need different numbers of goals. *)
From Verif Require Import Base Machine Heap Compiler Parser Print Organizer Spec Examples Process Session Search Runs Witness Heads Builtins Sols Root Answers Complete Finite Nearer.
Open Scope string_scope.
Open Scope list_scope.

Definition near_text : string := "p(X) :- q(X,Y), r(Y). q(b,c). r(c). p(a).".
Definition near_prog : list (list node) :=
  [[NFun "p" [NVar "X"]; NFun "q" [NVar "X"; NVar "Y"]; NFun "r" [NVar "Y"]]; [NFun "q" [NCon "b"; NCon "c"]]; [NFun "r" [NCon "c"]]; [NFun "p" [NCon "a"]]].
Definition even_text : string := "p(b) :- q, r. q. r. p(a).".
Definition even_prog : list (list node) :=
  [[NFun "p" [NCon "b"]; NCon "q"; NCon "r"]; [NCon "q"]; [NCon "r"]; [NFun "p" [NCon "a"]]].

Definition lb (t : gterm) : nat := match t with GFun "p" [GCon "b"] => 3 | _ => 1 end.
Lemma lb_near : forall n t, prov_in (pow_of cfg0) (near_prog ++ append_prog) n t -> lb t <= n.
Proof.
  intros n t Ht. inversion Ht as [h b v ns Hin Hf Hn Hv| | |]; subst; try (cbn; lia).
  cbn in Hin. repeat destruct Hin as [Hin|Hin]; try contradiction; inversion Hin; subst; clear Hin; cbn; try lia.
  inversion Hf as [|a1 n1 b1 ns1 H1 H2]; subst. inversion H2 as [|a2 n2 b2 ns2 H3 H4]; subst. inversion H4; subst. cbn.
  assert (1 <= n1) by (inversion H1; lia). assert (1 <= n2) by (inversion H3; lia).
  repeat match goal with |- context [match ?x with _ => _ end] => destruct x end; lia.
Qed.
Lemma lb_even : forall n t, prov_in (pow_of cfg0) (even_prog ++ append_prog) n t -> lb t <= n.
Proof.
  intros n t Ht. inversion Ht as [h b v ns Hin Hf Hn Hv| | |]; subst; try (cbn; lia).
  cbn in Hin. repeat destruct Hin as [Hin|Hin]; try contradiction; inversion Hin; subst; clear Hin; cbn; try lia.
  inversion Hf as [|a1 n1 b1 ns1 H1 H2]; subst. inversion H2 as [|a2 n2 b2 ns2 H3 H4]; subst. inversion H4; subst. cbn.
  assert (1 <= n1) by (inversion H1; lia). assert (1 <= n2) by (inversion H3; lia). lia.
Qed.

Definition near_hyps (text : string) (P : list (list node)) : Prop := exists o q o',
  session cfg0 o P (QFresh q) /\ parse_program text = Some (COk P) /\ parse_query (append_dot "p(X)") = Some (COk q) /\
  run cfg0 o [(RAnswer [("X", "a")], 1%Z); (RAnswer [("X", "b")], 3%Z)] o' /\
  small_tables (o_sto o) /\ no_clash cfg0 P /\ no_cycles cfg0 o /\ all_goals no_compare P q /\
  proved_with cfg0 P q (fun _ => GCon "a") 1 /\ (forall n, proved_with cfg0 P q (fun _ => GCon "b") n -> 3 * 1 < 2 * n).
Lemma near_hyps_met text P : parse_program text = Some (COk P) -> (forall n t, prov_in (pow_of cfg0) (P ++ append_prog) n t -> lb t <= n) -> In [NFun "p" [NCon "a"]] P ->
  hyps_b text "p(X)" true = true ->
  match loaded text "p(X)" with
  | Some o => match calls [w0; w0] o with Some (rs', _) => rs' = [(RAnswer [("X", "a")], 1%Z); (RAnswer [("X", "b")], 3%Z)] | None => False end
  | _ => False
  end -> near_hyps text P.
Proof.
  intros EP LB Hin H1 H2. destruct (hyps_witness text "p(X)" true [w0; w0] _ H1 H2) as (o & P' & q & o' & HS & HR & EP' & EQ & SM & NC & _ & NCy & _ & AG).
  assert (P' = P) as -> by congruence. exists o, q, o'.
  assert (Eq : q = [NFun "p" [NVar "X"]]).
  { assert (K : parse_query (append_dot "p(X)") = Some (COk [NFun "p" [NVar "X"]])) by (vm_compute; reflexivity). congruence. }
  subst q. repeat (split; [assumption|]). split; [apply AG; reflexivity|]. split.
  - exists [1]. split; [|reflexivity]. constructor; [|constructor].
    refine (pin_clause _ _ (NFun "p" [NCon "a"]) [] (fun _ => GCon "a") [] _ (Forall2_nil _)). apply in_app_iff. now left.
  - intros n (ns & F & ->). inversion F as [|a m l ms Ha F' E1 E2]; subst. inversion F'; subst. apply LB in Ha. cbn in Ha |- *. lia.
Qed.
Lemma near_case : near_hyps near_text near_prog.
Proof. apply near_hyps_met; [vm_compute; reflexivity|exact lb_near|cbn; tauto|vm_compute; reflexivity|vm_compute; reflexivity]. Qed.
Lemma even_case : near_hyps even_text even_prog /\ forall c, In c even_prog -> unshared c.
Proof.
  split; [apply near_hyps_met; [vm_compute; reflexivity|exact lb_even|cbn; tauto|vm_compute; reflexivity|vm_compute; reflexivity]|].
  intros c Hc. cbn in Hc. repeat destruct Hc as [<-|Hc]; try contradiction; try exact Logic.I.
  intros [|b0 bs1] b bs2 x E Hx; injection E as <- E; [contradiction|]. destruct bs1; discriminate.
Qed.
