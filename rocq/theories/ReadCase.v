(** An answer whose text is not what it means (C72). *)
From Verif Require Import Base Machine Heap Facts Compiler Parser Print Organizer Examples Spec Valuation Process Session Search Order Runs
  Builtins Sols Solve Witness Terms Shown Alloc Atoms Clause Answers Complete Finite.
Open Scope string_scope.
Open Scope list_scope.

Lemma improper_misread : exists o P q o' v, session cfg0 o P (QFresh q) /\
  run cfg0 o [(RAnswer [("X", "[a,b]")], 1%Z)] o' /\
  parse_program "p([a|X],X)." = Some (COk P) /\ parse_query (append_dot "p(X,bc)") = Some (COk q) /\
  small_tables (o_sto o) /\ no_clash cfg0 P /\ (Z.of_nat (List.length (s_vars (o_sto o))) <= 32768)%Z /\ no_cycles cfg0 o /\
  (forall x s, In (x, s) [("X", "[a,b]")] -> s = show_ground (v x) /\ spelled (tm_of (v x)) = true) /\
  exists a, In a q /\ ~ prov (pow_of cfg0) (P ++ append_prog) (inst v a).
Proof.
  destruct (hyps_witness "p([a|X],X)." "p(X,bc)" true [w0] [(RAnswer [("X", "[a,b]")], 1%Z)]) as (o & P & q & o' & HS & HR & EP & EQ & SM & NC & VT & Cy & _); [vm_compute; reflexivity|vm_compute; reflexivity|].
  exists o, P, q, o', (fun _ => GFun "[" [GCon "a"; GFun "[" [GCon "b"; GFun "[" []]]). csplit; auto.
  - intros x s [K|[]]. injection K as <- <-. split; reflexivity.
  - assert (E1 : parse_program "p([a|X],X)." = Some (COk [[NFun "p" [NFun "[" [NCon "a"; NVar "X"]; NVar "X"]]])) by (vm_compute; reflexivity).
    assert (E2 : parse_query (append_dot "p(X,bc)") = Some (COk [NFun "p" [NVar "X"; NCon "bc"]])) by (vm_compute; reflexivity).
    rewrite E1 in EP. injection EP as <-. rewrite E2 in EQ. injection EQ as <-. eexists. split; [now left|]. cbn [inst map]. intros K.
    remember (GFun "p" _) as t eqn:Et in K. destruct K as [h b w Hin Hb| | |]; try discriminate Et.
    destruct Hin as [Hin|[Hin|[Hin|[]]]]; injection Hin as <- <-; cbn in Et; try discriminate Et. injection Et as E3 E4. rewrite E4 in E3. discriminate E3.
Qed.
