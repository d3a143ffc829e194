(** Independence of hash orders, earlier calls and rejected programs: final forms and examples. *)
From Coq Require Import Permutation.
From Verif Require Import Base Machine Heap Compiler Parser Print Organizer Examples Session Atoms Answers LockHist LockInst.
Open Scope string_scope.
Open Scope list_scope.

Theorem rejected_exact cf o0 hs o text r o' cs : ord_ok cf -> new_org cf = Val o0 -> In o (states cf hs o0) ->
  load_program cf text o = Some (r, o') -> r <> LOk -> s_functors (o_sto o) <> [] ->
  Forall (text_goals no_is) hs -> Forall (text_goals no_is) cs -> Forall (fun x => short_tables (o_sto x)) (states cf hs o0) ->
  Forall (fun x => short_tables (o_sto x)) (states cf cs o) -> Forall (fun x => short_tables (o_sto x)) (states cf cs o') ->
  play cf cs o' = play cf cs o.
Proof.
  intros O N Ho E Hr Ne Qh Qc Lh L1 L2. symmetry. apply replies_eq.
  apply (rejected_same False False (fun x => x) cf O o0 hs o text r o' cs); auto; (eapply Forall_impl; [apply quiet_no_is|assumption]).
Qed.
Theorem rejected_alike cf o0 hs o text r o' cs : ord_ok cf -> new_org cf = Val o0 -> In o (states cf hs o0) ->
  load_program cf text o = Some (r, o') -> r <> LOk -> s_functors (o_sto o) <> [] ->
  Forall (fun x => short_tables (o_sto x)) (states cf hs o0) ->
  Forall (fun x => short_tables (o_sto x)) (states cf cs o) -> Forall (fun x => short_tables (o_sto x)) (states cf cs o') ->
  alike (play cf cs o) (play cf cs o').
Proof.
  intros O N Ho E Hr Ne Lh L1 L2. apply replies_alike.
  apply (rejected_same True True (fun x => x) cf O o0 hs o text r o' cs); auto; apply Forall_forall; intros; apply quiet_true.
Qed.
Theorem fresh_exact cf1 cf2 o1 o2 P s1 s2 text cs : ord_ok cf1 -> ord_ok cf2 -> (forall a b, c_powf cf1 a b = c_powf cf2 a b) ->
  session cf1 o1 P s1 -> session cf2 o2 P s2 -> o_limit o1 = o_limit o2 ->
  (forall c n, In c P -> In n (tl c) -> no_is n) -> Forall (text_goals no_is) (CallQuery text :: cs) ->
  Forall (fun x => short_tables (o_sto x)) (states cf1 (CallQuery text :: cs) o1) ->
  Forall (fun x => short_tables (o_sto x)) (states cf2 (CallQuery text :: cs) o2) ->
  play cf1 (CallQuery text :: cs) o1 = play cf2 (CallQuery text :: cs) o2.
Proof.
  intros O1 O2 PW H1 H2 Li QP Q L1 L2. inversion Q as [|? ? Q1 Q2]; subst. apply replies_eq.
  apply (sessions_same False False (fun x => x) cf1 cf2 O1 O2 PW o1 o2 P s1 s2 text cs); auto.
  - intros c Hc n Hn. right. exact (QP c n Hc Hn).
  - now apply quiet_no_is.
  - eapply Forall_impl; [apply quiet_no_is|assumption].
Qed.
Theorem fresh_alike cf1 cf2 o1 o2 P s1 s2 text cs : ord_ok cf1 -> ord_ok cf2 -> (forall a b, c_powf cf1 a b = c_powf cf2 a b) ->
  session cf1 o1 P s1 -> session cf2 o2 P s2 -> o_limit o1 = o_limit o2 ->
  Forall (fun x => short_tables (o_sto x)) (states cf1 (CallQuery text :: cs) o1) ->
  Forall (fun x => short_tables (o_sto x)) (states cf2 (CallQuery text :: cs) o2) ->
  alike (play cf1 (CallQuery text :: cs) o1) (play cf2 (CallQuery text :: cs) o2).
Proof.
  intros O1 O2 PW H1 H2 Li L1 L2. apply replies_alike.
  apply (sessions_same True True (fun x => x) cf1 cf2 O1 O2 PW o1 o2 P s1 s2 text cs); auto.
  - intros c Hc n Hn. now left.
  - apply quiet_true.
  - apply Forall_forall. intros. apply quiet_true.
Qed.

(** --- examples --- *)
Definition rev0 : cfg := {| c_ord := @rev string; c_powf := c_powf cfg0 |}.
Lemma rev0_ord : ord_ok rev0.
Proof. intros l. symmetry. apply Permutation_rev. Qed.
Lemma cfg0_ord : ord_ok cfg0.
Proof. intros l. reflexivity. Qed.
Lemma rev0_ok : ord_ok cfg0 /\ ord_ok rev0 /\ (forall a b, c_powf cfg0 a b = c_powf rev0 a b) /\
  (exists o1 o2, new_org cfg0 = Val o1 /\ new_org rev0 = Val o2) /\
  exists P c, parse_program "r(X,Y) :- p(X,Z), p(Z,U), p(U,Y)." = Some (COk P) /\ In c P /\ perm_order cfg0 c true <> perm_order rev0 c true.
Proof.
  split; [exact cfg0_ord|]. split; [exact rev0_ord|]. split; [reflexivity|]. split; [do 2 eexists; split; reflexivity|].
  eexists. eexists. split; [vm_compute; reflexivity|]. split; [left; reflexivity|]. vm_compute. discriminate.
Qed.
(** the state after some calls *)
Fixpoint after (cs : list call) (o : org) : option org :=
  match cs with
  | [] => Some o
  | c :: cs' => match perform cfg0 c o with Val (_, o') => after cs' o' | _ => None end
  end.
Definition replay (cs : list call) : option org := match new_org cfg0 with Val o => after cs o | _ => None end.
Definition ask1 : call := CallAnswer 100 100 w0.
Lemma later_query : exists o o' cs, replay [CallProgram "e(X,X)."] = Some o /\
  load_program cfg0 "q(f) :- r(l). append(a,b,c)." o = Some (LErr CRedef, o') /\
  play cfg0 cs o = [Val (ReplyLoad LOk); Val (ReplyAnswer (RError (ENotArith (FV "a" 0))) 2)] /\
  play cfg0 cs o' = [Val (ReplyLoad LOk); Ub UHeap].
Proof.
  eexists. eexists. exists [CallQuery "e(Y,foo(a)), X is Y"; ask1]. split; [vm_compute; reflexivity|]. split; [vm_compute; reflexivity|]. split; vm_compute; reflexivity.
Qed.
Lemma earlier_query : exists o1 o2 cs, replay [CallProgram "e(X,X)."] = Some o1 /\
  replay [CallProgram "e(X,X)."; CallQuery "e(r(l),f)"] = Some o2 /\
  play cfg0 (CallQuery "e(Y,foo(a)), X is Y" :: cs) o1 = [Val (ReplyLoad LOk); Val (ReplyAnswer (RError (ENotArith (FV "a" 0))) 2)] /\
  play cfg0 (CallQuery "e(Y,foo(a)), X is Y" :: cs) o2 = [Val (ReplyLoad LOk); Ub UHeap].
Proof.
  eexists. eexists. exists [ask1]. split; [vm_compute; reflexivity|]. split; [vm_compute; reflexivity|]. split; vm_compute; reflexivity.
Qed.
Definition short_b (s : storage) : bool := ((Z.of_nat (List.length (s_functors s)) <=? 32768) && (Z.of_nat (List.length (s_vars s)) <=? 32768))%Z.
Lemma short_check l : forallb (fun x => short_b (o_sto x)) l = true -> Forall (fun x => short_tables (o_sto x)) l.
Proof.
  intros H. apply Forall_forall. intros x Hx. rewrite forallb_forall in H. specialize (H x Hx). unfold short_b in H. unfold short_tables.
  apply andb_prop in H as [H1 H2]. split; apply Z.leb_le; assumption.
Qed.
Definition calm (n : node) : bool := negb (fview_eqb (to_fview n) (FV "is" 2)).
Lemma calm_ok n : calm n = true -> no_is n.
Proof. unfold calm, no_is. intros H E. rewrite E in H. discriminate H. Qed.
Definition calm_prog (P : list (list node)) : bool := forallb (fun c => forallb calm (tl c)) P.
Lemma calm_prog_ok P : calm_prog P = true -> forall c n, In c P -> In n (tl c) -> no_is n.
Proof.
  unfold calm_prog. intros H c n Hc Hn. rewrite forallb_forall in H. specialize (H c Hc). cbv beta in H. rewrite forallb_forall in H.
  exact (calm_ok n (H n Hn)).
Qed.
Definition calm_call (c : call) : bool :=
  match c with
  | CallProgram t => match parse_program t with Some (COk P) => calm_prog P | _ => true end
  | CallQuery t => match parse_query (append_dot t) with Some (COk q) => forallb calm q | _ => true end
  | _ => true
  end.
Lemma calm_calls cs : forallb calm_call cs = true -> Forall (text_goals no_is) cs.
Proof.
  intros H. apply Forall_forall. intros c Hc. rewrite forallb_forall in H. specialize (H c Hc). destruct c as [t|t| |]; cbn [calm_call text_goals] in *; auto.
  - intros P cl n E. rewrite E in H. exact (calm_prog_ok P H cl n).
  - intros q n E Hn. rewrite E in H. rewrite forallb_forall in H. exact (calm_ok n (H n Hn)).
Qed.
Definition size_of (o : org) : nat := List.length (s_functors (o_sto o)).
Lemma size_diff o1 o2 : Nat.eqb (size_of o1) (size_of o2) = false -> o_sto o1 <> o_sto o2.
Proof. unfold size_of. intros H E. rewrite E, Nat.eqb_refl in H. discriminate H. Qed.
Ltac short := apply short_check; vm_compute; reflexivity.
Ltac still := apply calm_calls; vm_compute; reflexivity.
Lemma rejected_case : exists o0 hs o o' cs, new_org cfg0 = Val o0 /\ In o (states cfg0 hs o0) /\
  load_program cfg0 "q(f) :- r(l). append(a,b,c)." o = Some (LErr CRedef, o') /\ s_functors (o_sto o) <> [] /\
  Forall (text_goals no_is) hs /\ Forall (text_goals no_is) cs /\ Forall (fun x => short_tables (o_sto x)) (states cfg0 hs o0) /\
  Forall (fun x => short_tables (o_sto x)) (states cfg0 cs o) /\ Forall (fun x => short_tables (o_sto x)) (states cfg0 cs o') /\
  o_sto o' <> o_sto o /\ play cfg0 cs o = [Val (ReplyAnswer (RAnswer [("Y", "b")]) 1); Val (ReplyLoad LOk); Val (ReplyAnswer (RAnswer [("Z", "f(c)")]) 2)].
Proof.
  eexists. exists [CallProgram "p(a). p(b). e(X,X). r(X) :- e(X,f(c))."; CallQuery "p(Y)"; ask1]. eexists. eexists. exists [ask1; CallQuery "r(Z)"; ask1].
  split; [vm_compute; reflexivity|]. split; [vm_compute; do 3 right; left; reflexivity|]. split; [vm_compute; reflexivity|]. split; [vm_compute; discriminate|].
  split; [still|]. split; [still|]. split; [short|]. split; [short|]. split; [short|]. split; [apply size_diff; vm_compute; reflexivity|]. vm_compute. reflexivity.
Qed.
Definition text0 : string := "p(a). e(X,X). r(X,Y) :- e(Z,f(c)), p(X), e(Y,Z).".
Lemma fresh_case : exists o1 o2 P s1 s2 cs, session cfg0 o1 P s1 /\ session rev0 o2 P s2 /\ o_limit o1 = o_limit o2 /\
  (forall c n, In c P -> In n (tl c) -> no_is n) /\ Forall (text_goals no_is) (CallQuery "r(X,f(Y))" :: cs) /\
  Forall (fun x => short_tables (o_sto x)) (states cfg0 (CallQuery "r(X,f(Y))" :: cs) o1) /\
  Forall (fun x => short_tables (o_sto x)) (states rev0 (CallQuery "r(X,f(Y))" :: cs) o2) /\
  o_sto o1 <> o_sto o2 /\ o_queue o2 <> [] /\ o_queue o1 = [] /\
  play cfg0 (CallQuery "r(X,f(Y))" :: cs) o1 = [Val (ReplyLoad LOk); Val (ReplyAnswer (RAnswer [("X", "a"); ("Y", "c")]) 4); Val (ReplyAnswer RFalse 4)].
Proof.
  eexists. eexists. eexists. eexists. eexists. exists [ask1; ask1].
  split; [eapply ss_program with (text := text0); [eapply ss_new; vm_compute; reflexivity|vm_compute; reflexivity|vm_compute; reflexivity]|].
  split; [eapply ss_query with (text := "p(B), k(B)"); [eapply ss_program with (text := text0);
    [eapply ss_program with (text := "q(X,m) :- p(X), n(X)."); [eapply ss_new; vm_compute; reflexivity|vm_compute; reflexivity|vm_compute; reflexivity]
    |vm_compute; reflexivity|vm_compute; reflexivity]|vm_compute; reflexivity|vm_compute; reflexivity]|].
  split; [reflexivity|]. split; [apply calm_prog_ok; vm_compute; reflexivity|]. split; [still|]. split; [short|]. split; [short|].
  split; [apply size_diff; vm_compute; reflexivity|]. split; [vm_compute; discriminate|]. split; vm_compute; reflexivity.
Qed.
