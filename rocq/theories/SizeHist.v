(** Short texts in histories of calls. *)
From Coq Require Import Lia.
From Verif Require Import Base Machine Heap Facts Compiler Parser Print Organizer Examples Session Atoms Search Answers Loads LockHist LockInst Independence Stale StaleCase Language Isolation Ends Settle EndsLoad Size.
Open Scope string_scope.
Open Scope list_scope.

(** the characters of the text of a call, one more for a query *)
Definition chars_of (c : call) : nat := match c with CallProgram t => String.length t | CallQuery t => S (String.length t) | _ => 0 end.
Definition chars (cs : list call) : nat := list_sum (map chars_of cs).
Lemma chars_cons c cs : chars (c :: cs) = chars_of c + chars cs.
Proof. reflexivity. Qed.
Lemma perform_bounded cf c o r o' k : bounded k (o_sto o) -> perform cf c o = Val (r, o') -> bounded (k + 3 * chars_of c) (o_sto o').
Proof.
  intros B E. destruct c as [t|t|f n w|t]; cbn [perform chars_of] in *.
  - destruct (load_program cf t o) as [[r1 o1]|] eqn:El; [|discriminate]. injection E as _ <-. exact (load_program_grows cf t o r1 o1 k B El).
  - destruct (load_query cf t o) as [[r1 o1]|] eqn:El; [|discriminate]. injection E as _ <-. exact (load_query_grows cf t o r1 o1 k B El).
  - destruct (get_answer cf f n w o) as [[r1 o1]|u|] eqn:El; try discriminate. cbn [bind] in E. injection E as _ <-. rewrite Nat.mul_0_r, Nat.add_0_r.
    destruct (answer_kept cf f n 0 w o r1 o1 El) as [[_ (-> & _)]|[_ (o2 & ->)]]; [exact B|]. constructor; cbn; [lia|lia|contradiction].
  - injection E as _ <-. rewrite Nat.mul_0_r, Nat.add_0_r. exact B.
Qed.
Lemma states_bounded cf cs : forall o k, bounded k (o_sto o) -> Forall (fun x => bounded (k + 3 * chars cs) (o_sto x)) (states cf cs o).
Proof.
  induction cs as [|c cs IH]; intros o k B; cbn [states]; (constructor; [eapply bounded_le; [|exact B]; lia|]); [constructor|].
  destruct (perform cf c o) as [[r o']|u|] eqn:E; try constructor. specialize (IH o' _ (perform_bounded cf c o r o' k B E)). rewrite chars_cons.
  eapply Forall_impl; [|exact IH]. intros x H. eapply bounded_le; [|exact H]. lia.
Qed.
Lemma new_bounded cf o : new_org cf = Val o -> bounded 75 (o_sto o).
Proof. intros E. exact (typed_bounded cf o [] QNone 0 (ty_new cf o E)). Qed.
Lemma bounded_short k s : bounded k s -> (Z.of_nat k <= 32768)%Z -> short_tables s.
Proof. intros [A B _] L. split; lia. Qed.
Lemma states_short cf cs o k : bounded k (o_sto o) -> (Z.of_nat (k + 3 * chars cs) <= 32768)%Z -> Forall (fun x => short_tables (o_sto x)) (states cf cs o).
Proof. intros B L. eapply Forall_impl; [|exact (states_bounded cf cs o k B)]. intros x H. exact (bounded_short _ _ H L). Qed.
Lemma state_bounded cf hs o0 o : new_org cf = Val o0 -> In o (states cf hs o0) -> bounded (75 + 3 * chars hs) (o_sto o).
Proof. intros E H. pose proof (states_bounded cf hs o0 75 (new_bounded cf o0 E)) as F. rewrite Forall_forall in F. exact (F o H). Qed.

Theorem rejected_short cf o0 hs o text r o' cs : ord_ok cf -> new_org cf = Val o0 -> In o (states cf hs o0) ->
  load_program cf text o = Some (r, o') -> r <> LOk -> s_functors (o_sto o) <> [] ->
  (Z.of_nat (chars hs) + Z.of_nat (String.length text) + Z.of_nat (chars cs) <= 10000)%Z ->
  (Forall (text_goals no_is) hs -> Forall (text_goals no_is) cs -> play cf cs o' = play cf cs o) /\ alike (play cf cs o) (play cf cs o').
Proof.
  intros OK N H E Hr Ne L. pose proof (state_bounded cf hs o0 o N H) as B. pose proof (load_program_grows cf text o r o' _ B E) as B'.
  assert (S0 : Forall (fun x => short_tables (o_sto x)) (states cf hs o0)) by (apply (states_short cf hs o0 75 (new_bounded cf o0 N)); lia).
  assert (S1 : Forall (fun x => short_tables (o_sto x)) (states cf cs o)) by (apply (states_short cf cs o _ B); lia).
  assert (S2 : Forall (fun x => short_tables (o_sto x)) (states cf cs o')) by (apply (states_short cf cs o' _ B'); lia).
  split; [intros Q1 Q2; exact (rejected_exact cf o0 hs o text r o' cs OK N H E Hr Ne Q1 Q2 S0 S1 S2)|exact (rejected_alike cf o0 hs o text r o' cs OK N H E Hr Ne S0 S1 S2)].
Qed.
Theorem histories_short cf1 cf2 oa ob hs1 hs2 o1 o2 P s1 s2 text cs : ord_ok cf1 -> ord_ok cf2 -> (forall a b, c_powf cf1 a b = c_powf cf2 a b) ->
  new_org cf1 = Val oa -> In o1 (states cf1 hs1 oa) -> new_org cf2 = Val ob -> In o2 (states cf2 hs2 ob) ->
  history cf1 o1 P s1 -> history cf2 o2 P s2 -> o_limit o1 = o_limit o2 ->
  (Z.of_nat (chars hs1) + Z.of_nat (chars (CallQuery text :: cs)) <= 10000)%Z -> (Z.of_nat (chars hs2) + Z.of_nat (chars (CallQuery text :: cs)) <= 10000)%Z ->
  ((forall c n, In c P -> In n (tl c) -> no_is n) -> Forall (text_goals no_is) (CallQuery text :: cs) ->
   play cf1 (CallQuery text :: cs) o1 = play cf2 (CallQuery text :: cs) o2) /\
  alike (play cf1 (CallQuery text :: cs) o1) (play cf2 (CallQuery text :: cs) o2).
Proof.
  intros O1 O2 PW N1 I1 N2 I2 H1 H2 Li L1 L2.
  assert (S1 : Forall (fun x => short_tables (o_sto x)) (states cf1 (CallQuery text :: cs) o1)) by (apply (states_short cf1 _ o1 _ (state_bounded cf1 hs1 oa o1 N1 I1)); lia).
  assert (S2 : Forall (fun x => short_tables (o_sto x)) (states cf2 (CallQuery text :: cs) o2)) by (apply (states_short cf2 _ o2 _ (state_bounded cf2 hs2 ob o2 N2 I2)); lia).
  split; [intros Q1 Q2; exact (history_exact cf1 cf2 o1 o2 P s1 s2 text cs O1 O2 PW H1 H2 Li Q1 Q2 S1 S2)|exact (history_alike cf1 cf2 o1 o2 P s1 s2 text cs O1 O2 PW H1 H2 Li S1 S2)].
Qed.

(** --- arguments --- *)
Lemma in_fsize k l : In k l -> nsize k <= fsize l.
Proof. induction l as [|n l IH]; [contradiction|]. intros [->|H]; rewrite fsize_cons; [lia|specialize (IH H); lia]. Qed.
Lemma sub_size m n : sub m n -> nsize m <= nsize n.
Proof. induction 1 as [|n k Hk _ IH]; [lia|]. rewrite (nsize_kids n). pose proof (in_fsize k _ Hk). lia. Qed.
Lemma small_narrow n : (Z.of_nat (nsize n) < 65536)%Z -> narrow n.
Proof.
  intros L k m Hk Hs. pose proof (sub_size m k Hs) as A. pose proof (in_fsize k _ Hk) as B. rewrite nsize_kids in A, L. pose proof (fsize_length (kids m)). lia.
Qed.
Theorem short_narrow c : (Z.of_nat (chars_of c) < 65536)%Z -> narrow_call c.
Proof.
  intros L. destruct c as [t|t|f n w|t]; cbn [chars_of narrow_call] in *; [| |exact I|exact I].
  - intros P c n Ep Hc Hn. apply small_narrow. apply program_exact, program_size in Ep. pose proof (in_fsize n c Hn) as A.
    assert (B : fsize c <= psize P) by (clear - Hc; induction P as [|d P IH]; [contradiction|]; rewrite psize_cons; destruct Hc as [->|Hc]; [lia|specialize (IH Hc); lia]). lia.
  - intros q n Ep Hn. apply small_narrow. apply query_exact, query_size in Ep. pose proof (in_fsize n q Hn) as A. pose proof (dot_len t). lia.
Qed.

(** --- cases --- *)
Lemma rejected_short_case : exists o0 o o', let hs := [CallProgram "p(a). p(b). e(X,X). r(X) :- e(X,f(c))."; CallQuery "p(Y)"; ask1] in
  let cs := [ask1; CallQuery "r(Z)"; ask1] in
  new_org cfg0 = Val o0 /\ In o (states cfg0 hs o0) /\
  load_program cfg0 "q(f) :- r(l). append(a,b,c)." o = Some (LErr CRedef, o') /\ s_functors (o_sto o) <> [] /\
  (Z.of_nat (chars hs) + Z.of_nat (String.length "q(f) :- r(l). append(a,b,c).") + Z.of_nat (chars cs) <= 10000)%Z /\
  Forall (text_goals no_is) hs /\ Forall (text_goals no_is) cs /\ o_sto o' <> o_sto o /\
  play cfg0 cs o = [Val (ReplyAnswer (RAnswer [("Y", "b")]) 1); Val (ReplyLoad LOk); Val (ReplyAnswer (RAnswer [("Z", "f(c)")]) 2)].
Proof.
  eexists. eexists. eexists. cbv zeta.
  split; [vm_compute; reflexivity|]. split; [vm_compute; do 3 right; left; reflexivity|]. split; [vm_compute; reflexivity|]. split; [vm_compute; discriminate|].
  split; [vm_compute; discriminate|]. split; [still|]. split; [still|]. split; [apply size_diff; vm_compute; reflexivity|]. vm_compute. reflexivity.
Qed.
Lemma history_short_case : exists oa ob o1 o2 P s1 s2,
  let hs1 := [CallProgram mixed_old; CallQuery "q(X), p(X)"; CallAnswer 100 100 (w_turns 3); CallProgram mixed_new; CallAnswer 100 100 w0] in
  let hs2 := [CallProgram mixed_new] in let cs := [ask1; ask1] in
  new_org cfg0 = Val oa /\ In o1 (states cfg0 hs1 oa) /\ new_org rev0 = Val ob /\ In o2 (states rev0 hs2 ob) /\
  history cfg0 o1 P s1 /\ history rev0 o2 P s2 /\ s1 = QStale /\ o_limit o1 = o_limit o2 /\
  (Z.of_nat (chars hs1) + Z.of_nat (chars (CallQuery "p(X)" :: cs)) <= 10000)%Z /\ (Z.of_nat (chars hs2) + Z.of_nat (chars (CallQuery "p(X)" :: cs)) <= 10000)%Z /\
  (forall c n, In c P -> In n (tl c) -> no_is n) /\ Forall (text_goals no_is) (CallQuery "p(X)" :: cs) /\
  play cfg0 (CallQuery "p(X)" :: cs) o1 = [Val (ReplyLoad LOk); Val (ReplyAnswer (RAnswer [("X", "b")]) 1); Val (ReplyAnswer RFalse 1)].
Proof.
  eexists. eexists. eexists. eexists. eexists. eexists. eexists. cbv zeta.
  split; [vm_compute; reflexivity|]. split; [vm_compute; do 5 right; left; reflexivity|]. split; [vm_compute; reflexivity|]. split; [vm_compute; right; left; reflexivity|].
  split.
  { eapply hi_answer with (fuel := 100) (n := 100) (w := w0); [eapply hi_program with (text := mixed_new);
      [eapply hi_answer with (fuel := 100) (n := 100) (w := w_turns 3); [eapply hi_query with (text := "q(X), p(X)");
        [eapply hi_program with (text := mixed_old); [eapply hi_new; vm_compute; reflexivity|vm_compute; reflexivity|vm_compute; reflexivity]
        |vm_compute; reflexivity|vm_compute; reflexivity]|vm_compute; reflexivity|discriminate]
      |vm_compute; reflexivity|vm_compute; reflexivity]|vm_compute; reflexivity|discriminate]. }
  split; [eapply hi_program with (text := mixed_new); [eapply hi_new; vm_compute; reflexivity|vm_compute; reflexivity|vm_compute; reflexivity]|].
  split; [reflexivity|]. split; [reflexivity|]. split; [vm_compute; discriminate|]. split; [vm_compute; discriminate|]. split; [apply calm_prog_ok; vm_compute; reflexivity|]. split; [still|].
  vm_compute. reflexivity.
Qed.
Lemma references_short cf cs o0 o fuel o1 o2 : new_org cf = Val o0 -> Forall (fun c => (Z.of_nat (chars_of c) < 65536)%Z) cs -> In o (states cf cs o0) ->
  Isolation.quiet cf fuel o o1 -> o2 = o1 \/ inside cf fuel o1 o2 -> all_settle o2.
Proof. intros E F. apply references_end_always; [exact E|]. eapply Forall_impl; [|exact F]. exact short_narrow. Qed.
Lemma references_short_case : let cs := [CallProgram "p(a,b)."; CallQuery "p(Z,Z)"; CallProgram "p(X,b) :- q(f(X)). q(f(c))."] in
  exists o0 o o1 o2, new_org cfg0 = Val o0 /\ Forall (fun c => (Z.of_nat (chars_of c) < 65536)%Z) cs /\ In o (states cfg0 cs o0) /\
  Isolation.quiet cfg0 1000 o o1 /\ inside cfg0 1000 o1 o2 /\
  match reads o2 2 3, reads o2 2 0, reads o2 2 1 with Some (CRef 0 _), Some (CRef 1 _), Some (CCons _) => true | _, _, _ => false end = true.
Proof.
  intros cs.
  destruct (history_witness cs 2 2 (fun o2 => match reads o2 2 3, reads o2 2 0, reads o2 2 1 with Some (CRef 0 _), Some (CRef 1 _), Some (CCons _) => true | _, _, _ => false end))
    as (o0 & o & o1 & o2 & A & _ & B & C & D & E); [vm_compute; reflexivity|vm_compute; reflexivity|].
  exists o0, o, o1, o2. split; [exact A|]. split; [repeat (constructor; [vm_compute; reflexivity|]); constructor|]. exact (conj B (conj C (conj D E))).
Qed.
