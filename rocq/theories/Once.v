(** Every variable of the query is named exactly once in an answer, whatever the program. *)
From Verif Require Import Base Machine Heap Facts Compiler Parser Organizer Spec Print Valuation HeapSim Process Refine Mono Turn Shape Session Code Put Search PutRun Get Alloc Atoms Clause Stack Ready Heads Builtins Sols Solve Terms Shown Parsed Tables Root Order Cells Runs Answers TreeSrc Examples Witness Refute Finite.
Open Scope string_scope.
Open Scope list_scope.

Definition sub_names (a : catom) : list string := if ca_user a then map (fun s => fst (fst s)) (ca_subs a) else [].
Definition code_names (cs : list catom) : list string := flat_map sub_names cs.
(** atoms of the query call something *)
Definition calling (a : catom) : Prop := ca_user a = true -> (exists f, last (ca_code a) IProceed = ICall f) /\ is_dealloc a = false.

(** --- the compiler --- *)
Section Comp.
Variable perm : string -> option nat.
Lemma var_regs_names vs vx : forall done x, In x (map (fun s => fst (fst s)) (var_regs perm vs vx done)) <-> In x vs /\ ~ In x done.
Proof.
  induction vs as [|s vs IH]; intros done x; cbn [var_regs]; [cbn; tauto|]. destruct (existsb (String.eqb s) done) eqn:E.
  - rewrite IH. apply existsb_exists in E. destruct E as (y & Hy & Ey). apply String.eqb_eq in Ey. subst y. cbn. split; [tauto|]. intros [[<-|K] N]; [contradiction|tauto].
  - assert (N : ~ In s done). { intros K. rewrite <- not_true_iff_false in E. apply E. apply existsb_exists. exists s. split; [exact K|apply String.eqb_refl]. }
    cbn [map]. replace (fst (fst (match perm s with Some y => (s, y, true) | None => _ end))) with s by (destruct (perm s); reflexivity).
    cbn [In]. rewrite IH. cbn [In]. destruct (string_dec s x) as [<-|Ne]; [tauto|]. tauto.
Qed.
Lemma subs_names a x : In x (map (fun s => fst (fst s)) (find_var_reg_substitutions perm a)) <-> is_constant (aa_top a) = false /\ In x (vars_of (aa_top a)).
Proof.
  unfold find_var_reg_substitutions. destruct (is_constant (aa_top a)); [cbn; split; [tauto|intros [K _]; discriminate K]|]. rewrite var_regs_names. cbn. tauto.
Qed.
Lemma query_atoms_names ns : forall pre seen s r s', compile_query_atoms perm pre true ns seen s = (COk r, s') -> forall x, In x (code_names r) <-> exists n, In n ns /\ is_constant n = false /\ In x (vars_of n).
Proof.
  induction ns as [|n ns IH]; intros pre seen s r s' E; cbn [compile_query_atoms] in E.
  - injection E as <- <-. intros x. cbn. split; [contradiction|]. intros (n & [] & _).
  - unfold compile_query_atom in E. pose proof (aa_top_one n) as Et. destruct (assign_one n) as [a cnt]. cbn [fst] in Et.
    apply cbind_ok in E. destruct E as ([a1 s1] & t1 & E1 & E). apply cbind_ok in E1. destruct E1 as ([c s2] & t2 & E2 & E1). injection E1 as <- <- <-.
    apply cbind_ok in E. destruct E as (r1 & t3 & E3 & E). injection E as <- <-. pose proof (IH _ _ _ _ _ E3) as K.
    intros x. cbn [code_names flat_map]. rewrite in_app_iff. change (flat_map sub_names r1) with (code_names r1). rewrite K. unfold sub_names at 1. cbn [ca_user ca_subs]. rewrite subs_names, Et. split.
    + intros [[A B]|(m & A & B)]; [exists n|exists m]; cbn; tauto.
    + intros (m & [<-|A] & B); [left; exact B|right; eauto].
Qed.
Lemma query_atoms_not_user ns : forall pre seen s r s', compile_query_atoms perm pre false ns seen s = (COk r, s') -> Forall (fun a => ca_user a = false) r.
Proof.
  induction ns as [|n ns IH]; intros pre seen s r s' E; cbn [compile_query_atoms] in E; [injection E as <- <-; constructor|].
  unfold compile_query_atom in E. destruct (assign_one n) as [a cnt]. apply cbind_ok in E. destruct E as ([a1 s1] & t1 & E1 & E). apply cbind_ok in E1. destruct E1 as ([c s2] & t2 & E2 & E1). injection E1 as <- <- <-.
  apply cbind_ok in E. destruct E as (r1 & t3 & E3 & E). injection E as <- <-. constructor; [reflexivity|exact (IH _ _ _ _ _ E3)].
Qed.
End Comp.
Lemma clause_not_user cf b c s f r s' : compile_program_term cf b c s = (COk (f, r), s') -> Forall (fun a => ca_user a = false) r.
Proof.
  destruct c as [|h body]; [discriminate|]. cbn [compile_program_term]. set (ps := perm_order cf (h :: body) true). destruct (negb b && redefines h); [discriminate|].
  set (X := match body with [] => _ | _ => _ end). destruct X as [[ha oba] cnt]. intros E.
  apply cbind_ok in E. destruct E as ([hc s1] & t1 & E1 & E). apply cbind_ok in E. destruct E as ([firsts s3] & t3 & E3 & E). apply cbind_ok in E. destruct E as (others & t4 & E4 & E). injection E as _ <- _.
  constructor; [reflexivity|]. apply Forall_app. split.
  - destruct oba as [ba|]; [|injection E3 as <- _ _; constructor]. apply cbind_ok in E3. destruct E3 as ([bc s4] & t5 & _ & E3). injection E3 as <- _ _. constructor; [reflexivity|constructor].
  - apply Forall_app. split; [exact (query_atoms_not_user _ _ _ _ _ _ _ E4)|]. destruct (Nat.eqb _ 0); constructor; [reflexivity|constructor].
Qed.
Definition rules_not_user (pg : prog) : Prop := forall f rs r, plookup f pg = Some rs -> In r rs -> Forall (fun a => ca_user a = false) r.
Lemma prog_not_user cf sto P pg : prog_code cf sto P pg -> rules_not_user pg.
Proof.
  intros PC f rs r Ef Hr. specialize (PC f).
  assert (L : forall b cs, Forall2 (clause_code cf sto b) cs rs -> Forall (fun a => ca_user a = false) r).
  { intros b cs F. induction F as [|c r' cs rs' (s0 & s1 & g & Ec & _) F IH]; [contradiction|]. destruct Hr as [<-|Hr]; [exact (clause_not_user _ _ _ _ _ _ _ Ec)|].
    clear Ef PC. revert Hr. clear - F. revert r. induction F as [|c r' cs rs' (s0 & s1 & g & Ec & _) F IH]; intros r Hr; [contradiction|]. destruct Hr as [<-|Hr]; [exact (clause_not_user _ _ _ _ _ _ _ Ec)|auto]. }
  destruct (special f) as [i|].
  - destruct PC as (rs' & E & (r1 & (s0 & s1 & g & Ec & _) & K)). rewrite Ef in E. injection E as <-. subst rs. destruct Hr as [<-|[]]. pose proof (clause_not_user _ _ _ _ _ _ _ Ec) as F.
    destruct r1 as [|a r1]; [constructor|]. inversion F; subst. cbn [insert_pred]. constructor; assumption.
  - destruct (is_append f).
    + destruct PC as (rs' & E & F). rewrite Ef in E. injection E as <-. exact (L _ _ F).
    + rewrite Ef in PC. destruct PC as [F _]. exact (L _ _ F).
Qed.

(** --- the search --- *)
Section Search.
Variable cf : cfg.
Variable sto : storage.
Variable pg : prog.
Hypothesis NU : rules_not_user pg.
Variable qv : string -> Prop.
Record named (p : process) : Prop := {
  na_calls : Forall calling (p_codes p);
  na_names : forall l, p_trail p = Val l -> forall x, In x (map fst l) \/ In x (code_names (p_codes p)) <-> qv x }.
Lemma sub_addrs_names m ss : forall l, fsub_addrs m ss = Val l -> map fst l = map (fun s => fst (fst s)) ss.
Proof.
  induction ss as [|[[nm r] b] ss IH]; intros l E; cbn [fsub_addrs] in E; [injection E as <-; reflexivity|].
  unfold fsub_addr in E. destruct (if b then _ else _) as [c|u|]; cbn [bind] in E; try discriminate E. destruct (get_heap_i c) as [a|u|]; cbn [bind] in E; try discriminate E.
  destruct (fsub_addrs m ss) as [l'|u|]; cbn [bind] in E; try discriminate E. injection E as <-. cbn. f_equal. now apply IH.
Qed.
Lemma names_app cs ds x : In x (code_names (cs ++ ds)) <-> In x (code_names cs) \/ In x (code_names ds).
Proof. unfold code_names. now rewrite flat_map_app, in_app_iff. Qed.
Lemma not_user_names r : Forall (fun a => ca_user a = false) r -> code_names r = [].
Proof. induction 1 as [|a r Ha F IH]; [reflexivity|]. cbn. unfold sub_names at 1. rewrite Ha. exact IH. Qed.
Lemma not_user_calls r : Forall (fun a => ca_user a = false) r -> Forall calling r.
Proof. apply Forall_impl. intros a E K. rewrite E in K. discriminate K. Qed.
Lemma turn_named p r : named p -> turns cf sto pg p r ->
  (forall k, In k (kids_of r) -> named k) /\ forall b, r = PDone b -> NoDup (map fst b) /\ forall x, In x (map fst b) <-> qv x.
Proof.
  intros [Nc Nn] (fuel & E). unfold p_turn in E. destruct (p_codes p) as [|a rest] eqn:Ec; [discriminate E|]. inversion Nc as [|? ? Ca Cr]; subst.
  destruct (run_local _ _ _ _ _) as [[s m]|u|]; cbn [bind] in E; try discriminate E.
  destruct s as [| |e]; [|injection E as <-; split; [intros k []|discriminate]|injection E as <-; split; [intros k []|discriminate]].
  assert (U : (forall f, last (ca_code a) IProceed <> ICall f) -> forall x, In x (code_names (a :: rest)) <-> In x (code_names rest)).
  { intros N x. cbn [code_names flat_map]. rewrite in_app_iff. unfold sub_names at 1. destruct (ca_user a) eqn:Eu; [|cbn; tauto]. destruct (Ca Eu) as [(f & K) _]. elim (N f K). }
  destruct (last (ca_code a) IProceed) eqn:El; try discriminate E.
  - destruct (plookup f pg) as [rs|] eqn:Ep; [|injection E as <-; split; [intros k []|discriminate]]. injection E as <-. split; [|discriminate].
    cbn [kids_of]. intros k Hk. apply in_map_iff in Hk. destruct Hk as (r & <- & Hr). pose proof (NU f rs r Ep Hr) as F. split; cbn [p_codes p_trail].
    + apply Forall_app. split; [now apply not_user_calls|assumption].
    + unfold trail_after. intros l E x. destruct (if ca_user a then _ else _) as [here|u|] eqn:Eh; cbn [bind] in E; try discriminate E. destruct (p_trail p) as [rest'|u|]; cbn [bind] in E; try discriminate E. injection E as <-.
      rewrite <- (Nn _ eq_refl x), names_app, (not_user_names r F), map_app, in_app_iff. cbn [code_names flat_map In]. rewrite in_app_iff. change (flat_map sub_names rest) with (code_names rest).
      assert (K : map fst here = sub_names a). { unfold sub_names. destruct (ca_user a); [exact (sub_addrs_names _ _ _ Eh)|now injection Eh as <-]. } rewrite K. tauto.
  - assert (N : forall f, IProceed <> ICall f) by discriminate. destruct (forallb is_dealloc rest) eqn:Ed.
    + destruct (answer_of _ _ _ _) as [b|u|] eqn:Ea; cbn [bind] in E; try discriminate E. injection E as <-. split; [intros k []|]. intros b' Eb. injection Eb as <-.
      unfold answer_of in Ea. destruct (p_trail p) as [l|u|]; cbn [bind] in Ea; try discriminate Ea. apply bind_names_spec in Ea; [|constructor]. destruct Ea as (A & B & _). split; [exact A|].
      intros x. rewrite B, <- (Nn _ eq_refl x), (U N x).
      assert (K : code_names rest = []); [|rewrite K; cbn; tauto]. clear - Cr Ed. induction Cr as [|c rest Hc F IH]; [reflexivity|]. cbn in Ed. apply andb_prop in Ed. destruct Ed as [E1 E2].
      cbn. unfold sub_names at 1. destruct (ca_user c) eqn:Eu; [|exact (IH E2)]. exfalso. destruct (Hc Eu) as [_ K]. rewrite E1 in K. discriminate K.
    + injection E as <-. split; [|discriminate]. intros k [<-|[]]. split; cbn [p_codes p_trail]; [assumption|]. intros l E x. now rewrite <- (Nn _ E x), (U N x).
  - assert (N : forall f, IDealloc <> ICall f) by discriminate. destruct (m_envs m) as [|v es]; [discriminate E|]. injection E as <-. split; [|discriminate]. intros k [<-|[]]. split; cbn [p_codes p_trail]; [assumption|]. intros l E x. now rewrite <- (Nn _ E x), (U N x).
Qed.
Lemma search_named root T Q : named root -> search cf sto pg root T Q ->
  (forall pi p, In (pi, p) Q -> named p) /\ forall pi p b, In (pi, p, PDone b) T -> NoDup (map fst b) /\ forall x, In x (map fst b) <-> qv x.
Proof.
  intros N S. induction S as [|T pi p r Q S [IH1 IH2] Ht]; [split; [intros pi p [E|[]]; injection E as <- <-; exact N|intros pi p b []]|].
  destruct (turn_named p r (IH1 _ _ (or_introl eq_refl)) Ht) as [K1 K2]. split.
  - intros pi' p' I. apply in_app_iff in I. destruct I as [I|I]; [apply (IH1 pi' p'); now right|]. apply K1. apply in_label in I. destruct I as (j & _ & I). exact (nth_error_In _ _ I).
  - intros pi' p' b I. apply in_app_iff in I. destruct I as [I|[I|[]]]; [exact (IH2 _ _ _ I)|]. injection I as <- <- ->. exact (K2 b eq_refl).
Qed.
End Search.
Lemma src_calls gs cs : src gs cs -> Forall calling cs.
Proof.
  induction 1 as [|n a gs cs Hg H IH|gs cs H IH]; constructor; auto; [|discriminate]. intros _. split; [|exact (goal_not_dealloc n a Hg)]. eexists. exact (goal_call n a Hg).
Qed.
Theorem names_once cf o P q rs o' b : session cf o P (QFresh q) -> run cf o rs o' -> In (RAnswer b) (delivered rs) ->
  NoDup (map fst b) /\ forall x, In x (map fst b) <-> In x (flat_map nvars q).
Proof.
  intros HS HR Hb. destruct (run_search _ _ _ _ _ _ HS HR) as (rl & T & Q & g & k & Qc & Hr & Hf & S & _ & _ & _ & _ & D & E).
  rewrite D in Hb. apply answer_turn in Hb. destruct Hb as (pi & p & Hb).
  destruct (proj2 (session_parsed _ _ _ _ HS)) as [Ne Fa]. assert (PC : prog_code cf (o_sto o) P (o_prog o)) by apply (session_inv _ _ _ _ HS).
  assert (N : named (fun x => In x (flat_map nvars q)) (init_proc rl)).
  { split; cbn [init_proc p_codes p_trail]; [exact (src_calls _ _ (query_src cf _ q rl Qc Fa))|]. intros l El x. injection El as <-. destruct Qc as (s0 & s1 & Ec & _). unfold compile_query in Ec.
    rewrite (query_atoms_names _ _ _ _ _ _ _ Ec x), in_flat_map. cbn. rewrite Forall_forall in Fa. split.
    - intros [[]|(n & Hn & _ & Hx)]. exists n. split; [exact Hn|]. now apply vars_of_nvars; [apply Fa|].
    - intros (n & Hn & Hx). right. exists n. split; [exact Hn|]. split; [|now apply vars_of_nvars; [apply Fa|]]. destruct n; try reflexivity; contradiction. }
  exact (proj2 (search_named cf (o_sto o) (o_prog o) (prog_not_user _ _ _ _ PC) _ _ _ _ N S) pi p b Hb).
Qed.

(** also when a register clash makes the program compute something else: q is called with A, B and B *)
Definition once_prog : string := "p(X) :- q(A,B,X). q(a,b,b).".
Lemma once_case : exists o P q o', session cfg0 o P (QFresh q) /\ noclash_b cfg0 P = false /\
  run cfg0 o [(RAnswer [("Y", "a"); ("Z", "b"); ("X", "b")], 3%Z)] o' /\ flat_map nvars q = ["X"; "Y"; "Z"; "X"].
Proof.
  destruct (loaded_witness once_prog "p(X), q(Y,Z,X)" (fun o P q => negb (noclash_b cfg0 P) && (if list_eq_dec string_dec (flat_map nvars q) ["X"; "Y"; "Z"; "X"] then true else false) &&
    match get_answer cfg0 100 100 w0 o with Val (RAnswer b, o1) => pairs_eqb b [("Y", "a"); ("Z", "b"); ("X", "b")] && (o_stats o1 =? 3)%Z | _ => false end))
    as (o & P & q & S & Ep & Eq & K); [vm_compute; reflexivity|].
  destruct (get_answer cfg0 100 100 w0 o) as [[[|b|e| |] o1]| |] eqn:G; try (rewrite andb_false_r in K; discriminate K). rewrite !andb_true_iff in K. destruct K as [[K1 K2] [K3 K4]].
  unfold pairs_eqb in K3. destruct (list_eq_dec pair_dec b _) as [->|]; [|discriminate K3]. apply Z.eqb_eq in K4. destruct (list_eq_dec string_dec _ _) as [K5|]; [|discriminate K2].
  exists o, P, q, o1. split; [exact S|]. split; [now destruct (noclash_b cfg0 P)|]. split; [|exact K5]. rewrite <- K4. apply (run_answer cfg0 o [] o 100 100 w0 _ o1 (run_nil cfg0 o) G). discriminate.
Qed.
