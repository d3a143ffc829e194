(** Result boxes of the web page for short texts. *)
From Coq Require Import Lia.
From Verif Require Import Base Machine Heap Facts Compiler Parser Print Organizer Examples Spec Valuation Process Session Search Order Runs
  Builtins Sols Solve Witness Terms Shown Put Parsed Tables Root Alloc Atoms Clause Answers Complete Total Flat Safe Finite Cyclic Ground Once Settle Naming Meaning Tree Clash Labels Shows Linear LinearCase Size SizeCase
  Loads Trailing Web WebText WebFacts WebCase.
Open Scope string_scope.
Open Scope list_scope.

Lemma box_typed cf v program query b0 es b P q : ord_ok cf -> run_clicked cf v program query = Val (Opened b0) -> steps cf es b0 = Val b -> b_alive b = true ->
  parse_program program = Some (COk P) -> parse_query (append_dot query) = Some (COk q) ->
  exists o ls, typed cf o P (QFresh q) (String.length program + S (String.length query)) /\
    b_shown b = map line_text ls /\ results_of cf o (b_org b) (line_results ls).
Proof.
  intros OK E S A EP Eq. destruct (clicked_fine cf v program query b0 E) as (r & o & L & C & B & A0 & _). destruct (steps_fine cf o es b0 b A0 C B S A) as ([(ls & L1 & L2) _ _] & _ & _).
  exists o, ls. split; [|split; assumption]. destruct L as (o0 & o1 & r1 & N & Lp & R1 & Lq & R).
  pose proof (ty_limit cf _ _ _ _ 100000%Z (ty_new cf o0 N)) as S0.
  destruct (load_program_reasons cf program (set_time_limit 100000 o0) OK) as (r1' & o1' & Lp' & K). rewrite Lp in Lp'. injection Lp' as <- <-.
  unfold validate_program in K. rewrite EP in K. destruct K as (P' & _ & K). destruct r1 as [|[]|]; try contradiction; try discriminate R1.
  pose proof (ty_program cf _ _ _ _ _ P _ S0 EP Lp) as S1. cbn in S1.
  destruct (load_query_reasons cf query o1 OK) as (r' & o' & Lq' & Kq). rewrite Lq in Lq'. injection Lq' as <- <-.
  unfold validate_query in Kq. rewrite Eq in Kq. destruct Kq as (q' & _ & Kq). destruct r as [|[]|]; try contradiction; try discriminate R.
  exact (ty_query cf _ _ _ _ _ q _ S1 Eq Lq).
Qed.
Lemma results_run cf o o' rs : results_of cf o o' rs -> exists rs' o1, run cf o rs' o1 /\ (forall b, In (RAnswer b) rs -> In (RAnswer b) (delivered rs')) /\
  (In ROutOfMemory rs \/ delivered rs' = rs).
Proof.
  intros [rs' o1 R|rs' o1 o2 k R Q]; exists rs', o1; (split; [exact R|]); [split; [auto|now right]|]. split; [|left; apply in_or_app; right; now left].
  intros b H. apply in_app_or in H. destruct H as [H|[H|H]]; [exact H|discriminate|]. apply repeat_spec in H. discriminate.
Qed.
(** every paragraph that is an answer is sound *)
Theorem box_sound cf v program query b0 es b P q : ord_ok cf -> run_clicked cf v program query = Val (Opened b0) -> steps cf es b0 = Val b -> b_alive b = true ->
  parse_program program = Some (COk P) -> parse_query (append_dot query) = Some (COk q) ->
  (Z.of_nat (String.length program) + Z.of_nat (String.length query) < 10000)%Z -> Forall roomy_clause P -> linear P q ->
  exists ls, b_shown b = map line_text ls /\ forall ans, In (LResult (RAnswer ans)) ls ->
    exists sg, reads ans sg /\ (forall x s, In (x, s) ans -> proper (sg x) = true -> s = show (sg x)) /\
     (forall x, In x (flat_map nvars q) -> spelled (sg x) = true) /\
     forall g a, In a q -> prov (pow_of cf) (P ++ append_prog) (inst (fun x => ginst g (sg x)) a).
Proof.
  intros OK E S A EP Eq L R LN. destruct (box_typed cf v program query b0 es b P q OK E S A EP Eq) as (o & ls & T & L1 & L2). exists ls. split; [exact L1|]. intros ans Ha.
  destruct (results_run _ _ _ _ L2) as (rs & o1 & HR & K & _). assert (Hb : In (RAnswer ans) (delivered rs)) by (apply K; unfold line_results; apply in_flat_map; eexists; split; [exact Ha|now left]).
  refine (short_sound cf o P q _ rs o1 ans OK T _ R LN HR Hb). lia.
Qed.
(** when "false" is shown and memory was never exhausted, every solution is an instance of a paragraph *)
Theorem box_complete cf v program query b0 es b P q : ord_ok cf -> run_clicked cf v program query = Val (Opened b0) -> steps cf es b0 = Val b -> b_alive b = true ->
  parse_program program = Some (COk P) -> parse_query (append_dot query) = Some (COk q) ->
  (Z.of_nat (String.length program) + Z.of_nat (String.length query) < 10000)%Z -> Forall roomy_clause P ->
  all_goals no_compare P q -> all_goals no_is P q -> In "false" (b_shown b) -> ~ In "Memory exhausted." (b_shown b) ->
  forall f, (forall a, In a q -> prov (pow_of cf) (P ++ append_prog) (inst f a)) ->
  exists ans, In (page_text (RAnswer ans)) (b_shown b) /\ exists sg g, reads ans sg /\ (forall x, In x (flat_map nvars q) -> spelled (sg x) = true) /\
    forall x, In x (flat_map nvars q) -> ginst g (sg x) = f x.
Proof.
  intros OK E S A EP Eq L R NCm NI F NM f Hf. destruct (box_typed cf v program query b0 es b P q OK E S A EP Eq) as (o & ls & T & L1 & L2).
  assert (Ln : (Z.of_nat (String.length program + Datatypes.S (String.length query)) <= 10000)%Z) by lia.
  destruct (short_fine _ _ _ _ _ OK T Ln R) as (HS & SM & SV & NC & LB).
  assert (K0 : forall r, In r (line_results ls) -> In (page_text r) (b_shown b)).
  { intros r Hr. unfold line_results in Hr. apply in_flat_map in Hr. destruct Hr as (l & Hl & Hr). rewrite L1. apply in_map_iff. exists l. split; [|exact Hl]. destruct l as [r'|]; [|contradiction]. destruct Hr as [->|[]]. reflexivity. }
  assert (FR : In RFalse (line_results ls)).
  { rewrite L1 in F. apply in_map_iff in F. destruct F as (l & Hl & Il). apply false_text in Hl. subst l. unfold line_results. apply in_flat_map. exists (LResult RFalse). split; [exact Il|now left]. }
  destruct (results_run _ _ _ _ L2) as (rs & o1 & HR & _ & [M|D]); [elim NM; exact (K0 _ M)|]. rewrite <- D in FR, K0.
  destruct (failure_shown cf OK o P q HS SM NC rs o1 HR FR) as (_ & _ & C). destruct (C NCm (or_introl NI) f Hf) as (ans & Ha & sg & g & Sh & G). exists ans. split; [exact (K0 _ Ha)|].
  exists sg, g. destruct Sh as (Rd & Sp & _). split; [exact Rd|]. split; [exact (Sp SV)|exact G].
Qed.
Definition box_prog : string := "len([],z). len([X|T],s(N)) :- len(T,N).".
Lemma box_seen : seen_after v_good box_prog "len([a,b],N)" [EvNext v_good] = Some (["[N / s(s(z))]"; "false"], false, 0).
Proof. vm_compute. reflexivity. Qed.
Lemma box_case : exists P q b0 b, run_clicked cfg0 v_good box_prog "len([a,b],N)" = Val (Opened b0) /\ steps cfg0 [EvNext v_good] b0 = Val b /\ b_alive b = true /\
  parse_program box_prog = Some (COk P) /\ parse_query (append_dot "len([a,b],N)") = Some (COk q) /\
  (Z.of_nat (String.length box_prog) + Z.of_nat (String.length "len([a,b],N)") < 10000)%Z /\ Forall roomy_clause P /\ linear P q /\
  all_goals no_compare P q /\ all_goals no_is P q /\ b_shown b = ["[N / s(s(z))]"; "false"].
Proof.
  destruct (typed_witness box_prog "len([a,b],N)" (fun _ P q =>
    forallb roomy_clause_b P && goals_b nocompare_b P q && goals_b nois_b P q && linear_b P q)) as (o & P & q & _ & B & C & D); [vm_compute; reflexivity|].
  rewrite !andb_true_iff in D. destruct D as (((D3 & D4) & D5) & D6).
  destruct (web_case_exists _ _ _ _ _ box_seen) as (b0 & b & R & S & E). injection E as E1 E2 _. exists P, q, b0, b. split; [exact R|]. split; [exact S|].
  split. { destruct (b_alive b) eqn:A; [reflexivity|]. exfalso. assert (K : match run_clicked cfg0 v_good box_prog "len([a,b],N)" with Val (Opened b0) => match steps cfg0 [EvNext v_good] b0 with Val b => b_alive b | _ => false end | _ => false end = true) by (vm_compute; reflexivity).
    rewrite R, S, A in K. discriminate K. }
  split; [exact B|]. split; [exact C|]. split; [vm_compute; reflexivity|].
  split; [apply Forall_forall; intros c Hc; rewrite forallb_forall in D3; now apply roomy_clause_b_ok, D3|]. split; [exact (linear_b_ok _ _ D6)|].
  split; [exact (goals_b_ok nocompare_b no_compare _ _ nocompare_b_ok D4)|]. split; [exact (goals_b_ok nois_b no_is _ _ nois_b_ok D5)|]. exact E1.
Qed.
Lemma cyc_seen : seen_after v_good cyc_text "q" [] = Some (["true"], true, 0).
Proof. vm_compute. reflexivity. Qed.
Lemma box_unsound : exists P q b, run_clicked cfg0 v_good "q :- p(Y,f(Y)). p(X,X)." "q" = Val (Opened b) /\ b_shown b = ["true"] /\
  parse_program "q :- p(Y,f(Y)). p(X,X)." = Some (COk P) /\ parse_query (append_dot "q") = Some (COk q) /\
  ~ exists v, forall a, In a q -> prov (pow_of cfg0) (P ++ append_prog) (inst v a).
Proof.
  destruct (web_case_exists _ _ _ _ _ cyc_seen) as (b0 & b & R & S & E). cbn in S. injection S as ->. injection E as E _ _.
  exists cyc_prog, [NCon "q"], b. split; [exact R|]. split; [exact E|]. split; [vm_compute; reflexivity|]. split; [vm_compute; reflexivity|].
  intros (v & H). apply (cyc_not_prov (pow_of cfg0) v), H. now left.
Qed.
