(** What a result box shows. *)
From Verif Require Import Base Atoms Machine Heap Compiler Parser Print Organizer Session Search Runs Stale Grammar Texts Alloc Loads Trailing Memory LockHist AnswerText Exprs Language Terminal Web WebText.
Open Scope string_scope.
Open Scope list_scope.

(** a paragraph of the box: a result of get_answer, or the remark about memory *)
Inductive line := LResult (r : res) | LMemory.
Definition line_text (l : line) : string := match l with LResult r => page_text r | LMemory => memory_text end.
Definition line_results (l : list line) : list res := flat_map (fun x => match x with LResult r => [r] | LMemory => [] end) l.
Lemma results_app l k : line_results (l ++ k) = line_results l ++ line_results k.
Proof. apply flat_map_app. Qed.

(** "false" is the text of no other paragraph *)
Lemma binding_first b l : exists s, bindings_str (b :: l) = String "[" s.
Proof. destruct l; cbn; eauto. Qed.
Lemma false_text l : line_text l = "false" <-> l = LResult RFalse.
Proof.
  split; [|intros ->; reflexivity]. destruct l as [[|[|b l]|[]| |]|]; cbn [line_text page_text explain]; intros E; try reflexivity; try discriminate E.
  change (answer_str (Some (b :: l))) with (bindings_str (b :: l)) in E. destruct (binding_first b l) as [s K]. rewrite K in E. discriminate E.
Qed.

(** --- the state of a box --- *)
(** [results_of cf o b rs]: [rs] are all results but time-outs of the calls of get_answer that lead from [o] to the box's object *)
Inductive results_of (cf : cfg) (o : org) : org -> list res -> Prop :=
| ro_run rs o' : run cf o rs o' -> results_of cf o o' (delivered rs)
| ro_memory rs o1 o' k : run cf o rs o1 -> o_queue o' = [] -> results_of cf o o' (delivered rs ++ ROutOfMemory :: repeat RFalse k).
Lemma results_call cf o o1 rs fuel n w r o2 : results_of cf o o1 rs -> get_answer cf fuel n w o1 = Val (r, o2) ->
  results_of cf o o2 (if is_timeout r then rs else rs ++ [r]).
Proof.
  intros R E. destruct R as [rs o1 R|rs o0 o1 k R Q].
  - assert (D : forall s, delivered (rs ++ [(r, s)]) = if is_timeout r then delivered rs else delivered rs ++ [r]).
    { intros s. unfold delivered. rewrite map_app, filter_app. cbn. destruct (is_timeout r); cbn; now rewrite ?app_nil_r. }
    destruct (match r with ROutOfMemory => true | _ => false end) eqn:Er.
    + destruct r; try discriminate Er. cbn. apply (ro_memory cf o rs o1 o2 0 R). destruct (oom_cleared _ _ _ _ _ _ E) as [o3 ->]. reflexivity.
    + rewrite <- (D (o_stats o2)). apply ro_run. eapply run_answer; [exact R|exact E|]. intros ->. discriminate Er.
  - unfold get_answer in E. destruct n; [discriminate E|]. cbn [answer_loop] in E. rewrite Q in E. injection E as <- <-. cbn [is_timeout].
    rewrite <- app_assoc. cbn [List.app]. change [RFalse] with (repeat RFalse 1). rewrite <- repeat_app. now apply ro_memory with (o1 := o0).
Qed.
(** the buttons and timers: before and after the first paragraph *)
Definition early (b : box) : Prop := b_shown b = [] /\ b_next b = false /\ b_tree b = false.
Definition later (b : box) : Prop := b_shown b <> [] /\ b_tree b = true /\ (b_next b = true <-> ~ In "false" (b_shown b)) /\ Forall (fun x => x = false) (b_timers b).
Definition buttons (b : box) : Prop := (early b /\ b_timers b = [true]) \/ later b.
Record content (cf : cfg) (o : org) (b : box) : Prop := {
  co_lines : exists ls, b_shown b = map line_text ls /\ results_of cf o (b_org b) (line_results ls);
  co_words : org_words (b_org b);
  co_plain : Forall plain (b_shown b) }.
Lemma call_words cf fuel n w o r o' : org_words o -> get_answer cf fuel n w o = Val (r, o') -> org_words o' /\ plain (page_text r).
Proof.
  intros W E. destruct (answer_words cf fuel n 0 w o r o' W E) as [W' R]. split; [exact W'|]. apply page_plain; [exact R|].
  intros e ->. exact (answer_raise cf fuel n 0 w o e o' W E).
Qed.
Definition later_buttons (first : bool) (b : box) : Prop := if first then early b /\ b_timers b = [] else later b.
Lemma callback_later first s b : later_buttons first b -> later (callback first s b).
Proof.
  unfold later_buttons, later. destruct first; cbn [callback b_shown b_tree b_next b_timers].
  - intros [(S & N & T) L]. rewrite S, N, L. cbn. split; [discriminate|]. split; [reflexivity|]. split; [|constructor].
    destruct (String.eqb_spec s "false") as [->|H]; split; try discriminate; try tauto.
  - intros (S & T & N & L). split; [destruct (b_shown b); discriminate|]. split; [exact T|]. split; [|exact L].
    rewrite in_app_iff. cbn. destruct (String.eqb_spec s "false") as [->|H]; [split; [discriminate|tauto]|]. rewrite N. split; [intros K [Z|[Z|[]]]; tauto|tauto].
Qed.
Lemma run_once_fine cf o v first b b' : b_alive b = true -> content cf o b -> later_buttons first b -> run_once cf v first b = Val b' ->
  content cf o b' /\ buttons b' /\ b_alive b' = true /\ b_head b' = b_head b /\
  List.length (b_timers b') + List.length (b_shown b') = S (List.length (b_timers b) + List.length (b_shown b)).
Proof.
  intros A [(ls & L1 & L2) W P] B E. unfold run_once in E. rewrite A in E. destruct (get_answer cf _ _ _ _) as [[r o2]|u|] eqn:Eg; cbn [bind] in E; try discriminate E.
  destruct (call_words _ _ _ _ _ _ _ W Eg) as [W2 P2]. pose proof (results_call _ _ _ _ _ _ _ _ _ L2 Eg) as R2.
  assert (B2 : later_buttons first (with_org b o2)) by exact B.
  assert (G : forall l, (match l with LResult r => [r] | LMemory => [] end) = (if is_timeout r then [] else [r]) -> plain (line_text l) ->
    content cf o (callback first (line_text l) (with_org b o2)) /\ buttons (callback first (line_text l) (with_org b o2)) /\ b_alive (callback first (line_text l) (with_org b o2)) = true /\
    b_head (callback first (line_text l) (with_org b o2)) = b_head b /\
    List.length (b_timers (callback first (line_text l) (with_org b o2))) + List.length (b_shown (callback first (line_text l) (with_org b o2))) = S (List.length (b_timers b) + List.length (b_shown b))).
  { intros l Hl Pl. split; [split|split; [right; now apply callback_later|split; [exact A|split; [reflexivity|]]]]; cbn [callback with_org b_shown b_org b_timers].
    - exists (ls ++ [l]). rewrite map_app, L1. split; [reflexivity|]. rewrite results_app. unfold line_results at 2. cbn [flat_map]. rewrite Hl. destruct (is_timeout r); cbn; rewrite ?app_nil_r; exact R2.
    - exact W2.
    - apply Forall_app. split; [exact P|]. constructor; [exact Pl|constructor].
    - rewrite app_length. cbn. lia. }
  destruct (is_timeout r) eqn:Et.
  - destruct r; try discriminate Et. destruct (v_memory v); injection E as <-; [exact (G LMemory eq_refl eq_refl)|].
    split; [split; cbn; [exists ls; auto|exact W2|exact P]|]. split; [|split; [exact A|split; [reflexivity|cbn; rewrite app_length; cbn; lia]]].
    unfold buttons, later, early. cbn. destruct first; cbn in B.
    + left. destruct B as [(S & N & T) L]. rewrite L. auto.
    + right. destruct B as (S & T & N & L). csplit; auto; try apply N. apply Forall_app. split; [exact L|]. constructor; [reflexivity|constructor].
  - assert (E2 : b' = callback first (line_text (LResult r)) (with_org b o2)) by (destruct r; try discriminate Et; injection E as <-; reflexivity).
    subst b'. apply G; [reflexivity|exact P2].
Qed.
Definition total (b : box) : nat := List.length (b_timers b) + List.length (b_shown b).
(** the events that ask for another answer *)
Definition asks (e : event) (b : box) : bool := match e with EvNext _ => b_next b | EvContinue _ => b_tree b | _ => false end.
Lemma removed_length {A} (l : list A) i x : nth_error l i = Some x -> List.length l = S (List.length (firstn i l ++ skipn (S i) l)).
Proof.
  intros E. assert (i < List.length l) by (apply nth_error_Some; congruence). rewrite app_length, firstn_length, skipn_length. lia.
Qed.
Lemma removed_forall {A} (P : A -> Prop) l : forall i, Forall P l -> Forall P (firstn i l ++ skipn (S i) l).
Proof.
  induction l as [|a l IH]; intros i F; [destruct i; constructor|]. inversion F; subst. destruct i as [|i]; [assumption|].
  cbn [firstn List.app]. constructor; [assumption|]. now apply IH.
Qed.
Lemma step_fine cf o e b b' : b_alive b = true -> content cf o b -> buttons b -> step cf e b = Val b' -> b_alive b' = true ->
  content cf o b' /\ buttons b' /\ b_head b' = b_head b /\ total b' = total b + (if asks e b then 1 else 0).
Proof.
  intros A C B E A'. unfold total. destruct e as [i v|v|v|]; cbn [step asks] in *.
  - destruct (nth_error (b_timers b) i) as [first|] eqn:Ei; [|injection E as <-; csplit; auto].
    set (b1 := with_timers b _) in E. assert (C1 : content cf o b1) by (destruct C; split; assumption).
    assert (B1 : later_buttons first b1).
    { destruct B as [[B L]|(S & T & N & L)].
      - rewrite L in Ei. destruct i as [|i]; [|destruct i; discriminate Ei]. injection Ei as <-. split; [exact B|]. unfold b1. rewrite L. reflexivity.
      - assert (first = false) by (rewrite Forall_forall in L; apply L, (nth_error_In _ _ Ei)). subst first. unfold later_buttons, later. unfold b1. cbn [with_timers b_shown b_tree b_next b_timers].
        csplit; auto; try apply N. now apply removed_forall. }
    destruct (run_once_fine cf o v first b1 b' A C1 B1 E) as (D1 & D2 & D3 & D4 & D5). csplit; auto. rewrite D5. unfold b1. cbn [with_timers b_timers b_shown]. rewrite (removed_length _ _ _ Ei). lia.
  - rewrite A in E. cbn [andb] in E. destruct (b_next b) eqn:N; [|injection E as <-; csplit; auto].
    destruct B as [[(_ & K & _) _]|B]; [congruence|]. destruct (run_once_fine cf o v false b b' A C B E) as (D1 & D2 & D3 & D4 & D5). csplit; auto. lia.
  - rewrite A in E. cbn [andb] in E. destruct (b_tree b) eqn:N; [|injection E as <-; csplit; auto].
    destruct B as [[(_ & _ & K) _]|B]; [congruence|]. destruct (run_once_fine cf o v false b b' A C B E) as (D1 & D2 & D3 & D4 & D5). csplit; auto. lia.
  - rewrite A in E. injection E as <-. discriminate A'.
Qed.
Lemma step_dead cf e b b' : b_alive b = false -> step cf e b = Val b' -> b_alive b' = false /\ b_shown b' = b_shown b.
Proof.
  intros A E. destruct e as [i v|v|v|]; cbn [step] in E; rewrite ?A in E; cbn [andb] in E; try (injection E as <-; auto).
  destruct (nth_error (b_timers b) i); [|injection E as <-; auto]. unfold run_once in E. cbn [with_timers b_alive] in E. rewrite A in E. injection E as <-. auto.
Qed.
Lemma steps_dead cf es : forall b b', b_alive b = false -> steps cf es b = Val b' -> b_alive b' = false.
Proof.
  induction es as [|e es IH]; intros b b' A E; cbn [steps] in E; [injection E as <-; exact A|]. getx E b1 E1. exact (IH b1 b' (proj1 (step_dead _ _ _ _ A E1)) E).
Qed.
Lemma steps_fine cf o es : forall b b', b_alive b = true -> content cf o b -> buttons b -> steps cf es b = Val b' -> b_alive b' = true ->
  content cf o b' /\ buttons b' /\ b_head b' = b_head b.
Proof.
  induction es as [|e es IH]; intros b b' A C B E A'; cbn [steps] in E; [injection E as <-; csplit; auto|]. getx E b1 E1.
  destruct (b_alive b1) eqn:A1; [|rewrite (steps_dead _ _ _ _ A1 E) in A'; discriminate A'].
  destruct (step_fine cf o e b b1 A C B E1 A1) as (C1 & B1 & H1 & _). destruct (IH b1 b' A1 C1 B1 E A') as (C2 & B2 & H2). csplit; auto. congruence.
Qed.
(** the object after loading *)
Definition loaded (cf : cfg) (program query : string) (r : load_res) (o : org) : Prop :=
  exists o0 o1 r1, new_org cf = Val o0 /\ load_program cf program (set_time_limit 100000 o0) = Some (r1, o1) /\ reports_error r1 = false /\
    load_query cf query o1 = Some (r, o) /\ reports_error r = false.
Lemma loaded_words cf p q r o : loaded cf p q r o -> org_words o.
Proof.
  intros (o0 & o1 & r1 & N & P & _ & Q & _). pose proof (new_words _ _ N) as W. assert (W0 : org_words (set_time_limit 100000 o0)) by (destruct W; split; assumption).
  assert (W1 : org_words o1) by (apply (perform_words cf (CallProgram p) (set_time_limit 100000 o0) (ReplyLoad r1) o1 W0); cbn; now rewrite P).
  apply (perform_words cf (CallQuery q) o1 (ReplyLoad r) o W1). cbn. now rewrite Q.
Qed.
Lemma clicked_fine cf v p q b : run_clicked cf v p q = Val (Opened b) -> exists r o, loaded cf p q r o /\ content cf o b /\ buttons b /\ b_alive b = true /\ b_head b = q /\ total b = 1.
Proof.
  intros E. unfold run_clicked in E. getx E o0 En. destruct (load_program cf p _) as [[r1 o1]|] eqn:Ep; [|discriminate E]. destruct (reports_error r1) eqn:R1; [discriminate E|].
  destruct (load_query cf q o1) as [[r o]|] eqn:Eq; [|discriminate E]. destruct (reports_error r) eqn:R; [discriminate E|]. getx E b1 Eb. injection E as ->.
  exists r, o. assert (L : loaded cf p q r o) by (exists o0, o1, r1; auto). split; [exact L|].
  assert (C : content cf o (opened o q)) by (split; [exists []; split; [reflexivity|apply (ro_run cf o [] o), run_nil]|exact (loaded_words _ _ _ _ _ L)|constructor]).
  assert (B : later_buttons true (opened o q)) by (repeat split).
  destruct (run_once_fine cf o v true (opened o q) b eq_refl C B Eb) as (D1 & D2 & D3 & D4 & D5). csplit; auto.
Qed.
Lemma plain_cons c s : plain (String c s) <-> markup c = false /\ plain s.
Proof. unfold plain. cbn. rewrite andb_true_iff. destruct (markup c); cbn; intuition discriminate. Qed.
Lemma plain_both a b : plain (a +++ b) <-> plain a /\ plain b.
Proof. induction a as [|c a IH]; [cbn; split; [intros H; now split|tauto]|]. cbn [String.append]. rewrite !plain_cons, IH. tauto. Qed.
Lemma plain_rev s : forall acc, plain (rev_string s acc) <-> plain s /\ plain acc.
Proof. induction s as [|c s IH]; intros acc; cbn [rev_string]; [split; [intros H; now split|tauto]|]. rewrite IH, !plain_cons. tauto. Qed.
Lemma plain_skip r : plain (fst (take is_space r)) -> plain (skip r) -> plain r.
Proof.
  induction r as [|c r IH]; [auto|]. cbn [take skip]. destruct (is_space c) eqn:Ec; [|auto]. destruct (take is_space r) as [a t]. cbn [fst] in *. rewrite !plain_cons. tauto.
Qed.
Lemma append_dot_plain s : plain (append_dot s) -> plain s.
Proof.
  unfold append_dot. destruct (skip (rev_string s "")) as [|c r'] eqn:Es; [auto|]. destruct (Ascii.eqb c "."); [auto|]. cbv zeta. rewrite !plain_both, !plain_rev. intros ((A & _) & _ & B & _).
  assert (K : plain (rev_string s "")) by (apply plain_skip; [exact B|rewrite Es; exact A]). apply plain_rev in K. tauto.
Qed.
Lemma accepted_plain query q : parse_query (append_dot query) = Some (COk q) -> plain query.
Proof. intros E. apply query_exact in E. apply query_plain in E. exact (append_dot_plain _ E). Qed.
Lemma loaded_session cf p query r o : ord_ok cf -> loaded cf p query r o ->
  exists P, parse_program p = Some (COk P) /\
  ((exists q, parse_query (append_dot query) = Some (COk q) /\ session cf o P (QFresh q)) \/ (exists u t q, followed (append_dot query) u t q) /\ o_queue o = []).
Proof.
  intros OK (o0 & o1 & r1 & N & Lp & R1 & Lq & R). pose proof (ss_new cf o0 N) as S0. apply (ss_limit _ _ _ _ 100000%Z) in S0.
  destruct (load_program_reasons cf p (set_time_limit 100000 o0) OK) as (r1' & o1' & Lp' & K). rewrite Lp in Lp'. injection Lp' as <- <-.
  destruct (validate_program p) as [[|e|]|] eqn:V; try contradiction.
  - destruct K as (P & EP & K). exists P. split; [exact EP|]. destruct r1 as [|[]|]; try contradiction; try discriminate R1.
    pose proof (ss_program cf _ _ _ _ P _ S0 EP Lp) as S1. cbn in S1.
    destruct (load_query_reasons cf query o1 OK) as (r' & o' & Lq' & Kq). rewrite Lq in Lq'. injection Lq' as <- <-.
    destruct (validate_query query) as [[|e|]|] eqn:Vq; try contradiction.
    + left. destruct Kq as (q & Eq & Kq). exists q. split; [exact Eq|]. destruct r as [|[]|]; try contradiction; try discriminate R. exact (ss_query cf _ _ _ _ q _ S1 Eq Lq).
    + right. destruct Kq as [-> [->| ->]]; [discriminate R|]. split; [apply (silent_exact cf query o1 OK); eauto|]. exact (proj1 (rejected_queue _ _ _ _ _ Lq ltac:(discriminate))).
  - destruct K as (-> & -> & _). discriminate R1.
Qed.
(** a box whose query was dropped *)
Definition idle_box (b : box) : Prop := o_queue (b_org b) = [] /\ Forall (fun s => s = "false") (b_shown b).
Lemma idle_once cf v first b b' : idle_box b -> run_once cf v first b = Val b' -> idle_box b'.
Proof.
  intros [Q F] E. unfold run_once in E. destruct (b_alive b); [|injection E as <-; now split]. unfold get_answer in E. destruct (v_n v); [discriminate E|]. cbn [answer_loop] in E. rewrite Q in E.
  cbn [bind] in E. injection E as <-. split; [exact Q|]. cbn. apply Forall_app. split; [exact F|]. constructor; [reflexivity|constructor].
Qed.
Lemma idle_step cf e b b' : idle_box b -> step cf e b = Val b' -> idle_box b'.
Proof.
  intros I E. destruct e as [i v|v|v|]; cbn [step] in E.
  - destruct (nth_error _ _); [|injection E as <-; exact I]. refine (idle_once _ _ _ _ _ _ E). exact I.
  - destruct (_ && _)%bool; [exact (idle_once _ _ _ _ _ I E)|injection E as <-; exact I].
  - destruct (_ && _)%bool; [exact (idle_once _ _ _ _ _ I E)|injection E as <-; exact I].
  - destruct (b_alive b); injection E as <-; [|exact I]. split; [reflexivity|constructor].
Qed.
Lemma idle_steps cf es : forall b b', idle_box b -> steps cf es b = Val b' -> idle_box b'.
Proof. induction es as [|e es IH]; intros b b' I E; cbn [steps] in E; [injection E as <-; exact I|]. getx E b1 E1. exact (IH b1 b' (idle_step _ _ _ _ I E1) E). Qed.
Lemma clicked_idle cf v p q b r o : run_clicked cf v p q = Val (Opened b) -> loaded cf p q r o -> o_queue o = [] -> idle_box b.
Proof.
  intros E (o0 & o1 & r1 & N & Lp & R1 & Lq & R) Q. unfold run_clicked in E. rewrite N in E. cbn [bind] in E. rewrite Lp, R1, Lq, R in E. getx E b1 Eb. injection E as ->.
  refine (idle_once cf v true (opened o q) b _ Eb). split; [exact Q|constructor].
Qed.

Lemma false_empty cf fuel n : forall k w o o', answer_loop cf fuel n k w o = Val (RFalse, o') -> o_queue o' = [].
Proof.
  induction n as [|n IH]; intros k w o o' E; [discriminate E|]. cbn [answer_loop] in E. destruct (o_queue o) as [|i q] eqn:Q; [injection E as <-; exact Q|].
  destruct (_ <? _)%Z; [discriminate E|]. destruct (w_oom w k); [discriminate E|]. destruct (turn cf fuel o) as [[r o1]|u|] eqn:Et; cbn [bind] in E; try discriminate E.
  destruct r as [r|]; [|exact (IH _ _ _ _ E)]. injection E as -> <-. exfalso. unfold turn in Et. rewrite Q in Et. getx Et e Ee. destruct (x_codes e); [discriminate Et|]. getx Et a Ea. getx Et o2 E2.
  destruct (run_instrs _ _ _ _ _) as [[st o3]|u|]; cbn [bind] in Et; try discriminate Et. destruct st; try discriminate Et; getx Et e2 Ee2; destruct (x_state e2); try discriminate Et; getx Et b Eb.
Qed.

(** --- for the property theorems --- *)
Theorem box_results cf v program query b0 es b : ord_ok cf -> run_clicked cf v program query = Val (Opened b0) -> steps cf es b0 = Val b -> b_alive b = true ->
  exists P, parse_program program = Some (COk P) /\
  ((exists q o ls, parse_query (append_dot query) = Some (COk q) /\ session cf o P (QFresh q) /\
      b_shown b = map line_text ls /\ results_of cf o (b_org b) (line_results ls)) \/
   (exists u t q, followed (append_dot query) u t q) /\ Forall (fun s => s = "false") (b_shown b)).
Proof.
  intros OK E S A. destruct (clicked_fine cf v program query b0 E) as (r & o & L & C & B & A0 & H & _). destruct (steps_fine cf o es b0 b A0 C B S A) as ([(ls & L1 & L2) _ _] & _ & _).
  destruct (loaded_session cf program query r o OK L) as (P & EP & [(q & Eq & Ss)|(F & Q)]); exists P; (split; [exact EP|]).
  - left. exists q, o, ls. auto.
  - right. split; [exact F|]. exact (proj2 (idle_steps _ _ _ _ (clicked_idle _ _ _ _ _ _ _ E L Q) S)).
Qed.
Theorem box_next cf v program query b0 es b : run_clicked cf v program query = Val (Opened b0) -> steps cf es b0 = Val b -> b_alive b = true ->
  (b_next b = true <-> b_shown b <> [] /\ ~ In "false" (b_shown b)) /\ (b_tree b = true <-> b_shown b <> []).
Proof.
  intros E S A. destruct (clicked_fine cf v program query b0 E) as (r & o & L & C & B & A0 & H & _). destruct (steps_fine cf o es b0 b A0 C B S A) as (_ & [[(S1 & N & T) _]|(S1 & T & N & _)] & _).
  - rewrite S1, N, T. split; split; try discriminate; tauto.
  - rewrite T, N. tauto.
Qed.
Theorem box_asked cf v program query b0 es b e b' : run_clicked cf v program query = Val (Opened b0) -> steps cf es b0 = Val b -> step cf e b = Val b' -> b_alive b' = true ->
  List.length (b_timers b0) + List.length (b_shown b0) = 1 /\
  List.length (b_timers b') + List.length (b_shown b') = List.length (b_timers b) + List.length (b_shown b) + (if asks e b then 1 else 0) /\
  exists l, b_shown b' = b_shown b ++ l.
Proof.
  intros E S S1 A'. destruct (clicked_fine cf v program query b0 E) as (r & o & L & C & B & A0 & H & T). split; [exact T|].
  destruct (b_alive b) eqn:A; [|rewrite (proj1 (step_dead _ _ _ _ A S1)) in A'; discriminate A'].
  destruct (steps_fine cf o es b0 b A0 C B S A) as (C1 & B1 & _). split; [exact (proj2 (proj2 (proj2 (step_fine cf o e b b' A C1 B1 S1 A'))))|].
  assert (G : forall first v b b', run_once cf v first b = Val b' -> exists l, b_shown b' = b_shown b ++ l).
  { clear. intros first v b b' E. unfold run_once in E. destruct (b_alive b); [|injection E as <-; exists []; now rewrite app_nil_r]. destruct (get_answer _ _ _ _ _) as [[r o]|u|]; cbn [bind] in E; try discriminate E.
    injection E as <-. destruct r; try (eexists; reflexivity). destruct (v_memory v); [eexists; reflexivity|]. exists []. cbn. now rewrite app_nil_r. }
  assert (Z : exists l, b_shown b = b_shown b ++ l) by (exists []; now rewrite app_nil_r).
  destruct e as [i w|w|w|]; cbn [step] in S1.
  - destruct (nth_error _ _); [|injection S1 as <-; exact Z]. exact (G _ _ _ _ S1).
  - destruct (_ && _)%bool; [exact (G _ _ _ _ S1)|injection S1 as <-; exact Z].
  - destruct (_ && _)%bool; [exact (G _ _ _ _ S1)|injection S1 as <-; exact Z].
  - rewrite A in S1. injection S1 as <-. discriminate A'.
Qed.
Theorem box_false cf v program query b0 es b : run_clicked cf v program query = Val (Opened b0) -> steps cf es b0 = Val b -> b_alive b = true ->
  In "false" (b_shown b) -> o_queue (b_org b) = [].
Proof.
  intros E S A F. destruct (clicked_fine cf v program query b0 E) as (r & o & L & C & B & A0 & H & _). destruct (steps_fine cf o es b0 b A0 C B S A) as ([(ls & L1 & L2) _ _] & _ & _).
  rewrite L1 in F. apply in_map_iff in F. destruct F as (l & Hl & Il). apply false_text in Hl. subst l.
  assert (K : In RFalse (line_results ls)) by (unfold line_results; apply in_flat_map; exists (LResult RFalse); cbn; auto).
  clear - L2 K. remember (line_results ls) as rs eqn:Ers. clear Ers. destruct L2 as [rs o' R|rs o1 o' k R Q]; [|exact Q].
  revert K. induction R as [o|o rs o1 t R IH|o rs o1 fuel n w r o2 R IH E Hr]; [intros []|exact IH|]. unfold delivered. rewrite map_app, filter_app, in_app_iff. intros [K|K].
  - specialize (IH K). unfold get_answer in E. destruct n; [discriminate E|]. cbn [answer_loop] in E. rewrite IH in E. injection E as <- <-. exact IH.
  - cbn in K. destruct (negb (is_timeout r)); [|contradiction]. destruct K as [->|[]]. exact (false_empty _ _ _ _ _ _ _ E).
Qed.
Theorem box_plain cf v program query b0 es b : run_clicked cf v program query = Val (Opened b0) -> steps cf es b0 = Val b -> b_alive b = true ->
  Forall plain (b_shown b) /\ b_head b = query.
Proof.
  intros E S A. destruct (clicked_fine cf v program query b0 E) as (r & o & L & C & B & A0 & H & _). destruct (steps_fine cf o es b0 b A0 C B S A) as ([_ _ P] & _ & Hh). split; [exact P|congruence].
Qed.
Theorem head_plain cf v program query b0 : ord_ok cf -> run_clicked cf v program query = Val (Opened b0) ->
  plain query \/ exists u t q, followed (append_dot query) u t q.
Proof.
  intros OK E. destruct (clicked_fine cf v program query b0 E) as (r & o & L & _). destruct (loaded_session cf program query r o OK L) as (P & EP & [(q & Eq & Ss)|(F & Q)]); [left|now right]. exact (accepted_plain query q Eq).
Qed.
