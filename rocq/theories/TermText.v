(** Queries typed at the terminal are read whole: their texts contain no full stop but the last. *)
From Verif Require Import Base Machine Heap Compiler Parser Print Organizer Session Search Grammar Texts Exprs Language Runs Examples AnswerText Terminal TermFacts TermCase Loads.
Open Scope string_scope.
Open Scope list_scope.

(** --- no full stop --- *)
Definition dotless (s : string) : Prop := all_chars (fun c => negb (Ascii.eqb c ".")) s = true.
Lemma dotless_app a b : dotless a -> dotless b -> dotless (a +++ b).
Proof. unfold dotless. intros A B. induction a as [|c a IH]; [exact B|]. cbn in *. apply andb_true_iff in A. destruct A as [A1 A2]. now rewrite A1, IH. Qed.
Lemma dotless_char c s : Ascii.eqb c "." = false -> dotless s -> dotless (String c s).
Proof. unfold dotless. intros A B. cbn. now rewrite A, B. Qed.
Lemma chars_dotless f s : f "."%char = false -> all_chars f s = true -> dotless s.
Proof.
  intros F. unfold dotless. induction s as [|c s IH]; [reflexivity|]. cbn. rewrite !andb_true_iff. intros [A B]. split; [|auto].
  destruct (Ascii.eqb c ".") eqn:E; [|reflexivity]. apply Ascii.eqb_eq in E. congruence.
Qed.
Lemma dotless_has s : dotless s -> has_char "." s = false.
Proof. unfold dotless. induction s as [|c s IH]; [reflexivity|]. cbn. rewrite andb_true_iff. intros [A B]. rewrite (IH B). now destruct (Ascii.eqb c "."). Qed.
Lemma blank_dotless b : blank b -> dotless b.
Proof. now apply chars_dotless. Qed.
Lemma name_dotless f s : f "."%char = false -> name_of f s = true -> dotless s.
Proof.
  intros F N. destruct s as [|c s]; [discriminate N|]. cbn in N. apply andb_true_iff in N as [A B]. apply dotless_char.
  - destruct (Ascii.eqb c ".") eqn:E; [|reflexivity]. apply Ascii.eqb_eq in E. congruence.
  - now apply (chars_dotless is_idc).
Qed.
Lemma lower_dotless s : name_of is_lower s = true -> dotless s.
Proof. now apply name_dotless. Qed.
Lemma upper_dotless s : name_of is_upper s = true -> dotless s.
Proof. now apply name_dotless. Qed.

(** --- no blank at the end --- *)
Definition closed (s : string) : Prop := exists v c, s = v +++ String c "" /\ is_space c = false.
Lemma closed_app a b : closed b -> closed (a +++ b).
Proof. intros (v & c & -> & C). exists (a +++ v), c. split; [now rewrite app_assoc_s|exact C]. Qed.
Lemma closed_char c s : closed s -> closed (String c s).
Proof. intros (v & d & -> & C). exists (String c v), d. now split. Qed.
Lemma closed_one c : is_space c = false -> closed (String c "").
Proof. intros C. exists "", c. now split. Qed.
Lemma chars_closed f c s : (forall c, f c = true -> is_space c = false) -> is_space c = false -> all_chars f s = true -> closed (String c s).
Proof.
  intros F. revert c. induction s as [|d s IH]; intros c C A; [now apply closed_one|]. cbn in A. apply andb_true_iff in A as [A1 A2].
  apply closed_char. apply IH; auto.
Qed.
Lemma idc_space c : is_idc c = true -> is_space c = false.
Proof. intros H. pose proof (all_ascii (fun c => implb (is_idc c) (negb (is_space c))) eq_refl c) as K. cbv beta in K. rewrite H in K. now destruct (is_space c). Qed.
Lemma lower_space c : is_lower c = true -> is_space c = false.
Proof. intros H. apply idc_space. unfold is_idc. now rewrite H. Qed.
Lemma upper_space c : is_upper c = true -> is_space c = false.
Proof. intros H. pose proof (all_ascii (fun c => implb (is_upper c) (negb (is_space c))) eq_refl c) as K. cbv beta in K. rewrite H in K. now destruct (is_space c). Qed.
Lemma digit_space c : is_digit c = true -> is_space c = false.
Proof. intros H. pose proof (all_ascii (fun c => implb (is_digit c) (negb (is_space c))) eq_refl c) as K. cbv beta in K. rewrite H in K. now destruct (is_space c). Qed.
Lemma lower_closed s : name_of is_lower s = true -> closed s.
Proof. destruct s as [|c s]; [discriminate|]. cbn. rewrite andb_true_iff. intros [A B]. apply (chars_closed is_idc); auto using idc_space, lower_space. Qed.
Lemma upper_closed s : name_of is_upper s = true -> closed s.
Proof. destruct s as [|c s]; [discriminate|]. cbn. rewrite andb_true_iff. intros [A B]. apply (chars_closed is_idc); auto using idc_space, upper_space. Qed.
Lemma digits_fine s : digits s = true -> dotless s /\ closed s.
Proof.
  destruct s as [|c s]; [discriminate|]. unfold digits. intros H. split; [now apply (chars_dotless is_digit)|]. cbn in H. apply andb_true_iff in H as [A B].
  apply (chars_closed is_digit); auto using digit_space.
Qed.
Lemma number_fine s : number_text s = true -> dotless s /\ closed s.
Proof.
  unfold number_text. destruct s as [|c s]; [discriminate|]. destruct (Ascii.eqb c "-") eqn:E; intros H; apply digits_fine in H as [A B]; [|now split].
  apply Ascii.eqb_eq in E. subst c. split; [now apply dotless_char|now apply closed_char].
Qed.
Ltac dots := repeat first [assumption | reflexivity | apply blank_dotless; assumption | apply lower_dotless; assumption | apply upper_dotless; assumption | apply dotless_app | apply dotless_char; [reflexivity|]].
Ltac ends := repeat first [assumption | apply lower_closed; assumption | apply upper_closed; assumption | apply closed_one; reflexivity | apply closed_app | apply closed_char].
Lemma writes_fine p n s : writes p n s -> dotless s /\ closed s.
Proof.
  induction 1; repeat match goal with H : _ /\ _ |- _ => destruct H end; split; dots; ends; try (apply number_fine; assumption).
  - cbn [In] in *. destruct H1 as [<-|[<-|[]]]; reflexivity.
  - cbn [In] in *. destruct H1 as [<-|[<-|[]]]; reflexivity.
Qed.
Lemma lang_fine : (forall n w, term_lang n w -> dotless w /\ closed w) /\ (forall n w, head_lang n w -> dotless w /\ closed w) /\
  (forall n w, list_lang n w -> dotless w /\ closed w) /\ (forall l w, terms_lang l w -> dotless w /\ closed w).
Proof. apply texts_mut; intros; repeat match goal with H : _ /\ _ |- _ => destruct H end; try (eapply writes_fine; eassumption); split; dots; ends. Qed.
Lemma goal_fine n w : goal_lang n w -> dotless w /\ closed w.
Proof.
  destruct lang_fine as (A & B & C & D). intros G. destruct G;
    repeat match goal with H : term_lang _ _ |- _ => apply A in H as [? ?] | H : head_lang _ _ |- _ => apply B in H as [? ?] | H : writes _ _ _ |- _ => apply writes_fine in H as [? ?] end;
    split; dots; ends.
Qed.
Lemma goals_fine l w : goals_lang l w -> dotless w /\ closed w.
Proof. induction 1 as [n w G|n w b l u G Bl Gs IH]; apply goal_fine in G as [? ?]; [now split|]. destruct IH. split; dots; ends. Qed.

(** the text before the last full stop of a query contains none, and load_query puts it back *)
Lemma blank_blanks b : blank b -> blanks b.
Proof. unfold blank. induction b as [|c b IH]; [intros; exact I|]. cbn. rewrite andb_true_iff. intros [A B]. auto. Qed.
Lemma query_dot q t : query_lang q (t +++ ".") -> has_char "." t = false /\ query_lang q (append_dot t).
Proof.
  intros (u & b & b' & E & G & B & B'). destruct (goals_fine _ _ G) as [D (v & c & Ev & Hc)].
  assert (Db : dotless (u +++ b)) by dots.
  assert (E' : t +++ String "." "" = (u +++ b) +++ String "." b') by (rewrite app_assoc_s; exact E). clear E.
  assert (T : t = u +++ b).
  { revert E' Db B'. generalize (u +++ b) as w. clear. induction t as [|c t IH]; intros [|d w] E Db B'.
    - reflexivity.
    - injection E as <- E. discriminate Db.
    - injection E as -> E. exfalso. destruct b' as [|d b']; [destruct t; discriminate E|]. unfold blank in B'.
      assert (K : all_chars is_space (t +++ ".") = true) by (rewrite E; exact B'). clear -K. induction t as [|d t IH]; [discriminate K|]. cbn in K. apply andb_true_iff in K as [_ K]. auto.
    - injection E as <- E. unfold dotless in Db. cbn in Db. apply andb_true_iff in Db as [_ Db]. f_equal. now apply (IH w). }
  subst t. split; [now apply dotless_has|]. subst u. rewrite app_assoc_s. cbn [String.append].
  rewrite (append_dot_last v c b Hc (blank_blanks b B)).
  assert (Nd : Ascii.eqb c "." = false).
  { unfold dotless in D. clear -D. induction v as [|d v IH]; cbn in D; apply andb_true_iff in D as [D1 D]; [now destruct (Ascii.eqb c ".")|auto]. }
  change dot with "."%char. rewrite Nd. exists (v +++ String c ""), "", b. split; [|now repeat split].
  rewrite app_assoc_s. reflexivity.
Qed.

(** --- the round that reads a query --- *)
Section Round.
Variable cf : cfg.
Variable fuel n : nat.
Variable ws : nat -> world.
Lemma steps_next k : forall s v s1, tsteps cf fuel n ws k s = Val (v, inl s1) ->
  tsteps cf fuel n ws (S k) s = ('(w, x) <- tstep cf fuel n ws s1 ;; Val ((v ++ w)%string, x)).
Proof.
  induction k as [|k IH]; intros s v s1 H.
  - cbn [tsteps] in H. injection H as <- <-. cbn [tsteps bind]. destruct (tstep cf fuel n ws s) as [[w [s'|e]]| |]; cbn [bind]; try reflexivity. now rewrite sapp_nil.
  - remember (S k) as k1. subst k1. cbn [tsteps] in H. change (tsteps cf fuel n ws (S (S k)) s) with
      ('(w, x) <- tstep cf fuel n ws s ;; match x with inr e => Val (w, inr e) | inl s' => '(v, y) <- tsteps cf fuel n ws (S k) s' ;; Val ((w ++ v)%string, y) end).
    destruct (tstep cf fuel n ws s) as [[w [s'|e]]| |]; cbn [bind] in H |- *; try discriminate H.
    destruct (tsteps cf fuel n ws k s') as [[v' y]| |] eqn:E; cbn [bind] in H; try discriminate H. injection H as <- ->.
    rewrite (IH _ _ _ E). destruct (tstep cf fuel n ws s1) as [[w1 x]| |]; cbn [bind]; try reflexivity. now rewrite sapp_assoc.
Qed.
Lemma mode_next paths input k w s w' x : normal_mode cf fuel n ws paths input k = Val (w, inl s) -> normal_mode cf fuel n ws paths input (S k) = Val (w', x) ->
  exists v, tstep cf fuel n ws s = Val (v, x) /\ w' = (w ++ v)%string.
Proof.
  unfold normal_mode. destruct (new_org cf) as [o| |]; cbn [bind]; try discriminate. destruct (load_files cf paths o) as [[o1|]| |]; cbn [bind]; try discriminate.
  match goal with |- context [tsteps cf fuel n ws k ?a] => set (s0 := a) end. intros H K.
  destruct (tsteps cf fuel n ws k s0) as [[v y]| |] eqn:E; cbn [bind] in H; try discriminate H. injection H as <- ->.
  rewrite (steps_next _ _ _ _ E) in K. destruct (tstep cf fuel n ws s) as [[v1 x1]| |]; cbn [bind] in K; try discriminate K. injection K as <- <-.
  exists v1. split; [reflexivity|]. now rewrite !sapp_assoc.
Qed.
Lemma getline_dot old t rest : has_char "." t = false ->
  getline "." old {| i_rest := t ++ "." ++ rest; i_good := true |} = (t, {| i_rest := rest; i_good := true |}).
Proof. intros D. unfold getline. cbn [i_good i_rest]. now rewrite (break_app "." t rest D : break_at "." (t ++ "." ++ rest) = _). Qed.
Lemma ignore_line line rest : forall m, has_char newline line = false -> (String.length line < m)%nat ->
  ignore_to m (line ++ nl ++ rest) = {| i_rest := rest; i_good := true |}.
Proof.
  induction line as [|c l IH]; intros m N L; (destruct m as [|m]; [cbn in L; lia|]); cbn [String.append ignore_to nl]; [reflexivity|].
  cbn [has_char] in N. apply orb_false_iff in N as [N1 N2]. rewrite N1. apply IH; [exact N2|cbn in L; lia].
Qed.
(** what the round prints *)
Definition shown (r : res) : string := match r with RAnswer _ => "?- " | _ => ("?- " ++ result_text "error: " r)%string end.
Definition showing (r : res) : option (list (string * string)) := match r with RAnswer b => Some b | _ => None end.
Lemma prompt_round s t rest v s' : t_show s = None -> t_in s = {| i_rest := t ++ "." ++ rest; i_good := true |} -> has_char "." t = false ->
  tstep cf fuel n ws s = Val (v, inl s') ->
  exists lr o1 r, load_query cf t (t_org s) = Some (lr, o1) /\ lr <> LEscape /\ get_answer cf fuel n (ws (t_k s)) o1 = Val (r, t_org s') /\
    v = shown r /\ t_show s' = showing r /\ t_in s' = ignore_to ignore_max rest.
Proof.
  intros Sh In D H. unfold tstep in H. rewrite Sh in H. unfold at_prompt in H. rewrite In, (getline_dot _ _ _ D) in H.
  destruct (t =? "q"); [discriminate H|]. destruct (load_query cf t (t_org s)) as [[lr o1]|] eqn:L; [|discriminate H].
  destruct lr as [|e|]; [| |discriminate H].
  all: destruct (get_answer cf fuel n (ws (t_k s)) o1) as [[r o2]| |] eqn:G; cbn [bind] in H; try discriminate H.
  all: destruct (explain r) as [m|] eqn:Ex; [|destruct (explain_none r Ex) as [->|[b ->]]]; apply val_eq in H as [<- <-].
  all: match goal with |- exists lr o1 r, Some (?a, ?b) = _ /\ _ => exists a, b end.
  all: first [exists r; assert (Sr : shown r = ("?- error: " ++ m ++ nl)%string /\ showing r = None)
                by (split; [unfold shown; rewrite (explain_text r m "error: " Ex); destruct r; try discriminate Ex; reflexivity|destruct r; try discriminate Ex; reflexivity]);
              destruct Sr as [-> ->]; repeat split; auto; discriminate
             |eexists; split; [reflexivity|]; split; [discriminate|]; split; [exact G|]; repeat split; reflexivity].
Qed.
Theorem read_whole paths input k w s t rest q w' s' :
  normal_mode cf fuel n ws paths input k = Val (w, inl s) -> t_show s = None -> t_in s = {| i_rest := t ++ "." ++ rest; i_good := true |} ->
  query_lang q (t ++ ".") -> normal_mode cf fuel n ws paths input (S k) = Val (w', inl s') ->
  parse_query (append_dot t) = Some (COk q) /\
  (exists lr o1 r, load_query cf t (t_org s) = Some (lr, o1) /\ get_answer cf fuel n (ws (t_k s)) o1 = Val (r, t_org s') /\
    t_show s' = showing r /\ w' = (w ++ shown r)%string) /\
  (forall line later, rest = (line ++ nl ++ later)%string -> has_char newline line = false -> (Z.of_nat (String.length line) < 1024)%Z ->
     t_in s' = {| i_rest := later; i_good := true |}).
Proof.
  intros H Sh In Q K. destruct (query_dot q t Q) as [D A]. destruct (mode_next _ _ _ _ _ _ _ H K) as (v & St & ->).
  destruct (prompt_round _ _ _ _ _ Sh In D St) as (lr & o1 & r & L & _ & G & -> & Sh' & In').
  split; [now apply query_exact|]. split; [exists lr, o1, r; auto|].
  intros line later -> N Len. rewrite In'. apply ignore_line; [exact N|]. unfold ignore_max. lia.
Qed.
Theorem rejected_false paths input k w s t rest w' s' :
  normal_mode cf fuel n ws paths input k = Val (w, inl s) -> t_show s = None -> t_in s = {| i_rest := t ++ "." ++ rest; i_good := true |} ->
  has_char "." t = false -> (forall q, ~ query_lang q (append_dot t)) -> normal_mode cf fuel n ws paths input (S k) = Val (w', inl s') ->
  w' = (w ++ "?- false" ++ nl)%string /\ t_show s' = None.
Proof.
  intros H Sh In D Q K. destruct (mode_next _ _ _ _ _ _ _ H K) as (v & St & ->).
  destruct (prompt_round _ _ _ _ _ Sh In D St) as (lr & o1 & r & L & NE & G & -> & Sh' & In').
  assert (E : r = RFalse).
  { unfold load_query in L. destruct (parse_query (append_dot t)) as [[q|e|]|] eqn:Ep; [|injection L as <- <-|injection L as <- <-; congruence|discriminate L].
    - exfalso. apply (Q q). now apply query_exact.
    - unfold get_answer in G. destruct n as [|n']; [discriminate G|]. cbn [answer_loop] in G. cbn in G. injection G as <- _. reflexivity. }
  subst r. split; [reflexivity|exact Sh'].
Qed.
End Round.

(** --- cases --- *)
Fixpoint spaces (k : nat) : string := match k with 0 => "" | S k' => String " " (spaces k') end.
Lemma spaces_line k : has_char newline (spaces k) = false.
Proof. induction k as [|k IH]; [reflexivity|exact IH]. Qed.
Lemma long_line : exists rest w, has_char newline rest = false /\ normal_mode cfg0 100 100 (fun _ => w0) [] ("append([],[],[])." ++ rest ++ nl) 3 = Val (w, inr TQuit).
Proof.
  exists (spaces ignore_max ++ "q.")%string. eexists. split; [vm_compute; reflexivity|]. apply output_end. vm_compute. reflexivity.
Qed.
Lemma query_q : exists o o1 o2 o3 w, new_org cfg0 = Val o /\ load_program cfg0 "q." o = Some (LOk, o1) /\ load_query cfg0 "q" o1 = Some (LOk, o2) /\
  get_answer cfg0 100 100 w0 o2 = Val (RAnswer [], o3) /\ query_lang [NCon "q"] "q." /\
  normal_mode cfg0 100 100 (fun _ => w0) ["q."] ("q." ++ nl) 1 = Val (w, inr TQuit).
Proof.
  destruct (new_org cfg0) as [o| |] eqn:N; try (vm_compute in N; discriminate N).
  destruct (load_program cfg0 "q." o) as [[r o1]|] eqn:L; [|vm_compute in N; injection N as <-; vm_compute in L; discriminate L].
  destruct (load_query cfg0 "q" o1) as [[r2 o2]|] eqn:Q.
  2: { vm_compute in N; injection N as <-; vm_compute in L; injection L as <- <-; vm_compute in Q; discriminate Q. }
  destruct (get_answer cfg0 100 100 w0 o2) as [[r3 o3]| |] eqn:G.
  2, 3: vm_compute in N; injection N as <-; vm_compute in L; injection L as <- <-; vm_compute in Q; injection Q as <- <-; vm_compute in G; discriminate G.
  exists o, o1, o2, o3, (header ["q."] ++ "?- ")%string.
  split; [reflexivity|]. split; [vm_compute in N; injection N as <-; vm_compute in L; injection L as <- <-; reflexivity|].
  split; [vm_compute in N; injection N as <-; vm_compute in L; injection L as <- <-; vm_compute in Q; injection Q as <- <-; reflexivity|].
  split; [vm_compute in N; injection N as <-; vm_compute in L; injection L as <- <-; vm_compute in Q; injection Q as <- <-; vm_compute in G; injection G as <- <-; reflexivity|].
  split; [apply query_exact; vm_compute; reflexivity|]. apply output_end. vm_compute. reflexivity.
Qed.
Lemma same_output : exists w s1 s2, (forall q, ~ query_lang q "append([],[a]),[].") /\ (exists q, query_lang q "append([],[a],[]).") /\
  normal_mode cfg0 100 100 (fun _ => w0) [] ("append([],[a]),[]." ++ nl) 1 = Val (w, inl s1) /\
  normal_mode cfg0 100 100 (fun _ => w0) [] ("append([],[a],[])." ++ nl) 1 = Val (w, inl s2).
Proof.
  destruct (output_prompt (normal_mode cfg0 100 100 (fun _ => w0) [] ("append([],[a]),[]." ++ nl) 1) (header [] ++ "?- false" ++ nl)) as (s1 & _ & _ & E1); [vm_compute; reflexivity|].
  destruct (output_prompt (normal_mode cfg0 100 100 (fun _ => w0) [] ("append([],[a],[])." ++ nl) 1) (header [] ++ "?- false" ++ nl)) as (s2 & _ & _ & E2); [vm_compute; reflexivity|].
  exists (header [] ++ "?- false" ++ nl)%string, s1, s2. split; [|split; [|now split]].
  - intros q H. apply query_exact in H. assert (K : parse_query "append([],[a]),[]." = Some (CErr CParser)) by (vm_compute; reflexivity). congruence.
  - exists [NFun "append" [nil_node; list_node [NCon "a"] nil_node; nil_node]]. apply query_exact. vm_compute. reflexivity.
Qed.
(** a dialogue in which a query is to be read next *)
Definition prompt_at (x : out (string * (tstate + tend))) : option (string * istream) :=
  match x with Val (w, inl s) => match t_show s with None => Some (w, t_in s) | Some _ => None end | _ => None end.
Lemma prompt_at_some x w i : prompt_at x = Some (w, i) -> exists s, t_show s = None /\ t_in s = i /\ x = Val (w, inl s).
Proof. destruct x as [[v [s|y]]| |]; cbn; try discriminate. destruct (t_show s) eqn:E; [discriminate|]. intros [= <- <-]. eauto. Qed.
Definition long_dialogue : string := "append(X,[b],[a,b])." ++ nl ++ "x" ++ nl ++ "append([a]," ++ nl ++ " [b],Y) . more" ++ nl ++ "y" ++ nl.
Lemma whole_case : exists w s q w' s', normal_mode cfg0 100 100 (fun _ => w0) [] long_dialogue 2 = Val (w, inl s) /\ t_show s = None /\
  t_in s = {| i_rest := (("append([a]," ++ nl ++ " [b],Y) ") ++ "." ++ (" more" ++ nl ++ "y" ++ nl))%string; i_good := true |} /\
  query_lang q (("append([a]," ++ nl ++ " [b],Y) ") ++ ".") /\ normal_mode cfg0 100 100 (fun _ => w0) [] long_dialogue 3 = Val (w', inl s') /\
  t_show s' = Some [("Y", "[a,b]")].
Proof.
  destruct (prompt_at (normal_mode cfg0 100 100 (fun _ => w0) [] long_dialogue 2)) as [[w i]|] eqn:E; [|vm_compute in E; discriminate E].
  destruct (prompt_at_some _ _ _ E) as (s & Sh & Hi & N).
  destruct (normal_mode cfg0 100 100 (fun _ => w0) [] long_dialogue 3) as [[w' [s'|e]]| |] eqn:N3.
  2, 3, 4: vm_compute in N3; discriminate N3.
  assert (S3 : match normal_mode cfg0 100 100 (fun _ => w0) [] long_dialogue 3 with Val (_, inl s) => t_show s | _ => None end = Some [("Y", "[a,b]")]) by (vm_compute; reflexivity).
  rewrite N3 in S3.
  exists w, s. eexists. exists w', s'. split; [exact N|]. split; [exact Sh|]. split; [rewrite Hi; vm_compute in E; injection E as _ <-; reflexivity|].
  split; [apply query_exact; vm_compute; reflexivity|]. split; [reflexivity|exact S3].
Qed.
Lemma rejected_case_t : exists w s t rest w' s', normal_mode cfg0 100 100 (fun _ => w0) [] ("append(X,[b],[a,b])." ++ nl ++ "x" ++ nl ++ "p(X." ++ nl) 2 = Val (w, inl s) /\
  t_show s = None /\ t_in s = {| i_rest := (t ++ "." ++ rest)%string; i_good := true |} /\ has_char "." t = false /\ (forall q, ~ query_lang q (append_dot t)) /\
  normal_mode cfg0 100 100 (fun _ => w0) [] ("append(X,[b],[a,b])." ++ nl ++ "x" ++ nl ++ "p(X." ++ nl) 3 = Val (w', inl s').
Proof.
  set (x := ("append(X,[b],[a,b])." ++ nl ++ "x" ++ nl ++ "p(X." ++ nl)%string).
  destruct (prompt_at (normal_mode cfg0 100 100 (fun _ => w0) [] x 2)) as [[w i]|] eqn:E; [|vm_compute in E; discriminate E].
  destruct (prompt_at_some _ _ _ E) as (s & Sh & Hi & N).
  destruct (normal_mode cfg0 100 100 (fun _ => w0) [] x 3) as [[w' [s'|e]]| |] eqn:N3.
  2, 3, 4: vm_compute in N3; discriminate N3.
  exists w, s, "p(X", nl, w', s'. split; [exact N|]. split; [exact Sh|]. split; [rewrite Hi; vm_compute in E; injection E as _ <-; reflexivity|].
  split; [reflexivity|]. split; [|exact eq_refl].
  intros q H. apply query_exact in H. assert (K : parse_query (append_dot "p(X") = Some (CErr CParser)) by (vm_compute; reflexivity). congruence.
Qed.
