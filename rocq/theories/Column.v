(** The column of a syntax error.
    Model: boost/spirit/home/support/iterators/line_pos_iterator.hpp, get_line_start and get_column, which error_handler.h 28 calls with tab stops every 4 columns.
    Older releases let a line start at the line break itself, newer ones behind it; CMakeLists.txt 14 allows both. *)
From Verif Require Import Base Machine Compiler Parser ParserFacts Texts Grammar Roundtrip Exprs Language Positions.
Open Scope string_scope.
Open Scope list_scope.

Definition is_break (c : ascii) : bool := Ascii.eqb c "013" || Ascii.eqb c "010".
Definition is_tab (c : ascii) : bool := Ascii.eqb c "009".
(** get_line_start: [s] is what is left up to the position, [latest] the text from the last start of a line, [prev] prev_was_newline (always false in older releases) *)
Fixpoint line_start (old prev : bool) (latest s : string) : string :=
  match s with
  | EmptyString => if prev then "" else latest
  | String c s' => line_start old (negb old && is_break c) (if prev || (old && is_break c) then s else latest) s'
  end.
(** get_column, loop *)
Fixpoint columns (n : N) (s : string) : N :=
  match s with
  | EmptyString => n
  | String c s' => columns (if is_tab c then n + (4 - (n - 1) mod 4) else n + 1)%N s'
  end.
(** get_column of the position after the text [u] *)
Definition get_column (old : bool) (u : string) : N := columns 1 (line_start old false u u).

(** [u] is some lines [l] and the beginning [b] of another *)
Definition no_breaks (b : string) : Prop := all_chars (fun c => negb (is_break c)) b = true.
Definition no_tabs (b : string) : Prop := all_chars (fun c => negb (is_tab c)) b = true.
Definition whole_lines (l : string) : Prop := l = "" \/ exists l' c, l = l' +++ String c "" /\ is_break c = true.

Lemma start_in_line old b : no_breaks b -> forall prev latest, line_start old prev latest b = if prev then b else latest.
Proof.
  induction b as [|c b IH]; intros H prev latest; [reflexivity|]. unfold no_breaks in H. cbn [all_chars] in H. apply andb_true_iff in H. destruct H as [H1 H2]. apply negb_true_iff in H1.
  cbn [line_start]. rewrite H1, !andb_false_r, orb_false_r, IH by exact H2. reflexivity.
Qed.
Lemma start_after old l c b : is_break c = true -> no_breaks b -> forall prev latest,
  line_start old prev latest (l +++ String c b) = if old then String c b else b.
Proof.
  intros Hc Hb. induction l as [|d l IH]; intros prev latest; [|cbn [String.append line_start]; apply IH].
  cbn [String.append line_start]. rewrite Hc, !andb_true_r, start_in_line by exact Hb. destruct old; [|reflexivity]. cbn [negb]. now rewrite orb_true_r.
Qed.
Lemma columns_plain s : no_tabs s -> forall n, columns n s = (n + N.of_nat (slen s))%N.
Proof.
  induction s as [|c s IH]; intros H n; [cbn; lia|]. unfold no_tabs in H. cbn [all_chars] in H. apply andb_true_iff in H. destruct H as [H1 H2]. apply negb_true_iff in H1.
  cbn [columns String.length]. rewrite H1, IH by exact H2. lia.
Qed.
Lemma columns_least s : forall n, (n + N.of_nat (slen s) <= columns n s)%N.
Proof.
  induction s as [|c s IH]; intros n; [cbn; lia|]. cbn [columns String.length]. pose proof (N.mod_lt (n - 1) 4 ltac:(lia)) as M.
  destruct (is_tab c); [pose proof (IH (n + (4 - (n - 1) mod 4))%N)|pose proof (IH (n + 1)%N)]; lia.
Qed.
Lemma break_no_tab c : is_break c = true -> is_tab c = false.
Proof. unfold is_break, is_tab. intros H. apply orb_true_iff in H. destruct H as [H|H]; apply Ascii.eqb_eq in H; subst c; reflexivity. Qed.
Theorem column_counted old l b : whole_lines l -> no_breaks b -> no_tabs b ->
  get_column old (l +++ b) = (1 + N.of_nat (slen b) + (if old then match l with EmptyString => 0 | _ => 1 end else 0))%N.
Proof.
  intros [->|(l' & c & -> & Hc)] Hb Ht; unfold get_column.
  - cbn [String.append]. rewrite start_in_line, columns_plain by assumption. destruct old; lia.
  - rewrite app_assoc_s. cbn [String.append]. rewrite start_after by assumption.
    replace (match l' +++ String c "" with EmptyString => 0%N | _ => 1%N end) with 1%N by (destruct l'; reflexivity).
    destruct old; [cbn [columns]; rewrite (break_no_tab c Hc)|]; rewrite columns_plain by assumption; lia.
Qed.
(** with tabs too the column is never less *)
Theorem column_least old l b : whole_lines l -> no_breaks b -> (1 + N.of_nat (slen b) <= get_column old (l +++ b))%N.
Proof.
  intros [->|(l' & c & -> & Hc)] Hb; unfold get_column.
  - cbn [String.append]. rewrite start_in_line by assumption. pose proof (columns_least b 1). lia.
  - rewrite app_assoc_s. cbn [String.append]. rewrite start_after by assumption. destruct old; [pose proof (columns_least (String c b) 1) as K; cbn [String.length] in K|pose proof (columns_least b 1)]; lia.
Qed.
(** every text is made of whole lines and the beginning of another *)
Lemma lines_split u : exists l b, u = l +++ b /\ whole_lines l /\ no_breaks b.
Proof.
  induction u as [|c u (l & b & -> & [->|(l' & d & -> & Hd)] & Hb)].
  - exists "", "". split; [reflexivity|]. split; [now left|reflexivity].
  - cbn [String.append]. destruct (is_break c) eqn:Hc.
    + exists (String c ""), b. split; [reflexivity|]. split; [|exact Hb]. right. exists "", c. auto.
    + exists "", (String c b). split; [reflexivity|]. split; [now left|]. unfold no_breaks. cbn [all_chars]. now rewrite Hc.
  - exists (String c (l' +++ String d "")), b. split; [reflexivity|]. split; [|exact Hb]. right. exists (String c l'), d. auto.
Qed.
Lemma no_tabs_app s t : no_tabs (s +++ t) <-> no_tabs s /\ no_tabs t.
Proof. unfold no_tabs. induction s as [|c s IH]; cbn [String.append all_chars]; [intuition|]. rewrite !andb_true_iff, IH. tauto. Qed.
