(** The two editors and the alert of the page in the course of time.
    Model: SyntaxError.js, Alert.js, index.html 63-65, 71-74, over the alerts of Alert.v. Of the editor Ace (1.4.8): addMarker gives a mark a number no mark of the session has had,
    removeMarker takes the mark of a number away, if there is one, and does nothing otherwise; every change of the text calls all functions registered with on("change");
    marks do not move; gotoLine counts lines from 1. *)
From Verif Require Import Base Machine Compiler Print Parser ParserFacts Texts Grammar Organizer Examples Atoms Roundtrip Exprs Language Positions Column CompAt ErrPos Finite Loads Alert.
Open Scope string_scope.
Open Scope list_scope.

Inductive editor := Program | Query.
Definition editor_of (w : string) : editor := if String.eqb w "query" then Query else Program.
(** a mark: of the whole line or of a column, its row and column from 0 *)
Record mark := { m_whole : bool; m_row : Z; m_col : Z }.
(** an editor: its text, the marks by number, the next number, how often on("change") was called, and where the cursor was sent (row and column from 0) *)
Record ses := { s_text : string; s_marks : list (nat * mark); s_next : nat; s_heard : nat; s_cursor : option (Z * Z) }.
(** SyntaxError.js 6-10: ace_session, markerID_line and markerID_col; Alert.js: the text shown *)
Record ui := { u_program : ses; u_query : ses; u_err : option (editor * nat * nat); u_alert : option string }.
Definition at_ed (u : ui) (e : editor) : ses := match e with Program => u_program u | Query => u_query u end.
Definition set_ed (u : ui) (e : editor) (s : ses) : ui :=
  match e with
  | Program => {| u_program := s; u_query := u_query u; u_err := u_err u; u_alert := u_alert u |}
  | Query => {| u_program := u_program u; u_query := s; u_err := u_err u; u_alert := u_alert u |}
  end.
Definition say (u : ui) (a : option string) : ui := {| u_program := u_program u; u_query := u_query u; u_err := u_err u; u_alert := a |}.
Definition blame (u : ui) (e : option (editor * nat * nat)) : ui := {| u_program := u_program u; u_query := u_query u; u_err := e; u_alert := u_alert u |}.
(** addMarker *)
Definition add_marker (m : mark) (s : ses) : ses :=
  {| s_text := s_text s; s_marks := (s_next s, m) :: s_marks s; s_next := S (s_next s); s_heard := s_heard s; s_cursor := s_cursor s |}.
(** removeMarker *)
Definition drop_mark (i : nat) (l : list (nat * mark)) : list (nat * mark) := filter (fun m => negb (Nat.eqb (fst m) i)) l.
Arguments drop_mark : simpl never.
Definition remove_marker (i : nat) (s : ses) : ses :=
  {| s_text := s_text s; s_marks := drop_mark i (s_marks s); s_next := s_next s; s_heard := s_heard s; s_cursor := s_cursor s |}.
(** SyntaxError.js 12-46 *)
Definition mark_error (e : editor) (row col : Z) (u : ui) : ui :=
  let s := at_ed u e in
  let s1 := add_marker {| m_whole := true; m_row := row; m_col := col |} s in
  let s2 := add_marker {| m_whole := false; m_row := row; m_col := col |} s1 in
  blame (set_ed u e {| s_text := s_text s2; s_marks := s_marks s2; s_next := s_next s2; s_heard := S (s_heard s2); s_cursor := Some ((row - 1)%Z, col) |})
    (Some (e, s_next s, s_next s1)).
(** SyntaxError.js 48-51 *)
Definition unmark (u : ui) : ui :=
  match u_err u with
  | Some (e, i, j) => set_ed u e (remove_marker j (remove_marker i (at_ed u e)))
  | None => u
  end.
(** SyntaxError.js 42-45; Alert.js 24-26 *)
Definition on_change (u : ui) : ui := say (unmark u) None.

(** a click on Run, a change of the text of an editor, a click on the cross of the alert *)
Inductive event := Run | Edit (e : editor) (text : string) | Close.
(** InterpreterHandler.js 48-72, main.js 58-77 *)
Definition tell (a : alert) (u : ui) : ui :=
  say (match al_mark a with Some (w, row, col) => mark_error (editor_of w) row col u | None => u end) (Some (al_text a)).
Definition edit (e : editor) (text : string) (u : ui) : ui :=
  let s := at_ed u e in
  let u1 := set_ed u e {| s_text := text; s_marks := s_marks s; s_next := s_next s; s_heard := s_heard s; s_cursor := s_cursor s |} in
  Nat.iter (s_heard s) on_change u1.
Definition step (cf : cfg) (what : spirit) (ev : event) (u : ui) : out ui :=
  match ev with
  | Run => r <- run_alert cf what (s_text (u_program u)) (s_text (u_query u)) ;; Val (match r with Some a => tell a u | None => u end)
  | Edit e text => Val (edit e text u)
  | Close => Val (say u None)
  end.
Fixpoint steps (cf : cfg) (what : spirit) (evs : list event) (u : ui) : out ui :=
  match evs with [] => Val u | ev :: evs' => u' <- step cf what ev u ;; steps cf what evs' u' end.
(** ace_editor_setup.js 7-27 *)
Definition fresh_ses (text : string) : ses := {| s_text := text; s_marks := []; s_next := 1; s_heard := 0; s_cursor := None |}.
Definition fresh_ui (p q : string) : ui := {| u_program := fresh_ses p; u_query := fresh_ses q; u_err := None; u_alert := None |}.

(** --- what always holds --- *)
Definition fresh_marks (s : ses) : Prop := forall i m, In (i, m) (s_marks s) -> i < s_next s.
Definition sane (u : ui) : Prop :=
  fresh_marks (u_program u) /\ fresh_marks (u_query u) /\
  match u_err u with Some (e, i, j) => i < j < s_next (at_ed u e) /\ 0 < s_heard (at_ed u e) | None => u_program u = fresh_ses (s_text (u_program u)) /\ u_query u = fresh_ses (s_text (u_query u)) end.
Lemma in_drop i l k m : In (k, m) (drop_mark i l) <-> In (k, m) l /\ k <> i.
Proof. unfold drop_mark. rewrite filter_In. cbn [fst]. rewrite negb_true_iff, Nat.eqb_neq. reflexivity. Qed.
Lemma sane_fresh p q : sane (fresh_ui p q).
Proof. unfold sane, fresh_marks. cbn. tauto. Qed.
Lemma at_set u e s : at_ed (set_ed u e s) e = s. Proof. destruct e; reflexivity. Qed.
Lemma sane_on_change u : sane u -> sane (on_change u).
Proof.
  intros (H1 & H2 & H3). unfold on_change, unmark. destruct (u_err u) as [[[e i] j]|] eqn:E; [|unfold sane; cbn; rewrite E; auto].
  unfold sane, fresh_marks in *. destruct e; cbn in *; rewrite E; (split; [|split]); cbn; try assumption; intros k m H; apply in_drop in H; destruct H as [H _]; apply in_drop in H; destruct H as [H _]; eauto.
Qed.
Lemma heard_on_change u e : s_heard (at_ed (on_change u) e) = s_heard (at_ed u e).
Proof. unfold on_change, unmark. destruct (u_err u) as [[[[|] i] j]|]; destruct e; reflexivity. Qed.
Lemma sane_edit e t u : sane u -> sane (edit e t u).
Proof.
  intros H. unfold edit. set (u1 := set_ed _ _ _). assert (H1 : sane u1).
  { destruct H as (A & B & C). unfold sane, fresh_marks in *. destruct e; cbn in *; (split; [assumption|split; [assumption|]]); (destruct (u_err u) as [[[[|] i] j]|]; cbn in *; [assumption|assumption|]); destruct C as [-> ->]; split; reflexivity. }
  clearbody u1. induction (s_heard (at_ed u e)) as [|n IH]; [exact H1|]. cbn [Nat.iter]. now apply sane_on_change.
Qed.
Lemma sane_mark e r c u : sane u -> sane (mark_error e r c u).
Proof.
  intros (A & B & _). unfold sane, fresh_marks, mark_error in *. destruct e; cbn in *; repeat split; try lia; try assumption; intros k m [K|[K|K]]; try (injection K as <- _; lia); [specialize (A _ _ K)|specialize (B _ _ K)]; lia.
Qed.
Lemma sane_step cf what ev u u' : sane u -> step cf what ev u = Val u' -> sane u'.
Proof.
  intros H E. destruct ev as [|e t|]; cbn [step] in E.
  - destruct (run_alert _ _ _ _) as [[a|]| |]; try discriminate E; injection E as <-; [|exact H]. unfold tell. destruct (al_mark a) as [[[w r] c]|]; [exact (sane_mark _ r c u H)|exact H].
  - injection E as <-. now apply sane_edit.
  - injection E as <-. exact H.
Qed.
Lemma sane_steps cf what evs : forall u u', sane u -> steps cf what evs u = Val u' -> sane u'.
Proof.
  induction evs as [|ev evs IH]; intros u u' H E; cbn [steps] in E; [injection E as <-; exact H|].
  destruct (step cf what ev u) as [u1| |] eqn:E1; try discriminate E. exact (IH _ _ (sane_step _ _ _ _ _ H E1) E).
Qed.

(** --- a report marks its place and shows its alert --- *)
Theorem report_shown cf what u u' a w row col : run_alert cf what (s_text (u_program u)) (s_text (u_query u)) = Val (Some a) -> al_mark a = Some (w, row, col) ->
  step cf what Run u = Val u' ->
  u_alert u' = Some (al_text a) /\ u_err u' = Some (editor_of w, s_next (at_ed u (editor_of w)), S (s_next (at_ed u (editor_of w)))) /\
  s_marks (at_ed u' (editor_of w)) = (S (s_next (at_ed u (editor_of w))), {| m_whole := false; m_row := row; m_col := col |}) ::
    (s_next (at_ed u (editor_of w)), {| m_whole := true; m_row := row; m_col := col |}) :: s_marks (at_ed u (editor_of w)) /\
  s_cursor (at_ed u' (editor_of w)) = Some ((row - 1)%Z, col).
Proof.
  intros R M E. cbn [step] in E. rewrite R in E. cbn [bind] in E. injection E as <-. unfold tell. rewrite M. unfold mark_error. destruct (editor_of w); cbn; auto.
Qed.
(** changing the text takes away exactly the marks of the last report, wherever they are, if a report was ever made in this editor *)
Lemma on_change_idem u : on_change (on_change u) = on_change u.
Proof.
  unfold on_change, unmark. destruct u as [p q er al]. destruct er as [[[e i] j]|]; [|reflexivity]. cbn.
  assert (D : forall l, drop_mark j (drop_mark i (drop_mark j (drop_mark i l))) = drop_mark j (drop_mark i l)).
  { intros l. unfold drop_mark. induction l as [|[k m] l IH]; [reflexivity|]. cbn [filter fst]. destruct (Nat.eqb k i) eqn:Ei; cbn [negb]; [exact IH|]. cbn [filter fst]. destruct (Nat.eqb k j) eqn:Ej; cbn [negb]; [exact IH|].
    cbn [filter fst]. rewrite Ei. cbn [negb filter fst]. rewrite Ej. cbn [negb]. now rewrite IH. }
  destruct e; cbn; unfold remove_marker; cbn; now rewrite D.
Qed.
Definition retext (e : editor) (text : string) (u : ui) : ui :=
  let s := at_ed u e in set_ed u e {| s_text := text; s_marks := s_marks s; s_next := s_next s; s_heard := s_heard s; s_cursor := s_cursor s |}.
Lemma edit_once e t u : edit e t u = match s_heard (at_ed u e) with 0 => retext e t u | S _ => on_change (retext e t u) end.
Proof.
  unfold edit. fold (retext e t u). destruct (s_heard (at_ed u e)) as [|n]; [reflexivity|]. induction n as [|n IH]; [reflexivity|].
  change (on_change (Nat.iter (S n) on_change (retext e t u)) = on_change (retext e t u)). rewrite IH. apply on_change_idem.
Qed.
Lemma drop_fresh i l : (forall k m, In (k, m) l -> k < i) -> drop_mark i l = l.
Proof.
  unfold drop_mark. induction l as [|[k m] l IH]; intros H; [reflexivity|]. cbn [filter fst]. pose proof (H k m (or_introl eq_refl)). replace (Nat.eqb k i) with false by (symmetry; apply Nat.eqb_neq; lia).
  cbn [negb]. rewrite IH; [reflexivity|]. intros. eapply H. right. eassumption.
Qed.
Lemma drop_new n a b l : (forall k m, In (k, m) l -> k < n) -> drop_mark (S n) (drop_mark n ((S n, a) :: (n, b) :: l)) = l.
Proof.
  intros H. change (drop_mark n ((S n, a) :: (n, b) :: l)) with (filter (fun m => negb (Nat.eqb (fst m) n)) ((S n, a) :: (n, b) :: l)). cbn [filter fst]. rewrite Nat.eqb_refl.
  replace (Nat.eqb (S n) n) with false by (symmetry; apply Nat.eqb_neq; lia). cbn [negb]. fold (drop_mark n l). rewrite (drop_fresh n l H). unfold drop_mark. cbn [filter fst]. rewrite Nat.eqb_refl. cbn [negb].
  fold (drop_mark (S n) l). apply drop_fresh. intros k m Hk. specialize (H k m Hk). lia.
Qed.
(** a rejected click on Run followed by a change of the rejected text: all as before the click but for the alert, which is hidden *)
Theorem report_edit cf what u u' a w row col text : sane u -> run_alert cf what (s_text (u_program u)) (s_text (u_query u)) = Val (Some a) -> al_mark a = Some (w, row, col) ->
  steps cf what [Run; Edit (editor_of w) text] u = Val u' ->
  u_alert u' = None /\ s_text (at_ed u' (editor_of w)) = text /\ s_marks (u_program u') = s_marks (u_program u) /\ s_marks (u_query u') = s_marks (u_query u).
Proof.
  intros (A & B & _) R M E. cbn [steps step] in E. rewrite R in E. cbn [bind] in E. injection E as <-. rewrite edit_once. unfold tell. rewrite M. unfold mark_error, fresh_marks in *.
  destruct (editor_of w); cbn; rewrite drop_new by assumption; auto.
Qed.
(** --- marks that nothing takes away --- *)
Definition stale (u : ui) (e : editor) (i : nat) (m : mark) : Prop := In (i, m) (s_marks (at_ed u e)) /\ forall a b, u_err u = Some (e, a, b) -> i <> a /\ i <> b.
Lemma stale_on_change u e i m : stale u e i m -> stale (on_change u) e i m.
Proof.
  intros [H N]. unfold stale, on_change, unmark. destruct (u_err u) as [[[e' a] b]|] eqn:E; [|destruct e; cbn in *; rewrite E; split; auto].
  destruct e, e'; cbn in *; rewrite E; (split; [|exact N]); try exact H; destruct (N a b eq_refl); apply in_drop; (split; [apply in_drop; auto|assumption]).
Qed.
Lemma stale_edit u e i m e' t : stale u e i m -> stale (edit e' t u) e i m.
Proof.
  intros H. rewrite edit_once. assert (K : stale (retext e' t u) e i m) by (destruct H as [H N]; destruct e, e'; split; assumption).
  destruct (s_heard (at_ed u e')); [exact K|now apply stale_on_change].
Qed.
Lemma stale_mark u e i m e' r c : sane u -> In (i, m) (s_marks (at_ed u e)) -> stale (mark_error e' r c u) e i m.
Proof.
  intros (A & B & _) H. assert (L : i < s_next (at_ed u e)) by (destruct e; cbn in *; [exact (A _ _ H)|exact (B _ _ H)]).
  unfold stale, mark_error. destruct e, e'; cbn in *; (split; [auto|]); intros a b K; injection K; intros; subst; try discriminate; lia.
Qed.
Lemma stale_step cf what ev u u' e i m : sane u -> stale u e i m -> step cf what ev u = Val u' -> stale u' e i m.
Proof.
  intros S H E. destruct ev as [|e' t|]; cbn [step] in E.
  - destruct (run_alert _ _ _ _) as [[a|]| |]; try discriminate E; injection E as <-; [|exact H]. unfold tell.
    destruct (al_mark a) as [[[w r] c]|]; [|destruct e; exact H]. pose proof (stale_mark u e i m (editor_of w) r c S (proj1 H)) as K. destruct e; exact K.
  - injection E as <-. now apply stale_edit.
  - injection E as <-. destruct e; exact H.
Qed.
Lemma stale_steps cf what evs : forall u u' e i m, sane u -> stale u e i m -> steps cf what evs u = Val u' -> stale u' e i m.
Proof.
  induction evs as [|ev evs IH]; intros u u' e i m S H E; cbn [steps] in E; [injection E as <-; exact H|].
  destruct (step cf what ev u) as [u1| |] eqn:E1; try discriminate E. exact (IH _ _ _ _ _ (sane_step _ _ _ _ _ S E1) (stale_step _ _ _ _ _ _ _ _ S H E1) E).
Qed.
(** a mark that is there when another error is reported stays for ever *)
Theorem mark_for_ever cf what p q before u a w row col e i m after u' :
  steps cf what before (fresh_ui p q) = Val u -> In (i, m) (s_marks (at_ed u e)) ->
  run_alert cf what (s_text (u_program u)) (s_text (u_query u)) = Val (Some a) -> al_mark a = Some (w, row, col) ->
  steps cf what (Run :: after) u = Val u' -> In (i, m) (s_marks (at_ed u' e)).
Proof.
  intros E0 H R M E. pose proof (sane_steps _ _ _ _ _ (sane_fresh p q) E0) as S. cbn [steps] in E. destruct (step cf what Run u) as [u1| |] eqn:E1; try discriminate E.
  pose proof (sane_step _ _ _ _ _ S E1) as S1. cbn [step] in E1. rewrite R in E1. cbn [bind] in E1. injection E1 as <-. unfold tell in *. rewrite M in *.
  refine (proj1 (stale_steps _ _ _ _ _ e i m S1 _ E)). pose proof (stale_mark u e i m (editor_of w) row col S H) as K. destruct e; exact K.
Qed.

(** --- if every rejected text is changed before the next click on Run --- *)
Definition same_editor (e f : editor) : bool := match e, f with Program, Program | Query, Query => true | _, _ => false end.
(** [used u o]: the page used this way; [o]: where the last error was reported, until the text there is changed *)
Inductive used (cf : cfg) (what : spirit) (p q : string) : ui -> option (editor * Z * Z) -> Prop :=
| used_start : used cf what p q (fresh_ui p q) None
| used_quiet u u' : used cf what p q u None ->
    (forall a, run_alert cf what (s_text (u_program u)) (s_text (u_query u)) = Val (Some a) -> al_mark a = None) -> step cf what Run u = Val u' -> used cf what p q u' None
| used_report u u' a w row col : used cf what p q u None -> run_alert cf what (s_text (u_program u)) (s_text (u_query u)) = Val (Some a) -> al_mark a = Some (w, row, col) ->
    step cf what Run u = Val u' -> used cf what p q u' (Some (editor_of w, row, col))
| used_edit u u' o e text : used cf what p q u o -> step cf what (Edit e text) u = Val u' ->
    used cf what p q u' (match o with Some (f, _, _) => if same_editor e f then None else o | None => None end)
| used_close u u' o : used cf what p q u o -> step cf what Close u = Val u' -> used cf what p q u' o.
Definition tidy (u : ui) (o : option (editor * Z * Z)) : Prop :=
  forall e k m, In (k, m) (s_marks (at_ed u e)) -> exists r c a b, o = Some (e, r, c) /\ m_row m = r /\ m_col m = c /\ u_err u = Some (e, a, b) /\ (k = a \/ k = b).
Lemma tidy_on_change u o : tidy u o -> tidy (on_change u) None.
Proof.
  intros T e k m H. exfalso. unfold on_change, unmark in H. destruct (u_err u) as [[[e' a] b]|] eqn:E.
  - assert (H0 : In (k, m) (s_marks (at_ed u e))). { destruct e, e'; cbn in H; try exact H; apply in_drop in H; destruct H as [H _]; apply in_drop in H; destruct H as [H _]; exact H. }
    destruct (T e k m H0) as (r & c & a' & b' & _ & _ & _ & E' & K). rewrite E in E'. injection E' as -> -> ->.
    assert (k <> b' /\ k <> a') as [N1 N2]. { destruct e; cbn in H; apply in_drop in H; destruct H as [H N1]; apply in_drop in H; destruct H as [_ N2]; auto. }
    destruct K; contradiction.
  - assert (H0 : In (k, m) (s_marks (at_ed u e))) by (destruct e; exact H). destruct (T e k m H0) as (r & c & a' & b' & _ & _ & _ & E' & _). congruence.
Qed.
Lemma tidy_none u o : tidy u None -> tidy u o.
Proof. intros T e k m H. destruct (T e k m H) as (r & c & a & b & K & _). discriminate K. Qed.
Theorem used_tidy cf what p q u o : used cf what p q u o -> sane u /\ tidy u o.
Proof.
  intros U. induction U as [|u u' U [S T] Q E|u u' a w row col U [S T] R M E|u u' o e t U [S T] E|u u' o U [S T] E]; [split; [apply sane_fresh|intros [|] k m []]| | | |]; (split; [exact (sane_step _ _ _ _ _ S E)|]); cbn [step] in E.
  - destruct (run_alert _ _ _ _) as [[a|]| |] eqn:R; try discriminate E; injection E as <-; [|exact T]. unfold tell. rewrite (Q a eq_refl). intros [|]; [exact (T Program)|exact (T Query)].
  - rewrite R in E. cbn [bind] in E. injection E as <-. unfold tell. rewrite M. assert (N : forall e k m, ~ In (k, m) (s_marks (at_ed u e))) by (intros e k m H; destruct (T e k m H) as (? & ? & ? & ? & K & _); discriminate K).
    intros e k m H. unfold mark_error in *. destruct (editor_of w), e; cbn in *; try (now elim (N Program k m H)); try (now elim (N Query k m H));
    (destruct H as [H|[H|H]]; [| |first [now elim (N Program k m H)|now elim (N Query k m H)]]); injection H as <- <-; exists row, col; eexists; eexists; (split; [reflexivity|]); cbn; auto 6.
  - injection E as <-. rewrite edit_once. assert (Tr : tidy (retext e t u) o) by (intros [|] k m H; [destruct (T Program k m) as (r & c & a & b & K); [destruct e; exact H|]|destruct (T Query k m) as (r & c & a & b & K); [destruct e; exact H|]]; exists r, c, a, b; destruct e; exact K).
    destruct (s_heard (at_ed u e)) as [|n] eqn:Hh; [|apply tidy_none; exact (tidy_on_change _ o Tr)].
    destruct o as [[[f r] c]|]; [|exact Tr]. destruct (same_editor e f) eqn:Ef; [|exact Tr].
    assert (f = e) as -> by (destruct e, f; discriminate Ef || reflexivity). intros e' k m H. destruct (Tr e' k m H) as (r' & c' & a & b & K & _ & _ & K' & _). exfalso. injection K as <- <- <-.
    destruct S as (_ & _ & S). assert (u_err u = Some (e, a, b)) as Eu by (destruct e; exact K'). rewrite Eu in S. lia.
  - injection E as <-. intros [|]; [exact (T Program)|exact (T Query)].
Qed.

(** --- what goes wrong otherwise --- *)
Definition spirit0 : spirit := {| sp_words := fun _ => "<...>"; sp_old := false |}.
Definition marks_after (p q : string) (evs : list event) : option (list (nat * mark) * list (nat * mark) * option string) :=
  match steps cfg0 spirit0 evs (fresh_ui p q) with Val u => Some (s_marks (u_program u), s_marks (u_query u), u_alert u) | _ => None end.
(** clicking Run twice *)
Lemma twice_case : marks_after "p. q r." "p" [Run; Run; Edit Program "p."; Run] =
  Some ([(2, {| m_whole := false; m_row := 0; m_col := 5 |}); (1, {| m_whole := true; m_row := 0; m_col := 5 |})], [], None).
Proof. vm_compute. reflexivity. Qed.
(** a mistake in the program is corrected, then one in the query is reported, and the program changed again *)
Lemma elsewhere_case :
  (exists m1 m2 s, marks_after "p. q r." "p(" [Run; Edit Program "p."; Run] = Some ([], [m1; m2], Some s)) /\
  marks_after "p. q r." "p(" [Run; Edit Program "p."; Run; Edit Program "p. q."] = Some ([], [], None).
Proof. split; [do 3 eexists|]; vm_compute; reflexivity. Qed.
(** a number that is too large is reported, and corrected *)
Lemma lasting_case : marks_after "p(2147483648)." "p(X)" [Run; Edit Program "p(1)."; Run] = Some ([], [], Some (al_text escaped)).
Proof. vm_compute. reflexivity. Qed.
Definition state_after (p q : string) (evs : list event) : ui := match steps cfg0 spirit0 evs (fresh_ui p q) with Val u => u | _ => fresh_ui p q end.
Definition alert_of (p q : string) : alert := match run_alert cfg0 spirit0 p q with Val (Some a) => a | _ => escaped end.
Lemma used_case : used cfg0 spirit0 "p. q r." "p(" (state_after "p. q r." "p(" [Run; Edit Program "p."; Run]) (Some (Query, 0%Z, 2%Z)).
Proof.
  assert (U1 : used cfg0 spirit0 "p. q r." "p(" (state_after "p. q r." "p(" [Run]) (Some (editor_of "program", 0%Z, 5%Z))).
  { apply (used_report cfg0 spirit0 "p. q r." "p(" (fresh_ui "p. q r." "p(") _ (alert_of "p. q r." "p(")); [apply used_start|vm_compute; reflexivity..]. }
  assert (U2 : used cfg0 spirit0 "p. q r." "p(" (state_after "p. q r." "p(" [Run; Edit Program "p."]) None).
  { apply (used_edit cfg0 spirit0 "p. q r." "p(" _ (state_after "p. q r." "p(" [Run; Edit Program "p."]) (Some (Program, 0%Z, 5%Z)) Program "p." U1). vm_compute. reflexivity. }
  apply (used_report cfg0 spirit0 "p. q r." "p(" _ (state_after "p. q r." "p(" [Run; Edit Program "p."; Run]) (alert_of "p." "p(") "query" 0 2 U2); vm_compute; reflexivity.
Qed.

(** --- the column marked --- *)
Definition first_bad (old : bool) (w text : string) (begun : string -> Prop) (a : alert) : Prop :=
  exists l b t, text = (l +++ b) +++ t /\ whole_lines l /\ no_breaks b /\ begun (l +++ b) /\
    al_mark a = Some (w, (Z.of_N (line_of (l +++ b)) - 1)%Z, (Z.of_nat (slen b) + (if old then match l with EmptyString => 0 | _ => 1 end else 0))%Z).
Lemma bad_place old w text (begun : string -> Prop) a u t : no_tabs text -> text = u +++ t -> begun u ->
  al_mark a = Some (w, (Z.of_N (line_of u) - 1)%Z, (Z.of_N (get_column old u) - 1)%Z) -> first_bad old w text begun a.
Proof.
  intros T E B M. destruct (lines_split u) as (l & b & -> & Hl & Hb). exists l, b, t. subst text. apply no_tabs_app in T. destruct T as [T _]. apply no_tabs_app in T. destruct T as [_ T].
  do 4 (split; [auto; fail|]). rewrite M, (column_counted old l b Hl Hb T). do 2 f_equal. destruct old; [destruct l|]; lia.
Qed.
Theorem program_column cf what program query a : ord_ok cf -> no_tabs program -> (forall P, ~ program_lang P program) -> run_alert cf what program query = Val (Some a) ->
  first_bad (sp_old what) "program" program (fun u => exists P v, program_lang P (u +++ v)) a.
Proof.
  intros O T N E. assert (K : forall P, parse_program program <> Some (COk P)). { intros P K. apply program_exact in K. exact (N P K). }
  destruct (alert_says cf what program query a O E) as [[(u & t & Es & B & _ & ->)|[(P1 & c & P2 & h & i & b & H & _)|[(P1 & c & P2 & i & H & _)|(P & c & n & H & _)]]]|[(P & H) _]].
  - eapply bad_place; [exact T|exact Es|exact B|reflexivity].
  - exfalso. apply program_positions in H. pose proof (program_erased program) as X. rewrite H in X. exact (K _ X).
  - exfalso. apply program_positions in H. pose proof (program_erased program) as X. rewrite H in X. exact (K _ X).
  - elim (K _ H).
  - elim (K _ H).
Qed.
Theorem query_column cf what program query a : ord_ok cf -> no_tabs (append_dot query) -> (exists P, program_lang P program) -> (forall l, ~ query_lang l (append_dot query)) ->
  al_mark a <> None -> (forall row col, al_mark a <> Some ("program", row, col)) -> run_alert cf what program query = Val (Some a) ->
  first_bad (sp_old what) "query" (append_dot query) (fun u => exists l v, query_lang l (u +++ v)) a.
Proof.
  intros O T (P0 & HP) N M1 M2 E. assert (K : forall l, parse_query (append_dot query) <> Some (COk l)). { intros l K. apply query_exact in K. exact (N l K). }
  destruct (alert_says cf what program query a O E) as [[(u & t & Es & B & No & ->)|[(P1 & c & P2 & h & i & b & H & _ & _ & _ & ->)|[(P1 & c & P2 & i & H & _ & ->)|(P & c & n & H & _ & _ & _ & ->)]]]|[_ [(u & t & Es & B & No & ->)|[(j & l & i & H & _)|(l & n & H & _)]]]].
  - elim (No P0 HP).
  - now elim (M2 (Z.of_N (i_begin i) - 1)%Z (-1)%Z).
  - now elim (M2 (Z.of_N (i_begin i) - 1)%Z 2147483646%Z).
  - now elim M1.
  - eapply bad_place; [exact T|exact Es|exact B|reflexivity].
  - exfalso. pose proof (query_erased (append_dot query)) as X. rewrite H in X. exact (K _ X).
  - elim (K _ H).
Qed.
(** a tab counts as up to four columns in every release, but the editor counts characters *)
Definition tab_text : string := String "009" "p q.".
Lemma tab_case what : exists a, run_alert cfg0 what tab_text "p" = Val (Some a) /\ al_mark a = Some ("program", 0%Z, 6%Z).
Proof. destruct what as [w [|]]; eexists; (split; [vm_compute; reflexivity|reflexivity]). Qed.
(** older releases count the line break too *)
Lemma old_case w : exists a, run_alert cfg0 {| sp_words := w; sp_old := true |} ("p." +++ nl +++ "q r.") "p" = Val (Some a) /\ al_mark a = Some ("program", 1%Z, 3%Z).
Proof. eexists. split; [vm_compute; reflexivity|reflexivity]. Qed.
Lemma new_case w : exists a, run_alert cfg0 {| sp_words := w; sp_old := false |} ("p." +++ nl +++ "q r.") "p" = Val (Some a) /\ al_mark a = Some ("program", 1%Z, 2%Z).
Proof. eexists. split; [vm_compute; reflexivity|reflexivity]. Qed.
(** the cursor is sent to the line before *)
Lemma cursor_case what : exists a col u, run_alert cfg0 what ("p." +++ nl +++ "q r.") "p" = Val (Some a) /\ al_mark a = Some ("program", 1%Z, col) /\
  step cfg0 what Run (fresh_ui ("p." +++ nl +++ "q r.") "p") = Val u /\ s_cursor (u_program u) = Some (0%Z, col).
Proof. destruct what as [w [|]]; do 3 eexists; (split; [vm_compute; reflexivity|]); (split; [reflexivity|]); (split; [vm_compute; reflexivity|reflexivity]). Qed.
Lemma column_met : let program := "p." +++ nl +++ "q r." in
  no_tabs program /\ (forall P, ~ program_lang P program) /\ (exists P, program_lang P "p.") /\ no_tabs (append_dot "p(") /\ (forall l, ~ query_lang l (append_dot "p(")) /\
  exists a, run_alert cfg0 spirit0 "p." "p(" = Val (Some a) /\ al_mark a = Some ("query", 0%Z, 2%Z).
Proof.
  cbv zeta. split; [vm_compute; reflexivity|]. split; [intros P H; apply program_exact in H; vm_compute in H; discriminate H|]. split; [exists [[NCon "p"]]; apply program_exact; vm_compute; reflexivity|].
  split; [vm_compute; reflexivity|]. split; [intros P H; apply query_exact in H; vm_compute in H; discriminate H|]. eexists. split; [vm_compute; reflexivity|reflexivity].
Qed.
