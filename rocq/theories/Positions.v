(** Source positions: the lines and the text recorded for every atom and clause.
    Model: [iter_pos] (boost spirit repository) is the position after skipping blanks, [no_skip[iter_pos]] the position itself;
    line_pos_iterator (boost spirit support) counts lines from 1; a position is given by the text that remains after it. *)
From Verif Require Import Base Machine Compiler Parser ParserFacts Texts Grammar Roundtrip Exprs Language.
Open Scope string_scope.
Open Scope list_scope.

(** line_pos_iterator::increment: a newline counts unless it follows a carriage return, and a carriage return unless it follows a newline.
    [prev] is the previous character (zero at the start), [n] the line so far. *)
Fixpoint line_after (prev : ascii) (n : N) (s : string) : N :=
  match s with
  | EmptyString => n
  | String c s' =>
      let up := (Ascii.eqb c "013" && negb (Ascii.eqb prev "010")) || (Ascii.eqb c "010" && negb (Ascii.eqb prev "013")) in
      line_after c (if up then N.succ n else n) s'
  end.
(** get_line of the position after the text [pre] *)
Definition line_of (pre : string) : N := line_after "000" 1 pre.

(** source_code_info.h 11-23 *)
Record info := { i_begin : N; i_end : N; i_text : string }.
Definition before (w s : string) : string := substring 0 (slen w - slen s) w.
(** parser_util.h 22-35, applied to iter_pos before parsing at [s] and no_skip[iter_pos] at [t]; [w] is the whole text *)
Definition info_at (w s t : string) : info :=
  let b := skip s in
  {| i_begin := line_of (before w b); i_end := line_of (before w t); i_text := substring 0 (slen b - slen t) b |}.

(** base_grammar.h 104-106 *)
Definition p_atom_at (w : string) (n : nat) (s : string) : pres (node * info) :=
  p_atom n s --> a @ r =>> POk (a, info_at w s r) r.
(** program_grammar.h 44-46 *)
Definition p_head_at (w : string) (n : nat) (s : string) : pres (node * info) :=
  (p_functor n s <|> p_constant s) --> a @ r =>> POk (a, info_at w s r) r.
(** program_grammar.h 47-48 *)
Definition p_clause_at (w : string) (n : nat) (s : string) : pres (list (node * info)) :=
  p_head_at w n s --> h @ s1 =>>
  ((match (lit ":-" s1 --> _ @ s2 =>> sep (p_atom_at w n) s2) with
    | PFail => POk [] s1
    | x => x
    end) -!> b @ s3 =>> (lit "." s3 -!> _ @ s4 =>> POk (h :: b) s4)).
(** program_grammar.h 39-41 *)
Definition p_rule_at (w : string) (n : nat) (s : string) : pres (info * list (node * info)) :=
  p_clause_at w n s --> c @ s1 =>>
  ((p_comment s1 <|> POk tt s1) --> _ @ s2 =>> POk (info_at w s s1, c) s2).
(** program_grammar.h 36 *)
Fixpoint p_rules_at (w : string) (k n : nat) (s : string) : pres (list (info * list (node * info))) :=
  match k with
  | 0 => PFuel
  | S k' =>
      match p_comment s with
      | POk _ s1 => p_rules_at w k' n s1
      | PThrow => PThrow
      | PFuel => PFuel
      | PFail =>
          match p_rule_at w n s with
          | POk c s1 => p_rules_at w k' n s1 --> l @ s2 =>> POk (c :: l) s2
          | PFail => POk [] s
          | PThrow => PThrow
          | PFuel => PFuel
          end
      end
  end.
Definition parse_program_at (s : string) : option (cres (list (info * list (node * info)))) :=
  let n := S (slen s) in
  match p_rules_at s n n s with
  | POk l r => match skip r with EmptyString => Some (COk l) | _ => Some (CErr CParser) end
  | PFail | PThrow => Some (CErr CParser)
  | PFuel => None
  end.
(** query_grammar.h 30-32; the lines of the query itself are replaced by the largest unsigned number (parser_util.cpp 5-10) *)
Definition unsigned_max : N := 4294967295.
Definition parse_query_at (s : string) : option (cres (info * list (node * info))) :=
  let n := S (slen s) in
  match sep (p_atom_at s n) s with
  | POk l r =>
      match lit "." r with
      | POk _ r' => match skip r' with
                    | EmptyString => Some (COk ({| i_begin := unsigned_max; i_end := unsigned_max; i_text := i_text (info_at s s r) |}, l))
                    | _ => Some (CErr CNone)
                    end
      | PFuel => None
      | _ => Some (CErr CParser)
      end
  | PFail | PThrow => Some (CErr CParser)
  | PFuel => None
  end.

(** --- without the positions it is the parser --- *)
Definition pmap {A B} (f : A -> B) (p : pres A) : pres B := match p with POk a r => POk (f a) r | PFail => PFail | PThrow => PThrow | PFuel => PFuel end.
Lemma atom_erased w n s : pmap fst (p_atom_at w n s) = p_atom n s.
Proof. unfold p_atom_at. destruct (p_atom n s); reflexivity. Qed.
Lemma head_erased w n s : pmap fst (p_head_at w n s) = (p_functor n s <|> p_constant s).
Proof. unfold p_head_at. destruct (p_functor n s <|> p_constant s); reflexivity. Qed.
Lemma sep_rest_erased {A B} (f : A -> B) (p : string -> pres A) (q : string -> pres B) : (forall s, pmap f (p s) = q s) ->
  forall m s, pmap (map f) (sep_rest m p s) = sep_rest m q s.
Proof.
  intros H. induction m as [|m IH]; intros s; [reflexivity|]. cbn [sep_rest]. destruct (lit "," s) as [y s1| | |]; try reflexivity. rewrite <- (H s1).
  destruct (p s1) as [a s2| | |]; try reflexivity. cbn [pmap]. rewrite <- (IH s2). destruct (sep_rest m p s2); reflexivity.
Qed.
Lemma sep_erased {A B} (f : A -> B) (p : string -> pres A) (q : string -> pres B) : (forall s, pmap f (p s) = q s) -> forall s, pmap (map f) (sep p s) = sep q s.
Proof.
  intros H s. unfold sep. rewrite <- (H s). destruct (p s) as [a r| | |]; try reflexivity. cbn [pmap]. rewrite <- (sep_rest_erased f p q H). destruct (sep_rest _ p r); reflexivity.
Qed.
Lemma clause_erased w n s : pmap (map fst) (p_clause_at w n s) = p_clause n s.
Proof.
  unfold p_clause_at, p_clause. rewrite <- (head_erased w n s). destruct (p_head_at w n s) as [h s1| | |]; try reflexivity. cbn [pmap].
  destruct (lit ":-" s1) as [y s2| | |]; cbv beta iota; try reflexivity.
  - rewrite <- (sep_erased fst (p_atom_at w n) (p_atom n) (atom_erased w n) s2). destruct (sep (p_atom_at w n) s2) as [l s3| | |]; cbn [pmap]; try reflexivity.
    + destruct (lit "." s3); reflexivity.
    + destruct (lit "." s1); reflexivity.
  - destruct (lit "." s1); reflexivity.
Qed.
Lemma rule_erased w n s : pmap (fun c => map fst (snd c)) (p_rule_at w n s) = p_rule n s.
Proof. unfold p_rule_at, p_rule. rewrite <- (clause_erased w n s). destruct (p_clause_at w n s) as [c s1| | |]; try reflexivity. cbn [pmap]. destruct (p_comment s1); reflexivity. Qed.
Lemma rules_erased w n : forall k s, pmap (map (fun c => map fst (snd c))) (p_rules_at w k n s) = p_rules k n s.
Proof.
  induction k as [|k IH]; intros s; [reflexivity|]. cbn [p_rules_at p_rules]. destruct (p_comment s) as [y s1| | |]; try reflexivity; [apply IH|].
  rewrite <- (rule_erased w n s). destruct (p_rule_at w n s) as [c s1| | |]; try reflexivity. cbn [pmap]. rewrite <- (IH s1). destruct (p_rules_at w k n s1); reflexivity.
Qed.
Theorem program_erased s : parse_program s =
  match parse_program_at s with
  | Some (COk l) => Some (COk (map (fun c => map fst (snd c)) l))
  | Some (CErr e) => Some (CErr e) | Some CEsc => Some CEsc | None => None
  end.
Proof. unfold parse_program, parse_program_at. rewrite <- (rules_erased s). destruct (p_rules_at s _ _ s) as [l r| | |]; cbn [pmap]; try reflexivity. destruct (skip r); reflexivity. Qed.
Theorem query_erased s : parse_query s =
  match parse_query_at s with
  | Some (COk l) => Some (COk (map fst (snd l)))
  | Some (CErr e) => Some (CErr e) | Some CEsc => Some CEsc | None => None
  end.
Proof.
  unfold parse_query, parse_query_at. rewrite <- (sep_erased fst (p_atom_at s (S (slen s))) _ (atom_erased s _)). destruct (sep (p_atom_at s _) s) as [l r| | |]; cbn [pmap]; try reflexivity.
  destruct (lit "." r) as [y r'| | |]; try reflexivity. destruct (skip r'); reflexivity.
Qed.

(** --- what the positions are --- *)
(** the text [w] at the place after [pre] *)
Definition located (pre w : string) : info := {| i_begin := line_of pre; i_end := line_of (pre +++ w); i_text := w |}.
Definition solid (w : string) : Prop := match w with EmptyString => False | String c _ => is_space c = false end.
(** [goals_at pre l u]: the text u, found after the text pre, reads as the atoms l with these positions *)
Inductive goals_at : string -> list (node * info) -> string -> Prop :=
| ga_one pre b n w : blank b -> solid w -> goal_lang n w -> goals_at pre [(n, located (pre +++ b) w)] (b +++ w)
| ga_more pre b n w b' l u : blank b -> solid w -> goal_lang n w -> blank b' -> goals_at (pre +++ b +++ w +++ b' +++ ",") l u ->
    goals_at pre ((n, located (pre +++ b) w) :: l) (b +++ w +++ b' +++ "," +++ u).
(** a clause that begins right after pre *)
Inductive clause_at : string -> list (node * info) -> string -> Prop :=
| ca_fact pre h w b : solid w -> head_lang h w -> blank b -> clause_at pre [(h, located pre w)] (w +++ b +++ ".")
| ca_rule pre h w b l u b' : solid w -> head_lang h w -> blank b -> goals_at (pre +++ w +++ b +++ ":-") l u -> blank b' ->
    clause_at pre ((h, located pre w) :: l) (w +++ b +++ ":-" +++ u +++ b' +++ ".").
Inductive program_at : string -> list (info * list (node * info)) -> string -> Prop :=
| pa_end pre b : blank b -> program_at pre [] b
| pa_comment pre P b c t : blank b -> one_line c -> program_at (pre +++ b +++ "%" +++ c +++ String "010" "") P t ->
    program_at pre P (b +++ "%" +++ c +++ String "010" t)
| pa_clause pre b c P w t : blank b -> clause_at (pre +++ b) c w -> program_at (pre +++ b +++ w) P t -> program_at pre ((located (pre +++ b) w, c) :: P) (b +++ w +++ t).
Lemma before_app a b : before (a +++ b) b = a.
Proof.
  unfold before. rewrite app_len. replace (slen a + slen b - slen b) with (slen a) by lia. induction a as [|c a IH]; [cbn; destruct b; reflexivity|].
  cbn [String.append String.length substring]. now rewrite IH.
Qed.
Lemma solid_skip w t : solid w -> skip (w +++ t) = w +++ t.
Proof. destruct w as [|c w]; [intros []|]. cbn [solid String.append]. intros H. now apply skip_nonspace. Qed.
Lemma info_located pre b w t : blank b -> solid w -> info_at (pre +++ b +++ w +++ t) (b +++ w +++ t) t = located (pre +++ b) w.
Proof.
  intros B W. unfold info_at, located. rewrite (skip_blank _ _ B), (solid_skip _ _ W). f_equal.
  - rewrite <- app_assoc_s, before_app. reflexivity.
  - replace (pre +++ b +++ w +++ t) with (((pre +++ b) +++ w) +++ t) by now rewrite !app_assoc_s. now rewrite before_app.
  - exact (before_app w t).
Qed.
(** leading blanks can be taken away *)
Lemma writes_solid p n w : writes p n w -> exists b v, blank b /\ w = b +++ v /\ solid v /\ writes p n v.
Proof.
  induction 1 as [p b s B Hs|p b s B Hs|p b b' n s B B' W IH|p b n m s u Lp B Wn IHn Wm IHm|p b o n m s u Lp B Ho Wn IHn Wm IHm|p b o n m s u Lp B Ho Wn IHn Wm IHm];
    try (destruct IHn as (b0 & v & B0 & -> & S & V); exists b0; eexists; split; [exact B0|]; split; [rewrite app_assoc_s; reflexivity|]; split;
         [destruct v; [destruct S|exact S]|first [apply w_pow; assumption|apply w_mul; assumption|apply w_add; assumption]]).
  - exists b, s. repeat split; auto; [|exact (w_var p "" s eq_refl Hs)]. destruct s as [|c s]; [discriminate Hs|]. cbn [name_of] in Hs. apply andb_true_iff in Hs. apply upper_space, Hs.
  - exists b, s. repeat split; auto; [|exact (w_int p "" s eq_refl Hs)]. destruct s as [|c s]; [discriminate Hs|]. cbn [number_text] in Hs. cbn [solid].
    destruct (Ascii.eqb_spec c "-") as [->|]; [reflexivity|]. unfold digits in Hs. cbn [all_chars] in Hs. apply andb_true_iff in Hs. apply digit_space, Hs.
  - exists b. eexists. split; [exact B|]. split; [reflexivity|]. split; [reflexivity|]. exact (w_par p "" b' n s eq_refl B' W).
Qed.
Lemma name_solid nm x : name_of is_lower nm = true -> solid (nm +++ x).
Proof. destruct nm as [|c nm]; [discriminate|]. cbn [name_of]. intros H. apply andb_true_iff in H. apply lower_space, H. Qed.
Lemma head_solid n w : head_lang n w -> exists b v, blank b /\ w = b +++ v /\ solid v /\ head_lang n v.
Proof.
  destruct 1 as [b nm B H|b nm l u b' B H Hts B'].
  - exists b, nm. split; [exact B|]. split; [reflexivity|]. split; [rewrite <- (app_nil_s nm); now apply name_solid|exact (ht_con "" nm eq_refl H)].
  - exists b. eexists. split; [exact B|]. split; [reflexivity|]. split; [now apply name_solid|exact (ht_fun "" nm l u b' eq_refl H Hts B')].
Qed.
Lemma list_solid n w : list_lang n w -> exists b v, blank b /\ w = b +++ v /\ solid v /\ list_lang n v.
Proof.
  destruct 1 as [b b' B B'|b l u b' B Ht B'|b l u b1 b2 x b3 B Ht B1 B2 Hx B3|b l u b1 n w b3 B Ht B1 Hl B3]; exists b; eexists; (split; [exact B|]); (split; [reflexivity|]); (split; [reflexivity|]).
  - exact (lt_nil "" b' eq_refl B').
  - exact (lt_closed "" l u b' eq_refl Ht B').
  - exact (lt_var "" l u b1 b2 x b3 eq_refl Ht B1 B2 Hx B3).
  - exact (lt_tail "" l u b1 n w b3 eq_refl Ht B1 Hl B3).
Qed.
Lemma term_solid n w : term_lang n w -> exists b v, blank b /\ w = b +++ v /\ solid v /\ term_lang n v.
Proof.
  destruct 1 as [n w W|n w W|n w W].
  - destruct (writes_solid 1 n w W) as (b & v & B & E & S & V). exists b, v. repeat split; auto. now constructor.
  - destruct (head_solid n w W) as (b & v & B & E & S & V). exists b, v. repeat split; auto. now constructor.
  - destruct (list_solid n w W) as (b & v & B & E & S & V). exists b, v. repeat split; auto. now constructor.
Qed.
Lemma solid_app v x : solid v -> solid (v +++ x).
Proof. destruct v; [intros []|exact (fun H => H)]. Qed.
Lemma goal_solid n w : goal_lang n w -> exists b v, blank b /\ w = b +++ v /\ solid v /\ goal_lang n v.
Proof.
  destruct 1 as [a w b c u Ha B Hc|a w b c u Ha B Hc|a w b e u Ha B F He|n w Hh];
    try (destruct (term_solid a w Ha) as (b0 & v & B0 & -> & S & V); exists b0; eexists; split; [exact B0|]; split; [rewrite app_assoc_s; reflexivity|]; split; [now apply solid_app|]).
  - now constructor.
  - now constructor.
  - constructor; auto. now rewrite (fits_blank _ _ _ B0) in F.
  - destruct (head_solid n w Hh) as (b & v & B & E & S & V). exists b, v. repeat split; auto. now constructor.
Qed.
(** and added *)
Lemma binary_blank (l r : parser) op b s : blank b -> l (b +++ s) = l s -> p_binary l r op (b +++ s) = p_binary l r op s.
Proof. intros B E. unfold p_binary. now rewrite E. Qed.
Lemma atom_blank k b s : blank b -> p_atom k (b +++ s) = p_atom k s.
Proof.
  intros B. unfold p_atom. rewrite !(binary_blank _ _ _ _ _ B (elem_blank k _ _ B)). unfold p_functor. now rewrite (functor_blank _ _ _ B), (constant_blank _ _ B).
Qed.

(** --- the recorded positions are these, for every text --- *)
Lemma atom_at_only pre k s x t : p_atom_at (pre +++ s) k s = POk x t ->
  exists b n w, blank b /\ solid w /\ goal_lang n w /\ s = b +++ w +++ t /\ x = (n, located (pre +++ b) w).
Proof.
  unfold p_atom_at. destruct (p_atom k s) as [n r| | |] eqn:E; intros H; try discriminate H. injection H as <- <-. destruct (atom_only k s n r E) as (w0 & -> & G).
  destruct (goal_solid n w0 G) as (b & w & B & -> & S & G'). rewrite app_assoc_s. exists b, n, w. rewrite (info_located pre b w r B S). auto.
Qed.
Lemma head_at_only pre k s x t : p_head_at (pre +++ s) k s = POk x t ->
  exists b n w, blank b /\ solid w /\ head_lang n w /\ s = b +++ w +++ t /\ x = (n, located (pre +++ b) w).
Proof.
  unfold p_head_at. destruct (p_functor k s <|> p_constant s) as [n r| | |] eqn:E; intros H; try discriminate H. injection H as <- <-.
  destruct (head_only k s n r E) as (w0 & -> & G & _). destruct (head_solid n w0 G) as (b & w & B & -> & S & G'). rewrite app_assoc_s. exists b, n, w.
  rewrite (info_located pre b w r B S). auto.
Qed.
Lemma goals_at_only k W : forall s l t pre, W = pre +++ s -> sep (p_atom_at W k) s = POk l t -> exists u, s = u +++ t /\ goals_at pre l u.
Proof.
  assert (R : forall m s l t pre, W = pre +++ s -> sep_rest m (p_atom_at W k) s = POk l t ->
    l = [] /\ s = t \/ exists b u, blank b /\ s = b +++ "," +++ u +++ t /\ goals_at (pre +++ b +++ ",") l u).
  { induction m as [|m IH]; intros s l t pre HW E; [discriminate E|]. cbn [sep_rest] in E. destruct (lit "," s) as [y s1| | |] eqn:L; try (injection E as <- <-; now left).
    destruct (p_atom_at W k s1) as [a s2| | |] eqn:Ep; try discriminate E; [|injection E as <- <-; now left].
    destruct (sep_rest m (p_atom_at W k) s2) as [l2 s3| | |] eqn:E3; try discriminate E. injection E as <- <-. right.
    destruct (lit_split _ _ _ _ L) as (b & B & ->).
    assert (HW1 : W = (pre +++ b +++ ",") +++ s1) by (rewrite HW, !app_assoc_s; reflexivity). rewrite HW1 in Ep.
    destruct (atom_at_only _ _ _ _ _ Ep) as (b1 & n & w & B1 & Sw & G & -> & ->). exists b.
    assert (HW2 : W = (((pre +++ b +++ ",") +++ b1) +++ w) +++ s2) by (rewrite HW1, !app_assoc_s; reflexivity).
    destruct (IH _ _ _ _ HW2 E3) as [[-> ->]|(b' & u & B' & -> & U)].
    - exists (b1 +++ w). split; [exact B|]. split; [now rewrite !app_assoc_s|]. now constructor.
    - exists (b1 +++ w +++ b' +++ "," +++ u). split; [exact B|]. split; [now rewrite !app_assoc_s|]. constructor; auto. rewrite !app_assoc_s in *. exact U. }
  intros s l t pre HW E. unfold sep in E. destruct (p_atom_at W k s) as [a s1| | |] eqn:Ep; try discriminate E.
  destruct (sep_rest (S (slen s1)) (p_atom_at W k) s1) as [l2 s2| | |] eqn:E2; try discriminate E. injection E as <- <-. rewrite HW in Ep.
  destruct (atom_at_only _ _ _ _ _ Ep) as (b1 & n & w & B1 & Sw & G & -> & ->).
  assert (HW2 : W = ((pre +++ b1) +++ w) +++ s1) by (rewrite HW, !app_assoc_s; reflexivity). destruct (R _ _ _ _ _ HW2 E2) as [[-> ->]|(b & u & B & -> & U)].
  - exists (b1 +++ w). split; [now rewrite !app_assoc_s|now constructor].
  - exists (b1 +++ w +++ b +++ "," +++ u). split; [now rewrite !app_assoc_s|]. constructor; auto. rewrite !app_assoc_s in *. exact U.
Qed.
Lemma clause_at_only k W s c t pre : W = pre +++ s -> p_clause_at W k s = POk c t -> exists b w, blank b /\ s = b +++ w +++ t /\ clause_at (pre +++ b) c w /\ solid w.
Proof.
  unfold p_clause_at. intros HW E. destruct (p_head_at W k s) as [h s1| | |] eqn:H; try discriminate E. rewrite HW in H.
  destruct (head_at_only _ _ _ _ _ H) as (b & n & w & B & Sw & G & -> & ->). exists b. destruct (lit ":-" s1) as [y s2| | |] eqn:L1; cbv beta iota in E.
  - destruct (lit_split _ _ _ _ L1) as (b1 & B1 & ->). destruct (sep (p_atom_at W k) s2) as [l s3| | |] eqn:Sp; try discriminate E.
    + destruct (lit "." s3) as [z s4| | |] eqn:L2; try discriminate E. injection E as <- <-.
      assert (HW1 : W = ((pre +++ b) +++ w +++ b1 +++ ":-") +++ s2) by (rewrite HW, !app_assoc_s; reflexivity).
      destruct (goals_at_only _ _ _ _ _ _ HW1 Sp) as (u & -> & U). destruct (lit_split _ _ _ _ L2) as (b' & B' & ->). exists (w +++ b1 +++ ":-" +++ u +++ b' +++ ".").
      split; [exact B|]. split; [now rewrite !app_assoc_s|]. split; [now constructor|now apply solid_app].
    + exfalso. rewrite (lit_blank _ _ _ B1) in E. discriminate E.
  - destruct (lit "." s1) as [z s4| | |] eqn:L2; try discriminate E. injection E as <- <-. destruct (lit_split _ _ _ _ L2) as (b1 & B1 & ->). exists (w +++ b1 +++ ".").
    split; [exact B|]. split; [now rewrite !app_assoc_s|]. split; [now constructor|now apply solid_app].
  - discriminate E.
  - discriminate E.
Qed.
Lemma rules_at_only W n : forall k s l t pre, W = pre +++ s -> p_rules_at W k n s = POk l t -> blank t -> program_at pre l s.
Proof.
  induction k as [|k IH]; intros s l t pre HW E Bt; [discriminate E|]. cbn [p_rules_at] in E. destruct (p_comment s) as [[] s1| | |] eqn:C; try discriminate E.
  - destruct (comment_only _ _ C) as (b & c & B & O & ->). apply pa_comment; [exact B|exact O|]. apply (IH _ _ t _); [|exact E|exact Bt]. rewrite HW, !app_assoc_s. reflexivity.
  - destruct (p_rule_at W n s) as [c s1| | |] eqn:R; try discriminate E.
    + destruct (p_rules_at W k n s1) as [l2 s2| | |] eqn:R2; try discriminate E. injection E as <- <-.
      unfold p_rule_at in R. destruct (p_clause_at W n s) as [c' s0| | |] eqn:Cl; try discriminate R.
      destruct (clause_at_only _ _ _ _ _ _ HW Cl) as (b & w & B & -> & K & Sw).
      assert (HW0 : W = (pre +++ b +++ w) +++ s0) by (rewrite HW, !app_assoc_s; reflexivity).
      destruct (p_comment s0) as [[] s3| | |] eqn:C0; try discriminate R; injection R as <- <-.
      * destruct (comment_only _ _ C0) as (b1 & x & B1 & O & E1). rewrite HW, (info_located pre b w s0 B Sw). apply pa_clause; [exact B|exact K|].
        rewrite E1. apply pa_comment; [exact B1|exact O|]. apply (IH _ _ s2 _); [|exact R2|exact Bt]. rewrite HW0, E1, !app_assoc_s. reflexivity.
      * rewrite HW, (info_located pre b w s0 B Sw). apply pa_clause; [exact B|exact K|]. apply (IH _ _ s2 _); [exact HW0|exact R2|exact Bt].
    + injection E as <- <-. now constructor.
Qed.
(** conversely *)
Lemma atom_at_done pre b n w t k : blank b -> solid w -> goal_lang n w -> goal_end t -> slen (b +++ w +++ t) < k ->
  p_atom_at (pre +++ b +++ w +++ t) k (b +++ w +++ t) = POk (n, located (pre +++ b) w) t.
Proof.
  intros B Sw G Ge Hk. unfold p_atom_at. rewrite (atom_blank _ _ _ B), (goal_done n w t k G Ge) by (rewrite app_len in Hk; lia). now rewrite (info_located pre b w t B Sw).
Qed.
Lemma goals_at_done W k : forall pre l u, goals_at pre l u -> forall b t, blank b -> W = pre +++ u +++ b +++ "." +++ t -> slen (u +++ b +++ "." +++ t) < k ->
  sep (p_atom_at W k) (u +++ b +++ "." +++ t) = POk l (b +++ "." +++ t) /\
  forall b0 m, blank b0 -> slen (u +++ b +++ "." +++ t) < m -> sep_rest (S m) (p_atom_at W k) (b0 +++ "," +++ u +++ b +++ "." +++ t) = POk l (b +++ "." +++ t).
Proof.
  induction 1 as [pre b1 n w B1 Sw G|pre b1 n w b2 l u B1 Sw G B2 Gs IH]; intros b t B HW Hk.
  - rewrite !app_assoc_s in *. assert (E : p_atom_at W k (b1 +++ w +++ b +++ "." +++ t) = POk (n, located (pre +++ b1) w) (b +++ "." +++ t)).
    { rewrite HW. apply (atom_at_done pre b1 n w _ k B1 Sw G); [|exact Hk]. exists b, "."%char, t. auto. }
    assert (Nc : lit "," (b +++ "." +++ t) = PFail) by (rewrite (lit_blank _ _ _ B); reflexivity). split.
    + unfold sep. rewrite E. cbn [sep_rest]. rewrite Nc. reflexivity.
    + intros b0 m B0 Hm. cbn [sep_rest]. rewrite (lit_blank _ _ _ B0), (lit_yes ",") by reflexivity. rewrite E. destruct m as [|m]; [lia|]. cbn [sep_rest]. rewrite Nc. reflexivity.
  - rewrite !app_assoc_s in *. assert (E : p_atom_at W k (b1 +++ w +++ b2 +++ "," +++ u +++ b +++ "." +++ t) = POk (n, located (pre +++ b1) w) (b2 +++ "," +++ u +++ b +++ "." +++ t)).
    { rewrite HW. apply (atom_at_done pre b1 n w _ k B1 Sw G); [|exact Hk]. exists b2, ","%char, (u +++ b +++ "." +++ t). auto. }
    assert (Hk' : slen (u +++ b +++ "." +++ t) < k) by (rewrite (app_len b1), (app_len w), (app_len b2), (app_len ",") in Hk; lia).
    destruct (IH b t B ltac:(now rewrite HW, !app_assoc_s) Hk') as [_ E2].
    assert (L : slen (u +++ b +++ "." +++ t) < slen (b2 +++ "," +++ u +++ b +++ "." +++ t)) by (rewrite (app_len b2), (app_len ","); cbn [String.length]; lia). split.
    + unfold sep. rewrite E. rewrite (E2 b2 _ B2 L). reflexivity.
    + intros b0 m B0 Hm. cbn [sep_rest]. rewrite (lit_blank _ _ _ B0), (lit_yes ",") by reflexivity. rewrite E. destruct m as [|m]; [lia|].
      rewrite (E2 b2 m B2); [reflexivity|]. rewrite (app_len b1), (app_len w) in Hm. lia.
Qed.
Lemma head_at_done pre b n w t k : blank b -> solid w -> head_lang n w -> stop t = true -> slen (b +++ w +++ t) < k ->
  p_head_at (pre +++ b +++ w +++ t) k (b +++ w +++ t) = POk (n, located (pre +++ b) w) t.
Proof.
  intros B Sw G St Hk. unfold p_head_at. destruct texts_parsed as (_ & Ph & _).
  pose proof (Ph n w G t k (stop_follows _ _ St) ltac:(rewrite app_len in Hk; lia)) as E. unfold head_of in E. unfold p_functor. rewrite (functor_blank _ _ _ B), (constant_blank _ _ B), E.
  now rewrite (info_located pre b w t B Sw).
Qed.
Lemma clause_at_done W pre b c w t k : blank b -> clause_at (pre +++ b) c w -> W = pre +++ b +++ w +++ t -> slen (b +++ w +++ t) < k -> p_clause_at W k (b +++ w +++ t) = POk c t /\ solid w.
Proof.
  intros B K HW Hk. unfold p_clause_at. remember (pre +++ b) as pb eqn:Epb. destruct K as [pb1 h v b1 Sw Hh B1|pb1 h v b1 l u b2 Sw Hh B1 Gs B2]; subst pb1; rewrite !app_assoc_s in *; subst W.
  - split; [|now apply solid_app]. rewrite (head_at_done pre b h v (b1 +++ "." +++ t) k B Sw Hh (stop_blank b1 ("." +++ t) B1 eq_refl) Hk).
    rewrite (lit_blank _ _ _ B1). assert (N : lit ":-" ("." +++ t) = PFail) by reflexivity. rewrite N. cbv beta iota. rewrite (lit_blank _ _ _ B1).
    rewrite (lit_yes ".") by reflexivity. reflexivity.
  - split; [|now apply solid_app]. rewrite (head_at_done pre b h v (b1 +++ ":-" +++ u +++ b2 +++ "." +++ t) k B Sw Hh (stop_blank b1 (":-" +++ u +++ b2 +++ "." +++ t) B1 eq_refl) Hk).
    rewrite (lit_blank _ _ _ B1), (lit_yes ":-") by reflexivity.
    destruct (goals_at_done (pre +++ b +++ v +++ b1 +++ ":-" +++ u +++ b2 +++ "." +++ t) k _ l u Gs b2 t B2) as [E2 _];
      [now rewrite !app_assoc_s|rewrite (app_len b), (app_len v), (app_len b1), (app_len ":-") in Hk; lia|]. rewrite E2. cbv beta iota.
    rewrite (lit_blank _ _ _ B2). rewrite (lit_yes ".") by reflexivity. reflexivity.
Qed.
Lemma clause_at_first pre c w : clause_at pre c w -> exists a r, w = String a r /\ is_lower a = true.
Proof.
  assert (H : forall h w x, solid w -> head_lang h w -> exists a r, w +++ x = String a r /\ is_lower a = true).
  { clear w. intros h w x Sw Hh. destruct (head_first h w Hh) as (b0 & a & r & B0 & -> & L). destruct b0 as [|c0 b0]; [exists a, (r +++ x); auto|]. exfalso.
    unfold blank in B0. cbn [all_chars] in B0. apply andb_true_iff in B0. cbn [String.append solid] in Sw. destruct B0 as [B0 _]. congruence. }
  destruct 1 as [pre h w b Sw Hh B|pre h w b l u b' Sw Hh B Gs B']; eapply H; eauto.
Qed.
Lemma comment_lower b a r : blank b -> is_lower a = true -> p_comment (b +++ String a r) = PFail.
Proof.
  intros B L. rewrite (comment_of _ _ B). unfold p_comment. rewrite (skip_nonspace a) by (now apply lower_space). destruct (Ascii.eqb_spec a "%") as [->|]; [discriminate L|reflexivity].
Qed.
Lemma comment_read b c t : blank b -> one_line c -> p_comment (b +++ "%" +++ c +++ String "010" t) = POk tt t.
Proof. intros B O. rewrite (comment_of _ _ B). unfold p_comment. cbn [String.append]. rewrite (skip_nonspace "%") by reflexivity. cbn [Ascii.eqb Bool.eqb]. now rewrite (take_line c t O). Qed.
Lemma next_comment pre P s : program_at pre P s -> p_comment s = PFail \/
  exists pre' t, p_comment s = POk tt t /\ program_at pre' P t /\ pre +++ s = pre' +++ t /\ slen t < slen s.
Proof.
  destruct 1 as [pre b B|pre P b c t B O W|pre b c P w t B K W].
  - left. unfold p_comment. rewrite <- (app_nil_s b), (skip_blank _ _ B). reflexivity.
  - right. eexists _, t. split; [now apply comment_read|]. split; [exact W|]. split; [now rewrite !app_assoc_s|]. rewrite !app_len. cbn [String.length]. lia.
  - left. destruct (clause_at_first _ _ _ K) as (a & r & -> & L). cbn [String.append]. now apply comment_lower.
Qed.
Lemma rules_at_done W : forall m s, slen s < m -> forall pre P k n, program_at pre P s -> W = pre +++ s -> slen s < k -> slen s < n ->
  exists r, p_rules_at W k n s = POk P r /\ skip r = "".
Proof.
  induction m as [|m IH]; intros s Lm pre P k n H HW Hk Hn.
  { lia. }
  destruct k as [|k]; [lia|]. cbn [p_rules_at]. destruct H as [pre b B|pre P b c t B O H|pre b c P w t B K H].
  - exists b. assert (C : p_comment b = PFail) by (unfold p_comment; rewrite <- (app_nil_s b), (skip_blank _ _ B); reflexivity). rewrite C.
    assert (R : p_rule_at W n b = PFail).
    { unfold p_rule_at, p_clause_at, p_head_at, p_functor. rewrite <- (app_nil_s b), (functor_blank _ _ _ B), (constant_blank _ _ B). reflexivity. }
    rewrite R. split; [reflexivity|]. rewrite <- (app_nil_s b), (skip_blank _ _ B). reflexivity.
  - rewrite (comment_read b c t B O). rewrite !app_len in Lm, Hk, Hn. cbn [String.length] in Lm, Hk, Hn.
    apply (IH t ltac:(lia) _ P k n H); [rewrite HW, !app_assoc_s; reflexivity|lia|lia].
  - assert (C : p_comment (b +++ w +++ t) = PFail).
    { destruct (clause_at_first _ _ _ K) as (a & r & -> & L). cbn [String.append]. now apply comment_lower. }
    rewrite C. destruct (clause_at_done W pre b c w t n B K HW Hn) as [E Sw]. unfold p_rule_at. rewrite E.
    assert (Lw : 1 <= slen w) by (destruct w; [destruct Sw|cbn; lia]). rewrite !app_len in Lm, Hk, Hn.
    assert (In : info_at W (b +++ w +++ t) t = located (pre +++ b) w) by (rewrite HW; now apply info_located). rewrite In. clear In.
    assert (HW0 : W = (pre +++ b +++ w) +++ t) by (rewrite HW, !app_assoc_s; reflexivity).
    destruct (next_comment _ _ _ H) as [C0|(pre' & t' & C0 & H' & E' & L')]; rewrite C0; cbv beta iota.
    + destruct (IH t ltac:(lia) _ P k n H HW0 ltac:(lia) ltac:(lia)) as (r & Er & Sr). rewrite Er. exists r. auto.
    + destruct (IH t' ltac:(lia) _ P k n H' ltac:(congruence) ltac:(lia) ltac:(lia)) as (r & Er & Sr). rewrite Er. exists r. auto.
Qed.
Theorem program_positions P s : parse_program_at s = Some (COk P) <-> program_at "" P s.
Proof.
  unfold parse_program_at. split.
  - intros E. destruct (p_rules_at s (S (slen s)) (S (slen s)) s) as [l r| | |] eqn:R; try discriminate E. destruct (skip r) as [|c x] eqn:K; [|discriminate E].
    injection E as <-. exact (rules_at_only s _ _ s l r "" eq_refl R (skip_all r K)).
  - intros H. destruct (rules_at_done s _ s (le_n (S (slen s))) "" P (S (slen s)) (S (slen s)) H eq_refl (le_n _) (le_n _)) as (r & E & K). rewrite E, K. reflexivity.
Qed.
Lemma goals_solid pre l u : goals_at pre l u -> exists b v, blank b /\ solid v /\ u = b +++ v.
Proof.
  destruct 1 as [pre b n w B Sw G|pre b n w b' l u B Sw G B' Gs].
  - exists b, w. auto.
  - exists b, (w +++ b' +++ "," +++ u). split; [exact B|]. split; [now apply solid_app|reflexivity].
Qed.
Theorem query_positions i l s : parse_query_at s = Some (COk (i, l)) <->
  exists b v b1 b2, s = (b +++ v) +++ b1 +++ "." +++ b2 /\ blank b /\ solid v /\ goals_at "" l (b +++ v) /\ blank b1 /\ blank b2 /\
    i = {| i_begin := unsigned_max; i_end := unsigned_max; i_text := v |}.
Proof.
  unfold parse_query_at. assert (T : forall b v r, blank b -> solid v -> i_text (info_at ((b +++ v) +++ r) ((b +++ v) +++ r) r) = v).
  { intros b v r B Sv. rewrite app_assoc_s. pose proof (info_located "" b v r B Sv) as E. cbn [String.append] in E. now rewrite E. }
  split.
  - intros E. destruct (sep (p_atom_at s (S (slen s))) s) as [l' r| | |] eqn:R; try discriminate E. destruct (lit "." r) as [y r'| | |] eqn:L; try discriminate E.
    destruct (skip r') as [|c x] eqn:K; [|discriminate E]. injection E as <- <-. destruct (goals_at_only _ s s l' r "" eq_refl R) as (u & Es & U).
    destruct (goals_solid _ _ _ U) as (b & v & B & Sv & ->). destruct (lit_split _ _ _ _ L) as (b1 & B1 & ->). exists b, v, b1, r'. split; [exact Es|].
    split; [exact B|]. split; [exact Sv|]. split; [exact U|]. split; [exact B1|]. split; [now apply skip_all|]. f_equal. rewrite Es. exact (T b v (b1 +++ "." +++ r') B Sv).
  - intros (b & v & b1 & b2 & -> & B & Sv & U & B1 & B2 & ->).
    destruct (goals_at_done ((b +++ v) +++ b1 +++ "." +++ b2) (S (slen ((b +++ v) +++ b1 +++ "." +++ b2))) "" l (b +++ v) U b1 b2 B1 eq_refl (le_n _)) as [E _]. rewrite E.
    rewrite (lit_blank _ _ _ B1). rewrite (lit_yes ".") by reflexivity. rewrite <- (app_nil_s b2) at 1. rewrite (skip_blank _ _ B2). cbn [skip]. now rewrite T.
Qed.
(** the line of a place in a text without carriage returns is one more than the number of newlines before it *)
Fixpoint newlines (s : string) : N := match s with EmptyString => 0 | String c s' => (if Ascii.eqb c "010" then N.succ (newlines s') else newlines s')%N end.
Definition no_return (s : string) : Prop := all_chars (fun c => negb (Ascii.eqb c "013")) s = true.
Lemma line_newlines s : no_return s -> line_of s = (1 + newlines s)%N.
Proof.
  assert (K : forall s prev n, prev <> "013"%char -> no_return s -> line_after prev n s = (n + newlines s)%N).
  { clear. induction s as [|c s IH]; intros prev n Hp H; [cbn; lia|]. unfold no_return in H. cbn [all_chars] in H. apply andb_true_iff in H. destruct H as [H1 H2].
    apply negb_true_iff in H1. cbn [line_after newlines]. rewrite H1. cbn [andb orb]. assert (Hc : c <> "013"%char) by (intros ->; discriminate H1). rewrite (IH _ _ Hc H2).
    destruct (Ascii.eqb_spec prev "013") as [->|_]; [contradiction|]. rewrite andb_true_r. destruct (Ascii.eqb c "010"); lia. }
  intros H. apply K; [discriminate|exact H].
Qed.
Lemma newlines_app s t : newlines (s +++ t) = (newlines s + newlines t)%N.
Proof. induction s as [|c s IH]; [reflexivity|]. cbn [String.append newlines]. rewrite IH. destruct (Ascii.eqb c "010"); lia. Qed.
