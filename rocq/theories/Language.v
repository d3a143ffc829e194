(** The language of program and query texts, and that the parser accepts exactly it.
    Blanks may stand before every word and sign, but not between the name of a functor and its bracket. *)
From Verif Require Import Base Machine Compiler Parser ParserFacts Texts Grammar Roundtrip Exprs.
Open Scope string_scope.
Open Scope list_scope.

(** [term_lang n w]: w is a text of the term n; [head_lang]: of a structure or constant; [list_lang]: of a list; [terms_lang]: of a sequence of terms *)
Inductive term_lang : node -> string -> Prop :=
| tt_expr n w : writes 1 n w -> term_lang n w
| tt_head n w : head_lang n w -> term_lang n w
| tt_list n w : list_lang n w -> term_lang n w
with head_lang : node -> string -> Prop :=
| ht_con b nm : blank b -> name_of is_lower nm = true -> head_lang (NCon nm) (b +++ nm)
| ht_fun b nm l u b' : blank b -> name_of is_lower nm = true -> terms_lang l u -> blank b' -> head_lang (NFun nm l) (b +++ nm +++ "(" +++ u +++ b' +++ ")")
with list_lang : node -> string -> Prop :=
| lt_nil b b' : blank b -> blank b' -> list_lang nil_node (b +++ "[" +++ b' +++ "]")
| lt_closed b l u b' : blank b -> terms_lang l u -> blank b' -> list_lang (list_node l nil_node) (b +++ "[" +++ u +++ b' +++ "]")
| lt_var b l u b1 b2 x b3 : blank b -> terms_lang l u -> blank b1 -> blank b2 -> name_of is_upper x = true -> blank b3 ->
    list_lang (list_node l (NVar x)) (b +++ "[" +++ u +++ b1 +++ "|" +++ b2 +++ x +++ b3 +++ "]")
| lt_tail b l u b1 n w b3 : blank b -> terms_lang l u -> blank b1 -> list_lang n w -> blank b3 ->
    list_lang (list_node l n) (b +++ "[" +++ u +++ b1 +++ "|" +++ w +++ b3 +++ "]")
with terms_lang : list node -> string -> Prop :=
| ts_one n w : term_lang n w -> terms_lang [n] w
| ts_more n w b l u : term_lang n w -> blank b -> terms_lang l u -> terms_lang (n :: l) (w +++ b +++ "," +++ u).
Scheme t_lang_mut := Induction for term_lang Sort Prop with h_lang_mut := Induction for head_lang Sort Prop
  with l_lang_mut := Induction for list_lang Sort Prop with ts_lang_mut := Induction for terms_lang Sort Prop.
Combined Scheme texts_mut from t_lang_mut, h_lang_mut, l_lang_mut, ts_lang_mut.
(** the left side of is must not end in a word that goes on in the letters of is *)
Inductive goal_lang : node -> string -> Prop :=
| gt_eq a w b c u : term_lang a w -> blank b -> term_lang c u -> goal_lang (NFun "==" [a; c]) (w +++ b +++ "==" +++ u)
| gt_ne a w b c u : term_lang a w -> blank b -> term_lang c u -> goal_lang (NFun "\==" [a; c]) (w +++ b +++ "\==" +++ u)
| gt_is a w b e u : term_lang a w -> blank b -> fits w (b +++ "is") = true -> writes 1 e u -> goal_lang (NFun "is" [a; e]) (w +++ b +++ "is" +++ u)
| gt_head n w : head_lang n w -> goal_lang n w.
Inductive goals_lang : list node -> string -> Prop :=
| gs_one n w : goal_lang n w -> goals_lang [n] w
| gs_more n w b l u : goal_lang n w -> blank b -> goals_lang l u -> goals_lang (n :: l) (w +++ b +++ "," +++ u).
Inductive clause_lang : list node -> string -> Prop :=
| ct_fact h w b : head_lang h w -> blank b -> clause_lang [h] (w +++ b +++ ".")
| ct_rule h w b l u b' : head_lang h w -> blank b -> goals_lang l u -> blank b' -> clause_lang (h :: l) (w +++ b +++ ":-" +++ u +++ b' +++ ".").
(** clauses, with blanks and comments between them; each comment is ended by a newline *)
Inductive program_lang : list (list node) -> string -> Prop :=
| pt_end b : blank b -> program_lang [] b
| pt_comment P b c t : blank b -> one_line c -> program_lang P t -> program_lang P (b +++ "%" +++ c +++ String "010" t)
| pt_clause c P w t : clause_lang c w -> program_lang P t -> program_lang (c :: P) (w +++ t).
Definition query_lang (q : list node) (s : string) : Prop := exists u b b', s = u +++ b +++ "." +++ b' /\ goals_lang q u /\ blank b /\ blank b'.

(** --- every text of the language is parsed as what it stands for --- *)
Definition p_list (k : nat) : parser := snd (fst (p_rec k)).
Lemma p_list_S k : p_list (S k) = p_list_of (p_elem k) (p_list k).
Proof. unfold p_list, p_elem. cbn [p_rec]. destruct (p_rec k) as [[e l] x]. reflexivity. Qed.
Lemma elem_S k : p_elem (S k) = p_elem_of (p_elem k) (p_list k) (p_expr k).
Proof. apply p_elem_S. Qed.
Lemma ident_blank f b s : blank b -> ident f (b +++ s) = ident f s.
Proof. intros B. unfold ident. now rewrite (skip_blank _ _ B). Qed.
Lemma functor_blank e b s : blank b -> p_functor_of e (b +++ s) = p_functor_of e s.
Proof. intros B. unfold p_functor_of. now rewrite (ident_blank _ _ _ B). Qed.
Lemma constant_blank b s : blank b -> p_constant (b +++ s) = p_constant s.
Proof. intros B. unfold p_constant. now rewrite (ident_blank _ _ _ B). Qed.
Lemma variable_blank b s : blank b -> p_variable (b +++ s) = p_variable s.
Proof. intros B. unfold p_variable. now rewrite (ident_blank _ _ _ B). Qed.
Lemma list_blank e l b s : blank b -> p_list_of e l (b +++ s) = p_list_of e l s.
Proof. intros B. unfold p_list_of. now rewrite (lit_blank _ _ _ B). Qed.
Lemma expr_of_blank x b s : blank b -> p_expr_of x (b +++ s) = p_expr_of x s.
Proof. intros B. unfold p_expr_of. now rewrite (product_blank _ _ _ B). Qed.
Lemma elem_blank k b s : blank b -> p_elem k (b +++ s) = p_elem k s.
Proof.
  intros B. destruct k as [|k]; [reflexivity|]. rewrite elem_S. unfold p_elem_of.
  now rewrite (functor_blank _ _ _ B), (constant_blank _ _ B), (list_blank _ _ _ _ B), (expr_of_blank _ _ _ B).
Qed.
Lemma not_bracket k s n t : p_elem k s = POk n t -> lit "]" s = PFail.
Proof.
  intros E. destruct (lit_cases "]" s) as [(r & L & _)|L]; [|exact L]. destruct (lit_split _ _ _ _ L) as (b & B & ->). rewrite (elem_blank k _ _ B) in E.
  destruct k as [|k]; [discriminate E|]. rewrite elem_S in E. discriminate E.
Qed.
(** the first character of an expression *)
Lemma writes_first p n w : writes p n w -> exists b c r, blank b /\ w = b +++ String c r /\ efirst c.
Proof.
  induction 1 as [p b s B Hs|p b s B Hs|p b b' n s B B' W IH|p b n m s u Lp B Wn IHn Wm IHm|p b o n m s u Lp B Ho Wn IHn Wm IHm|p b o n m s u Lp B Ho Wn IHn Wm IHm];
    try (destruct IHn as (b0 & c & r & B0 & -> & F); exists b0, c; eexists; split; [exact B0|]; split; [rewrite app_assoc_s; reflexivity|exact F]).
  - destruct (expr_first (NVar s) Hs) as (c & r & E & F). unfold text in E. cbn [text_at] in E. exists b, c, r. now rewrite E.
  - destruct (expr_first (NInt s) Hs) as (c & r & E & F). unfold text in E. cbn [text_at] in E. exists b, c, r. now rewrite E.
  - exists b, "("%char. eexists. split; [exact B|]. split; [reflexivity|]. repeat split; discriminate.
Qed.
Lemma expr_elem e l x n w t : writes 1 n w -> p_expr_of x (w +++ t) = POk n t -> p_elem_of e l x (w +++ t) = POk n t.
Proof.
  intros W E. unfold p_elem_of. rewrite E. destruct (writes_first 1 n w W) as (b & c & r & B & -> & F1 & F2 & F3). rewrite app_assoc_s in *. cbn [String.append] in *.
  rewrite (functor_blank _ _ _ B), (constant_blank _ _ B), (list_blank _ _ _ _ B). unfold p_functor_of, p_constant. rewrite (ident_no is_lower c _ F2 F1). cbv beta iota.
  unfold p_list_of. rewrite (lit_no "" "[" c); [reflexivity|exact F2|]. destruct (Ascii.eqb_spec "[" c); [congruence|reflexivity].
Qed.
(** what may follow a term *)
Definition may_follow (w t : string) : Prop := fits w t = true /\ strip "(" t = None /\ no_op (skip t) = true.
Lemma stop_follows w t : stop t = true -> may_follow w t.
Proof.
  unfold stop. rewrite !andb_true_iff. intros [[H1 H2] H3]. split; [now apply ends_fits|]. split; [|exact H3].
  destruct t as [|c t]; [reflexivity|]. cbn [strip]. apply negb_true_iff in H2. rewrite Ascii.eqb_sym, H2. reflexivity.
Qed.
Lemma stop_blank b t : blank b -> stop t = true -> stop (b +++ t) = true.
Proof.
  intros B. unfold stop. rewrite !andb_true_iff. intros [[H1 H2] H3]. rewrite (skip_blank _ _ B). split; [split|exact H3]; [now apply ends_blank|].
  destruct b as [|c b]; [exact H2|]. cbn [String.append]. unfold blank in B. cbn [all_chars] in B. apply andb_true_iff in B. destruct B as [B _].
  destruct (Ascii.eqb_spec c "(") as [->|]; [discriminate B|reflexivity].
Qed.
Definition head_of (k : nat) : parser := fun s => p_functor_of (p_elem k) s <|> p_constant s.
Definition done_t n w := forall t k, may_follow w t -> slen (w +++ t) < k -> p_elem k (w +++ t) = POk n t.
Definition done_h n w := forall t k, may_follow w t -> slen (w +++ t) <= k -> head_of k (w +++ t) = POk n t.
Definition done_l n w := forall t k, slen (w +++ t) <= k -> p_list_of (p_elem k) (p_list k) (w +++ t) = POk n t.
Definition done_ts l u := forall t k, stop t = true -> lit "," t = PFail -> slen (u +++ t) < k ->
  sep (p_elem k) (u +++ t) = POk l t /\ (forall b m, blank b -> slen (u +++ t) < m -> sep_rest (S m) (p_elem k) (b +++ "," +++ u +++ t) = POk l t) /\
  lit "]" (u +++ t) = PFail.
Lemma head_elem e l x k n w : done_h n w -> e = p_elem k -> forall t, may_follow w t -> slen (w +++ t) <= k -> p_elem_of e l x (w +++ t) = POk n t.
Proof.
  intros H -> t F Hk. specialize (H t k F Hk). unfold head_of in H. unfold p_elem_of. destruct (p_functor_of (p_elem k) (w +++ t)); [exact H| |discriminate H|discriminate H].
  destruct (p_constant (w +++ t)); [exact H|discriminate H|discriminate H|discriminate H].
Qed.
Lemma list_elem e l x b s n t : blank b -> p_list_of e l (b +++ "[" +++ s) = POk n t -> p_elem_of e l x (b +++ "[" +++ s) = POk n t.
Proof.
  intros B E. unfold p_elem_of. rewrite E. rewrite (functor_blank _ _ _ B), (constant_blank _ _ B). reflexivity.
Qed.
Lemma list_first n w : list_lang n w -> exists b s, blank b /\ w = b +++ "[" +++ s.
Proof. destruct 1; eauto. Qed.
Lemma texts_parsed : (forall n w, term_lang n w -> done_t n w) /\ (forall n w, head_lang n w -> done_h n w) /\ (forall n w, list_lang n w -> done_l n w) /\ (forall l u, terms_lang l u -> done_ts l u).
Proof.
  apply (texts_mut (fun n w _ => done_t n w) (fun n w _ => done_h n w) (fun n w _ => done_l n w) (fun l u _ => done_ts l u)).
  - intros n w W t k (F1 & F2 & F3) Hk. destruct k as [|k]; [lia|]. rewrite elem_S. apply expr_elem; [exact W|]. rewrite <- p_expr_S.
    destruct (p_expr_sim (S k) (S (S k)) ltac:(lia) (w +++ t) Hk) as [E _]. rewrite E. now apply expr_fits.
  - intros n w Hh IH t k F Hk. destruct k as [|k]; [lia|]. rewrite elem_S. apply (head_elem _ _ _ k n w IH eq_refl t F). lia.
  - intros n w Hl IH t k F Hk. destruct k as [|k]; [lia|]. rewrite elem_S. specialize (IH t k ltac:(lia)).
    destruct (list_first n w Hl) as (b & s & B & ->). rewrite !app_assoc_s in *. now apply list_elem.
  - intros b nm B Hn t k (F1 & F2 & F3) Hk. rewrite (fits_blank _ _ _ B), (fits_name is_lower nm t lower_word Hn) in F1. unfold head_of.
    rewrite app_assoc_s, (functor_blank _ _ _ B), (constant_blank _ _ B). unfold p_functor_of, p_constant. rewrite (ident_ok is_lower nm t Hn lower_space F1), F2. reflexivity.
  - intros b nm l u b' B Hn Hts IH B' t k F Hk. unfold head_of. rewrite !app_assoc_s in *. rewrite (functor_blank _ _ _ B). unfold p_functor_of.
    rewrite (ident_ok is_lower nm ("(" +++ u +++ b' +++ ")" +++ t) Hn lower_space eq_refl).
    assert (E : strip "(" ("(" +++ u +++ b' +++ ")" +++ t) = Some (u +++ b' +++ ")" +++ t)) by reflexivity. rewrite E.
    assert (Hk' : slen (u +++ b' +++ ")" +++ t) < k).
    { rewrite (app_len b), (app_len nm), (app_len "(") in Hk. cbn [String.length] in Hk. lia. }
    destruct (IH (b' +++ ")" +++ t) k (stop_blank _ (")" +++ t) B' eq_refl)) as (E1 & _); [rewrite (lit_blank _ _ _ B'); reflexivity|exact Hk'|]. rewrite E1.
    rewrite (lit_blank _ _ _ B'). rewrite (lit_yes ")") by reflexivity. reflexivity.
  - intros b b' B B' t k Hk. rewrite !app_assoc_s, (list_blank _ _ _ _ B). unfold p_list_of. rewrite (lit_yes "[") by reflexivity. rewrite (lit_blank _ _ _ B').
    rewrite (lit_yes "]") by reflexivity. reflexivity.
  - intros b l u b' B Hts IH B' t k Hk. rewrite !app_assoc_s in *. rewrite (list_blank _ _ _ _ B). unfold p_list_of. rewrite (lit_yes "[") by reflexivity. cbv beta iota.
    assert (Hk' : slen (u +++ b' +++ "]" +++ t) < k).
    { rewrite (app_len b), (app_len "[") in Hk. cbn [String.length] in Hk. lia. }
    destruct (IH (b' +++ "]" +++ t) k (stop_blank _ ("]" +++ t) B' eq_refl)) as (E1 & _ & E3); [rewrite (lit_blank _ _ _ B'); reflexivity|exact Hk'|]. rewrite E3, E1.
    rewrite (lit_blank _ _ _ B'). rewrite (lit_yes "]") by reflexivity. reflexivity.
  - intros b l u b1 b2 x b3 B Hts IH B1 B2 Hx B3 t k Hk. rewrite !app_assoc_s in *. rewrite (list_blank _ _ _ _ B). unfold p_list_of. rewrite (lit_yes "[") by reflexivity. cbv beta iota.
    assert (Hk' : slen (u +++ b1 +++ "|" +++ b2 +++ x +++ b3 +++ "]" +++ t) < k).
    { rewrite (app_len b), (app_len "[") in Hk. cbn [String.length] in Hk. lia. }
    destruct (IH (b1 +++ "|" +++ b2 +++ x +++ b3 +++ "]" +++ t) k (stop_blank _ ("|" +++ b2 +++ x +++ b3 +++ "]" +++ t) B1 eq_refl)) as (E1 & _ & E3);
      [rewrite (lit_blank _ _ _ B1); reflexivity|exact Hk'|]. rewrite E3, E1.
    rewrite !(lit_blank _ _ _ B1). rewrite (lit_yes "|") by reflexivity. assert (N : lit "]" ("|" +++ b2 +++ x +++ b3 +++ "]" +++ t) = PFail) by reflexivity. rewrite N.
    cbv beta iota. rewrite (variable_blank _ _ B2). unfold p_variable. rewrite (ident_ok is_upper x _ Hx upper_space); [|now apply ends_blank].
    rewrite (lit_blank _ _ _ B3). rewrite (lit_yes "]") by reflexivity. reflexivity.
  - intros b l u b1 n w b3 B Hts IH B1 Hl IHl B3 t k Hk. rewrite !app_assoc_s in *. rewrite (list_blank _ _ _ _ B). unfold p_list_of. rewrite (lit_yes "[") by reflexivity. cbv beta iota.
    assert (Hk' : slen (u +++ b1 +++ "|" +++ w +++ b3 +++ "]" +++ t) < k).
    { rewrite (app_len b), (app_len "[") in Hk. cbn [String.length] in Hk. lia. }
    destruct (IH (b1 +++ "|" +++ w +++ b3 +++ "]" +++ t) k (stop_blank _ ("|" +++ w +++ b3 +++ "]" +++ t) B1 eq_refl)) as (E1 & _ & E3);
      [rewrite (lit_blank _ _ _ B1); reflexivity|exact Hk'|]. rewrite E3, E1.
    rewrite !(lit_blank _ _ _ B1). rewrite (lit_yes "|") by reflexivity. assert (N : lit "]" ("|" +++ w +++ b3 +++ "]" +++ t) = PFail) by reflexivity. rewrite N.
    cbv beta iota. assert (V : p_variable (w +++ b3 +++ "]" +++ t) = PFail).
    { destruct (list_first n w Hl) as (b0 & s0 & B0 & ->). rewrite !app_assoc_s, (variable_blank _ _ B0). reflexivity. }
    rewrite V. destruct k as [|k]; [lia|]. rewrite p_list_S. rewrite IHl; [|rewrite (app_len u), (app_len b1), (app_len "|") in Hk'; cbn [String.length] in Hk'; lia].
    rewrite (lit_blank _ _ _ B3). rewrite (lit_yes "]") by reflexivity. reflexivity.
  - intros n w Ht IH t k St Nc Hk. assert (E : p_elem k (w +++ t) = POk n t) by (apply IH; [now apply stop_follows|exact Hk]). split; [|split].
    + unfold sep. rewrite E. cbn [sep_rest]. rewrite Nc. reflexivity.
    + intros b m B Hm. cbn [sep_rest]. rewrite (lit_blank _ _ _ B), (lit_yes ",") by reflexivity. rewrite E. destruct m as [|m]; [lia|]. cbn [sep_rest]. rewrite Nc. reflexivity.
    + exact (not_bracket k _ _ _ E).
  - intros n w b l u Ht IH B Hts IHs t k St Nc Hk. rewrite !app_assoc_s in *.
    assert (E : p_elem k (w +++ b +++ "," +++ u +++ t) = POk n (b +++ "," +++ u +++ t)) by (apply IH; [now apply stop_follows, stop_blank|exact Hk]).
    assert (Hk' : slen (u +++ t) < k) by (rewrite (app_len w), (app_len b), (app_len ",") in Hk; lia).
    destruct (IHs t k St Nc Hk') as (_ & E2 & _).
    assert (L : slen (u +++ t) < slen (b +++ "," +++ u +++ t)) by (rewrite (app_len b), (app_len ","); cbn [String.length]; lia). split; [|split].
    + unfold sep. rewrite E. rewrite (E2 b _ B L). reflexivity.
    + intros b0 m B0 Hm. cbn [sep_rest]. rewrite (lit_blank _ _ _ B0), (lit_yes ",") by reflexivity. rewrite E. destruct m as [|m]; [lia|].
      rewrite (E2 b m B); [reflexivity|]. rewrite (app_len w) in Hm. lia.
    + exact (not_bracket k _ _ _ E).
Qed.
Lemma fits_first w b r : fits w (b +++ "is" +++ r) = fits w (b +++ "is").
Proof. unfold fits. destruct (last_word None w) as [[]|]; [now destruct b|now destruct b|reflexivity]. Qed.
Lemma head_goal k n s t : head_of k s = POk n t -> (p_functor k s <|> p_constant s) = POk n t.
Proof. exact (fun H => H). Qed.
(** a goal followed by a comma or a dot *)
Definition goal_end (t : string) : Prop := exists b c r, blank b /\ (c = ","%char \/ c = "."%char) /\ t = b +++ String c r.
Lemma goal_end_stop t : goal_end t -> stop t = true.
Proof. intros (b & c & r & B & C & ->). apply stop_blank; [exact B|]. destruct C as [-> | ->]; reflexivity. Qed.
Lemma goal_end_lit t o : goal_end t -> In o ["=="; "\=="; "is"; ":-"] -> lit o t = PFail.
Proof.
  intros (b & c & r & B & C & ->) Ho. rewrite (lit_blank _ _ _ B). destruct C as [-> | ->]; destruct Ho as [<-|[<-|[<-|[<-|[]]]]]; reflexivity.
Qed.
Lemma goal_done n w t k : goal_lang n w -> goal_end t -> slen (w +++ t) < k -> p_atom k (w +++ t) = POk n t.
Proof.
  destruct texts_parsed as (Pt & Ph & _). intros G Ge Hk. pose proof (goal_end_stop t Ge) as St.
  destruct G as [a w b c u Ha B Hc|a w b c u Ha B Hc|a w b e u Ha B F He|n w Hh]; rewrite ?app_assoc_s in *; unfold p_atom, p_binary.
  - rewrite (Pt a w Ha (b +++ "==" +++ u +++ t) k); [|now apply stop_follows, stop_blank|exact Hk]. rewrite (lit_blank _ _ _ B), (lit_yes "==") by reflexivity.
    rewrite (Pt c u Hc t k); [reflexivity|now apply stop_follows|]. rewrite (app_len w), (app_len b), (app_len "==") in Hk. lia.
  - rewrite (Pt a w Ha (b +++ "\==" +++ u +++ t) k); [|now apply stop_follows, stop_blank|exact Hk]. rewrite !(lit_blank _ _ _ B), (lit_yes "\==") by reflexivity.
    assert (N : lit "==" ("\==" +++ u +++ t) = PFail) by reflexivity. rewrite N.
    rewrite (Pt c u Hc t k); [reflexivity|now apply stop_follows|]. rewrite (app_len w), (app_len b), (app_len "\==") in Hk. lia.
  - rewrite (Pt a w Ha (b +++ "is" +++ u +++ t) k); [| |exact Hk].
    2:{ split; [now rewrite fits_first|]. rewrite (skip_blank _ _ B). split; [|reflexivity]. destruct b as [|x b]; [reflexivity|]. cbn [String.append strip].
        unfold blank in B. cbn [all_chars] in B. apply andb_true_iff in B. destruct B as [B _]. destruct (Ascii.eqb_spec "(" x) as [<-|]; [discriminate B|reflexivity]. }
    rewrite !(lit_blank _ _ _ B), (lit_yes "is") by reflexivity.
    assert (N1 : lit "==" ("is" +++ u +++ t) = PFail) by reflexivity. assert (N2 : lit "\==" ("is" +++ u +++ t) = PFail) by reflexivity. rewrite N1, N2.
    destruct (stop_follows u t St) as (F1 & _ & F3). destruct k as [|k]; [lia|]. rewrite (expr_fits e u t k He F1 F3); [reflexivity|].
    rewrite (app_len w), (app_len b), (app_len "is") in Hk. cbn [String.length] in Hk. lia.
  - rewrite (Pt n w (tt_head n w Hh) t k (stop_follows w t St) Hk). rewrite !(goal_end_lit t _ Ge) by (cbn; auto).
    specialize (Ph n w Hh t k (stop_follows w t St) ltac:(lia)). exact Ph.
Qed.
Lemma goals_done l u : goals_lang l u -> forall b t k, blank b -> slen (u +++ b +++ "." +++ t) < k ->
  sep (p_atom k) (u +++ b +++ "." +++ t) = POk l (b +++ "." +++ t) /\
  forall b0 m, blank b0 -> slen (u +++ b +++ "." +++ t) < m -> sep_rest (S m) (p_atom k) (b0 +++ "," +++ u +++ b +++ "." +++ t) = POk l (b +++ "." +++ t).
Proof.
  induction 1 as [n w G|n w b1 l u G B1 Gs IH]; intros b t k B Hk.
  - assert (E : p_atom k (w +++ b +++ "." +++ t) = POk n (b +++ "." +++ t)).
    { apply (goal_done n w _ k G); [|exact Hk]. exists b, "."%char, t. auto. }
    assert (Nc : lit "," (b +++ "." +++ t) = PFail) by (rewrite (lit_blank _ _ _ B); reflexivity). split.
    + unfold sep. rewrite E. cbn [sep_rest]. rewrite Nc. reflexivity.
    + intros b0 m B0 Hm. cbn [sep_rest]. rewrite (lit_blank _ _ _ B0), (lit_yes ",") by reflexivity. rewrite E. destruct m as [|m]; [lia|]. cbn [sep_rest]. rewrite Nc. reflexivity.
  - rewrite !app_assoc_s in *. assert (E : p_atom k (w +++ b1 +++ "," +++ u +++ b +++ "." +++ t) = POk n (b1 +++ "," +++ u +++ b +++ "." +++ t)).
    { apply (goal_done n w _ k G); [|exact Hk]. exists b1, ","%char, (u +++ b +++ "." +++ t). auto. }
    assert (Hk' : slen (u +++ b +++ "." +++ t) < k) by (rewrite (app_len w), (app_len b1), (app_len ",") in Hk; lia).
    destruct (IH b t k B Hk') as [_ E2].
    assert (L : slen (u +++ b +++ "." +++ t) < slen (b1 +++ "," +++ u +++ b +++ "." +++ t)) by (rewrite (app_len b1), (app_len ","); cbn [String.length]; lia). split.
    + unfold sep. rewrite E. rewrite (E2 b1 _ B1 L). reflexivity.
    + intros b0 m B0 Hm. cbn [sep_rest]. rewrite (lit_blank _ _ _ B0), (lit_yes ",") by reflexivity. rewrite E. destruct m as [|m]; [lia|].
      rewrite (E2 b1 m B1); [reflexivity|]. rewrite (app_len w) in Hm. lia.
Qed.
Lemma clause_done c w t k : clause_lang c w -> slen (w +++ t) < k -> p_clause k (w +++ t) = POk c t.
Proof.
  destruct texts_parsed as (_ & Ph & _). intros W Hk. unfold p_clause. destruct W as [h w b Hh B|h w b l u b' Hh B Gs B']; rewrite !app_assoc_s in *.
  - pose proof (Ph h w Hh (b +++ "." +++ t) k (stop_follows _ _ (stop_blank b ("." +++ t) B eq_refl)) ltac:(lia)) as E. unfold head_of in E. unfold p_functor. rewrite E.
    rewrite (lit_blank _ _ _ B). assert (N : lit ":-" ("." +++ t) = PFail) by reflexivity. rewrite N. cbv beta iota. rewrite (lit_blank _ _ _ B).
    rewrite (lit_yes ".") by reflexivity. reflexivity.
  - pose proof (Ph h w Hh (b +++ ":-" +++ u +++ b' +++ "." +++ t) k (stop_follows _ _ (stop_blank b (":-" +++ u +++ b' +++ "." +++ t) B eq_refl)) ltac:(lia)) as E.
    unfold head_of in E. unfold p_functor. rewrite E. rewrite !(lit_blank _ _ _ B). rewrite (lit_yes ":-") by reflexivity.
    destruct (goals_done l u Gs b' t k B') as [E2 _]; [rewrite (app_len w), (app_len b), (app_len ":-") in Hk; lia|]. rewrite E2. cbv beta iota.
    rewrite (lit_blank _ _ _ B'). rewrite (lit_yes ".") by reflexivity. reflexivity.
Qed.
Lemma head_first n w : head_lang n w -> exists b c r, blank b /\ w = b +++ String c r /\ is_lower c = true.
Proof.
  assert (K : forall nm, name_of is_lower nm = true -> exists c r, nm = String c r /\ is_lower c = true).
  { intros [|c r] H; [discriminate H|]. cbn [name_of] in H. apply andb_true_iff in H. exists c, r. split; [reflexivity|apply H]. }
  destruct 1 as [b nm B H|b nm l u b' B H Hts B']; destruct (K nm H) as (c & r & -> & L); exists b, c; eexists; (split; [exact B|]); split; try exact L; reflexivity.
Qed.
Lemma clause_starts c w : clause_lang c w -> exists b a r, blank b /\ w = b +++ String a r /\ is_lower a = true.
Proof.
  destruct 1 as [h w b Hh B|h w b l u b' Hh B Gs B']; destruct (head_first h w Hh) as (b0 & a & r & B0 & -> & L); exists b0, a; eexists; (split; [exact B0|]); rewrite app_assoc_s; (split; [reflexivity|exact L]).
Qed.
Lemma comment_of b s : blank b -> p_comment (b +++ s) = p_comment s.
Proof. intros B. unfold p_comment. now rewrite (skip_blank _ _ B). Qed.
Lemma clause_program c w : clause_lang c w -> parse_program w = Some (COk [c]).
Proof.
  intros W. pose proof (clause_done c w "" (S (slen w)) W) as K. rewrite app_nil_s in K. specialize (K (Nat.lt_succ_diag_r _)).
  destruct (clause_starts c w W) as (b & a & r & B & Ew & L). assert (C : p_comment w = PFail).
  { rewrite Ew, (comment_of _ _ B). unfold p_comment. rewrite (skip_nonspace a) by (now apply lower_space). destruct (Ascii.eqb_spec a "%") as [->|]; [discriminate L|reflexivity]. }
  assert (J : exists j, slen w = S j) by (rewrite Ew, app_len; cbn [String.length]; rewrite Nat.add_succ_r; eauto).
  unfold parse_program. cbn [p_rules]. rewrite C. unfold p_rule. rewrite K. change (p_comment "") with (@PFail unit). cbv beta iota. destruct J as (j & ->). reflexivity.
Qed.
Lemma blank_gap b g : blank b -> gap g -> gap (b +++ g).
Proof.
  unfold blank. induction b as [|c b IH]; intros B G; [exact G|]. cbn [all_chars] in B. apply andb_true_iff in B. destruct B as [B1 B2]. cbn [String.append]. constructor; auto.
Qed.
Theorem program_accepted P s : program_lang P s -> parse_program s = Some (COk P).
Proof.
  induction 1 as [b B|P b c t B C W IH|c P w t Wc W IH].
  - apply parse_gap. rewrite <- (app_nil_s b). apply blank_gap; [exact B|constructor].
  - assert (G : gap (b +++ "%" +++ c +++ String "010" "")) by (apply blank_gap; [exact B|]; apply gap_comment; [exact C|constructor]).
    replace (b +++ "%" +++ c +++ String "010" t) with ((b +++ "%" +++ c +++ String "010" "") +++ t) by (rewrite !app_assoc_s; reflexivity).
    rewrite (parse_program_app _ t [] (parse_gap _ G)), IH. reflexivity.
  - rewrite (parse_program_app w t [c] (clause_program c w Wc)), IH. reflexivity.
Qed.
Theorem query_accepted q s : query_lang q s -> parse_query s = Some (COk q).
Proof.
  intros (u & b & b' & -> & G & B & B'). unfold parse_query. destruct (goals_done q u G b b' (S (slen (u +++ b +++ "." +++ b'))) B (Nat.lt_succ_diag_r _)) as [E _]. rewrite E.
  rewrite (lit_blank _ _ _ B). rewrite (lit_yes ".") by reflexivity. rewrite <- (app_nil_s b'), (skip_blank _ _ B'). reflexivity.
Qed.

(** --- and nothing else is accepted --- *)
Lemma ident_split f s nm t : ident f s = POk nm t -> exists b, blank b /\ s = b +++ nm +++ t /\ name_of f nm = true /\ ends t = true.
Proof.
  unfold ident. intros E. destruct (skip_split s) as (b & B & Es). exists b. split; [exact B|]. destruct (skip s) as [|c r]; [discriminate E|].
  destruct (f c) eqn:U; [|discriminate E]. pose proof (take_split is_idc r) as T. pose proof (take_rest is_idc r) as T3. destruct (take is_idc r) as [a r'].
  cbn [fst snd] in T, T3. destruct T as [T1 T2]. injection E as <- <-. split; [rewrite Es, T2; reflexivity|]. cbn [name_of]. rewrite U, T1. split; [reflexivity|exact T3].
Qed.
Lemma strip_split w : forall s r, strip w s = Some r -> s = w +++ r.
Proof.
  induction w as [|c w IH]; intros s r E; cbn in E; [cbn; congruence|]. destruct s as [|d s]; [discriminate E|].
  destruct (Ascii.eqb_spec c d) as [->|]; [|discriminate E]. cbn [String.append]. now rewrite (IH s r E).
Qed.
Definition only (T : node -> string -> Prop) (p : parser) : Prop := forall s n t, p s = POk n t -> exists w, s = w +++ t /\ T n w /\ fits w t = true.
Lemma sep_only (T : node -> string -> Prop) (TS : list node -> string -> Prop) (p : parser) : (forall s n t, p s = POk n t -> exists w, s = w +++ t /\ T n w) ->
  (forall n w, T n w -> TS [n] w) -> (forall n w b l u, T n w -> blank b -> TS l u -> TS (n :: l) (w +++ b +++ "," +++ u)) ->
  forall s l t, sep p s = POk l t -> exists u, s = u +++ t /\ TS l u.
Proof.
  intros P One More. assert (R : forall m s l t, sep_rest m p s = POk l t -> l = [] /\ s = t \/ exists b u, blank b /\ s = b +++ "," +++ u +++ t /\ TS l u).
  { induction m as [|m IH]; intros s l t E; [discriminate E|]. cbn [sep_rest] in E. destruct (lit "," s) as [y s1| | |] eqn:L; try (injection E as <- <-; now left).
    destruct (p s1) as [a s2| | |] eqn:Ep; try discriminate E; [|injection E as <- <-; now left].
    destruct (sep_rest m p s2) as [l2 s3| | |] eqn:E3; try discriminate E. injection E as <- <-. right.
    destruct (lit_split _ _ _ _ L) as (b & B & ->). destruct (P _ _ _ Ep) as (w & -> & W). exists b. destruct (IH _ _ _ E3) as [[-> ->]|(b' & u & B' & -> & U)].
    - exists w. auto.
    - exists (w +++ b' +++ "," +++ u). split; [exact B|]. split; [now rewrite !app_assoc_s|]. now apply More. }
  intros s l t E. unfold sep in E. destruct (p s) as [a s1| | |] eqn:Ep; try discriminate E. destruct (sep_rest (S (slen s1)) p s1) as [l2 s2| | |] eqn:E2; try discriminate E.
  injection E as <- <-. destruct (P _ _ _ Ep) as (w & -> & W). destruct (R _ _ _ _ E2) as [[-> ->]|(b & u & B & -> & U)].
  - exists w. auto.
  - exists (w +++ b +++ "," +++ u). split; [now rewrite !app_assoc_s|]. now apply More.
Qed.
Lemma only_plain T p : only T p -> forall s n t, p s = POk n t -> exists w, s = w +++ t /\ T n w.
Proof. intros O s n t E. destruct (O _ _ _ E) as (w & E1 & W & _). eauto. Qed.
Lemma constant_only : only head_lang p_constant.
Proof.
  intros s n t E. unfold p_constant in E. destruct (ident is_lower s) as [nm r| | |] eqn:I; try discriminate E. injection E as <- <-.
  destruct (ident_split _ _ _ _ I) as (b & B & -> & Hn & He). exists (b +++ nm). split; [now rewrite app_assoc_s|]. split; [now constructor|].
  now apply ends_fits.
Qed.
Lemma closing_fits x c t : is_idc c = false -> fits (x +++ String c "") t = true.
Proof. intros H. now rewrite fits_sep. Qed.
Lemma functor_only e : only term_lang e -> only head_lang (p_functor_of e).
Proof.
  intros O s n t E. unfold p_functor_of in E. destruct (ident is_lower s) as [nm r| | |] eqn:I; try discriminate E. destruct (strip "(" r) as [s2|] eqn:S1; [|discriminate E].
  destruct (sep e s2) as [l s3| | |] eqn:Es; try discriminate E. destruct (lit ")" s3) as [y s4| | |] eqn:L; try discriminate E. injection E as <- <-.
  destruct (ident_split _ _ _ _ I) as (b & B & -> & Hn & _). apply strip_split in S1. subst r. destruct (lit_split _ _ _ _ L) as (b' & B' & ->).
  destruct (sep_only term_lang terms_lang e (only_plain _ _ O) ts_one ts_more _ _ _ Es) as (u & -> & U). exists (b +++ nm +++ "(" +++ u +++ b' +++ ")").
  split; [now rewrite !app_assoc_s|]. split; [now constructor|]. rewrite <- !app_assoc_s. now apply closing_fits.
Qed.
Lemma list_only e l : only term_lang e -> only list_lang l -> only list_lang (p_list_of e l).
Proof.
  intros Oe Ol s n t E. unfold p_list_of in E. destruct (lit "[" s) as [y s1| | |] eqn:L0; [|discriminate E|exfalso; unfold lit in L0; destruct (strip _ _); discriminate L0..].
  destruct (lit_split _ _ _ _ L0) as (b & B & ->). pose proof (sep_only term_lang terms_lang e (only_plain _ _ Oe) ts_one ts_more) as So.
  destruct (lit "]" s1) as [y1 s2| | |] eqn:L1; [injection E as <- <-|cbv beta iota in E|exfalso; unfold lit in L1; destruct (strip _ _); discriminate L1..].
  { destruct (lit_split _ _ _ _ L1) as (b' & B' & ->). exists (b +++ "[" +++ b' +++ "]"). split; [now rewrite !app_assoc_s|]. split; [now constructor|].
    rewrite <- !app_assoc_s. now apply closing_fits. }
  destruct (sep e s1) as [k s2| | |] eqn:Es; try discriminate E. destruct (So _ _ _ Es) as (u & -> & U).
  destruct (lit "]" s2) as [y2 s3| | |] eqn:L2; [injection E as <- <-| |exfalso; unfold lit in L2; destruct (strip _ _); discriminate L2..].
  { destruct (lit_split _ _ _ _ L2) as (b' & B' & ->). exists (b +++ "[" +++ u +++ b' +++ "]"). split; [now rewrite !app_assoc_s|]. split; [now constructor|].
    rewrite <- !app_assoc_s. now apply closing_fits. }
  destruct (lit "|" s2) as [y3 s3| | |] eqn:L3; try discriminate E. destruct (lit_split _ _ _ _ L3) as (b1 & B1 & ->).
  unfold p_variable in E. destruct (ident is_upper s3) as [x s4| | |] eqn:I; try discriminate E.
  - destruct (lit "]" s4) as [y4 s5| | |] eqn:L4; try discriminate E. injection E as <- <-. destruct (ident_split _ _ _ _ I) as (b2 & B2 & -> & Hn & _).
    destruct (lit_split _ _ _ _ L4) as (b3 & B3 & ->). exists (b +++ "[" +++ u +++ b1 +++ "|" +++ b2 +++ x +++ b3 +++ "]"). split; [now rewrite !app_assoc_s|]. split; [now constructor|].
    rewrite <- !app_assoc_s. now apply closing_fits.
  - destruct (l s3) as [m s4| | |] eqn:El; try discriminate E. destruct (lit "]" s4) as [y4 s5| | |] eqn:L4; try discriminate E. injection E as <- <-.
    destruct (Ol _ _ _ El) as (w & -> & W & _). destruct (lit_split _ _ _ _ L4) as (b3 & B3 & ->). exists (b +++ "[" +++ u +++ b1 +++ "|" +++ w +++ b3 +++ "]").
    split; [now rewrite !app_assoc_s|]. split; [now constructor|]. rewrite <- !app_assoc_s. now apply closing_fits.
Qed.
Lemma only_impl (T U : node -> string -> Prop) p : (forall n w, T n w -> U n w) -> only T p -> only U p.
Proof. intros I O s n t E. destruct (O _ _ _ E) as (w & E1 & W & F). eauto. Qed.
Lemma alt_only T p q : only T p -> only T q -> only T (fun s => p s <|> q s).
Proof. intros P Q s n t E. destruct (p s) eqn:Ep; try discriminate E; [rewrite E in Ep; exact (P _ _ _ Ep)|exact (Q _ _ _ E)]. Qed.
Lemma elem_only k : only term_lang (p_elem k) /\ only list_lang (p_list k).
Proof.
  induction k as [|k [IHe IHl]]; [split; intros s n t E; discriminate E|]. rewrite elem_S, p_list_S. pose proof (list_only _ _ IHe IHl) as Ll. split; [|exact Ll].
  unfold p_elem_of. apply alt_only; [exact (only_impl _ _ _ tt_head (functor_only _ IHe))|]. apply alt_only; [exact (only_impl _ _ _ tt_head constant_only)|].
  apply alt_only; [exact (only_impl _ _ _ tt_list Ll)|]. apply (only_impl _ _ _ tt_expr). exact (expr_of_sound _ (expr_sound k)).
Qed.
Lemma head_only k : only head_lang (fun s => p_functor k s <|> p_constant s).
Proof. apply alt_only; [apply functor_only, elem_only|exact constant_only]. Qed.
Lemma atom_only k s n t : p_atom k s = POk n t -> exists w, s = w +++ t /\ goal_lang n w.
Proof.
  destruct (elem_only k) as [Oe _]. unfold p_atom. intros E.
  destruct (p_binary (p_elem k) (p_elem k) "==" s) as [n1 r1| | |] eqn:E1; try discriminate E.
  { injection E as <- <-. unfold p_binary in E1. destruct (p_elem k s) as [a s1| | |] eqn:A; try discriminate E1. destruct (lit "==" s1) as [y s2| | |] eqn:L; try discriminate E1.
    destruct (p_elem k s2) as [c s3| | |] eqn:C; try discriminate E1. injection E1 as <- <-. destruct (Oe _ _ _ A) as (w & -> & W & _). destruct (lit_split _ _ _ _ L) as (b & B & ->).
    destruct (Oe _ _ _ C) as (u & -> & U & _). exists (w +++ b +++ "==" +++ u). split; [now rewrite !app_assoc_s|now constructor]. }
  destruct (p_binary (p_elem k) (p_elem k) "\==" s) as [n1 r1| | |] eqn:E2; try discriminate E.
  { injection E as <- <-. unfold p_binary in E2. destruct (p_elem k s) as [a s1| | |] eqn:A; try discriminate E2. destruct (lit "\==" s1) as [y s2| | |] eqn:L; try discriminate E2.
    destruct (p_elem k s2) as [c s3| | |] eqn:C; try discriminate E2. injection E2 as <- <-. destruct (Oe _ _ _ A) as (w & -> & W & _). destruct (lit_split _ _ _ _ L) as (b & B & ->).
    destruct (Oe _ _ _ C) as (u & -> & U & _). exists (w +++ b +++ "\==" +++ u). split; [now rewrite !app_assoc_s|now constructor]. }
  destruct (p_binary (p_elem k) (p_expr k) "is" s) as [n1 r1| | |] eqn:E3; try discriminate E.
  { injection E as <- <-. unfold p_binary in E3. destruct (p_elem k s) as [a s1| | |] eqn:A; try discriminate E3. destruct (lit "is" s1) as [y s2| | |] eqn:L; try discriminate E3.
    destruct (p_expr k s2) as [c s3| | |] eqn:C; try discriminate E3. injection E3 as <- <-. destruct (Oe _ _ _ A) as (w & -> & W & F). destruct (lit_split _ _ _ _ L) as (b & B & ->).
    destruct (expr_sound k _ _ _ C) as (u & -> & U & _). exists (w +++ b +++ "is" +++ u). split; [now rewrite !app_assoc_s|]. constructor; auto. now rewrite fits_first in F. }
  destruct (head_only k s n t E) as (w & E4 & W & _). exists w. split; [exact E4|now constructor].
Qed.
Lemma goals_only k s l t : sep (p_atom k) s = POk l t -> exists u, s = u +++ t /\ goals_lang l u.
Proof. exact (sep_only goal_lang goals_lang (p_atom k) (atom_only k) gs_one gs_more s l t). Qed.
Lemma clause_only k s c t : p_clause k s = POk c t -> exists w, s = w +++ t /\ clause_lang c w.
Proof.
  unfold p_clause. intros E. destruct (p_functor k s <|> p_constant s) as [h s1| | |] eqn:H; try discriminate E. destruct (head_only k s h s1 H) as (w & -> & W & _).
  destruct (lit ":-" s1) as [y s2| | |] eqn:L1.
  - destruct (sep (p_atom k) s2) as [l s3| | |] eqn:Sp; try discriminate E.
    + destruct (lit "." s3) as [z s4| | |] eqn:L2; try discriminate E. injection E as <- <-. destruct (lit_split _ _ _ _ L1) as (b & B & ->).
      destruct (goals_only _ _ _ _ Sp) as (u & -> & U). destruct (lit_split _ _ _ _ L2) as (b' & B' & ->). exists (w +++ b +++ ":-" +++ u +++ b' +++ ".").
      split; [now rewrite !app_assoc_s|now constructor].
    + (* after a failed body the dot is missing *)
      exfalso. destruct (lit_split _ _ _ _ L1) as (b & B & ->). rewrite (lit_blank _ _ _ B) in E. discriminate E.
  - destruct (lit "." s1) as [z s4| | |] eqn:L2; try discriminate E. injection E as <- <-. destruct (lit_split _ _ _ _ L2) as (b & B & ->). exists (w +++ b +++ ".").
    split; [now rewrite !app_assoc_s|now constructor].
  - discriminate E.
  - discriminate E.
Qed.
Lemma comment_only s t : p_comment s = POk tt t -> exists b c, blank b /\ one_line c /\ s = b +++ "%" +++ c +++ String "010" t.
Proof.
  unfold p_comment. intros E. destruct (skip_split s) as (b & B & Es). destruct (skip s) as [|c r]; [discriminate E|]. destruct (Ascii.eqb_spec c "%") as [->|]; [|discriminate E].
  pose proof (take_split not_newline r) as T. pose proof (take_rest not_newline r) as T3. destruct (take not_newline r) as [a r']. cbn [fst snd] in T, T3. destruct T as [T1 T2].
  destruct r' as [|d r']; [discriminate E|]. injection E as <-. exists b, a. split; [exact B|]. split.
  - clear - T1. induction a as [|x a IH]; [exact I|]. cbn [all_chars] in T1. apply andb_true_iff in T1. destruct T1 as [T1 T2]. cbn [one_line]. split; [now apply newline_eq|auto].
  - apply negb_true_iff in T3. assert (d = "010"%char).
    { destruct (Ascii.eqb_spec d "010") as [|N]; [assumption|]. apply newline_eq in N. congruence. }
    subst d. rewrite Es, T2. reflexivity.
Qed.
Lemma rules_only n : forall k s l t, p_rules k n s = POk l t -> exists w, s = w +++ t /\ forall b, blank b -> t = b -> program_lang l s.
Proof.
  induction k as [|k IH]; intros s l t E; [discriminate E|]. cbn [p_rules] in E. destruct (p_comment s) as [[] s1| | |] eqn:C; try discriminate E.
  - destruct (comment_only _ _ C) as (b & c & B & O & ->). destruct (IH _ _ _ E) as (w & E1 & K). exists (b +++ "%" +++ c +++ String "010" w). split.
    + rewrite E1, !app_assoc_s. reflexivity.
    + intros b' B' Et. apply pt_comment; [exact B|exact O|]. exact (K b' B' Et).
  - destruct (p_rule n s) as [c s1| | |] eqn:R; try discriminate E.
    + destruct (p_rules k n s1) as [l2 s2| | |] eqn:R2; try discriminate E. injection E as <- <-. destruct (IH _ _ _ R2) as (w & E1 & K).
      unfold p_rule in R. destruct (p_clause n s) as [c' s0| | |] eqn:Cl; try discriminate R. destruct (clause_only _ _ _ _ Cl) as (w0 & -> & W0).
      destruct (p_comment s0) as [[] s3| | |] eqn:C0; try discriminate R; injection R as <- <-.
      * destruct (comment_only _ _ C0) as (b & x & B & O & ->). exists (w0 +++ b +++ "%" +++ x +++ String "010" w). split; [rewrite E1, !app_assoc_s; reflexivity|].
        intros b' B' Et. apply pt_clause; [exact W0|]. apply pt_comment; [exact B|exact O|]. exact (K b' B' Et).
      * exists (w0 +++ w). split; [now rewrite E1, app_assoc_s|]. intros b' B' Et. apply pt_clause; [exact W0|]. exact (K b' B' Et).
    + injection E as <- <-. exists "". split; [reflexivity|]. intros b B ->. now constructor.
Qed.
Lemma skip_all s : skip s = "" -> blank s.
Proof. intros E. destruct (skip_split s) as (b & B & Es). rewrite E, app_nil_s in Es. now subst s. Qed.
Theorem program_exact P s : parse_program s = Some (COk P) <-> program_lang P s.
Proof.
  split; [|apply program_accepted]. unfold parse_program. intros E. destruct (p_rules (S (slen s)) (S (slen s)) s) as [l r| | |] eqn:R; try discriminate E.
  destruct (skip r) as [|c x] eqn:K; [|discriminate E]. injection E as <-. destruct (rules_only _ _ _ _ _ R) as (w & _ & H). exact (H r (skip_all r K) eq_refl).
Qed.
Theorem query_exact q s : parse_query s = Some (COk q) <-> query_lang q s.
Proof.
  split; [|apply query_accepted]. unfold parse_query. intros E. destruct (sep (p_atom (S (slen s))) s) as [l r| | |] eqn:R; try discriminate E.
  destruct (lit "." r) as [y r'| | |] eqn:L; try discriminate E. destruct (skip r') as [|c x] eqn:K; [|discriminate E]. injection E as <-.
  destruct (goals_only _ _ _ _ R) as (u & -> & U). destruct (lit_split _ _ _ _ L) as (b & B & ->). exists u, b, r'. repeat split; auto. now apply skip_all.
Qed.
Theorem program_lang_unique P Q s : program_lang P s -> program_lang Q s -> P = Q.
Proof. intros A B. apply program_accepted in A, B. congruence. Qed.
Theorem query_lang_unique P Q s : query_lang P s -> query_lang Q s -> P = Q.
Proof. intros A B. apply query_accepted in A, B. congruence. Qed.
Theorem program_rejected s : (exists e, parse_program s = Some (CErr e)) <-> ~ exists P, program_lang P s.
Proof.
  split.
  - intros (e & E) (P & W). apply program_accepted in W. congruence.
  - intros N. destruct (parse_program s) as [[P|e|]|] eqn:E; [|eauto|..].
    + elim N. exists P. now apply program_exact.
    + exfalso. unfold parse_program in E. destruct (p_rules (S (slen s)) (S (slen s)) s) as [l r| | |]; try discriminate E. destruct (skip r); discriminate E.
    + now elim (parse_program_total s).
Qed.
