(** Queries followed by more text: what load_query does with them. *)
From Verif Require Import Base Machine Heap Compiler Parser ParserFacts Print Organizer Session Texts Grammar Atoms Loads.
Open Scope string_scope.
Open Scope list_scope.

(** everything up to the first dot decides *)
Lemma query_dt u : nodot u ->
  (exists q, forall t, parse_query (dt u t) = match skip t with EmptyString => Some (COk q) | _ => Some (CErr CNone) end) \/
  (forall t, parse_query (dt u t) = Some (CErr CParser)).
Proof.
  intros Nu. destruct (sep_dst _ _ (p_atom_dst (S (slen u))) u Nu (Nat.lt_succ_diag_r _)) as [(q & u' & N & B & K)|[K|K]].
  - destruct (lit_dot u' N) as [[_ L]|[_ L]].
    + left. exists q. intros t. unfold parse_query. rewrite (K _ t) by (rewrite dt_len; lia). rewrite L. reflexivity.
    + right. intros t. unfold parse_query. rewrite (K _ t) by (rewrite dt_len; lia). rewrite L. reflexivity.
  - right. intros t. unfold parse_query. rewrite (K _ t) by (rewrite dt_len; lia). reflexivity.
  - right. intros t. unfold parse_query. rewrite (K _ t) by (rewrite dt_len; lia). reflexivity.
Qed.
Lemma query_nodot s : nodot s -> parse_query s = Some (CErr CParser).
Proof.
  intros N. unfold parse_query. destruct (sep (p_atom (S (slen s))) s) as [l r| | |] eqn:E; try reflexivity.
  - apply (sep_nd _ (p_atom_nd _) _ _ _ N) in E. unfold lit. apply skip_nodot in E. destruct (skip r) as [|x y]; [reflexivity|].
    destruct E as [Nx _]. cbn [strip]. destruct (Ascii.eqb_spec "." x) as [<-|]; [now elim Nx|reflexivity].
  - exfalso. apply (parse_query_total s). unfold parse_query. now rewrite E.
Qed.
(** [u.] is a complete query and something other than blanks follows *)
Definition followed (s u t : string) (q : list node) : Prop :=
  s = (u ++ "." ++ t)%string /\ nodot u /\ parse_query (u ++ ".") = Some (COk q) /\ skip t <> "".
Lemma followed_parse s : parse_query s = Some (CErr CNone) <-> exists u t q, followed s u t q.
Proof.
  split.
  - intros H. destruct (first_dot s) as [N|(u & t & N & ->)]; [rewrite (query_nodot s N) in H; discriminate H|].
    destruct (query_dt u N) as [(q & K)|K]; rewrite K in H; [|discriminate H].
    exists u, t, q. split; [reflexivity|]. split; [exact N|]. split; [exact (K "")|]. intros E. rewrite E in H. discriminate H.
  - intros (u & t & q & -> & N & Pq & Sk). change (u ++ "." ++ t)%string with (dt u t). change (u ++ ".")%string with (dt u "") in Pq.
    destruct (query_dt u N) as [(q' & K)|K]; rewrite K in Pq; [|discriminate Pq]. rewrite K. destruct (skip t); [now elim Sk|reflexivity].
Qed.
(** The error that does not exist is returned exactly then, and no query is loaded. *)
Lemma silent_exact cf text o : ord_ok cf ->
  ((exists o', load_query cf text o = Some (LErr CNone, o')) <-> exists u t q, followed (append_dot text) u t q).
Proof.
  intros OK. rewrite <- followed_parse. split.
  - intros (o' & L). destruct (load_query_reasons cf text o OK) as (r & o2 & L2 & K). rewrite L in L2. injection L2 as <- <-.
    unfold validate_query in K. destruct (parse_query (append_dot text)) as [[q|e|]|]; try contradiction.
    + destruct K as (q' & _ & []).
    + destruct K as [[= ->] _]. reflexivity.
  - intros E. unfold load_query. rewrite E. eauto.
Qed.
Lemma silent_dropped cf text o u t q : followed (append_dot text) u t q ->
  exists o', load_query cf text o = Some (LErr CNone, o') /\
  (forall fuel n w r o2, get_answer cf fuel n w o' = Val (r, o2) -> r = RFalse /\ o2 = o') /\
  forall fuel n w, exists o2, get_answer cf fuel (S n) w o' = Val (RFalse, o2).
Proof.
  intros F. exists (set_stats (set_queue o []) 0). split.
  - unfold load_query. destruct (followed_parse (append_dot text)) as [_ E]. rewrite E by eauto. reflexivity.
  - split.
    + intros fuel n w r o2 G. destruct n; [discriminate G|]. cbn in G. injection G as <- <-. auto.
    + intros fuel n w. eexists. reflexivity.
Qed.
