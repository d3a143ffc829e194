(** Positions in the tree: loading, and all histories of calls. *)
From Verif Require Import Base Machine Heap Facts Compiler Parser ParserFacts Texts Grammar Organizer Examples Spec Print Valuation Process Turn Shape Session Code Put Search PutRun Get Alloc Atoms Clause Parsed Flat Loads Roundtrip Exprs Language Positions CompAt LockHist AnswerText OrgAt RunAt Tree TreeSrc TreeFacts TreeInv Calls TipAt TipRun TipFacts.
Open Scope string_scope.
Open Scope list_scope.

Definition shown (g : pgoal) : node * option info := (fst g, Some (snd g)).
Definition source (a : catom_at) : node * option info := (ca_node (fst a), snd a).
Lemma src_join gs : forall r l, src (map fst gs) (map fst r) -> Forall plain_atom r -> Forall query_shape (map fst r) ->
  map source r = map shown gs ++ l -> l = [] \/ l = [end_mark] -> src_at gs r.
Proof.
  induction gs as [|g gs IH]; intros r l S F Q E L; cbn [map app] in *.
  - destruct r as [|[a i] r]; [constructor|]. destruct L as [->| ->]; [discriminate E|]. destruct r; [|discriminate E]. cbn in E. injection E as E1 E2. cbn in S. inversion S; subst. repeat constructor.
  - destruct r as [|[a i] r]; [discriminate E|]. cbn [map source shown fst snd] in E. injection E as E1 E2 E3. cbn [map fst] in *. inversion F as [|? ? F1 F2]; subst. inversion Q as [|? ? Q1 Q2]; subst.
    inversion S as [|n a' gs' cs Hg S'|gs' cs S']; subst.
    + constructor; [|exact (IH r l S' F2 Q2 E3 L)]. split; [reflexivity|]. split; [exact (goal_not_dealloc _ _ Hg)|]. cbn [fst].
      destruct Q1 as [(is & f & K1 & K2)|K]; [|destruct Hg as (_ & is & Hg & N); rewrite K in Hg; destruct is as [|x [|y is]]; [contradiction|discriminate Hg|discriminate Hg]].
      exists is. split; [|exact K2]. pose proof (goal_call _ _ Hg) as C. rewrite K1, last_last in C. now rewrite K1, C.
    + destruct F1 as [F1|F1]; [discriminate F1|discriminate F1].
Qed.
Lemma query_src_at cf q s l s' : compile_query_at cf q s = (AOk l, s') -> Forall atom_ok (map fst q) -> src_at q l.
Proof.
  intros E Ha. pose proof (compile_query_erased cf q s) as Er. rewrite E in Er. unfold forget in Er. cbn in Er. symmetry in Er.
  apply (src_join q l []); auto.
  - unfold compile_query in Er. exact (query_atoms_src _ _ _ _ _ _ _ _ Er Ha).
  - exact (query_plain cf q _ _ _ E).
  - exact (compile_query_shape cf (map fst q) _ _ _ Er).
  - rewrite app_nil_r. unfold compile_query_at in E. exact (query_atoms_sources _ _ _ _ _ _ _ _ E).
Qed.
Lemma clause_src_at cf b c s f r s' : compile_program_term_at cf b c s = (AOk (f, r), s') -> clause_wf (map fst c) ->
  clause_at c r /\ exists h hi body, c = (h, hi) :: body /\ f = to_fview h.
Proof.
  intros E Hw. destruct (clause_sources cf b {| i_begin := 0; i_end := 0; i_text := "" |} c s f r s' E) as [(_ & l & St & Ln) (h & hi & body & -> & ->)]. split; [|exists h, hi, body; auto].
  pose proof (clause_at_erased cf b ((h, hi) :: body) s) as Er. rewrite E in Er. unfold forget in Er. cbn [fst snd] in Er. symmetry in Er.
  pose proof (compile_program_term_shape cf b _ _ _ _ Er) as Sh. cbn [snd] in Sh.
  destruct (clause_code_src cf s' b (map fst ((h, hi) :: body)) (map fst r)) as (h0 & body0 & ha & cs & K1 & K2 & K3 & K4); [exists s, s', (to_fview h); split; [exact Er|apply sto_ext_refl]|exact Hw|].
  pose proof (clause_plain cf b _ _ _ _ E) as Pl. cbn [snd] in Pl. cbn [map fst] in K1. injection K1 as <- <-. destruct r as [|[a i] r]; [discriminate K2|]. cbn [map fst] in K2. injection K2 as <- <-.
  cbn [map fst] in Sh. destruct Sh as [(is & Hc & Hl & _) Sb]. cbn [snd map fst app] in St. injection St as E1 E2 E3. inversion Pl as [|? ? P1 P2]; subst.
  exists (ca_node a, hi), body, (a, Some hi), r. csplit; auto.
  - split; [reflexivity|]. exists is. auto.
  - apply (src_join body r l); auto.
Qed.

(** --- the tables --- *)
Lemma tlookup_add f g r p : tlookup f (tadd g r p) = if fview_eqb f g then Some (match tlookup g p with Some rs => rs ++ [r] | None => [r] end) else tlookup f p.
Proof.
  induction p as [|[h rs] p IH]; cbn [tadd tlookup].
  - destruct (fview_eqb f g); reflexivity.
  - destruct (fview_eqb g h) eqn:Egh; cbn [tlookup].
    + apply fview_eqb_eq in Egh. subst h. destruct (fview_eqb f g); reflexivity.
    + rewrite IH. destruct (fview_eqb f h) eqn:Efh; [|reflexivity]. destruct (fview_eqb f g) eqn:Efg; [|reflexivity].
      apply fview_eqb_eq in Efh, Efg. subst. rewrite fview_eqb_refl in Egh. discriminate Egh.
Qed.
Lemma tlookup_set f g rs p : tlookup f (tset g rs p) = if fview_eqb f g then Some rs else tlookup f p.
Proof.
  induction p as [|[h rs'] p IH]; cbn [tset tlookup].
  - destruct (fview_eqb f g); reflexivity.
  - destruct (fview_eqb g h) eqn:Egh; cbn [tlookup].
    + apply fview_eqb_eq in Egh. subst h. destruct (fview_eqb f g); reflexivity.
    + rewrite IH. destruct (fview_eqb f h) eqn:Efh; [|reflexivity]. destruct (fview_eqb f g) eqn:Efg; [|reflexivity].
      apply fview_eqb_eq in Efh, Efg. subst. rewrite fview_eqb_refl in Egh. discriminate Egh.
Qed.
Lemma table_padd f i r p : table_of (padd_at f (i, r) p) = tadd f r (table_of p).
Proof. unfold table_of. induction p as [|[g rs] p IH]; [reflexivity|]. cbn [padd_at map fst snd tadd]. destruct (fview_eqb f g); cbn [map fst snd]; [rewrite map_app; reflexivity|now rewrite IH]. Qed.
Definition rules_at (f : fview) (p : table_at) : list code_at := match tlookup f p with Some rs => rs | None => [] end.
Definition headed (f : fview) (c : list pgoal) : bool := match c with (h, _) :: _ => fview_eqb f (to_fview h) | [] => false end.
Lemma clauses_tell cf b cs : forall p s p' s', compile_clauses_at cf b cs p s = (AOk p', s') -> Forall (fun c => clause_wf (map fst (snd c))) cs ->
  forall f, exists rs, rules_at f (table_of p') = rules_at f (table_of p) ++ rs /\ Forall2 clause_at (filter (headed f) (map snd cs)) rs.
Proof.
  induction cs as [|[i c] cs IH]; intros p s p' s' E Hw f; cbn [compile_clauses_at] in E.
  - injection E as <- _. exists []. rewrite app_nil_r. split; [reflexivity|constructor].
  - unfold abind in E. destruct (compile_program_term_at cf b c s) as [[[g r]|e j|] s1] eqn:E1; try discriminate E. inversion Hw as [|? ? W1 W2]; subst.
    destruct (clause_src_at cf b c s g r s1 E1 W1) as [Hc (h & hi & body & -> & ->)]. destruct (IH _ _ _ _ E W2 f) as (rs & E2 & F).
    rewrite table_padd in E2. unfold rules_at in E2 at 2. rewrite tlookup_add in E2. cbn [map snd filter headed]. destruct (fview_eqb f (to_fview h)) eqn:Ef.
    + apply fview_eqb_eq in Ef. subst f. exists (r :: rs). split; [|constructor; assumption]. rewrite E2. unfold rules_at. destruct (tlookup (to_fview h) (table_of p)); [now rewrite <- app_assoc|reflexivity].
    + exists rs. split; [exact E2|exact F].
Qed.
Definition binary_at (nm : string) : list pgoal := [(binary_pred nm, built_in_info (binary_text nm))].
Lemma insert_ok x is : is_local x = true -> forallb is_local is = true -> exists is', insert_before_last x (is ++ [IProceed]) = is' ++ [IProceed] /\ forallb is_local is' = true.
Proof.
  intros X L. exists (is ++ [x]). unfold insert_before_last. rewrite removelast_last, app_length. cbn [List.length]. replace (List.length is + 1 - 1) with (List.length is) by lia.
  rewrite skipn_app, skipn_all, Nat.sub_diag. cbn [app skipn]. split; [now rewrite <- app_assoc|]. now rewrite forallb_app, L; cbn; rewrite X.
Qed.
Lemma binary_tells cf nm f p s p' s' : (forall x y, is_local (f x y) = true) -> compile_binary_at cf nm f p s = (AOk p', s') ->
  exists r, p' = tadd (FV nm 2) r p /\ clause_at (binary_at nm) r.
Proof.
  intros L E. unfold compile_binary_at in E. destruct (pred_regs (binary_pred nm)) as [xl xr]. unfold abind in E. destruct (compile_program_term_at cf true _ s) as [[[g r]|e j|] s1] eqn:E1; try discriminate E. injection E as <- _.
  destruct (clause_src_at cf true _ s g r s1 E1) as [(h & body & ha & cs & K1 & -> & (K2 & is & K3 & K4) & K5) (h0 & hi & b0 & K6 & ->)].
  { cbn. constructor; [|constructor]. cbn. intros m [<-|[<-|[]]]; cbn; auto. }
  injection K6 as <- <- <-. injection K1 as <- <-. destruct ha as [a i]. exists (insert_pred_at f xl xr ((a, i) :: cs)). split; [reflexivity|].
  eexists _, [], _, cs. csplit; [reflexivity|reflexivity| |exact K5]. split; [exact K2|]. cbn [fst ca_code] in *. rewrite K3. now apply insert_ok.
Qed.
Definition built_tells (b : table_at) : Prop := exists r1 r2 r3 r4,
  b = [(FV "is" 2, [r1]); (FV "==" 2, [r2]); (FV "\==" 2, [r3]); (FV "append" 3, r4)] /\
  clause_at (binary_at "is") r1 /\ clause_at (binary_at "==") r2 /\ clause_at (binary_at "\==") r3 /\ Forall2 clause_at append_clauses_at r4.
Lemma built_told cf s b s' : compile_built_ins_at cf s = (AOk b, s') -> built_tells b.
Proof.
  unfold compile_built_ins_at. intros E. unfold abind in E.
  destruct (compile_binary_at cf "is" IIs [] s) as [[p1|e i|] s1] eqn:E1; try discriminate E. destruct (compile_binary_at cf "==" IEq p1 s1) as [[p2|e i|] s2] eqn:E2; try discriminate E.
  destruct (compile_binary_at cf "\==" INeq p2 s2) as [[p3|e i|] s3] eqn:E3; try discriminate E.
  apply binary_tells in E1; [|reflexivity]. destruct E1 as (r1 & -> & K1). apply binary_tells in E2; [|reflexivity]. destruct E2 as (r2 & -> & K2). apply binary_tells in E3; [|reflexivity]. destruct E3 as (r3 & -> & K3).
  cbn [append_clauses_at compile_others_at] in E. unfold abind in E. destruct (compile_program_term_at cf true _ s3) as [[[f4 r4]|e i|] s4] eqn:E4; try discriminate E.
  destruct (compile_program_term_at cf true _ s4) as [[[f5 r5]|e i|] s5] eqn:E5; try discriminate E. unfold aret in E. injection E as <- _.
  destruct (clause_src_at _ _ _ _ _ _ _ E4) as [K4 (h4 & i4 & b4 & X4 & ->)]; [exact (append_wf _ (or_introl eq_refl))|].
  destruct (clause_src_at _ _ _ _ _ _ _ E5) as [K5 (h5 & i5 & b5 & X5 & ->)]; [exact (append_wf _ (or_intror (or_introl eq_refl)))|].
  injection X4 as <- <- <-. injection X5 as <- <- <-. exists r1, r2, r3, [r4; r5]. csplit; auto. repeat constructor; assumption.
Qed.
Lemma merge_tells b P p : built_tells b -> (forall f, Forall2 clause_at (filter (headed f) P) (rules_at f p)) -> table_tells P (tmerge b p).
Proof.
  intros (r1 & r2 & r3 & r4 & -> & K1 & K2 & K3 & K4) H f. unfold tmerge. cbn [fold_left fst snd]. rewrite !tlookup_set. unfold clauses_at, special, is_append.
  destruct (fview_eqb f (FV "append" 3)) eqn:E4.
  { apply fview_eqb_eq in E4. subst f. cbn. exact K4. }
  destruct (fview_eqb f (FV "\==" 2)) eqn:E3.
  { apply fview_eqb_eq in E3. subst f. cbn. constructor; [exact K3|constructor]. }
  destruct (fview_eqb f (FV "==" 2)) eqn:E2.
  { apply fview_eqb_eq in E2. subst f. cbn. constructor; [exact K2|constructor]. }
  destruct (fview_eqb f (FV "is" 2)) eqn:E1.
  { apply fview_eqb_eq in E1. subst f. cbn. constructor; [exact K1|constructor]. }
  specialize (H f). unfold rules_at in H. unfold headed in H. destruct (tlookup f p); [exact H|]. now inversion H.
Qed.
Lemma built_only b : built_tells b -> table_tells [] b.
Proof.
  intros (r1 & r2 & r3 & r4 & -> & K1 & K2 & K3 & K4) f. cbn [tlookup]. unfold clauses_at, special, is_append.
  destruct (fview_eqb f (FV "is" 2)) eqn:E1.
  { apply fview_eqb_eq in E1. subst f. cbn. constructor; [exact K1|constructor]. }
  destruct (fview_eqb f (FV "==" 2)) eqn:E2.
  { apply fview_eqb_eq in E2. subst f. cbn. constructor; [exact K2|constructor]. }
  destruct (fview_eqb f (FV "\==" 2)) eqn:E3.
  { apply fview_eqb_eq in E3. subst f. cbn. constructor; [exact K3|constructor]. }
  destruct (fview_eqb f (FV "append" 3)) eqn:E4; [exact K4|reflexivity].
Qed.

(** --- histories --- *)
(** [watched cf o P q]: [o] came about by calls of the public interface none of which ran out of memory; [P] is the program loaded last,
    with the positions of its clauses; [q] the query loaded last, if no program was loaded after it. *)
Inductive watched (cf : cfg) : org_at -> list (list pgoal) -> option (list pgoal) -> Prop :=
| wt_new o : new_at cf = Val o -> watched cf o [] None
| wt_program o P q text cs i o' : watched cf o P q -> parse_program_at text = Some (COk cs) ->
    load_program_at cf text o = Some ((LOk, i), o') -> watched cf o' (map snd cs) None
| wt_program_err o P q text r i o' : watched cf o P q -> load_program_at cf text o = Some ((r, i), o') -> r <> LOk -> watched cf o' P q
| wt_query o P q text i j l o' : watched cf o P q -> parse_query_at (append_dot text) = Some (COk (i, l)) ->
    load_query_at cf text o = Some ((LOk, j), o') -> watched cf o' P (Some l)
| wt_query_err o P q text r i o' : watched cf o P q -> load_query_at cf text o = Some ((r, i), o') -> r <> LOk -> watched cf o' P q
| wt_limit o P q t : watched cf o P q -> watched cf (set_limit_at t o) P q
| wt_answer o P q fuel n w r i o' : watched cf o P q -> get_answer_at cf fuel n w o = Val ((r, i), o') -> r <> ROutOfMemory -> watched cf o' P q.

Definition view (P : list (list pgoal)) (q : option (list pgoal)) (o : org_at) : Prop :=
  match q with Some q => exists W, tree_at P q W o | None => True end.
Lemma tree_moved P q W o o' : a_arena o' = a_arena o -> (a_queue o' = a_queue o \/ a_queue o' = []) -> tree_at P q W o -> tree_at P q W o'.
Proof.
  intros Ea Eq [H1 H2 H3 H4 H5]. split; rewrite ?Ea; auto.
  - destruct Eq as [-> | ->]; [exact H3|constructor].
  - destruct Eq as [-> | ->]; [exact H4|intros id []].
Qed.
Definition kept (o o' : org_at) : Prop := a_prog o' = a_prog o /\ a_built o' = a_built o.
Lemma put_kept o id e o' : put_at o id e = Val o' -> kept o o'.
Proof. intros E. unfold put_at in E. apply bind_val in E. destruct E as (a & _ & E). injection E as <-. split; reflexivity. Qed.
Lemma kept_trans a b c : kept a b -> kept b c -> kept a c.
Proof. unfold kept. intros [-> ->] [-> ->]. auto. Qed.
Lemma child_kept o id c o' : add_child_at o id c = Val o' -> kept o o'.
Proof. intros E. unfold add_child_at in E. apply bind_val in E. destruct E as (e & _ & E). apply bind_val in E. destruct E as (o1 & E1 & E). injection E as <-. exact (put_kept _ _ _ _ E1). Qed.
Lemma spawn_kept id rs : forall o o', spawn_at o id rs = Val o' -> kept o o'.
Proof.
  induction rs as [|r rs IH]; intros o o' E; cbn [spawn_at] in E; [injection E as <-; split; reflexivity|]. apply bind_val in E. destruct E as (e & _ & E). destruct (y_codes e); [discriminate E|].
  apply bind_val in E. destruct E as (o1 & E1 & E). exact (kept_trans _ _ _ (child_kept _ _ _ _ E1) (IH _ _ E)).
Qed.
Lemma step_kept cf fuel o id i st o' : instr_step_at cf fuel o id i = Val (st, o') -> kept o o'.
Proof.
  intros E. assert (L : is_local i = true -> kept o o').
  { intros Li. assert (X : exists e m s, put_at o id (ywith_m e m) = Val o' \/ put_at o id (ywith_state (ywith_m e m) s) = Val o').
    { destruct i; try discriminate Li; cbn [instr_step_at] in E; apply bind_val in E; destruct E as (e & _ & E); apply bind_val in E; destruct E as ([s m] & _ & E);
        (destruct s as [| |er]; apply bind_val in E; destruct E as (o1 & E1 & E); injection E as _ <-; [exists e, m, SFail|exists e, m, SFail|exists e, m, (SError er)]; auto). }
    destruct X as (e & m & s & [X|X]); exact (put_kept _ _ _ _ X). }
  destruct i; try exact (L eq_refl); clear L; cbn [instr_step_at] in E.
  - unfold do_call_at in E. destruct (tlookup _ _) as [rs|].
    + apply bind_val in E. destruct E as (o1 & E1 & E). apply bind_val in E. destruct E as (e & _ & E). apply bind_val in E. destruct E as (e1 & _ & E). apply bind_val in E. destruct E as (o2 & E2 & E). injection E as _ <-.
      exact (kept_trans _ _ _ (spawn_kept _ _ _ _ E1) (put_kept _ _ _ _ E2)).
    + apply bind_val in E. destruct E as (e & _ & E). apply bind_val in E. destruct E as (o1 & E1 & E). injection E as _ <-. exact (put_kept _ _ _ _ E1).
  - unfold do_proceed_at in E. apply bind_val in E. destruct E as (e & _ & E). destruct (y_codes e); [discriminate E|]. apply bind_val in E. destruct E as (d & _ & E). destruct d.
    + apply bind_val in E. destruct E as (e1 & _ & E). apply bind_val in E. destruct E as (o1 & E1 & E). injection E as _ <-. exact (put_kept _ _ _ _ E1).
    + apply bind_val in E. destruct E as (o1 & E1 & E). apply bind_val in E. destruct E as (o2 & E2 & E). injection E as _ <-. exact (kept_trans _ _ _ (put_kept _ _ _ _ E1) (child_kept _ _ _ _ E2)).
  - unfold do_dealloc_at in E. apply bind_val in E. destruct E as (e & _ & E). destruct (m_envs (y_m e)); [discriminate E|]. destruct (y_codes e); [discriminate E|].
    apply bind_val in E. destruct E as (o1 & E1 & E). injection E as _ <-. exact (put_kept _ _ _ _ E1).
Qed.
Lemma instrs_kept cf fuel id is : forall o st o', run_instrs_at cf fuel o id is = Val (st, o') -> kept o o'.
Proof.
  induction is as [|i is IH]; intros o st o' E; cbn [run_instrs_at] in E; [injection E as _ <-; split; reflexivity|].
  apply bind_val in E. destruct E as ([s o1] & E1 & E). apply step_kept in E1. destruct s as [| |er j].
  - exact (kept_trans _ _ _ E1 (IH _ _ _ E)).
  - apply bind_val in E. destruct E as (e & _ & E). apply bind_val in E. destruct E as (e1 & _ & E). apply bind_val in E. destruct E as (o2 & E2 & E). injection E as _ <-. exact (kept_trans _ _ _ E1 (put_kept _ _ _ _ E2)).
  - apply bind_val in E. destruct E as (e & _ & E). apply bind_val in E. destruct E as (e1 & _ & E). apply bind_val in E. destruct E as (o2 & E2 & E). injection E as _ <-. exact (kept_trans _ _ _ E1 (put_kept _ _ _ _ E2)).
Qed.
Lemma turn_kept cf fuel o r o' : turn_at cf fuel o = Val (r, o') -> kept o o'.
Proof.
  intros E. unfold turn_at in E. destruct (a_queue o) as [|id q]; [injection E as _ <-; split; reflexivity|].
  apply bind_val in E. destruct E as (e & _ & E). destruct (y_codes e) as [|p ps]; [discriminate E|]. apply bind_val in E. destruct E as (a & _ & E). apply bind_val in E. destruct E as (o1 & E1 & E).
  apply bind_val in E. destruct E as ([st o2] & E2 & E). assert (K : kept o o2) by exact (kept_trans _ _ _ (put_kept _ _ _ _ E1) (instrs_kept _ _ _ _ _ _ _ E2)).
  assert (X : o' = o2); [|now rewrite X]. destruct st as [| |er j].
  - apply bind_val in E. destruct E as (e2 & _ & E). destruct (y_state e2); try (injection E as _ <-; reflexivity). apply bind_val in E. destruct E as (b & _ & E). injection E as _ <-. reflexivity.
  - apply bind_val in E. destruct E as (e2 & _ & E). destruct (y_state e2); try (injection E as _ <-; reflexivity). apply bind_val in E. destruct E as (b & _ & E). injection E as _ <-. reflexivity.
  - injection E as _ <-. reflexivity.
Qed.
Lemma answer_view cf fuel P q w n : forall k o r i o', answer_loop_at cf fuel n k w o = Val ((r, i), o') -> r <> ROutOfMemory ->
  table_tells P (a_prog o) -> view P q o -> kept o o' /\ view P q o'.
Proof.
  induction n as [|n IH]; intros k o r i o' E N T V; cbn [answer_loop_at] in E; [discriminate E|].
  assert (Same : kept o o /\ view P q o) by (split; [split; reflexivity|exact V]).
  destruct (a_queue o) as [|id qs]; [injection E as _ _ <-; exact Same|]. destruct (_ <? _)%Z; [injection E as _ _ <-; exact Same|].
  destruct (w_oom w k); [injection E as <- _ _; now elim N|]. apply bind_val in E. destruct E as ([r1 o1] & E1 & E). pose proof (turn_kept _ _ _ _ _ E1) as K1.
  assert (V1 : view P q o1).
  { destruct q as [q|]; [|exact I]. destruct V as [W V]. destruct (turn_tree_at P cf fuel q W o r1 o1 V T E1) as (W' & V' & _). now exists W'. }
  destruct r1 as [r1|].
  - injection E as -> <-. split; assumption.
  - assert (T1 : table_tells P (a_prog o1)) by (destruct K1 as [-> _]; exact T). destruct (IH _ _ _ _ _ E N T1 V1) as [K2 V2]. split; [exact (kept_trans _ _ _ K1 K2)|exact V2].
Qed.
Lemma watched_told cf o P q : watched cf o P q -> built_tells (a_built o) /\ table_tells P (a_prog o) /\ view P q o.
Proof.
  induction 1 as [o E|o P q text cs i o' H IH Ep El|o P q text r i o' H IH El N|o P q text i j l o' H IH Ep El|o P q text r i o' H IH El N|o P q t H IH|o P q fuel n w r i o' H IH E N].
  - unfold new_at in E. destruct (compile_built_ins_at cf empty_storage) as [[p|e j|] s] eqn:Eb; try discriminate E. injection E as <-. cbn. pose proof (built_told _ _ _ _ Eb) as B. csplit; [exact B|exact (built_only _ B)|exact I].
  - destruct IH as (B & T & V). unfold load_program_at in El. rewrite Ep in El. destruct (compile_clauses_at cf false cs [] (a_sto o)) as [[p|e j|] s] eqn:Ec; try discriminate El. injection El as _ <-. cbn.
    csplit; [exact B| |exact I]. apply merge_tells; [exact B|]. intros f.
    assert (Hw : Forall (fun c => clause_wf (map fst (snd c))) cs).
    { pose proof (program_erased text) as Er. rewrite Ep in Er. cbn in Er. pose proof (parse_program_wf _ _ Er) as Hw.
      clear - Hw. induction cs as [|c cs IH]; [constructor|]. cbn in Hw. inversion Hw; subst. constructor; auto. }
    destruct (clauses_tell cf false cs [] _ _ _ Ec Hw f) as (rs & E1 & F). unfold rules_at at 2 in E1. cbn in E1. now rewrite E1.
  - destruct IH as (B & T & V). unfold load_program_at in El. assert (X : o' = o \/ exists s, o' = aset_sto o s).
    { destruct (parse_program_at text) as [[cs|e|]|]; try discriminate El; try (injection El as _ _ <-; now left).
      destruct (compile_clauses_at cf false cs [] (a_sto o)) as [[p|e j|] s]; injection El as <- _ <-; [now elim N|right; now exists s|right; now exists s]. }
    destruct X as [-> |(s & ->)]; [auto|]. cbn. csplit; auto. destruct q as [q|]; [|exact I]. destruct V as [W V]. exists W. revert V. apply tree_moved; auto.
  - destruct IH as (B & T & V). unfold load_query_at in El. rewrite Ep in El. destruct (compile_query_at cf (snd (i, l)) (a_sto o)) as [[r|e k|] s] eqn:Ec; try discriminate El. injection El as _ <-. cbn [a_built a_prog]. csplit; auto.
    cbn [snd] in Ec. pose proof (query_erased (append_dot text)) as Er. rewrite Ep in Er. cbn in Er. destruct (parse_query_wf _ _ Er) as [Hn Hw].
    pose proof (query_src_at cf l _ _ _ Ec Hw) as S. exists (fun _ => {| k_head := false; k_clause := []; k_goals := l; k_codes := r |}). split; cbn.
    + auto.
    + intros [|id] e He; [|destruct id; discriminate He]. injection He as <-. split.
      * cbn. split; [exact S|]. intros ->. now apply Hn.
      * left. cbn. csplit; auto. apply atoms_ptrs.
    + repeat constructor. intros [].
    + intros id [<-|[]]. eexists. split; reflexivity.
    + intros [|id] e He k; [|destruct id; discriminate He]. injection He as <-. intros [].
  - destruct IH as (B & T & V). unfold load_query_at in El. assert (X : a_arena o' = a_arena o /\ a_queue o' = [] /\ kept o o').
    { destruct (parse_query_at (append_dot text)) as [[c|e|]|]; try discriminate El; try (injection El as _ _ <-; repeat split).
      destruct (compile_query_at cf (snd c) (a_sto o)) as [[p|e j|] s]; injection El as <- _ <-; [now elim N|repeat split|repeat split]. }
    destruct X as (X1 & X2 & X3 & X4). rewrite X3, X4. csplit; auto. destruct q as [q|]; [|exact I]. destruct V as [W V]. exists W. revert V. apply tree_moved; auto.
  - destruct IH as (B & T & V). cbn. csplit; auto. destruct q as [q|]; [|exact I]. destruct V as [W V]. exists W. revert V. apply tree_moved; auto.
  - destruct IH as (B & T & V). destruct (answer_view cf fuel P q w n 0 o r i o' E N T V) as [[K1 K2] V']. rewrite K1, K2. auto.
Qed.
Lemma watched_tips cf o P q fuel t : watched cf o P (Some q) -> make_tree fuel (plain o) = Val t -> qtips o P q t.
Proof. intros H E. destruct (watched_told _ _ _ _ H) as (_ & _ & W & V). exact (tree_tips P fuel o q W V t E). Qed.

(** --- cases --- *)
Fixpoint answers_at (cf : cfg) (k : nat) (o : org_at) : option org_at :=
  match k with
  | 0 => Some o
  | S k' => match get_answer_at cf 100 50 calm o with Val ((ROutOfMemory, _), _) => None | Val (_, o') => answers_at cf k' o' | _ => None end
  end.
Definition look (cf : cfg) (text query : string) (k : nat) : option (org_at * list (list pgoal) * list pgoal) :=
  match new_at cf with
  | Val o0 => match load_program_at cf text o0, parse_program_at text with
              | Some ((LOk, _), o1), Some (COk cs) =>
                  match load_query_at cf query o1, parse_query_at (append_dot query) with
                  | Some ((LOk, _), o2), Some (COk (_, l)) => match answers_at cf k o2 with Some o => Some (o, map snd cs, l) | None => None end
                  | _, _ => None
                  end
              | _, _ => None
              end
  | _ => None
  end.
Lemma answers_watched cf k : forall o o' P q, answers_at cf k o = Some o' -> watched cf o P q -> watched cf o' P q.
Proof.
  induction k as [|k IH]; intros o o' P q E H; cbn [answers_at] in E; [now injection E as <-|].
  destruct (get_answer_at cf 100 50 calm o) as [[[r i] o1]|u|] eqn:Ea; try discriminate E.
  assert (N : r <> ROutOfMemory) by (intros ->; discriminate E). destruct r; try (now elim N); refine (IH _ _ _ _ E (wt_answer cf o P q 100 50 calm _ i o1 H Ea N)).
Qed.
Lemma look_watched cf text query k o P q : look cf text query k = Some (o, P, q) -> watched cf o P (Some q).
Proof.
  unfold look. destruct (new_at cf) as [o0|u|] eqn:E0; try (intros E; discriminate E). destruct (load_program_at cf text o0) as [[[[|e|] i] o1]|] eqn:E1; try (intros E; discriminate E).
  destruct (parse_program_at text) as [[cs|e|]|] eqn:E2; try (intros E; discriminate E). destruct (load_query_at cf query o1) as [[[[|e|] j] o2]|] eqn:E3; try (intros E; discriminate E).
  destruct (parse_query_at (append_dot query)) as [[[l0 l]|e|]|] eqn:E4; try (intros E; discriminate E). destruct (answers_at cf k o2) as [o3|] eqn:E5; intros E; [|discriminate E]. injection E as <- <- <-.
  refine (answers_watched _ _ _ _ _ _ E5 _). refine (wt_query cf o1 _ None query l0 j l o2 _ E4 E3). exact (wt_program cf o0 [] None text cs i o1 (wt_new cf o0 E0) E2 E1).
Qed.
(** the titles of the picture, from top to bottom; a node of a query that has none yet counts as None *)
Fixpoint qtitles (o : org_at) (t : qnode) : list (option string) :=
  match t with QNode ex _ _ ks => option_map tip (position o ex) :: flat_map (btitles o) ks end
with btitles (o : org_at) (b : bnode) : list (option string) :=
  match b with
  | BNode ex _ _ c => option_map tip (position o ex) :: match c with BQuery q => qtitles o q | _ => [] end
  end.
Definition titles_seen (text query : string) (k : nat) : option (list (option string)) :=
  match look cfg0 text query k with
  | Some (o, _, _) => match make_tree 100 (plain o) with Val t => Some (qtitles o t) | _ => None end
  | None => None
  end.
Definition tips_text : string := "p(X) :- r(X), r(X). p(X) :- t(X). r(a)." +++ String "010" "t(a). q( a )." .
Lemma titles_look text query k l : titles_seen text query k = Some l -> exists o P q t, watched cfg0 o P (Some q) /\ make_tree 100 (plain o) = Val t /\ qtitles o t = l.
Proof.
  unfold titles_seen. destruct (look cfg0 text query k) as [[[o P] q]|] eqn:L; [|intros X; discriminate X]. destruct (make_tree 100 (plain o)) as [t|u|] eqn:E; intros X; try discriminate X.
  injection X as <-. exists o, P, q, t. split; [exact (look_watched _ _ _ _ _ _ _ L)|]. split; [exact E|reflexivity].
Qed.
Lemma tips_case : titles_seen tips_text "p(X), q(X), Y is 1+1" 2 = Some
    [Some "Line 1: p(X)"; Some "Line 1: p(X)"; Some "Line 1: r(X)"; Some "Line 1: r(a)"; Some "Line 1: r(X)"; Some "Line 1: r(a)";
     Some "Line 1: q(X)"; Some "Line 2: q( a )"; Some "Line 1: Y is 1+1"; Some "built-in predicate: Lhs is Rhs";
     Some "Line 1: p(X)"; Some "Line 1: t(X)"; Some "Line 2: t(a)"; Some "Line 1: q(X)"; Some "Line 2: q( a )"; Some "Line 1: Y is 1+1";
     Some "built-in predicate: Lhs is Rhs"].
Proof. vm_compute. reflexivity. Qed.
(** the executors of the nodes of a tree *)
Fixpoint goal_execs (t : qnode) : list nat :=
  match t with QNode ex _ _ ks => ex :: flat_map clause_execs ks end
with clause_execs (b : bnode) : list nat :=
  match b with BNode _ _ _ c => match c with BQuery q => goal_execs q | _ => [] end end.
Definition unset (text query : string) (k : nat) : bool :=
  match look cfg0 text query k with
  | Some (o, _, _) => match make_tree 100 (plain o) with Val t => existsb (fun x => match position o x with None => true | _ => false end) (goal_execs t) | _ => false end
  | None => false
  end.
Lemma unset_look text query k : unset text query k = true ->
  exists o P q t ex, watched cfg0 o P (Some q) /\ make_tree 100 (plain o) = Val t /\ In ex (goal_execs t) /\ position o ex = None.
Proof.
  unfold unset. destruct (look cfg0 text query k) as [[[o P] q]|] eqn:L; [|intros X; discriminate X]. destruct (make_tree 100 (plain o)) as [t|u|] eqn:E; intros X; try discriminate X.
  apply existsb_exists in X. destruct X as (ex & H & K). exists o, P, q, t, ex. split; [exact (look_watched _ _ _ _ _ _ _ L)|]. split; [exact E|]. split; [exact H|]. destruct (position o ex); [discriminate K|reflexivity].
Qed.
Lemma tips_lost : unset tips_text "p(X), q(X)" 1 = true.
Proof. vm_compute. reflexivity. Qed.
