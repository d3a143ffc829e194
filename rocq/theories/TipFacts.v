(** Positions in the tree: an invariant of the search, and what loading gives. *)
From Verif Require Import Base Machine Heap Facts Compiler Parser ParserFacts Texts Grammar Organizer Examples Spec Print Valuation Process Turn Shape Session Code Put Search PutRun Get Alloc Atoms Clause Parsed Flat Loads Roundtrip Exprs Language Positions CompAt LockHist AnswerText OrgAt RunAt Tree TreeSrc TreeFacts TreeInv Calls TipAt TipRun.
Open Scope string_scope.
Open Scope list_scope.

Section Inv.
Variable P : list (list pgoal).
Definition same (a b : work) : Prop := k_head a = k_head b /\ k_clause a = k_clause b /\ k_goals a = k_goals b.
Lemma same_refl a : same a a.
Proof. now split. Qed.
Lemma ending_ext W W' w e c : (forall k, In k (y_kids e) -> same (W' k) (W k)) -> ending P W w e c -> ending P W' w e c.
Proof.
  intros S H. destruct H as [g gs D1 D2 D3 D4 D5|g gs D1 D2 D3 D4|h b D1 D2 D3 D4 D5 D6|h D1 D2 D3 D4 D5 D6|h b k D1 D2 D3 D4 D5 D6 D7].
  - eapply ed_unknown; eauto.
  - eapply ed_called; eauto. clear - S D4. revert S D4. generalize (clauses_at P (to_fview (fst g))). intros cls S F. induction F as [|k cl kl cls (K1 & K2 & K3) F IH]; constructor.
    + destruct (S k (or_introl eq_refl)) as (S1 & S2 & S3). csplit; congruence.
    + apply IH. intros j Hj. apply S. now right.
  - eapply ed_failed; eauto.
  - eapply ed_done; eauto.
  - destruct (S k) as (S1 & S2 & S3); [rewrite D4; now left|]. eapply (ed_next P W' w e c h b k); eauto; congruence.
Qed.
Lemma node_ext W W' id e : W' id = W id -> (forall k, In k (y_kids e) -> same (W' k) (W k)) -> node_at P W id e -> node_at P W' id e.
Proof.
  intros E S [H1 H2]. split; rewrite E; [exact H1|]. destruct H2 as [H2|(N & c & cs & K1 & K2 & K3)]; [now left|]. right. split; [exact N|]. exists c, cs. csplit; auto. now apply (ending_ext W).
Qed.
Definition newer (W : nat -> work) (id : nat) (w : work) (len : nat) (ws : list work) (j : nat) : work :=
  if Nat.ltb j len then if Nat.eqb j id then w else W j else nth (j - len) ws w.
Lemma newer_old W id w len ws j : j < len -> j <> id -> newer W id w len ws j = W j.
Proof. intros L N. unfold newer. apply Nat.ltb_lt in L. rewrite L. apply Nat.eqb_neq in N. now rewrite N. Qed.
Lemma newer_at W id w len ws : id < len -> newer W id w len ws id = w.
Proof. intros L. unfold newer. apply Nat.ltb_lt in L. now rewrite L, Nat.eqb_refl. Qed.
Lemma newer_new W id w len ws k v : nth_error ws k = Some v -> newer W id w len ws (len + k) = v.
Proof. intros E. unfold newer. rewrite (proj2 (Nat.ltb_ge (len + k) len)) by lia. replace (len + k - len) with k by lia. now apply nth_error_nth. Qed.
Lemma newer_same W id w len ws j : j < len -> same w (W id) -> same (newer W id w len ws j) (W j).
Proof. intros L S. destruct (Nat.eq_dec j id) as [->|N]; [rewrite newer_at by exact L; exact S|rewrite newer_old by assumption; apply same_refl]. Qed.

(** the frame: one executor changes, others are added *)
Lemma tree_grown q q0 W o o' id e e' new w ws ext : tree_at P q W o -> a_queue o = id :: q0 -> nth_error (a_arena o) id = Some e -> grown o o' id e' new ->
  same w (W id) ->
  let W' := newer W id w (List.length (a_arena o)) ws in
  node_at P W' id e' -> List.length ws = List.length new ->
  (forall k x, nth_error new k = Some x -> node_at P W' (List.length (a_arena o) + k) x /\ y_kids x = [] /\ y_state x = SRunning) ->
  (forall k, In k (y_kids e') -> k < List.length (a_arena o) + List.length new) ->
  a_queue o' = q0 ++ ext ->
  (ext = seq (List.length (a_arena o)) (List.length new) \/ (ext = [id] /\ y_state e' = SRunning)) ->
  tree_at P q W' o'.
Proof.
  intros HT Hq He G S W' Hid Lw Hnew Hk Hq' Hext. pose proof (nth_error_lt _ _ _ He) as Lt. destruct HT as [R N D Q K]. destruct G as [G1 G2 G3 G4 _ _].
  assert (Sm : forall j, j < List.length (a_arena o) -> same (W' j) (W j)) by (intros j Hj; now apply newer_same).
  split.
  - destruct (Nat.eq_dec 0 id) as [E|E].
    + subst id. unfold W'. rewrite newer_at by exact Lt. destruct S as (S1 & S2 & S3). destruct R. split; congruence.
    + unfold W'. rewrite newer_old by lia. exact R.
  - intros j x Hj. destruct (Nat.lt_ge_cases j (List.length (a_arena o))) as [L|L].
    + destruct (Nat.eq_dec j id) as [->|E]; [rewrite G1 in Hj; injection Hj as <-; exact Hid|]. rewrite G3 in Hj by assumption.
      apply (node_ext W); [unfold W'; now rewrite newer_old|intros k Hk'; apply Sm; exact (K _ _ Hj _ Hk')|exact (N _ _ Hj)].
    + replace j with (List.length (a_arena o) + (j - List.length (a_arena o))) in Hj by lia. rewrite G4 in Hj. destruct (Hnew _ _ Hj) as (A & _).
      replace (List.length (a_arena o) + (j - List.length (a_arena o))) with j in A by lia. exact A.
  - rewrite Hq in D. inversion D as [|? ? D1 D2]; subst. rewrite Hq'. destruct Hext as [->|[-> _]].
    + assert (Ql : forall j, In j q0 -> j < List.length (a_arena o)) by (intros j Hj; destruct (Q j) as (x & Hx & _); [rewrite Hq; now right|exact (nth_error_lt _ _ _ Hx)]).
      clear - D2 Ql. induction D2 as [|j l Hj D IH]; cbn [app]; [apply seq_NoDup|]. constructor; [|apply IH; intros k Hk; apply Ql; now right].
      intros I. apply in_app_or in I. destruct I as [I|I]; [contradiction|]. apply in_seq in I. pose proof (Ql j (or_introl eq_refl)). lia.
    + clear - D1 D2. induction D2 as [|j l Hj D IH]; cbn [app]; [constructor; [auto|constructor]|]. constructor; [|apply IH; intros H; apply D1; now right].
      intros I. apply in_app_or in I. destruct I as [I|[->|[]]]; [contradiction|]. apply D1. now left.
  - rewrite Hq in D. inversion D as [|? ? D1 D2]; subst. intros j Hj. rewrite Hq' in Hj. apply in_app_or in Hj. destruct Hj as [Hj|Hj].
    + destruct (Q j) as (x & Hx & Hs); [rewrite Hq; now right|]. exists x. split; [|exact Hs]. rewrite G3; [exact Hx|exact (nth_error_lt _ _ _ Hx)|]. intros ->. contradiction.
    + destruct Hext as [->|[-> Hs]].
      * apply in_seq in Hj. destruct Hj as [J1 J2]. destruct (nth_error new (j - List.length (a_arena o))) as [x|] eqn:Ex; [|apply nth_error_None in Ex; lia].
        exists x. split; [|exact (proj2 (proj2 (Hnew _ _ Ex)))]. rewrite <- Ex, <- G4. f_equal. lia.
      * destruct Hj as [<-|[]]. eauto.
  - intros j x Hj k Hk'. rewrite G2. destruct (Nat.lt_ge_cases j (List.length (a_arena o))) as [L|L].
    + destruct (Nat.eq_dec j id) as [->|E]; [rewrite G1 in Hj; injection Hj as <-; now apply Hk|]. rewrite G3 in Hj by assumption. pose proof (K _ _ Hj _ Hk'). lia.
    + replace j with (List.length (a_arena o) + (j - List.length (a_arena o))) in Hj by lia. rewrite G4 in Hj. destruct (Hnew _ _ Hj) as (_ & A & _). rewrite A in Hk'. contradiction.
Qed.
Lemma forall2_nth {A B} (R : A -> B -> Prop) l k : Forall2 R l k -> forall i x, nth_error l i = Some x -> exists y, nth_error k i = Some y /\ R x y.
Proof. induction 1 as [|x y l k Rxy F IH]; intros [|i] z E; try discriminate E; [injection E as <-; exists y; auto|exact (IH i z E)]. Qed.
Lemma forall2_size {A B} (R : A -> B -> Prop) l k : Forall2 R l k -> List.length l = List.length k.
Proof. induction 1; cbn; auto. Qed.
Lemma local_put is : forallb is_put is = true -> forallb is_local is = true.
Proof. induction is as [|i is IH]; [reflexivity|]. cbn. intros E. apply andb_prop in E. destruct E as [E1 E2]. rewrite IH by exact E2. destruct i; try discriminate E1; reflexivity. Qed.

Lemma src_case gs c cs : src_at gs (c :: cs) -> (exists g gs', gs = g :: gs' /\ goal_at g c /\ src_at gs' cs) \/ (c = (dealloc_atom, None) /\ src_at gs cs).
Proof. intros H. inversion H; subst; [left; eauto|now right]. Qed.
Variable cf : cfg.
Variable fuel : nat.
Lemma turn_tree_at q W o r o' : tree_at P q W o -> table_tells P (a_prog o) -> turn_at cf fuel o = Val (r, o') ->
  exists W', tree_at P q W' o' /\ a_prog o' = a_prog o /\ a_built o' = a_built o.
Proof.
  intros HT TP E. destruct (a_queue o) as [|id q0] eqn:Hq; [unfold turn_at in E; rewrite Hq in E; injection E as _ <-; eauto|].
  destruct (ta_queue _ _ _ _ HT id) as (e & He & Hs); [rewrite Hq; now left|]. pose proof (nth_error_lt _ _ _ He) as Lt.
  pose proof (ta_node _ _ _ _ HT id e He) as [Hf Hc]. destruct Hc as [(_ & Hkids & Hat)|(N & _)]; [|contradiction].
  destruct (y_codes e) as [|p ps] eqn:Hcodes; [exfalso; unfold turn_at in E; rewrite Hq in E; unfold get_at in E; cbn in E; rewrite He in E; cbn in E; rewrite Hcodes in E; discriminate E|].
  cbn [atoms_of map] in Hat. fold (atoms_of ps) in Hat. set (c := (cp_atom (fst p), snd p)) in *.
  assert (Base : forall is ctl, ca_code (fst c) = is ++ [ctl] -> forallb is_local is = true -> is_local ctl = false ->
    exists e' new, grown o o' id e' new /\ turned o o' id q0 e e' p ps is ctl new).
  { intros is ctl H1 H2 H3. exact (turn_turned cf fuel o id q0 e p ps is ctl r o' Hq He Hcodes H1 H2 H3 E). }
  unfold fits in Hf. destruct (k_head (W id)) eqn:Eh.
  - (* the head of a clause *)
    destruct Hf as (rl & rest & Ek & (h & body & ha & cs & Ecl & -> & Hh & Hb) & Hg). rewrite Ek in Hat. cbn [app] in Hat. injection Hat as Hc1 Hc2.
    assert (Hsrc : src_at (body ++ k_goals (W id)) (atoms_of ps)) by (rewrite Hc2; now apply sa_app). pose proof Hh as (Hi & is & Hcode & Hl).
    assert (Hh' : head_at h c) by (rewrite Hc1; exact Hh).
    destruct (Base is IProceed) as (e' & new & G & T); [rewrite Hc1; exact Hcode|exact Hl|reflexivity|]. pose proof (gr_prog _ _ _ _ _ G) as Gp. pose proof (gr_built _ _ _ _ _ G) as Gb.
    assert (Cod : k_codes (W id) = c :: cs ++ rest) by (rewrite Ek; cbn [app]; now rewrite Hc1).
    assert (Up : forall x, gave_up e e' -> new = [] -> a_queue o' = q0 ++ x -> x = [] -> exists W', tree_at P q W' o' /\ a_prog o' = a_prog o /\ a_built o' = a_built o).
    { intros x (U1 & U2 & U3 & U4 & U5) -> Qx ->. eexists. split; [|auto]. apply (tree_grown q q0 W o o' id e e' [] (W id) [] [] HT Hq He G (same_refl _)); auto.
      - split; rewrite newer_at by exact Lt; [unfold fits; rewrite Eh; exists (ha :: cs), rest; csplit; auto; exists h, body, ha, cs; auto|]. right. split; [exact U3|]. exists c, (cs ++ rest). csplit; [exact Cod|rewrite U1, Hcodes; reflexivity|].
        eapply ed_failed; eauto. now rewrite U2.
      - intros k x Hx. destruct k; discriminate Hx.
      - rewrite U2, Hkids. intros k []. }
    destruct T as [T0 T1 T2|f T1 T2 T3 T4|f rs new T1 T2 T3 T4 T5 T6 T7|T1 T2 T3 T4 T5 T6|x T1 T2 T3 T4 T5 T6 T7|T1 T2 T3 T4 T5]; try discriminate T1.
    + apply (Up [] T1 eq_refl); [now rewrite app_nil_r|reflexivity].
    + apply (sa_done _ _ Hsrc) in T2. apply app_eq_nil in T2. destruct T2 as [-> Eg]. eexists. split; [|auto].
      apply (tree_grown q q0 W o o' id e e' [] (W id) [] [] HT Hq He G (same_refl _)); auto.
      * split; rewrite newer_at by exact Lt; [unfold fits; rewrite Eh; exists (ha :: cs), rest; csplit; auto; exists h, [], ha, cs; auto|]. right. split; [rewrite T4; discriminate|]. exists c, (cs ++ rest). csplit; [exact Cod|rewrite T3; reflexivity|].
        eapply ed_done; eauto. now rewrite T5.
      * intros k x Hx. destruct k; discriminate Hx.
      * rewrite T5, Hkids. intros k [].
      * rewrite T6. symmetry. apply app_nil_r.
    + assert (Ne : body ++ k_goals (W id) <> []) by (intros E0; apply (sa_done _ _ Hsrc) in E0; congruence).
      set (wn := {| k_head := false; k_clause := []; k_goals := body ++ k_goals (W id); k_codes := atoms_of ps |}).
      eexists. split; [|auto]. apply (tree_grown q q0 W o o' id e e' [x] (W id) [wn] [List.length (a_arena o)] HT Hq He G (same_refl _)); auto.
      * split; rewrite newer_at by exact Lt; [unfold fits; rewrite Eh; exists (ha :: cs), rest; csplit; auto; exists h, body, ha, cs; auto|]. right. split; [rewrite T4; discriminate|]. exists c, (cs ++ rest). csplit; [exact Cod|rewrite T3; reflexivity|].
        assert (Wn : newer W id (W id) (List.length (a_arena o)) [wn] (List.length (a_arena o)) = wn) by (rewrite <- (Nat.add_0_r (List.length (a_arena o))) at 2; apply newer_new; reflexivity).
        eapply (ed_next P _ _ e' c h body (List.length (a_arena o))); eauto; [now rewrite T5, Hkids|now rewrite Wn|now rewrite Wn].
      * intros k y Hy. destruct k as [|[|k]]; try discriminate Hy. injection Hy as <-. destruct T6 as (B1 & B2 & B3). split; [|split; assumption].
        split; rewrite (newer_new _ _ _ _ [wn] 0 wn) by reflexivity; [split; [exact Hsrc|exact Ne]|]. left. auto.
      * rewrite T5, Hkids. intros k [<-|[]]. cbn. lia.
  - (* a goal *)
    destruct Hf as [Hsrc Hne]. rewrite <- Hat in Hsrc. destruct (src_case _ _ _ Hsrc) as [(g & gs & E1 & Ga & Ss)|(E2 & Ss)].
    + pose proof Ga as (Hi & Hd & is & Hcode & Hl). destruct (Base is _ Hcode (local_put _ Hl) eq_refl) as (e' & new & G & T). pose proof (gr_prog _ _ _ _ _ G) as Gp. pose proof (gr_built _ _ _ _ _ G) as Gb.
      assert (Fi : fits (W id)) by (unfold fits; rewrite Eh, <- Hat; split; [exact Hsrc|exact Hne]).
      destruct T as [T0 T1 T2|f T1 T2 T3 T4|f rs new T1 T2 T3 T4 T5 T6 T7|T1 T2 T3 T4 T5 T6|x T1 T2 T3 T4 T5 T6 T7|T1 T2 T3 T4 T5]; try discriminate T1.
      * congruence.
      * injection T1 as <-. destruct T3 as (U1 & U2 & U3 & U4 & U5). eexists. split; [|auto]. apply (tree_grown q q0 W o o' id e e' [] (W id) [] [] HT Hq He G (same_refl _)); auto.
        -- split; rewrite newer_at by exact Lt; [exact Fi|]. right. split; [exact U3|]. exists c, (atoms_of ps). csplit; [symmetry; exact Hat|rewrite U1, Hcodes; reflexivity|].
           eapply ed_unknown; eauto; [|now rewrite U2]. specialize (TP (to_fview (fst g))). now rewrite T2 in TP.
        -- intros k x Hx. destruct k; discriminate Hx.
        -- rewrite U2, Hkids. intros k [].
        -- rewrite T4. symmetry. apply app_nil_r.
      * injection T1 as <-. pose proof (TP (to_fview (fst g))) as Tr. rewrite T2 in Tr.
        set (mk := fun (cl : list pgoal) (r : code_at) => {| k_head := true; k_clause := cl; k_goals := gs; k_codes := r ++ atoms_of ps |}).
        set (ws := map (fun x => mk (fst x) (snd x)) (combine (clauses_at P (to_fview (fst g))) rs)).
        assert (Lc : List.length (clauses_at P (to_fview (fst g))) = List.length rs) by exact (forall2_size _ _ _ Tr). assert (Ln : List.length new = List.length rs) by exact (forall2_size _ _ _ T6).
        assert (Lw : List.length ws = List.length new) by (unfold ws; rewrite map_length, combine_length; lia).
        assert (Wk : forall k r, nth_error rs k = Some r -> exists cl, nth_error (clauses_at P (to_fview (fst g))) k = Some cl /\ clause_at cl r /\ nth_error ws k = Some (mk cl r)).
        { unfold ws. clear - Tr. induction Tr as [|cl r cls rs Hr F IH]; intros [|k] r0 Hk; try discriminate Hk; [injection Hk as <-; exists cl; auto|exact (IH k r0 Hk)]. }
        eexists. split; [|auto]. apply (tree_grown q q0 W o o' id e e' new (W id) ws (seq (List.length (a_arena o)) (List.length new)) HT Hq He G (same_refl _)); auto.
        -- split; rewrite newer_at by exact Lt; [exact Fi|]. right. split; [rewrite T4; discriminate|]. exists c, (atoms_of ps). csplit; [symmetry; exact Hat|rewrite T3; reflexivity|].
           eapply ed_called; eauto. rewrite T5, Hkids, Ln, <- Lc. cbn [app]. apply forall2_seq. intros k cl Hk.
           destruct (nth_error rs k) as [r0|] eqn:Er; [|apply nth_error_None in Er; pose proof (nth_error_lt _ _ _ Hk); lia].
           destruct (Wk k r0 Er) as (cl' & C1 & C2 & C3). rewrite Hk in C1. injection C1 as <-. rewrite (newer_new _ _ _ _ ws k (mk cl r0)) by exact C3. auto.
        -- intros k x Hx. destruct (forall2_nth _ _ _ T6 k x Hx) as (r0 & Er & B1 & B2 & B3). destruct (Wk k r0 Er) as (cl & C1 & C2 & C3). split; [|split; assumption].
           split; rewrite (newer_new _ _ _ _ ws k (mk cl r0)) by exact C3; [exists r0, (atoms_of ps); cbn; csplit; auto|]. left. auto.
        -- rewrite T5, Hkids. cbn [app]. intros k Hk. apply in_seq in Hk. lia.
    + assert (Ec : ca_code (fst c) = [] ++ [IDealloc]) by (rewrite E2; reflexivity). destruct (Base [] IDealloc Ec eq_refl eq_refl) as (e' & new & G & T). pose proof (gr_prog _ _ _ _ _ G) as Gp. pose proof (gr_built _ _ _ _ _ G) as Gb.
      destruct T as [T0 T1 T2|f T1 T2 T3 T4|f rs new T1 T2 T3 T4 T5 T6 T7|T1 T2 T3 T4 T5 T6|x T1 T2 T3 T4 T5 T6 T7|T1 T2 T3 T4 T5]; try discriminate T1; try discriminate T0.
      set (wn := {| k_head := k_head (W id); k_clause := k_clause (W id); k_goals := k_goals (W id); k_codes := atoms_of ps |}).
      eexists. split; [|auto]. apply (tree_grown q q0 W o o' id e e' [] wn [] [id] HT Hq He G); auto.
      * unfold wn. split; auto.
      * split; rewrite newer_at by exact Lt; [unfold fits, wn; cbn; rewrite Eh; split; [exact Ss|exact Hne]|]. left. rewrite T2, T3, T4. auto.
      * intros k x Hx. destruct k; discriminate Hx.
      * rewrite T4, Hkids. intros k [].
      * right. split; [reflexivity|]. now rewrite T3.
Qed.
End Inv.
