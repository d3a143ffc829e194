(** Compilation with the positions: what is recorded with the compiled atoms and rules, and what an error carries. *)
From Verif Require Import Base Machine Heap Facts Compiler Parser ParserFacts Texts Grammar Organizer Examples Spec Print Valuation Process Turn Shape Session Code Put Search PutRun Get Alloc Atoms Clause Parsed Flat Loads Roundtrip Exprs Language Positions.
Open Scope string_scope.
Open Scope list_scope.

(** A compiler::error that is thrown carries the code_info of an atom. *)
Inductive ares (A : Type) := AOk (a : A) | AErr (e : cerr) (i : info) | AEsc.
Arguments AOk {A}. Arguments AErr {A}. Arguments AEsc {A}.
Definition acomp (A : Type) := storage -> ares A * storage.
Definition aret {A} (a : A) : acomp A := fun s => (AOk a, s).
Definition abind {A B} (m : acomp A) (f : A -> acomp B) : acomp B :=
  fun s => match m s with
           | (AOk a, s') => f a s'
           | (AErr e i, s') => (AErr e i, s')
           | (AEsc, s') => (AEsc, s')
           end.
Notation "x <@ m ;; k" := (abind m (fun x => k)) (at level 61, m at next level, right associativity).
Notation "' p <@ m ;; k" := (abind m (fun x => let p := x in k))
  (at level 61, p pattern, m at next level, right associativity).
(** what is thrown while the instructions of the atom with the info [i] are made: undefined_var.cpp 18-22 *)
Definition for_atom {A} (i : info) (m : comp A) : acomp A :=
  fun s => match m s with
           | (COk a, s') => (AOk a, s')
           | (CErr e, s') => (AErr e i, s')
           | (CEsc, s') => (AEsc, s')
           end.

(** compiled_atom.h 20-35 with code_info; None: the lines are not initialised (source_code_info.h 19) *)
Definition catom_at := (catom * option info)%type.
(** rule.h 11-14 with _code_info *)
Definition rule_at := (info * list catom_at)%type.

(** compiler.cpp 429-453 *)
Definition compile_query_atom_at (perm : string -> option nat) (pre : list instr) (user : bool)
  (n : node * info) (seen : list sreg) : acomp (catom_at * list sreg) :=
  '(a, s) <@ for_atom (snd n) (compile_query_atom perm pre user (fst n) seen) ;;
  aret ((a, Some (snd n)), s).
Fixpoint compile_query_atoms_at (perm : string -> option nat) (pre : list instr) (user : bool)
  (ns : list (node * info)) (seen : list sreg) : acomp (list catom_at) :=
  match ns with
  | [] => aret []
  | n :: ns' =>
      '(a, s) <@ compile_query_atom_at perm pre user n seen ;;
      r <@ compile_query_atoms_at perm [] user ns' s ;;
      aret (a :: r)
  end.
(** compiler.cpp 393-427, after parsing; the _code_info of the rule stays uninitialised *)
Definition compile_query_at (cf : cfg) (atoms : list (node * info)) : acomp (list catom_at) :=
  let ps := perm_order cf (map fst atoms) false in
  compile_query_atoms_at (fun s => pos_of s ps) (alloc_code (List.length ps)) true atoms [].

(** compiler.cpp 487-585 *)
Definition compile_program_term_at (cf : cfg) (built_in : bool) (atoms : list (node * info)) : acomp (fview * list catom_at) :=
  match atoms with
  | [] => fun s => (AEsc, s)
  | (h, hi) :: body =>
      let ps := perm_order cf (map fst atoms) true in
      let perm := fun s => pos_of s ps in
      let np := List.length ps in
      if negb built_in && redefines h then (fun s => (AErr CRedef hi, s)) (* redefinition_of_built_in_pred.cpp 11-16 *)
      else
        let '(ha, oba, cnt) :=
          match body with
          | [] => let '(ha, c) := assign_one h in (ha, None, c)
          | b :: _ => let '(ha, ba, c) := assign_two h (fst b) in (ha, Some (ba, snd b), c)
          end in
        '(hc, s1) <@ for_atom hi (to_program perm ha []) ;;
        let s2 := erase_head_regs ha s1 in
        let hatom := {| ca_regs := cnt; ca_code := alloc_code np ++ hc;
                        ca_subs := find_var_reg_substitutions perm ha;
                        ca_node := h; ca_user := false |} in
        '(firsts, s3) <@ (match oba with
                          | None => aret ([], s2)
                          | Some (ba, bi) =>
                              '(bc, s3) <@ for_atom bi (to_query perm ba s2) ;;
                              aret ([({| ca_regs := cnt; ca_code := bc;
                                        ca_subs := find_var_reg_substitutions perm ba;
                                        ca_node := aa_top ba; ca_user := false |}, Some bi)], s3)
                          end) ;;
        others <@ compile_query_atoms_at perm [] false (tl body) (remove_x_a_regs s3) ;;
        aret (to_fview h, (hatom, Some hi) :: firsts ++ others ++ (if Nat.eqb np 0 then [] else [(dealloc_atom, None)]))
  end.

Definition prog_at := list (fview * list rule_at).
Fixpoint plookup_at (f : fview) (p : prog_at) : option (list rule_at) :=
  match p with
  | [] => None
  | (g, rs) :: p' => if fview_eqb f g then Some rs else plookup_at f p'
  end.
Fixpoint padd_at (f : fview) (r : rule_at) (p : prog_at) : prog_at :=
  match p with
  | [] => [(f, [r])]
  | (g, rs) :: p' => if fview_eqb f g then (g, rs ++ [r]) :: p' else (g, rs) :: padd_at f r p'
  end.
(** compiler.cpp 467-484 *)
Fixpoint compile_clauses_at (cf : cfg) (built_in : bool) (cs : list (info * list (node * info))) (p : prog_at) : acomp prog_at :=
  match cs with
  | [] => aret p
  | (i, c) :: cs' =>
      '(f, r) <@ compile_program_term_at cf built_in c ;;
      compile_clauses_at cf built_in cs' (padd_at f (i, r) p)
  end.

(** --- the positions change nothing of the rest --- *)
Definition forget {A B} (f : A -> B) (x : ares A * storage) : cres B * storage :=
  (match fst x with AOk a => COk (f a) | AErr e _ => CErr e | AEsc => CEsc end, snd x).
Lemma for_atom_erased {A} i (m : comp A) s : forget (fun a => a) (for_atom i m s) = m s.
Proof. unfold for_atom, forget. destruct (m s) as [[a|e|] s']; reflexivity. Qed.
Lemma query_atoms_erased perm u ns : forall pre seen s,
  forget (map fst) (compile_query_atoms_at perm pre u ns seen s) = compile_query_atoms perm pre u (map fst ns) seen s.
Proof.
  induction ns as [|[n i] ns IH]; intros pre seen s; [reflexivity|]. cbn [compile_query_atoms_at compile_query_atoms map fst].
  unfold compile_query_atom_at, abind, cbind at 1, for_atom. cbn [fst snd]. destruct (compile_query_atom perm pre u n seen s) as [[[a s1]|e|] s2]; try reflexivity.
  cbv beta iota delta [aret]. specialize (IH [] s1 s2). unfold cbind. rewrite <- IH. destruct (compile_query_atoms_at perm [] u ns s1 s2) as [[l|e j|] s3]; reflexivity.
Qed.
Theorem compile_query_erased cf ns s : forget (map fst) (compile_query_at cf ns s) = compile_query cf (map fst ns) s.
Proof. apply query_atoms_erased. Qed.
Lemma clause_at_erased cf bi c s :
  forget (fun x => (fst x, map fst (snd x))) (compile_program_term_at cf bi c s) = compile_program_term cf bi (map fst c) s.
Proof.
  destruct c as [|[h hi] body]; [reflexivity|]. cbn [compile_program_term_at compile_program_term map fst].
  set (ps := perm_order cf (h :: map fst body) true). set (perm := fun s0 => pos_of s0 ps). destruct (negb bi && redefines h); [reflexivity|].
  destruct body as [|[b bi'] bs]; cbn [map fst snd tl].
  - destruct (assign_one h) as [ha cnt]. unfold abind, cbind, for_atom. destruct (to_program perm ha [] s) as [[[hc s1]|e|] t]; try reflexivity.
    cbn. destruct (Nat.eqb (List.length ps) 0); reflexivity.
  - destruct (assign_two h b) as [[ha ba] cnt]. unfold abind, cbind, for_atom. destruct (to_program perm ha [] s) as [[[hc s1]|e|] t]; try reflexivity.
    cbv beta iota. destruct (to_query perm ba (erase_head_regs ha s1) t) as [[[bc s3]|e|] t3]; try reflexivity. cbv beta iota delta [aret cret].
    rewrite <- (query_atoms_erased perm false bs [] (remove_x_a_regs s3) t3). destruct (compile_query_atoms_at perm [] false bs (remove_x_a_regs s3) t3) as [[l|e j|] s4]; try reflexivity.
    unfold forget. cbn [fst snd map app]. rewrite !map_app. destruct (Nat.eqb (List.length ps) 0); reflexivity.
Qed.
Definition plain_prog (p : prog_at) : prog := map (fun e => (fst e, map (fun r => map fst (snd r)) (snd e))) p.
Lemma padd_erased f i r p : plain_prog (padd_at f (i, r) p) = padd f (map fst r) (plain_prog p).
Proof.
  induction p as [|[g rs] p IH]; [reflexivity|]. cbn. destruct (fview_eqb f g); cbn; [now rewrite map_app|]. f_equal. exact IH.
Qed.
Theorem clauses_erased cf bi cs : forall p s,
  forget plain_prog (compile_clauses_at cf bi cs p s) = compile_clauses cf bi (map (fun c => map fst (snd c)) cs) (plain_prog p) s.
Proof.
  induction cs as [|[i c] cs IH]; intros p s; [reflexivity|]. cbn [compile_clauses_at compile_clauses map snd]. unfold cbind. rewrite <- (clause_at_erased cf bi c s). unfold abind.
  destruct (compile_program_term_at cf bi c s) as [[[f r]|e j|] s1]; try reflexivity. rewrite IH, padd_erased. reflexivity.
Qed.

(** --- what is recorded --- *)
Definition source_of (r : rule_at) : info * list (node * option info) := (fst r, map (fun a => (ca_node (fst a), snd a)) (snd r)).
Definition end_mark : node * option info := (NCon "DEALLOCATE", None).
(** a rule carries the position of its clause, its atoms those of the atoms of the clause in order; there may be one more atom at the end *)
Definition stems (c : info * list (node * info)) (r : rule_at) : Prop :=
  fst r = fst c /\ exists l, map (fun a => (ca_node (fst a), snd a)) (snd r) = map (fun a => (fst a, Some (snd a))) (snd c) ++ l /\ (l = [] \/ l = [end_mark]).
Lemma query_atoms_sources perm u ns : forall pre seen s l s', compile_query_atoms_at perm pre u ns seen s = (AOk l, s') ->
  map (fun a => (ca_node (fst a), snd a)) l = map (fun a => (fst a, Some (snd a))) ns.
Proof.
  induction ns as [|[n i] ns IH]; intros pre seen s l s' E; cbn [compile_query_atoms_at] in E; [injection E as <- _; reflexivity|].
  unfold compile_query_atom_at, abind, for_atom in E. cbn [fst snd] in E. unfold compile_query_atom in E. destruct (assign_one n) as [a cnt]. unfold cbind in E.
  destruct (to_query perm a seen s) as [[[c s0]|e|] s2]; try discriminate E. cbv beta iota delta [aret cret] in E.
  destruct (compile_query_atoms_at perm [] u ns (remove_x_a_regs s0) s2) as [[r|e j|] s3] eqn:E1; try discriminate E. injection E as <- _. cbn. f_equal. exact (IH _ _ _ _ _ E1).
Qed.
Lemma clause_sources cf bi i c s f r s' : compile_program_term_at cf bi c s = (AOk (f, r), s') -> stems (i, c) (i, r) /\ exists h hi b, c = (h, hi) :: b /\ f = to_fview h.
Proof.
  destruct c as [|[h hi] body]; [discriminate|]. cbn [compile_program_term_at map fst]. set (ps := perm_order cf (h :: map fst body) true). set (perm := fun s0 => pos_of s0 ps).
  destruct (negb bi && redefines h); [discriminate|]. intros E. split; [|exists h, hi, body; split; [reflexivity|]].
  - split; [reflexivity|]. exists (if Nat.eqb (List.length ps) 0 then [] else [end_mark]). split; [|destruct (Nat.eqb (List.length ps) 0); auto]. cbn [snd].
    destruct body as [|[b bi'] bs]; cbn [map fst snd tl] in *.
    + destruct (assign_one h) as [ha cnt]. unfold abind, for_atom in E. destruct (to_program perm ha [] s) as [[[hc s1]|e|] t]; try discriminate E. cbn in E.
      injection E as _ <- _. cbn. destruct (Nat.eqb (List.length ps) 0); reflexivity.
    + pose proof (assign_two_top h b) as Et. destruct (assign_two h b) as [[ha ba] cnt]. unfold abind, for_atom in E. destruct (to_program perm ha [] s) as [[[hc s1]|e|] t]; try discriminate E.
      cbv beta iota in E. destruct (to_query perm ba (erase_head_regs ha s1) t) as [[[bc s3]|e|] t3]; try discriminate E. cbv beta iota delta [aret] in E.
      destruct (compile_query_atoms_at perm [] false bs (remove_x_a_regs s3) t3) as [[l|e j|] s4] eqn:E1; try discriminate E. injection E as _ <- _.
      pose proof (query_atoms_sources _ _ _ _ _ _ _ _ E1) as Es. rewrite <- Es. cbn [map fst snd ca_node app]. rewrite Et, map_app. destruct (Nat.eqb (List.length ps) 0); reflexivity.
  - destruct body as [|[b bi'] bs]; cbn [map fst snd tl] in *.
    + destruct (assign_one h) as [ha cnt]. unfold abind, for_atom in E. destruct (to_program perm ha [] s) as [[[hc s1]|e|] t]; try discriminate E. cbn in E. now injection E as <- _ _.
    + destruct (assign_two h b) as [[ha ba] cnt]. unfold abind, for_atom in E. destruct (to_program perm ha [] s) as [[[hc s1]|e|] t]; try discriminate E.
      cbv beta iota in E. destruct (to_query perm ba (erase_head_regs ha s1) t) as [[[bc s3]|e|] t3]; try discriminate E. cbv beta iota delta [aret] in E.
      destruct (compile_query_atoms_at perm [] false bs (remove_x_a_regs s3) t3) as [[l|e j|] s4]; try discriminate E. now injection E as <- _ _.
Qed.
Definition head_is (f : fview) (c : info * list (node * info)) : bool := match snd c with (h, _) :: _ => fview_eqb f (to_fview h) | [] => false end.
Definition rules_for (f : fview) (p : prog_at) : list rule_at := match plookup_at f p with Some rs => rs | None => [] end.
Lemma lookup_padd_at f g r p : rules_for f (padd_at g r p) = if fview_eqb f g then rules_for g p ++ [r] else rules_for f p.
Proof.
  unfold rules_for. induction p as [|[k rs] p IH]; cbn.
  - destruct (fview_eqb f g); reflexivity.
  - destruct (fview_eqb g k) eqn:Egk; cbn.
    + apply fview_eqb_eq in Egk. subst k. destruct (fview_eqb f g) eqn:Efg; reflexivity.
    + destruct (fview_eqb f k) eqn:Efk; [|exact IH].
      apply fview_eqb_eq in Efk. subst k. rewrite (proj2 (fview_eqb_neq f g)); [reflexivity|].
      intros ->. now rewrite fview_eqb_refl in Egk.
Qed.
Theorem clauses_sources cf bi cs : forall p s q s', compile_clauses_at cf bi cs p s = (AOk q, s') ->
  forall f, exists rs, rules_for f q = rules_for f p ++ rs /\ Forall2 stems (filter (head_is f) cs) rs.
Proof.
  induction cs as [|[i c] cs IH]; intros p s q s' E f; cbn [compile_clauses_at] in E; [injection E as <- _; exists []; split; [now rewrite app_nil_r|constructor]|].
  unfold abind in E. destruct (compile_program_term_at cf bi c s) as [[[g r]|e j|] s1] eqn:E1; try discriminate E.
  destruct (clause_sources cf bi i c s g r s1 E1) as (St & h & hi & b & -> & ->).
  destruct (IH _ _ _ _ E f) as (rs & E2 & F). rewrite lookup_padd_at in E2. cbn [filter head_is snd]. unfold head_is at 1. cbn [snd]. destruct (fview_eqb f (to_fview h)) eqn:Ef.
  - apply fview_eqb_eq in Ef. subst f. exists ((i, r) :: rs). split; [rewrite E2, <- app_assoc; reflexivity|]. constructor; assumption.
  - exists rs. split; assumption.
Qed.

(** --- errors --- *)
Section Goals.
Variable perm : string -> option nat.
Hypothesis perm_inj : forall s t y, perm s = Some y -> perm t = Some y -> s = t.
(** the first goal with an expression over a variable that is not in [D], in no earlier goal and shown by no node compiled before *)
Definition culprit (D : string -> Prop) (ns : list (node * info)) (i : info) : Prop :=
  exists q1 n q2, ns = q1 ++ (n, i) :: q2 /\ unseen_in (fun v => D v \/ occ v (map fst q1)) n /\ ~ unseen_goal D (map fst q1).
Lemma culprit_cons D n j ns i : ~ unseen_in D n -> culprit (fun v => D v \/ In v (vars_of n)) ns i -> culprit D ((n, j) :: ns) i.
Proof.
  intros U (q1 & m & q2 & -> & H & K). exists ((n, j) :: q1), m, q2. split; [reflexivity|]. cbn [map fst]. split.
  - eapply unseen_goal_ext; [|exact H]. intros v. cbn beta. rewrite occ_cons. tauto.
  - rewrite unseen_cons. tauto.
Qed.
Lemma goals_load_at u ns : forall pre D seen s,
  (forall ns1 n ns2 v, map fst ns = ns1 ++ n :: ns2 -> In v (vars_of n) -> perm v = None -> ~ D v /\ ~ occ v ns1) ->
  no_x seen -> (forall v y, perm v = Some y -> (seen_in (SY y) seen = true <-> D v)) ->
  match fst (compile_query_atoms_at perm pre u ns seen s) with AErr e i => e = CNotInst /\ culprit D ns i | _ => True end.
Proof.
  induction ns as [|[n i] ns IH]; intros pre D seen s Ht Hx Hy; [exact I|]. cbn [compile_query_atoms_at]. unfold compile_query_atom_at, compile_query_atom. cbn [fst snd]. destruct (assign_one n) as [a cnt] eqn:Ea.
  pose proof (goal_seen perm perm_inj n a cnt D seen Ea) as K. specialize (K ltac:(intros v Hv Hp; apply (Ht [] n (map fst ns) v); auto) Hx Hy).
  pose proof (to_query_R perm a seen s) as Q. unfold abind, for_atom, cbind. destruct (to_query perm a seen s) as [[[c seen']|e|] s1]; cbn in Q; [| |exact I].
  - rewrite Q in K. destruct K as [K1 K2]. cbv beta iota delta [aret cret].
    specialize (IH [] (fun v => D v \/ In v (vars_of n)) (remove_x_a_regs seen') s1).
    assert (I0 : match fst (compile_query_atoms_at perm [] u ns (remove_x_a_regs seen') s1) with AErr e i => e = CNotInst /\ culprit (fun v => D v \/ In v (vars_of n)) ns i | _ => True end).
    { apply IH.
      - intros ns1 m ns2 v Em Hv Hp. destruct (Ht (n :: ns1) m ns2 v) as [A B]; auto; [cbn; now rewrite Em|]. rewrite occ_cons in B. tauto.
      - apply no_x_remove.
      - intros v y Hp. rewrite <- (K2 v y Hp). unfold remove_x_a_regs, seen_in. rewrite !existsb_exists. split; intros (r & Hr & E); exists r; (split; [|exact E]).
        + apply filter_In in Hr. apply Hr.
        + apply filter_In. split; [exact Hr|]. destruct r; [discriminate E|reflexivity]. }
    destruct (compile_query_atoms_at perm [] u ns (remove_x_a_regs seen') s1) as [[r|e j|] s2]; cbn in I0 |- *; try exact I. split; [apply I0|]. apply culprit_cons; [exact K1|apply I0].
  - destruct Q as [-> Q]. rewrite Q in K. split; [reflexivity|]. exists [], n, ns. split; [reflexivity|]. split.
    + eapply unseen_goal_ext; [|exact K]. intros v. split; [intros [H|H]; [exact H|elim (occ_nil v H)]|auto].
    + intros (q1 & m & q2 & E & _). destruct q1; discriminate E.
Qed.
End Goals.
Theorem compile_query_culprit cf q s e i s' : ord_ok cf -> compile_query_at cf q s = (AErr e i, s') -> e = CNotInst /\ culprit (fun _ => False) q i.
Proof.
  intros O E. pose proof (goals_load_at (fun s => pos_of s (perm_order cf (map fst q) false)) (fun a b y => permof_inj cf (map fst q) false a b y) true q (alloc_code (List.length (perm_order cf (map fst q) false))) (fun _ => False) [] s) as K.
  unfold compile_query_at in E. rewrite E in K. apply K.
  - intros ns1 n ns2 v Em Hv Hp. split; [tauto|]. destruct ns1 as [|n0 ns1]; [apply occ_nil|]. cbn [app] in Em. rewrite Em in Hp. exact (temp_query cf n0 ns1 n ns2 v O Hp Hv).
  - intros x. reflexivity.
  - intros v y _. cbn. split; [discriminate|tauto].
Qed.

(** the atom with the info [i] has an expression over a variable that occurs neither in the head nor in an earlier goal *)
Definition free_at (c : list (node * info)) (i : info) : Prop :=
  exists h b1 n b2 e v, c = h :: b1 ++ (n, i) :: b2 /\ sub e n /\ is_ev e = true /\ sub (NVar v) e /\ ~ occ v (map fst (h :: b1)).
Theorem clause_culprit cf bi c s e i s' : ord_ok cf -> compile_program_term_at cf bi c s = (AErr e i, s') ->
  (bi = false /\ e = CRedef /\ exists h b, c = (h, i) :: b /\ redefines h = true) \/ (e = CNotInst /\ free_at c i).
Proof.
  intros O. destruct c as [|[h hi] body]; [discriminate|]. cbn [compile_program_term_at map fst]. set (ps := perm_order cf (h :: map fst body) true). set (perm := fun s0 => pos_of s0 ps).
  destruct (negb bi && redefines h) eqn:R.
  { intros E. injection E as <- <- _. left. apply andb_true_iff in R. destruct R as [R1 R2]. split; [now destruct bi|]. split; [reflexivity|]. exists h, body. auto. }
  assert (PI : forall s t y, perm s = Some y -> perm t = Some y -> s = t) by exact (permof_inj cf (h :: map fst body) true).
  intros E. right. destruct body as [|[b bi'] bs]; cbn [map fst snd tl] in *.
  - destruct (assign_one h) as [ha cnt]. unfold abind, for_atom in E. pose proof (to_program_R perm ha [] s) as E1.
    destruct (to_program perm ha [] s) as [[[hc s1]|e1|] t]; cbn in E1, E; try discriminate E. destruct E1 as [_ E1]. discriminate E1.
  - destruct (assign_two h b) as [[ha ba] cnt] eqn:E2. unfold abind, for_atom in E. pose proof (to_program_R perm ha [] s) as E1.
    destruct (to_program perm ha [] s) as [[[hc s1]|e1|] t1]; cbn in E1; try discriminate E; [|destruct E1 as [_ E1]; discriminate E1].
    injection E1 as <-. pose proof (first_load perm h b ha ba cnt PI E2) as K. cbv zeta in K. cbv beta iota in E.
    pose proof (to_query_R perm ba (erase_head_regs ha (pents_seen perm (flatten_program ha) [])) t1) as Q.
    destruct (to_query perm ba (erase_head_regs ha (pents_seen perm (flatten_program ha) [])) t1) as [[[bc s3]|e1|] s2]; cbn in Q; try discriminate E; cbv beta iota delta [aret] in E.
    + rewrite Q in K. clear Q. set (D := fun v => match perm v with Some y => seen_in (SY y) s3 = true | None => False end).
      assert (T1 : forall ns1 n ns2 v, map fst bs = ns1 ++ n :: ns2 -> In v (vars_of n) -> perm v = None -> ~ D v /\ ~ occ v ns1).
      { intros ns1 n ns2 v Em Hv Hp. split; [unfold D; rewrite Hp; tauto|]. intros Ho. assert (Hp' : permof cf (h :: b :: ns1 ++ n :: ns2) true v = None) by (rewrite <- Em; exact Hp).
        apply (temp_clause cf h b ns1 n ns2 v O Hp' Hv). rewrite !occ_cons. auto. }
      assert (DD : forall v y, perm v = Some y -> (seen_in (SY y) (remove_x_a_regs s3) = true <-> D v)).
      { intros v y Hp. unfold D. rewrite Hp. unfold remove_x_a_regs, seen_in. rewrite !existsb_exists. split; intros (r & Hr & Er); exists r; (split; [|exact Er]).
        - apply filter_In in Hr. apply Hr.
        - apply filter_In. split; [exact Hr|]. destruct r; [discriminate Er|reflexivity]. }
      pose proof (goals_load_at perm PI false bs [] D (remove_x_a_regs s3) s2 T1 (no_x_remove s3) DD) as U.
      destruct (compile_query_atoms_at perm [] false bs (remove_x_a_regs s3) s2) as [[r|e1 j|] s4]; cbn in U; try discriminate E. injection E as <- <- _. destruct U as [-> U]. split; [reflexivity|].
      destruct U as (q1 & n & q2 & Eq & U & _).
      assert (Ec : is_constant n = false). { destruct U as (l1 & x & l2 & v & E3 & E4 & _). destruct n; try reflexivity. exfalso. destruct l1 as [|y l1]; [|destruct l1; discriminate E3]. injection E3 as <- _. discriminate E4. }
      destruct U as (l1 & x & l2 & v & E3 & E4 & E5 & E6 & _). exists (h, hi), ((b, bi') :: q1), n, q2, x, v. csplit; auto.
      * now rewrite Eq.
      * assert (H : In x (visits n)) by (rewrite E3; apply in_elt). apply visits_in in H. destruct H as [[-> _]|H]; [constructor|]. apply below_sub in H. destruct H as (k & Hk & Hs). exact (sub_kid _ _ k Hk Hs).
      * now apply ev_sub.
      * cbn [map fst]. rewrite !occ_cons. intros Ho. apply E6. destruct Ho as [Ho|[Ho|Ho]]; [left|left|right; exact Ho];
              (assert (P : exists y, permof cf (h :: b :: map fst q1 ++ n :: map fst q2) true v = Some y) by
                (apply permof_some; [exact O|]; apply perm_vars_clause; exists (map fst q1), n, (map fst q2); csplit; auto; [exact (unseen_var (fun _ => True) n l1 x l2 v Ec E3 E5)|cbn [app]; rewrite !occ_cons; auto]));
              destruct P as (y & P); assert (P' : perm v = Some y) by (unfold perm, ps; rewrite Eq, map_app; exact P); unfold D; rewrite P'; apply (K v y P'); auto.
    + destruct Q as [-> Q]. rewrite Q in K. injection E as <- <- _. split; [reflexivity|]. destruct K as (x & v & K1 & K2 & K3 & K4). exists (h, hi), [], b, bs, x, v. csplit; auto; [now apply ev_sub|].
      cbn [map fst]. rewrite occ_cons. intros [H|H]; [exact (K4 H)|exact (occ_nil _ H)].
Qed.
Definition redef_at (c : list (node * info)) (i : info) : Prop := exists h b, c = (h, i) :: b /\ redefines h = true.
Theorem clauses_culprit cf cs : ord_ok cf -> forall p s e i s', compile_clauses_at cf false cs p s = (AErr e i, s') ->
  exists cs1 c cs2, cs = cs1 ++ c :: cs2 /\ (forall c0, In c0 cs1 -> forall j, ~ redef_at (snd c0) j) /\ ((e = CRedef /\ redef_at (snd c) i) \/ (e = CNotInst /\ free_at (snd c) i)).
Proof.
  intros O. induction cs as [|[j c] cs IH]; intros p s e i s' E; [discriminate E|]. cbn [compile_clauses_at] in E. unfold abind in E.
  destruct (compile_program_term_at cf false c s) as [[[f r]|e1 k|] s1] eqn:E1; try discriminate E.
  - destruct (IH _ _ _ _ _ E) as (cs1 & c0 & cs2 & -> & F & K). exists ((j, c) :: cs1), c0, cs2. split; [reflexivity|]. split; [|exact K].
    intros x [<-|Hx]; [|exact (F x Hx)]. cbn [snd]. intros l (h & b & -> & R). cbn [compile_program_term_at negb andb] in E1. rewrite R in E1. discriminate E1.
  - injection E as <- <- _. exists [], (j, c), cs. split; [reflexivity|]. split; [intros x []|]. cbn [snd]. destruct (clause_culprit cf false c s e1 k s1 O E1) as [(_ & -> & K)|K]; auto.
Qed.
(** --- from the text --- *)
Theorem text_recorded cf s P st q st' : program_at "" P s -> compile_clauses_at cf false P [] st = (AOk q, st') ->
  parse_program s = Some (COk (map (fun c => map fst (snd c)) P)) /\ compile_program cf (map (fun c => map fst (snd c)) P) st = (COk (plain_prog q), st') /\
  forall f, Forall2 stems (filter (head_is f) P) (rules_for f q).
Proof.
  intros H E. split; [|split].
  - rewrite program_erased. apply program_positions in H. now rewrite H.
  - pose proof (clauses_erased cf false P [] st) as K. rewrite E in K. symmetry. exact K.
  - intros f. destruct (clauses_sources cf false P [] st q st' E f) as (rs & Er & F). cbn in Er. now rewrite Er.
Qed.
Theorem text_culprit cf s P st e i st' : ord_ok cf -> program_at "" P s -> compile_clauses_at cf false P [] st = (AErr e i, st') ->
  compile_program cf (map (fun c => map fst (snd c)) P) st = (CErr e, st') /\
  exists P1 c P2, P = P1 ++ c :: P2 /\ (forall c0, In c0 P1 -> forall j, ~ redef_at (snd c0) j) /\ ((e = CRedef /\ redef_at (snd c) i) \/ (e = CNotInst /\ free_at (snd c) i)).
Proof.
  intros O H E. split; [|exact (clauses_culprit cf P O [] st e i st' E)]. pose proof (clauses_erased cf false P [] st) as K. rewrite E in K. symmetry. exact K.
Qed.
Theorem query_culprit cf q st e i st' : ord_ok cf -> compile_query_at cf q st = (AErr e i, st') ->
  compile_query cf (map fst q) st = (CErr e, st') /\ e = CNotInst /\ culprit (fun _ => False) q i.
Proof.
  intros O E. split; [|exact (compile_query_culprit cf q st e i st' O E)]. pose proof (compile_query_erased cf q st) as K. rewrite E in K. symmetry. exact K.
Qed.
