(** Shape of compiled code: local instructions followed by one control instruction. *)
From Verif Require Import Base Machine Compiler Facts Organizer Process.

(** What holds of the result of a compilation that succeeds. *)
Definition cpost {A} (m : comp A) (Q : storage -> A -> storage -> Prop) : Prop :=
  forall s a s', m s = (COk a, s') -> Q s a s'.
Lemma cpost_ret {A} (a : A) (Q : storage -> A -> storage -> Prop) : (forall s, Q s a s) -> cpost (cret a) Q.
Proof. intros H s b s' E. injection E as <- <-. auto. Qed.
Lemma cpost_bind {A B} (m : comp A) (f : A -> comp B) (Q : storage -> A -> storage -> Prop)
      (R : storage -> B -> storage -> Prop) :
  cpost m Q -> (forall s0 a s1, Q s0 a s1 -> forall b s2, f a s1 = (COk b, s2) -> R s0 b s2) -> cpost (cbind m f) R.
Proof.
  intros Hm Hf s b s' E. unfold cbind in E. destruct (m s) as [[a| |] s1] eqn:Em; try discriminate.
  eapply Hf; eauto.
Qed.
Lemma cpost_pure {A} (m : comp A) (Q : A -> Prop) R : cpost m R -> (forall s a s', R s a s' -> Q a) ->
  cpost m (fun _ a _ => Q a).
Proof. intros H K s a s' E. eauto. Qed.

Definition locals (x : list instr * list sreg) : Prop := forallb is_local (fst x) = true.
Definition puts (x : list instr * list sreg) : Prop := forallb is_put (fst x) = true.
Notation cok m Q := (cpost m (fun _ a _ => Q a)).

Lemma cok_bind {A B} (m : comp A) (f : A -> comp B) (Q : A -> Prop) (R : B -> Prop) :
  cok m Q -> (forall a, Q a -> cok (f a) R) -> cok (cbind m f) R.
Proof. intros Hm Hf. eapply cpost_bind; [exact Hm|]. intros s0 a s1 Ha b s2 E. exact (Hf a Ha _ _ _ E). Qed.
Lemma cok_ret {A} (a : A) (Q : A -> Prop) : Q a -> cok (cret a) Q.
Proof. intros H. now apply cpost_ret. Qed.
Lemma cok_any {A} (m : comp A) : cok m (fun _ => True).
Proof. intros s a s' _. exact I. Qed.
Lemma cok_throw {A} e (Q : A -> Prop) : cok (cthrow e) Q.
Proof. intros s a s' E. discriminate. Qed.
Lemma cok_esc {A} (Q : A -> Prop) : cok cesc Q.
Proof. intros s a s' E. discriminate. Qed.

Ltac cok :=
  repeat first
    [ apply cok_throw | apply cok_esc
    | eapply cok_bind; [apply cok_any|]; intros ? _
    | apply cok_ret ].

Section Shape.
Variable perm : string -> option nat.

Lemma query_kid_puts k seen : cok (query_kid perm k seen) puts.
Proof.
  unfold query_kid. destruct k as [n x].
  destruct n; try (cok; reflexivity);
    try (destruct (perm s); destruct (seen_in _ seen); cok; reflexivity).
  all: destruct (seen_in _ seen); cok; reflexivity.
Qed.
Lemma puts_app c1 c2 s1 s2 s3 : puts (c1, s1) -> puts (c2, s2) -> puts (c1 ++ c2, s3).
Proof. unfold puts. cbn. intros H1 H2. now rewrite forallb_app, H1, H2. Qed.
Lemma locals_app c1 c2 s1 s2 s3 : locals (c1, s1) -> locals (c2, s2) -> locals (c1 ++ c2, s3).
Proof. unfold locals. cbn. intros H1 H2. now rewrite forallb_app, H1, H2. Qed.
Lemma query_kids_puts ks : forall seen, cok (query_kids perm ks seen) puts.
Proof.
  induction ks as [|k ks IH]; intros seen; cbn [query_kids]; [now apply cok_ret|].
  eapply cok_bind; [apply query_kid_puts|]. intros [c1 s1] H1.
  eapply cok_bind; [apply IH|]. intros [c2 s2] H2. apply cok_ret. eapply puts_app; eauto.
Qed.
Lemma query_ent_puts vx e seen : cok (query_ent perm vx e seen) puts.
Proof.
  unfold query_ent. destruct (en_node e); try (cok; reflexivity).
  - destruct (en_arg e); [|cok; reflexivity]. destruct (perm s); destruct (seen_in _ seen); cok; reflexivity.
  - eapply cok_bind; [apply cok_any|]. intros i _. eapply cok_bind; [apply query_kids_puts|]. intros [c s2] H.
    apply cok_ret. exact H.
  - destruct (check_undefined _ _ _ _); [|apply cok_throw].
    eapply cok_bind; [apply cok_any|]. intros i _. eapply cok_bind; [apply query_kids_puts|]. intros [c s2] H.
    apply cok_ret. exact H.
Qed.
Lemma query_ents_puts vx es : forall seen, cok (query_ents perm vx es seen) puts.
Proof.
  induction es as [|e es IH]; intros seen; cbn [query_ents]; [now apply cok_ret|].
  eapply cok_bind; [apply query_ent_puts|]. intros [c1 s1] H1.
  eapply cok_bind; [apply IH|]. intros [c2 s2] H2. apply cok_ret. eapply puts_app; eauto.
Qed.
Definition call_code (x : list instr * list sreg) : Prop :=
  exists is f, fst x = is ++ [ICall f] /\ forallb is_put is = true.
Lemma to_query_shape a seen : cok (to_query perm a seen) call_code.
Proof.
  unfold to_query. eapply cok_bind; [apply query_ents_puts|]. intros [c s] H. apply cok_ret.
  exists c, (to_fview (aa_top a)). auto.
Qed.

Lemma prog_kid_local k seen : cok (prog_kid perm k seen) locals.
Proof.
  unfold prog_kid. destruct k as [n x].
  destruct n; try (cok; reflexivity);
    try (destruct (seen_in _ seen); [cok|]; [destruct (perm s); reflexivity|];
         eapply cok_bind; [apply cok_any|]; intros v _; destruct (perm s); cok; reflexivity).
  all: destruct (seen_in _ seen); cok; reflexivity.
Qed.
Lemma prog_kids_local ks : forall seen, cok (prog_kids perm ks seen) locals.
Proof.
  induction ks as [|k ks IH]; intros seen; cbn [prog_kids]; [now apply cok_ret|].
  eapply cok_bind; [apply prog_kid_local|]. intros [c1 s1] H1.
  eapply cok_bind; [apply IH|]. intros [c2 s2] H2. apply cok_ret. eapply locals_app; eauto.
Qed.
Lemma prog_ent_local e seen : cok (prog_ent perm e seen) locals.
Proof.
  unfold prog_ent. destruct (en_node e); try (cok; reflexivity).
  - destruct (en_arg e); [|cok; reflexivity]. destruct (seen_in _ seen); destruct (perm s); cok; reflexivity.
  - eapply cok_bind; [apply cok_any|]. intros i _. eapply cok_bind; [apply prog_kids_local|]. intros [c s2] H.
    apply cok_ret. exact H.
  - eapply cok_bind; [apply cok_any|]. intros i _. eapply cok_bind; [apply prog_kids_local|]. intros [c s2] H.
    apply cok_ret. exact H.
Qed.
Lemma prog_ents_local es : forall seen, cok (prog_ents perm es seen) locals.
Proof.
  induction es as [|e es IH]; intros seen; cbn [prog_ents]; [now apply cok_ret|].
  eapply cok_bind; [apply prog_ent_local|]. intros [c1 s1] H1.
  eapply cok_bind; [apply IH|]. intros [c2 s2] H2. apply cok_ret. eapply locals_app; eauto.
Qed.
Definition head_code (x : list instr * list sreg) : Prop :=
  exists is, fst x = is ++ [IProceed] /\ forallb is_local is = true.
Lemma to_program_shape a seen : cok (to_program perm a seen) head_code.
Proof.
  unfold to_program. eapply cok_bind; [apply prog_ents_local|]. intros [c s] H. apply cok_ret.
  exists c. auto.
Qed.

Lemma compile_query_atom_shape pre user n seen : forallb is_put pre = true ->
  cok (compile_query_atom perm pre user n seen) (fun x => query_shape (fst x)).
Proof.
  intros Hp. unfold compile_query_atom. destruct (assign_one n) as [a cnt].
  eapply cok_bind; [apply to_query_shape|]. intros [c s] (is & f & E & L). apply cok_ret. left.
  exists (pre ++ is), f. cbn in *. subst c. rewrite app_assoc, forallb_app, Hp, L. auto.
Qed.
Lemma compile_query_atoms_shape user ns : forall pre seen, forallb is_put pre = true ->
  cok (compile_query_atoms perm pre user ns seen) (Forall query_shape).
Proof.
  induction ns as [|n ns IH]; intros pre seen Hp; cbn [compile_query_atoms]; [now apply cok_ret|].
  eapply cok_bind; [now apply compile_query_atom_shape|]. intros [a s] Ha.
  eapply cok_bind; [now apply IH|]. intros r Hr. apply cok_ret. now constructor.
Qed.
End Shape.

Lemma alloc_local n : forallb is_local (alloc_code n) = true.
Proof. unfold alloc_code. destruct (Nat.eqb n 0); reflexivity. Qed.

Lemma alloc_puts n : forallb is_put (alloc_code n) = true.
Proof. unfold alloc_code. destruct (Nat.eqb n 0); reflexivity. Qed.

Lemma compile_query_shape cf atoms : cok (compile_query cf atoms) (Forall query_shape).
Proof. unfold compile_query. apply compile_query_atoms_shape, alloc_puts. Qed.

Lemma compile_program_term_shape cf b atoms :
  cok (compile_program_term cf b atoms) (fun x => rule_shape (snd x)).
Proof.
  unfold compile_program_term. destruct atoms as [|h body]; [apply cok_esc|].
  destruct (negb b && redefines h)%bool; [apply cok_throw|].
  destruct (match body with [] => _ | _ => _ end) as [[ha oba] cnt] eqn:Ea.
  eapply cok_bind; [apply to_program_shape|]. intros [hc s1] (is & E & L). cbn in E. subst hc.
  set (perm := fun s => pos_of s _).
  eapply cok_bind with (Q := fun x => Forall query_shape (fst x)).
  { destruct oba as [ba|]; [|apply cok_ret; constructor].
    eapply cok_bind; [apply to_query_shape|]. intros [bc s3] (is' & f & E & L'). apply cok_ret.
    constructor; [|constructor]. left. exists is', f. auto. }
  intros [firsts s3] Hf. cbn in Hf.
  eapply cok_bind; [now apply compile_query_atoms_shape|]. intros others Ho. apply cok_ret. cbn. split.
  - exists (alloc_code (List.length (perm_order cf (h :: body) true)) ++ is). cbn.
    rewrite app_assoc, forallb_app, L, alloc_local. auto.
  - apply Forall_app. split; [assumption|]. apply Forall_app. split; [assumption|].
    destruct (Nat.eqb _ 0); constructor; [now right|constructor].
Qed.

(** Lookup in programs *)
Lemma fview_eqb_eq f g : fview_eqb f g = true <-> f = g.
Proof.
  unfold fview_eqb. destruct f as [s n], g as [t m]. cbn. rewrite andb_true_iff, Nat.eqb_eq, String.eqb_eq.
  split; [intros [-> ->]; reflexivity|intros E; injection E as -> ->; auto].
Qed.
Lemma fview_eqb_refl f : fview_eqb f f = true.
Proof. now apply fview_eqb_eq. Qed.
Lemma fview_eqb_neq f g : fview_eqb f g = false <-> f <> g.
Proof.
  split.
  - intros H ->. now rewrite fview_eqb_refl in H.
  - intros H. destruct (fview_eqb f g) eqn:E; auto. apply fview_eqb_eq in E. contradiction.
Qed.
Lemma plookup_padd f g r p : plookup f (padd g r p) =
  if fview_eqb f g then Some (match plookup g p with Some rs => rs ++ [r] | None => [r] end) else plookup f p.
Proof.
  induction p as [|[k rs] p IH]; cbn.
  - destruct (fview_eqb f g); reflexivity.
  - destruct (fview_eqb g k) eqn:Egk; cbn.
    + apply fview_eqb_eq in Egk. subst k. destruct (fview_eqb f g) eqn:Efg; reflexivity.
    + destruct (fview_eqb f k) eqn:Efk; [|exact IH].
      apply fview_eqb_eq in Efk. subst k. rewrite (proj2 (fview_eqb_neq f g)); [reflexivity|].
      intros ->. now rewrite fview_eqb_refl in Egk.
Qed.
Lemma plookup_pset f g rs p : plookup f (pset g rs p) = if fview_eqb f g then Some rs else plookup f p.
Proof.
  induction p as [|[k qs] p IH]; cbn.
  - reflexivity.
  - destruct (fview_eqb g k) eqn:Egk; cbn.
    + apply fview_eqb_eq in Egk. subst k. destruct (fview_eqb f g) eqn:Efg; reflexivity.
    + destruct (fview_eqb f k) eqn:Efk; [|exact IH].
      apply fview_eqb_eq in Efk. subst k. rewrite (proj2 (fview_eqb_neq f g)); [reflexivity|].
      intros ->. now rewrite fview_eqb_refl in Egk.
Qed.

Lemma padd_shape f r p : prog_shape p -> rule_shape r -> prog_shape (padd f r p).
Proof.
  intros Hp Hr g rs q Hl Hin. rewrite plookup_padd in Hl. destruct (fview_eqb g f) eqn:E; [|eauto].
  injection Hl as <-. destruct (plookup f p) as [rs0|] eqn:El.
  - apply in_app_iff in Hin. destruct Hin as [Hin|[<-|[]]]; eauto.
  - destruct Hin as [<-|[]]; auto.
Qed.
Lemma pset_shape f rs p : prog_shape p -> Forall rule_shape rs -> prog_shape (pset f rs p).
Proof.
  intros Hp Hr g rs' q Hl Hin. rewrite plookup_pset in Hl. destruct (fview_eqb g f) eqn:E; [|eauto].
  injection Hl as <-. rewrite Forall_forall in Hr. auto.
Qed.
Definition entries_shape (p : prog) : Prop := Forall (fun e => Forall rule_shape (snd e)) p.
Lemma merge_shape built : forall p, entries_shape built -> prog_shape p -> prog_shape (merge built p).
Proof.
  unfold merge. induction built as [|[f rs] built IH]; intros p Hb Hp; cbn; [assumption|].
  inversion Hb; subst. apply IH; [assumption|]. now apply pset_shape.
Qed.
Lemma padd_entries f r p : entries_shape p -> rule_shape r -> entries_shape (padd f r p).
Proof.
  intros Hp Hr. induction p as [|[g rs] p IH]; cbn; [repeat constructor; assumption|].
  inversion Hp; subst. cbn in *. destruct (fview_eqb f g); constructor; cbn; auto.
  - apply Forall_app. auto.
  - now apply IH.
Qed.
Lemma entries_prog_shape p : entries_shape p -> prog_shape p.
Proof.
  intros H f rs r. induction p as [|[g rs'] p IH]; cbn; [discriminate|]. inversion H; subst. cbn in *.
  destruct (fview_eqb f g); [|auto]. intros E Hin. injection E as ->. rewrite Forall_forall in H2. auto.
Qed.

Lemma compile_clauses_shape cf b cs : forall p, entries_shape p -> cok (compile_clauses cf b cs p) entries_shape.
Proof.
  induction cs as [|c cs IH]; intros p Hp; cbn [compile_clauses]; [now apply cok_ret|].
  eapply cok_bind; [apply compile_program_term_shape|]. intros [f r] Hr. apply IH. now apply padd_entries.
Qed.

Lemma insert_pred_shape f xl xr r : is_local (f xl xr) = true -> rule_shape r -> rule_shape (insert_pred f xl xr r).
Proof.
  intros Hf. destruct r as [|a r]; cbn; auto. intros [(is & E & L & U) Hb]. split; [|assumption].
  exists (is ++ [f xl xr]). cbn. unfold insert_before_last. rewrite E, removelast_last, app_length.
  replace (_ - _) with (List.length is) by (cbn; lia). rewrite skipn_app, skipn_all, Nat.sub_diag. cbn.
  rewrite <- app_assoc, forallb_app, L. cbn. rewrite Hf. auto.
Qed.
Lemma compile_binary_shape cf nm f p : (forall x y, is_local (f x y) = true) -> entries_shape p ->
  cok (compile_binary cf nm f p) entries_shape.
Proof.
  intros Hf Hp. unfold compile_binary. destruct (pred_regs _) as [xl xr].
  eapply cok_bind; [apply compile_program_term_shape|]. intros [fv r] Hr. apply cok_ret.
  apply padd_entries; [assumption|]. now apply insert_pred_shape.
Qed.
Lemma compile_built_ins_shape cf : cok (compile_built_ins cf) entries_shape.
Proof.
  unfold compile_built_ins.
  eapply cok_bind; [apply compile_binary_shape; [reflexivity|constructor]|]. intros p1 H1.
  eapply cok_bind; [apply compile_binary_shape; [reflexivity|exact H1]|]. intros p2 H2.
  eapply cok_bind; [apply compile_binary_shape; [reflexivity|exact H2]|]. intros p3 H3.
  now apply compile_clauses_shape.
Qed.
