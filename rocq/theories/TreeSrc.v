(** Compiled code and the goals of the source it stands for. *)
From Verif Require Import Base Machine Heap Facts HeapSim Compiler Parser Print Organizer Process Refine Turn Shape Mono Session
  Search Code Put PutRun Get Alloc Atoms Clause.
Open Scope string_scope.
Open Scope list_scope.

(** the atom [a] calls the goal [n] *)
Definition goal_of (n : node) (a : catom) : Prop :=
  ca_node a = n /\ exists is, ca_code a = is ++ [ICall (to_fview n)] /\ is <> [].
(** [cs] calls the goals [gs] one after the other *)
Inductive src : list node -> list catom -> Prop :=
| src_nil : src [] []
| src_goal n a gs cs : goal_of n a -> src gs cs -> src (n :: gs) (a :: cs)
| src_dealloc gs cs : src gs cs -> src gs (dealloc_atom :: cs).

Lemma goal_not_dealloc n a : goal_of n a -> is_dealloc a = false.
Proof.
  intros (_ & is & E & N). unfold is_dealloc. rewrite E, app_length. destruct is; [contradiction|]. cbn.
  destruct (List.length is); reflexivity.
Qed.
Lemma goal_call n a : goal_of n a -> last (ca_code a) IProceed = ICall (to_fview n).
Proof. intros (_ & is & E & _). now rewrite E, last_last. Qed.
Lemma src_app g1 c1 g2 c2 : src g1 c1 -> src g2 c2 -> src (g1 ++ g2) (c1 ++ c2).
Proof. induction 1; cbn; auto; constructor; auto. Qed.
Lemma src_done gs cs : src gs cs -> forallb is_dealloc cs = true <-> gs = [].
Proof.
  induction 1 as [|n a gs cs Hg H IH|gs cs H IH]; cbn.
  - tauto.
  - rewrite (goal_not_dealloc _ _ Hg). cbn. split; discriminate.
  - exact IH.
Qed.
Lemma src_drop ds : forall gs cs, src gs (ds ++ cs) -> forallb is_dealloc ds = true -> src gs cs.
Proof.
  induction ds as [|d ds IH]; intros gs cs H E; [assumption|]. cbn in E. apply andb_true_iff in E. destruct E as [E1 E2].
  cbn in H. inversion H as [|n a gs' cs' Hg H'|gs' cs' H']; subst.
  - rewrite (goal_not_dealloc _ _ Hg) in E1. discriminate.
  - apply IH; assumption.
Qed.
Lemma src_head gs a cs f : src gs (a :: cs) -> last (ca_code a) IProceed = ICall f ->
  exists n gs', gs = n :: gs' /\ ca_node a = n /\ f = to_fview n /\ src gs' cs.
Proof.
  intros H E. inversion H as [|n a' gs' cs' Hg H'|gs' cs' H']; subst.
  - exists n, gs'. rewrite (goal_call _ _ Hg) in E. injection E as <-. destruct Hg. auto.
  - discriminate.
Qed.

Lemma query_ent_ne perm vx e seen s c seen' s' : query_ent perm vx e seen s = (COk (c, seen'), s') -> keep_flat e = true -> c <> [].
Proof.
  unfold query_ent, keep_flat. intros E K -> . destruct (en_node e).
  - destruct (en_arg e); [|discriminate]. destruct (perm s0).
    + destruct (seen_in _ _); [discriminate|]. apply cbind_ok in E. destruct E as (? & ? & _ & E). discriminate.
    + destruct (seen_in _ _); [discriminate|]. apply cbind_ok in E. destruct E as (? & ? & _ & E). discriminate.
  - apply cbind_ok in E. destruct E as (? & ? & _ & E). discriminate.
  - apply cbind_ok in E. destruct E as (? & ? & _ & E). discriminate.
  - apply cbind_ok in E. destruct E as (? & ? & _ & E). apply cbind_ok in E. destruct E as ([? ?] & ? & _ & E). discriminate.
  - destruct (check_undefined _ _ _); [|discriminate]. apply cbind_ok in E. destruct E as (? & ? & _ & E).
    apply cbind_ok in E. destruct E as ([? ?] & ? & _ & E). discriminate.
Qed.
Lemma query_ents_ne perm vx es seen s c seen' s' : query_ents perm vx es seen s = (COk (c, seen'), s') ->
  (forall e, In e es -> keep_flat e = true) -> es <> [] -> c <> [].
Proof.
  destruct es as [|e es]; [contradiction|]. intros E K _. cbn [query_ents] in E.
  apply cbind_ok in E. destruct E as ([c1 s1] & t1 & E1 & E). apply cbind_ok in E. destruct E as ([c2 s2] & t2 & E2 & E).
  injection E as <- <- <-. pose proof (query_ent_ne _ _ _ _ _ _ _ _ E1 (K e (or_introl eq_refl))). destruct c1; [contradiction|discriminate].
Qed.
Lemma flatten_keep a e : In e (flatten_query a) -> keep_flat e = true.
Proof.
  assert (K : In e (flatten_program a) -> keep_flat e = true) by (intros H; apply filter_In in H; apply H).
  unfold flatten_query. destruct (is_constant (aa_top a)); [exact K|]. intros H. apply in_app_or in H. destruct H as [H|H].
  - rewrite <- in_rev in H. apply K. rewrite <- (firstn_skipn (List.length (kids (aa_top a))) (flatten_program a)).
    apply in_or_app. now right.
  - apply K. rewrite <- (firstn_skipn (List.length (kids (aa_top a))) (flatten_program a)). apply in_or_app. now left.
Qed.
Lemma to_query_goal perm a seen s c seen' s' : to_query perm a seen s = (COk (c, seen'), s') -> flatten_query a <> [] ->
  exists is, c = is ++ [ICall (to_fview (aa_top a))] /\ is <> [].
Proof.
  unfold to_query. intros E N. apply cbind_ok in E. destruct E as ([c1 s1] & t1 & E1 & E). injection E as <- <- <-.
  exists c1. split; [reflexivity|]. eapply query_ents_ne; eauto. apply flatten_keep.
Qed.
Lemma one_ne n : atom_ok n -> flatten_query (fst (assign_one n)) <> [].
Proof.
  intros H. unfold assign_one. destruct (is_constant n) eqn:Ec.
  - destruct n; try discriminate.
  - destruct (assign_term n []) as [[a c] m] eqn:Et. cbn. eapply flatten_ne; [|exact Et].
    destruct n; try contradiction; try discriminate. destruct l; [contradiction|discriminate].
Qed.

Lemma query_atoms_src perm u ns : forall pre seen s r s', compile_query_atoms perm pre u ns seen s = (COk r, s') ->
  Forall atom_ok ns -> src ns r.
Proof.
  induction ns as [|n ns IH]; intros pre seen s r s' E Ha; cbn [compile_query_atoms] in E.
  - injection E as <- <-. constructor.
  - apply cbind_ok in E. destruct E as ([a sa] & t1 & E1 & E). apply cbind_ok in E. destruct E as (r' & t2 & E2 & E).
    injection E as <- <-. inversion Ha as [|? ? Hn Hns]; subst. constructor; [|eapply IH; eauto].
    pose proof (one_ne n Hn) as N. pose proof (aa_top_one n) as Et.
    unfold compile_query_atom in E1. destruct (assign_one n) as [aa cnt]. cbn [fst] in N, Et.
    apply cbind_ok in E1. destruct E1 as ([c sq] & t3 & E1 & E1'). injection E1' as <- <- <-.
    destruct (to_query_goal _ _ _ _ _ _ _ E1 N) as (is & -> & Ni). rewrite Et. split; [reflexivity|].
    exists (pre ++ is). cbn. split; [now rewrite app_assoc|]. destruct pre; [assumption|discriminate].
Qed.

Lemma query_src cf sto q r : query_code cf sto q r -> Forall atom_ok q -> src q r.
Proof. intros (s0 & s1 & E & _) H. unfold compile_query in E. eapply query_atoms_src; eauto. Qed.

(** the rule [r] is code of the clause [c]: an atom for the head, then the goals of the body *)
Definition clause_src (c : list node) (r : rule) : Prop :=
  exists h body ha cs, c = h :: body /\ r = ha :: cs /\ ca_node ha = h /\ src body cs.

Lemma clause_code_src cf sto b c r : clause_code cf sto b c r -> clause_wf c -> clause_src c r.
Proof.
  intros (s0 & sE & f & E & X) Hw. unfold compile_program_term in E. destruct c as [|h body]; [contradiction|].
  cbn [clause_wf] in Hw. inversion Hw as [|? ? Hh Hb]; subst.
  destruct (negb b && redefines h)%bool; [discriminate|].
  destruct (match body with [] => _ | _ => _ end) as [[ha oba] cnt] eqn:Ea. cbv zeta in E.
  apply cbind_ok in E. destruct E as ([hc0 s1] & t1 & E1 & E).
  apply cbind_ok in E. destruct E as ([firsts s3] & t2 & E2 & E).
  apply cbind_ok in E. destruct E as (others & t3 & E3 & E). injection E as <- <- <-.
  eexists h, body, _, _. csplit; [reflexivity|reflexivity|reflexivity|].
  assert (Hd : src [] (if Nat.eqb (List.length (perm_order cf (h :: body) true)) 0 then [] else [dealloc_atom])).
  { destruct (Nat.eqb _ 0); repeat constructor. }
  destruct body as [|b1 bs].
  - destruct (assign_one h). injection Ea as <- <- <-. injection E2 as <- <- <-. cbn in E3. injection E3 as <- <-. exact Hd.
  - inversion Hb as [|? ? Hb1 Hbs]; subst.
    pose proof (assign_hb_head h (b1 :: bs)) as (_ & _ & A3). cbn [assign_hb] in A3.
    destruct (assign_two h b1) as [[x ba] z] eqn:Etwo. injection Ea as <- <- <-. cbn [fst snd] in A3.
    destruct A3 as (ba' & A3 & A4). injection A3 as <-.
    apply cbind_ok in E2. destruct E2 as ([bc s4] & t4 & E4 & E5). injection E5 as <- <- <-.
    destruct (to_query_goal _ _ _ _ _ _ _ E4 (two_ne _ _ _ _ _ Hb1 Etwo)) as (is & -> & Ni).
    cbn [app]. constructor.
    + rewrite A4. split; [reflexivity|]. exists is. auto.
    + cbn [tl] in E3. pose proof (src_app _ _ _ _ (query_atoms_src _ _ _ _ _ _ _ _ E3 Hbs) Hd) as K. now rewrite app_nil_r in K.
Qed.

(** the clauses that are tried for a goal with this functor, in their order *)
Definition clauses_for (P : list (list node)) (f : fview) : list (list node) :=
  match special f with
  | Some _ => [[binary_pred (fv_name f)]]
  | None => if is_append f then append_clauses else clauses_of f P
  end.

Lemma forall2_impl_in {A B} (R S : A -> B -> Prop) l k : (forall x y, In x l -> R x y -> S x y) -> Forall2 R l k -> Forall2 S l k.
Proof. intros H F. induction F as [|x y l k Hxy F IH]; constructor; [apply H; [now left|assumption]|]. apply IH. intros. apply H; [now right|assumption]. Qed.

Lemma append_wf c : In c append_clauses -> clause_wf c.
Proof.
  assert (L : fun_ok "[" 2) by (left; auto). intros [<-|[<-|[]]].
  - constructor; [|constructor]. cbn. intros m [<-|[<-|[<-|[]]]]; cbn; auto. split; [|exact Logic.I]. left. auto.
  - constructor; [|constructor; [|constructor]]; cbn; intros m [<-|[<-|[<-|[]]]]; cbn; auto.
Qed.

Lemma prog_src cf sto P pg f : prog_code cf sto P pg -> Forall clause_wf P ->
  match plookup f pg with
  | Some rs => Forall2 clause_src (clauses_for P f) rs /\ clauses_for P f <> []
  | None => clauses_for P f = []
  end.
Proof.
  intros HP HW. specialize (HP f). unfold clauses_for. destruct (special f) as [i|].
  - destruct HP as (rs & -> & r & HC & ->). split; [|discriminate]. constructor; [|constructor].
    destruct (clause_code_src _ _ _ _ _ HC) as (h & body & ha & cs & E & -> & E3 & E4).
    { cbn. constructor; [|constructor]. cbn. intros m [<-|[<-|[]]]; cbn; auto. }
    exists h, body. cbn [insert_pred]. eexists _, cs. csplit; eauto.
  - destruct (is_append f).
    + destruct HP as (rs & -> & HF). split; [|discriminate]. eapply forall2_impl_in; [|exact HF]. intros c r Hc H.
      eapply clause_code_src; [exact H|now apply append_wf].
    + destruct (plookup f pg) as [rs|]; [|assumption]. destruct HP as [HF N]. split.
      * eapply forall2_impl_in; [|exact HF]. intros c r Hc H. eapply clause_code_src; [exact H|].
        rewrite Forall_forall in HW. apply HW. unfold clauses_of in Hc. apply filter_In in Hc. apply Hc.
      * inversion HF; subst; [contradiction|discriminate].
Qed.
