(** What the unification tree of a session shows. *)
From Coq Require Import Sorting.Permutation.
From Verif Require Import Base Machine Heap Facts HeapSim Compiler Parser Print Organizer Process Refine Turn Shape Mono Session
  Search Order Runs Parsed Tables Root Clause Atoms Tree TreeTurn TreeInv TreeRun TreeSrc TreeFacts.
Open Scope list_scope.

(** the atom of the source an executor is at work on *)
Definition works_on (o : org) (e : exec) (n : node) : Prop := exists a, solved o e = Val a /\ ca_node a = n.

(** [qshows o P gs t]: the query node [t] stands for the goals [gs], the first of which is called there.
    [bshows o P gs c b]: the node [b] stands for the clause [c] being tried while the goals [gs] are left. *)
Inductive qshows (o : org) (P : list (list node)) : list node -> qnode -> Prop :=
| qs_wait g gs ex id nm e : nth_error (o_arena o) ex = Some e -> x_state e = SRunning -> qshows o P (g :: gs) (QNode ex id nm [])
| qs_none g gs ex id nm e : nth_error (o_arena o) ex = Some e -> x_state e = SFail -> works_on o e g ->
    clauses_for P (to_fview g) = [] -> qshows o P (g :: gs) (QNode ex id nm [])
| qs_call g gs ex id nm e ks : nth_error (o_arena o) ex = Some e -> x_state e = SArchived -> works_on o e g ->
    clauses_for P (to_fview g) <> [] -> Forall2 (fun c b => bshows o P gs c b) (clauses_for P (to_fview g)) ks ->
    qshows o P (g :: gs) (QNode ex id nm ks)
with bshows (o : org) (P : list (list node)) : list node -> list node -> bnode -> Prop :=
| bs_wait gs h body ex id bs e : nth_error (o_arena o) ex = Some e -> x_state e = SRunning -> works_on o e h ->
    bshows o P gs (h :: body) (BNode ex id bs BNone)
| bs_fail gs h body ex id bs e : nth_error (o_arena o) ex = Some e -> has_failed e = true -> works_on o e h ->
    bshows o P gs (h :: body) (BNode ex id bs BNone)
| bs_done h ex id bs e b : nth_error (o_arena o) ex = Some e -> x_state e = SSuccess -> works_on o e h ->
    bshows o P [] [h] (BNode ex id bs (BFinal b))
| bs_next gs h body ex id bs e q : nth_error (o_arena o) ex = Some e -> x_state e = SArchived -> works_on o e h ->
    qshows o P (body ++ gs) q -> bshows o P gs (h :: body) (BNode ex id bs (BQuery q)).

Lemma strip_shows o P : forall t gs t', qshows o P gs t' -> strip t' = strip t -> qshows o P gs t.
Proof.
  apply (qnode_ind2 (fun t => forall gs t', qshows o P gs t' -> strip t' = strip t -> qshows o P gs t)
    (fun b => forall gs c b', bshows o P gs c b' -> strip_b b' = strip_b b -> bshows o P gs c b)).
  - intros ex id nm ks H gs t' Ht E. destruct Ht as [g gs ex' id' nm' e H1 H2|g gs ex' id' nm' e H1 H2 H3 H4|g gs ex' id' nm' e ks' H1 H2 H3 H4 H5].
    + rewrite !strip_eq in E. injection E as <- <- E. destruct ks; [|discriminate]. now apply (qs_wait _ _ _ _ _ _ _ e).
    + rewrite !strip_eq in E. injection E as <- <- E. destruct ks; [|discriminate]. now apply (qs_none _ _ _ _ _ _ _ e).
    + rewrite !strip_eq in E. injection E as <- <- E. apply (qs_call _ _ _ _ _ _ _ e); auto. clear H4.
      revert ks H E. induction H5 as [|c b' cs ks' Hb F IH]; intros ks H E; (destruct ks as [|b ks]; try discriminate); constructor.
      * inversion H as [|? ? Hb0 Hk]; subst. injection E as E1 E2. eapply Hb0; eauto.
      * inversion H as [|? ? Hb0 Hk]; subst. injection E as E1 E2. apply IH; auto.
  - intros ex id bs gs c b' Hb E. destruct Hb; cbn in E; try discriminate; injection E as <- <-.
    + eapply bs_wait; eauto. + eapply bs_fail; eauto.
  - intros ex id bs l gs c b' Hb E. destruct Hb; cbn in E; try discriminate; injection E as <- <- <-. eapply bs_done; eauto.
  - intros ex id bs q H gs c b' Hb E. destruct Hb; cbn in E; try discriminate; injection E as <- <- E.
    eapply bs_next; eauto.
Qed.

Lemma NoDup_app_ex {A} (l k : list A) : NoDup l -> NoDup k -> (forall x, In x l -> ~ In x k) -> NoDup (l ++ k).
Proof.
  induction 1 as [|x l Hx H IH]; intros Hk Hd; [assumption|]. cbn. constructor.
  - intros Hi. apply in_app_or in Hi. destruct Hi as [Hi|Hi]; [contradiction|]. exact (Hd x (or_introl eq_refl) Hi).
  - apply IH; [assumption|]. intros y Hy. apply Hd. now right.
Qed.
Lemma nodup_fst {A B} (l : list (A * B)) x b b' : NoDup (map fst l) -> In (x, b) l -> In (x, b') l -> b = b'.
Proof.
  induction l as [|[y c] l IH]; intros Hn H H'; [contradiction|]. cbn in Hn. inversion Hn as [|? ? Hy Hl]; subst.
  destruct H as [E|H], H' as [E'|H'].
  - congruence.
  - injection E as -> ->. exfalso. apply Hy. exact (in_map fst _ _ H').
  - injection E' as -> ->. exfalso. apply Hy. exact (in_map fst _ _ H).
  - auto.
Qed.

Lemma answer_of_det sto n m h t b b' : answer_of sto n h t = Val b -> answer_of sto m h t = Val b' -> b = b'.
Proof.
  assert (Mn : forall n m, n <= m -> out_le (answer_of sto n h t) (answer_of sto m h t)).
  { intros n0 m0 L. unfold answer_of. apply le_bind; [apply le_refl|]. intros l. apply bind_names_mono. intros k. now apply str_of_mono. }
  intros H1 H2. destruct (Nat.le_ge_cases n m) as [L|L].
  - pose proof (le_val _ _ _ (Mn _ _ L) H1). congruence.
  - pose proof (le_val _ _ _ (Mn _ _ L) H2). congruence.
Qed.

Section Shows.
Variable cf : cfg.
Variables (fuel : nat) (o : org) (P : list (list node)) (rl : rule) (ps : list process) (lv : nat -> bool)
  (G : nat -> process) (M : nat -> mst (list cell)) (D : list (nat * list (string * string))).
Hypothesis HR : refines cf o ps.
Hypothesis HT : tree_inv cf rl o ps lv G M D.
Hypothesis HP : forall f, match plookup f (o_prog o) with
  | Some rs => Forall2 clause_src (clauses_for P f) rs /\ clauses_for P f <> []
  | None => clauses_for P f = []
  end.

Lemma queue_erel id : In id (o_queue o) -> erel cf o id (G id).
Proof.
  intros H. pose proof (rf_queue _ _ _ HR) as F. rewrite <- (ti_queue _ _ _ _ _ _ _ _ HT) in F.
  revert H F. induction (o_queue o) as [|j q IH]; intros H F; [contradiction|]. cbn [map] in F. inversion F; subst.
  destruct H as [->|H]; auto.
Qed.
Lemma kid_level id e k : nth_error (o_arena o) id = Some e -> In k (x_kids e) ->
  exists ke, nth_error (o_arena o) k = Some ke /\ x_parent ke = Some id /\ lv k = negb (lv id).
Proof.
  intros He Hk. destruct (tn_down _ _ _ _ _ _ _ _ (ti_node _ _ _ _ _ _ _ _ HT id e He) k Hk) as (ke & K1 & K2).
  exists ke. csplit; auto. destruct (tn_up _ _ _ _ _ _ _ _ (ti_node _ _ _ _ _ _ _ _ HT k ke K1)) as [(_ & U & _)|(pid & pe & U1 & U2 & U3 & U4)].
  - congruence.
  - rewrite K2 in U1. injection U1 as <-. assumption.
Qed.
(** the first atom of the last process of an executor is the one it was or is at work on *)
Lemma solved_first id e a rest : nth_error (o_arena o) id = Some e -> p_codes (G id) = a :: rest -> solved o e = Val a.
Proof.
  intros He Hc. destruct (tn_run _ _ _ _ _ _ _ _ (ti_node _ _ _ _ _ _ _ _ HT id e He)) as [(_ & _ & Hq)|[_ F]].
  - destruct (queue_erel id Hq) as (e0 & He0 & _ & _ & Hf & _). rewrite He in He0. injection He0 as <-. rewrite Hc in Hf.
    unfold solved. inversion Hf; subst. assumption.
  - destruct F as (c & a' & rest' & s & fu & F1 & F2 & F3 & _). rewrite Hc in F3. injection F3 as <- <-.
    unfold solved. now rewrite F1.
Qed.
Lemma make_bs_all n l : forall c ks c1, make_bs fuel o n l c = Val (ks, c1) ->
  Forall2 (fun k b => exists c c1, make_b fuel o n c k = Val (b, c1)) l ks.
Proof.
  induction l as [|k l IH]; intros c ks c1 E; cbn [make_bs] in E; [injection E as <- <-; constructor|].
  apply bind_val in E. destruct E as ([b c3] & Eb & E). apply bind_val in E. destruct E as ([r c4] & Er & E). injection E as <- <-.
  constructor; eauto.
Qed.
Lemma kid_shows n : (forall id cnt t c gs, make_q fuel n o id cnt = Val (t, c) -> lv id = true -> src gs (p_codes (G id)) -> gs <> [] -> qshows o P gs t) ->
  forall k b c c1 ke cl r gs rest, make_b fuel o n c k = Val (b, c1) -> nth_error (o_arena o) k = Some ke -> lv k = false ->
  clause_src cl r -> src gs rest -> p_codes (G k) = r ++ rest -> bshows o P gs cl b.
Proof.
  intros IH k b c c1 ke cl r gs rest E He Hlv (h & body & ha & cs & -> & -> & Hn & Hs) Hr Hc. cbn [app] in Hc.
  pose proof (solved_first k ke ha _ He Hc) as Hsv. assert (Hw : works_on o ke h) by (exists ha; auto).
  destruct (make_b_case _ _ _ _ _ _ _ E) as (ke' & He' & Hb). rewrite He in He'. injection He' as <-.
  destruct (tn_run _ _ _ _ _ _ _ _ (ti_node _ _ _ _ _ _ _ _ HT k ke He)) as [(Hst & _ & _)|[_ F]].
  - rewrite Hst in Hb. destruct Hb as [-> _]. now apply (bs_wait o P _ _ _ _ _ _ ke).
  - destruct F as (c0 & a' & rest' & s & fu & _ & _ & F3 & _ & _ & F6). rewrite Hc in F3. injection F3 as <- <-.
    assert (Hsrc : src (body ++ gs) (cs ++ rest)) by now apply src_app.
    destruct F6 as [K1 K2 K3 K4|er K1 K2 K3 K4|f K1 K2 K3 K4 K5 K6|f rs K1 K2 K3 K4 K5 K6|pid b0 fu' K1 K2 K3 K4 K5 K6 K7 K8 K9 K10|j K1 K2 K3 K4 K5 K6 K7];
      try congruence.
    + rewrite K3 in Hb. destruct Hb as [-> _]. apply (bs_fail o P _ _ _ _ _ _ ke); auto. unfold has_failed. now rewrite K3.
    + rewrite K3 in Hb. destruct Hb as [-> _]. apply (bs_fail o P _ _ _ _ _ _ ke); auto. unfold has_failed. now rewrite K3.
    + rewrite K5 in Hb. destruct Hb as (l & _ & -> & _). apply (src_done _ _ Hsrc) in K4. apply app_eq_nil in K4. destruct K4 as [-> ->].
      now apply (bs_done o P _ _ _ _ ke).
    + rewrite K5 in Hb. destruct Hb as (j' & q & Hl & Eq & ->). unfold last_child in Hl. rewrite K6 in Hl. injection Hl as <-.
      apply (bs_next o P _ _ _ _ _ _ ke); auto. eapply IH; [exact Eq|..].
      * assert (Hj : In j (x_kids ke)) by (rewrite K6; now left). destruct (kid_level k ke j He Hj) as (je & _ & _ & Hj').
        rewrite Hj', K2. reflexivity.
      * destruct K7 as (_ & _ & ds & L1 & L2). rewrite L2 in Hsrc. eapply src_drop; eauto.
      * intros E0. apply (src_done _ _ Hsrc) in E0. congruence.
Qed.

Lemma make_q_shows n : forall id cnt t c gs, make_q fuel n o id cnt = Val (t, c) -> lv id = true ->
  src gs (p_codes (G id)) -> gs <> [] -> qshows o P gs t.
Proof.
  induction n as [|n IH]; intros id cnt t c gs E Hlv Hs Hg; [discriminate|]. rewrite make_q_eq in E.
  apply bind_val in E. destruct E as (e & He & E). apply of_opt_val in He.
  apply bind_val in E. destruct E as ([ks c1] & Ek & E). injection E as <- <-.
  destruct (tn_run _ _ _ _ _ _ _ _ (ti_node _ _ _ _ _ _ _ _ HT id e He)) as [(Hst & Hk & _)|[_ F]].
  - rewrite Hk in Ek. cbn in Ek. injection Ek as <- <-. destruct gs as [|g gs]; [contradiction|]. now apply (qs_wait o P _ _ _ _ _ e).
  - destruct F as (c0 & a & rest & s & fu & _ & _ & F3 & _ & _ & F6).
    pose proof (solved_first id e a _ He F3) as Hsv. rewrite F3 in Hs.
    destruct F6 as [K1 K2 K3 K4|er K1 K2 K3 K4|f K1 K2 K3 K4 K5 K6|f rs K1 K2 K3 K4 K5 K6|pid b0 fu' K1 K2 K3 K4 K5 K6 K7 K8 K9 K10|j K1 K2 K3 K4 K5 K6 K7];
      try congruence.
    + rewrite K6 in Ek. cbn in Ek. injection Ek as <- <-. destruct (src_head _ _ _ _ Hs K3) as (g & gs' & -> & Hn & -> & _).
      apply (qs_none o P _ _ _ _ _ e); auto; [exists a; auto|]. specialize (HP (to_fview g)). now rewrite K4 in HP.
    + destruct (src_head _ _ _ _ Hs K3) as (g & gs' & -> & Hn & -> & Hs').
      pose proof (HP (to_fview g)) as Hp. rewrite K4 in Hp. destruct Hp as [Hcl Hne].
      apply (qs_call o P _ _ _ _ _ e); auto; [exists a; auto|].
      apply make_bs_all in Ek.
      assert (Hlev : forall k, In k (x_kids e) -> exists ke, nth_error (o_arena o) k = Some ke /\ lv k = false).
      { intros k Hk. destruct (kid_level id e k He Hk) as (ke & Q1 & _ & Q2). exists ke. split; [assumption|]. now rewrite Q2, Hlv. }
      clear Hne K4 K5. revert Hcl ks Ek Hlev. generalize (clauses_for P (to_fview g)).
      induction K6 as [|k r kl rs Gk K6 IHk]; intros cls Hcl ks Ek Hlev; inversion Hcl as [|cl r' cls' rs' Hc1 Hc2]; subst;
        inversion Ek as [|k' b kl' ks' Hb1 Hb2]; subst; constructor.
      * destruct Hb1 as (cc & cc1 & Hb1). destruct (Hlev k) as (ke & Q1 & Q2); [now left|].
        eapply (kid_shows n); eauto. rewrite Gk. reflexivity.
      * apply IHk; auto. intros k0 Hk0. apply Hlev. now right.
Qed.

(** --- every executor has exactly one node --- *)
Inductive anc : nat -> nat -> Prop :=
| anc_refl a : anc a a
| anc_up a b pid e : nth_error (o_arena o) b = Some e -> x_parent e = Some pid -> anc a pid -> anc a b.

Lemma anc_le a b : anc a b -> a <= b.
Proof. induction 1 as [a|a b pid e He Hp H IH]; [lia|]. pose proof (rf_parents _ _ _ HR _ _ _ He Hp). lia. Qed.
Lemma anc_trans a b c : anc a b -> anc b c -> anc a c.
Proof. intros H K. induction K as [b|b c pid e He Hp K IH]; [assumption|]. eapply anc_up; eauto. Qed.
Lemma anc_one a b e pid : nth_error (o_arena o) b = Some e -> x_parent e = Some pid -> anc a b -> a = b \/ anc a pid.
Proof. intros He Hp H. destruct H as [b|a b pid' e' He' Hp' H]; [now left|]. right. rewrite He in He'. injection He' as <-. rewrite Hp in Hp'. now injection Hp' as <-. Qed.
Lemma anc_two a b x : anc a x -> anc b x -> anc a b \/ anc b a.
Proof.
  intros H. revert b. induction H as [a|a x pid e He Hp H IH]; intros b K; [now right|].
  destruct (anc_one _ _ _ _ He Hp K) as [->|K']; [|now apply IH]. left. eapply anc_up; eauto.
Qed.
Lemma siblings_apart id k1 k2 e1 e2 x : nth_error (o_arena o) k1 = Some e1 -> x_parent e1 = Some id ->
  nth_error (o_arena o) k2 = Some e2 -> x_parent e2 = Some id -> anc k1 x -> anc k2 x -> k1 = k2.
Proof.
  intros E1 P1 E2 P2 H1 H2. pose proof (rf_parents _ _ _ HR _ _ _ E1 P1). pose proof (rf_parents _ _ _ HR _ _ _ E2 P2).
  destruct (anc_two _ _ _ H1 H2) as [K|K].
  - destruct (anc_one _ _ _ _ E2 P2 K) as [?|K']; [assumption|]. apply anc_le in K'. lia.
  - destruct (anc_one _ _ _ _ E1 P1 K) as [?|K']; [congruence|]. apply anc_le in K'. lia.
Qed.

Definition execs (l : list (bool * nat * nat)) : list nat := map (fun x => snd (fst x)) l.
(** what holds for the nodes [l] and answers [F] below executor [id] *)
Record sub (id : nat) (l : list (bool * nat * nat)) (F : list (nat * list (string * string))) : Prop := {
  su_node : forall k x i, In (k, x, i) l -> lv x = k /\ anc id x /\
    exists e, nth_error (o_arena o) x = Some e /\ (forall y, In y (x_kids e) -> In y (execs l)) /\
              (x_state e = SSuccess -> In x (map fst F));
  su_nodup : NoDup (execs l);
  su_in : In id (execs l);
  su_fin : forall x b, In (x, b) F -> In x (execs l) /\ In (x, b) D;
  su_fnodup : NoDup (map fst F)
}.
Lemma execs_in x l : In x (execs l) -> exists k i, In (k, x, i) l.
Proof. intros H. apply in_map_iff in H. destruct H as ([[k y] i] & E & H). cbn in E. subst y. eauto. Qed.
Lemma in_execs k x i l : In (k, x, i) l -> In x (execs l).
Proof. intros H. apply (in_map (fun x => snd (fst x)) _ _ H). Qed.

Lemma sub_kids id : forall kl lFs, Forall2 (fun k lF => sub k (fst lF) (snd lF)) kl lFs -> NoDup kl ->
  (forall k, In k kl -> exists ke, nth_error (o_arena o) k = Some ke /\ x_parent ke = Some id) ->
  let l := flat_map fst lFs in let F := flat_map snd lFs in
  (forall k x i, In (k, x, i) l -> lv x = k /\ (exists j, In j kl /\ anc j x) /\
    exists e, nth_error (o_arena o) x = Some e /\ (forall y, In y (x_kids e) -> In y (execs l)) /\
              (x_state e = SSuccess -> In x (map fst F))) /\
  NoDup (execs l) /\ (forall k, In k kl -> In k (execs l)) /\
  (forall x b, In (x, b) F -> In x (execs l) /\ In (x, b) D) /\ NoDup (map fst F).
Proof.
  intros kl lFs H. induction H as [|k [l1 F1] kl lFs Hs H IH]; intros Hn Hk; cbn [flat_map fst snd].
  { csplit; try constructor; try contradiction. }
  inversion Hn as [|? ? Hn1 Hn2]; subst. destruct (IH Hn2) as (I1 & I2 & I3 & I4 & I5); [intros; apply Hk; now right|].
  clear IH. cbn [fst snd] in Hs. destruct Hs as [S1 S2 S3 S4 S5].
  assert (Ex : execs (l1 ++ flat_map fst lFs) = execs l1 ++ execs (flat_map fst lFs)) by apply map_app.
  assert (Ax : forall x, In x (execs l1) -> anc k x).
  { intros x Hx. apply execs_in in Hx. destruct Hx as (k0 & i & Hx). apply (S1 _ _ _ Hx). }
  assert (Bx : forall x, In x (execs (flat_map fst lFs)) -> exists j, In j kl /\ anc j x).
  { intros x Hx. apply execs_in in Hx. destruct Hx as (k0 & i & Hx). apply (I1 _ _ _ Hx). }
  assert (Apart : forall x, In x (execs l1) -> ~ In x (execs (flat_map fst lFs))).
  { intros x Hx Hy. destruct (Bx x Hy) as (j & Hj & Aj). destruct (Hk k) as (ke & Q1 & Q2); [now left|].
    destruct (Hk j) as (je & Q3 & Q4); [now right|].
    assert (k = j) by (eapply siblings_apart; [exact Q1|exact Q2|exact Q3|exact Q4|apply Ax, Hx|exact Aj]). congruence. }
  csplit.
  - intros k0 x i Hx. apply in_app_or in Hx. destruct Hx as [Hx|Hx].
    + destruct (S1 _ _ _ Hx) as (A1 & A2 & e & A3 & A4 & A5). csplit; auto; [exists k; split; [now left|assumption]|].
      exists e. csplit; auto; [intros y Hy; rewrite Ex; apply in_or_app; left; auto|].
      intros Hst. rewrite map_app. apply in_or_app. left. auto.
    + destruct (I1 _ _ _ Hx) as (A1 & (j & A2 & A2') & e & A3 & A4 & A5). csplit; auto; [exists j; split; [now right|assumption]|].
      exists e. csplit; auto; [intros y Hy; rewrite Ex; apply in_or_app; right; auto|].
      intros Hst. rewrite map_app. apply in_or_app. right. auto.
  - rewrite Ex. apply NoDup_app_ex; auto.
  - intros k0 [<-|Hk0]; rewrite Ex; apply in_or_app; [now left|right; auto].
  - intros x b Hx. apply in_app_or in Hx. rewrite Ex. destruct Hx as [Hx|Hx].
    + destruct (S4 _ _ Hx). split; [|assumption]. apply in_or_app. now left.
    + destruct (I4 _ _ Hx). split; [|assumption]. apply in_or_app. now right.
  - rewrite map_app. apply NoDup_app_ex; auto. intros x Hx Hy. apply in_map_iff in Hx, Hy.
    destruct Hx as ([x1 b1] & E1 & Hx), Hy as ([x2 b2] & E2 & Hy). cbn in E1, E2. subst x1 x2.
    exact (Apart x (proj1 (S4 _ _ Hx)) (proj1 (I4 _ _ Hy))).
Qed.

Lemma sub_node id cnt e lFs : nth_error (o_arena o) id = Some e -> x_state e <> SSuccess ->
  Forall2 (fun k lF => sub k (fst lF) (snd lF)) (x_kids e) lFs ->
  sub id ((lv id, id, cnt) :: flat_map fst lFs) (flat_map snd lFs).
Proof.
  intros He Hs HF. pose proof (ti_node _ _ _ _ _ _ _ _ HT id e He) as HN.
  assert (Hn : NoDup (x_kids e)) by (destruct (tn_kids _ _ _ _ _ _ _ _ HN) as (s & _ & ->); apply seq_NoDup).
  destruct (sub_kids id _ _ HF Hn (tn_down _ _ _ _ _ _ _ _ HN)) as (I1 & I2 & I3 & I4 & I5).
  assert (Up : forall j x, In j (x_kids e) -> anc j x -> anc id x /\ id < x).
  { intros j x Hj Hx. destruct (tn_down _ _ _ _ _ _ _ _ HN j Hj) as (je & J1 & J2).
    pose proof (rf_parents _ _ _ HR _ _ _ J1 J2). pose proof (anc_le _ _ Hx). split; [|lia].
    eapply anc_trans; [|exact Hx]. eapply anc_up; eauto. constructor. }
  split.
  - intros k x i [E|Hx].
    + injection E as <- <- <-. csplit; [reflexivity|constructor|]. exists e. csplit; auto; [|contradiction].
      intros y Hy. right. now apply I3.
    + destruct (I1 _ _ _ Hx) as (A1 & (j & A2 & A2') & ex & A3 & A4 & A5). csplit; auto; [apply (Up j x A2 A2')|].
      exists ex. csplit; auto. intros y Hy. right. now apply A4.
  - cbn. constructor; [|assumption]. intros Hx. apply execs_in in Hx. destruct Hx as (k & i & Hx).
    destruct (I1 _ _ _ Hx) as (_ & (j & A2 & A2') & _). pose proof (proj2 (Up j id A2 A2')). lia.
  - now left.
  - intros x b Hx. destruct (I4 _ _ Hx). split; [now right|assumption].
  - assumption.
Qed.

Lemma find_subs_flat id e pid m : nth_error (o_arena o) id = Some e -> x_parent e = Some pid -> closed o e m ->
  walkR cf o pid (p_trail (G id)) -> find_subs fuel o id = answer_of (o_sto o) fuel (m_heap m) (p_trail (G id)).
Proof.
  intros He Hp (Hh & _ & _) Hw. unfold find_subs. rewrite (get_exec_some o id e He). cbn [bind]. rewrite Hp.
  pose proof (rf_parents _ _ _ HR _ _ _ He Hp). pose proof (nth_error_lt _ _ _ He).
  rewrite Hw by lia. unfold answer_of. destruct (p_trail (G id)) as [l| |]; cbn [bind]; auto.
  apply bind_names_ext. intros k. rewrite Hp in Hh. now apply str_of_sim.
Qed.

Lemma make_q_sub n : forall id cnt t c, make_q fuel n o id cnt = Val (t, c) -> lv id = true -> sub id (q_pre t) (q_finals t).
Proof.
  induction n as [|n IH]; intros id cnt t c E Hlv; [discriminate|]. rewrite make_q_eq in E.
  apply bind_val in E. destruct E as (e & He & E). apply of_opt_val in He.
  apply bind_val in E. destruct E as ([ks c1] & Ek & E). injection E as <- <-. apply make_bs_all in Ek.
  rewrite q_pre_eq, q_finals_eq.
  assert (Hns : x_state e <> SSuccess).
  { intros Hs. destruct (tn_run _ _ _ _ _ _ _ _ (ti_node _ _ _ _ _ _ _ _ HT id e He)) as [(Hst & _)|[_ (c0 & a & rest & s & fu & _ & _ & _ & _ & _ & F6)]]; [congruence|].
    destruct F6; congruence. }
  assert (HF : Forall2 (fun k lF => sub k (fst lF) (snd lF)) (x_kids e) (map (fun b => (b_pre b, b_finals b)) ks)).
  { assert (Hlev : forall k, In k (x_kids e) -> exists ke, nth_error (o_arena o) k = Some ke /\ lv k = false).
    { intros k Hk. destruct (kid_level id e k He Hk) as (ke & Q1 & _ & Q2). exists ke. split; [assumption|]. now rewrite Q2, Hlv. }
    induction Ek as [|k b kl ks (cc & cc1 & Eb) Ek IHk]; cbn [map]; constructor; [|apply IHk; intros; apply Hlev; now right].
    destruct (Hlev k) as (ke & Q1 & Q2); [now left|]. cbn [fst snd]. clear IHk Hlev Ek.
    destruct (make_b_case _ _ _ _ _ _ _ Eb) as (ke' & He' & Hb). rewrite Q1 in He'. injection He' as <-.
    pose proof (ti_node _ _ _ _ _ _ _ _ HT k ke Q1) as HN.
    destruct (tn_run _ _ _ _ _ _ _ _ HN) as [(Hst & Hk & _)|[_ (c0 & a & rest & s & fu & F1 & F2 & F3 & F4 & F5 & F6)]].
    - rewrite Hst in Hb. destruct Hb as [-> ->]. rewrite b_pre_eq, <- Q2. apply (sub_node k cc ke []); auto; [congruence|]. rewrite Hk. constructor.
    - destruct F6 as [K1 K2 K3 K4|er K1 K2 K3 K4|f K1 K2 K3 K4 K5 K6|f rs K1 K2 K3 K4 K5 K6|pid b0 fu' K1 K2 K3 K4 K5 K6 K7 K8 K9 K10|j K1 K2 K3 K4 K5 K6 K7];
        try congruence.
      + rewrite K3 in Hb. destruct Hb as [-> ->]. rewrite b_pre_eq, <- Q2. apply (sub_node k cc ke []); auto; [congruence|]. rewrite K4. constructor.
      + rewrite K3 in Hb. destruct Hb as [-> ->]. rewrite b_pre_eq, <- Q2. apply (sub_node k cc ke []); auto; [congruence|]. rewrite K4. constructor.
      + rewrite K5 in Hb. destruct Hb as (l & El & -> & ->). cbn [b_pre b_finals].
        rewrite (find_subs_flat k ke pid (M k) Q1 K7 (F5 K1) K8) in El. pose proof (answer_of_det _ _ _ _ _ _ _ El K9) as ->.
        split.
        * intros k0 x i [E|[]]. injection E as <- <- <-. csplit; [assumption|constructor|]. exists ke. csplit; auto.
          -- rewrite K6. intros y [].
          -- intros _. now left.
        * cbn. repeat constructor. intros [].
        * now left.
        * intros x b [E|[]]. injection E as <- <-. split; [now left|assumption].
        * cbn. repeat constructor. intros [].
      + rewrite K5 in Hb. destruct Hb as (j' & q & Hl & Eq & ->). unfold last_child in Hl. rewrite K6 in Hl. injection Hl as <-.
        assert (Hj : In j (x_kids ke)) by (rewrite K6; now left). destruct (kid_level k ke j Q1 Hj) as (je & _ & _ & Hj').
        assert (Hlj : lv j = true) by (rewrite Hj', K2; reflexivity).
        pose proof (IH _ _ _ _ Eq Hlj) as Sq. rewrite b_pre_eq. cbn [b_finals]. rewrite <- Q2.
        pose proof (sub_node k cc ke [(q_pre q, q_finals q)] Q1) as SN. cbn [flat_map fst snd] in SN. rewrite !app_nil_r in SN.
        apply SN; [congruence|]. rewrite K6. constructor; [cbn [fst snd]; exact Sq|constructor]. }
  pose proof (sub_node id cnt e _ He Hns HF) as SN. rewrite Hlv in SN.
  rewrite !flat_map_concat_map, !map_map in SN. rewrite !flat_map_concat_map. exact SN.
Qed.

Lemma tree_execs n cnt t c : make_q fuel n o 0 cnt = Val (t, c) -> lv 0 = true ->
  Permutation (q_execs t) (seq 0 (List.length (o_arena o))) /\ Permutation (q_finals t) D.
Proof.
  intros E Hlv. pose proof (make_q_sub _ _ _ _ _ E Hlv) as [S1 S2 S3 S4 S5].
  assert (All : forall x, x < List.length (o_arena o) -> In x (execs (q_pre t))).
  { intros x. induction x as [x IH] using lt_wf_ind. intros Hx.
    destruct (nth_error (o_arena o) x) as [e|] eqn:He; [|apply nth_error_None in He; lia].
    destruct (tn_up _ _ _ _ _ _ _ _ (ti_node _ _ _ _ _ _ _ _ HT x e He)) as [(-> & _)|(pid & pe & U1 & U2 & U3 & U4)]; [assumption|].
    pose proof (rf_parents _ _ _ HR _ _ _ He U1). assert (Hp : In pid (execs (q_pre t))) by (apply IH; [assumption|lia]).
    apply execs_in in Hp. destruct Hp as (k & i & Hp). destruct (S1 _ _ _ Hp) as (_ & _ & pe' & A3 & A4 & _).
    rewrite U2 in A3. injection A3 as <-. now apply A4. }
  split.
  - apply NoDup_Permutation; [exact S2|apply seq_NoDup|]. intros x. rewrite in_seq. split.
    + intros H. apply execs_in in H. destruct H as (k & i & H). destruct (S1 _ _ _ H) as (_ & _ & e & A3 & _).
      apply nth_error_lt in A3. lia.
    + intros H. apply All. lia.
  - apply NoDup_Permutation; [exact (NoDup_map_inv _ _ S5)|exact (NoDup_map_inv _ _ (ti_done _ _ _ _ _ _ _ _ HT))|].
    intros [x b]. split; [apply S4|]. intros Hx. destruct (ti_doneb _ _ _ _ _ _ _ _ HT x b Hx) as (e & He & Hs).
    pose proof (All x (nth_error_lt _ _ _ He)) as Hin. apply execs_in in Hin. destruct Hin as (k & i & Hin).
    destruct (S1 _ _ _ Hin) as (_ & _ & e' & A3 & _ & A5). rewrite He in A3. injection A3 as <-. specialize (A5 Hs).
    apply in_map_iff in A5. destruct A5 as ([x' b'] & E' & A5). cbn in E'. subst x'. destruct (S4 _ _ A5) as [_ B].
    assert (b = b') by (eapply nodup_fst; [exact (ti_done _ _ _ _ _ _ _ _ HT)|exact Hx|exact B]). now subst b'.
Qed.
End Shows.
