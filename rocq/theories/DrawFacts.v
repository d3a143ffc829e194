(** The picture of the unification tree and the tree. *)
From Coq Require Import Sorting.Permutation.
From Verif Require Import Base Machine Heap Facts HeapSim Compiler Parser Print Organizer Process Refine Turn Shape Mono Session
  Search Order Runs Parsed Tables Root Clause Atoms Tree TreeTurn TreeInv TreeRun TreeSrc TreeFacts TreeShape TreeAll Draw.
Open Scope list_scope.

(** --- the query nodes of a tree --- *)
Fixpoint q_all (t : qnode) : list qnode :=
  match t with
  | QNode ex id nm ks =>
      t :: (fix go (l : list bnode) := match l with [] => [] | b :: l' => b_all b ++ go l' end) ks
  end
with b_all (b : bnode) : list qnode :=
  match b with BNode ex id _ c => match c with BQuery q => q_all q | _ => [] end end.
Lemma q_all_eq ex id nm ks : q_all (QNode ex id nm ks) = QNode ex id nm ks :: flat_map b_all ks.
Proof. reflexivity. Qed.
Lemma q_all_self t : In t (q_all t).
Proof. destruct t as [ex id nm ks]. rewrite q_all_eq. now left. Qed.
Lemma q_all_len : forall t, List.length (q_all t) <= List.length (q_pre t).
Proof.
  apply (qnode_ind2 _ (fun b => List.length (b_all b) <= List.length (b_pre b))).
  - intros ex id nm ks H. rewrite q_all_eq, q_pre_eq. cbn [List.length]. apply le_n_S.
    induction H as [|b ks Hb H IH]; [auto|]. cbn [flat_map]. rewrite !app_length. lia.
  - cbn. lia. - cbn. lia. - intros ex id bs q H. cbn [b_all b_pre List.length]. lia.
Qed.
Definition query_ids (t : qnode) : list nat := map snd (filter (fun x => fst (fst x)) (q_pre t)).
Lemma filter_flat {A B} (f : B -> bool) (g : A -> list B) l : filter f (flat_map g l) = flat_map (fun x => filter f (g x)) l.
Proof. induction l as [|x l IH]; [reflexivity|]. cbn. now rewrite filter_app, IH. Qed.
Lemma q_all_ids : forall t, map q_id (q_all t) = query_ids t.
Proof.
  unfold query_ids.
  apply (qnode_ind2 _ (fun b => map q_id (b_all b) = map snd (filter (fun x => fst (fst x)) (b_pre b)))); auto.
  intros ex id nm ks H. rewrite q_all_eq, q_pre_eq. cbn [map filter fst snd q_id]. f_equal.
  induction H as [|b ks Hb H IH]; [reflexivity|]. cbn [flat_map]. now rewrite filter_app, !map_app, Hb, IH.
Qed.
Lemma nodup_filter {A} (f : A -> bool) (l : list A) : NoDup l -> NoDup (filter f l).
Proof. apply NoDup_filter. Qed.
Lemma nodup_map_filter {A B} (g : A -> B) (f : A -> bool) (l : list A) : NoDup (map g l) -> NoDup (map g (filter f l)).
Proof.
  induction l as [|x l IH]; intros H; [constructor|]. inversion H as [|? ? H1 H2]; subst. cbn. destruct (f x); [|auto].
  cbn. constructor; [|auto]. intros Hi. apply H1. apply in_map_iff in Hi. destruct Hi as (y & <- & Hy). apply in_map.
  now apply filter_In in Hy.
Qed.
Lemma tree_query_ids fuel o t : make_tree fuel o = Val t -> NoDup (map q_id (q_all t)) /\ q_id t = 0.
Proof.
  intros E. pose proof (tree_ids _ _ _ E) as K. split.
  - rewrite q_all_ids. unfold query_ids. apply nodup_map_filter. fold (q_ids t). rewrite K. apply seq_NoDup.
  - destruct t as [ex id nm ks]. unfold q_ids in K. rewrite q_pre_eq in K. cbn in K. injection K as K _. exact K.
Qed.

(** --- what is drawn below a query node --- *)
Definition b_kid (o : org) (b : bnode) : vchild :=
  match b with
  | BNode _ _ _ (BQuery q) => VDown q
  | BNode _ _ _ (BFinal l) => VExtra VAnswer (final_str l)
  | BNode ex _ _ BNone =>
      match nth_error (o_arena o) ex with
      | Some e => if is_running e then continue_child else VExtra VNotUnifiable "not unifiable"
      | None => continue_child
      end
  end.
Definition kids_of (o : org) (t : qnode) : list vchild :=
  match t with
  | QNode ex _ _ ks =>
      match nth_error (o_arena o) ex with
      | Some e => if is_running e then [continue_child] else if has_failed e then [VExtra VNoRule "no such rule"] else map (b_kid o) ks
      | None => []
      end
  end.
Lemma shows_bkid o P gs c b : bshows o P gs c b -> bind_child o b = Val (b_kid o b).
Proof.
  intros H. destruct H as [gs h body ex id bs e H1 H2 H3|gs h body ex id bs e H1 H2 H3|h ex id bs e b H1 H2 H3|gs h body ex id bs e q H1 H2 H3 H4];
    cbn [bind_child b_kid]; unfold get_exec; try rewrite H1; cbn [of_opt bind]; unfold has_failed, is_running in *; try rewrite H2; auto.
  destruct (x_state e); try discriminate; reflexivity.
Qed.
Lemma shows_kids o P gs t : qshows o P gs t -> q_children o t = Val (kids_of o t).
Proof.
  intros H. destruct H as [g gs ex id nm e H1 H2|g gs ex id nm e H1 H2 H3 H4|g gs ex id nm e ks H1 H2 H3 H4 H5];
    cbn [q_children kids_of]; unfold get_exec; rewrite H1; cbn [of_opt bind]; unfold has_failed, is_running; rewrite H2; auto.
  clear H4. induction H5 as [|c b cs ks Hb F IH]; [reflexivity|]. cbn [bind_children map]. rewrite (shows_bkid _ _ _ _ _ Hb).
  now rewrite IH.
Qed.
(** every query node of the tree shows some goals *)
Lemma shows_all o P : forall t gs, qshows o P gs t -> forall q, In q (q_all t) -> exists gs', qshows o P gs' q.
Proof.
  apply (qnode_ind2 (fun t => forall gs, qshows o P gs t -> forall q, In q (q_all t) -> exists gs', qshows o P gs' q)
    (fun b => forall gs c, bshows o P gs c b -> forall q, In q (b_all b) -> exists gs', qshows o P gs' q)).
  - intros ex id nm ks H gs S q Hq. rewrite q_all_eq in Hq. destruct Hq as [<-|Hq]; [eauto|].
    assert (F : exists gs1 cs, Forall2 (fun c b => bshows o P gs1 c b) cs ks) by (inversion S; subst; [exists [], []; constructor|exists [], []; constructor|eauto]).
    clear S. destruct F as (gs1 & cs & F). revert H Hq. induction F as [|c b cs ks Hb F IH]; intros Hk Hq; [contradiction|].
    inversion Hk; subst. cbn in Hq. apply in_app_or in Hq. destruct Hq as [Hq|Hq]; eauto.
  - intros ex id bs gs c S q [].
  - intros ex id bs b gs c S q [].
  - intros ex id bs q0 H gs c S q Hq. inversion S; subst. eauto.
Qed.

(** --- putting the children --- *)
Definition new_q (t : qnode) : vnode := {| v_id := Z.of_nat (q_id t); v_kind := VQuery; v_label := label_of t |}.
Definition extra_of (c : vchild) : list (vkind * string) := match c with VDown _ => [] | VExtra k s => [(k, s)] end.
Definition down_of (c : vchild) : list qnode := match c with VDown q => [q] | VExtra _ _ => [] end.
Definition what (v : vnode) : vkind * string := (v_kind v, v_label v).
Fixpoint down_from (c : Z) (n : nat) : list Z := match n with 0 => [] | S n' => c :: down_from (c - 1) n' end.
Definition put_nodes (x : list vnode * list (Z * Z) * list qnode * Z) : list vnode := fst (fst (fst x)).
Definition put_edges (x : list vnode * list (Z * Z) * list qnode * Z) : list (Z * Z) := snd (fst (fst x)).
Definition put_queue (x : list vnode * list (Z * Z) * list qnode * Z) : list qnode := snd (fst x).
(** a child and the node drawn for it *)
Definition stands (ns : list vnode) (c : vchild) (k : Z) : Prop :=
  match c with
  | VDown q => k = Z.of_nat (q_id q)
  | VExtra kd s => In {| v_id := k; v_kind := kd; v_label := s |} ns
  end.
Lemma put_children_eq from : forall l cnt, let x := put_children from l cnt in
  map what (put_nodes x) = flat_map extra_of l /\ map v_id (put_nodes x) = down_from cnt (List.length (flat_map extra_of l)) /\
  put_queue x = flat_map down_of l /\ snd x = (cnt - Z.of_nat (List.length (flat_map extra_of l)))%Z /\
  (forall e, In e (put_edges x) -> fst e = from) /\
  Permutation (map snd (put_edges x)) (map v_id (put_nodes x) ++ map (fun q => Z.of_nat (q_id q)) (put_queue x)) /\
  Forall2 (stands (put_nodes x)) l (map snd (put_edges x)).
Proof.
  induction l as [|c l IH]; intros cnt x; subst x.
  - cbn. csplit; auto; try lia; try tauto.
  - destruct c as [q|k s]; cbn [put_children].
    + specialize (IH cnt). cbv zeta in IH. destruct (put_children from l cnt) as [[[ns es] qs] c]. cbn [put_nodes put_edges put_queue fst snd] in *.
      destruct IH as (A & B & C & D & E & F & G). csplit; auto.
      * cbn [flat_map down_of app]. now rewrite C.
      * intros e [<-|He]; auto.
      * cbn [map snd]. etransitivity; [apply perm_skip, F|]. apply Permutation_middle.
      * cbn [map snd]. constructor; [reflexivity|assumption].
    + specialize (IH (cnt - 1)%Z). cbv zeta in IH. destruct (put_children from l (cnt - 1)) as [[[ns es] qs] c]. cbn [put_nodes put_edges put_queue fst snd] in *.
      destruct IH as (A & B & C & D & E & F & G). csplit; auto.
      * cbn [map flat_map extra_of app what v_kind v_label]. now rewrite A.
      * cbn [map flat_map extra_of app v_id List.length down_from]. now rewrite B.
      * rewrite D. cbn [flat_map extra_of app List.length]. lia.
      * intros e [<-|He]; auto.
      * cbn [map snd v_id app]. now apply perm_skip.
      * cbn [map snd]. constructor; [now left|]. eapply Forall2_impl; [|exact G]. intros [q|k' s'] z Hz; [exact Hz|now right].
Qed.

(** --- the loop --- *)
Section Loop.
Variable o : org.
Definition fine (q : qnode) : Prop := q_children o q = Val (kids_of o q) /\ flat_map q_all (flat_map down_of (kids_of o q)) = tl (q_all q).
Definition extras (q : qnode) : list (vkind * string) := flat_map extra_of (kids_of o q).

(** the edges from a node, in order *)
Definition edges_from (es : list (Z * Z)) (k : Z) : list Z := map snd (filter (fun e => Z.eqb (fst e) k) es).

Record good_loop (queue : list qnode) (cnt : Z) (ns : list vnode) (es : list (Z * Z)) : Prop := {
  gl_kinds : Permutation (map what ns) (map (fun q => (VQuery, label_of q)) (flat_map q_all queue) ++ flat_map extras (flat_map q_all queue));
  gl_ids : Permutation (map v_id ns) (map (fun q => Z.of_nat (q_id q)) (flat_map q_all queue) ++
             down_from cnt (List.length (flat_map extras (flat_map q_all queue))));
  gl_targets : Permutation (map (fun q => Z.of_nat (q_id q)) queue ++ map snd es) (map v_id ns);
  gl_before : forall a b, In (a, b) es -> exists l1 v l2 w l3, ns = l1 ++ v :: l2 ++ w :: l3 /\ v_id v = a /\ v_kind v = VQuery /\ v_id w = b;
  gl_from : forall e, In e es -> exists q, In q (flat_map q_all queue) /\ fst e = Z.of_nat (q_id q);
  gl_node : forall q, In q (flat_map q_all queue) -> In (new_q q) ns;
  gl_kids : forall q, In q (flat_map q_all queue) -> Forall2 (stands ns) (kids_of o q) (edges_from es (Z.of_nat (q_id q)))
}.

Lemma down_from_app n m : forall c, down_from c (n + m) = down_from c n ++ down_from (c - Z.of_nat n) m.
Proof.
  induction n as [|n IH]; intros c; cbn [down_from Nat.add app]; [now rewrite Z.sub_0_r|].
  rewrite IH. do 2 f_equal. f_equal. lia.
Qed.
Lemma stands_incl ns ns' c k : incl ns ns' -> stands ns c k -> stands ns' c k.
Proof. intros H. destruct c; cbn; auto. Qed.
Lemma edges_from_app a b k : edges_from (a ++ b) k = edges_from a k ++ edges_from b k.
Proof. unfold edges_from. now rewrite filter_app, map_app. Qed.
Lemma edges_from_all es k : (forall e, In e es -> fst e = k) -> edges_from es k = map snd es.
Proof.
  intros H. unfold edges_from. f_equal. induction es as [|e es IH]; [reflexivity|]. cbn. rewrite (H e) by now left.
  rewrite Z.eqb_refl. f_equal. apply IH. intros; apply H. now right.
Qed.
Lemma edges_from_none es k : (forall e, In e es -> fst e <> k) -> edges_from es k = [].
Proof.
  intros H. unfold edges_from. induction es as [|e es IH]; [reflexivity|]. cbn.
  destruct (Z.eqb_spec (fst e) k) as [E|E]; [destruct (H e); [now left|assumption]|]. apply IH. intros; apply H. now right.
Qed.

Lemma draw_loop_good : forall n queue cnt, List.length (flat_map q_all queue) <= n ->
  Forall fine (flat_map q_all queue) -> NoDup (map q_id (flat_map q_all queue)) ->
  exists ns es, draw_loop n o queue cnt = Val (ns, es) /\ good_loop queue cnt ns es.
Proof.
  induction n as [|n IH]; intros queue cnt L F N.
  - destruct queue as [|t queue]; [|destruct t; cbn in L; lia]. exists [], []. split; [reflexivity|].
    constructor; cbn; auto; try (intros; contradiction).
  - destruct queue as [|t queue].
    { exists [], []. split; [reflexivity|]. constructor; cbn; auto; intros; contradiction. }
    assert (Ft : fine t). { apply (proj1 (Forall_forall _ _) F). cbn. apply in_or_app. left. apply q_all_self. }
    destruct Ft as [Ek Ed]. cbn [draw_loop]. rewrite Ek. cbn [bind].
    pose proof (put_children_eq (Z.of_nat (q_id t)) (kids_of o t) cnt) as K. cbv zeta in K.
    destruct (put_children (Z.of_nat (q_id t)) (kids_of o t) cnt) as [[[ns es] qs] c].
    cbn [put_nodes put_edges put_queue fst snd] in K. destruct K as (A & B & C & D & E & G & H). subst qs.
    assert (Pm : Permutation (flat_map q_all (t :: queue)) (t :: flat_map q_all (queue ++ flat_map down_of (kids_of o t)))).
    { rewrite flat_map_app, Ed. cbn [flat_map]. destruct t as [ex id nm ks]. rewrite q_all_eq. cbn [tl app]. apply perm_skip.
      apply Permutation_app_comm. }
    set (rest := queue ++ flat_map down_of (kids_of o t)) in *.
    pose proof (Permutation_NoDup (Permutation_map q_id Pm) N) as N'. cbn [map] in N'. apply NoDup_cons_iff in N'; destruct N' as [Nt Nr].
    destruct (IH rest c) as (ns' & es' & E' & K).
    + pose proof (Permutation_length Pm) as PL. cbn [List.length] in PL. lia.
    + rewrite Forall_forall in *. intros x Hx. apply F. apply (Permutation_in _ (Permutation_sym Pm)). now right.
    + assumption.
    + rewrite E'. cbn [bind]. fold (new_q t). exists (new_q t :: ns ++ ns'), (es ++ es'). split; [reflexivity|].
      destruct K as [K1 K2 K3 K4 K5 K6 K7].
      assert (Px : Permutation (flat_map extras (flat_map q_all (t :: queue))) (extras t ++ flat_map extras (flat_map q_all rest))).
      { exact (Permutation_flat_map extras Pm). }
      constructor.
      * cbn [map]. rewrite map_app, A. rewrite (Permutation_map (fun q => (VQuery, label_of q)) Pm), Px. cbn [map app].
        apply perm_skip. rewrite K1. fold (extras t). rewrite !app_assoc. apply Permutation_app_tail. apply Permutation_app_comm.
      * cbn [map]. rewrite map_app, B. rewrite (Permutation_map (fun q => Z.of_nat (q_id q)) Pm), (Permutation_length Px).
        rewrite app_length, down_from_app. cbn [map app]. fold (extras t) in *. rewrite K2, D.
        apply perm_skip. rewrite !app_assoc. apply Permutation_app_tail. apply Permutation_app_comm.
      * cbn [map]. rewrite !map_app. cbn [app v_id new_q]. apply perm_skip. rewrite G, <- K3. unfold rest. rewrite map_app.
        rewrite !app_assoc. apply Permutation_app_tail. rewrite <- !app_assoc. rewrite Permutation_app_comm. rewrite <- app_assoc.
        apply Permutation_app_head. apply Permutation_app_comm.
      * intros a b Hab. apply in_app_or in Hab. destruct Hab as [Hab|Hab].
        -- pose proof (E _ Hab) as Ea. cbn in Ea. subst a.
           assert (Hb : In b (map v_id (ns ++ ns'))).
           { rewrite map_app. apply in_or_app. apply (in_map snd) in Hab. cbn in Hab. apply (Permutation_in _ G) in Hab.
             apply in_app_or in Hab. destruct Hab as [Hab|Hab]; [now left|right].
             apply (Permutation_in _ K3). apply in_or_app. left. unfold rest. rewrite map_app. apply in_or_app. now right. }
           apply in_map_iff in Hb. destruct Hb as (w & Ew & Hw). apply in_split in Hw. destruct Hw as (l2 & l3 & El).
           exists [], (new_q t), l2, w, l3. cbn [app]. rewrite El. csplit; auto.
        -- destruct (K4 _ _ Hab) as (l1 & v & l2 & w & l3 & -> & J1 & J2 & J3).
           exists (new_q t :: ns ++ l1), v, l2, w, l3. csplit; auto. cbn [app]. now rewrite <- app_assoc.
      * intros e He. apply in_app_or in He. destruct He as [He|He].
        -- exists t. split; [apply (Permutation_in _ (Permutation_sym Pm)); now left|]. now apply E.
        -- destruct (K5 _ He) as (q & Hq & Eq). exists q. split; [|assumption]. apply (Permutation_in _ (Permutation_sym Pm)). now right.
      * intros q Hq. apply (Permutation_in _ Pm) in Hq. destruct Hq as [<-|Hq]; [now left|]. right. apply in_or_app. right. auto.
      * intros q Hq. apply (Permutation_in _ Pm) in Hq. rewrite edges_from_app. destruct Hq as [<-|Hq].
        -- rewrite edges_from_all by assumption. rewrite edges_from_none.
           ++ rewrite app_nil_r. eapply Forall2_impl; [|exact H]. intros x y. apply stands_incl. intros z Hz. right. apply in_or_app. now left.
           ++ intros e He Ee. destruct (K5 _ He) as (q & Hq & Eq). apply Nt. rewrite Eq in Ee. apply Nat2Z.inj in Ee. rewrite <- Ee.
              now apply in_map.
        -- rewrite edges_from_none; cbn [app].
           ++ eapply Forall2_impl; [|exact (K7 _ Hq)]. intros x y. apply stands_incl. intros z Hz. right. apply in_or_app. now right.
           ++ intros e He Ee. rewrite (E _ He) in Ee. apply Nat2Z.inj in Ee. apply Nt. rewrite Ee. now apply in_map.
Qed.
End Loop.

Lemma shows_fine o P gs t : qshows o P gs t -> fine o t.
Proof.
  intros H. split; [exact (shows_kids _ _ _ _ H)|].
  destruct H as [g gs ex id nm e H1 H2|g gs ex id nm e H1 H2 H3 H4|g gs ex id nm e ks H1 H2 H3 H4 H5];
    cbn [kids_of]; rewrite H1; unfold has_failed, is_running; rewrite H2; auto.
  rewrite q_all_eq. cbn [tl]. clear H4. induction H5 as [|c b cs ks Hb F IH]; [reflexivity|].
  cbn [map flat_map]. rewrite flat_map_app, IH. f_equal.
  destruct Hb as [gs h body ex' id' bs e' K1 K2 K3|gs h body ex' id' bs e' K1 K2 K3|h ex' id' bs e' b K1 K2 K3|gs h body ex' id' bs e' q K1 K2 K3 K4];
    cbn [b_kid]; try rewrite K1; unfold is_running; auto.
  - now rewrite K2.
  - destruct (x_state e'); auto.
  - cbn. apply app_nil_r.
Qed.

(** --- the picture --- *)
Definition kind_at (p : picture) (k : Z) (kd : vkind) : Prop := exists v, In v (p_nodes p) /\ v_id v = k /\ v_kind v = kd.
(** the nodes below a node, from left to right *)
Definition below (p : picture) (k : Z) : list Z := edges_from (p_edges p) k.

(** [drawn p P gs k]: the node [k] of the picture is a query node for the goals [gs]; [drawn_kid p P gs c k]: the node [k] is
    what became of trying the clause [c] while the goals [gs] are left. *)
Inductive drawn (p : picture) (P : list (list node)) : list node -> Z -> Prop :=
| dr_wait gs k j : kind_at p k VQuery -> below p k = [j] -> kind_at p j VContinue -> drawn p P gs k
| dr_none g gs k j : clauses_for P (to_fview g) = [] -> kind_at p k VQuery -> below p k = [j] -> kind_at p j VNoRule ->
    drawn p P (g :: gs) k
| dr_call g gs k : clauses_for P (to_fview g) <> [] -> kind_at p k VQuery ->
    Forall2 (drawn_kid p P gs) (clauses_for P (to_fview g)) (below p k) -> drawn p P (g :: gs) k
with drawn_kid (p : picture) (P : list (list node)) : list node -> list node -> Z -> Prop :=
| dk_wait gs c k : kind_at p k VContinue -> drawn_kid p P gs c k
| dk_fail gs c k : kind_at p k VNotUnifiable -> drawn_kid p P gs c k
| dk_done h k : kind_at p k VAnswer -> drawn_kid p P [] [h] k
| dk_next gs h body k : drawn p P (body ++ gs) k -> drawn_kid p P gs (h :: body) k.

Lemma stands_kind p k kd s j : stands (p_nodes p) (VExtra kd s) j -> k = kd -> kind_at p j k.
Proof. intros H ->. eexists. split; [exact H|]. split; reflexivity. Qed.

Lemma shows_drawn o P p : forall t gs, qshows o P gs t ->
  (forall q, In q (q_all t) -> In (new_q q) (p_nodes p) /\ Forall2 (stands (p_nodes p)) (kids_of o q) (below p (Z.of_nat (q_id q)))) ->
  drawn p P gs (Z.of_nat (q_id t)).
Proof.
  apply (qnode_ind2 (fun t => forall gs, qshows o P gs t ->
    (forall q, In q (q_all t) -> In (new_q q) (p_nodes p) /\ Forall2 (stands (p_nodes p)) (kids_of o q) (below p (Z.of_nat (q_id q)))) ->
    drawn p P gs (Z.of_nat (q_id t)))
    (fun b => forall gs c j, bshows o P gs c b -> stands (p_nodes p) (b_kid o b) j ->
    (forall q, In q (b_all b) -> In (new_q q) (p_nodes p) /\ Forall2 (stands (p_nodes p)) (kids_of o q) (below p (Z.of_nat (q_id q)))) ->
    drawn_kid p P gs c j)).
  - intros ex id nm ks Hk gs S N.
    destruct (N _ (q_all_self _)) as [N1 N2]. cbn [q_id] in *.
    assert (Kq : kind_at p (Z.of_nat id) VQuery). { eexists. split; [exact N1|]. split; reflexivity. }
    set (k := Z.of_nat id) in *. remember (QNode ex id nm ks) as t eqn:Et. destruct S as [g gs ex' id' nm' e H1 H2|g gs ex' id' nm' e H1 H2 H3 H4|g gs ex' id' nm' e ks' H1 H2 H3 H4 H5];
      injection Et as -> -> -> Et; cbn [kids_of] in N2; rewrite H1 in N2; unfold has_failed, is_running in N2; rewrite H2 in N2.
    + inversion N2 as [|? j ? l' Hs F' E1 E2]; subst. inversion F'; subst. eapply dr_wait; eauto. eapply stands_kind; eauto.
    + inversion N2 as [|? j ? l' Hs F' E1 E2]; subst. inversion F'; subst. eapply dr_none; eauto. eapply stands_kind; eauto.
    + subst ks'. apply dr_call; auto. clear H4 N1. assert (Nk : forall q, In q (flat_map b_all ks) -> In (new_q q) (p_nodes p) /\ Forall2 (stands (p_nodes p)) (kids_of o q) (below p (Z.of_nat (q_id q)))).
      { intros q Hq. apply N. rewrite q_all_eq. now right. }
      clear N. revert H5 N2 Nk. generalize (clauses_for P (to_fview g)) (below p k). induction Hk as [|b ks Hb Hk IH]; intros cs js F2 N2 Nk.
      * inversion F2; subst. inversion N2; subst. constructor.
      * inversion F2 as [|c ? cs' ? Hc F2' Ec]; subst. inversion N2 as [|? j ? js' Hj N2' Ej]; subst. constructor.
        -- apply (Hb gs c j Hc Hj). intros q Hq. apply Nk. cbn. apply in_or_app. now left.
        -- apply IH; auto. intros q Hq. apply Nk. cbn. apply in_or_app. now right.
  - intros ex id bs gs c j S Hj _. inversion S as [? ? ? ? ? ? e H1 H2 H3|? ? ? ? ? ? e H1 H2 H3| |]; subst; cbn [b_kid] in Hj; rewrite H1 in Hj; unfold is_running in Hj.
    + rewrite H2 in Hj. apply dk_wait. eapply stands_kind; eauto.
    + apply dk_fail. unfold has_failed in H2. destruct (x_state e); try discriminate; eapply stands_kind; eauto.
  - intros ex id bs b gs c j S Hj _. inversion S; subst. apply dk_done. eapply stands_kind; eauto.
  - intros ex id bs q H gs c j S Hj N. inversion S; subst. cbn in Hj. subst j. apply dk_next. apply H; auto.
Qed.

(** --- answers and open ends --- *)
Definition is_ans (x : vkind * string) : bool := match fst x with VAnswer => true | _ => false end.
Definition is_open (x : vkind * string) : bool := match fst x with VContinue => true | _ => false end.
Definition runs (o : org) (ex : nat) : bool := match nth_error (o_arena o) ex with Some e => is_running e | None => false end.

Lemma extras_finals o P : forall t gs, qshows o P gs t ->
  Permutation (map snd (filter is_ans (flat_map (extras o) (q_all t)))) (map (fun x => final_str (snd x)) (q_finals t)).
Proof.
  apply (qnode_ind2 (fun t => forall gs, qshows o P gs t ->
    Permutation (map snd (filter is_ans (flat_map (extras o) (q_all t)))) (map (fun x => final_str (snd x)) (q_finals t)))
    (fun b => forall gs c, bshows o P gs c b ->
    Permutation (map snd (filter is_ans (extra_of (b_kid o b) ++ flat_map (extras o) (b_all b)))) (map (fun x => final_str (snd x)) (b_finals b)))).
  - intros ex id nm ks Hk gs S. rewrite q_all_eq, q_finals_eq.
    remember (QNode ex id nm ks) as t eqn:Et. destruct S as [g gs ex' id' nm' e H1 H2|g gs ex' id' nm' e H1 H2 H3 H4|g gs ex' id' nm' e ks' H1 H2 H3 H4 H5];
      injection Et as -> -> -> Et; cbn [flat_map]; unfold extras at 1; cbn [kids_of]; rewrite H1; unfold has_failed, is_running; rewrite H2.
    + subst ks. cbn. auto.
    + subst ks. cbn. auto.
    + subst ks'. clear H4. revert H5. generalize (clauses_for P (to_fview g)). induction Hk as [|b ks Hb Hk IH]; intros cs F.
      * cbn. auto.
      * inversion F as [|c ? cs' ? Hc F']; subst. cbn [map flat_map]. rewrite flat_map_app, !filter_app, !map_app.
        specialize (Hb _ _ Hc). specialize (IH _ F'). rewrite !filter_app, !map_app in IH, Hb. rewrite <- IH, <- Hb.
        rewrite <- !app_assoc. apply Permutation_app_head. rewrite !app_assoc. apply Permutation_app_tail. apply Permutation_app_comm.
  - intros ex id bs gs c S. inversion S as [? ? ? ? ? ? e H1 H2 H3|? ? ? ? ? ? e H1 H2 H3| |]; subst; cbn [b_kid]; rewrite H1; unfold is_running.
    + rewrite H2. cbn. auto.
    + unfold has_failed in H2. destruct (x_state e); try discriminate; cbn; auto.
  - intros ex id bs b gs c S. cbn. auto.
  - intros ex id bs q H gs c S. inversion S; subst. cbn [b_kid extra_of app b_all b_finals]. eauto.
Qed.

Lemma extras_open o P : forall t gs, qshows o P gs t ->
  List.length (filter is_open (flat_map (extras o) (q_all t))) = List.length (filter (runs o) (q_execs t)).
Proof.
  unfold q_execs.
  apply (qnode_ind2 (fun t => forall gs, qshows o P gs t ->
    List.length (filter is_open (flat_map (extras o) (q_all t))) = List.length (filter (runs o) (map (fun x => snd (fst x)) (q_pre t))))
    (fun b => forall gs c, bshows o P gs c b ->
    List.length (filter is_open (extra_of (b_kid o b) ++ flat_map (extras o) (b_all b))) =
      List.length (filter (runs o) (map (fun x => snd (fst x)) (b_pre b))))).
  - intros ex id nm ks Hk gs S. rewrite q_all_eq, q_pre_eq. cbn [map filter fst snd]. unfold runs at 1.
    remember (QNode ex id nm ks) as t eqn:Et. destruct S as [g gs ex' id' nm' e H1 H2|g gs ex' id' nm' e H1 H2 H3 H4|g gs ex' id' nm' e ks' H1 H2 H3 H4 H5];
      injection Et as -> -> -> Et; cbn [flat_map]; unfold extras at 1; cbn [kids_of]; rewrite H1; unfold has_failed, is_running; rewrite H2.
    + subst ks. reflexivity.
    + subst ks. reflexivity.
    + subst ks'. clear H4. revert H5. generalize (clauses_for P (to_fview g)). induction Hk as [|b ks Hb Hk IH]; intros cs F.
      * reflexivity.
      * inversion F as [|c ? cs' ? Hc F']; subst. cbn [map flat_map]. rewrite map_app, flat_map_app, !filter_app, !app_length.
        specialize (Hb _ _ Hc). specialize (IH _ F'). rewrite !filter_app, !app_length in IH, Hb. lia.
  - intros ex id bs gs c S. cbn [b_pre map filter fst snd]. unfold runs. inversion S as [? ? ? ? ? ? e H1 H2 H3|? ? ? ? ? ? e H1 H2 H3| |]; subst; cbn [b_kid]; rewrite H1; unfold is_running.
    + rewrite H2. reflexivity.
    + unfold has_failed in H2. destruct (x_state e); try discriminate; reflexivity.
  - intros ex id bs b gs c S. cbn [b_pre map filter fst snd]. unfold runs. inversion S as [| |? ? ? ? e ? H1 H2 H3|]; subst. rewrite H1. unfold is_running. rewrite H2. reflexivity.
  - intros ex id bs q H gs c S. cbn [b_pre map filter fst snd]. unfold runs at 1. inversion S as [| | |? ? ? ? ? ? e ? H1 H2 H3 H4]; subst. rewrite H1. unfold is_running at 1. rewrite H2.
    cbn [b_kid extra_of app b_all]. eauto.
Qed.

Section Session.
Variable cf : cfg.

Lemma run_count o q D : has_tree cf o q D -> List.length (filter (runs o) (seq 0 (List.length (o_arena o)))) = List.length (o_queue o).
Proof.
  intros (rl & ps & lv & G & M & Q & R & T & S). apply Permutation_length. apply NoDup_Permutation.
  - apply NoDup_filter, seq_NoDup.
  - exact (rf_nodup _ _ _ R).
  - intros x. rewrite filter_In, in_seq. unfold runs. split.
    + intros (Hx & Hr). destruct (nth_error (o_arena o) x) as [e|] eqn:He; [|discriminate]. unfold is_running in Hr.
      destruct (tn_run _ _ _ _ _ _ _ _ (ti_node _ _ _ _ _ _ _ _ T x e He)) as [(_ & _ & K)|(K & _)]; [assumption|].
      destruct (x_state e); try discriminate. now destruct K.
    + intros Hx. pose proof (rf_queue _ _ _ R) as F. clear R T S Q.
      induction F as [|y p l ps' Hy F IH]; [contradiction|]. destruct Hx as [->|Hx]; [|auto].
      destruct Hy as (e & He & Hr & _). rewrite He. unfold is_running. rewrite Hr. split; [|reflexivity].
      assert (nth_error (o_arena o) x <> None) by congruence. apply nth_error_Some in H. lia.
Qed.

Record good_picture (o : org) (P : list (list node)) (q : list node) (t : qnode) (p : picture) : Prop := {
  gp_ids : NoDup (map v_id (p_nodes p));
  gp_one : Permutation (0%Z :: map snd (p_edges p)) (map v_id (p_nodes p));
  gp_before : forall a b, In (a, b) (p_edges p) -> exists l1 v l2 w l3, p_nodes p = l1 ++ v :: l2 ++ w :: l3 /\
    v_id v = a /\ v_kind v = VQuery /\ v_id w = b;
  gp_shape : drawn p P q 0;
  gp_queries : Permutation (map (fun v => (v_id v, v_label v)) (filter (fun v => match v_kind v with VQuery => true | _ => false end) (p_nodes p)))
    (map (fun x => (Z.of_nat (q_id x), label_of x)) (q_all t));
  gp_answers : Permutation (map v_label (filter (fun v => match v_kind v with VAnswer => true | _ => false end) (p_nodes p)))
    (map (fun x => final_str (snd x)) (q_finals t));
  gp_open : List.length (p_continue p) = List.length (o_queue o);
  gp_click : forall k, In k (p_continue p) <-> kind_at p k VContinue
}.

Lemma down_from_neg n : forall c x, In x (down_from c n) -> (x <= c)%Z.
Proof. induction n as [|n IH]; intros c x H; [contradiction|]. destruct H as [<-|H]; [lia|]. apply IH in H. lia. Qed.
Lemma down_from_nodup n : forall c, NoDup (down_from c n).
Proof. induction n as [|n IH]; intros c; constructor; [|apply IH]. intros H. apply down_from_neg in H. lia. Qed.
Lemma extras_kind o q x : In x (extras o q) -> fst x <> VQuery.
Proof.
  unfold extras. intros H. apply in_flat_map in H. destruct H as (c & Hc & Hx). destruct q as [ex id nm ks]. cbn [kids_of] in Hc.
  destruct (nth_error (o_arena o) ex) as [e|]; [|contradiction].
  destruct (is_running e). { destruct Hc as [<-|[]]. destruct Hx as [<-|[]]. discriminate. }
  destruct (has_failed e). { destruct Hc as [<-|[]]. destruct Hx as [<-|[]]. discriminate. }
  apply in_map_iff in Hc. destruct Hc as ([ex' id' bs [|b|q]] & <- & _); cbn [b_kid] in Hx.
  - destruct (nth_error (o_arena o) ex') as [e'|]; [destruct (is_running e')|]; destruct Hx as [<-|[]]; discriminate.
  - destruct Hx as [<-|[]]. discriminate.
  - contradiction.
Qed.
Lemma filter_what (f : vkind * string -> bool) ns : map what (filter (fun v => f (what v)) ns) = filter f (map what ns).
Proof. induction ns as [|v ns IH]; [reflexivity|]. cbn. destruct (f (what v)); cbn; now rewrite IH. Qed.
Lemma filter_all {A} (f : A -> bool) l : (forall x, In x l -> f x = true) -> filter f l = l.
Proof. induction l as [|x l IH]; intros H; [reflexivity|]. cbn. rewrite H by now left. f_equal. apply IH. intros; apply H. now right. Qed.
Lemma filter_nothing {A} (f : A -> bool) l : (forall x, In x l -> f x = false) -> filter f l = [].
Proof. induction l as [|x l IH]; intros H; [reflexivity|]. cbn. rewrite H by now left. apply IH. intros; apply H. now right. Qed.

Lemma session_draw o P s q fuel t n : session cf o P s -> s = QFresh q \/ s = QStarted q -> make_tree fuel o = Val t ->
  List.length (q_pre t) <= n -> exists p, draw n o t = Val p /\ good_picture o P q t p.
Proof.
  intros HS Hs E L. pose proof (session_shows cf _ _ _ _ _ _ HS Hs E) as Sh. destruct (tree_query_ids _ _ _ E) as [Nid Zid].
  assert (Eq : flat_map q_all [t] = q_all t) by (cbn; apply app_nil_r).
  destruct (draw_loop_good o n [t] (-1)%Z) as (ns & es & El & K).
  - rewrite Eq. pose proof (q_all_len t). lia.
  - rewrite Eq. apply Forall_forall. intros x Hx. destruct (shows_all _ _ _ _ Sh x Hx) as (gs' & S'). exact (shows_fine _ _ _ _ S').
  - now rewrite Eq.
  - unfold draw. rewrite El. cbn [bind]. eexists. split; [reflexivity|]. destruct K as [K1 K2 K3 K4 K5 K6 K7]. rewrite Eq in *.
    assert (ND : NoDup (map v_id ns)).
    { apply (Permutation_NoDup (Permutation_sym K2)). apply NoDup_app_ex.
      - rewrite <- map_map. apply FinFun.Injective_map_NoDup; [|assumption]. intros a b. apply Nat2Z.inj.
      - apply down_from_nodup.
      - intros x Hx Hd. apply down_from_neg in Hd. apply in_map_iff in Hx. destruct Hx as (y & <- & _). lia. }
    constructor; cbn [p_nodes p_edges p_continue]; auto.
    + cbn [map app] in K3. rewrite Zid in K3. exact K3.
    + set (p := {| p_nodes := ns; p_edges := es; p_continue := map v_id (filter is_continue ns) |}).
      replace 0%Z with (Z.of_nat (q_id t)) by now rewrite Zid. apply (shows_drawn o P p t q Sh). intros x Hx. split; [exact (K6 x Hx)|exact (K7 x Hx)].
    + set (isq := fun x : vkind * string => match fst x with VQuery => true | _ => false end).
      change (fun v : vnode => match v_kind v with VQuery => true | _ => false end) with (fun v => isq (what v)).
      assert (Pq : Permutation (map new_q (q_all t)) (filter (fun v => isq (what v)) ns)).
      { apply NoDup_Permutation_bis.
        - apply (NoDup_map_inv v_id). rewrite map_map. cbn [v_id new_q]. rewrite <- map_map.
          apply FinFun.Injective_map_NoDup; [|assumption]. intros a b. apply Nat2Z.inj.
        - assert (H : List.length (filter (fun v => isq (what v)) ns) = List.length (q_all t)); [|rewrite map_length; lia].
          rewrite <- (map_length what), filter_what, (Permutation_length (filter_perm isq _ _ K1)), filter_app, app_length.
          rewrite filter_all, filter_nothing, map_length; cbn; [lia| |].
          + intros x Hx. apply in_flat_map in Hx. destruct Hx as (y & _ & Hy). apply extras_kind in Hy. unfold isq. destruct (fst x); congruence.
          + intros x Hx. apply in_map_iff in Hx. destruct Hx as (y & <- & _). reflexivity.
        - intros v Hv. apply in_map_iff in Hv. destruct Hv as (y & <- & Hy). apply filter_In. split; [auto|reflexivity]. }
      rewrite <- (Permutation_map (fun v => (v_id v, v_label v)) Pq), map_map. cbn. reflexivity.
    + change (fun v : vnode => match v_kind v with VAnswer => true | _ => false end) with (fun v => is_ans (what v)).
      rewrite <- (extras_finals o P t q Sh).
      change (map v_label (filter (fun v => is_ans (what v)) ns)) with (map (fun v => snd (what v)) (filter (fun v => is_ans (what v)) ns)).
      rewrite <- map_map, filter_what. apply Permutation_map. rewrite (filter_perm is_ans _ _ K1), filter_app.
      rewrite (filter_nothing is_ans (map _ _)); [reflexivity|]. intros x Hx. apply in_map_iff in Hx. destruct Hx as (y & <- & _). reflexivity.
    + rewrite map_length. change is_continue with (fun v => is_open (what v)).
      rewrite <- (map_length what), filter_what, (Permutation_length (filter_perm is_open _ _ K1)), filter_app, app_length.
      rewrite (filter_nothing is_open (map _ _)); [|intros x Hx; apply in_map_iff in Hx; destruct Hx as (y & <- & _); reflexivity].
      cbn [List.length Nat.add]. rewrite (extras_open o P t q Sh).
      rewrite (Permutation_length (filter_perm (runs o) _ _ (session_execs cf _ _ _ _ _ _ HS Hs E))).
      pose proof (session_tree _ _ _ _ HS) as HT.
      assert (HD : exists D, has_tree cf o q D) by (destruct Hs as [-> | ->]; exact HT). destruct HD as (D & HD).
      exact (run_count o q D HD).
    + intros k. split.
      * intros H. apply in_map_iff in H. destruct H as (v & <- & Hv). apply filter_In in Hv. exists v. csplit; try tauto.
        destruct Hv as [_ Hv]. unfold is_continue in Hv. destruct (v_kind v); congruence.
      * intros (v & Hv & <- & Hk). apply in_map, filter_In. split; [assumption|]. unfold is_continue. now rewrite Hk.
Qed.
End Session.

Definition answer_label (r : res) : string := match r with RAnswer b => final_str b | _ => EmptyString end.
Lemma run_draw cf o P q rs o' fuel t n p : session cf o P (QFresh q) -> run cf o rs o' -> make_tree fuel o' = Val t ->
  List.length (q_pre t) <= n -> draw n o' t = Val p ->
  Permutation (map v_label (filter (fun v => match v_kind v with VAnswer => true | _ => false end) (p_nodes p)))
    (map answer_label (filter is_answer (map fst rs))).
Proof.
  intros HS HR E L D. destruct (run_session _ _ _ _ _ _ HS HR) as [S|S].
  - destruct (session_draw cf o' P _ q fuel t n S (or_introl eq_refl) E L) as (p' & D' & G). rewrite D in D'. injection D' as <-.
    rewrite (gp_answers _ _ _ _ _ G). rewrite <- (run_finals cf _ _ _ _ _ _ _ HS HR E), map_map. reflexivity.
  - destruct (session_draw cf o' P _ q fuel t n S (or_intror eq_refl) E L) as (p' & D' & G). rewrite D in D'. injection D' as <-.
    rewrite (gp_answers _ _ _ _ _ G). rewrite <- (run_finals cf _ _ _ _ _ _ _ HS HR E), map_map. reflexivity.
Qed.
Lemma drawn_good cf o P s q fuel t n p : session cf o P s -> s = QFresh q \/ s = QStarted q -> make_tree fuel o = Val t ->
  List.length (q_pre t) <= n -> draw n o t = Val p -> good_picture o P q t p.
Proof. intros HS Hs E L D. destruct (session_draw cf o P s q fuel t n HS Hs E L) as (p' & D' & G). rewrite D in D'. now injection D' as <-. Qed.
