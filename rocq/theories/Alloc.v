(** Register allocation: the allocation for queries, facts, rule heads and later body atoms passes the checks. *)
From Verif Require Import Base Machine Heap Facts Compiler Spec Print Valuation Process Shape Session Code Put Search PutRun Get.
Open Scope list_scope.

(** --- breadth-first order --- *)
Lemma fsize_app l k : fsize (l ++ k) = fsize l + fsize k.
Proof. induction l as [|n l IH]; cbn; [reflexivity|]. unfold fsize in *. lia. Qed.
Lemma nsize_kids n : nsize n = S (fsize (kids n)).
Proof. destruct n; reflexivity. Qed.
Lemma bfs_q_more f : forall g q, fsize q <= f -> f <= g -> bfs_q g q = bfs_q f q.
Proof.
  induction f as [|f IH]; intros g q Hq Hg.
  - destruct q as [|n q]; [destruct g; reflexivity|]. cbn in Hq. rewrite nsize_kids in Hq. lia.
  - destruct g as [|g]; [lia|]. cbn [bfs_q]. destruct q as [|n q]; [reflexivity|]. f_equal.
    apply IH; [|lia]. rewrite fsize_app. cbn in Hq. fold (fsize q) in Hq. rewrite nsize_kids in Hq. lia.
Qed.
Lemma bfs_cons n q : bfs (n :: q) = n :: bfs (q ++ kids n).
Proof.
  unfold bfs. assert (E : fsize (n :: q) = S (fsize (q ++ kids n))).
  { rewrite fsize_app. cbn. fold (fsize q). rewrite nsize_kids. lia. }
  rewrite E. reflexivity.
Qed.
Lemma bfs_nil : bfs [] = [].
Proof. reflexivity. Qed.

(** [Blk lq rest]: the queue and what comes after it; each node's children are a block of [rest]. *)
Inductive Blk : list (node * nat) -> list (node * nat) -> Prop :=
| Blk_nil : Blk [] []
| Blk_cons n x lq kb rest : map fst kb = kids n -> Blk (lq ++ kb) rest -> Blk ((n, x) :: lq) (kb ++ rest).

Lemma bfs_blk k : forall q lq rest, fsize q <= k -> map fst lq = q -> map fst (lq ++ rest) = bfs q -> Blk lq rest.
Proof.
  induction k as [|k IH]; intros q lq rest Hk Eq E.
  - destruct q as [|n q]; [|cbn in Hk; rewrite nsize_kids in Hk; lia]. destruct lq; [|discriminate].
    cbn in E. destruct rest; [constructor|discriminate].
  - destruct q as [|n q].
    + destruct lq; [|discriminate]. cbn in E. destruct rest; [constructor|discriminate].
    + destruct lq as [|[n' x] lq]; [discriminate|]. cbn in Eq. injection Eq as -> Eq. cbn [app map fst] in E.
      rewrite bfs_cons in E. injection E as E.
      assert (Lk : exists kb rest', rest = kb ++ rest' /\ map fst kb = kids n).
      { assert (G : forall m q2, fsize q2 <= m -> exists w, bfs q2 = q2 ++ w).
        { induction m as [|m IHm]; intros q2 Hm.
          - destruct q2 as [|n2 q2]; [exists []; reflexivity|]. cbn in Hm. rewrite nsize_kids in Hm. lia.
          - destruct q2 as [|n2 q2]; [exists []; reflexivity|]. rewrite bfs_cons.
            destruct (IHm (q2 ++ kids n2)) as (w & Ew).
            { rewrite fsize_app. cbn in Hm. fold (fsize q2) in Hm. rewrite nsize_kids in Hm. lia. }
            exists (kids n2 ++ w). rewrite Ew, <- app_assoc. reflexivity. }
        destruct (G _ (q ++ kids n) (Nat.le_refl _)) as (w & Ew). rewrite Ew in E.
        rewrite map_app, Eq, <- app_assoc in E. apply app_inv_head in E.
        symmetry in E. exists (firstn (List.length (kids n)) rest), (skipn (List.length (kids n)) rest).
        split; [now rewrite firstn_skipn|]. rewrite <- firstn_map, <- E, firstn_app, Nat.sub_diag, firstn_O, app_nil_r.
        apply firstn_all. }
      destruct Lk as (kb & rest' & -> & Ek). constructor; [assumption|].
      apply (IH (q ++ kids n)).
      * rewrite fsize_app. cbn in Hk. fold (fsize q) in Hk. rewrite nsize_kids in Hk. lia.
      * rewrite map_app. congruence.
      * rewrite <- app_assoc. assumption.
Qed.

(** --- registers --- *)
Definition is_var (n : node) : bool := match n with NVar _ => true | _ => false end.
Definition is_str (n : node) : bool := match n with NFun _ _ | NEv _ _ => true | _ => false end.

(** What the checks need of an allocation: [lx] lists the nodes below the atom with their registers. *)
Record alloc (nargs nr : nat) (lx : list (node * nat)) : Prop := {
  al_lt : forall i n x, nth_error lx i = Some (n, x) -> x < nr;
  al_args : nargs <= nr;
  al_arg : forall i n x, nth_error lx i = Some (n, x) -> i < nargs -> is_var n = false -> x = i;
  al_big : forall i n x, nth_error lx i = Some (n, x) -> nargs <= i \/ is_var n = true -> nargs <= x;
  al_var : forall i j s x y, nth_error lx i = Some (NVar s, x) -> nth_error lx j = Some (NVar s, y) -> x = y;
  al_own : forall i j n m x, nth_error lx i = Some (n, x) -> nth_error lx j = Some (m, x) ->
             i = j \/ exists s, n = NVar s /\ m = NVar s
}.

Definition mok (nargs cnt : nat) (m : list (string * nat)) : Prop :=
  (forall s r, assoc s m = Some r -> nargs <= r < cnt) /\
  (forall s t r, assoc s m = Some r -> assoc t m = Some r -> s = t).

Lemma assign_xs_spec nargs l : forall pos cnt m xs cnt' m', assign_xs nargs pos l cnt m = (xs, cnt', m') ->
  mok nargs cnt m -> nargs <= cnt ->
  mok nargs cnt' m' /\ cnt <= cnt' /\ List.length xs = List.length l /\
  (forall s r, assoc s m = Some r -> assoc s m' = Some r) /\
  (forall s r, assoc s m' = Some r -> assoc s m = Some r \/ cnt <= r) /\
  (forall i n x, nth_error (combine l xs) i = Some (n, x) ->
     match n with
     | NVar s => assoc s m' = Some x
     | _ => (pos + i < nargs /\ x = pos + i) \/
            (nargs <= pos + i /\ cnt <= x < cnt' /\ (forall s, assoc s m' <> Some x))
     end) /\
  (forall i j n k x, nth_error (combine l xs) i = Some (n, x) -> nth_error (combine l xs) j = Some (k, x) ->
     is_var n = false -> is_var k = false -> i = j).
Proof.
  induction l as [|n l IH]; intros pos cnt m xs cnt' m' E M Hc; cbn [assign_xs] in E.
  - injection E as <- <- <-. csplit; auto. 1: intros [|i] n x; discriminate. intros [|i] j n k x; discriminate.
  - (* one node *)
    assert (Hx : exists x cnt1 m1 xs1,
      (match n with
        | NVar s => match assoc s m with Some r => (r, cnt, m) | None => (cnt, S cnt, (s, cnt) :: m) end
        | _ => if Nat.ltb pos nargs then (pos, cnt, m) else (cnt, S cnt, m)
        end) = (x, cnt1, m1) /\ assign_xs nargs (S pos) l cnt1 m1 = (xs1, cnt', m') /\ xs = x :: xs1).
    { destruct (match n with NVar s => _ | _ => _ end) as [[x cnt1] m1].
      destruct (assign_xs nargs (S pos) l cnt1 m1) as [[xs1 cnt2] m2] eqn:E1. injection E as <- <- <-.
      exists x, cnt1, m1, xs1. auto. }
    destruct Hx as (x & cnt1 & m1 & xs1 & Ex & E1 & ->). clear E.
    assert (K : mok nargs cnt1 m1 /\ cnt <= cnt1 /\ (forall s r, assoc s m = Some r -> assoc s m1 = Some r) /\
       (forall s r, assoc s m1 = Some r -> assoc s m = Some r \/ r = cnt /\ cnt1 = S cnt) /\
       match n with
       | NVar s => assoc s m1 = Some x
       | _ => m1 = m /\ ((pos < nargs /\ x = pos /\ cnt1 = cnt) \/ (nargs <= pos /\ x = cnt /\ cnt1 = S cnt))
       end).
    { destruct n as [s|s|s|s k|s k].
      - destruct (assoc s m) as [r|] eqn:Ea; injection Ex as <- <- <-; [csplit; auto|].
        assert (Hnew : forall t r, assoc t ((s, cnt) :: m) = Some r -> (t = s /\ r = cnt) \/ (t <> s /\ assoc t m = Some r)).
        { intros t r. cbn [assoc]. destruct (String.eqb_spec t s) as [->|]; [intros K; injection K as <-|]; auto. }
        destruct M as [M1 M2]. csplit; auto.
        + split.
          * intros t r H. destruct (Hnew _ _ H) as [[-> ->]|[_ H']]; [lia|]. specialize (M1 _ _ H'). lia.
          * intros t u r H1 H2. destruct (Hnew _ _ H1) as [[-> ->]|[N1 H1']]; destruct (Hnew _ _ H2) as [[-> E2]|[N2 H2']]; auto.
            -- specialize (M1 _ _ H2'). lia.
            -- subst r. specialize (M1 _ _ H1'). lia.
            -- eauto.
        + intros t r H. cbn [assoc]. destruct (String.eqb_spec t s) as [->|]; [congruence|assumption].
        + intros t r H. destruct (Hnew _ _ H) as [[-> ->]|[_ H']]; auto.
        + cbn. now rewrite String.eqb_refl.
      - destruct (Nat.ltb_spec pos nargs); injection Ex as <- <- <-; csplit; auto; try (destruct M as [M1 M2]; split; [intros t r H'; specialize (M1 _ _ H'); lia|assumption]).
      - destruct (Nat.ltb_spec pos nargs); injection Ex as <- <- <-; csplit; auto; try (destruct M as [M1 M2]; split; [intros t r H'; specialize (M1 _ _ H'); lia|assumption]).
      - destruct (Nat.ltb_spec pos nargs); injection Ex as <- <- <-; csplit; auto; try (destruct M as [M1 M2]; split; [intros t r H'; specialize (M1 _ _ H'); lia|assumption]).
      - destruct (Nat.ltb_spec pos nargs); injection Ex as <- <- <-; csplit; auto; try (destruct M as [M1 M2]; split; [intros t r H'; specialize (M1 _ _ H'); lia|assumption]). }
    destruct K as (Mm1 & Hcc & Ext1 & New1 & Kn).
    destruct (IH _ _ _ _ _ _ E1 Mm1) as (A & B & C & D & E' & F & G); [lia|].
    assert (Own : is_var n = false -> nargs <= pos -> cnt <= x < cnt' /\ (forall s, assoc s m' <> Some x)).
    { intros Hv Hp. destruct n; try discriminate; destruct Kn as [-> [[? _]|(_ & -> & ->)]]; try lia;
        (split; [lia|]); intros t Ht; destruct (E' _ _ Ht) as [H'|H']; try lia; apply (proj1 M) in H'; lia. }
    csplit; auto.
    + lia.
    + cbn. lia.
    + intros s r H. destruct (E' _ _ H) as [H'|H']; [|right; lia]. destruct (New1 _ _ H') as [H''|[-> _]]; auto.
    + intros [|i] n0 x0 H.
      * cbn in H. injection H as <- <-. destruct n; [auto| | | |]; destruct Kn as [Em [(? & -> & _)|(Hp & -> & _)]];
          try (left; lia); right; rewrite Nat.add_0_r; split; try lia; apply Own; auto.
      * cbn in H. specialize (F _ _ _ H). destruct n0; [assumption| | | |];
          (destruct F as [[? ?]|(? & ? & ?)]; [left; lia|right; split; [lia|]; split; [lia|assumption]]).
    + assert (Z : forall j k, nth_error (combine l xs1) j = Some (k, x) -> is_var n = false -> is_var k = false -> False).
      { intros j k Hj Hn Hk. specialize (F _ _ _ Hj). destruct k; try discriminate;
          (destruct n; try discriminate; destruct Kn as [_ [(? & -> & ->)|(? & -> & ->)]];
           destruct F as [[? ?]|(? & ? & _)]; lia). }
      intros [|i] [|j] n0 k0 x0 Hi Hj Hn Hk; cbn in Hi, Hj; auto.
      * injection Hi as <- <-. exfalso. eauto.
      * injection Hj as <- <-. exfalso. eauto.
      * f_equal. eauto.
Qed.

Lemma assign_alloc nargs l cnt m xs : assign_xs nargs 0 l nargs [] = (xs, cnt, m) ->
  nargs <= cnt /\ (forall nr, cnt <= nr -> alloc nargs nr (combine l xs)) /\ map fst (combine l xs) = l /\
  (forall i s x, nth_error (combine l xs) i = Some (NVar s, x) -> assoc s m = Some x).
Proof.
  intros E. assert (M0 : mok nargs nargs []) by (split; intros; discriminate).
  destruct (assign_xs_spec _ _ _ _ _ _ _ _ E M0 (Nat.le_refl _)) as ([M1 M2] & B & C & _ & _ & F & G).
  assert (Fv : forall i s x, nth_error (combine l xs) i = Some (NVar s, x) -> assoc s m = Some x).
  { intros i s x H. exact (F _ _ _ H). }
  csplit; auto.
  - intros nr Hnr. split.
    + intros i n x H. specialize (F _ _ _ H). destruct n; [apply M1 in F; lia| | | |]; lia.
    + lia.
    + intros i n x H Hi Hv. specialize (F _ _ _ H). destruct n; [discriminate| | | |]; lia.
    + intros i n x H Hi. pose proof (F _ _ _ H) as K. destruct n; [apply M1 in K; lia| | | |]; (destruct Hi as [Hi|Hi]; [lia|discriminate]).
    + intros i j s x y Hi Hj. apply Fv in Hi, Hj. congruence.
    + intros i j n k x Hi Hj. destruct (is_var n) eqn:Vn, (is_var k) eqn:Vk.
      * destruct n; try discriminate. destruct k; try discriminate. right. exists s. split; [reflexivity|]. f_equal.
        apply Fv in Hi, Hj. eauto.
      * exfalso. destruct n; try discriminate. apply Fv in Hi. pose proof (F _ _ _ Hj) as K. pose proof (M1 _ _ Hi).
        destruct k; try discriminate; (destruct K as [K|(_ & _ & K)]; [lia|exact (K _ Hi)]).
      * exfalso. destruct k; try discriminate. apply Fv in Hj. pose proof (F _ _ _ Hi) as K. pose proof (M1 _ _ Hj).
        destruct n; try discriminate; (destruct K as [K|(_ & _ & K)]; [lia|exact (K _ Hj)]).
      * left. eauto.
  - clear -C. revert xs C. induction l as [|n l IH]; intros [|x xs] C; try discriminate; [reflexivity|]. cbn. f_equal. apply IH. cbn in C. lia.
Qed.

(** --- heads --- *)
(** evaluable functors are binary, lists have a head and a tail, other functors have arguments *)
Definition fun_ok (s : string) (k : nat) : Prop :=
  (s = "["%string /\ (k = 0 \/ k = 2)) \/ (s <> "["%string /\ s <> "|"%string /\ k <> 0).
Fixpoint node_ok (n : node) : Prop :=
  match n with
  | NFun s l => fun_ok s (List.length l) /\ fold_right (fun m P => node_ok m /\ P) True l
  | NEv _ l => List.length l = 2 /\ fold_right (fun m P => node_ok m /\ P) True l
  | _ => True
  end.
Lemma nodes_ok_in l : fold_right (fun m P => node_ok m /\ P) True l <-> (forall m, In m l -> node_ok m).
Proof.
  induction l as [|a l IH]; cbn; [split; [intros _ m []|auto]|]. rewrite IH. split.
  - intros [A B] m [<-|H]; auto.
  - intros H. split; auto.
Qed.
Lemma node_ok_kids n : node_ok n -> forall m, In m (kids n) -> node_ok m.
Proof. destruct n; cbn; try (intros _ m []); intros [_ H]; revert H; intros; eapply nodes_ok_in; eauto. Qed.

Section Walk.
Variable perm : string -> option nat.
Variables nargs nr : nat.
Variable lx : list (node * nat).
Hypothesis AL : alloc nargs nr lx.

Record HI (vis : nat -> Prop) (st : gst) : Prop := {
  HI_D : forall s, In s (g_D st) <-> exists i x, vis i /\ nth_error lx i = Some (NVar s, x);
  HI_S : forall x, seen_in (SX x) (g_seen st) = true <->
           exists i n, vis i /\ nth_error lx i = Some (n, x) /\ (is_var n = true \/ is_str n = true /\ nargs <= i);
  HI_F : forall i s x, vis i -> nth_error lx i = Some (NVar s, x) -> perm s = None -> nassoc x (g_F st) = Some (NVar s);
  HI_Fv : forall x n, nassoc x (g_F st) = Some n -> exists s i, n = NVar s /\ vis i /\ nth_error lx i = Some (NVar s, x) /\ perm s = None
}.
Lemma HI_ext vis vis' st : (forall i, vis i <-> vis' i) -> HI vis st -> HI vis' st.
Proof.
  intros H [D SS F Fv]. split.
  - intros s. rewrite D. split; intros (i & x & A & B); exists i, x; split; auto; now apply H.
  - intros x. rewrite SS. split; intros (i & n & A & B); exists i, n; split; auto; now apply H.
  - intros i s x A. apply F. now apply H.
  - intros x n A. destruct (Fv _ _ A) as (s & i & B & C & D'). exists s, i. split; auto. split; auto. now apply H.
Qed.
(** only the queue changes *)
Lemma HI_T vis st T : HI vis st -> HI vis {| g_seen := g_seen st; g_F := g_F st; g_D := g_D st; g_T := T |}.
Proof. intros [D SS F Fv]. split; auto. Qed.

Definition upto (vis : nat -> Prop) (i : nat) : nat -> Prop := fun j => vis j \/ j = i.

Lemma HI_var vis st i s x : HI vis st -> nth_error lx i = Some (NVar s, x) -> free x (g_T st) = true ->
  exists st', chk_var perm nr s x st = Some st' /\ HI (upto vis i) st' /\ g_T st' = g_T st.
Proof.
  intros [D SS F Fv] Hi Hf. unfold chk_var.
  assert (Hseen : seen_in (SX x) (g_seen st) = true <-> In s (g_D st)).
  { rewrite SS, D. split.
    - intros (j & n & Vj & Hj & K). destruct (al_own _ _ _ AL _ _ _ _ _ Hi Hj) as [->|(t & E1 & E2)].
      + exists j, x. auto.
      + injection E1 as <-. subst n. exists j, x. auto.
    - intros (j & y & Vj & Hj). pose proof (al_var _ _ _ AL _ _ _ _ _ Hi Hj) as <-. exists j, (NVar s). auto. }
  assert (Dold : In s (g_D st) -> HI (upto vis i) st).
  { intros Hs. apply D in Hs. destruct Hs as (j0 & y0 & Vj0 & Hj0). pose proof (al_var _ _ _ AL _ _ _ _ _ Hi Hj0) as <-. split.
    - intros t. rewrite D. split; intros (j & y & Vj & Hj).
      + exists j, y. split; [now left|assumption].
      + destruct Vj as [Vj| ->]; [eauto|]. rewrite Hi in Hj. injection Hj as -> ->. eauto.
    - intros y. rewrite SS. split; intros (j & n & Vj & Hj & K).
      + exists j, n. split; [now left|auto].
      + destruct Vj as [Vj| ->]; [eauto|]. rewrite Hi in Hj. injection Hj as <- <-. exists j0, (NVar s). auto.
    - intros j t y [Vj| ->] Hj Hp; [eauto|]. rewrite Hi in Hj. injection Hj as <- <-. eauto.
    - intros y n A. destruct (Fv _ _ A) as (t & j & B & C & D'). exists t, j. split; auto. split; auto. now left. }
  destruct (seen_in (SX x) (g_seen st)) eqn:Es.
  - assert (Hs : In s (g_D st)) by tauto. pose proof (Dold Hs) as Hd.
    destruct (perm s) as [y|] eqn:Ep.
    + rewrite (proj2 (smem_in _ _) Hs). eauto.
    + assert (Ek : known (g_F st) x (NVar s) = true).
      { apply known_eq. apply (HI_F _ _ Hd i s x); auto. now right. }
      rewrite Ek. eauto.
  - assert (Hs : ~ In s (g_D st)) by (intros K; apply Hseen in K; congruence).
    destruct (smem s (g_D st)) eqn:Em; [apply smem_in in Em; contradiction|].
    pose proof (al_lt _ _ _ AL _ _ _ Hi) as Hlt. apply Nat.ltb_lt in Hlt.
    assert (G : forall sn F', (forall y, seen_in (SX y) sn = true <-> y = x \/ seen_in (SX y) (g_seen st) = true) ->
       (forall j t y, upto vis i j -> nth_error lx j = Some (NVar t, y) -> perm t = None -> nassoc y F' = Some (NVar t)) ->
       (forall y n, nassoc y F' = Some n -> exists t j, n = NVar t /\ upto vis i j /\ nth_error lx j = Some (NVar t, y) /\ perm t = None) ->
       HI (upto vis i) {| g_seen := sn; g_F := F'; g_D := s :: g_D st; g_T := g_T st |}).
    { intros sn F' Hsn HF' HFv. split; cbn [g_D g_seen g_F]; auto.
      - intros t. cbn [In]. rewrite D. split.
        + intros [<-|(j & y & Vj & Hj)]; [exists i, x; split; [now right|assumption]|exists j, y; split; [now left|assumption]].
        + intros (j & y & [Vj| ->] & Hj); [right; eauto|]. rewrite Hi in Hj. injection Hj as -> _. now left.
      - intros y. rewrite Hsn, SS. split.
        + intros [->|(j & n & Vj & Hj & K)]; [exists i, (NVar s); split; [now right|auto]|exists j, n; split; [now left|auto]].
        + intros (j & n & [Vj| ->] & Hj & K); [right; eauto|]. rewrite Hi in Hj. injection Hj as <- <-. now left. }
    destruct (perm s) as [y|] eqn:Ep.
    + eexists. split; [reflexivity|]. split; [|reflexivity]. apply G.
      * intros z. cbn [seen_in existsb sreg_eqb orb]. fold (seen_in (SX z) (g_seen st)).
        rewrite orb_true_iff, Nat.eqb_eq. tauto.
      * intros j t z [Vj| ->] Hj Hp; [eauto|]. rewrite Hi in Hj. injection Hj as <- <-. congruence.
      * intros z n A. destruct (Fv _ _ A) as (t & j & B & C & D'). exists t, j. split; auto. split; auto. now left.
    + rewrite Hlt, Hf. cbn [andb]. eexists. split; [reflexivity|]. split; [|reflexivity]. apply G.
      * intros z. cbn [seen_in existsb sreg_eqb orb]. fold (seen_in (SX z) (g_seen st)).
        rewrite orb_true_iff, Nat.eqb_eq. tauto.
      * intros j t z Vj Hj Hp. cbn [nassoc]. destruct (Nat.eqb_spec z x) as [->|Hne].
        -- destruct (al_own _ _ _ AL _ _ _ _ _ Hi Hj) as [<-|(u & E1 & E2)]; [congruence|]. congruence.
        -- destruct Vj as [Vj| ->]; [eauto|]. congruence.
      * intros z n A. cbn [nassoc] in A. destruct (Nat.eqb_spec z x) as [->|Hne].
        -- injection A as <-. exists s, i. split; auto. split; [now right|auto].
        -- destruct (Fv _ _ A) as (t & j & B & C & D'). exists t, j. split; auto. split; auto. now left.
Qed.

(** the queue of terms still to be matched *)
Fixpoint tq (pos : nat) (lq : list (node * nat)) : list (nat * node) :=
  match lq with
  | [] => []
  | (n, x) :: lq' =>
      (if (is_str n || Nat.ltb pos nargs)%bool then [(if is_var n then pos else x, n)] else []) ++ tq (S pos) lq'
  end.
Lemma tq_app lq : forall pos kb, tq pos (lq ++ kb) = tq pos lq ++ tq (pos + List.length lq) kb.
Proof.
  induction lq as [|[n x] lq IH]; intros pos kb; cbn [tq app List.length].
  - now rewrite Nat.add_0_r.
  - rewrite IH, <- app_assoc. do 3 f_equal. lia.
Qed.
Lemma free_app x T T' : free x (T ++ T') = (free x T && free x T')%bool.
Proof. unfold free. apply forallb_app. Qed.
(** a register above the arguments that is not a structure's is not in the queue *)
Lemma tq_free lq : forall pos rest pre x, lx = pre ++ lq ++ rest -> List.length pre = pos -> nargs <= x ->
  (forall j n, nth_error lq j = Some (n, x) -> is_str n = false) -> free x (tq pos lq) = true.
Proof.
  induction lq as [|[n y] lq IH]; intros pos rest pre x El Ep Hx Hn; cbn [tq]; [reflexivity|].
  rewrite free_app. apply andb_true_iff. split.
  - destruct (is_str n) eqn:Hs; cbn [orb].
    + destruct (is_var n) eqn:Hv; [destruct n; discriminate|]. unfold free. cbn. rewrite andb_true_r. apply negb_true_iff, Nat.eqb_neq.
      intros ->. specialize (Hn 0 n eq_refl). congruence.
    + destruct (Nat.ltb_spec pos nargs) as [Hlt|]; [|reflexivity]. unfold free. cbn. rewrite andb_true_r.
      apply negb_true_iff, Nat.eqb_neq. destruct (is_var n) eqn:Hv; [lia|].
      assert (y = pos); [|lia]. apply (al_arg _ _ _ AL pos n y); auto. rewrite El, nth_error_app2, Ep, Nat.sub_diag by lia. reflexivity.
  - apply (IH (S pos) rest (pre ++ [(n, y)])); auto.
    + rewrite <- app_assoc. exact El.
    + rewrite app_length. cbn. lia.
    + intros j m H. exact (Hn (S j) m H).
Qed.

(** the visited positions: arguments below [pos], others below [rp] *)
Definition seenp (pos rp : nat) : nat -> Prop := fun i => (i < nargs /\ i < pos) \/ (nargs <= i /\ i < rp).

Lemma HI_kids kb : forall st pre lq rest pos, lx = pre ++ (lq ++ kb) ++ rest -> List.length pre = pos ->
  nargs <= pos + List.length lq -> g_T st = tq pos lq -> HI (seenp pos (pos + List.length lq)) st ->
  exists st', chk_hkids perm nr kb st = Some st' /\ g_T st' = tq pos (lq ++ kb) /\
    HI (seenp pos (pos + List.length (lq ++ kb))) st'.
Proof.
  induction kb as [|[n x] kb IH]; intros st pre lq rest pos El Ep Hr HT I; cbn [chk_hkids].
  - exists st. rewrite app_nil_r. auto.
  - set (i := pos + List.length lq) in *.
    assert (Hi : nth_error lx i = Some (n, x)).
    { rewrite El, <- app_assoc, nth_error_app2, Ep by lia. unfold i. replace (pos + List.length lq - pos) with (List.length lq) by lia.
      rewrite nth_error_app2, Nat.sub_diag by lia. reflexivity. }
    assert (Hbig : nargs <= x) by (eapply (al_big _ _ _ AL); [exact Hi|left; assumption]).
    assert (Hfree : free x (tq pos lq) = true).
    { apply (tq_free lq pos (((n, x) :: kb) ++ rest) pre); auto; [rewrite El, <- app_assoc; reflexivity|].
      intros j m Hj. assert (Hj' : nth_error lx (pos + j) = Some (m, x)).
      { rewrite El, <- app_assoc, nth_error_app2, Ep by lia. replace (pos + j - pos) with j by lia.
        rewrite nth_error_app1; [assumption|eapply nth_error_lt; eassumption]. }
      apply nth_error_lt in Hj. destruct (al_own _ _ _ AL _ _ _ _ _ Hi Hj') as [E|(s & -> & ->)]; [unfold i in E; lia|reflexivity]. }
    pose proof (al_lt _ _ _ AL _ _ _ Hi) as Hlt. apply Nat.ltb_lt in Hlt.
    assert (Hup : forall j, upto (seenp pos i) i j <-> seenp pos (S i) j) by (intros j; unfold upto, seenp; lia).
    assert (Hq : tq pos (lq ++ [(n, x)]) = tq pos lq ++ (if is_str n then [(x, n)] else [])).
    { rewrite tq_app. f_equal. cbn [tq]. fold i. destruct (Nat.ltb_spec i nargs); [lia|]. rewrite orb_false_r, app_nil_r.
      destruct n; reflexivity. }
    assert (K : exists st1, chk_hkid perm nr (n, x) st = Some st1 /\ g_T st1 = tq pos (lq ++ [(n, x)]) /\ HI (seenp pos (S i)) st1).
    { assert (Leaf : is_var n = false -> is_str n = false ->
         HI (seenp pos (S i)) {| g_seen := g_seen st; g_F := ndel x (g_F st); g_D := g_D st; g_T := g_T st |}).
      { intros Hv Hs. apply (HI_ext _ _ _ Hup). destruct I as [D SS F Fv]. split; cbn [g_D g_seen g_F].
        - intros t. rewrite D. split; intros (j & y & Vj & Hj); exists j, y.
          + split; [now left|assumption].
          + split; [|assumption]. destruct Vj as [Vj| ->]; [assumption|]. rewrite Hi in Hj. injection Hj as -> _. discriminate.
        - intros y. rewrite SS. split; intros (j & m & Vj & Hj & Km); exists j, m.
          + split; [now left|auto].
          + split; [|auto]. destruct Vj as [Vj| ->]; [assumption|]. rewrite Hi in Hj. injection Hj as <- _.
            destruct Km as [Km|[Km _]]; congruence.
        - intros j t y [Vj| ->] Hj Hp.
          + rewrite nassoc_del. destruct (Nat.eqb_spec y x) as [->|]; [|eauto].
            destruct (al_own _ _ _ AL _ _ _ _ _ Hi Hj) as [<-|(u & -> & _)]; [|discriminate].
            rewrite Hi in Hj. injection Hj as ->. discriminate.
          + rewrite Hi in Hj. injection Hj as -> _. discriminate.
        - intros y m A. rewrite nassoc_del in A. destruct (Nat.eqb y x); [discriminate|].
          destruct (Fv _ _ A) as (t & j & B & C & D'). exists t, j. split; auto. split; auto. now left. }
      assert (Str : is_str n = true -> seen_in (SX x) (g_seen st) = false /\
         HI (seenp pos (S i)) {| g_seen := SX x :: g_seen st; g_F := ndel x (g_F st); g_D := g_D st; g_T := g_T st ++ [(x, n)] |}).
      { intros Hs. assert (Hv : is_var n = false) by (destruct n; try discriminate; reflexivity).
        assert (Hother : forall j m, nth_error lx j = Some (m, x) -> j = i).
        { intros j m Hj. destruct (al_own _ _ _ AL _ _ _ _ _ Hi Hj) as [<-|(u & -> & _)]; [reflexivity|discriminate]. }
        split.
        - destruct (seen_in (SX x) (g_seen st)) eqn:Es; [|reflexivity]. exfalso. apply (HI_S _ _ I) in Es.
          destruct Es as (j & m & Vj & Hj & _). rewrite (Hother _ _ Hj) in Vj. unfold seenp in Vj. lia.
        - apply (HI_ext _ _ _ Hup). destruct I as [D SS F Fv]. split; cbn [g_D g_seen g_F].
          + intros t. rewrite D. split; intros (j & y & Vj & Hj); exists j, y.
            * split; [now left|assumption].
            * split; [|assumption]. destruct Vj as [Vj| ->]; [assumption|]. rewrite Hi in Hj. injection Hj as -> _. discriminate.
          + intros y. cbn [seen_in existsb sreg_eqb]. fold (seen_in (SX y) (g_seen st)). rewrite orb_true_iff, Nat.eqb_eq, SS. split.
            * intros [->|(j & m & Vj & Hj & Km)]; [exists i, n; split; [now right|]; auto|exists j, m; split; [now left|auto]].
            * intros (j & m & [Vj| ->] & Hj & Km); [right; eauto|]. rewrite Hi in Hj. injection Hj as _ ->. now left.
          + intros j t y [Vj| ->] Hj Hp.
            * rewrite nassoc_del. destruct (Nat.eqb_spec y x) as [->|]; [|eauto].
              pose proof (Hother _ _ Hj). subst j. rewrite Hi in Hj. injection Hj as ->. discriminate.
            * rewrite Hi in Hj. injection Hj as -> _. discriminate.
          + intros y m A. rewrite nassoc_del in A. destruct (Nat.eqb y x); [discriminate|].
            destruct (Fv _ _ A) as (t & j & B & C & D'). exists t, j. split; auto. split; auto. now left. }
      rewrite <- HT in Hfree, Hq. destruct n as [s|s|s|s l|s l]; cbn [chk_hkid is_str] in *.
      - destruct (HI_var _ _ i s x I Hi) as (st1 & E1 & I1 & T1); [congruence|]. exists st1. csplit; auto.
        + rewrite T1, Hq. now rewrite app_nil_r.
        + eapply HI_ext; eauto.
      - rewrite Hlt, Hfree. cbn [andb]. eexists. split; [reflexivity|]. split; [rewrite Hq; cbn; now rewrite app_nil_r|now apply Leaf].
      - rewrite Hlt, Hfree. cbn [andb]. eexists. split; [reflexivity|]. split; [rewrite Hq; cbn; now rewrite app_nil_r|now apply Leaf].
      - destruct (Str eq_refl) as [-> Hst]. rewrite Hlt, Hfree. cbn [negb andb]. eexists. split; [reflexivity|]. split; [now rewrite Hq|assumption].
      - destruct (Str eq_refl) as [-> Hst]. rewrite Hlt, Hfree. cbn [negb andb]. eexists. split; [reflexivity|]. split; [now rewrite Hq|assumption]. }
    destruct K as (st1 & E1 & T1 & I1). rewrite E1.
    replace (lq ++ (n, x) :: kb) with ((lq ++ [(n, x)]) ++ kb) in * by (rewrite <- app_assoc; reflexivity).
    eapply (IH st1 pre (lq ++ [(n, x)]) rest pos); eauto.
    + rewrite app_length. cbn. lia.
    + rewrite app_length. cbn [List.length]. eapply HI_ext; [|exact I1]. intros j. unfold seenp, i. lia.
Qed.

Hypothesis NOK : forall i n x, nth_error lx i = Some (n, x) -> node_ok n.

Lemma head_walk lq rest : Blk lq rest -> forall st pre pos, lx = pre ++ lq ++ rest -> List.length pre = pos ->
  nargs <= pos + List.length lq -> g_T st = tq pos lq -> HI (seenp pos (pos + List.length lq)) st ->
  exists st', chk_hents perm nr (filter keep_flat (mk_ents nargs pos (lq ++ rest) rest)) st = Some st' /\
    g_T st' = [] /\ HI (fun i => i < List.length lx) st'.
Proof.
  induction 1 as [|n x lq kb rest Ek B IH]; intros st pre pos El Ep Hr HT I.
  - cbn. exists st. csplit; auto. eapply HI_ext; [|exact I]. intros i. rewrite El, !app_length. cbn in *.
    unfold seenp. lia.
  - cbn [app mk_ents]. rewrite <- Ek, map_length.
    rewrite (firstn_app (List.length kb)), Nat.sub_diag, firstn_O, app_nil_r, firstn_all.
    rewrite (skipn_app (List.length kb)), Nat.sub_diag, skipn_all. cbn [skipn app].
    assert (Hi : nth_error lx pos = Some (n, x)).
    { rewrite El, nth_error_app2, Ep, Nat.sub_diag by lia. reflexivity. }
    set (e := {| en_node := n; en_x := x; en_arg := if Nat.ltb pos nargs then Some pos else None; en_kids := kb |}).
    assert (El' : lx = (pre ++ [(n, x)]) ++ (lq ++ kb) ++ rest).
    { rewrite El, <- !app_assoc. reflexivity. }
    assert (Ep' : List.length (pre ++ [(n, x)]) = S pos) by (rewrite app_length; cbn; lia).
    assert (Hkp : keep_flat e = (is_str n || Nat.ltb pos nargs)%bool).
    { unfold keep_flat, e. cbn [en_node en_arg]. destruct (Nat.ltb pos nargs), n; reflexivity. }
    assert (Go : forall st1, g_T st1 = tq (S pos) lq -> HI (seenp (S pos) (S pos + List.length lq)) st1 ->
      chk_hkids perm nr kb st1 = (if is_str n then chk_hkids perm nr kb st1 else Some st1) /\
      exists st', chk_hkids perm nr kb st1 = Some st' /\ 
      exists st2, chk_hents perm nr (filter keep_flat (mk_ents nargs (S pos) (lq ++ kb ++ rest) rest)) st' = Some st2 /\
        g_T st2 = [] /\ HI (fun i => i < List.length lx) st2).
    { intros st1 T1 I1. split.
      - destruct n; try reflexivity; destruct kb; try discriminate; reflexivity.
      - destruct (HI_kids kb st1 (pre ++ [(n, x)]) lq rest (S pos) El' Ep') as (st' & E' & T' & I'); auto.
        { cbn [List.length] in Hr. lia. }
        exists st'. split; [exact E'|]. rewrite app_assoc. apply (IH st' (pre ++ [(n, x)]) (S pos)); auto.
        cbn [List.length] in Hr. rewrite app_length. lia. }
    cbn [filter]. rewrite Hkp. cbn [tq] in HT. destruct (is_str n || Nat.ltb pos nargs)%bool eqn:Ekeep.
    + cbn [chk_hents]. unfold chk_hent. rewrite HT. cbn [app].
      assert (Hne : node_eqb n (en_node e) = true) by (apply node_eqb_eq; reflexivity). rewrite Hne.
      set (st0 := {| g_seen := g_seen st; g_F := g_F st; g_D := g_D st; g_T := tq (S pos) lq |}).
      assert (I0 : HI (seenp pos (pos + S (List.length lq))) st0) by (apply HI_T; exact I).
      cbn [List.length] in Hr.
      assert (Hnv : is_var n = false -> is_str n = false \/ True -> HI (seenp (S pos) (S pos + List.length lq)) st0).
      { intros Hv _. destruct (Nat.lt_ge_cases pos nargs) as [Lp|Lp]; [|eapply HI_ext; [|exact I0]; intros j; unfold seenp; lia].
        destruct I0 as [D SS F Fv]. split.
        - intros t. rewrite D. split; intros (j & y & Vj & Hj); exists j, y; (split; [|assumption]); unfold seenp in *.
          + lia.
          + destruct (Nat.eq_dec j pos) as [->|]; [|lia]. rewrite Hi in Hj. injection Hj as -> _. discriminate.
        - intros y. rewrite SS. split; intros (j & m & Vj & Hj & Km); exists j, m; (split; [|auto]); unfold seenp in *.
          + lia.
          + destruct (Nat.eq_dec j pos) as [->|]; [|lia]. rewrite Hi in Hj. injection Hj as -> _. destruct Km as [Km|[_ Km]]; [congruence|lia].
        - intros j t y Vj Hj Hp. apply (F j t y); auto. unfold seenp in *. destruct (Nat.eq_dec j pos) as [->|]; [|lia].
          rewrite Hi in Hj. injection Hj as -> _. discriminate.
        - intros y m A. destruct (Fv _ _ A) as (t & j & B1 & B2 & B3). exists t, j. split; auto. split; auto. unfold seenp in *. lia. }
      assert (Fin : forall o, o = (if is_str n then chk_hkids perm nr kb st0 else Some st0) -> is_var n = false ->
         exists st', match o with Some st1 => chk_hents perm nr (filter keep_flat (mk_ents nargs (S pos) (lq ++ kb ++ rest) rest)) st1 | None => None end = Some st' /\
           g_T st' = [] /\ HI (fun i => i < List.length lx) st').
      { intros o -> Hv. destruct (Go st0 eq_refl (Hnv Hv (or_intror Logic.I))) as (E1 & st' & E2 & G2). rewrite <- E1, E2. exact G2. }
      assert (Hxreg : is_var n = false -> is_str n = false -> Nat.eqb (if is_var n then pos else x) x = true).
      { intros -> _. apply Nat.eqb_refl. }
      pose proof (NOK _ _ _ Hi) as Hok.
      unfold e. cbn [en_node en_arg en_x en_kids]. destruct n as [s|s|s|s l|s l].
      * cbn [is_str is_var orb kids] in *. rewrite Ekeep. rewrite Nat.eqb_refl. destruct kb; [|discriminate].
        apply Nat.ltb_lt in Ekeep.
        assert (Hbig : nargs <= x) by (eapply (al_big _ _ _ AL); [exact Hi|right; reflexivity]).
        destruct (HI_var (seenp pos (pos + S (List.length lq))) st0 pos s x I0 Hi) as (st1 & E1 & I1 & T1).
        { cbn [g_T st0]. apply (tq_free lq (S pos) ([] ++ rest) (pre ++ [(NVar s, x)])); auto.
          - rewrite El, <- !app_assoc. reflexivity.
          - intros j m Hj. assert (Hj' : nth_error lx (S pos + j) = Some (m, x)).
            { rewrite El', nth_error_app2, Ep' by lia. replace (S pos + j - S pos) with j by lia.
              rewrite app_nil_r. rewrite nth_error_app1; [assumption|eapply nth_error_lt; eassumption]. }
            destruct (al_own _ _ _ AL _ _ _ _ _ Hi Hj') as [E|(s' & _ & ->)]; [lia|reflexivity]. }
        rewrite E1. destruct (Go st1) as (_ & st' & E2 & G2).
        -- rewrite T1. reflexivity.
        -- eapply HI_ext; [|exact I1]. intros j. unfold upto, seenp. lia.
        -- cbn [chk_hkids] in E2. injection E2 as <-. exact G2.
      * cbn [is_var] in *. rewrite Nat.eqb_refl. exact (Fin (Some st0) eq_refl eq_refl).
      * cbn [is_var] in *. rewrite Nat.eqb_refl. exact (Fin (Some st0) eq_refl eq_refl).
      * cbn [is_var] in *. rewrite Nat.eqb_refl. cbn [andb str_ok kids] in *. rewrite Ek.
        rewrite (proj2 (nodes_eqb_eq l l) eq_refl). exact (Fin (chk_hkids perm nr kb st0) eq_refl eq_refl).
      * cbn [is_var] in *. rewrite Nat.eqb_refl. cbn [andb str_ok kids] in *. rewrite Ek.
        rewrite (proj2 (nodes_eqb_eq l l) eq_refl). destruct Hok as [Hok _]. rewrite Hok. exact (Fin (chk_hkids perm nr kb st0) eq_refl eq_refl).
    + apply orb_false_iff in Ekeep. destruct Ekeep as [Es Ep0]. apply Nat.ltb_ge in Ep0.
      destruct (Go st) as (_ & st' & E2 & G2).
      * exact HT.
      * cbn [List.length] in I. eapply HI_ext; [|exact I]. intros j. unfold seenp. lia.
      * assert (kb = []) by (destruct n; try discriminate; destruct kb; try discriminate; reflexivity). subst kb.
        cbn [chk_hkids] in E2. injection E2 as <-. exact G2.
Qed.
End Walk.

(** --- goals --- *)
Section Ents.
Variables nargs : nat.
Variable lx : list (node * nat).

Record ents_of (es : list ent) : Prop := {
  eo_len : List.length es = List.length lx;
  eo_at : forall p e, nth_error es p = Some e -> exists n x, nth_error lx p = Some (n, x) /\ en_node e = n /\ en_x e = x /\
     en_arg e = (if Nat.ltb p nargs then Some p else None) /\ map fst (en_kids e) = kids n /\
     forall k, In k (en_kids e) -> exists j, p < j /\ nargs <= j /\ nth_error lx j = Some k;
  eo_cover : forall j k, nargs <= j -> nth_error lx j = Some k -> exists p e, nth_error es p = Some e /\ In k (en_kids e)
}.

Lemma mk_ents_at lq rest : Blk lq rest -> forall pre pos, lx = pre ++ lq ++ rest -> List.length pre = pos ->
  nargs <= pos + List.length lq ->
  List.length (mk_ents nargs pos (lq ++ rest) rest) = List.length (lq ++ rest) /\
  (forall p e, nth_error (mk_ents nargs pos (lq ++ rest) rest) p = Some e ->
    exists n x, nth_error lx (pos + p) = Some (n, x) /\ en_node e = n /\ en_x e = x /\
     en_arg e = (if Nat.ltb (pos + p) nargs then Some (pos + p) else None) /\ map fst (en_kids e) = kids n /\
     forall k, In k (en_kids e) -> exists j, pos + p < j /\ nargs <= j /\ nth_error lx j = Some k) /\
  (forall j k, pos + List.length lq <= j -> nth_error lx j = Some k ->
     exists p e, nth_error (mk_ents nargs pos (lq ++ rest) rest) p = Some e /\ In k (en_kids e)).
Proof.
  induction 1 as [|n x lq kb rest Ek B IH]; intros pre pos El Ep Hr.
  - cbn [app mk_ents]. csplit; auto.
    + intros [|p] e H; discriminate.
    + intros j k Hj H. apply nth_error_lt in H. rewrite El, !app_length in H. cbn in H, Hj. lia.
  - cbn [app mk_ents List.length] in *. rewrite <- Ek, map_length.
    rewrite (firstn_app (List.length kb)), Nat.sub_diag, firstn_O, app_nil_r, firstn_all.
    rewrite (skipn_app (List.length kb)), Nat.sub_diag, skipn_all. cbn [skipn app].
    assert (El' : lx = (pre ++ [(n, x)]) ++ (lq ++ kb) ++ rest) by (rewrite El, <- !app_assoc; reflexivity).
    assert (Ep' : List.length (pre ++ [(n, x)]) = S pos) by (rewrite app_length; cbn; lia).
    destruct (IH (pre ++ [(n, x)]) (S pos) El' Ep') as (A1 & A2 & A3); [rewrite app_length; lia|].
    rewrite (app_assoc lq kb rest). split; [|split].
    + now rewrite A1.
    + intros [|p] e H; cbn in H.
      * injection H as <-. exists n, x. rewrite Nat.add_0_r. cbn [en_node en_x en_arg en_kids]. csplit; auto.
        -- rewrite El, nth_error_app2, Ep, Nat.sub_diag by lia. reflexivity.
        -- intros k Hk. apply In_nth_error in Hk. destruct Hk as [j Hj]. exists (S pos + List.length lq + j). csplit; try lia.
           rewrite El', nth_error_app2, Ep' by lia. replace (S pos + List.length lq + j - S pos) with (List.length lq + j) by lia.
           rewrite <- app_assoc, nth_error_app2 by lia. replace (List.length lq + j - List.length lq) with j by lia.
           rewrite nth_error_app1; [assumption|eapply nth_error_lt; eassumption].
      * destruct (A2 p e H) as (n' & x' & B1 & B2). exists n', x'. replace (pos + S p) with (S pos + p) by lia. auto.
    + intros j k Hj H. destruct (Nat.lt_ge_cases j (S pos + List.length (lq ++ kb))) as [L|L].
      * exists 0. eexists. split; [reflexivity|]. cbn [en_kids].
        rewrite El', nth_error_app2, Ep' in H by lia. rewrite <- app_assoc, nth_error_app2 in H by lia.
        rewrite app_length in L. rewrite nth_error_app1 in H by lia. eapply nth_error_In; eauto.
      * destruct (A3 j k L H) as (p & e & P1 & P2). exists (S p), e. auto.
Qed.
End Ents.

Section WalkQ.
Variable perm : string -> option nat.
Hypothesis perm_inj : forall s t y, perm s = Some y -> perm t = Some y -> s = t.
Variables nargs nr : nat.
Variable lx : list (node * nat).
Hypothesis AL : alloc nargs nr lx.
Hypothesis NOK : forall i n x, nth_error lx i = Some (n, x) -> node_ok n.
Variable D0 : list string.

Record QI (vis : node * nat -> Prop) (na : nat) (st : kst) : Prop := {
  QI_D : forall s, In s (k_D st) <-> In s D0 \/ exists x, vis (NVar s, x);
  QI_V : forall i s x, nth_error lx i = Some (NVar s, x) -> perm s = None ->
           (seen_in (SX x) (k_seen st) = true <-> In s (k_D st)) /\ (In s (k_D st) -> nassoc x (k_F st) = Some (NVar s));
  QI_P : forall s y, perm s = Some y -> (seen_in (SY y) (k_seen st) = true <-> In s (k_D st));
  QI_St : forall n x, vis (n, x) -> is_str n = true -> seen_in (SX x) (k_seen st) = true /\ nassoc x (k_F st) = Some n;
  QI_A : forall i n x, i < na -> nth_error lx i = Some (n, x) -> nassoc i (k_F st) = Some n;
  QI_in : forall k, vis k -> exists i, nth_error lx i = Some k
}.
Lemma QI_ext vis vis' na st : (forall k, vis k <-> vis' k) -> QI vis na st -> QI vis' na st.
Proof.
  intros H [D V P SS A N]. split; auto.
  - intros s. rewrite D. split; (intros [K|(x & K)]; [now left|right; exists x; now apply H]).
  - intros n x K. apply SS. now apply H.
  - intros k K. apply N. now apply H.
Qed.
Definition addk (vis : node * nat -> Prop) (k : node * nat) : node * nat -> Prop := fun k' => vis k' \/ k' = k.

Lemma QI_kid vis na st i n x : QI vis na st -> nth_error lx i = Some (n, x) -> nargs <= i -> na <= nargs ->
  (is_str n = true -> vis (n, x)) ->
  exists st', chk_kid perm nr (n, x) st = Some st' /\ QI (addk vis (n, x)) na st'.
Proof.
  intros I Hi Hn Hna Hs. pose proof I as [D V P SS A N].
  pose proof (al_lt _ _ _ AL _ _ _ Hi) as Hlt. apply Nat.ltb_lt in Hlt.
  assert (Hbig : nargs <= x) by (eapply (al_big _ _ _ AL); [exact Hi|left; assumption]).
  assert (Same : vis (n, x) -> QI (addk vis (n, x)) na st).
  { intros Hv. eapply QI_ext; [|exact I]. intros k. unfold addk. split; [now left|]. intros [K| ->]; assumption. }
  destruct n as [s|s|s|s l|s l]; cbn [chk_kid].
  - assert (Old : In s (k_D st) -> QI (addk vis (NVar s, x)) na st).
    { intros Hd. split; auto.
      - intros t. rewrite D. unfold addk. split.
        + intros [K|(y & K)]; [now left|right; eauto].
        + intros [K|(y & [K|K])]; [now left|right; eauto|]. injection K as -> _. now apply D.
      - intros m y [K|K] Hm; [eauto|]. injection K as -> _. discriminate.
      - intros k [K|K]; [eauto|]. subst. eauto. }
    assert (New : ~ In s (k_D st) -> forall sn F', 
       (forall j t y, nth_error lx j = Some (NVar t, y) -> perm t = None ->
           (seen_in (SX y) sn = true <-> In t (s :: k_D st)) /\ (In t (s :: k_D st) -> nassoc y F' = Some (NVar t))) ->
       (forall t y, perm t = Some y -> (seen_in (SY y) sn = true <-> In t (s :: k_D st))) ->
       (forall m y, vis (m, y) -> is_str m = true -> seen_in (SX y) sn = true /\ nassoc y F' = Some m) ->
       (forall j m y, j < na -> nth_error lx j = Some (m, y) -> nassoc j F' = Some m) ->
       QI (addk vis (NVar s, x)) na {| k_seen := sn; k_F := F'; k_D := s :: k_D st |}).
    { intros Hd sn F' HV HP HS HA. split; cbn [k_D k_seen k_F]; auto.
      - intros t. cbn [In]. rewrite D. unfold addk. split.
        + intros [<-|[K|(y & K)]]; [right; exists x; now right|now left|right; eauto].
        + intros [K|(y & [K|K])]; [auto|right; right; eauto|]. injection K as -> _. now left.
      - intros m y [K|K] Hm; [eauto|]. injection K as -> _. discriminate.
      - intros k [K|K]; [eauto|]. subst. eauto. }
    destruct (perm s) as [y|] eqn:Ep.
    + destruct (seen_in (SY y) (k_seen st)) eqn:Es.
      * apply (P _ _ Ep) in Es. eauto.
      * assert (Hd : ~ In s (k_D st)) by (intros K; apply (P _ _ Ep) in K; congruence).
        destruct (smem s (k_D st)) eqn:Em; [apply smem_in in Em; contradiction|].
        eexists. split; [reflexivity|]. apply New; auto.
        -- intros j t z Hj Hp. assert (t <> s) by congruence. destruct (V _ _ _ Hj Hp) as [V1 V2].
           cbn [seen_in existsb sreg_eqb orb In]. fold (seen_in (SX z) (k_seen st)). rewrite V1. intuition congruence.
        -- intros t z Hp. cbn [seen_in existsb sreg_eqb In]. fold (seen_in (SY z) (k_seen st)).
           rewrite orb_true_iff, Nat.eqb_eq, (P _ _ Hp). split.
           ++ intros [->|K]; [left; eauto|auto].
           ++ intros [->|K]; [left; congruence|auto].
    + destruct (V _ _ _ Hi Ep) as [V1 V2]. destruct (seen_in (SX x) (k_seen st)) eqn:Es.
      * assert (Hd : In s (k_D st)) by tauto. rewrite (proj2 (known_eq _ _ _) (V2 Hd)). eauto.
      * assert (Hd : ~ In s (k_D st)) by (intros K; apply V1 in K; congruence).
        destruct (smem s (k_D st)) eqn:Em; [apply smem_in in Em; contradiction|]. rewrite Hlt.
        eexists. split; [reflexivity|]. apply New; auto.
        -- intros j t z Hj Hp. destruct (V _ _ _ Hj Hp) as [W1 W2].
           cbn [seen_in existsb sreg_eqb In nassoc]. fold (seen_in (SX z) (k_seen st)).
           destruct (Nat.eqb_spec z x) as [->|Hne]; cbn [orb].
           ++ assert (t = s); [|subst; tauto].
              destruct (al_own _ _ _ AL _ _ _ _ _ Hi Hj) as [->|(u & E1 & E2)]; congruence.
           ++ rewrite W1. assert (t <> s). { intros ->. pose proof (al_var _ _ _ AL _ _ _ _ _ Hi Hj). congruence. }
              intuition congruence.
        -- intros t z Hp. cbn [seen_in existsb sreg_eqb orb In]. fold (seen_in (SY z) (k_seen st)).
           rewrite (P _ _ Hp). assert (t <> s) by congruence. intuition congruence.
        -- intros m z Hv Hm. destruct (SS _ _ Hv Hm) as [S1 S2].
           cbn [seen_in existsb sreg_eqb nassoc]. fold (seen_in (SX z) (k_seen st)).
           destruct (Nat.eqb_spec z x) as [->|Hne]; cbn [orb]; [|auto].
           destruct (N _ Hv) as [j Hj]. destruct (al_own _ _ _ AL _ _ _ _ _ Hi Hj) as [<-|(u & E1 & E2)].
           ++ rewrite Hi in Hj. injection Hj as <-. discriminate.
           ++ subst. discriminate.
        -- intros j m z Hj Hm. cbn [nassoc]. destruct (Nat.eqb_spec j x) as [->|]; [lia|eauto].
  - rewrite Hlt. eexists. split; [reflexivity|]. split; cbn [k_D k_seen k_F]; auto.
    + intros t. rewrite D. unfold addk. split.
      * intros [K|(y & K)]; [now left|right; eauto].
      * intros [K|(y & [K|K])]; [now left|right; eauto|discriminate].
    + intros j t z Hj Hp. destruct (V _ _ _ Hj Hp) as [W1 W2]. split; [assumption|]. intros K. rewrite nassoc_del.
      destruct (Nat.eqb_spec z x) as [->|]; [|auto]. destruct (al_own _ _ _ AL _ _ _ _ _ Hi Hj) as [<-|(u & E1 & E2)]; congruence.
    + intros m z [Hv|Hv] Hm; [|injection Hv as -> _; discriminate]. destruct (SS _ _ Hv Hm) as [S1 S2]. split; [assumption|].
      rewrite nassoc_del. destruct (Nat.eqb_spec z x) as [->|]; [|auto]. destruct (N _ Hv) as [j Hj].
      destruct (al_own _ _ _ AL _ _ _ _ _ Hi Hj) as [<-|(u & E1 & E2)]; [|congruence]. rewrite Hi in Hj. injection Hj as <-. discriminate.
    + intros j m z Hj Hm. rewrite nassoc_del. destruct (Nat.eqb_spec j x) as [->|]; [lia|eauto].
    + intros k [K|K]; [eauto|]. subst. eauto.
  - rewrite Hlt. eexists. split; [reflexivity|]. split; cbn [k_D k_seen k_F]; auto.
    + intros t. rewrite D. unfold addk. split.
      * intros [K|(y & K)]; [now left|right; eauto].
      * intros [K|(y & [K|K])]; [now left|right; eauto|discriminate].
    + intros j t z Hj Hp. destruct (V _ _ _ Hj Hp) as [W1 W2]. split; [assumption|]. intros K. rewrite nassoc_del.
      destruct (Nat.eqb_spec z x) as [->|]; [|auto]. destruct (al_own _ _ _ AL _ _ _ _ _ Hi Hj) as [<-|(u & E1 & E2)]; congruence.
    + intros m z [Hv|Hv] Hm; [|injection Hv as -> _; discriminate]. destruct (SS _ _ Hv Hm) as [S1 S2]. split; [assumption|].
      rewrite nassoc_del. destruct (Nat.eqb_spec z x) as [->|]; [|auto]. destruct (N _ Hv) as [j Hj].
      destruct (al_own _ _ _ AL _ _ _ _ _ Hi Hj) as [<-|(u & E1 & E2)]; [|congruence]. rewrite Hi in Hj. injection Hj as <-. discriminate.
    + intros j m z Hj Hm. rewrite nassoc_del. destruct (Nat.eqb_spec j x) as [->|]; [lia|eauto].
    + intros k [K|K]; [eauto|]. subst. eauto.
  - specialize (Hs eq_refl). destruct (SS _ _ Hs eq_refl) as [S1 S2]. rewrite S1, (proj2 (known_eq _ _ _) S2). cbn [andb].
    exists st. split; [reflexivity|auto].
  - specialize (Hs eq_refl). destruct (SS _ _ Hs eq_refl) as [S1 S2]. rewrite S1, (proj2 (known_eq _ _ _) S2). cbn [andb].
    exists st. split; [reflexivity|auto].
Qed.

Lemma QI_kids ks : forall vis na st, QI vis na st -> na <= nargs ->
  (forall n x, In (n, x) ks -> (is_str n = true -> vis (n, x)) /\ exists i, nargs <= i /\ nth_error lx i = Some (n, x)) ->
  exists st', chk_kids perm nr ks st = Some st' /\ QI (fun k => vis k \/ In k ks) na st'.
Proof.
  induction ks as [|[n x] ks IH]; intros vis na st I Hna H; cbn [chk_kids].
  - exists st. split; [reflexivity|]. eapply QI_ext; [|exact I]. intros k. cbn. tauto.
  - destruct (H n x) as (Hs & i & Hi & Hx); [now left|].
    destruct (QI_kid vis na st i n x I Hx Hi Hna Hs) as (st1 & E1 & I1). rewrite E1.
    destruct (IH _ na st1 I1 Hna) as (st2 & E2 & I2).
    + intros m y Hm. destruct (H m y) as (Hs2 & K); [now right|]. split; [|assumption]. intros Hst. left. auto.
    + exists st2. split; [assumption|]. eapply QI_ext; [|exact I2]. intros k. unfold addk. cbn [In]. intuition.
Qed.

(** one structure *)
Lemma QI_str vis na st i n x ks a : QI vis na st -> nth_error lx i = Some (n, x) -> is_str n = true -> na <= nargs ->
  (nargs <= i \/ na <= i) -> map fst ks = kids n ->
  (forall m y, In (m, y) ks -> (is_str m = true -> vis (m, y)) /\ exists j, i < j /\ nargs <= j /\ nth_error lx j = Some (m, y)) ->
  exists st', chk_ent perm nr {| en_node := n; en_x := x; en_arg := a; en_kids := ks |} st = Some st' /\
    QI (fun k => vis k \/ In k ks \/ k = (n, x)) na st' /\ nassoc x (k_F st') = Some n.
Proof.
  intros I Hi Hs Hna Hai Ek Hk. pose proof I as [D V P SS A N].
  pose proof (al_lt _ _ _ AL _ _ _ Hi) as Hlt. apply Nat.ltb_lt in Hlt.
  assert (Hown : forall j m, nth_error lx j = Some (m, x) -> j = i).
  { intros j m Hj. destruct (al_own _ _ _ AL _ _ _ _ _ Hi Hj) as [<-|(u & -> & _)]; [reflexivity|discriminate]. }
  assert (Hnx : forall j, j < na -> j <> x).
  { intros j Hj. destruct (Nat.lt_ge_cases i nargs) as [L|L].
    - assert (x = i) by (apply (al_arg _ _ _ AL i n x); auto; destruct n; try discriminate; reflexivity). lia.
    - assert (nargs <= x) by (eapply (al_big _ _ _ AL); [exact Hi|now left]). lia. }
  set (st1 := {| k_seen := SX x :: k_seen st; k_F := ndel x (k_F st); k_D := k_D st |}).
  assert (I1 : QI (fun k => vis k /\ k <> (n, x)) na st1).
  { split; cbn [k_D k_seen k_F st1].
    - intros t. rewrite D. split; (intros [K|(y & K)]; [now left|right; exists y]); [split; [assumption|]|tauto].
      intros E. injection E as <- <-. discriminate.
    - intros j t z Hj Hp. destruct (V _ _ _ Hj Hp) as [W1 W2]. assert (z <> x).
      { intros ->. pose proof (Hown _ _ Hj). subst j. rewrite Hi in Hj. injection Hj as ->. discriminate. }
      cbn [seen_in existsb sreg_eqb]. fold (seen_in (SX z) (k_seen st)). rewrite nassoc_del.
      destruct (Nat.eqb_spec z x); [congruence|]. cbn [orb]. auto.
    - intros t z Hp. cbn [seen_in existsb sreg_eqb orb]. apply P. assumption.
    - intros m z [Hv Hne] Hm. destruct (SS _ _ Hv Hm) as [S1 S2]. assert (z <> x).
      { intros ->. destruct (N _ Hv) as [j Hj]. pose proof (Hown _ _ Hj). subst j. rewrite Hi in Hj. injection Hj as <-. congruence. }
      cbn [seen_in existsb sreg_eqb]. fold (seen_in (SX z) (k_seen st)). rewrite nassoc_del.
      destruct (Nat.eqb_spec z x); [congruence|]. rewrite S1, orb_true_r. auto.
    - intros j m z Hj Hm. rewrite nassoc_del. destruct (Nat.eqb_spec j x) as [->|]; [|eauto]. now apply Hnx in Hj.
    - intros k [Hv _]. eauto. }
  destruct (QI_kids ks _ na st1 I1 Hna) as (st2 & E2 & I2).
  { intros m y Hm. destruct (Hk _ _ Hm) as (K1 & j & K2 & K3 & K4). split; [|eauto]. intros Hst. split; [auto|].
    intros E. injection E as -> ->. pose proof (Hown _ _ K4). lia. }
  assert (Ekeep : forallb (keeps perm x) ks = true).
  { apply forallb_forall. intros [m y] Hm. destruct (Hk _ _ Hm) as (K1 & j & K2 & K3 & K4). unfold keeps. cbn [fst snd].
    assert (y <> x) by (intros ->; pose proof (Hown _ _ K4); lia).
    destruct m; try (apply negb_true_iff, Nat.eqb_neq; assumption). destruct (perm s); [reflexivity|apply negb_true_iff, Nat.eqb_neq; assumption]. }
  assert (Estr : str_ok n ks = true).
  { pose proof (NOK _ _ _ Hi) as Hok. destruct n; try discriminate; cbn [str_ok kids] in *; rewrite Ek, (proj2 (nodes_eqb_eq l l) eq_refl); [reflexivity|].
    destruct Hok as [-> _]. reflexivity. }
  assert (Ekq : chk_ent perm nr {| en_node := n; en_x := x; en_arg := a; en_kids := ks |} st =
     match chk_kids perm nr ks st1 with
     | Some st2 => Some {| k_seen := k_seen st2; k_F := (x, n) :: k_F st2; k_D := k_D st2 |} | None => None end).
  { unfold chk_ent. cbn [en_node en_x en_arg en_kids]. rewrite Hlt, Estr, Ekeep. cbn [andb]. destruct n; try discriminate; reflexivity. }
  rewrite Ekq, E2. eexists. split; [reflexivity|]. cbn [k_F]. split; [|cbn; now rewrite Nat.eqb_refl].
  destruct I2 as [D2 V2 P2 S2 A2 N2]. split; cbn [k_D k_seen k_F]; auto.
  - intros t. rewrite D2. split.
    + intros [K|(y & [[K _]|K])]; [now left|right; exists y; now left|right; exists y; auto].
    + intros [K|(y & [K|[K|K]])]; [now left|right; exists y; left; split; [assumption|]; intros E; injection E as <- <-; discriminate|right; exists y; auto|].
      injection K as <- <-. discriminate.
  - intros j t z Hj Hp. destruct (V2 _ _ _ Hj Hp) as [W1 W2]. split; [assumption|]. intros K. cbn [nassoc].
    destruct (Nat.eqb_spec z x) as [->|]; [|auto]. pose proof (Hown _ _ Hj). subst j. rewrite Hi in Hj. injection Hj as ->. discriminate.
  - intros m z Hv Hm. cbn [nassoc]. destruct (Nat.eqb_spec z x) as [->|Hne].
    + assert (m = n).
      { destruct Hv as [Hv|[Hv|Hv]]; [|destruct (Hk _ _ Hv) as (_ & j & K2 & _ & K4); pose proof (Hown _ _ K4); lia|congruence].
        destruct (N _ Hv) as [j Hj]. pose proof (Hown _ _ Hj). subst j. congruence. }
      subst m. split; [|reflexivity].
      assert (Hmono : forall ks st st', chk_kids perm nr ks st = Some st' -> forall r, seen_in r (k_seen st) = true -> seen_in r (k_seen st') = true).
      { clear. induction ks as [|[n x] ks IH]; intros st st' E r Hr; cbn [chk_kids] in E; [injection E as <-; assumption|].
        destruct (chk_kid perm nr (n, x) st) as [st1|] eqn:E1; [|discriminate]. apply (IH _ _ E).
        unfold chk_kid in E1. destruct n.
        - destruct (perm s).
          + destruct (seen_in (SY n) (k_seen st)); [injection E1 as <-; assumption|]. destruct (smem _ _); [discriminate|].
            injection E1 as <-. cbn [k_seen seen_in existsb]. fold (seen_in r (k_seen st)). rewrite Hr. apply orb_true_r.
          + destruct (seen_in (SX x) (k_seen st)); [destruct (known _ _ _); [injection E1 as <-; assumption|discriminate]|].
            destruct (smem _ _); [discriminate|]. destruct (Nat.ltb x nr); [|discriminate].
            injection E1 as <-. cbn [k_seen seen_in existsb]. fold (seen_in r (k_seen st)). rewrite Hr. apply orb_true_r.
        - destruct (Nat.ltb x nr); [|discriminate]. injection E1 as <-. assumption.
        - destruct (Nat.ltb x nr); [|discriminate]. injection E1 as <-. assumption.
        - destruct (_ && _)%bool; [|discriminate]. injection E1 as <-. assumption.
        - destruct (_ && _)%bool; [|discriminate]. injection E1 as <-. assumption. }
      apply (Hmono _ _ _ E2). cbn. now rewrite Nat.eqb_refl.
    + apply S2; [|assumption]. destruct Hv as [Hv|[Hv|Hv]]; [left; split; [assumption|congruence]|now right|congruence].
  - intros j m z Hj Hm. cbn [nassoc]. destruct (Nat.eqb_spec j x) as [->|]; [now apply Hnx in Hj|eauto].
  - intros k [K|[K|K]]; [eauto|apply N2; now right|subst; eauto].
Qed.

Variable es : list ent.
Hypothesis EO : ents_of nargs lx es.

Lemma chk_ents_app es1 : forall es2 st, chk_ents perm nr (es1 ++ es2) st =
  match chk_ents perm nr es1 st with Some st1 => chk_ents perm nr es2 st1 | None => None end.
Proof.
  induction es1 as [|e es1 IH]; intros es2 st; cbn [chk_ents app]; [reflexivity|].
  destruct (chk_ent perm nr e st); [apply IH|reflexivity].
Qed.

(** structures below the arguments, from the last *)
Definition vis_from (p : nat) (k : node * nat) : Prop :=
  exists i e, p <= i /\ nth_error es i = Some e /\
    (In k (en_kids e) \/ k = (en_node e, en_x e) /\ is_str (en_node e) = true).
Lemma structs_walk k : forall p st, List.length es = p + k -> nargs <= p -> QI (fun _ => False) 0 st ->
  exists st', chk_ents perm nr (rev (filter keep_flat (skipn p es))) st = Some st' /\ QI (vis_from p) 0 st'.
Proof.
  induction k as [|k IH]; intros p st Hl Hp I.
  - rewrite skipn_all2 by lia. cbn. exists st. split; [reflexivity|]. eapply QI_ext; [|exact I]. intros q. split; [tauto|].
    intros (i & e & Hi & He & _). apply nth_error_lt in He. lia.
  - destruct (nth_error es p) as [e|] eqn:Ee; [|apply nth_error_None in Ee; lia].
    assert (Es : skipn p es = e :: skipn (S p) es).
    { clear -Ee. revert p Ee. induction es as [|a l IHl]; intros [|p] E; try discriminate; cbn in *; [congruence|]. now apply IHl. }
    destruct (IH (S p) st) as (st1 & E1 & I1); [lia|lia|assumption|].
    destruct (eo_at _ _ _ EO p e Ee) as (n & x & Hx & En & Ex & Ea & Ek & Hk).
    destruct (Nat.ltb_spec p nargs); [lia|]. rewrite Es. cbn [filter].
    assert (Kf : keep_flat e = is_str n) by (unfold keep_flat; rewrite En, Ea; destruct n; reflexivity).
    rewrite Kf. destruct (is_str n) eqn:Hs.
    + cbn [rev]. rewrite chk_ents_app, E1. cbn [chk_ents].
      destruct (QI_str (vis_from (S p)) 0 st1 p n x (en_kids e) (en_arg e) I1 Hx Hs) as (st2 & E2 & I2 & _); auto; [lia| |].
      * intros m y Hm. destruct (Hk _ Hm) as (j & J1 & J2 & J3). split; [|eauto]. intros Hst.
        destruct (nth_error es j) as [e'|] eqn:Ee'.
        -- exists j, e'. csplit; auto. destruct (eo_at _ _ _ EO j e' Ee') as (n' & x' & Hx' & En' & Ex' & _).
           rewrite J3 in Hx'. injection Hx' as <- <-. right. rewrite En', Ex'. auto.
        -- exfalso. apply nth_error_None in Ee'. apply nth_error_lt in J3. rewrite (eo_len _ _ _ EO) in Ee'. lia.
      * destruct e as [n0 x0 a0 k0]. cbn [en_node en_x en_arg en_kids] in *. subst n0 x0. rewrite E2.
        exists st2. split; [reflexivity|]. eapply QI_ext; [|exact I2]. intros q. split.
        -- intros [(i & e' & Hi & He & K)|[K|K]].
           ++ exists i, e'. csplit; auto. lia.
           ++ exists p. eexists. csplit; eauto.
           ++ exists p. eexists. csplit; eauto.
        -- intros (i & e' & Hi & He & K). destruct (Nat.eq_dec i p) as [->|].
           ++ rewrite Ee in He. injection He as <-. cbn [en_kids en_node en_x] in K. tauto.
           ++ left. exists i, e'. csplit; auto. lia.
    + exists st1. split; [assumption|]. eapply QI_ext; [|exact I1]. intros q. split.
      * intros (i & e' & Hi & He & K). exists i, e'. csplit; auto. lia.
      * intros (i & e' & Hi & He & K). destruct (Nat.eq_dec i p) as [->|].
        -- rewrite Ee in He. injection He as <-. rewrite En in K. destruct K as [K|[_ K]]; [|congruence].
           destruct (en_kids e); [contradiction|]. destruct n; discriminate.
        -- exists i, e'. csplit; auto. lia.
Qed.

(** an argument that is no structure *)
Lemma QI_arg vis na st n x ks : QI vis na st -> nth_error lx na = Some (n, x) -> is_str n = false -> na < nargs ->
  exists st', chk_ent perm nr {| en_node := n; en_x := x; en_arg := Some na; en_kids := ks |} st = Some st' /\
    QI (addk vis (n, x)) (S na) st'.
Proof.
  intros I Hi Hs Hna. pose proof I as [D V P SS A N].
  pose proof (al_lt _ _ _ AL _ _ _ Hi) as Hlt. pose proof (al_args _ _ _ AL) as Har.
  assert (HA : Nat.ltb na nr = true) by (apply Nat.ltb_lt; lia).
  assert (Hlt' : Nat.ltb x nr = true) by (now apply Nat.ltb_lt).
  assert (Av : forall j t z, nth_error lx j = Some (NVar t, z) -> z <> na).
  { intros j t z Hj ->. pose proof (al_big _ _ _ AL _ _ _ Hj (or_intror eq_refl)). lia. }
  assert (As : forall m z, vis (m, z) -> is_str m = true -> z <> na).
  { intros m z Hv Hm ->. destruct (N _ Hv) as [j Hj]. destruct (Nat.lt_ge_cases j nargs) as [L|L].
    - assert (na = j) by (apply (al_arg _ _ _ AL j m na Hj L); destruct m; try discriminate; reflexivity). subst j.
      rewrite Hi in Hj. injection Hj as -> ->. congruence.
    - pose proof (al_big _ _ _ AL _ _ _ Hj (or_introl L)). lia. }
  assert (Leaf : is_var n = false -> QI (addk vis (n, x)) (S na) {| k_seen := SX x :: k_seen st; k_F := (x, n) :: k_F st; k_D := k_D st |}).
  { intros Hv. assert (x = na) by (apply (al_arg _ _ _ AL na n x Hi); assumption). subst x.
    split; cbn [k_D k_seen k_F]; auto.
    - intros t. rewrite D. unfold addk. split.
      + intros [K|(y & K)]; [now left|right; eauto].
      + intros [K|(y & [K|K])]; [now left|right; eauto|]. injection K as <- <-. discriminate.
    - intros j t z Hj Hp. destruct (V _ _ _ Hj Hp) as [W1 W2]. pose proof (Av _ _ _ Hj).
      cbn [seen_in existsb sreg_eqb nassoc]. fold (seen_in (SX z) (k_seen st)). destruct (Nat.eqb_spec z na); [congruence|]. cbn [orb]. auto.
    - intros m z [Hv'|Hv'] Hm; [|injection Hv' as -> _; congruence]. destruct (SS _ _ Hv' Hm) as [S1 S2].
      pose proof (As _ _ Hv' Hm). cbn [seen_in existsb sreg_eqb nassoc]. fold (seen_in (SX z) (k_seen st)).
      destruct (Nat.eqb_spec z na); [congruence|]. cbn [orb]. auto.
    - intros j m z Hj Hm. cbn [nassoc]. destruct (Nat.eqb_spec j na) as [->|].
      + congruence.
      + apply (A j m z); [lia|assumption].
    - intros k [K|K]; [eauto|]. subst. eauto. }
  destruct n as [s|s|s|s l|s l]; try discriminate; unfold chk_ent; cbn [en_node en_x en_arg].
  - rewrite HA.
    assert (G : forall st', (forall t, In t (k_D st') <-> In t (k_D st) \/ t = s) ->
       (forall i t z, nth_error lx i = Some (NVar t, z) -> perm t = None ->
           (seen_in (SX z) (k_seen st') = true <-> In t (k_D st')) /\ (In t (k_D st') -> nassoc z (k_F st') = Some (NVar t))) ->
       (forall t y, perm t = Some y -> (seen_in (SY y) (k_seen st') = true <-> In t (k_D st'))) ->
       (forall m y, vis (m, y) -> is_str m = true -> seen_in (SX y) (k_seen st') = true /\ nassoc y (k_F st') = Some m) ->
       (forall j m z, j < na -> nth_error lx j = Some (m, z) -> nassoc j (k_F st') = Some m) ->
       nassoc na (k_F st') = Some (NVar s) -> QI (addk vis (NVar s, x)) (S na) st').
    { intros st' HD HV HP HS HA' Hna'. split; auto.
      - intros t. rewrite HD, D. unfold addk. split.
        + intros [[K|(y & K)]| ->]; [now left|right; eauto|right; exists x; now right].
        + intros [K|(y & [K|K])]; [auto|left; right; eauto|]. injection K as -> _. now right.
      - intros m y [K|K] Hm; [eauto|]. injection K as -> _. discriminate.
      - intros j m z Hj Hm. destruct (Nat.eq_dec j na) as [->|]; [congruence|]. apply (HA' j m z); [lia|assumption].
      - intros k [K|K]; [eauto|]. subst. eauto. }
    assert (Hxna : x <> na) by (eapply Av; exact Hi).
    destruct (perm s) as [y|] eqn:Ep.
    + destruct (seen_in (SY y) (k_seen st)) eqn:Es.
      * assert (Hd : In s (k_D st)) by (now apply (P _ _ Ep)). eexists. split; [reflexivity|]. apply G; cbn [k_D k_seen k_F]; auto.
        -- intros t. split; [auto|]. intros [K| ->]; assumption.
        -- intros j t z Hj Hp. destruct (V _ _ _ Hj Hp) as [W1 W2]. pose proof (Av _ _ _ Hj). cbn [nassoc].
           destruct (Nat.eqb_spec z na); [congruence|]. auto.
        -- intros m z Hv Hm. pose proof (As _ _ Hv Hm). cbn [nassoc]. destruct (Nat.eqb_spec z na); [congruence|]. auto.
        -- intros j m z Hj Hm. cbn [nassoc]. destruct (Nat.eqb_spec j na); [lia|]. eauto.
        -- cbn. now rewrite Nat.eqb_refl.
      * assert (Hd : ~ In s (k_D st)) by (intros K; apply (P _ _ Ep) in K; congruence).
        destruct (smem s (k_D st)) eqn:Em; [apply smem_in in Em; contradiction|].
        eexists. split; [reflexivity|]. apply G; cbn [k_D k_seen k_F]; auto.
        -- intros t. cbn. intuition congruence.
        -- intros j t z Hj Hp. assert (t <> s) by congruence. destruct (V _ _ _ Hj Hp) as [W1 W2]. pose proof (Av _ _ _ Hj).
           cbn [nassoc seen_in existsb sreg_eqb orb In]. fold (seen_in (SX z) (k_seen st)).
           destruct (Nat.eqb_spec z na); [congruence|]. rewrite W1. intuition congruence.
        -- intros t z Hp. cbn [seen_in existsb sreg_eqb In]. fold (seen_in (SY z) (k_seen st)).
           rewrite orb_true_iff, Nat.eqb_eq, (P _ _ Hp). split.
           ++ intros [->|K]; [left; eauto|auto].
           ++ intros [->|K]; [left; congruence|auto].
        -- intros m z Hv Hm. pose proof (As _ _ Hv Hm). cbn [nassoc seen_in existsb sreg_eqb orb]. fold (seen_in (SX z) (k_seen st)).
           destruct (Nat.eqb_spec z na); [congruence|]. auto.
        -- intros j m z Hj Hm. cbn [nassoc]. destruct (Nat.eqb_spec j na); [lia|]. eauto.
        -- cbn. now rewrite Nat.eqb_refl.
    + destruct (V _ _ _ Hi Ep) as [V1 V2]. destruct (seen_in (SX x) (k_seen st)) eqn:Es.
      * assert (Hd : In s (k_D st)) by tauto. rewrite (proj2 (known_eq _ _ _) (V2 Hd)).
        eexists. split; [reflexivity|]. apply G; cbn [k_D k_seen k_F]; auto.
        -- intros t. split; [auto|]. intros [K| ->]; assumption.
        -- intros j t z Hj Hp. destruct (V _ _ _ Hj Hp) as [W1 W2]. pose proof (Av _ _ _ Hj). cbn [nassoc].
           destruct (Nat.eqb_spec z na); [congruence|]. auto.
        -- intros m z Hv Hm. pose proof (As _ _ Hv Hm). cbn [nassoc]. destruct (Nat.eqb_spec z na); [congruence|]. auto.
        -- intros j m z Hj Hm. cbn [nassoc]. destruct (Nat.eqb_spec j na); [lia|]. eauto.
        -- cbn. now rewrite Nat.eqb_refl.
      * assert (Hd : ~ In s (k_D st)) by (intros K; apply V1 in K; congruence).
        destruct (smem s (k_D st)) eqn:Em; [apply smem_in in Em; contradiction|]. rewrite Hlt'.
        eexists. split; [reflexivity|]. apply G; cbn [k_D k_seen k_F]; auto.
        -- intros t. cbn. intuition congruence.
        -- intros j t z Hj Hp. destruct (V _ _ _ Hj Hp) as [W1 W2]. pose proof (Av _ _ _ Hj).
           cbn [seen_in existsb sreg_eqb In nassoc]. fold (seen_in (SX z) (k_seen st)).
           destruct (Nat.eqb_spec z na); [congruence|].
           destruct (Nat.eqb_spec z x) as [->|Hne]; cbn [orb].
           ++ assert (t = s); [|subst; tauto].
              destruct (al_own _ _ _ AL _ _ _ _ _ Hi Hj) as [->|(u & E1 & E2)]; congruence.
           ++ rewrite W1. assert (t <> s). { intros ->. pose proof (al_var _ _ _ AL _ _ _ _ _ Hi Hj). congruence. }
              intuition congruence.
        -- intros t z Hp. cbn [seen_in existsb sreg_eqb orb In]. fold (seen_in (SY z) (k_seen st)).
           rewrite (P _ _ Hp). assert (t <> s) by congruence. intuition congruence.
        -- intros m z Hv Hm. destruct (SS _ _ Hv Hm) as [S1 S2]. pose proof (As _ _ Hv Hm).
           cbn [seen_in existsb sreg_eqb nassoc]. fold (seen_in (SX z) (k_seen st)).
           destruct (Nat.eqb_spec z na); [congruence|].
           destruct (Nat.eqb_spec z x) as [->|Hne]; cbn [orb]; [|auto].
           destruct (N _ Hv) as [j Hj]. destruct (al_own _ _ _ AL _ _ _ _ _ Hi Hj) as [<-|(u & E1 & E2)].
           ++ rewrite Hi in Hj. injection Hj as <-. discriminate.
           ++ subst. discriminate.
        -- intros j m z Hj Hm. cbn [nassoc]. destruct (Nat.eqb_spec j na); [lia|].
           destruct (Nat.eqb_spec j x) as [->|]; [|eauto]. pose proof (al_big _ _ _ AL _ _ _ Hi (or_intror eq_refl)). lia.
        -- cbn. now rewrite Nat.eqb_refl.
  - rewrite Hlt'. eexists. split; [reflexivity|]. now apply Leaf.
  - rewrite Hlt'. eexists. split; [reflexivity|]. now apply Leaf.
Qed.

Lemma args_walk k : forall na st (vis : node * nat -> Prop), nargs = na + k -> nargs <= List.length es ->
  (forall q, vis_from nargs q -> vis q) -> QI vis na st ->
  exists st' vis', chk_ents perm nr (firstn k (skipn na es)) st = Some st' /\ QI vis' nargs st' /\
    (forall q, vis q -> vis' q) /\
    (forall i e, na <= i -> i < nargs -> nth_error es i = Some e -> vis' (en_node e, en_x e) /\ forall q, In q (en_kids e) -> vis' q).
Proof.
  induction k as [|k IH]; intros na st vis Hk Hl Hvis I.
  - rewrite firstn_O. cbn [chk_ents]. exists st, vis. csplit; auto; [replace nargs with na by lia; assumption|intros; lia].
  - destruct (nth_error es na) as [e|] eqn:Ee; [|apply nth_error_None in Ee; lia].
    assert (Es : skipn na es = e :: skipn (S na) es).
    { clear -Ee. revert na Ee. induction es as [|a l IHl]; intros [|p] E; try discriminate; cbn in *; [congruence|]. now apply IHl. }
    rewrite Es. cbn [firstn chk_ents].
    destruct (eo_at _ _ _ EO na e Ee) as (n & x & Hx & En & Ex & Ea & Ek & Hk').
    destruct (Nat.ltb_spec na nargs); [|lia].
    assert (K : exists st1 vis1, chk_ent perm nr e st = Some st1 /\ QI vis1 (S na) st1 /\ (forall q, vis q -> vis1 q) /\
              vis1 (en_node e, en_x e) /\ forall q, In q (en_kids e) -> vis1 q).
    { destruct e as [n0 x0 a0 k0]. cbn [en_node en_x en_arg en_kids] in *. subst n0 x0 a0. destruct (is_str n) eqn:Hs.
      - destruct (QI_str vis na st na n x k0 (Some na) I Hx Hs) as (st2 & E2 & I2 & F2); auto; [lia| |].
        + intros m y Hm. destruct (Hk' _ Hm) as (j & J1 & J2 & J3). split; [|eauto]. intros Hst. apply Hvis.
          destruct (nth_error es j) as [e'|] eqn:Ee'.
          * exists j, e'. csplit; auto. destruct (eo_at _ _ _ EO j e' Ee') as (n' & x' & Hx' & En' & Ex' & _).
            rewrite J3 in Hx'. injection Hx' as <- <-. right. rewrite En', Ex'. auto.
          * exfalso. apply nth_error_None in Ee'. apply nth_error_lt in J3. rewrite (eo_len _ _ _ EO) in Ee'. lia.
        + exists st2, (fun k => vis k \/ In k k0 \/ k = (n, x)). csplit; auto.
          destruct I2 as [D2 V2 P2 S2 A2 N2]. split; auto.
          intros j m z Hj Hm. destruct (Nat.eq_dec j na) as [->|]; [|apply (A2 j m z); [lia|assumption]].
          rewrite Hx in Hm. injection Hm as <- <-.
          assert (x = na) by (apply (al_arg _ _ _ AL na n x Hx); auto; destruct n; try discriminate; reflexivity). subst x. exact F2.
      - destruct (QI_arg vis na st n x k0 I Hx Hs) as (st2 & E2 & I2); auto.
        exists st2, (addk vis (n, x)). csplit; auto; [intros q Hq; now left|now right|].
        intros q Hq. destruct k0; [contradiction|]. destruct n; discriminate. }
    destruct K as (st1 & vis1 & E1 & I1 & M1 & V1 & V2). rewrite E1.
    destruct (IH (S na) st1 vis1) as (st' & vis' & E' & I' & M' & V'); [lia|lia|auto|assumption|].
    exists st', vis'. csplit; auto. intros i e' Hi Hi2 He'. destruct (Nat.eq_dec i na) as [->|].
    + rewrite Ee in He'. injection He' as <-. auto.
    + apply (V' i e'); auto; lia.
Qed.

(** Goal code passes the check. *)
Lemma goal_walk_from st : nargs <= List.length es ->
  (forall s, In s (k_D st) <-> In s D0) ->
  (forall i s x, nth_error lx i = Some (NVar s, x) -> perm s = None ->
     (seen_in (SX x) (k_seen st) = true <-> In s D0) /\ (In s D0 -> nassoc x (k_F st) = Some (NVar s))) ->
  (forall s y, perm s = Some y -> (seen_in (SY y) (k_seen st) = true <-> In s D0)) ->
  exists st', chk_ents perm nr (rev (skipn nargs (filter keep_flat es)) ++ firstn nargs (filter keep_flat es)) st = Some st' /\
    (forall i n x, i < nargs -> nth_error lx i = Some (n, x) -> nassoc i (k_F st') = Some n) /\
    (forall s, In s (k_D st') <-> In s D0 \/ exists i x, nth_error lx i = Some (NVar s, x)) /\
    (forall s y, perm s = Some y -> (seen_in (SY y) (k_seen st') = true <-> In s (k_D st'))) /\
    (forall i s x, nth_error lx i = Some (NVar s, x) -> perm s = None -> nassoc x (k_F st') = Some (NVar s)).
Proof.
  intros Hl HD HV HSY.
  assert (Ef : filter keep_flat es = firstn nargs es ++ filter keep_flat (skipn nargs es)).
  { rewrite <- (firstn_skipn nargs es) at 1. rewrite filter_app. f_equal.
    assert (G : forall l, (forall e, In e l -> keep_flat e = true) -> filter keep_flat l = l).
    { induction l as [|a l IH]; intros H; cbn; [reflexivity|]. rewrite (H a) by (now left). f_equal. apply IH. intros e He. apply H. now right. }
    apply G. intros e He. apply In_nth_error in He. destruct He as [i Hi].
    assert (L : i < nargs) by (apply nth_error_lt in Hi; rewrite firstn_length in Hi; lia).
    assert (Hi' : nth_error es i = Some e).
    { rewrite <- (firstn_skipn nargs es), nth_error_app1; [assumption|apply nth_error_lt in Hi; assumption]. }
    destruct (eo_at _ _ _ EO i e Hi') as (n & x & _ & En & _ & Ea & _). destruct (Nat.ltb_spec i nargs); [|lia].
    unfold keep_flat. rewrite Ea. destruct (en_node e); reflexivity. }
  assert (Lf : List.length (firstn nargs es) = nargs) by (rewrite firstn_length; lia).
  rewrite Ef, skipn_app, firstn_app, Lf, Nat.sub_diag, firstn_O, app_nil_r, firstn_firstn, Nat.min_id.
  rewrite skipn_all2 by lia. cbn [skipn app].
  assert (I0 : QI (fun _ => False) 0 st).
  { split; try (intros; contradiction); try (intros; lia).
    - intros s. rewrite HD. split; [now left|]. intros [K|(x & [])]. assumption.
    - intros i s x Hi Hp. rewrite HD. exact (HV i s x Hi Hp).
    - intros s y Hp. rewrite HD. auto. }
  destruct (structs_walk (List.length es - nargs) nargs st) as (st1 & E1 & I1); [lia|lia|assumption|].
  rewrite chk_ents_app, E1.
  assert (Q0 : QI (vis_from nargs) 0 st1) by exact I1.
  destruct (args_walk nargs 0 st1 (vis_from nargs)) as (st2 & vis2 & E2 & I2 & M2 & V2); auto.
  exists st2. cbn [skipn] in E2. split; [exact E2|].
  assert (All : forall i k, nth_error lx i = Some k -> is_var (fst k) = true -> vis2 k).
  { intros i [n x] Hi Hv. destruct (Nat.lt_ge_cases i nargs) as [L|L].
    - destruct (nth_error es i) as [e|] eqn:Ee; [|apply nth_error_None in Ee; apply nth_error_lt in Hi; rewrite (eo_len _ _ _ EO) in Ee; lia].
      destruct (V2 i e ltac:(lia) L Ee) as [K _]. destruct (eo_at _ _ _ EO i e Ee) as (n' & x' & Hx & En & Ex & _).
      rewrite Hi in Hx. injection Hx as <- <-. congruence.
    - destruct (eo_cover _ _ _ EO i (n, x) L Hi) as (p & e & Ep & Ke). destruct (Nat.lt_ge_cases p nargs) as [L'|L'].
      + destruct (V2 p e ltac:(lia) L' Ep) as [_ K]. auto.
      + apply M2. exists p, e. auto. }
  destruct I2 as [D2 V3 P2 S2 A2 N2]. csplit; auto.
  - intros s. rewrite D2. split; (intros [K|K]; [now left|right]).
    + destruct K as [x K]. destruct (N2 _ K) as [i Hi]. eauto.
    + destruct K as (i & x & K). exists x. eapply All; eauto.
  - intros i s x Hi Hp. apply (V3 i s x Hi Hp). apply D2. right. exists x. eapply All; eauto.
Qed.
Lemma goal_walk st : nargs <= List.length es ->
  (forall s, In s (k_D st) <-> In s D0) ->
  (forall i s x, nth_error lx i = Some (NVar s, x) -> perm s = None -> ~ In s D0) ->
  (forall x, seen_in (SX x) (k_seen st) = false) ->
  (forall s y, perm s = Some y -> (seen_in (SY y) (k_seen st) = true <-> In s D0)) ->
  exists st', chk_ents perm nr (rev (skipn nargs (filter keep_flat es)) ++ firstn nargs (filter keep_flat es)) st = Some st' /\
    (forall i n x, i < nargs -> nth_error lx i = Some (n, x) -> nassoc i (k_F st') = Some n) /\
    (forall s, In s (k_D st') <-> In s D0 \/ exists i x, nth_error lx i = Some (NVar s, x)) /\
    (forall s y, perm s = Some y -> (seen_in (SY y) (k_seen st') = true <-> In s (k_D st'))) /\
    (forall i s x, nth_error lx i = Some (NVar s, x) -> perm s = None -> nassoc x (k_F st') = Some (NVar s)).
Proof.
  intros Hl HD Htmp HSX HSY. apply goal_walk_from; auto.
  intros i s x Hi Hp. rewrite HSX. pose proof (Htmp _ _ _ Hi Hp) as K. intuition discriminate.
Qed.
End WalkQ.
