(** Rules whose registers do not clash, by the form of the rule. *)
From Verif Require Import Base Machine Heap Facts Compiler Spec Print Valuation Process Shape Session Code Put Search PutRun Get Alloc Atoms Clause Stack Ready Answers Parser Parsed Organizer Examples Arith Faithful.
Open Scope list_scope.

(** --- registers of the first body atom --- *)
Lemma assign_xs_grow nargs l : forall pos cnt m xs cnt' m', assign_xs nargs pos l cnt m = (xs, cnt', m') -> cnt <= cnt'.
Proof.
  induction l as [|n l IH]; intros pos cnt m xs cnt' m' E; cbn [assign_xs] in E; [injection E as <- <- <-; lia|].
  destruct (match n with NVar s => _ | _ => _ end) as [[x cnt1] m1] eqn:Ex in E.
  destruct (assign_xs nargs (S pos) l cnt1 m1) as [[xs1 cnt2] m2] eqn:E1. injection E as <- <- <-. apply IH in E1.
  destruct n as [s|s|s|s k|s k]; [destruct (assoc s m)| | | |]; try destruct (Nat.ltb pos nargs); injection Ex as <- <- <-; lia.
Qed.

(** Registers below [cnt] are new, those from [K] on belong to the head. *)
Definition mok2 (nargs cnt K : nat) (m : list (string * nat)) : Prop :=
  (forall s r, assoc s m = Some r -> nargs <= r /\ (r < cnt \/ K <= r)) /\
  (forall s t r, assoc s m = Some r -> assoc t m = Some r -> s = t).

Lemma assign_xs_room nargs K l : forall pos cnt m xs cnt' m', assign_xs nargs pos l cnt m = (xs, cnt', m') ->
  mok2 nargs cnt K m -> nargs <= cnt -> cnt' <= K ->
  mok2 nargs cnt' K m' /\ cnt <= cnt' /\ List.length xs = List.length l /\
  (forall s r, assoc s m = Some r -> assoc s m' = Some r) /\
  (forall s r, assoc s m' = Some r -> assoc s m = Some r \/ cnt <= r < cnt') /\
  (forall i n x, nth_error (combine l xs) i = Some (n, x) ->
     match n with
     | NVar s => assoc s m' = Some x
     | _ => (pos + i < nargs /\ x = pos + i) \/
            (nargs <= pos + i /\ cnt <= x < cnt' /\ (forall s, assoc s m' <> Some x))
     end) /\
  (forall i j n k x, nth_error (combine l xs) i = Some (n, x) -> nth_error (combine l xs) j = Some (k, x) ->
     is_var n = false -> is_var k = false -> i = j).
Proof.
  induction l as [|n l IH]; intros pos cnt m xs cnt' m' E M Hc HK; cbn [assign_xs] in E.
  - injection E as <- <- <-. csplit; auto. 1: intros [|i] n x; discriminate. intros [|i] j n k x; discriminate.
  - assert (Hx : exists x cnt1 m1 xs1,
      (match n with
        | NVar s => match assoc s m with Some r => (r, cnt, m) | None => (cnt, S cnt, (s, cnt) :: m) end
        | _ => if Nat.ltb pos nargs then (pos, cnt, m) else (cnt, S cnt, m)
        end) = (x, cnt1, m1) /\ assign_xs nargs (S pos) l cnt1 m1 = (xs1, cnt', m') /\ xs = x :: xs1).
    { destruct (match n with NVar s => _ | _ => _ end) as [[x cnt1] m1].
      destruct (assign_xs nargs (S pos) l cnt1 m1) as [[xs1 cnt2] m2] eqn:E1. injection E as <- <- <-.
      exists x, cnt1, m1, xs1. auto. }
    destruct Hx as (x & cnt1 & m1 & xs1 & Ex & E1 & ->). clear E.
    pose proof (assign_xs_grow _ _ _ _ _ _ _ _ E1) as Gr.
    assert (Up : cnt1 = cnt \/ cnt1 = S cnt -> mok2 nargs cnt1 K m).
    { intros U. destruct M as [M1 M2]. split; [|assumption]. intros t r H'. specialize (M1 _ _ H'). lia. }
    assert (Kn : mok2 nargs cnt1 K m1 /\ cnt <= cnt1 /\ (forall s r, assoc s m = Some r -> assoc s m1 = Some r) /\
       (forall s r, assoc s m1 = Some r -> assoc s m = Some r \/ r = cnt /\ cnt1 = S cnt) /\
       match n with
       | NVar s => assoc s m1 = Some x
       | _ => m1 = m /\ ((pos < nargs /\ x = pos /\ cnt1 = cnt) \/ (nargs <= pos /\ x = cnt /\ cnt1 = S cnt))
       end).
    { destruct n as [s|s|s|s k|s k].
      - destruct (assoc s m) as [r|] eqn:Ea; injection Ex as <- <- <-; [csplit; auto|].
        assert (Hnew : forall t r, assoc t ((s, cnt) :: m) = Some r -> (t = s /\ r = cnt) \/ (t <> s /\ assoc t m = Some r)).
        { intros t r. cbn [assoc]. destruct (String.eqb_spec t s) as [->|]; [intros Q; injection Q as <-|]; auto. }
        destruct M as [M1 M2]. csplit; auto.
        + split.
          * intros t r H. destruct (Hnew _ _ H) as [[-> ->]|[_ H']]; [lia|]. specialize (M1 _ _ H'). lia.
          * intros t u r H1 H2. destruct (Hnew _ _ H1) as [[-> ->]|[N1 H1']]; destruct (Hnew _ _ H2) as [[-> E2]|[N2 H2']]; auto.
            -- specialize (M1 _ _ H2'). lia.
            -- subst r. specialize (M1 _ _ H1'). lia.
            -- eauto.
        + intros t r H. cbn [assoc]. destruct (String.eqb_spec t s) as [->|]; [congruence|assumption].
        + intros t r H. destruct (Hnew _ _ H) as [[-> ->]|[_ H']]; auto.
        + cbn. now rewrite String.eqb_refl.
      - destruct (Nat.ltb_spec pos nargs); injection Ex as <- <- <-; csplit; auto.
      - destruct (Nat.ltb_spec pos nargs); injection Ex as <- <- <-; csplit; auto.
      - destruct (Nat.ltb_spec pos nargs); injection Ex as <- <- <-; csplit; auto.
      - destruct (Nat.ltb_spec pos nargs); injection Ex as <- <- <-; csplit; auto. }
    destruct Kn as (Mm1 & Hcc & Ext1 & New1 & Kn).
    destruct (IH _ _ _ _ _ _ E1 Mm1) as (A & B & C & D & E' & F & G); [lia|lia|].
    assert (Own : is_var n = false -> nargs <= pos -> cnt <= x < cnt' /\ (forall s, assoc s m' <> Some x)).
    { intros Hv Hp. destruct n; try discriminate; destruct Kn as [-> [[? _]|(_ & -> & ->)]]; try lia;
        (split; [lia|]); intros t Ht; destruct (E' _ _ Ht) as [H'|H']; try lia; apply (proj1 M) in H'; lia. }
    csplit; auto.
    + lia.
    + cbn. lia.
    + intros s r H. destruct (E' _ _ H) as [H'|H']; [|right; lia]. destruct (New1 _ _ H') as [H''|[-> ?]]; [auto|right; lia].
    + intros [|i] n0 x0 H.
      * cbn in H. injection H as <- <-. destruct n; [auto| | | |]; destruct Kn as [Em [(? & -> & _)|(Hp & -> & _)]];
          try (left; lia); right; rewrite Nat.add_0_r; split; try lia; apply Own; auto.
      * cbn in H. specialize (F _ _ _ H). destruct n0; [assumption| | | |];
          (destruct F as [[? ?]|(? & ? & ?)]; [left; lia|right; split; [lia|]; split; [lia|assumption]]).
    + assert (Z : forall j k, nth_error (combine l xs1) j = Some (k, x) -> is_var n = false -> is_var k = false -> False).
      { intros j k Hj Hn Hk. specialize (F _ _ _ Hj). destruct k; try discriminate;
          (destruct n; try discriminate; destruct Kn as [_ [(? & -> & ->)|(? & -> & ->)]];
           destruct F as [[? ?]|(? & ? & _)]; lia). }
      intros [|i] [|j] n0 k0 x0 Hi Hj Hn Hk; cbn in Hi, Hj; auto.
      * injection Hi as <- <-. exfalso. eauto.
      * injection Hj as <- <-. exfalso. eauto.
      * f_equal. eauto.
Qed.

Lemma assign_room n m a c m' K c0 : assign_term n m = (a, c, m') -> mok2 (List.length (kids n)) (List.length (kids n)) K m -> c <= K ->
  (forall s r, assoc s m = Some r -> r < c0) ->
  exists lx, term_alloc n a (Nat.max c0 c) lx /\
    (forall i s x, nth_error lx i = Some (NVar s, x) -> assoc s m = Some x \/ (assoc s m = None /\ List.length (kids n) <= x < c)).
Proof.
  unfold assign_term. set (nargs := List.length (kids n)). intros E M HK Hm.
  destruct (assign_xs nargs 0 (bfs_below n) nargs m) as [[xs cb] m0] eqn:Ex. injection E as <- <- <-.
  destruct (assign_xs_room _ K _ _ _ _ _ _ _ Ex M (Nat.le_refl _) HK) as ([M1 M2] & B & C & D & E' & F & G).
  exists (combine (bfs_below n) xs).
  assert (Fv : forall i s x, nth_error (combine (bfs_below n) xs) i = Some (NVar s, x) -> assoc s m0 = Some x) by (intros i s x H; exact (F _ _ _ H)).
  split; [split; cbn [aa_ents aa_top aa_vx]; fold nargs; auto|].
  - clear -C. revert xs C. generalize (bfs_below n) as l. induction l as [|k l IH]; intros [|x xs] C; try discriminate; [reflexivity|]. cbn. f_equal. apply IH. cbn in C. lia.
  - intros nr Hnr.
    assert (Lt : forall s r, assoc s m0 = Some r -> r < nr).
    { intros s r H. destruct (E' _ _ H) as [H'|H']; [apply Hm in H'; lia|lia]. }
    split.
    + intros i k x H. specialize (F _ _ _ H). destruct k; [eauto| | | |]; lia.
    + lia.
    + intros i k x H Hi Hv. specialize (F _ _ _ H). destruct k; [discriminate| | | |]; lia.
    + intros i k x H Hi. pose proof (F _ _ _ H) as Q. destruct k; [apply M1 in Q; lia| | | |]; (destruct Hi as [Hi|Hi]; [lia|discriminate]).
    + intros i j s x y Hi Hj. apply Fv in Hi, Hj. congruence.
    + intros i j k k' x Hi Hj. destruct (is_var k) eqn:Vn, (is_var k') eqn:Vk.
      * destruct k; try discriminate. destruct k'; try discriminate. right. exists s. split; [reflexivity|]. f_equal.
        apply Fv in Hi, Hj. eauto.
      * exfalso. destruct k; try discriminate. apply Fv in Hi. pose proof (F _ _ _ Hj) as Q. pose proof (M1 _ _ Hi).
        destruct k'; try discriminate; (destruct Q as [Q|(_ & _ & Q)]; [lia|exact (Q _ Hi)]).
      * exfalso. destruct k'; try discriminate. apply Fv in Hj. pose proof (F _ _ _ Hi) as Q. pose proof (M1 _ _ Hj).
        destruct k; try discriminate; (destruct Q as [Q|(_ & _ & Q)]; [lia|exact (Q _ Hj)]).
      * left. eauto.
  - lia.
  - intros i s x H. apply Fv in H. destruct (assoc s m) as [r|] eqn:Ea.
    + left. apply D in Ea. congruence.
    + right. split; [reflexivity|]. destruct (E' _ _ H) as [H'|H']; [congruence|lia].
Qed.

(** --- how many registers are new --- *)
(** the terms that are not variables, in a term *)
Fixpoint solid (n : node) : nat :=
  match n with
  | NVar _ => 0
  | NFun _ l | NEv _ l => S (list_sum (map solid l))
  | _ => 1
  end.
Definition nonvars (l : list node) : nat := List.length (filter (fun n => negb (is_var n)) l).
Lemma list_sum_app l k : list_sum (l ++ k) = list_sum l + list_sum k.
Proof. induction l as [|a l IH]; cbn in *; [reflexivity|]. unfold list_sum in *. lia. Qed.
Lemma nonvars_bfs k : forall q, fsize q <= k -> nonvars (bfs q) = list_sum (map solid q).
Proof.
  induction k as [|k IH]; intros q Hk.
  - destruct q as [|n q]; [reflexivity|]. cbn in Hk. rewrite nsize_kids in Hk. lia.
  - destruct q as [|n q]; [reflexivity|]. rewrite bfs_cons. unfold nonvars. cbn [filter].
    assert (Q : nonvars (bfs (q ++ kids n)) = list_sum (map solid q) + list_sum (map solid (kids n))).
    { rewrite IH; [now rewrite map_app, list_sum_app|]. rewrite fsize_app. cbn in Hk. fold (fsize q) in Hk. rewrite nsize_kids in Hk. lia. }
    unfold nonvars, list_sum in *. destruct n as [s|s|s|s l|s l]; cbn [is_var negb List.length solid kids map fold_right] in *; unfold list_sum in *; lia.
Qed.
(** the terms below the arguments that are not variables *)
Definition inner (n : node) : nat := list_sum (map solid (flat_map kids (kids n))).
Lemma bfs_two q : bfs q = q ++ bfs (flat_map kids q).
Proof.
  assert (G : forall q r, bfs (q ++ r) = q ++ bfs (r ++ flat_map kids q)).
  { clear. induction q as [|n q IH]; intros r; cbn [app flat_map]; [now rewrite app_nil_r|]. rewrite bfs_cons. f_equal.
    rewrite <- app_assoc, IH. now rewrite <- app_assoc. }
  specialize (G q []). now rewrite app_nil_r in G.
Qed.

Lemma assign_count nargs l : forall pos cnt m xs cnt' m' U, assign_xs nargs pos l cnt m = (xs, cnt', m') ->
  (forall s, In (NVar s) l -> assoc s m = None -> In s U) ->
  cnt' <= cnt + nonvars (skipn (nargs - pos) l) + List.length U.
Proof.
  induction l as [|n l IH]; intros pos cnt m xs cnt' m' U E HU; cbn [assign_xs] in E; [injection E as <- <- <-; lia|].
  destruct (match n with NVar s => _ | _ => _ end) as [[x cnt1] m1] eqn:Ex in E.
  destruct (assign_xs nargs (S pos) l cnt1 m1) as [[xs1 cnt2] m2] eqn:E1. injection E as <- <- <-.
  assert (Step : nonvars (skipn (nargs - pos) (n :: l)) = nonvars (skipn (nargs - S pos) l) + if Nat.ltb pos nargs then 0 else if is_var n then 0 else 1).
  { destruct (Nat.ltb_spec pos nargs).
    - replace (nargs - pos) with (S (nargs - S pos)) by lia. cbn [skipn]. lia.
    - replace (nargs - pos) with 0 by lia. replace (nargs - S pos) with 0 by lia. cbn [skipn]. unfold nonvars. cbn [filter]. destruct (is_var n); cbn [negb List.length]; lia. }
  rewrite Step. clear Step. destruct (is_var n) eqn:Vn.
  - destruct n as [s| | | |]; try discriminate. replace (if Nat.ltb pos nargs then 0 else 0) with 0 by (destruct (Nat.ltb pos nargs); reflexivity).
    destruct (assoc s m) as [r|] eqn:Ea; injection Ex as <- <- <-.
    + specialize (IH _ _ _ _ _ _ U E1). lapply IH; [lia|]. intros t Ht. apply HU. now right.
    + specialize (IH _ _ _ _ _ _ (remove string_dec s U) E1). lapply IH.
      * pose proof (remove_length_lt string_dec U s (HU s (or_introl eq_refl) Ea)). lia.
      * intros t Ht At. cbn [assoc] in At. destruct (String.eqb_spec t s) as [->|N]; [discriminate|]. apply in_in_remove; [assumption|]. apply HU; [now right|assumption].
  - assert (m1 = m /\ cnt1 = cnt + if Nat.ltb pos nargs then 0 else 1) as [-> ->].
    { destruct n; try discriminate; destruct (Nat.ltb pos nargs); injection Ex as <- <- <-; (split; [reflexivity|lia]). }
    specialize (IH _ _ _ _ _ _ U E1). lapply IH; [destruct (Nat.ltb pos nargs); lia|]. intros t Ht. apply HU. now right.
Qed.

(** --- the head --- *)
Lemma assign_dom nargs l : forall pos cnt m xs cnt' m', assign_xs nargs pos l cnt m = (xs, cnt', m') ->
  forall s r, assoc s m' = Some r -> assoc s m = Some r \/ exists i, nth_error (combine l xs) i = Some (NVar s, r).
Proof.
  induction l as [|n l IH]; intros pos cnt m xs cnt' m' E t r H; cbn [assign_xs] in E; [injection E as <- <- <-; auto|].
  destruct (match n with NVar s => _ | _ => _ end) as [[x cnt1] m1] eqn:Ex in E.
  destruct (assign_xs nargs (S pos) l cnt1 m1) as [[xs1 cnt2] m2] eqn:E1. injection E as <- <- <-.
  destruct (IH _ _ _ _ _ _ E1 t r H) as [K|(i & K)]; [|right; exists (S i); exact K].
  destruct n as [s|s|s|s k|s k]; [destruct (assoc s m) eqn:Ea| | | |]; try destruct (Nat.ltb pos nargs); injection Ex as <- <- <-; auto.
  all: cbn [assoc] in K; destruct (String.eqb_spec t s) as [->|]; [|auto]; injection K as <-; right; exists 0; reflexivity.
Qed.
Lemma mk_ents_in nargs l : forall pos rest e, In e (mk_ents nargs pos l rest) -> In (en_node e, en_x e) l.
Proof.
  induction l as [|[n x] l IH]; intros pos rest e H; cbn [mk_ents] in H; [contradiction|].
  destruct H as [<-|H]; [now left|]. right. eapply IH; eauto.
Qed.

Record head_done (perm : string -> option nat) (h : node) (ha : aatom) (c1 : nat) (m1 : list (string * nat)) (nr : nat) (st : gst) : Prop := {
  hd_run : chk_hents perm nr (flatten_program ha) (ginit h) = Some st;
  hd_T : g_T st = [];
  hd_D : forall s, In s (g_D st) <-> In s (vars_of h);
  hd_sy : sy_seen perm (g_D st) (erase_head_regs ha (g_seen st));
  hd_dom : forall s, In s (vars_of h) <-> assoc s m1 <> None;
  hd_rng : forall s r, assoc s m1 = Some r -> List.length (kids h) <= r < c1;
  hd_inj : forall s t r, assoc s m1 = Some r -> assoc t m1 = Some r -> s = t;
  hd_F : forall s r, assoc s m1 = Some r -> perm s = None -> nassoc r (g_F st) = Some (NVar s);
  hd_seen : forall s r, assoc s m1 = Some r -> seen_in (SX r) (erase_head_regs ha (g_seen st)) = true;
  hd_free : forall x, x < List.length (kids h) -> seen_in (SX x) (erase_head_regs ha (g_seen st)) = false
}.
Lemma seen_in_filter r f l : seen_in r (filter f l) = true <-> seen_in r l = true /\ f r = true.
Proof.
  assert (G : forall l', seen_in r l' = true <-> In r l').
  { intros l'. unfold seen_in. rewrite existsb_exists. split.
    - intros (q & A & B). assert (r = q) as -> by (destruct r, q; cbn in B; try discriminate; apply Nat.eqb_eq in B; congruence). exact A.
    - intros A. exists r. split; [exact A|]. destruct r; cbn; apply Nat.eqb_refl. }
  rewrite !G, filter_In. reflexivity.
Qed.
Lemma seen_in_spec r l : seen_in r l = true <-> In r l.
Proof.
  unfold seen_in. rewrite existsb_exists. split.
  - intros (q & A & B). assert (r = q) as -> by (destruct r, q; cbn in B; try discriminate; apply Nat.eqb_eq in B; congruence). exact A.
  - intros A. exists r. split; [exact A|]. destruct r; cbn; apply Nat.eqb_refl.
Qed.
Lemma head_state perm h ha c1 m1 nr : (forall s t y, perm s = Some y -> perm t = Some y -> s = t) ->
  atom_ok h -> is_constant h = false -> assign_term h [] = (ha, c1, m1) -> c1 <= nr ->
  exists st, head_done perm h ha c1 m1 nr st.
Proof.
  intros PI Hh Ec Et Hnr. set (kh := List.length (kids h)).
  assert (Ea : assign_one h = (ha, c1)) by (unfold assign_one; now rewrite Ec, Et).
  assert (Hk : forall m, In m (kids h) -> node_ok m) by (destruct h; try contradiction; try discriminate; destruct l; [contradiction|assumption]).
  pose proof Et as Et0. unfold assign_term in Et. fold kh in Et.
  destruct (assign_xs kh 0 (bfs_below h) kh []) as [[xs c] m'] eqn:Ex. injection Et as <- <- <-.
  destruct (assign_term_alloc _ _ _ _ Et0) as (lx0 & TA0). clear lx0 TA0.
  set (lx := combine (bfs_below h) xs). destruct (assign_alloc _ _ _ _ _ Ex) as (A & B & C & D). fold lx in B, C, D.
  set (ha := {| aa_top := h; aa_ents := mk_ents kh 0 lx (skipn kh lx); aa_vx := m' |}) in *.
  assert (TA : term_alloc h ha c lx) by (split; cbn; auto).
  destruct (head_ready perm h ha c nr lx Hk Ec TA Hnr) as (st & E & T & [HD HS HF HFv]).
  pose proof (B c (Nat.le_refl _)) as AL.
  assert (M0 : mok kh kh []) by (split; intros; discriminate).
  destruct (assign_xs_spec _ _ _ _ _ _ _ _ Ex M0 (Nat.le_refl _)) as ([M1 M2] & _).
  assert (Dm : forall s r, assoc s m' = Some r -> exists i, nth_error lx i = Some (NVar s, r)).
  { intros s r H. destruct (assign_dom _ _ _ _ _ _ _ _ Ex s r H) as [K|K]; [discriminate|exact K]. }
  assert (Gone : forall r, In r (flat_map (fun e => match en_node e with NFun _ _ | NCon _ => [SX (en_x e)] | _ => [] end) (aa_ents ha)) ->
    exists i n x, nth_error lx i = Some (n, x) /\ is_var n = false /\ r = SX x).
  { intros r H. apply in_flat_map in H. destruct H as (e & He & Hr). apply mk_ents_in in He. apply In_nth_error in He. destruct He as [i Hi].
    exists i, (en_node e), (en_x e). split; [exact Hi|]. destruct (en_node e); try contradiction; destruct Hr as [<-|[]]; auto. }
  assert (Er : forall r, seen_in r (erase_head_regs ha (g_seen st)) = true <-> seen_in r (g_seen st) = true /\
    ~ In r (flat_map (fun e => match en_node e with NFun _ _ | NCon _ => [SX (en_x e)] | _ => [] end) (aa_ents ha))).
  { intros r. unfold erase_head_regs. change (aa_top ha) with h. rewrite Ec. cbv zeta. rewrite seen_in_filter, negb_true_iff.
    rewrite <- (seen_in_spec r (flat_map _ (aa_ents ha))). destruct (seen_in r (flat_map _ (aa_ents ha))); intuition discriminate. }
  exists st. split; auto.
  - intros s. rewrite HD, (lx_var h ha c lx TA). split.
    + intros (i & x & _ & H). eauto.
    + intros (i & x & H). exists i, x. split; [eapply nth_error_lt; eauto|assumption].
  - assert (SY : sy_seen perm (g_D st) (g_seen st)).
    { apply (chk_hents_sy perm PI nr _ _ _ E). intros s y _. cbn. split; [discriminate|intros []]. }
    intros s y Hp. rewrite Er, (SY s y Hp). split; [tauto|]. intros H. split; [exact H|]. intros K. destruct (Gone _ K) as (i & n & x & _ & _ & Q). discriminate.
  - intros s. rewrite (lx_var h ha c lx TA). split.
    + intros (i & x & H). apply D in H. congruence.
    + intros H. destruct (assoc s m') as [r|] eqn:Es; [|contradiction]. destruct (Dm s r Es) as [i Hi]. eauto.
  - intros s r H Hp. destruct (Dm s r H) as [i Hi]. apply (HF i s r); auto. eapply nth_error_lt; eauto.
  - intros s r H. destruct (Dm s r H) as [i Hi]. rewrite Er. split.
    + apply HS. exists i, (NVar s). split; [eapply nth_error_lt; eauto|]. split; [assumption|]. now left.
    + intros K. destruct (Gone _ K) as (j & n & x & Hj & Hv & Q). injection Q as <-. destruct (al_own _ _ _ AL i j _ _ _ Hi Hj) as [->|(t & _ & ->)]; [|discriminate].
      rewrite Hi in Hj. injection Hj as <-. discriminate.
  - intros x Hx. destruct (seen_in (SX x) (erase_head_regs ha (g_seen st))) eqn:Es; [|reflexivity]. exfalso.
    apply Er in Es. destruct Es as [Es _]. apply HS in Es. destruct Es as (i & n & _ & Hi & Hn).
    pose proof (al_big _ _ _ AL i n x Hi). fold kh in Hx. destruct Hn as [Hn|[_ Hn]]; intuition lia.
Qed.

(** --- enough registers --- *)
Definition rule_fits (cf : cfg) (c : list node) : Prop := clause_ok cf c = true /\ clause_labels cf c = true.
Lemma clause_ok_intro cf h b bs ha ba nr st st' : assign_two h b = (ha, ba, nr) ->
  chk_hents (permof cf (h :: b :: bs) true) nr (flatten_program ha) (ginit h) = Some st ->
  chk_ents (permof cf (h :: b :: bs) true) nr (flatten_query ba) {| k_seen := erase_head_regs ha (g_seen st); k_F := g_F st; k_D := g_D st |} = Some st' ->
  (forall s, In s (g_D st) <-> In s (vars_of h)) ->
  (forall i m, nth_error (targs b) i = Some m -> nassoc i (k_F st') = Some m) ->
  (forall s, In s (k_D st') <-> In s (g_D st) \/ In s (vars_of b)) ->
  shows_vars (permof cf (h :: b :: bs) true) ba b (k_F st') -> rule_fits cf (h :: b :: bs).
Proof.
  intros E2 E1 E3 HD HF HD' SV. split.
  2:{ unfold clause_labels. rewrite E2, E1, E3. apply forallb_forall. intros s Hs.
      destruct (permof cf (h :: b :: bs) true s) eqn:Hp; [reflexivity|]. destruct (SV s Hs Hp) as (x & -> & Hx). now apply known_eq. }
  unfold clause_ok. rewrite E2, E1, E3. rewrite !andb_true_iff. split; [split|]; apply forallb_forall.
  - intros [i m] Hi. cbn [fst snd]. apply known_eq. apply HF. clear -Hi. unfold argq in Hi.
    assert (G : forall l k, In (k + i, m) (combine (seq k (List.length l)) l) -> nth_error l i = Some m).
    { clear. induction i as [|i IH]; intros [|a l] k H; cbn [List.length seq combine] in H; try contradiction; cbn [nth_error].
      - destruct H as [H|H]; [apply (f_equal snd) in H; cbn in H; congruence|]. rewrite Nat.add_0_r in H. apply in_combine_l, in_seq in H. lia.
      - destruct H as [H|H]; [injection H; lia|]. apply (IH l (S k)). now replace (S k + i) with (k + S i) by lia. }
    exact (G (targs b) 0 Hi).
  - intros s Hs. apply smem_in. apply HD'. now right.
  - intros s Hs. apply smem_in. apply in_app_iff. apply HD' in Hs. destruct Hs as [Hs|Hs]; [left; now apply HD|now right].
Qed.

Lemma room_ok cf h b bs ha ba c1 c2 m1 m2 : atom_ok h -> atom_ok b -> is_constant h = false -> is_constant b = false ->
  assign_term h [] = (ha, c1, m1) -> assign_term b m1 = (ba, c2, m2) -> c2 <= List.length (kids h) -> rule_fits cf (h :: b :: bs).
Proof.
  intros Ah Ab Eh Eb E1 E2 Hc. set (perm := permof cf (h :: b :: bs) true).
  assert (PI : forall s t y, perm s = Some y -> perm t = Some y -> s = t) by (intros s t y; apply permof_inj).
  destruct (head_state perm h ha c1 m1 (Nat.max c1 c2) PI Ah Eh E1 (Nat.le_max_l _ _)) as (st & HD). destruct HD.
  assert (Kb : List.length (kids b) <= c2).
  { unfold assign_term in E2. destruct (assign_xs _ _ _ _ _) as [[xs c'] m'] eqn:Ex. injection E2 as <- <- <-. apply assign_xs_grow in Ex. exact Ex. }
  destruct (assign_room b m1 ba c2 m2 (List.length (kids h)) c1 E2) as (lx & TA & Lv); auto.
  { split; [|exact hd_inj0]. intros s r H. specialize (hd_rng0 s r H). lia. }
  { intros s r H. apply (hd_rng0 s r H). }
  assert (Hn : forall m, In m (kids b) -> node_ok m) by (destruct b; try contradiction; try discriminate; destruct l; [contradiction|assumption]).
  destruct (lx_split b ba _ lx TA) as (El & Ek & Hl).
  destruct (goal_walk_from perm PI (List.length (kids b)) (Nat.max c1 c2) lx (ta_alloc _ _ _ _ TA _ (Nat.le_refl _))
      (lx_ok b ba _ lx TA Hn) (g_D st) (aa_ents ba) (lx_ents b ba _ lx TA) {| k_seen := erase_head_regs ha (g_seen st); k_F := g_F st; k_D := g_D st |})
      as (st' & R & A & B & C & F).
  - rewrite (eo_len _ _ _ (lx_ents b ba _ lx TA)). assumption.
  - reflexivity.
  - intros i s x Hi Hp. cbn [k_seen k_F]. destruct (Lv i s x Hi) as [K|[K Lt]].
    + split; [|intros _; now apply hd_F0]. rewrite hd_D0, hd_dom0, K. split; [discriminate|]. intros _. now apply (hd_seen0 s).
    + rewrite (hd_free0 x) by lia. rewrite hd_D0, hd_dom0, K. split; [|intros H; now contradiction H]. split; [discriminate|]. intros H. now contradiction H.
  - exact hd_sy0.
  - apply (clause_ok_intro cf h b bs ha ba (Nat.max c1 c2) st st'); auto.
    + unfold assign_two. now rewrite Eb, Eh, E1, E2.
    + unfold flatten_query. rewrite (ta_top _ _ _ _ TA), Eb. exact R.
    + unfold targs. rewrite Eb. intros i m Hi. destruct (lx_arg b ba _ lx TA i m Hi) as (x & Hx'). apply (A i m x); [|exact Hx'].
      exact (nth_error_lt _ _ _ Hi).
    + intros s. rewrite B, (lx_var b ba _ lx TA). reflexivity.
    + intros s Hs Hp. apply (lx_var b ba _ lx TA) in Hs. destruct Hs as (i & x & Hi). exists x. split; [exact (ta_vx _ _ _ _ TA _ _ _ Hi)|exact (F i s x Hi Hp)].
Qed.

(** --- no terms below the arguments --- *)
Definition flat_atom (n : node) : Prop := forall m, In m (kids n) -> kids m = [] /\ is_str m = false.
Lemma flat_bfs n : flat_atom n -> bfs_below n = kids n.
Proof.
  intros H. unfold bfs_below. rewrite bfs_two. assert (E : flat_map kids (kids n) = []); [|now rewrite E, bfs_nil, app_nil_r].
  unfold flat_atom in H. induction (kids n) as [|a l IH]; [reflexivity|]. cbn. rewrite (proj1 (H a (or_introl eq_refl))). apply IH. intros m Hm. apply H. now right.
Qed.
Section FlatWalk.
Variable perm : string -> option nat.
Hypothesis PI : forall s t y, perm s = Some y -> perm t = Some y -> s = t.
Variables nargs nr : nat.
Hypothesis Hnr : nargs <= nr.
Variable m1 : list (string * nat).
(** the variables of the head *)
Definition carried (st : kst) : Prop :=
  forall s r, assoc s m1 = Some r -> perm s = None -> nargs <= r -> nassoc r (k_F st) = Some (NVar s) /\ seen_in (SX r) (k_seen st) = true /\ In s (k_D st).
Lemma flat_walk l : forall pos cnt m xs cnt' m' st, assign_xs nargs pos l cnt m = (xs, cnt', m') -> pos + List.length l <= nargs ->
  (forall n, In n l -> kids n = [] /\ is_str n = false) ->
  (forall s, In (NVar s) l -> perm s = None -> exists r, assoc s m1 = Some r /\ nargs <= r) ->
  (forall s r, assoc s m1 = Some r -> assoc s m = Some r) ->
  carried st -> sy_seen perm (k_D st) (k_seen st) ->
  exists st', chk_ents perm nr (mk_ents nargs pos (combine l xs) []) st = Some st' /\
    (forall i n, nth_error l i = Some n -> nassoc (pos + i) (k_F st') = Some n) /\
    (forall j, j < pos -> nassoc j (k_F st') = nassoc j (k_F st)) /\
    (forall s, In s (k_D st') <-> In s (k_D st) \/ In (NVar s) l) /\ carried st' /\ (forall s r, assoc s m1 = Some r -> assoc s m' = Some r).
Proof.
  induction l as [|n l IH]; intros pos cnt m xs cnt' m' st E Hp Hl Hv Hm Hc Hy.
  { injection E as <- <- <-. exists st. cbn. split; [reflexivity|]. csplit; auto; [intros [|i] n; discriminate|]. intros s. tauto. }
  cbn [assign_xs] in E. cbn [List.length] in Hp.
  destruct (match n with NVar s => _ | _ => _ end) as [[x cnt1] m2] eqn:Ex in E.
  destruct (assign_xs nargs (S pos) l cnt1 m2) as [[xs1 cnt2] m3] eqn:E1. injection E as <- <- <-.
  destruct (Hl n (or_introl eq_refl)) as [Hk Hs].
  cbn [combine mk_ents]. rewrite Hk. cbn [List.length firstn skipn chk_ents].
  assert (Lt : Nat.ltb pos nargs = true) by (apply Nat.ltb_lt; lia). rewrite Lt in *.
  assert (Ltr : Nat.ltb pos nr = true) by (apply Nat.ltb_lt; lia).
  set (e := {| en_node := n; en_x := x; en_arg := Some pos; en_kids := [] |}).
  assert (M2 : forall s r, assoc s m1 = Some r -> assoc s m2 = Some r).
  { intros s r H. apply Hm in H. destruct n as [t|t|t|t k|t k]; [destruct (assoc t m) eqn:Et| | | |]; injection Ex as <- <- <-; auto.
    cbn [assoc]. destruct (String.eqb_spec s t) as [->|]; [congruence|assumption]. }
  assert (Step : exists st1, chk_ent perm nr e st = Some st1 /\ carried st1 /\ sy_seen perm (k_D st1) (k_seen st1) /\ nassoc pos (k_F st1) = Some n /\
    (forall j, j < pos -> nassoc j (k_F st1) = nassoc j (k_F st)) /\ (forall s, In s (k_D st1) <-> In s (k_D st) \/ n = NVar s)).
  { assert (Far : forall (F : list (nat * node)) r v, nargs <= r -> nassoc r ((pos, v) :: F) = nassoc r F).
    { intros F r v H. cbn [nassoc]. destruct (Nat.eqb_spec r pos); [lia|reflexivity]. }
    assert (Near : forall (F : list (nat * node)) j v, j < pos -> nassoc j ((pos, v) :: F) = nassoc j F).
    { intros F r v H. cbn [nassoc]. destruct (Nat.eqb_spec r pos); [lia|reflexivity]. }
    assert (Here : forall (F : list (nat * node)) v, nassoc pos ((pos, v) :: F) = Some v) by (intros F v; cbn; now rewrite Nat.eqb_refl).
    assert (Cst : (exists t, n = NInt t \/ n = NCon t) -> x = pos ->
       exists st1, Some {| k_seen := SX x :: k_seen st; k_F := (x, n) :: k_F st; k_D := k_D st |} = Some st1 /\ carried st1 /\ sy_seen perm (k_D st1) (k_seen st1) /\ nassoc pos (k_F st1) = Some n /\
    (forall j, j < pos -> nassoc j (k_F st1) = nassoc j (k_F st)) /\ (forall s, In s (k_D st1) <-> In s (k_D st) \/ n = NVar s)).
    { intros (t & Hn) ->. eexists. split; [reflexivity|]. cbn [k_F k_D k_seen]. csplit.
      - intros s r H1 H2 H3. cbn [k_F k_D k_seen]. rewrite Far by assumption. destruct (Hc s r H1 H2 H3) as (A & B & C). csplit; auto.
        cbn [seen_in existsb]. fold (seen_in (SX r) (k_seen st)). rewrite B. apply orb_true_r.
      - now apply sy_x.
      - apply Here.
      - intros j Hj. now apply Near.
      - intros s. split; [tauto|]. intros [H|H]; [assumption|]. destruct Hn; congruence. }
    unfold e, chk_ent. cbn [en_node en_x en_arg en_kids]. destruct n as [s|s|s|s k|s k]; try discriminate Hs.
    - rewrite Ltr. destruct (perm s) as [y|] eqn:Hps.
      + destruct (seen_in (SY y) (k_seen st)) eqn:Sy.
        * eexists. split; [reflexivity|]. cbn [k_F k_D k_seen]. csplit; auto.
          -- intros t r H1 H2 H3. cbn [k_F k_D k_seen]. rewrite Far by assumption. exact (Hc t r H1 H2 H3).
          -- intros t. split; [tauto|]. intros [H|H]; [assumption|]. injection H as <-. now apply (Hy s y Hps).
        * assert (Nm : smem s (k_D st) = false).
          { destruct (smem s (k_D st)) eqn:Sm; [|reflexivity]. apply smem_in in Sm. apply (Hy s y Hps) in Sm. congruence. }
          rewrite Nm. eexists. split; [reflexivity|]. cbn [k_F k_D k_seen]. csplit; auto.
          -- intros t r H1 H2 H3. cbn [k_F k_D k_seen]. rewrite Far by assumption. destruct (Hc t r H1 H2 H3) as (A & B & C). csplit; auto. now right.
          -- now apply sy_perm.
          -- intros t. cbn. split; [intros [->|H]; auto|]. intros [H|H]; [now right|]. left. congruence.
      + destruct (Hv s (or_introl eq_refl) Hps) as (r & Hr & Lr). pose proof (Hm s r Hr) as Hr'. rewrite Hr' in Ex. injection Ex as <- <- <-.
        destruct (Hc s r Hr Hps Lr) as (A & B & C). rewrite B. assert (Kw : known (k_F st) r (NVar s) = true) by now apply known_eq. rewrite Kw.
        eexists. split; [reflexivity|]. cbn [k_F k_D k_seen]. csplit; auto.
        * intros t q H1 H2 H3. cbn [k_F k_D k_seen]. rewrite Far by assumption. exact (Hc t q H1 H2 H3).
        * intros t. split; [tauto|]. intros [H|H]; [assumption|]. injection H as <-. assumption.
    - injection Ex as <- <- <-. rewrite Ltr. apply Cst; eauto.
    - injection Ex as <- <- <-. rewrite Ltr. apply Cst; eauto. }
  destruct Step as (st1 & R1 & C1 & Y1 & F1 & J1 & D1). rewrite R1.
  destruct (IH (S pos) cnt1 m2 xs1 cnt2 m3 st1 E1) as (st' & R' & A' & J' & D' & C' & M'); auto; [lia| | |].
  - intros k Hk'. apply Hl. now right.
  - intros s Hs'. apply Hv. now right.
  - exists st'. split; [exact R'|]. csplit.
    + intros [|i] k Hi.
      * injection Hi as <-. rewrite Nat.add_0_r, J' by lia. exact F1.
      * replace (pos + S i) with (S pos + i) by lia. now apply A'.
    + intros j Hj. rewrite J' by lia. now apply J1.
    + intros s. rewrite D', D1. cbn. intuition congruence.
    + exact C'.
    + exact M'.
Qed.
End FlatWalk.

Lemma flat_ok cf h b bs : atom_ok h -> atom_ok b -> is_constant h = false -> is_constant b = false -> flat_atom b ->
  (forall s, In s (vars_of b) -> permof cf (h :: b :: bs) true s <> None \/ (In s (vars_of h) /\ List.length (kids b) <= List.length (kids h))) ->
  rule_fits cf (h :: b :: bs).
Proof.
  intros Ah Ab Eh Eb Fl Hv. set (perm := permof cf (h :: b :: bs) true) in *.
  assert (PI : forall s t y, perm s = Some y -> perm t = Some y -> s = t) by (intros s t y; apply permof_inj).
  destruct (assign_term h []) as [[ha c1] m1] eqn:E1. destruct (assign_term b m1) as [[ba c2] m2] eqn:E2.
  destruct (head_state perm h ha c1 m1 (Nat.max c1 c2) PI Ah Eh E1 (Nat.le_max_l _ _)) as (st & HD). destruct HD.
  pose proof E2 as E2'. unfold assign_term in E2. rewrite (flat_bfs b Fl) in E2. set (kb := List.length (kids b)) in *.
  destruct (assign_xs kb 0 (kids b) kb m1) as [[xs c'] m'] eqn:Ex. injection E2 as <- <- <-.
  pose proof (assign_xs_grow _ _ _ _ _ _ _ _ Ex) as Gr.
  assert (Lx : List.length xs = kb).
  { clear -Ex. unfold kb in *. assert (G : forall l k pos cnt m xs c m', assign_xs k pos l cnt m = (xs, c, m') -> List.length xs = List.length l).
    { clear. induction l as [|n l IH]; intros k pos cnt m xs c m' E; cbn [assign_xs] in E; [injection E as <- _ _; reflexivity|].
      destruct (match n with NVar s => _ | _ => _ end) as [[x cnt1] m2] in E. destruct (assign_xs k (S pos) l cnt1 m2) as [[xs1 c2] m3] eqn:E1.
      injection E as <- _ _. cbn. f_equal. eauto. }
    exact (G _ _ _ _ _ _ _ _ Ex). }
  assert (Sk : skipn kb (combine (kids b) xs) = []) by (apply skipn_all2; rewrite combine_length; unfold kb; lia).
  rewrite Sk in *.
  assert (Vk : forall s, In s (vars_of b) <-> In (NVar s) (kids b)) by (intros s; rewrite vars_of_in, (flat_bfs b Fl); reflexivity).
  destruct (flat_walk perm PI kb (Nat.max c1 c') ltac:(lia) m1 (kids b) 0 kb m1 xs c' m' {| k_seen := erase_head_regs ha (g_seen st); k_F := g_F st; k_D := g_D st |} Ex)
    as (st' & R & A & _ & D & Ca & Mx).
  - fold kb. lia.
  - exact Fl.
  - intros s Hs Hp. destruct (Hv s (proj2 (Vk s) Hs)) as [K|[K L]]; [contradiction|].
    apply hd_dom0 in K. destruct (assoc s m1) as [r|] eqn:Er; [|now contradiction K]. exists r. split; [reflexivity|]. specialize (hd_rng0 s r Er). lia.
  - auto.
  - intros s r H1 H2 H3. cbn [k_F k_seen k_D]. csplit; auto; [eapply hd_seen0; eauto|]. apply hd_D0, hd_dom0. congruence.
  - exact hd_sy0.
  - set (ba := {| aa_top := b; aa_ents := mk_ents kb 0 (combine (kids b) xs) []; aa_vx := m' |}) in *.
    apply (clause_ok_intro cf h b bs ha ba (Nat.max c1 c') st st'); auto.
    + unfold assign_two. now rewrite Eb, Eh, E1, E2'.
    + unfold flatten_query, flatten_program. cbn [aa_top aa_ents ba]. rewrite Eb. fold kb.
      assert (Ka : forall l pos, pos + List.length l <= kb -> filter keep_flat (mk_ents kb pos l []) = mk_ents kb pos l [] /\ List.length (mk_ents kb pos l []) = List.length l).
      { clear. induction l as [|[n x] l IH]; intros pos Hp; cbn [List.length] in Hp; [split; reflexivity|]. cbn [mk_ents filter].
        rewrite firstn_nil, skipn_nil. destruct (IH (S pos) ltac:(lia)) as [A B]. destruct (Nat.ltb_spec pos kb); [|lia].
        cbn [List.length]. rewrite A, B. split; [|reflexivity]. unfold keep_flat. cbn [en_node en_arg]. destruct n; reflexivity. }
      destruct (Ka (combine (kids b) xs) 0) as [A1 A2]; [rewrite combine_length; unfold kb; lia|]. rewrite A1.
      rewrite skipn_all2 by (rewrite A2, combine_length; unfold kb; lia). rewrite firstn_all2 by (rewrite A2, combine_length; unfold kb; lia). exact R.
    + unfold targs. rewrite Eb. exact A.
    + intros s. rewrite D, Vk. reflexivity.
    + intros s Hs Hp. destruct (Hv s Hs) as [K|[K L]]; [contradiction|]. apply hd_dom0 in K.
      destruct (assoc s m1) as [r|] eqn:Er; [|now contradiction K]. exists r. split; [exact (Mx s r Er)|].
      apply (Ca s r Er Hp). specialize (hd_rng0 s r Er). lia.
Qed.

(** --- constants --- *)
Lemma chk_kids_nr perm nr nr' ks : nr <= nr' -> forall st st', chk_kids perm nr ks st = Some st' -> chk_kids perm nr' ks st = Some st'.
Proof.
  intros L. assert (U : forall x, Nat.ltb x nr = true -> Nat.ltb x nr' = true) by (intros x; rewrite !Nat.ltb_lt; lia).
  induction ks as [|[n x] ks IH]; intros st st' E; cbn [chk_kids] in *; [assumption|].
  destruct (chk_kid perm nr (n, x) st) as [st1|] eqn:E1; [|discriminate].
  assert (chk_kid perm nr' (n, x) st = Some st1) as ->; [|auto]. clear E IH. unfold chk_kid in *.
  destruct n as [s|s|s|s l|s l].
  - destruct (perm s); [assumption|]. destruct (seen_in _ _); [assumption|]. destruct (smem _ _); [discriminate|].
    destruct (Nat.ltb x nr) eqn:Lx; [|discriminate]. now rewrite (U _ Lx).
  - destruct (Nat.ltb x nr) eqn:Lx; [|discriminate]. now rewrite (U _ Lx).
  - destruct (Nat.ltb x nr) eqn:Lx; [|discriminate]. now rewrite (U _ Lx).
  - assumption.
  - assumption.
Qed.
Lemma chk_ents_nr perm nr nr' es : nr <= nr' -> forall st st', chk_ents perm nr es st = Some st' -> chk_ents perm nr' es st = Some st'.
Proof.
  intros L. assert (U : forall x, Nat.ltb x nr = true -> Nat.ltb x nr' = true) by (intros x; rewrite !Nat.ltb_lt; lia).
  induction es as [|e es IH]; intros st st' E; cbn [chk_ents] in *; [assumption|].
  destruct (chk_ent perm nr e st) as [st1|] eqn:E1; [|discriminate].
  assert (chk_ent perm nr' e st = Some st1) as ->; [|auto]. clear E IH. unfold chk_ent in *.
  assert (Sc : forall n, (if (Nat.ltb (en_x e) nr && str_ok n (en_kids e) && forallb (keeps perm (en_x e)) (en_kids e))%bool
       then match chk_kids perm nr (en_kids e) {| k_seen := SX (en_x e) :: k_seen st; k_F := ndel (en_x e) (k_F st); k_D := k_D st |} with
            | Some st2 => Some {| k_seen := k_seen st2; k_F := (en_x e, n) :: k_F st2; k_D := k_D st2 |} | None => None end else None) = Some st1 ->
      (if (Nat.ltb (en_x e) nr' && str_ok n (en_kids e) && forallb (keeps perm (en_x e)) (en_kids e))%bool
       then match chk_kids perm nr' (en_kids e) {| k_seen := SX (en_x e) :: k_seen st; k_F := ndel (en_x e) (k_F st); k_D := k_D st |} with
            | Some st2 => Some {| k_seen := k_seen st2; k_F := (en_x e, n) :: k_F st2; k_D := k_D st2 |} | None => None end else None) = Some st1).
  { intros n K. destruct (Nat.ltb (en_x e) nr) eqn:Lx; [|cbn [andb] in K; discriminate]. rewrite (U _ Lx). cbn [andb] in *. destruct (str_ok n (en_kids e) && forallb (keeps perm (en_x e)) (en_kids e))%bool eqn:Q; [|discriminate K].
    destruct (chk_kids perm nr (en_kids e) _) as [st2|] eqn:Ek; [|discriminate]. rewrite (chk_kids_nr perm nr nr' _ L _ _ Ek). exact K. }
  destruct (en_node e) as [s|s|s|s l|s l].
  - destruct (en_arg e) as [a|]; [|discriminate]. destruct (Nat.ltb a nr) eqn:La; [|discriminate]. rewrite (U _ La).
    destruct (perm s); [assumption|]. destruct (seen_in _ _); [assumption|]. destruct (smem _ _); [discriminate|].
    destruct (Nat.ltb (en_x e) nr) eqn:Lx; [|discriminate]. now rewrite (U _ Lx).
  - destruct (Nat.ltb (en_x e) nr) eqn:Lx; [|discriminate]. now rewrite (U _ Lx).
  - destruct (Nat.ltb (en_x e) nr) eqn:Lx; [|discriminate]. now rewrite (U _ Lx).
  - auto.
  - auto.
Qed.
Lemma const_body_ok cf h b bs : atom_ok h -> is_constant b = true -> rule_fits cf (h :: b :: bs).
Proof.
  intros Ah Eb. set (perm := permof cf (h :: b :: bs) true).
  assert (PI : forall s t y, perm s = Some y -> perm t = Some y -> s = t) by (intros s t y; apply permof_inj).
  destruct (head_ready_any perm h (S (snd (assign_one h))) PI Ah (Nat.le_succ_diag_r _)) as (st & E & T & D & _).
  destruct b as [|s| | |]; try discriminate Eb.
  eapply (clause_ok_intro cf h (NCon s) bs (fst (assign_one h)) (const_atom (NCon s)) (S (snd (assign_one h))) st).
  - unfold assign_two. cbn [is_constant]. destruct (assign_one h). reflexivity.
  - exact E.
  - reflexivity.
  - exact D.
  - intros [|[|i]] m Hi; cbn in Hi |- *; congruence.
  - intros t. cbn. tauto.
  - intros t [].
Qed.
Lemma const_head_ok cf h b bs : atom_ok b -> is_constant h = true -> rule_fits cf (h :: b :: bs).
Proof.
  intros Ab Eh. destruct (is_constant b) eqn:Eb.
  { apply const_body_ok; [|assumption]. destruct h; try discriminate. exact I. }
  set (perm := permof cf (h :: b :: bs) true).
  assert (PI : forall s t y, perm s = Some y -> perm t = Some y -> s = t) by (intros s t y; apply permof_inj).
  destruct h as [|s| | |]; try discriminate Eh. destruct (assign_one b) as [ba c] eqn:Ea.
  destruct (goal_ready perm PI b ba c [] [] Ab Ea) as (st' & R & A & B & _ & Tv & _).
  { intros t _ _ []. }
  { intros x. reflexivity. }
  { intros t y _. cbn. split; [discriminate|intros []]. }
  eapply (clause_ok_intro cf (NCon s) b bs (const_atom (NCon s)) ba (S c) {| g_seen := []; g_F := []; g_D := []; g_T := [] |} st').
  - unfold assign_two. rewrite Eb. cbn [is_constant]. rewrite Ea. reflexivity.
  - cbn. now rewrite String.eqb_refl.
  - cbn [g_seen g_F g_D]. change (erase_head_regs (const_atom (NCon s)) []) with (@nil sreg). eapply chk_ents_nr; [|exact R]. lia.
  - intros t. reflexivity.
  - exact A.
  - exact B.
  - exact Tv.
Qed.

(** --- the form of the rule --- *)
(** The arguments of [b] are variables, constants and numbers. *)
Definition plain (b : node) : Prop := forall t, In t (kids b) -> match t with NFun _ _ | NEv _ _ => False | _ => True end.
(** The variables of [b] that are not in [h]. *)
Definition new_vars (h b : node) : list string := nodup string_dec (filter (fun s => negb (existsb (String.eqb s) (nvars h))) (nvars b)).
Definition roomy (h b : node) (bs : list node) : Prop :=
  is_constant h = true \/ is_constant b = true \/
  List.length (kids b) + inner b + List.length (new_vars h b) <= List.length (kids h) \/
  (plain b /\ forall s, In s (nvars b) -> In s (flat_map nvars bs) \/ (In s (nvars h) /\ List.length (kids b) <= List.length (kids h))).
Definition roomy_clause (c : list node) : Prop := match c with h :: b :: bs => roomy h b bs | _ => True end.

Lemma permof_later cf h b bs s : ord_ok cf -> In s (vars_of b) -> occ s bs -> permof cf (h :: b :: bs) true s <> None.
Proof.
  intros OK Hb (n & Hn & Hs). apply in_split in Hn. destruct Hn as (b1 & b2 & ->).
  assert (K : exists y, permof cf (h :: b :: b1 ++ n :: b2) true s = Some y).
  { apply permof_some; [assumption|]. apply perm_vars_clause. exists b1, n, b2. csplit; auto. exists b. split; [now right; left|assumption]. }
  destruct K as [y ->]. discriminate.
Qed.
Theorem roomy_fits cf h b bs : ord_ok cf -> clause_wf (h :: b :: bs) -> roomy h b bs -> rule_fits cf (h :: b :: bs).
Proof.
  intros OK W R. cbn in W. inversion W as [|? ? Ah W']; subst. inversion W' as [|? ? Ab Abs]; subst.
  destruct (is_constant h) eqn:Eh; [now apply const_head_ok|]. destruct (is_constant b) eqn:Eb; [now apply const_body_ok|].
  destruct R as [R|[R|[R|[Fl R]]]]; [congruence|congruence| |].
  - destruct (assign_term h []) as [[ha c1] m1] eqn:E1. destruct (assign_term b m1) as [[ba c2] m2] eqn:E2.
    apply (room_ok cf h b bs ha ba c1 c2 m1 m2 Ah Ab Eh Eb E1 E2).
    assert (Dm : forall s, In s (vars_of h) -> assoc s m1 <> None).
    { assert (PI : forall s t y, (fun _ : string => @None nat) s = Some y -> (fun _ : string => @None nat) t = Some y -> s = t) by discriminate.
      destruct (head_state (fun _ => None) h ha c1 m1 c1 PI Ah Eh E1 (Nat.le_refl _)) as (st & HD). intros s. apply (hd_dom _ _ _ _ _ _ _ HD). }
    unfold assign_term in E2. destruct (assign_xs _ _ _ _ _) as [[xs c'] m'] eqn:Ex. injection E2 as _ <- _.
    eapply Nat.le_trans; [apply (assign_count _ _ _ _ _ _ _ _ (new_vars h b) Ex)|].
    + intros s Hs Hn. unfold new_vars. apply nodup_In, filter_In. split.
      * apply (vars_of_nvars b Ab). now apply vars_of_in.
      * destruct (existsb (String.eqb s) (nvars h)) eqn:Es; [|reflexivity]. exfalso. apply existsb_exists in Es. destruct Es as (t & Ht & Q).
        apply String.eqb_eq in Q. subst t. apply (vars_of_nvars h Ah) in Ht. now apply Dm in Ht.
    + rewrite Nat.sub_0_r. unfold bfs_below. rewrite bfs_two, skipn_app, skipn_all, Nat.sub_diag. cbn [skipn app].
      rewrite (nonvars_bfs _ _ (Nat.le_refl _)). exact R.
  - apply flat_ok; auto.
    + intros m Hm. specialize (Fl m Hm). destruct m; try contradiction; split; reflexivity.
    + intros s Hs. pose proof (proj1 (vars_of_nvars b Ab s) Hs) as Hs'. destruct (R s Hs') as [K|[K L]].
      * left. apply permof_later; auto. apply in_flat_map in K. destruct K as (n & Hn & K). exists n. split; [assumption|].
        rewrite Forall_forall in Abs. apply (vars_of_nvars n (Abs n Hn)). exact K.
      * right. split; [now apply (vars_of_nvars h Ah)|assumption].
Qed.
Theorem roomy_ok cf h b bs : ord_ok cf -> clause_wf (h :: b :: bs) -> roomy h b bs -> clause_ok cf (h :: b :: bs) = true.
Proof. intros OK W R. now apply roomy_fits. Qed.
Theorem roomy_labelled cf P : ord_ok cf -> Forall clause_wf P -> Forall roomy_clause P -> labelled cf P.
Proof.
  intros OK W R c Hc. rewrite Forall_forall in W, R. specialize (W c Hc). specialize (R c Hc).
  destruct c as [|h [|b bs]]; [contradiction|reflexivity|]. now apply roomy_fits.
Qed.
Theorem roomy_clause_ok cf c : ord_ok cf -> clause_wf c -> roomy_clause c -> clause_ok cf c = true.
Proof. intros OK W R. destruct c as [|h [|b bs]]; [contradiction|reflexivity|]. now apply roomy_ok. Qed.
Theorem roomy_no_clash cf P : ord_ok cf -> Forall clause_wf P -> Forall roomy_clause P -> no_clash cf P.
Proof.
  intros OK W R c Hc. rewrite Forall_forall in W, R. specialize (W c Hc). specialize (R c Hc).
  destruct c as [|h [|b bs]]; [contradiction|reflexivity|]. now apply roomy_ok.
Qed.

(** --- examples --- *)
Definition plain_b (b : node) : bool := forallb (fun t => match t with NFun _ _ | NEv _ _ => false | _ => true end) (kids b).
Definition roomy_b (h b : node) (bs : list node) : bool :=
  is_constant h || is_constant b || Nat.leb (List.length (kids b) + inner b + List.length (new_vars h b)) (List.length (kids h)) ||
  (plain_b b && forallb (fun s => smem s (flat_map nvars bs) || (smem s (nvars h) && Nat.leb (List.length (kids b)) (List.length (kids h)))) (nvars b)).
Definition roomy_clause_b (c : list node) : bool := match c with h :: b :: bs => roomy_b h b bs | _ => true end.
Lemma roomy_clause_b_ok c : roomy_clause_b c = true <-> roomy_clause c.
Proof.
  destruct c as [|h [|b bs]]; cbn; [tauto|tauto|]. unfold roomy_b, roomy. rewrite !orb_true_iff, andb_true_iff, Nat.leb_le.
  assert (P : plain_b b = true <-> plain b).
  { unfold plain_b, plain. rewrite forallb_forall. split; intros H t Ht; specialize (H t Ht); destruct t; auto; discriminate. }
  assert (V : forallb (fun s => smem s (flat_map nvars bs) || (smem s (nvars h) && Nat.leb (List.length (kids b)) (List.length (kids h)))) (nvars b) = true <->
    (forall s, In s (nvars b) -> In s (flat_map nvars bs) \/ (In s (nvars h) /\ List.length (kids b) <= List.length (kids h)))).
  { rewrite forallb_forall. split; intros H s Hs; specialize (H s Hs).
    - rewrite orb_true_iff, andb_true_iff, !smem_in, Nat.leb_le in H. exact H.
    - rewrite orb_true_iff, andb_true_iff, !smem_in, Nat.leb_le. exact H. }
  rewrite P, V. tauto.
Qed.
Definition compiled (program : string) : option (list node * rule * storage) :=
  match parse_program program with
  | Some (COk [c]) => match compile_program_term cfg0 false c empty_storage with (COk (_, r), s) => Some (c, r, s) | _ => None end
  | _ => None
  end.
Fixpoint nodup_fv (l : list fview) : bool := match l with [] => true | f :: l' => negb (existsb (fview_eqb f) l') && nodup_fv l' end.
Definition sto_ok_b (s : storage) : bool := (Z.of_nat (List.length (s_functors s)) <=? 32768)%Z &&
  forallb (fun f => Z.of_nat (fv_arity f) <=? 32767)%Z (s_functors s) && nodup_fv (s_functors s).
Lemma sto_ok_b_ok s : sto_ok_b s = true -> sto_ok s.
Proof.
  unfold sto_ok_b. rewrite !andb_true_iff, forallb_forall, Z.leb_le. intros [[A B] C]. split; auto.
  - intros f Hf. now apply Z.leb_le, B.
  - revert C. clear. induction (s_functors s) as [|f l IH]; cbn; [constructor|]. rewrite andb_true_iff, negb_true_iff. intros [A B]. constructor; auto.
    intros H. assert (existsb (fview_eqb f) l = true) by (apply existsb_exists; exists f; split; [assumption|apply fview_eqb_refl]). congruence.
Qed.
Definition regs_at (TA : list nat) : list cell := map (fun a => CRef a 0%Z) TA.
Definition start (h : list cell) (TA : list nat) : mst (list cell) := {| m_heap := h; m_regs := regs_at TA; m_mode := None; m_S := 0; m_envs := [] |}.
Lemma compiled_witness program h TA :
  match compiled program with
  | Some (hd :: body, ha :: r, s) => sto_ok_b s && wfh_b s h && forallb (fun a => Nat.ltb a (List.length h)) TA && Nat.eqb (List.length TA) (List.length (targs hd)) &&
      roomy_clause_b (hd :: body) && match run_local cfg0 s 100 (removelast (ca_code ha)) (enter ha (start h TA)) with Val (Cont, _) => true | _ => false end
  | _ => false
  end = true ->
  exists hd body ha r s m', parse_program program = Some (COk [hd :: body]) /\ clause_code cfg0 s false (hd :: body) (ha :: r) /\ clause_wf (hd :: body) /\
    roomy_clause (hd :: body) /\ sto_ok s /\ wfh s 0 h /\ argreg (start h TA) TA /\ List.length TA = List.length (targs hd) /\
    run_local cfg0 s 100 (removelast (ca_code ha)) (enter ha (start h TA)) = Val (Cont, m').
Proof.
  unfold compiled. destruct (parse_program program) as [[[|c [|]]| |]|] eqn:Ep; try discriminate.
  destruct (compile_program_term cfg0 false c empty_storage) as [[[f [|ha r]]| |] s] eqn:Ec; try (destruct c; discriminate). destruct c as [|hd body]; [discriminate|].
  rewrite !andb_true_iff. intros [[[[[A B] C] D] R] E].
  destruct (run_local cfg0 s 100 (removelast (ca_code ha)) (enter ha (start h TA))) as [[[| |] m']| |] eqn:Er; try discriminate.
  exists hd, body, ha, r, s, m'. csplit; auto.
  - exists empty_storage, s, f. split; [assumption|]. split; exists []; now rewrite app_nil_r.
  - apply parse_program_wf in Ep. now inversion Ep.
  - now apply roomy_clause_b_ok.
  - now apply sto_ok_b_ok.
  - now apply wfh_b_ok.
  - intros i a Hi. rewrite forallb_forall in C. exists (CRef a 0%Z). cbn. split; [unfold regs_at; rewrite nth_error_map, Hi; reflexivity|]. split; [reflexivity|].
    apply Nat.ltb_lt, C. eapply nth_error_In; eauto.
  - now apply Nat.eqb_eq.
Qed.
Lemma query_witness text :
  match parse_query text with Some (COk q) => match compile_query cfg0 q empty_storage with (COk r, s) => sto_ok_b s | _ => false end | _ => false end = true ->
  exists q r s, parse_query text = Some (COk q) /\ query_code cfg0 s q r /\ sto_ok s /\ Forall atom_ok q /\ wfh s 0 [].
Proof.
  destruct (parse_query text) as [[q| |]|] eqn:E; try discriminate. destruct (compile_query cfg0 q empty_storage) as [[r| |] s] eqn:Ec; try discriminate.
  intros H. exists q, r, s. csplit; auto.
  - exists empty_storage, s. split; [assumption|apply sto_ext_refl].
  - now apply sto_ok_b_ok.
  - now apply parse_query_wf in E.
  - split; [intros [|a] c; discriminate|]. cbn. lia.
Qed.
Lemma roomy_witness text : match parse_program text with Some (COk P) => forallb roomy_clause_b P | _ => false end = true ->
  exists P, Forall roomy_clause P /\ parse_program text = Some (COk P).
Proof.
  destruct (parse_program text) as [[P| |]|] eqn:E; try discriminate. intros H. exists P. split; [|reflexivity]. apply Forall_forall. intros c Hc.
  apply roomy_clause_b_ok. rewrite forallb_forall in H. auto.
Qed.
