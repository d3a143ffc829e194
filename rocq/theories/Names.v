(** The names on the heap: variables left unbound bear names of variables of the program, the query or append/3, and
    constants are constants of these. *)
From Verif Require Import Base Machine Heap Facts HeapSim Compiler Parser Print Organizer Spec Valuation Process Refine Mono Turn Shape Session
  Code Put Search PutRun Get Alloc Atoms Clause Stack Ready Heads Builtins Sols Solve Terms Shown Parsed Tables Root Order Runs Answers
  Clash Sim Cells Examples Witness Finite Tree TreeTurn TreeInv TreeRun TreeSrc TreeFacts TreeShape TreeAll TreeCase Labels Bound.
Open Scope string_scope.
Open Scope list_scope.

Section Names.
Variable sto : storage.
Variables GV GC : string -> Prop.
Notation hp m := (m_heap (H := list cell) m).
Notation len := (@List.length cell).

Definition okv (v : Z) : Prop := exists s, vidx sto s v /\ GV s.
Definition okc (i : Z) : Prop := exists t, cidx sto (FV t 0) i /\ GC t.
(** leaves of source atoms *)
Definition leaf_in (n : node) : Prop := match n with NVar s => GV s | NCon t => GC t | _ => True end.
Definition atom_in (n : node) : Prop := forall m, In m (n :: bfs_below n) -> leaf_in m.

(** [T]: argument positions still to be matched; an unbound cell for a structure of the head has no name of its own yet *)
Definition mok (T : list (nat * node)) (m : mst (list cell)) : Prop :=
  (forall a v, nth_error (hp m) a = Some (CRef a v) ->
     okv v \/ exists x n c, In (x, n) T /\ is_str n = true /\ nth_error (m_regs m) x = Some c /\ addr_of c = Some a) /\
  (forall a i, nth_error (hp m) a = Some (CCons i) -> okc i).
Definition named (h : list cell) : Prop :=
  (forall a v, nth_error h a = Some (CRef a v) -> okv v) /\ (forall a i, nth_error h a = Some (CCons i) -> okc i).
Lemma named_mok T m : named (hp m) -> mok T m.
Proof. intros [A B]. split; [|exact B]. intros a v E. left. eauto. Qed.
Lemma mok_named T m : mok T m -> (forall x n, In (x, n) T -> is_str n = false) -> named (hp m).
Proof. intros [A B] H. split; [|exact B]. intros a v E. destruct (A a v E) as [K|(x & n & c & K & S & _)]; [exact K|]. rewrite (H _ _ K) in S. discriminate. Qed.
Lemma mok_sub T T' m : (forall x n, In (x, n) T -> is_str n = true -> In (x, n) T') -> mok T m -> mok T' m.
Proof. intros H [A B]. split; [|exact B]. intros a v E. destruct (A a v E) as [K|(x & n & c & K & S & R)]; [now left|]. right. exists x, n, c. auto. Qed.

Definition shr (h h' : list cell) : Prop := forall a c, nth_error h' a = Some c -> nth_error h a = Some c \/ exists b v, c = CRef b v /\ b <> a.
Lemma shr_refl h : shr h h. Proof. intros a c E. now left. Qed.
Lemma shr_trans h1 h2 h3 : shr h1 h2 -> shr h2 h3 -> shr h1 h3.
Proof. intros A B a c E. destruct (B a c E) as [K|K]; [apply A, K|now right]. Qed.
Lemma bind_shr h d t h' : bind_ref (list cell) fops h d t = Val h' -> t <> d -> shr h h'.
Proof.
  unfold bind_ref. intros E N. apply bind_val in E. destruct E as (c & Ec & E). destruct c as [| |a0 v0| | |]; try discriminate.
  unfold hset in E. apply of_opt_val in E. cbn [h_set fops] in E. intros a c Ea. rewrite (upd_nth _ _ _ _ a E) in Ea.
  destruct (Nat.eqb_spec a d) as [->|]; [|now left]. injection Ea as <-. right. eauto.
Qed.
Lemma unify_shr fuel : forall h pdl b h', unify_loop (list cell) fops fuel h pdl = Val (b, h') -> shr h h'.
Proof.
  induction fuel as [|f IH]; intros h [|a [|b0 rest]] b h' E; cbn [unify_loop] in E; try discriminate; try (injection E as _ <-; apply shr_refl).
  destruct (deref _ _ h a) as [d1| |]; cbn [bind] in E; try discriminate.
  destruct (deref _ _ h b0) as [d2| |]; cbn [bind] in E; try discriminate.
  destruct (Nat.eqb_spec d1 d2); [eapply IH; eauto|].
  destruct (at_ _ _ h d1) as [c1| |]; cbn [bind] in E; try discriminate.
  destruct (at_ _ _ h d2) as [c2| |]; cbn [bind] in E; try discriminate.
  assert (G : forall x y, y <> x -> (h' <- bind_ref (list cell) fops h x y ;; unify_loop (list cell) fops f h' rest) = Val (b, h') -> shr h h').
  { intros x y N K. destruct (bind_ref (list cell) fops h x y) as [h1| |] eqn:Eb; cbn [bind] in K; try discriminate.
    eapply shr_trans; [eapply bind_shr; eauto|]. eapply IH; exact K. }
  destruct c1, c2; try discriminate; try (eapply G; [|eassumption]; congruence); try (injection E as _ <-; apply shr_refl);
    destruct (Z.eqb _ _); try (injection E as _ <-; apply shr_refl); eapply IH; eauto.
Qed.
Lemma unify_m_shr fuel m a b s m' : unify_m (list cell) fops fuel m a b = Val (s, m') -> shr (hp m) (hp m') /\ m_regs m' = m_regs m.
Proof.
  unfold unify_m, unify. intros E. apply bind_val in E. destruct E as ([b' h'] & E1 & E). injection E as _ <-. split; [|reflexivity].
  exact (unify_shr _ _ _ _ _ E1).
Qed.
Lemma mok_shr T m m' : mok T m -> shr (hp m) (hp m') -> m_regs m' = m_regs m -> mok T m'.
Proof.
  intros [A B] S R. split; rewrite ?R.
  - intros a v E. destruct (S a _ E) as [K|(b & w & K & N)]; [exact (A a v K)|]. injection K as <- <-. contradiction.
  - intros a i E. destruct (S a _ E) as [K|(b & w & K & N)]; [exact (B a i K)|discriminate].
Qed.
Definition cell_in (T : list (nat * node)) (rs : list cell) (a : nat) (c : cell) : Prop :=
  match c with
  | CRef b v => b = a -> okv v \/ exists x n c', In (x, n) T /\ is_str n = true /\ nth_error rs x = Some c' /\ addr_of c' = Some a
  | CCons i => okc i
  | _ => True
  end.
Lemma mok_push T m m' c : mok T m -> hp m' = hp m ++ [c] -> m_regs m' = m_regs m -> cell_in T (m_regs m) (len (hp m)) c -> mok T m'.
Proof.
  intros [A B] Eh R C. split; rewrite Eh, ?R.
  - intros a v E. destruct (Nat.lt_ge_cases a (len (hp m))) as [L|L].
    + rewrite nth_error_app1 in E by assumption. exact (A a v E).
    + assert (a = len (hp m)). { apply nth_error_lt in E. rewrite app_length in E. cbn in E. lia. }
      subst a. rewrite nth_error_app2, Nat.sub_diag in E by lia. injection E as ->. exact (C eq_refl).
  - intros a i E. destruct (Nat.lt_ge_cases a (len (hp m))) as [L|L].
    + rewrite nth_error_app1 in E by assumption. exact (B a i E).
    + rewrite nth_error_app2 in E by assumption. destruct (a - len (hp m)) as [|[|k]]; try discriminate E. injection E as ->. exact C.
Qed.
Lemma free_in x T y n : free x T = true -> In (y, n) T -> y <> x.
Proof. unfold free. rewrite forallb_forall. intros F H ->. specialize (F _ H). cbn in F. rewrite Nat.eqb_refl in F. discriminate. Qed.
Lemma mok_wreg T m m' x c : wreg (list cell) m x c = Val m' -> free x T = true -> mok T m -> mok T m'.
Proof.
  unfold wreg. intros E F [A B]. apply bind_val in E. destruct E as (r & U & E). apply of_opt_val in U. injection E as <-.
  split; [|exact B]. cbn [m_heap m_regs set_regs]. intros a v Ea. destruct (A a v Ea) as [K|(y & n & c' & K & S & R)]; [now left|].
  right. exists y, n, c'. csplit; auto; [|apply R]. rewrite (upd_nth _ _ _ _ y U). destruct (Nat.eqb_spec y x); [|apply R].
  subst y. exfalso. eapply free_in; eauto.
Qed.
Lemma mok_eq T m m' : mok T m -> hp m' = hp m -> m_regs m' = m_regs m -> mok T m'.
Proof. intros H A B. eapply mok_shr; eauto. rewrite A. apply shr_refl. Qed.
Lemma at_val h d c : at_ (list cell) fops h d = Val c -> nth_error h d = Some c /\ d < len h.
Proof. unfold at_. intros E. apply of_opt_val in E. cbn in E. split; [exact E|]. now apply nth_error_lt in E. Qed.

Variable cf : cfg.
Variable fuel : nat.
Variable perm : string -> option nat.
Variable nr : nat.
Notation run := (run_local cf sto fuel).

Lemma run_single i m m' : run [i] m = Val (Cont, m') -> fstep cf sto fuel i m = Val (Cont, m').
Proof. cbn [run_local]. intros E. apply bind_val in E. destruct E as ([s m1] & E1 & E). destruct s; try discriminate E. injection E as <-. exact E1. Qed.

(** binding a dereferenced cell to a new one at the end of the heap *)
Lemma push_bind_mok T m d c st h' md s : mok T m -> at_ (list cell) fops (hp m) d = Val c -> 
  bind_ref (list cell) fops (hp m ++ [st]) d (len (hp m ++ [st]) - 1) = Val h' -> cell_in T (m_regs m) (len (hp m)) st ->
  mok T {| m_heap := h'; m_regs := m_regs m; m_mode := md; m_S := s; m_envs := m_envs m |} /\ forall v, nth_error h' d <> Some (CRef d v).
Proof.
  intros M Ed Eb Cs. destruct (at_val _ _ _ Ed) as [_ L]. rewrite app_length in Eb. cbn in Eb. split.
  - eapply (mok_shr T (set_heap m (hp m ++ [st]))); [apply (mok_push T m _ st M); [reflexivity|reflexivity|exact Cs]|cbn [m_heap set_heap]; eapply bind_shr; [exact Eb|lia]|reflexivity].
  - unfold bind_ref in Eb. apply bind_val in Eb. destruct Eb as (c0 & _ & Eb). destruct c0; try discriminate.
    unfold hset in Eb. apply of_opt_val in Eb. cbn [h_set fops] in Eb. intros w. rewrite (upd_nth _ _ _ _ d Eb), Nat.eqb_refl.
    intros K. injection K as K _. lia.
Qed.
Lemma value_mok T m c m' : unify_value (list cell) fops fuel m c = Val (Cont, m') -> mok T m -> mok T m'.
Proof.
  unfold unify_value. intros E M. destruct (m_mode m) as [[]|]; [| |discriminate].
  - apply bind_val in E. destruct E as (a & Ea & E). apply bind_val in E. destruct E as ([s1 m1] & E1 & E). injection E as -> <-.
    destruct (unify_m_shr _ _ _ _ _ _ E1) as [S R]. eapply mok_eq; [eapply mok_shr; eauto|reflexivity|reflexivity].
  - apply bind_val in E. destruct E as (a & Ea & E). apply bind_val in E. destruct E as (d & Ed & E). apply bind_val in E. destruct E as (r & Er & E).
    destruct (at_val _ _ _ Er) as [Hr Lr]. destruct r as [i|n|b v|i n|i n|b]; try discriminate E; injection E as <-; (eapply mok_push; [exact M|cbn; reflexivity|reflexivity|]).
    + cbn. destruct M as [_ M]. eapply M; eauto.
    + exact I.
    + cbn. intros K. pose proof (deref_ref _ _ _ _ _ _ _ Ed Er). lia.
    + exact I.
    + exact I.
Qed.

(** one argument of a structure of the head *)
Lemma varx_mok T T' m x v m' : unify_variable (list cell) fops (wreg (list cell)) m x v = Val (Cont, m') -> free x T = true ->
  okv v \/ (exists n, In (x, n) T' /\ is_str n = true) -> (forall y n, In (y, n) T -> In (y, n) T') -> mok T m -> mok T' m'.
Proof.
  intros E F Hn HT M. unfold unify_variable in E. destruct (m_mode m) as [[]|]; [| |discriminate].
  - apply bind_val in E. destruct E as (m1 & E1 & E). injection E as <-.
    eapply mok_sub; [|eapply mok_eq; [eapply mok_wreg; eauto|reflexivity|reflexivity]]. auto.
  - unfold push_ref in E. apply bind_val in E. destruct E as (m1 & E1 & E). injection E as <-.
    unfold hsize in E1. cbn [h_size fops] in E1. unfold wreg in E1. apply bind_val in E1. destruct E1 as (r & U & E1). apply of_opt_val in U.
    injection E1 as <-. cbn [m_regs push set_heap] in U. destruct M as [A B]. split; cbn [inc_S set_regs push set_heap m_heap m_regs h_push fops].
    + intros a w Ea. destruct (Nat.lt_ge_cases a (len (hp m))) as [L|L].
      * rewrite nth_error_app1 in Ea by assumption. destruct (A a w Ea) as [K|(y & n & c' & K & S & R & D)]; [now left|].
        right. exists y, n, c'. csplit; auto. rewrite (upd_nth _ _ _ _ y U). destruct (Nat.eqb_spec y x); [|exact R].
        subst y. exfalso. eapply free_in; eauto.
      * assert (a = len (hp m)). { apply nth_error_lt in Ea. rewrite app_length in Ea. cbn in Ea. lia. }
        subst a. rewrite nth_error_app2, Nat.sub_diag in Ea by lia. injection Ea as <-.
        destruct Hn as [K|(n & K & S)]; [now left|]. right. exists x, n, (CRef (len (hp m)) v). csplit; auto.
        rewrite (upd_nth _ _ _ _ x U), Nat.eqb_refl. reflexivity.
    + intros a i Ea. destruct (Nat.lt_ge_cases a (len (hp m))) as [L|L].
      * rewrite nth_error_app1 in Ea by assumption. exact (B a i Ea).
      * rewrite nth_error_app2 in Ea by assumption. destruct (a - len (hp m)) as [|[|k]]; discriminate Ea.
Qed.
Lemma wperm_mok T m y c m' : wperm (list cell) m y c = Val m' -> mok T m -> mok T m'.
Proof.
  unfold wperm. intros E M. destruct (m_envs m) as [|e es]; [discriminate|]. apply bind_val in E. destruct E as (e' & _ & E). injection E as <-.
  eapply mok_eq; [exact M|reflexivity|reflexivity].
Qed.
Lemma vary_mok T m y v m' : unify_variable (list cell) fops (wperm (list cell)) m y v = Val (Cont, m') -> okv v -> mok T m -> mok T m'.
Proof.
  intros E Hn M. unfold unify_variable in E. destruct (m_mode m) as [[]|]; [| |discriminate].
  - apply bind_val in E. destruct E as (m1 & E1 & E). injection E as <-. eapply mok_eq; [eapply wperm_mok; eauto|reflexivity|reflexivity].
  - unfold push_ref in E. apply bind_val in E. destruct E as (m1 & E1 & E). injection E as <-.
    eapply mok_eq; [eapply wperm_mok; [exact E1|]|reflexivity|reflexivity]. eapply (mok_push T m); [exact M|cbn; reflexivity|reflexivity|].
    intros _. now left.
Qed.
Lemma hkid_mok k st st' m m' c seen' : hkid sto perm k (g_seen st) c seen' -> chk_hkid perm nr k st = Some st' -> leaf_in (fst k) ->
  run c m = Val (Cont, m') -> mok (g_T st) m -> mok (g_T st') m'.
Proof.
  intros H C L R M. remember (g_seen st) as sn eqn:Esn. destruct H as [t x seen|t x seen i Hi|t x y seen Hp Hs|t x y seen v Hp Hs Hv|n x seen Hx Hs|n x seen v Hx Hs Hv];
    subst seen; apply run_single in R; cbn [chk_hkid fst] in *; unfold fstep in R; cbn [local_step] in R.
  1,2: destruct (Nat.ltb x nr && free x (g_T st))%bool eqn:Ef in C; [|discriminate]; injection C as <-; apply andb_true_iff in Ef; destruct Ef as [_ Ef]; cbn [g_T];
    unfold unify_structure in R; destruct (m_mode m) as [[]|]; [| |discriminate].
  - apply bind_val in R. destruct R as (d & Ed & R). apply bind_val in R. destruct R as (c0 & Ec & R).
    destruct c0; try (destruct (cell_eqb _ _); [|discriminate R]; injection R as <-; eapply mok_eq; [exact M|reflexivity|reflexivity]).
    apply bind_val in R. destruct R as (h' & Eh & R). injection R as <-.
    refine (proj1 (push_bind_mok _ m d _ _ h' (m_mode m) (S (m_S m)) M Ec Eh _)). exact I.
  - apply bind_val in R. destruct R as (m1 & E1 & R). injection R as <-. eapply mok_eq; [eapply mok_wreg; [exact E1|exact Ef|]|reflexivity|reflexivity].
    eapply (mok_push _ m); [exact M|cbn; reflexivity|reflexivity|exact I].
  - apply bind_val in R. destruct R as (d & Ed & R). apply bind_val in R. destruct R as (c0 & Ec & R).
    destruct c0; try (destruct (cell_eqb _ _); [|discriminate R]; injection R as <-; eapply mok_eq; [exact M|reflexivity|reflexivity]).
    apply bind_val in R. destruct R as (h' & Eh & R). injection R as <-.
    refine (proj1 (push_bind_mok _ m d _ _ h' (m_mode m) (S (m_S m)) M Ec Eh _)). exists t. auto.
  - apply bind_val in R. destruct R as (m1 & E1 & R). injection R as <-. eapply mok_eq; [eapply mok_wreg; [exact E1|exact Ef|]|reflexivity|reflexivity].
    eapply (mok_push _ m); [exact M|cbn; reflexivity|reflexivity|exists t; auto].
  - unfold chk_var in C. rewrite Hs, Hp in C. destruct (smem _ _); [|discriminate]. injection C as <-.
    apply bind_val in R. destruct R as (c0 & _ & R). eapply value_mok; eauto.
  - unfold chk_var in C. rewrite Hs, Hp in C. destruct (smem _ _); [discriminate|]. injection C as <-. cbn [g_T].
    eapply vary_mok; [exact R| |exact M]. exists t. auto.
  - apply bind_val in R. destruct R as (c0 & _ & R). destruct n as [t|t|t|t l|t l]; cbn [xnode] in Hx; try contradiction; try (rewrite Hs in C; discriminate C).
    unfold chk_var in C. rewrite Hs, Hx in C. destruct (known _ _ _); [|discriminate]. injection C as <-. eapply value_mok; eauto.
  - destruct n as [t|t|t|t l|t l]; cbn [xnode] in Hx; try contradiction.
    + unfold chk_var in C. rewrite Hs, Hx in C. destruct (smem _ _); [discriminate|].
      destruct (Nat.ltb x nr && free x (g_T st))%bool eqn:Ef; [|discriminate]. injection C as <-. apply andb_true_iff in Ef; destruct Ef as [_ Ef]; cbn [g_T].
      eapply varx_mok; [exact R|exact Ef|left; exists t; auto|auto|exact M].
    + rewrite Hs in C. cbn [negb andb] in C. destruct (Nat.ltb x nr && free x (g_T st))%bool eqn:Ef; [|discriminate]. injection C as <-.
      apply andb_true_iff in Ef; destruct Ef as [_ Ef]; cbn [g_T].
      eapply varx_mok; [exact R|exact Ef|right; eexists; split; [apply in_app_iff; right; now left|reflexivity]|intros; apply in_app_iff; now left|exact M].
    + rewrite Hs in C. cbn [negb andb] in C. destruct (Nat.ltb x nr && free x (g_T st))%bool eqn:Ef; [|discriminate]. injection C as <-.
      apply andb_true_iff in Ef; destruct Ef as [_ Ef]; cbn [g_T].
      eapply varx_mok; [exact R|exact Ef|right; eexists; split; [apply in_app_iff; right; now left|reflexivity]|intros; apply in_app_iff; now left|exact M].
Qed.
Lemma run_split c1 c2 m m' : run (c1 ++ c2) m = Val (Cont, m') -> exists m1, run c1 m = Val (Cont, m1) /\ run c2 m1 = Val (Cont, m').
Proof.
  rewrite PutRun.run_app. intros E. apply bind_val in E. destruct E as ([s m1] & E1 & E). destruct s; try discriminate E. eauto.
Qed.
Lemma chk_hkid_seen k st st' c seen' : hkid sto perm k (g_seen st) c seen' -> chk_hkid perm nr k st = Some st' -> g_seen st' = seen'.
Proof.
  intros H C. apply (chk_hkids_seen sto perm nr [k] st st' (c ++ []) seen').
  - econstructor; [exact H|constructor].
  - cbn. now rewrite C.
Qed.
Lemma hkids_mok ks : forall st st' m m' c seen', hkids sto perm ks (g_seen st) c seen' -> chk_hkids perm nr ks st = Some st' ->
  (forall k, In k ks -> leaf_in (fst k)) -> run c m = Val (Cont, m') -> mok (g_T st) m -> mok (g_T st') m'.
Proof.
  induction ks as [|k ks IH]; intros st st' m m' c seen' H C L R M; inversion H as [|k0 ks0 s0 c1 s1 c2 s2 H1 H2]; subst; cbn [chk_hkids] in C.
  - injection C as <-. cbn in R. injection R as <-. exact M.
  - destruct (chk_hkid perm nr k st) as [st1|] eqn:C1; [|discriminate]. destruct (run_split _ _ _ _ R) as (m1 & R1 & R2).
    pose proof (chk_hkid_seen _ _ _ _ _ H1 C1) as E1. rewrite <- E1 in H2.
    eapply IH; [exact H2|exact C| |exact R2|]; [intros; apply L; now right|]. eapply hkid_mok; eauto. apply L. now left.
Qed.
Lemma deref_self h a d v : deref (list cell) fops h a = Val d -> nth_error h a = Some (CRef a v) -> d = a.
Proof.
  unfold deref. cbn [deref_aux]. intros E Ea. apply bind_val in E. destruct E as (c & Ec & E). destruct (at_val _ _ _ Ec) as [K _].
  rewrite Ea in K. injection K as <-. rewrite Nat.eqb_refl in E. now injection E as <-.
Qed.
Lemma get_mok c x n T m m' : get_structure (list cell) fops m c x = Val (Cont, m') ->
  (match c with CRef _ _ => False | CCons i => okc i | _ => True end) -> mok ((x, n) :: T) m -> mok T m'.
Proof.
  unfold get_structure. intros E Hc M. apply bind_val in E. destruct E as (r & Er & E). apply bind_val in E. destruct E as (a0 & Ea & E).
  apply bind_val in E. destruct E as (d & Ed & E). apply bind_val in E. destruct E as (c0 & Ec & E). unfold rreg in Er. apply of_opt_val in Er.
  apply addr_of_get in Ea. destruct (at_val _ _ _ Ec) as [Hd Ld].
  assert (Pop : forall m1, mok ((x, n) :: T) m1 -> m_regs m1 = m_regs m -> (forall v, nth_error (hp m1) a0 <> Some (CRef a0 v)) -> mok T m1).
  { intros m1 [A B] R N. split; [|exact B]. intros a v Eself. destruct (A a v Eself) as [K|(y & k & c' & [K|K] & S & R1 & R2)]; [now left| |].
    - injection K as <- <-. rewrite R, Er in R1. injection R1 as <-. rewrite Ea in R2. injection R2 as <-. exfalso. exact (N v Eself).
    - right. exists y, k, c'. auto. }
  destruct c0 as [i|z|b v|i z|i z|b].
  3:{ apply bind_val in E. destruct E as (h' & Eh & E). injection E as <-.
      assert (Cs : cell_in ((x, n) :: T) (m_regs m) (len (hp m)) c) by (destruct c; try contradiction; exact Hc).
      destruct (push_bind_mok _ m d _ c h' (Some MWrite) (m_S m) M Ec Eh Cs) as [M1 N1]. apply Pop; [exact M1|reflexivity|].
      cbn [m_heap]. intros w K. assert (Sh : shr (hp m ++ [c]) h').
      { eapply bind_shr; [exact Eh|]. cbn. rewrite app_length. cbn. lia. }
      destruct (Sh a0 _ K) as [K'|(b' & v' & K' & N')]; [|injection K' as <- <-; contradiction].
      destruct (Nat.lt_ge_cases a0 (len (hp m))) as [L|L].
      - rewrite nth_error_app1 in K' by assumption. pose proof (deref_self _ _ _ _ Ed K'). subst d. exact (N1 w K).
      - rewrite nth_error_app2 in K' by assumption. destruct (a0 - len (hp m)) as [|[|]]; try discriminate K'. injection K' as ->. contradiction. }
  all: destruct (cell_eqb _ _); [|discriminate E]; injection E as <-; apply Pop; [eapply mok_eq; [exact M|reflexivity|reflexivity]|reflexivity|];
    cbn [m_heap set_mode]; intros w K; pose proof (deref_self _ _ _ _ Ed K); subst d; rewrite Hd in K; discriminate K.
Qed.
Lemma hent_mok e st st' m m' c seen' : hent sto perm e (g_seen st) c seen' -> chk_hent perm nr e st = Some st' ->
  leaf_in (en_node e) -> (forall k, In k (en_kids e) -> leaf_in (fst k)) ->
  run c m = Val (Cont, m') -> mok (g_T st) m -> mok (g_T st') m'.
Proof.
  intros H C L Lk R M. unfold chk_hent in C. destruct (g_T st) as [|[x0 n0] T] eqn:ET; [discriminate|].
  set (st0 := {| g_seen := g_seen st; g_F := g_F st; g_D := g_D st; g_T := T |}) in *.
  change (g_seen st) with (g_seen st0) in H. remember (g_seen st0) as sn eqn:Esn in H.
  destruct (node_eqb n0 (en_node e)) eqn:En; [|discriminate]. apply node_eqb_eq in En. subst n0.
  assert (Pop : is_str (en_node e) = false -> mok T m).
  { intros Ns. eapply mok_sub; [|exact M]. intros x n [K|K] S; [injection K as <- <-; congruence|exact K]. }
  destruct H as [t x a ks y seen Hp Hs|t x a ks y seen Hp Hs|t x a ks seen Hp Hs|t x a ks seen Hp Hs|t x ks seen|t x a ks seen|t x a ks seen i Hi|n x a ks seen cc code s2 Hc Hk];
    subst seen; cbn [en_node en_arg en_x en_kids] in *; unfold chk_var in C.
  - specialize (Pop eq_refl). destruct (Nat.eqb _ _); [|discriminate]. rewrite Hs, Hp in C. destruct (smem _ _); [|discriminate]. injection C as <-.
    apply run_single in R. unfold fstep in R; cbn [local_step] in R. apply bind_val in R. destruct R as (c0 & _ & R). apply bind_val in R. destruct R as (d0 & _ & R).
    unfold get_value in R. apply bind_val in R. destruct R as (a1 & _ & R). apply bind_val in R. destruct R as (b1 & _ & R).
    destruct (unify_m_shr _ _ _ _ _ _ R) as [S Rg]. eapply mok_shr; eauto.
  - specialize (Pop eq_refl). destruct (Nat.eqb _ _); [|discriminate]. rewrite Hs, Hp in C. destruct (smem _ _); [discriminate|]. injection C as <-.
    apply run_single in R. unfold fstep in R; cbn [local_step] in R. apply bind_val in R. destruct R as (c0 & _ & R).
    apply bind_val in R. destruct R as (m1 & R & E). injection E as <-. eapply wperm_mok; eauto.
  - specialize (Pop eq_refl). destruct (Nat.eqb _ _); [|discriminate]. rewrite Hs, Hp in C. destruct (known _ _ _); [|discriminate]. injection C as <-.
    apply run_single in R. unfold fstep in R; cbn [local_step] in R. apply bind_val in R. destruct R as (c0 & _ & R). apply bind_val in R. destruct R as (d0 & _ & R).
    unfold get_value in R. apply bind_val in R. destruct R as (a1 & _ & R). apply bind_val in R. destruct R as (b1 & _ & R).
    destruct (unify_m_shr _ _ _ _ _ _ R) as [S Rg]. eapply mok_shr; eauto.
  - specialize (Pop eq_refl). destruct (Nat.eqb _ _); [|discriminate]. rewrite Hs, Hp in C. destruct (smem _ _); [discriminate|].
    cbn [g_T st0] in C. destruct (Nat.ltb x nr && free x T)%bool eqn:Ef; [|discriminate]. injection C as <-. apply andb_true_iff in Ef; destruct Ef as [_ Ef].
    apply run_single in R. unfold fstep in R; cbn [local_step] in R. apply bind_val in R. destruct R as (c0 & _ & R).
    apply bind_val in R. destruct R as (m1 & R & E). injection E as <-. eapply mok_wreg; eauto.
  - discriminate.
  - destruct (Nat.eqb_spec x0 x); [|discriminate]. injection C as <-. subst x0. apply run_single in R. eapply get_mok; [exact R|exact I|exact M].
  - destruct (Nat.eqb_spec x0 x); [|discriminate]. injection C as <-. subst x0. apply run_single in R. eapply get_mok; [exact R| |exact M]. exists t. auto.
  - assert (C' : Nat.eqb x0 x = true /\ chk_hkids perm nr ks st0 = Some st').
    { destruct Hc; destruct (Nat.eqb x0 x); cbn [andb] in C; try discriminate; (destruct (str_ok _ _); [|discriminate]); auto. }
    destruct C' as [Ex C']. apply Nat.eqb_eq in Ex. subst x0. change (IGetStruct cc x :: code) with ([IGetStruct cc x] ++ code) in R.
    destruct (run_split _ _ _ _ R) as (m1 & R1 & R2). apply run_single in R1.
    eapply (hkids_mok ks st0); [exact Hk|exact C'|exact Lk|exact R2|]. cbn [g_T st0]. eapply get_mok; [exact R1| |exact M]. destruct Hc; exact I.
Qed.
Lemma hents_mok es : forall st st' m m' c seen', hents sto perm es (g_seen st) c seen' -> chk_hents perm nr es st = Some st' ->
  (forall e, In e es -> leaf_in (en_node e) /\ forall k, In k (en_kids e) -> leaf_in (fst k)) ->
  run c m = Val (Cont, m') -> mok (g_T st) m -> mok (g_T st') m'.
Proof.
  induction es as [|e es IH]; intros st st' m m' c seen' H C L R M; inversion H as [|k0 ks0 s0 c1 s1 c2 s2 H1 H2]; subst; cbn [chk_hents] in C.
  - injection C as <-. cbn in R. injection R as <-. exact M.
  - destruct (chk_hent perm nr e st) as [st1|] eqn:C1; [|discriminate]. destruct (run_split _ _ _ _ R) as (m1 & R1 & R2).
    assert (E1 : g_seen st1 = s1).
    { apply (chk_hents_seen0 sto perm nr [e] st st1 (c1 ++ []) s1); [econstructor; [exact H1|constructor]|]. cbn. now rewrite C1. }
    rewrite <- E1 in H2. destruct (L e (or_introl eq_refl)) as [La Lb].
    eapply IH; [exact H2|exact C| |exact R2|]; [intros; apply L; now right|]. eapply hent_mok; eauto.
Qed.
End Names.

(** --- the instructions of the built-in predicates --- *)
Definition spec_instr (i : instr) : Prop := match i with IIs _ _ | IEq _ _ | INeq _ _ => True | _ => False end.
Lemma hents_plain sto perm es s c s' : hents sto perm es s c s' -> forall i, In i c -> ~ spec_instr i.
Proof.
  assert (K1 : forall k s c s', hkid sto perm k s c s' -> forall i, In i c -> ~ spec_instr i).
  { intros k s0 c0 s0' H i Hi S. destruct H; destruct Hi as [<-|[]]; exact S. }
  assert (K2 : forall ks s c s', hkids sto perm ks s c s' -> forall i, In i c -> ~ spec_instr i).
  { induction 1 as [|k ks s0 c1 s1 c2 s2 H1 H2 IH]; intros i Hi; [contradiction|]. apply in_app_iff in Hi. destruct Hi; [eapply K1; eauto|auto]. }
  induction 1 as [|k ks s0 c1 s1 c2 s2 H1 H2 IH]; intros i Hi; [contradiction|]. apply in_app_iff in Hi. destruct Hi as [Hi|Hi]; [|auto].
  intros S. destruct H1; cbn in Hi; try (destruct Hi as [<-|[]]; exact S); try contradiction.
  destruct Hi as [<-|Hi]; [exact S|]. eapply K2; eauto.
Qed.
Definition spec_atom (a : catom) : Prop :=
  exists f i, special f = Some i /\ ca_code a = [IGetVar 2 0; IGetVar 3 1; i 2 3; IProceed].
Lemma spec_plain a is : spec_atom a -> ca_code a = is ++ [IProceed] -> (forall i, In i is -> ~ spec_instr i) -> False.
Proof.
  intros (f & i & Hf & E) E' H. rewrite E in E'. change [IGetVar 2 0; IGetVar 3 1; i 2 3; IProceed] with ([IGetVar 2 0; IGetVar 3 1; i 2 3] ++ [IProceed]) in E'.
  apply app_inj_tail in E'. destruct E' as [<- _]. apply (H (i 2 3)); [cbn; auto|].
  destruct (special_eq _ _ Hf) as [[_ ->]|[[_ ->]|[_ ->]]]; exact Logic.I.
Qed.

(** --- every branch --- *)
Section Path.
Variable cf : cfg.
Hypothesis OK : ord_ok cf.
Variable sto : storage.
Hypothesis ok : sto_ok sto.
Variable pg : prog.
Variable P : list (list node).
Hypothesis PC : prog_code cf sto P pg.
Hypothesis PW : Forall clause_wf P.
Hypothesis NC : no_clash cf P.
Variable q : list node.
Variable r : rule.
Hypothesis QC : query_code cf sto q r.
Hypothesis QW : q <> [] /\ Forall atom_ok q.
Variables GV GC : string -> Prop.
Notation atom_in := (atom_in GV GC).
Notation leaf_in := (leaf_in GV GC).
Notation named := (named sto GV GC).
Notation hp m := (m_heap (H := list cell) m).
Hypothesis Gq : forall n, In n q -> atom_in n.
Hypothesis Gp : forall c n, In c P -> In n c -> atom_in n.
Hypothesis Ga : forall c n, In c append_clauses -> In n c -> atom_in n.
Notation start p a := (set_regs (p_m p) (resize (m_regs (p_m p)) (ca_regs a))).

Lemma ready_named lab good fuel p fs a rest m' : ready cf sto lab good p fs -> p_codes p = a :: rest -> atom_in (ca_node a) -> named (hp (p_m p)) ->
  run_local cf sto fuel (removelast (ca_code a)) (start p a) = Val (Cont, m') -> named (hp m').
Proof.
  intros [perm V n gs fs1 a0 pre is cs tl u m1 es st st' s1 nr Hi Ha Hg Ec Ea _ Er Rp Eh Q C I W HT HD GC' TL Eu HU Hn Hin _] Hc Hat N R.
  rewrite Ec in Hc. injection Hc as <- <-.
  destruct (ents_run cf sto ok fuel perm Hi nr es st st' m1 V is s1 Q C I W) as (m2 & V' & ex & R' & Hh & _ & _ & _ & _ & _ & _ & Nc).
  rewrite Ea, removelast_last, PutRun.run_app, Er, Rp in R. cbn [bind] in R. rewrite R' in R. injection R as <-.
  rewrite Hn in Hat.
  assert (Nc' : forall j cl, nth_error ex j = Some cl -> ncell sto leaf_in (List.length (hp m1) + j) cl).
  { apply Nc. intros e He. destruct (Hin e He) as [A B]. split; [now apply Hat|]. intros k Hk. apply Hat. now apply B. }
  rewrite <- Eh in N. rewrite Hh. destruct N as [N1 N2]. split.
  - intros a v E. destruct (Nat.lt_ge_cases a (List.length (hp m1))) as [L|L].
    + rewrite nth_error_app1 in E by assumption. eauto.
    + rewrite nth_error_app2 in E by assumption. pose proof (Nc' _ _ E) as K. replace (List.length (hp m1) + (a - List.length (hp m1))) with a in K by lia.
      inversion K as [| |t w Hw Ht| c b Hb Lb|n0 c Hs]; subst.
      * exists t. auto.
      * cbn in Hb. injection Hb as <-. lia.
      * inversion Hs.
  - intros a i E. destruct (Nat.lt_ge_cases a (List.length (hp m1))) as [L|L].
    + rewrite nth_error_app1 in E by assumption. eauto.
    + rewrite nth_error_app2 in E by assumption. pose proof (Nc' _ _ E) as K.
      inversion K as [|t w Hw Ht|t w Hw Ht| c b Hb Lb|n0 c Hs]; subst.
      * exists t. auto.
      * discriminate.
      * inversion Hs.
Qed.
Lemma clause_named lab good fuel p hd body TA fs a rest m' : at_clause cf sto good lab p hd body TA fs -> p_codes p = a :: rest ->
  a = dealloc_atom \/ atom_in (ca_node a) \/ spec_atom a -> named (hp (p_m p)) ->
  run_local cf sto fuel (removelast (ca_code a)) (start p a) = Val (Cont, m') -> named (hp m').
Proof.
  intros [(b & r0 & rest0 & CC & CW & CK & CLb & Hg & Ep & W & SK & LT & AR)] Hc Hat N R.
  destruct (clause_code_split cf OK sto ok b (hd :: body) r0 CC CW CK)
    as (h & body' & ha & rs & hc & nr & st & Ec & -> & Ecode & Er & Eu & HE & CH & GT & GD & SY & Ln & HB).
  injection Ec as <- <-. cbv zeta in *. destruct (clause_head _ _ _ _ _ _ _ CC) as [Nd Sb].
  rewrite Ep in Hc. cbn [app] in Hc. injection Hc as <- <-.
  assert (Hin : atom_in hd).
  { destruct Hat as [->|[Hat|Hat]]; [|now rewrite Nd in Hat|].
    - cbn [dealloc_atom ca_code] in Ecode. change [IDealloc] with ([] ++ [IDealloc]) in Ecode. apply app_inj_tail in Ecode. destruct Ecode; discriminate.
    - exfalso. eapply spec_plain; [exact Hat|exact Ecode|]. intros i Hi. apply in_app_iff in Hi. destruct Hi as [Hi|Hi]; [|eapply hents_plain; eauto].
      unfold alloc_code in Hi. destruct (Nat.eqb _ _); [contradiction|]. destruct Hi as [<-|[]]. exact (fun x => x). }
  rewrite Ecode, removelast_last, PutRun.run_app in R. apply bind_val in R. destruct R as ([s m1] & R1 & R). destruct s; try discriminate R.
  assert (E1 : hp m1 = hp (p_m p)).
  { unfold alloc_code in R1. destruct (Nat.eqb _ _); [injection R1 as <-; reflexivity|]. cbn [run_local] in R1. rewrite step_alloc in R1. injection R1 as <-. reflexivity. }
  apply (mok_named sto GV GC (g_T st)); [|rewrite GT; intros x n []].
  eapply (hents_mok sto GV GC cf fuel _ nr _ (ginit hd)); [exact HE|exact CH| |exact R|].
  - intros e He. destruct (flat_in hd _ (assign_one_in hd) e He) as [A B]. split; [now apply Hin|]. intros k Hk. apply Hin. now apply B.
  - apply named_mok. now rewrite E1.
Qed.
Lemma special_named good fuel p nm a1 a2 fs a rest m' : at_special cf sto good p nm a1 a2 fs -> p_codes p = a :: rest -> named (hp (p_m p)) ->
  run_local cf sto fuel (removelast (ca_code a)) (start p a) = Val (Cont, m') -> named (hp m').
Proof.
  intros [(i & rs & r0 & rest0 & Hf & SC & Ir & Ep & W & SK & AR)] Hc N R.
  destruct (special_shape2 cf OK sto _ _ _ Hf SC) as (a0 & -> & Ecode & Er & _). destruct Ir as [<-|[]].
  rewrite Ep in Hc. cbn [app] in Hc. injection Hc as <- <-. rewrite Ecode in R. cbn [removelast] in R.
  change [IGetVar 2 0; IGetVar 3 1; i 2 3] with ([IGetVar 2 0] ++ [IGetVar 3 1] ++ [i 2 3]) in R.
  destruct (run_split _ _ _ _ _ _ _ R) as (m1 & R1 & R'). destruct (run_split _ _ _ _ _ _ _ R') as (m2 & R2 & R3).
  apply run_single in R1, R2, R3. unfold fstep in *. cbn [local_step] in R1, R2.
  assert (M : mok sto GV GC [] m2).
  { apply bind_val in R1. destruct R1 as (c1 & _ & R1). apply bind_val in R1. destruct R1 as (n1 & R1 & E1). injection E1 as <-.
    apply bind_val in R2. destruct R2 as (c2 & _ & R2). apply bind_val in R2. destruct R2 as (n2 & R2 & E2). injection E2 as <-.
    eapply mok_wreg; [exact R2|reflexivity|]. eapply mok_wreg; [exact R1|reflexivity|]. apply named_mok. exact N. }
  apply (mok_named sto GV GC []); [|intros x n []].
  destruct (special_eq _ _ Hf) as [[_ ->]|[[_ ->]|[_ ->]]]; cbn [local_step] in R3.
  - unfold is_pred in R3. apply bind_val in R3. destruct R3 as (ry & _ & R3). apply bind_val in R3. destruct R3 as (b0 & _ & R3).
    apply bind_val in R3. destruct R3 as (v & _ & R3). destruct v as [z|e]; [|discriminate R3].
    apply bind_val in R3. destruct R3 as (rx & _ & R3). apply bind_val in R3. destruct R3 as (a3 & _ & R3).
    apply bind_val in R3. destruct R3 as (d & Ed & R3). apply bind_val in R3. destruct R3 as (c & Ec & R3).
    destruct c; try discriminate R3; try (injection R3 as _ <-; exact M).
    apply bind_val in R3. destruct R3 as (h' & Eh & R3). injection R3 as <-.
    refine (proj1 (push_bind_mok sto GV GC [] m2 d _ (CInt z) h' (m_mode m2) (m_S m2) M Ec Eh _)). exact Logic.I.
  - unfold equals_check in R3. apply bind_val in R3. destruct R3 as (ry & _ & R3). apply bind_val in R3. destruct R3 as (b0 & _ & R3).
    apply bind_val in R3. destruct R3 as (rx & _ & R3). apply bind_val in R3. destruct R3 as (b1 & _ & R3). apply bind_val in R3. destruct R3 as (t & _ & R3).
    injection R3 as _ <-. exact M.
  - unfold not_equals_check, equals_check in R3. apply bind_val in R3. destruct R3 as ([s3 m3] & R3 & R4). injection R4 as _ <-.
    apply bind_val in R3. destruct R3 as (ry & _ & R3). apply bind_val in R3. destruct R3 as (b0 & _ & R3).
    apply bind_val in R3. destruct R3 as (rx & _ & R3). apply bind_val in R3. destruct R3 as (b1 & _ & R3). apply bind_val in R3. destruct R3 as (t & _ & R3).
    injection R3 as _ <-. exact M.
Qed.

Definition catom_good (a : catom) : Prop := a = dealloc_atom \/ atom_in (ca_node a) \/ spec_atom a.
Lemma src_good gs cs : src gs cs -> (forall n, In n gs -> atom_in n) -> Forall catom_good cs.
Proof.
  induction 1 as [|n a gs cs Hg H IH|gs cs H IH]; intros G; constructor.
  - right. left. destruct Hg as [-> _]. apply G. now left.
  - apply IH. intros. apply G. now right.
  - now left.
  - auto.
Qed.
Lemma rules_good f rs : plookup f pg = Some rs -> forall r0, In r0 rs -> Forall catom_good r0.
Proof.
  intros E r0 Hr. pose proof (prog_src cf sto P pg f PC PW) as PS. rewrite E in PS. destruct PS as [PS _].
  pose proof (PC f) as Pf. unfold clauses_for in PS.
  assert (Src : forall cls, (forall c n, In c cls -> In n c -> atom_in n) -> Forall2 clause_src cls rs -> Forall catom_good r0).
  { clear PS Pf E. intros cls Hc F. induction F as [|c r1 cls rs Hcr F IH]; [contradiction|]. destruct Hr as [->|Hr].
    - destruct Hcr as (h & body & ha & cs & -> & -> & Hh & Hs). constructor.
      + right. left. rewrite Hh. apply (Hc (h :: body)); now left.
      + eapply src_good; [exact Hs|]. intros n Hn. apply (Hc (h :: body)); [now left|now right].
    - apply IH; [exact Hr|]. intros c0 n H1 H2. eapply Hc; [right; exact H1|exact H2]. }
  destruct (special f) as [i|] eqn:Ef.
  - destruct Pf as (rs' & E' & SC). rewrite E in E'. injection E' as <-. destruct (special_shape2 cf OK sto _ _ _ Ef SC) as (a & -> & Ec & _).
    destruct Hr as [<-|[]]. constructor; [|constructor]. right. right. exists f, i. auto.
  - destruct (is_append f).
    + exact (Src _ Ga PS).
    + refine (Src _ _ PS). intros c n Hc Hn. unfold clauses_of in Hc. apply filter_In in Hc. eapply Gp; [apply Hc|exact Hn].
Qed.
Lemma turn_named pi p fuel a rest m' : at_path cf sto pg (init_proc r) pi p -> Forall catom_good (p_codes p) -> named (hp (p_m p)) ->
  p_codes p = a :: rest -> run_local cf sto fuel (removelast (ca_code a)) (start p a) = Val (Cont, m') -> named (hp m').
Proof.
  intros Hp Gc N Hc R. destruct (plain_path cf OK sto ok pg P PC PW NC q r QC QW pi p Hp) as (S & K).
  rewrite Hc in Gc. inversion Gc as [|? ? Ha _]; subst.
  destruct K as [fs tr W SK Dl Tr Tk|fs tr Rd Tr Tk|hd body TA fs tr At Tr Tk|nm a1 a2 fs tr At _ _ Tr Tk].
  - destruct (stk_top _ _ (pow_of cf) (PA P) _ _ _ _ SK a rest Hc) as (fs' & _ & [Tg|(-> & _)]).
    + pose proof (goal_is_ready cf sto _ False p a rest fs' Hc W Tg) as Rd. eapply ready_named; [exact Rd|exact Hc| |exact N|exact R].
      destruct Ha as [->|[Ha|(f & i & _ & Ha)]]; [|exact Ha|]; exfalso; destruct Rd as [perm V n gs fs1 a0 pre is cs tl u m1 es st st' s1 nr Hi Ha0 Hg Ec Ea];
        rewrite Ec in Hc; injection Hc as -> _.
      * cbn in Ea. change [IDealloc] with ([] ++ [IDealloc]) in Ea. apply app_inj_tail in Ea. destruct Ea; discriminate.
      * rewrite Ha in Ea. change [IGetVar 2 0; IGetVar 3 1; i 2 3; IProceed] with ([IGetVar 2 0; IGetVar 3 1; i 2 3] ++ [IProceed]) in Ea.
        apply app_inj_tail in Ea. destruct Ea; discriminate.
    + cbn in R. injection R as <-. exact N.
  - eapply ready_named; [exact Rd|exact Hc| |exact N|exact R].
    destruct Ha as [->|[Ha|(f & i & _ & Ha)]]; [|exact Ha|]; exfalso; destruct Rd as [perm V n gs fs1 a0 pre is cs tl u m1 es st st' s1 nr Hi Ha0 Hg Ec Ea];
      rewrite Ec in Hc; injection Hc as -> _.
    + cbn in Ea. change [IDealloc] with ([] ++ [IDealloc]) in Ea. apply app_inj_tail in Ea. destruct Ea; discriminate.
    + rewrite Ha in Ea. change [IGetVar 2 0; IGetVar 3 1; i 2 3; IProceed] with ([IGetVar 2 0; IGetVar 3 1; i 2 3] ++ [IProceed]) in Ea.
      apply app_inj_tail in Ea. destruct Ea; discriminate.
  - eapply clause_named; [exact At|exact Hc|exact Ha|exact N|exact R].
  - eapply special_named; [exact At|exact Hc|exact N|exact R].
Qed.
Theorem path_named pi p : at_path cf sto pg (init_proc r) pi p -> Forall catom_good (p_codes p) /\ named (hp (p_m p)).
Proof.
  intros Hp. induction Hp as [|pi p i l k Hp IH [fuel E] Hn].
  - cbn [init_proc p_codes p_m]. split; [eapply src_good; [eapply query_src; [exact QC|apply QW]|exact Gq]|]. cbn. split; intros a ? E; destruct a; discriminate E.
  - destruct IH as [Gc N]. unfold p_turn in E. destruct (p_codes p) as [|a rest] eqn:Hc; [discriminate|].
    apply bind_val in E. destruct E as ([s m'] & R & E). destruct s; try discriminate E.
    assert (N' : named (hp m')) by (eapply turn_named; [exact Hp|rewrite Hc; exact Gc|exact N|exact Hc|exact R]).
    inversion Gc as [|? ? Ha Gr]; subst.
    destruct (last (ca_code a) IProceed); try discriminate E.
    + destruct (plookup f pg) as [rs|] eqn:Ef; [|discriminate]. injection E as <-. apply nth_error_In, in_map_iff in Hn. destruct Hn as (r0 & <- & Hr).
      cbn [p_codes p_m]. split; [apply Forall_app; split; [eapply rules_good; eauto|exact Gr]|exact N'].
    + destruct (forallb is_dealloc rest); [apply bind_val in E; destruct E as (? & _ & E); discriminate|]. injection E as <-.
      apply nth_error_In in Hn. destruct Hn as [<-|[]]. split; [exact Gr|exact N'].
    + destruct (m_envs m'); [discriminate|]. injection E as <-. apply nth_error_In in Hn. destruct Hn as [<-|[]]. split; [exact Gr|exact N'].
Qed.
(** the heap at the end of every turn of every branch *)
Theorem ends_named pi p h : at_path cf sto pg (init_proc r) pi p -> ends_with cf sto p h -> named h.
Proof.
  intros Hp (fuel & a & rest & m & Hc & R & <-). destruct (path_named pi p Hp) as [Gc N]. eapply turn_named; eauto.
Qed.
End Path.
