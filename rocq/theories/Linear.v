(** Programs whose clause heads repeat no variable: unification never meets the occurs check, so their terms are
    always finite and their turns always end. *)
From Verif Require Import Base Machine Heap Facts Compiler Parser Organizer Spec Print Valuation HeapSim Process Refine Mono Turn Shape Session Code Put Search PutRun Get Alloc Atoms Clause Stack Ready Heads Builtins Sols Solve Terms Shown Parsed Tables Root Order Cells Runs Answers Complete Total Flat Arith Safe.
From Coq Require Import Permutation.
Open Scope string_scope.
Open Scope list_scope.

Section Heaps.
Variable sto : storage.
Notation len := (@List.length cell).
Notation rd := (rd sto).
Notation rds := (rds sto).

(** --- cells that change are unbound and hold a finite term afterwards --- *)
Definition carried (h1 h2 : list cell) : Prop := forall a c, nth_error h1 a = Some c ->
  nth_error h2 a = Some c \/ (exists v, c = CRef a v /\ exists t, rd h2 a t).
Lemma rd_carried h1 h2 : carried h1 h2 -> forall a t, rd h1 a t -> exists t', rd h2 a t'.
Proof.
  intros C. apply (rd_mut sto h1 (fun a _ => exists t', rd h2 a t') (fun a n _ => exists l', rds h2 a n l')).
  - intros a b t N _ (t' & IH). exists t'. eapply rd_next; [|exact IH].
    destruct (next_ref _ _ _ N) as [(v & E & Nb)|[E Nb]]; (destruct (C _ _ E) as [K|(w & K & _)]; [|try discriminate; injection K as K _; now elim Nb]);
    unfold next; rewrite K; (destruct (Nat.eqb_spec b a); [contradiction|reflexivity]).
  - intros a v nm E. destruct (C _ _ E) as [K|(w & _ & t & K)]; [|eauto]. eexists. eapply rd_var with (nm := ""); eauto.
  - intros a i E. destruct (C _ _ E) as [K|(w & K & _)]; [|discriminate]. eexists. eapply rd_con; eauto.
  - intros a n E. destruct (C _ _ E) as [K|(w & K & _)]; [|discriminate]. eexists. eapply rd_int; eauto.
  - intros a i n l E _ (l' & IH). destruct (C _ _ E) as [K|(w & K & _)]; [|discriminate]. eexists. eapply rd_fun; eauto.
  - intros a i n l E _ (l' & IH). destruct (C _ _ E) as [K|(w & K & _)]; [|discriminate]. eexists. eapply rd_ev; eauto.
  - intros a. exists []. constructor.
  - intros a n t l _ (t' & H1) _ (l' & H2). exists (t' :: l'). now constructor.
Qed.

(** --- heaps with [k] cells still to be written: the terms are finite whatever they become --- *)
Definition pad (k : nat) (h : list cell) : list cell := h ++ map (fun j => CRef (len h + j) 0%Z) (seq 0 k).
Definition fin (k : nat) (h : list cell) : Prop := forall a, a < len h -> exists t, rd (pad k h) a t.
Lemma pad_lt k h a : a < len h -> nth_error (pad k h) a = nth_error h a.
Proof. intros L. unfold pad. now apply nth_error_app1. Qed.
Lemma pad_new k h a : len h <= a < len h + k -> nth_error (pad k h) a = Some (CRef a 0%Z).
Proof.
  intros L. unfold pad. rewrite nth_error_app2 by lia. erewrite map_nth_error; [|apply nth_error_nth' with (d := 0); rewrite seq_length; lia].
  rewrite seq_nth by lia. do 2 f_equal. lia.
Qed.
Lemma pad_end k h a : len h + k <= a -> nth_error (pad k h) a = None.
Proof. intros L. apply nth_error_None. unfold pad. rewrite app_length, map_length, seq_length. lia. Qed.
Lemma pad_0 h : pad 0 h = h.
Proof. unfold pad. apply app_nil_r. Qed.
Lemma fin_0 h : fin 0 h <-> finite_terms sto h.
Proof. unfold fin. now rewrite pad_0. Qed.

(** the cell at the end is written *)
Lemma fin_push k h c : fin k h -> (exists t, rd (pad (pred k) (h ++ [c])) (len h) t) -> fin (pred k) (h ++ [c]).
Proof.
  intros F N a La. rewrite app_length in La. cbn [List.length] in La.
  destruct (Nat.eq_dec a (len h)) as [->|Na]; [exact N|].
  destruct (F a ltac:(lia)) as (t & R). refine (rd_carried (pad k h) (pad (pred k) (h ++ [c])) _ a t R). intros b c0 E.
  destruct (Nat.lt_ge_cases b (len h)) as [Lb|Lb].
  - left. rewrite pad_lt in E by assumption. rewrite pad_lt by (rewrite app_length; cbn; lia). now rewrite nth_error_app1 by assumption.
  - destruct (Nat.lt_ge_cases b (len h + k)) as [Lk|Lk]; [|rewrite pad_end in E by assumption; discriminate].
    rewrite pad_new in E by lia. injection E as <-. destruct (Nat.eq_dec b (len h)) as [->|Nb].
    + right. eexists. split; [reflexivity|exact N].
    + left. apply pad_new. rewrite app_length. cbn. lia.
Qed.
Lemma push_last k h c : nth_error (pad k (h ++ [c])) (len h) = Some c.
Proof. rewrite pad_lt by (rewrite app_length; cbn; lia). rewrite nth_error_app2, Nat.sub_diag by lia. reflexivity. Qed.
Lemma fin_push_ref k h v : fin k h -> fin (pred k) (h ++ [CRef (len h) v]).
Proof. intros F. apply fin_push; [assumption|]. exists (TVar (len h) ""). eapply rd_var. apply push_last. Qed.

(** the cells that come after a structure or constant cell *)
Definition hdr (c : cell) : option nat :=
  match c with CCons _ | CInt _ => Some 0 | CFun _ n | CEval _ n => Some (Z.to_nat n) | _ => None end.
Lemma pad_rds k h : forall j, j <= k -> exists l, rds (pad k h) (len h + (k - j)) j l.
Proof.
  induction j as [|j IH]; intros L; [exists []; constructor|]. destruct IH as (l & H); [lia|].
  exists (TVar (len h + (k - S j)) "" :: l). constructor.
  - eapply rd_var. apply pad_new. lia.
  - replace (S (len h + (k - S j))) with (len h + (k - j)) by lia. exact H.
Qed.
Lemma hdr_rd h a c n : nth_error h a = Some c -> len h = S a -> hdr c = Some n -> exists t, rd (pad n h) a t.
Proof.
  intros E L H. assert (E' : nth_error (pad n h) a = Some c) by (rewrite pad_lt by lia; exact E).
  destruct (pad_rds n h n (le_n _)) as (l & R). rewrite Nat.sub_diag, Nat.add_0_r, L in R.
  destruct c as [i|z|b v|i z|i z|b]; try discriminate; injection H as <-.
  - eexists. eapply rd_con; eauto.
  - eexists. eapply rd_int; eauto.
  - eexists. eapply rd_fun; eauto.
  - eexists. eapply rd_ev; eauto.
Qed.
Lemma fin_push_const k h c : fin k h -> hdr c = Some 0 -> (match c with CCons _ | CInt _ => True | _ => False end) -> fin (pred k) (h ++ [c]).
Proof.
  intros F _ K. apply fin_push; [assumption|]. pose proof (push_last (pred k) h c) as E.
  destruct c; try contradiction; eexists; [eapply rd_con|eapply rd_int]; exact E.
Qed.
(** an unbound variable is bound to a new structure *)
Lemma fin_bind h d w c n h' : fin 0 h -> nth_error h d = Some (CRef d w) -> hdr c = Some n ->
  bind_ref (list cell) fops (h ++ [c]) d (len h) = Val h' -> fin n h'.
Proof.
  intros F Hd Hc Eb. pose proof (nth_error_lt _ _ _ Hd) as Ld.
  assert (Hd1 : nth_error (h ++ [c]) d = Some (CRef d w)) by now rewrite nth_error_app1.
  destruct (bind_ref_eq (h ++ [c]) d (len h) w Hd1) as (h1 & E1 & U). rewrite Eb in E1. injection E1 as <-.
  assert (Lh : len h' = S (len h)) by (rewrite (Facts.upd_length _ _ _ _ U), app_length; cbn; lia).
  assert (G : forall a, nth_error h' a = if Nat.eqb a d then Some (CRef (len h) w) else nth_error (h ++ [c]) a) by (intros a; apply (Facts.upd_nth _ _ _ _ _ U)).
  assert (Ec : nth_error h' (len h) = Some c).
  { rewrite G. destruct (Nat.eqb_spec (len h) d); [lia|]. rewrite nth_error_app2, Nat.sub_diag by lia. reflexivity. }
  destruct (hdr_rd h' (len h) c n Ec Lh Hc) as (t & Rt).
  assert (Rd : rd (pad n h') d t).
  { eapply rd_next; [|exact Rt]. unfold next. rewrite pad_lt by lia. rewrite G, Nat.eqb_refl. destruct (Nat.eqb_spec (len h) d); [lia|reflexivity]. }
  intros a La. destruct (Nat.eq_dec a (len h)) as [->|Na]; [eauto|]. destruct (F a ltac:(lia)) as (u & Ru). rewrite pad_0 in Ru.
  refine (rd_carried h (pad n h') _ a u Ru). intros b c0 E.
  pose proof (nth_error_lt _ _ _ E) as Lb. rewrite pad_lt, G by lia. destruct (Nat.eqb_spec b d) as [->|Nb].
  - right. rewrite Hd in E. injection E as <-. eauto.
  - left. now rewrite nth_error_app1.
Qed.
Lemma fin_deref h a : fin 0 h -> deref (list cell) fops h a <> Fuel.
Proof.
  intros F. destruct (Nat.lt_ge_cases a (len h)) as [L|L].
  - destruct (F a L) as (t & R). rewrite pad_0 in R.
    assert (K : exists n d, derefs h n a d).
    { clear -R. induction R as [a b t N R IH| | | | |]; try (exists 0; eexists; constructor; [eapply nth_error_lt; eassumption|unfold next; rewrite H; try rewrite Nat.eqb_refl; reflexivity]).
      destruct IH as (n & d & D). exists (S n), d. econstructor; eauto. }
    destruct K as (n & d & D). rewrite (derefs_deref _ _ _ _ D). discriminate.
  - unfold deref. cbn [deref_aux]. unfold at_. cbn [h_at fops]. rewrite (proj2 (nth_error_None h a) L). discriminate.
Qed.
End Heaps.

(** --- the code of heads without repeated variables --- *)
Section Run.
Variable cf : cfg.
Variable sto : storage.
Notation hp m := (m_heap (H := list cell) m).
Notation len := (@List.length cell).
Notation fin := (fin sto).

Definition instr_lin (i : instr) : Prop :=
  match i with
  | IUniVal _ | IUniPVal _ | IGetVal _ _ | IGetPVal _ _ => False
  | ICall f => is_append f = false
  | _ => True
  end.
Definition code_lin (a : catom) : Prop := Forall instr_lin (ca_code a).

(** the cells that are written next belong to the structure begun last *)
Definition kin (k : nat) (m : mst (list cell)) : Prop :=
  fin k (hp m) /\ (m_mode m = Some MWrite \/ m_mode m = Some MRead /\ k = 0 \/ m_mode m = None).
Definition go (Q : mst (list cell) -> Prop) (x : out (istat * mst (list cell))) : Prop := fine (fun r => fst r = Cont -> Q (snd r)) x.
Lemma go_app fuel (Q R : mst (list cell) -> Prop) c1 c2 m : go Q (run_local cf sto fuel c1 m) -> (forall m1, Q m1 -> go R (run_local cf sto fuel c2 m1)) ->
  go R (run_local cf sto fuel (c1 ++ c2) m).
Proof.
  intros H K. rewrite PutRun.run_app. unfold go in *. eapply fine_bind; [exact H|]. intros [s m1] _ G. cbn in G.
  destruct s; [now apply K, G|cbn; discriminate|cbn; discriminate].
Qed.
Lemma go_one fuel Q i m : go Q (fstep cf sto fuel i m) -> go Q (run_local cf sto fuel [i] m).
Proof.
  intros H. cbn [run_local]. unfold go in *. eapply fine_bind; [exact H|]. intros [s m1] _ G. cbn in G. destruct s; cbn; auto.
Qed.
Lemma go_weak (Q R : mst (list cell) -> Prop) x : go Q x -> (forall m, Q m -> R m) -> go R x.
Proof. unfold go. intros H K. destruct x; cbn in *; auto. Qed.

Lemma root_ref h a d b w : deref (list cell) fops h a = Val d -> at_ (list cell) fops h d = Val (CRef b w) -> nth_error h d = Some (CRef d w).
Proof.
  intros Ed Ec. apply Builtins.at_nth in Ec. destruct (deref_derefs _ _ _ Ed) as (n & D). destruct (derefs_root _ _ _ _ D) as [Ld Nd].
  unfold next in Nd. rewrite Ec in Nd. destruct (Nat.eqb_spec b d); [now subst b|discriminate].
Qed.
Lemma push_size (m : mst (list cell)) c : hsize (list cell) fops (push (list cell) fops m c) - 1 = len (hp m).
Proof. unfold hsize, push. cbn [h_size h_push fops m_heap set_heap]. rewrite app_length. cbn [List.length]. lia. Qed.
Lemma wreg_mode (m : mst (list cell)) x c m' : wreg (list cell) m x c = Val m' -> m_mode m' = m_mode m.
Proof. unfold wreg. destruct (upd (m_regs m) x c); [|discriminate]. intros E. injection E as <-. reflexivity. Qed.
Lemma wperm_mode (m : mst (list cell)) x c m' : wperm (list cell) m x c = Val m' -> m_mode m' = m_mode m.
Proof. unfold wperm. destruct (m_envs m); [discriminate|]. destruct (upd l x c); [|discriminate]. intros E. injection E as <-. reflexivity. Qed.

(** get_structure *)
Lemma get_fin fuel c x n m : fin 0 (hp m) -> hdr c = Some n ->
  go (fun m' => exists k, k <= n /\ kin k m') (fstep cf sto fuel (IGetStruct c x) m).
Proof.
  intros F Hc. unfold fstep, go. cbn [local_step]. unfold get_structure.
  eapply fine_bind; [apply fine_any, rreg_fuel|]. intros r _ _. eapply fine_bind; [apply fine_any, heap_i_fuel|]. intros a0 _ _.
  eapply fine_bind; [apply fine_any; eapply fin_deref; eassumption|]. intros d Ed _. eapply fine_bind; [apply fine_any, at_fuel|]. intros c0 Ec _.
  assert (Gd : fine (fun r : istat * mst (list cell) => fst r = Cont -> exists k, k <= n /\ kin k (snd r))
    (if cell_eqb c0 c then Val (Cont, set_mode m MRead (d + 1)) else Val (Failing, m))).
  { destruct (cell_eqb c0 c); cbn; [|discriminate]. intros _. exists 0. split; [lia|]. split; [exact F|]. right. left. split; reflexivity. }
  destruct c0 as [j|k|b w|j k|j k|b]; try exact Gd. clear Gd. cbv zeta. rewrite push_size. pose proof (root_ref _ _ _ _ _ Ed Ec) as Hd.
  eapply fine_bind; [apply fine_any, bind_fuel|]. intros h' Eb _. cbn. intros _. exists n. split; [lia|]. split; [|left; reflexivity].
  cbn. exact (fin_bind sto (hp m) d w c n h' F Hd Hc Eb).
Qed.
Definition const_cell (c : cell) : Prop := match c with CCons _ | CInt _ => True | _ => False end.
Lemma uni_struct_fin fuel c x k m : kin k m -> const_cell c -> go (kin (pred k)) (fstep cf sto fuel (IUniStruct c x) m).
Proof.
  intros [F Hm] Hc. assert (Hh : hdr c = Some 0) by (destruct c; try contradiction; reflexivity).
  unfold fstep, go. cbn [local_step]. unfold unify_structure. destruct Hm as [Em|[[Em ->]|Em]]; rewrite Em; [| |exact I].
  - cbv zeta. eapply fine_bind; [apply fine_any, wreg_fuel|]. intros m2 E2 _. cbn. intros _. split.
    + cbn. rewrite (wreg_heap _ _ _ _ E2). cbn. apply fin_push_const; auto.
    + left. cbn. rewrite (wreg_mode _ _ _ _ E2). exact Em.
  - eapply fine_bind; [apply fine_any; eapply fin_deref; eassumption|]. intros d Ed _. eapply fine_bind; [apply fine_any, at_fuel|]. intros c0 Ec _.
    assert (Gd : fine (fun r : istat * mst (list cell) => fst r = Cont -> kin (pred 0) (snd r))
      (if cell_eqb c0 c then Val (Cont, inc_S m) else Val (Failing, inc_S m))).
    { destruct (cell_eqb c0 c); cbn; [|discriminate]. intros _. split; [exact F|]. right. left. split; [exact Em|reflexivity]. }
    destruct c0 as [j|k|b w|j k|j k|b]; try exact Gd. clear Gd. cbv zeta. rewrite push_size. pose proof (root_ref _ _ _ _ _ Ed Ec) as Hd.
    eapply fine_bind; [apply fine_any, bind_fuel|]. intros h' Eb _. cbn. intros _. split; [|right; left; split; [exact Em|reflexivity]].
    cbn. exact (fin_bind sto (hp m) d w c 0 h' F Hd Hh Eb).
Qed.
Lemma uni_var_fin wr k m x v : (forall m x c, wr m x c <> Fuel) -> (forall m x c m', wr m x c = Val m' -> hp m' = hp m /\ m_mode m' = m_mode m) ->
  kin k m -> go (kin (pred k)) (unify_variable (list cell) fops wr m x v).
Proof.
  intros W1 W2 [F Hm]. unfold go, unify_variable. destruct Hm as [Em|[[Em ->]|Em]]; rewrite Em; [| |exact I].
  - unfold push_ref. eapply fine_bind; [apply fine_any, W1|]. intros m2 E2 _. destruct (W2 _ _ _ _ E2) as [Eh E']. cbn. intros _. split.
    + cbn. rewrite Eh. cbn. apply fin_push_ref; auto.
    + left. cbn. rewrite E'. exact Em.
  - eapply fine_bind; [apply fine_any, W1|]. intros m2 E2 _. destruct (W2 _ _ _ _ E2) as [Eh E']. cbn. intros _. split.
    + cbn. rewrite Eh. exact F.
    + right. left. cbn. rewrite E'. auto.
Qed.

Section Code.
Variable perm : string -> option nat.
Lemma hkid_fin fuel kd seen c s' k m : hkid sto perm kd seen c s' -> Forall instr_lin c -> kin k m -> go (kin (pred k)) (run_local cf sto fuel c m).
Proof.
  intros H L K. destruct H; inversion L as [|? ? L1 _]; subst; cbn in L1; try contradiction; apply go_one.
  - now apply uni_struct_fin.
  - now apply uni_struct_fin.
  - unfold fstep. cbn [local_step]. apply uni_var_fin; auto using wperm_fuel. intros m0 x0 c0 m' E. split; [eapply wperm_heap; eauto|eapply wperm_mode; eauto].
  - unfold fstep. cbn [local_step]. apply uni_var_fin; auto using wreg_fuel. intros m0 x0 c0 m' E. split; [eapply wreg_heap; eauto|eapply wreg_mode; eauto].
Qed.
Lemma hkids_fin fuel ks seen c s' : hkids sto perm ks seen c s' -> Forall instr_lin c -> forall k m, kin k m ->
  go (kin (k - List.length ks)) (run_local cf sto fuel c m).
Proof.
  induction 1 as [|kd ks s0 c1 s1 c2 s2 Hk H IH]; intros L k m K.
  - cbn. rewrite Nat.sub_0_r. intros _. exact K.
  - apply Forall_app in L. destruct L as [L1 L2]. eapply go_app; [eapply hkid_fin; eauto|]. intros m1 K1.
    eapply go_weak; [apply IH; eauto|]. intros m2. replace (k - List.length (kd :: ks)) with (pred k - List.length ks) by (cbn [List.length]; lia). auto.
Qed.
Definition kids_fit (e : ent) : Prop := match en_node e with
  | NFun _ l => List.length (en_kids e) = List.length l | NEv _ l => List.length (en_kids e) = 2 | _ => True end.
Lemma short_le n : Z.to_nat (wrap16 (Z.of_nat n)) <= n.
Proof.
  unfold wrap16. pose proof (Z.mod_le (Z.of_nat n + 32768) 65536 ltac:(lia) ltac:(lia)). lia.
Qed.
Lemma hent_fin fuel e seen c s' m : hent sto perm e seen c s' -> kids_fit e -> Forall instr_lin c -> fin 0 (hp m) ->
  go (fun m' => fin 0 (hp m')) (run_local cf sto fuel c m).
Proof.
  intros H KF L F. destruct H; try (inversion L as [|? ? L1 L2]; subst; cbn in L1; try contradiction).
  - apply go_one. unfold go, fstep. cbn [local_step]. eapply fine_bind; [apply fine_any, rreg_fuel|]. intros r _ _.
    eapply fine_bind; [apply fine_any, wperm_fuel|]. intros m1 E1 _. cbn. intros _. now rewrite (wperm_heap _ _ _ _ E1).
  - apply go_one. unfold go, fstep. cbn [local_step]. eapply fine_bind; [apply fine_any, rreg_fuel|]. intros r _ _.
    eapply fine_bind; [apply fine_any, wreg_fuel|]. intros m1 E1 _. cbn. intros _. now rewrite (wreg_heap _ _ _ _ E1).
  - intros _. exact F.
  - apply go_one. eapply go_weak; [apply (get_fin _ _ _ 0); auto|]. intros m' (k & Lk & K & _). now replace k with 0 in K by lia.
  - apply go_one. eapply go_weak; [apply (get_fin _ _ _ 0); auto|]. intros m' (k & Lk & K & _). now replace k with 0 in K by lia.
  - assert (N : exists k, hdr c = Some k /\ k <= List.length ks).
    { match goal with S : scell sto n c |- _ => destruct S as [t l i Hi|t l i Hi] end; cbn in KF; eexists; (split; [reflexivity|]); rewrite KF; [|cbn; lia].
      unfold short_arity. cbn [fv_arity]. apply short_le. }
    destruct N as (n0 & Hn & Ln). change (IGetStruct c x :: code) with ([IGetStruct c x] ++ code).
    eapply go_app; [apply go_one; eapply get_fin; eauto|]. intros m1 (k & Lk & K).
    eapply go_weak; [eapply hkids_fin; eauto|]. intros m2 [K2 _]. replace (k - List.length ks) with 0 in K2 by lia. exact K2.
Qed.
Lemma hents_fin fuel es seen c s' : hents sto perm es seen c s' -> Forall kids_fit es -> Forall instr_lin c -> forall m, fin 0 (hp m) ->
  go (fun m' => fin 0 (hp m')) (run_local cf sto fuel c m).
Proof.
  induction 1 as [|e es s0 c1 s1 c2 s2 He H IH]; intros KF L m F; [intros _; exact F|].
  inversion KF; subst. apply Forall_app in L. destruct L as [L1 L2]. eapply go_app; [eapply hent_fin; eauto|]. intros m1 F1. now apply IH.
Qed.

(** --- the compiler emits no such instruction for a head without repeated variables --- *)
Variable nr : nat.
Definition FD (st : gst) : Prop := forall x s, nassoc x (g_F st) = Some (NVar s) -> In s (g_D st).
Definition tv (st : gst) : list string := flat_map nvars (map snd (g_T st)).
Lemma chk_var_lin s x st st' : chk_var perm nr s x st = Some st' -> FD st -> ~ In s (g_D st) ->
  seen_in (SX x) (g_seen st) = false /\ g_D st' = s :: g_D st /\ g_T st' = g_T st /\ FD st'.
Proof.
  intros C Fd Nd. unfold chk_var in C. destruct (seen_in (SX x) (g_seen st)) eqn:Es.
  - destruct (perm s) as [y|] eqn:Ep.
    + destruct (smem s (g_D st)) eqn:Em; [|discriminate]. apply smem_in in Em. contradiction.
    + destruct (known (g_F st) x (NVar s)) eqn:Em; [|discriminate]. apply known_eq in Em. elim Nd. eapply Fd; eauto.
  - destruct (smem s (g_D st)); [discriminate|]. destruct (perm s) as [y|] eqn:Ep.
    + injection C as <-. cbn. csplit; auto. intros z t H. right. eapply Fd; eauto.
    + destruct (_ && _)%bool; [|discriminate]. injection C as <-. cbn [g_D g_T]. csplit; auto.
      intros z t. cbn [g_F nassoc g_D]. destruct (Nat.eqb z x); [intros H; injection H as <-; now left|]. intros H. right. eapply Fd; eauto.
Qed.
Lemma FD_del x st seen T : FD st -> FD {| g_seen := seen; g_F := ndel x (g_F st); g_D := g_D st; g_T := T |}.
Proof. intros Fd z t. cbn [g_F g_D]. rewrite nassoc_del. destruct (Nat.eqb z x); [discriminate|]. apply Fd. Qed.
Lemma hkid_lin kd c s' st st' R : hkid sto perm kd (g_seen st) c s' -> chk_hkid perm nr kd st = Some st' -> FD st ->
  NoDup (g_D st ++ tv st ++ nvars (fst kd) ++ R) ->
  Forall instr_lin c /\ FD st' /\ NoDup (g_D st' ++ tv st' ++ R).
Proof.
  intros H C Fd Nd.
  assert (V : forall s x, kd = (NVar s, x) -> seen_in (SX x) (g_seen st) = false /\ FD st' /\ NoDup (g_D st' ++ tv st' ++ R)).
  { intros s x ->. cbn [chk_hkid] in C. assert (N : ~ In s (g_D st)).
    { intros K. cbn [fst nvars] in Nd. rewrite app_assoc in Nd. apply NoDup_remove_2 in Nd. apply Nd. rewrite !in_app_iff. tauto. }
    destruct (chk_var_lin _ _ _ _ C Fd N) as (A1 & A2 & A3 & A4). csplit; auto. unfold tv. rewrite A2, A3. cbn [fst nvars app] in Nd.
    rewrite app_assoc in Nd. cbn [app]. rewrite app_assoc. eapply Permutation_NoDup; [|exact Nd]. symmetry. apply Permutation_middle. }
  destruct kd as [n x]. destruct n as [s|s|z|s l|s l].
  - destruct (V s x eq_refl) as (A1 & A2 & A3). csplit; auto. inversion H; subst; repeat constructor; cbn; congruence.
  - cbn [chk_hkid] in C. destruct (_ && _)%bool; [|discriminate]. injection C as <-. csplit; [inversion H; subst; repeat constructor; match goal with K : xnode _ _ |- _ => destruct K end|now apply FD_del|exact Nd].
  - cbn [chk_hkid] in C. destruct (_ && _)%bool; [|discriminate]. injection C as <-. csplit; [inversion H; subst; repeat constructor; match goal with K : xnode _ _ |- _ => destruct K end|now apply FD_del|exact Nd].
  - cbn [chk_hkid] in C. destruct (seen_in (SX x) (g_seen st)) eqn:Es; [discriminate|]. cbn [negb andb] in C. destruct (_ && _)%bool; [|discriminate]. injection C as <-.
    csplit; [inversion H; subst; repeat constructor; cbn; congruence|now apply FD_del|].
    unfold tv in *. cbn [g_D g_T]. rewrite map_app, flat_map_app. cbn [map flat_map snd]. rewrite app_nil_r, <- app_assoc. exact Nd.
  - cbn [chk_hkid] in C. destruct (seen_in (SX x) (g_seen st)) eqn:Es; [discriminate|]. cbn [negb andb] in C. destruct (_ && _)%bool; [|discriminate]. injection C as <-.
    csplit; [inversion H; subst; repeat constructor; cbn; congruence|now apply FD_del|].
    unfold tv in *. cbn [g_D g_T]. rewrite map_app, flat_map_app. cbn [map flat_map snd]. rewrite app_nil_r, <- app_assoc. exact Nd.
Qed.
Lemma hkids_lin ks : forall c s' st st', hkids sto perm ks (g_seen st) c s' -> chk_hkids perm nr ks st = Some st' -> FD st ->
  NoDup (g_D st ++ tv st ++ flat_map nvars (map fst ks)) -> Forall instr_lin c /\ FD st' /\ NoDup (g_D st' ++ tv st').
Proof.
  induction ks as [|k ks IH]; intros c s' st st' H C Fd Nd; inversion H; subst; cbn [chk_hkids] in C.
  - injection C as <-. cbn [map flat_map] in Nd. rewrite app_nil_r in Nd. csplit; auto.
  - destruct (chk_hkid perm nr k st) as [st1|] eqn:C1; [|discriminate].
    match goal with A : hkid _ _ k _ _ _, B : hkids _ _ ks _ _ _ |- _ => rename A into Hk; rename B into Hks end.
    destruct (hkid_lin _ _ _ _ _ (flat_map nvars (map fst ks)) Hk C1 Fd Nd) as (A1 & A2 & A3).
    assert (Es : g_seen st1 = s1).
    { apply (chk_hkids_seen sto perm nr [k] st st1 (c1 ++ []) s1); [econstructor; [exact Hk|constructor]|cbn; now rewrite C1]. }
    subst s1. destruct (IH _ _ _ _ Hks C A2 A3) as (B1 & B2 & B3). csplit; auto. now apply Forall_app.
Qed.
Lemma hent_lin e c s' st st' : hent sto perm e (g_seen st) c s' -> chk_hent perm nr e st = Some st' -> FD st ->
  NoDup (g_D st ++ tv st) -> Forall instr_lin c /\ kids_fit e /\ FD st' /\ NoDup (g_D st' ++ tv st').
Proof.
  intros H C Fd Nd. unfold chk_hent in C. destruct (g_T st) as [|[x0 n0] T'] eqn:ET; [discriminate|].
  destruct (node_eqb n0 (en_node e)) eqn:En; [|discriminate]. apply node_eqb_eq in En. subst n0.
  unfold tv in Nd. rewrite ET in Nd. cbn [map flat_map snd] in Nd.
  set (st1 := {| g_seen := g_seen st; g_F := g_F st; g_D := g_D st; g_T := T' |}) in *.
  assert (F1 : FD st1) by exact Fd.
  assert (V : forall s x, en_node e = NVar s -> chk_var perm nr s x st1 = Some st' -> seen_in (SX x) (g_seen st) = false /\ FD st' /\ NoDup (g_D st' ++ tv st')).
  { intros s x Ee Cv. rewrite Ee in Nd. cbn [nvars app] in Nd.
    assert (N : ~ In s (g_D st)) by (intros K; apply NoDup_remove_2 in Nd; apply Nd; apply in_app_iff; tauto).
    destruct (chk_var_lin _ _ _ _ Cv F1 N) as (A1 & A2 & A3 & A4). csplit; auto. unfold tv. rewrite A2, A3. cbn [g_D g_T st1 app].
    eapply Permutation_NoDup; [|exact Nd]. symmetry. apply Permutation_middle. }
  assert (D : forall ks : list (node * nat), flat_map nvars (map fst ks) = nvars (en_node e) -> NoDup (g_D st1 ++ tv st1 ++ flat_map nvars (map fst ks))).
  { intros ks ->. unfold tv. cbn [g_D g_T st1]. eapply Permutation_NoDup; [|exact Nd]. apply Permutation_app_head, Permutation_app_comm. }
  destruct H; cbn [en_node en_arg en_x en_kids] in *.
  - destruct (Nat.eqb x0 a); [|discriminate]. destruct (V _ _ eq_refl C) as (A1 & _). congruence.
  - destruct (Nat.eqb x0 a); [|discriminate]. destruct (V _ _ eq_refl C) as (A1 & A2 & A3). csplit; auto; repeat constructor.
  - destruct (Nat.eqb x0 a); [|discriminate]. destruct (V _ _ eq_refl C) as (A1 & _). congruence.
  - destruct (Nat.eqb x0 a); [|discriminate]. destruct (V _ _ eq_refl C) as (A1 & A2 & A3). csplit; auto; repeat constructor.
  - discriminate.
  - destruct (Nat.eqb x0 x); [|discriminate]. injection C as <-. csplit; auto; repeat constructor.
  - destruct (Nat.eqb x0 x); [|discriminate]. injection C as <-. csplit; auto; repeat constructor.
  - match goal with S : scell sto n c |- _ => destruct S as [t l i Hi|t l i Hi] end; cbn [str_ok] in C; (destruct (Nat.eqb x0 x); [|discriminate]); cbn [andb] in C.
    + destruct (nodes_eqb (map fst ks) l) eqn:El; [|discriminate]. apply nodes_eqb_eq in El.
      match goal with K : hkids _ _ ks _ _ _ |- _ => destruct (hkids_lin ks _ _ st1 st' K C F1) as (B1 & B2 & B3) end; [apply D; cbn [nvars]; now rewrite El|].
      csplit; auto; [now constructor|]. unfold kids_fit. cbn. now rewrite <- El, map_length.
    + destruct (nodes_eqb (map fst ks) l) eqn:El; [|discriminate]. apply nodes_eqb_eq in El. destruct (Nat.eqb_spec (List.length l) 2) as [E2|]; [|discriminate]. cbn [andb] in C.
      match goal with K : hkids _ _ ks _ _ _ |- _ => destruct (hkids_lin ks _ _ st1 st' K C F1) as (B1 & B2 & B3) end; [apply D; cbn [nvars]; now rewrite El|].
      csplit; auto; [now constructor|]. unfold kids_fit. cbn. now rewrite <- E2, <- El, map_length.
Qed.
Lemma hents_lin es : forall c s' st st', hents sto perm es (g_seen st) c s' -> chk_hents perm nr es st = Some st' -> FD st ->
  NoDup (g_D st ++ tv st) -> Forall instr_lin c /\ Forall kids_fit es.
Proof.
  induction es as [|e es IH]; intros c s' st st' H C Fd Nd; inversion H; subst; cbn [chk_hents] in C; [csplit; constructor|].
  destruct (chk_hent perm nr e st) as [st1|] eqn:C1; [|discriminate].
  match goal with A : hent _ _ e _ _ _, B : hents _ _ es _ _ _ |- _ => rename A into He; rename B into Hes end.
  destruct (hent_lin _ _ _ _ _ He C1 Fd Nd) as (A1 & A2 & A3 & A4).
  assert (Es : g_seen st1 = s1).
  { apply (chk_hents_seen0 sto perm nr [e] st st1 (c1 ++ []) s1); [econstructor; [exact He|constructor]|cbn; now rewrite C1]. }
  subst s1. destruct (IH _ _ _ _ Hes C A3 A4) as (B1 & B2). split; [now apply Forall_app|now constructor].
Qed.
(** the shape alone does not need the variables to differ *)
Lemma hents_fit es : forall c s' st st', hents sto perm es (g_seen st) c s' -> chk_hents perm nr es st = Some st' -> Forall kids_fit es.
Proof.
  induction es as [|e es IH]; intros c s' st st' H C; inversion H; subst; cbn [chk_hents] in C; [constructor|].
  destruct (chk_hent perm nr e st) as [st1|] eqn:C1; [|discriminate].
  match goal with A : hent _ _ e _ _ _, B : hents _ _ es _ _ _ |- _ => rename A into He; rename B into Hes end.
  assert (Es : g_seen st1 = s1).
  { apply (chk_hents_seen0 sto perm nr [e] st st1 (c1 ++ []) s1); [econstructor; [exact He|constructor]|cbn; now rewrite C1]. }
  subst s1. constructor; [|eapply IH; eauto]. clear - C1. unfold chk_hent in C1. destruct (g_T st) as [|[x0 n0] T']; [discriminate|].
  destruct (node_eqb n0 (en_node e)); [|discriminate]. unfold kids_fit. destruct (en_node e) as [s|s|z|s l|s l]; auto; cbn [str_ok] in C1;
  (destruct (Nat.eqb x0 (en_x e)); [|discriminate]); cbn [andb] in C1; destruct (nodes_eqb (map fst (en_kids e)) l) eqn:El; try discriminate;
  apply nodes_eqb_eq in El; [now rewrite <- El, map_length|]. destruct (Nat.eqb_spec (List.length l) 2) as [E2|]; [|discriminate]. now rewrite <- E2, <- El, map_length.
Qed.
End Code.
End Run.

(** --- branches --- *)
Definition linear_clause (c : list node) : Prop := match c with [] => False | h :: b => NoDup (nvars h) /\ Forall no_append b end.
Section Branches.
Variable cf : cfg.
Hypothesis OK : ord_ok cf.
Variable sto : storage.
Hypothesis ok : sto_ok sto.
Notation hp m := (m_heap (H := list cell) m).
Notation len := (@List.length cell).
Notation fin := (fin sto).

Lemma qents_code_lin perm es s0 is s1 : qents sto perm es s0 is s1 -> Forall instr_lin is.
Proof.
  assert (Kd : forall k s0 c s1, qkid sto perm k s0 c s1 -> Forall instr_lin c) by (destruct 1; repeat constructor).
  assert (Ks : forall ks s0 c s1, qkids sto perm ks s0 c s1 -> Forall instr_lin c) by (induction 1; [constructor|apply Forall_app; eauto]).
  induction 1 as [|k ks s0 c1 s1 c2 s2 Hk H IH]; [constructor|]. apply Forall_app. split; [|exact IH].
  destruct Hk; repeat constructor. eapply Ks; eauto.
Qed.
Lemma to_query_lin perm a seen s c seen' s' : to_query perm a seen s = (COk (c, seen'), s') -> sto_ext s' sto -> no_append (aa_top a) -> Forall instr_lin c.
Proof.
  intros E X G. destruct (to_query_rel sto perm ok _ _ _ _ _ _ E X) as (is & -> & Q). apply Forall_app. split; [|repeat constructor; apply G].
  eapply qents_code_lin; exact Q.
Qed.
Lemma alloc_lin n : Forall instr_lin (alloc_code n).
Proof. unfold alloc_code. destruct (Nat.eqb n 0); repeat constructor. Qed.
Lemma query_atoms_lin perm u ns : forall pre seen s r s', compile_query_atoms perm pre u ns seen s = (COk r, s') -> sto_ext s' sto ->
  Forall instr_lin pre -> Forall no_append ns -> Forall code_lin r.
Proof.
  induction ns as [|n ns IH]; intros pre seen s r s' E X P F; cbn [compile_query_atoms] in E; [injection E as <- <-; constructor|].
  apply cbind_ok in E. destruct E as ([a sa] & t1 & E1 & E). apply cbind_ok in E. destruct E as (r' & t2 & E2 & E).
  injection E as <- <-. inversion F as [|? ? Hn Hns]; subst.
  assert (X1 : sto_ext t1 t2) by (pose proof (compile_query_atoms_ext perm u ns [] sa t1) as K; rewrite E2 in K; exact K).
  constructor; [|eapply IH; eauto]. unfold compile_query_atom in E1. pose proof (assign_one_top n) as Ta.
  destruct (assign_one n) as [aa cnt]. cbn [fst] in Ta.
  apply cbind_ok in E1. destruct E1 as ([c sq] & t3 & E1 & E1'). injection E1' as <- <- <-. unfold code_lin. cbn [ca_code].
  apply Forall_app. split; [assumption|]. eapply to_query_lin; [exact E1|eapply sto_ext_trans; eauto|now rewrite Ta].
Qed.
Lemma snd_combine {A B} (l : list A) (k : list B) : List.length l = List.length k -> map snd (combine l k) = k.
Proof. revert k. induction l as [|a l IH]; intros [|b k] E; try discriminate; [reflexivity|]. cbn. f_equal. apply IH. now injection E. Qed.
Lemma flat_targs h : NoDup (nvars h) -> NoDup (flat_map nvars (targs h)).
Proof. unfold targs. destruct h as [s|s|z|s [|k l]|s l]; cbn; auto; constructor. Qed.
Lemma head_lin b c r : clause_code cf sto b c r -> clause_wf c -> clause_ok cf c = true -> linear_clause c ->
  exists a rest, r = a :: rest /\ code_lin a.
Proof.
  intros CC CW CK L. destruct (clause_code_split cf OK sto ok b c r CC CW CK)
    as (h & body' & ha & rs & hc & nr & st & Ec & -> & Ecode & Er & Eu & HE & CH & GT & GD & SY & Ln & HB).
  exists ha, rs. split; [reflexivity|]. unfold code_lin. rewrite Ecode. apply Forall_app. split; [|repeat constructor].
  apply Forall_app. split; [apply alloc_lin|]. subst c. destruct L as [L _].
  refine (proj1 (hents_lin sto _ nr _ _ _ (ginit h) st HE CH _ _)); [intros x s; cbn; discriminate|]. unfold tv, ginit. cbn [g_D g_T app]. unfold argq.
  rewrite snd_combine by now rewrite seq_length. now apply flat_targs.
Qed.
Lemma clause_lin b c r : clause_code cf sto b c r -> clause_wf c -> clause_ok cf c = true -> linear_clause c -> Forall code_lin r.
Proof.
  intros CC CW CK L. destruct (head_lin b c r CC CW CK L) as (a & rest & -> & La). constructor; [exact La|]. clear La CW CK.
  destruct CC as (s0 & sE & f & E & X). unfold compile_program_term in E. destruct c as [|h body]; [contradiction|]. destruct L as [_ Wb].
  destruct (negb b && redefines h)%bool; [discriminate|].
  set (perm := fun s => pos_of s (perm_order cf (h :: body) true)) in *.
  assert (A : exists ha oba cnt, (match body with [] => let '(ha, c) := assign_one h in (ha, None, c) | b :: _ => let '(ha, ba, c) := assign_two h b in (ha, Some ba, c) end) = (ha, oba, cnt)
    /\ match oba with None => True | Some ba => no_append (aa_top ba) end).
  { destruct body as [|b1 bs].
    - destruct (assign_one h) as [ha c]. exists ha, None, c. auto.
    - inversion Wb as [|? ? W1 _]; subst. pose proof (assign_two_top h b1) as T.
      destruct (assign_two h b1) as [[ha ba] c]. exists ha, (Some ba), c. rewrite T. auto. }
  destruct A as (ha & oba & cnt & EA & Fb). rewrite EA in E.
  apply cbind_ok in E. destruct E as ([hc s1] & t1 & E1 & E). apply cbind_ok in E. destruct E as ([firsts s3] & t2 & E2 & E).
  apply cbind_ok in E. destruct E as (others & t3 & E3 & E). injection E; intros; subst sE rest.
  assert (X3 : sto_ext t2 t3) by (pose proof (compile_query_atoms_ext perm false (tl body) [] (remove_x_a_regs s3) t2) as K; rewrite E3 in K; exact K).
  assert (Xt2 : sto_ext t2 sto) by (eapply sto_ext_trans; eauto).
  apply Forall_app. split.
  - destruct oba as [ba|]; [|injection E2 as <- _ _; constructor]. apply cbind_ok in E2. destruct E2 as ([bc s4] & t4 & E4 & E5). injection E5 as <- <- <-.
    constructor; [|constructor]. unfold code_lin. cbn [ca_code]. eapply to_query_lin; eauto.
  - apply Forall_app. split; [eapply query_atoms_lin; eauto; destruct body; [constructor|]; now inversion Wb|].
    destruct (Nat.eqb _ 0); repeat constructor.
Qed.

Variable P : list (list node).
Variable pg : prog.
Hypothesis PC : prog_code cf sto P pg.
Hypothesis PW : Forall clause_wf P.
Hypothesis NC : no_clash cf P.
Hypothesis CL : Forall linear_clause P.
Lemma prog_lin f rs : is_append f = false -> plookup f pg = Some rs -> Forall (Forall code_lin) rs.
Proof.
  intros Ga E. pose proof (PC f) as K.
  assert (G : forall b cs rs, Forall2 (clause_code cf sto b) cs rs -> (forall c, In c cs -> In c P) -> Forall (Forall code_lin) rs).
  { induction 1 as [|c r cs' rs' Hc H IH]; intros F; [constructor|]. constructor; [|apply IH; intros x Hx; apply F; now right].
    assert (Hp : In c P) by (apply F; now left). rewrite Forall_forall in PW, CL. eapply clause_lin; eauto. }
  destruct (special f) as [i|] eqn:Es.
  - destruct K as (rs' & E' & K). rewrite E in E'. injection E' as <-. destruct (special_shape cf OK sto f i rs Es K) as (a & -> & Ec & _).
    constructor; [|constructor]. constructor; [|constructor]. unfold code_lin. rewrite Ec.
    destruct (special_eq _ _ Es) as [[-> ->]|[[-> ->]|[-> ->]]]; repeat constructor.
  - rewrite Ga, E in K. destruct K as [K _]. eapply G; [exact K|]. intros c Hc. unfold clauses_of in Hc. apply filter_In in Hc. apply Hc.
Qed.

(** --- one turn --- *)
Variable noarith : Prop.
Variable qv : list string.
Notation pok := (pok cf sto P False noarith qv).
Definition plin (p : process) : Prop := fin 0 (hp (p_m p)) /\ Forall code_lin (p_codes p).
Lemma fwd_fin h V h' V' : wfh sto 0 h -> wfh sto 0 h' -> fwd sto h V h' V' -> fin 0 h -> fin 0 h'.
Proof.
  intros W W' F Fi. apply fin_0. apply fin_0 in Fi. destruct (ground_fin sto h W Fi (fun _ => GInt 0)) as (rho & S & _).
  destruct (F rho (fun s => match V s with Some a => rho a | None => GInt 0 end) S) as (rho' & _ & S' & _).
  { intros s a E. cbn. now rewrite E. }
  intros a La. eapply rd_exists; eauto.
Qed.
Lemma run_val_app fuel c1 c2 m m' : run_local cf sto fuel (c1 ++ c2) m = Val (Cont, m') ->
  exists m1, run_local cf sto fuel c1 m = Val (Cont, m1) /\ run_local cf sto fuel c2 m1 = Val (Cont, m').
Proof. rewrite PutRun.run_app. intros E. apply bind_val in E. destruct E as ([s m1] & E1 & E). destruct s; try discriminate E. eauto. Qed.

(** == and \== read the heap only; is may bind a variable to an integer *)
Lemma special_fin fuel i x y m m' : i = IIs \/ i = IEq \/ i = INeq -> fin 0 (hp m) -> fstep cf sto fuel (i x y) m = Val (Cont, m') -> fin 0 (hp m').
Proof.
  intros Hi F E. unfold fstep in E. destruct Hi as [->|[->| ->]]; cbn [local_step] in E.
  - unfold is_pred in E. apply bind_val in E. destruct E as (ry & _ & E). apply bind_val in E. destruct E as (b0 & _ & E). apply bind_val in E. destruct E as (v & _ & E).
    destruct v as [n|e]; [|discriminate]. apply bind_val in E. destruct E as (rx & _ & E). apply bind_val in E. destruct E as (a & _ & E).
    apply bind_val in E. destruct E as (d & Ed & E). apply bind_val in E. destruct E as (c & Ec & E).
    destruct c as [j|k|b w|j k|j k|b]; try discriminate.
    + destruct (Z.eqb k n); [|discriminate]. injection E as <-. exact F.
    + cbv zeta in E. rewrite push_size in E. pose proof (root_ref _ _ _ _ _ Ed Ec) as Hd. apply bind_val in E. destruct E as (h' & Eb & E). injection E as <-. cbn.
      exact (fin_bind sto (hp m) d w (CInt n) 0 h' F Hd eq_refl Eb).
  - unfold equals_check in E. repeat (apply bind_val in E; destruct E as (? & ? & E)). injection E as _ <-. exact F.
  - unfold not_equals_check, equals_check in E. apply bind_val in E. destruct E as ([s m1] & E1 & E). injection E as _ <-.
    repeat (apply bind_val in E1; destruct E1 as (? & ? & E1)). injection E1 as _ <-. exact F.
Qed.
Lemma turn_lin p S : pok p S -> plin p ->
  (forall fuel m', run_of cf sto fuel p = Val (Cont, m') -> fin 0 (hp m')) /\ (noarith -> exists fuel, run_of cf sto fuel p <> Fuel).
Proof.
  intros H [F L].
  assert (Rd : forall fs, ready cf sto (labelled cf (PA P)) (good False noarith) p fs ->
    (forall fuel m', run_of cf sto fuel p = Val (Cont, m') -> fin 0 (hp m')) /\ (noarith -> exists fuel, run_of cf sto fuel p <> Fuel)).
  { intros fs Hr. assert (W0 : wfh sto 0 (hp (p_m p))) by (destruct Hr as [perm V n gs fs a pre is cs tl u m1 es st st' s1 nr ? ? ? ? ? ? ? ? Eh ? ? ? W]; now rewrite <- Eh).
    assert (K : forall fuel, exists m', run_of cf sto fuel p = Val (Cont, m') /\ fin 0 (hp m')).
    { intros fuel. destruct (ready_call cf sto ok (labelled cf (PA P)) (good False noarith) (pow_of cf) (PA P) fuel p fs Hr) as
        (perm & V & n & gs & fs0 & a & rest & m' & V' & TA & -> & Ha & Hg & Ep & El & Er & W' & HL & FW & _).
      exists m'. unfold run_of. rewrite Ep. split; [exact Er|]. exact (fwd_fin _ _ _ _ W0 W' FW F). }
    split.
    - intros fuel m' E. destruct (K fuel) as (m1 & E1 & F1). rewrite E in E1. injection E1 as <-. exact F1.
    - intros _. exists 0. destruct (K 0) as (m1 & -> & _). discriminate. }
  destruct H as [fs tr W SK Nd Et Tk|fs tr Hr Et Tk|hd body TA fs tr Hc Et Tk|nm a1 a2 fs tr Hc Hnm Hna Et Tk].
  - destruct (p_codes p) as [|a rest] eqn:Ep; [discriminate|].
    destruct (stk_top sto (good False noarith) (pow_of cf) (PA P) _ _ _ _ SK a rest eq_refl) as (fs' & _ & [TG|(-> & e & es & Ee & SK')]).
    + eapply Rd. eapply goal_is_ready; eauto.
    + unfold run_of. rewrite Ep. cbn. split; [|intros _; exists 0; discriminate]. intros fuel m' E. injection E as <-. exact F.
  - eapply Rd; eauto.
  - destruct Hc as [(b & r & rest & CC & CW & CK & CLb & Hg & Ep & W & SK & LT & AR)].
    destruct (clause_code_split cf OK sto ok b (hd :: body) r CC CW CK)
      as (h & body' & ha & rs & hc & nr & st & Ec & -> & Ecode & Er & Eu & HE & CH & GT & GD & SY & Ln & HB).
    injection Ec as <- <-. cbv zeta in *. rewrite Ep in L. inversion L as [|? ? L1 _]; subst.
    assert (Lh : Forall instr_lin hc).
    { unfold code_lin in L1. rewrite Ecode in L1. apply Forall_app in L1. destruct L1 as [L1 _]. apply Forall_app in L1. apply L1. }
    assert (G : forall fuel, go (fun m' => fin 0 (hp m')) (run_of cf sto fuel p)).
    { intros fuel. unfold run_of. rewrite Ep. cbn [app]. rewrite Ecode, removelast_last. eapply go_app with (Q := fun m' => fin 0 (hp m')).
      - unfold alloc_code. destruct (Nat.eqb _ 0); cbn; intros _; exact F.
      - intros m1 F1. eapply (hents_fin cf sto _ fuel _ _ _ _ HE); eauto. exact (hents_fit sto _ _ _ _ _ (ginit hd) st HE CH). }
    split.
    + intros fuel m' E. specialize (G fuel). rewrite E in G. now apply G.
    + intros _. exists 0. specialize (G 0). intros E. rewrite E in G. exact G.
  - destruct Hc as [(i & rs & r & rest & Hf & SC & Ir & Ep & W & SK & AR)].
    destruct (special_shape cf OK sto _ _ _ Hf SC) as (a & -> & Ecode & Er). destruct Ir as [<-|[]].
    assert (G2 : forall fuel m2 x0 x1, fstep cf sto fuel (IGetVar x0 x1) m2 <> Fuel).
    { intros fuel m2 x0 x1. unfold fstep. cbn [local_step]. pose proof (rreg_fuel m2 x1) as K1. destruct (rreg (list cell) m2 x1) as [c| |]; cbn [bind]; try congruence.
      pose proof (wreg_fuel m2 x0 c) as K2. destruct (wreg (list cell) m2 x0 c); cbn [bind]; congruence. }
    assert (G3 : forall fuel m2 x0 x1 m', fstep cf sto fuel (IGetVar x0 x1) m2 = Val (Cont, m') -> hp m' = hp m2).
    { intros fuel m2 x0 x1 m' E. unfold fstep in E. cbn [local_step] in E. apply bind_val in E. destruct E as (c & _ & E). apply bind_val in E. destruct E as (m1 & E1 & E).
      injection E as <-. eapply wreg_heap; eauto. }
    assert (Si : i = IIs \/ i = IEq \/ i = INeq) by (destruct (special_eq _ _ Hf) as [[_ ->]|[[_ ->]|[_ ->]]]; auto).
    split.
    + intros fuel m' E. unfold run_of in E. rewrite Ep in E. cbn [app] in E. rewrite Ecode in E. cbn [removelast run_local] in E.
      apply bind_val in E. destruct E as ([s1 m1] & E1 & E). destruct s1; try discriminate. apply bind_val in E. destruct E as ([s2 m2] & E2 & E). destruct s2; try discriminate.
      apply bind_val in E. destruct E as ([s3 m3] & E3 & E). destruct s3; try discriminate. injection E as <-.
      eapply special_fin; [exact Si| |exact E3]. rewrite (G3 _ _ _ _ _ E2), (G3 _ _ _ _ _ E1). exact F.
    + intros Na. 
      destruct (AR 0 a1 eq_refl) as (c1 & E1 & A1 & L1). destruct (AR 1 a2 eq_refl) as (c2 & E2 & A2 & L2).
      apply fin_0 in F. destruct (F a1 L1) as (t1 & R1). destruct (F a2 L2) as (t2 & R2).
      destruct (equals_spec sto (so_nodup _ ok) (hp (p_m p)) W a1 t1 R1 a2 t2 R2) as (n0 & Hn).
      unfold equals in Hn. exists n0. unfold run_of. rewrite Ep. cbn [app]. rewrite Ecode, Er. cbn [removelast].
      set (m0 := set_regs (p_m p) (resize (m_regs (p_m p)) 4)).
      apply (resize_nth _ 4) in E1, E2; try lia. change (resize (m_regs (p_m p)) 4) with (m_regs m0) in E1, E2.
      assert (Lm : List.length (m_regs m0) = 4) by apply resize_length.
      destruct (upd_some (m_regs m0) 2 c1) as (l1 & U1); [lia|]. pose proof (Facts.upd_length _ _ _ _ U1) as Ll1.
      destruct (upd_some l1 3 c2) as (l2 & U2); [lia|].
      cbn [run_local]. unfold fstep. cbn [local_step].
      rewrite (rreg_get _ _ _ E1). cbn [bind]. unfold wreg at 1. rewrite U1. cbn [of_opt bind].
      assert (E2' : nth_error l1 1 = Some c2) by (rewrite (Facts.upd_nth _ _ _ _ _ U1); exact E2).
      rewrite (rreg_get (set_regs m0 l1) 1 c2 E2'). cbn [bind]. unfold wreg at 1. cbn [m_regs set_regs]. rewrite U2. cbn [of_opt bind].
      set (m2 := set_regs (set_regs m0 l1) l2).
      assert (R2' : rreg (list cell) m2 2 = Val c1).
      { apply rreg_get. change (nth_error l2 2 = Some c1). rewrite (Facts.upd_nth _ _ _ _ _ U2). cbn [Nat.eqb]. exact (upd_two _ _ _ _ U1). }
      assert (R3' : rreg (list cell) m2 3 = Val c2) by (apply rreg_get; exact (upd_two _ _ _ _ U2)).
      apply addr_of_get in A1, A2. assert (H2 : hp m2 = hp (p_m p)) by reflexivity.
      destruct (special_eq _ _ Hf) as [[Ef ->]|[[Ef ->]|[Ef ->]]]; injection Ef as ->; cbn [local_step]; [now elim (Hna Na)| |];
      unfold not_equals_check, equals_check; rewrite R2', R3'; cbn [bind]; rewrite A1, A2; cbn [bind]; rewrite H2, (Hn n0 (le_n _)); cbn [bind];
      destruct (ident t1 t2); discriminate.
Qed.
Lemma last_lin a : code_lin a -> instr_lin (last (ca_code a) IProceed).
Proof.
  intros F1. unfold code_lin in F1. destruct (ca_code a) as [|x xs] eqn:Ea; [exact I|]. rewrite Forall_forall in F1. apply F1.
  assert (N : x :: xs <> []) by discriminate. pose proof (app_removelast_last IProceed N) as L. remember (last (x :: xs) IProceed) as z.
  rewrite L. apply in_app_iff. right. now left.
Qed.
Lemma kids_lin fuel p S l : pok p S -> plin p -> p_turn cf sto fuel pg p = Val (PKids l) -> Forall plin l.
Proof.
  intros HP HL E. destruct (turn_lin p S HP HL) as [R _]. specialize (R fuel). unfold run_of in R. destruct HL as [_ F].
  unfold p_turn in E. destruct (p_codes p) as [|a rest] eqn:Ec; [discriminate|].
  destruct (run_local cf sto fuel (removelast (ca_code a)) _) as [[s m]| |] eqn:Er; cbn [bind] in E; try discriminate.
  inversion F as [|? ? F1 F2]; subst.
  destruct s; try discriminate. specialize (R m eq_refl). destruct (last (ca_code a) IProceed) eqn:El; try discriminate.
  - destruct (plookup f pg) as [rs|] eqn:Ep; try discriminate. injection E as <-. apply prog_lin in Ep.
    + apply Forall_forall. intros q Hq. apply in_map_iff in Hq. destruct Hq as (r & <- & Hr). split; [exact R|]. cbn [p_codes].
      apply Forall_app. split; [|assumption]. rewrite Forall_forall in Ep. auto.
    + pose proof (last_lin a F1) as K. now rewrite El in K.
  - destruct (forallb is_dealloc rest).
    + destruct (answer_of _ _ _ _); discriminate.
    + injection E as <-. constructor; [|constructor]. split; assumption.
  - destruct (m_envs m) as [|e es] eqn:Ee; [discriminate|]. injection E as <-. constructor; [|constructor]. split; [|assumption]. exact R.
Qed.
Hypothesis NI : noarith -> forall c n, In c P -> In n (tl c) -> no_is n.
Lemma lin_CW : forall c, In c (PA P) -> clause_wf c /\ clause_ok cf c = true /\ Forall (good False noarith) (tl c).
Proof.
  intros c Hc. apply in_app_iff in Hc. destruct Hc as [Hc|Hc].
  - csplit; auto; [rewrite Forall_forall in PW; auto|]. apply Forall_forall. intros n Hn. split; [contradiction|]. intros Na. exact (NI Na c n Hc Hn).
  - destruct (append_ok cf OK c Hc) as (A & B & C). csplit; auto.
Qed.
Lemma lin_path root S0 pi p : pok root S0 -> plin root -> at_path cf sto pg root pi p -> (exists S, pok p S) /\ plin p.
Proof.
  intros R1 R2 Hp. induction Hp as [|pi p i l k H IH [fuel E] Hn]; [eauto|]. destruct IH as ((S & Hs) & HL). destruct (rules_bound pg) as (R & RL). split.
  - pose proof (turn_sols cf OK sto ok pg P False noarith PC lin_CW (fun f => match f with end) R RL qv fuel p S (PKids l) Hs E) as K.
    destruct K as (Ss & F & _). destruct (F2_nth_l _ _ _ F i _ Hn) as (Sj & _ & Pj). eauto.
  - pose proof (kids_lin fuel p S l Hs HL E) as F. rewrite Forall_forall in F. apply F. eapply nth_error_In; eauto.
Qed.
Lemma lin_ends root S0 pi p h : pok root S0 -> plin root -> at_path cf sto pg root pi p -> ends_with cf sto p h -> finite_terms sto h.
Proof.
  intros R1 R2 Hp (fuel & a & rest & m & Ec & Er & <-). destruct (lin_path root S0 pi p R1 R2 Hp) as ((S & Hs) & HL).
  destruct (turn_lin p S Hs HL) as [R _]. apply fin_0. apply (R fuel). unfold run_of. now rewrite Ec.
Qed.
End Branches.
Lemma root_lin cf sto q r : sto_ok sto -> query_code cf sto q r -> Forall no_append q -> plin sto (init_proc r).
Proof.
  intros ok (s0 & s1 & E & X) F. split.
  - intros a K. cbn in K. lia.
  - cbn [p_codes init_proc]. unfold compile_query in E. eapply query_atoms_lin; eauto. apply alloc_lin.
Qed.

(** programs whose heads repeat no variable, without [append] *)
Definition linear (P : list (list node)) (q : list node) : Prop :=
  (forall h b, In (h :: b) P -> NoDup (nvars h)) /\ all_goals no_append P q.
Section Session.
Variable cf : cfg.
Hypothesis OK : ord_ok cf.
Variable o : org.
Variable P : list (list node).
Variable q : list node.
Hypothesis HS : session cf o P (QFresh q).
Hypothesis SM : small_tables (o_sto o).
Hypothesis NC : no_clash cf P.
Hypothesis LN : linear P q.
Notation sto := (o_sto o).
Notation pg := (o_prog o).
Lemma linear_clauses : Forall linear_clause P.
Proof.
  destruct (session_parsed _ _ _ _ HS) as [[W _] _]. destruct LN as (D1 & D2 & _). rewrite Forall_forall in *. intros c Hc. specialize (W c Hc).
  destruct c as [|h b]; [contradiction|]. split; [eapply D1; eauto|]. apply Forall_forall. intros n Hn. exact (D2 _ _ Hc Hn).
Qed.
Lemma linear_root (noarith : Prop) root : (noarith -> all_goals no_is P q) -> root_of o root ->
  (exists S0, pok cf sto P False noarith (flat_map vars_of q) root S0) /\ plin sto root.
Proof.
  intros NI Hr. destruct (root_code cf o P q HS root Hr) as (r & -> & Q1). destruct (session_parsed _ _ _ _ HS) as [[PW _] QW].
  assert (ok : sto_ok sto) by (eapply sess_ok; eauto). split.
  - destruct (root_pok cf OK sto ok P False noarith q r) as (S0 & K & _); auto; try apply QW; [|eauto].
    apply Forall_forall. intros n Hn. split; [contradiction|]. intros Na. exact (proj2 (NI Na) n Hn).
  - eapply root_lin; eauto. apply Forall_forall. intros n Hn. exact (proj2 (proj2 LN) n Hn).
Qed.
Theorem linear_acyclic : no_cycles cf o.
Proof.
  intros root pi p h Hr Hp He. assert (ok : sto_ok sto) by (eapply sess_ok; eauto).
  destruct (linear_root False root ltac:(contradiction) Hr) as ((S0 & R1) & R2). destruct (session_parsed _ _ _ _ HS) as [[PW _] QW].
  eapply (lin_ends cf OK sto ok P pg (sess_PC cf o P q HS) PW NC linear_clauses False _ ltac:(contradiction)); eauto.
Qed.
Theorem linear_ends : (Z.of_nat (List.length (s_vars sto)) <= 32768)%Z -> all_goals no_is P q -> turns_end cf o.
Proof.
  intros SV NI root pi p Hr Hp. assert (ok : sto_ok sto) by (eapply sess_ok; eauto). pose proof (sess_PC cf o P q HS) as A.
  destruct (linear_root True root (fun _ => NI) Hr) as ((S0 & R1) & R2). destruct (root_code cf o P q HS root Hr) as (r & -> & Q1).
  destruct (session_parsed _ _ _ _ HS) as [[PW _] QW].
  destruct (lin_path cf OK sto ok P pg A PW NC linear_clauses True _ (fun _ => proj1 NI) _ S0 pi p R1 R2 Hp) as ((S & Hs) & HL).
  eapply (path_ends cf OK sto ok SV pg P A PW NC (proj1 NI) q r Q1 QW (proj2 NI) pi p Hp).
  - exact (proj2 (turn_lin cf OK sto ok P True _ p S Hs HL) I).
  - intros h He. eapply (linear_acyclic (init_proc r) pi p h); eauto.
Qed.
End Session.
