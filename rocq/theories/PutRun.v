(** Running checked argument-building code. *)
From Verif Require Import Base Machine Heap Facts Compiler Spec Print Valuation Process Shape Session Code Put Search.
Open Scope list_scope.

Notation mstate := (mst (list cell)).

Section Run.
Variable cf : cfg.
Variable sto : storage.
Hypothesis ok : sto_ok sto.
Variable fuel : nat.
Variable perm : string -> option nat.
Hypothesis perm_inj : forall s t y, perm s = Some y -> perm t = Some y -> s = t.
Variable nr : nat.

Notation hp m := (m_heap (H := list cell) m).
Notation run := (run_local cf sto fuel).

Lemma run_app c1 : forall c2 m, run (c1 ++ c2) m =
  ('(s, m1) <- run c1 m ;; match s with Cont => run c2 m1 | _ => Val (s, m1) end).
Proof.
  induction c1 as [|i c1 IH]; intros c2 m; cbn [app run_local]; [reflexivity|].
  destruct (fstep cf sto fuel i m) as [[s m1]| |]; cbn [bind]; auto. destruct s; auto.
Qed.

(** What this code leaves alone. *)
Definition frame (m m' : mstate) : Prop :=
  m_mode m' = m_mode m /\ m_S m' = m_S m /\ List.length (m_regs m') = List.length (m_regs m) /\
  match m_envs m with
  | [] => m_envs m' = []
  | e :: es => exists e', m_envs m' = e' :: es /\ List.length e' = List.length e
  end /\
  ((forall s, perm s = None) -> m_envs m' = m_envs m).
Lemma frame_refl m : frame m m.
Proof. unfold frame. destruct (m_envs m); csplit; auto. eauto. Qed.
Lemma frame_trans m1 m2 m3 : frame m1 m2 -> frame m2 m3 -> frame m1 m3.
Proof.
  intros (A1 & A2 & A3 & A4 & A5) (B1 & B2 & B3 & B4 & B5). unfold frame. csplit; try congruence.
  - destruct (m_envs m1) as [|e es].
    + rewrite A4 in B4. assumption.
    + destruct A4 as (e' & A4 & L). rewrite A4 in B4. destruct B4 as (e'' & B4 & L'). exists e''. split; congruence.
  - intros N. rewrite B5, A5; auto.
Qed.
Lemma frame_heap m h : frame m (set_heap m h).
Proof. unfold frame. cbn. destruct (m_envs m); csplit; auto. eauto. Qed.

(** Invariant between instructions: [h] is the part of the heap whose structures are complete. *)
Definition holds (h : list cell) (V : string -> option nat) (size : nat) (n : node) (o : option cell) : Prop :=
  exists c a, o = Some c /\ addr_of c = Some a /\ a < size /\ fact sto h V a n.
Record pinv (h : list cell) (st : kst) (m : mstate) (V : string -> option nat) : Prop := {
  pi_dom : forall s, In s (k_D st) <-> V s <> None;
  pi_lt : forall s a, V s = Some a -> a < List.length (hp m);
  pi_F : forall x n, nassoc x (k_F st) = Some n -> holds h V (List.length (hp m)) n (nth_error (m_regs m) x);
  pi_seen : forall s y, perm s = Some y -> seen_in (SY y) (k_seen st) = true <-> In s (k_D st);
  pi_env : forall s y, perm s = Some y -> exists e es, m_envs m = e :: es /\ y < List.length e /\
             (In s (k_D st) -> holds h V (List.length (hp m)) (NVar s) (nth_error e y));
  pi_regs : List.length (m_regs m) = nr
}.

Lemma holds_mono h V sz n o e V' sz' : holds h V sz n o -> vle_on V V' -> sz <= sz' -> holds (h ++ e) V' sz' n o.
Proof.
  intros (c & a & E & A & L & F) LV LS. exists c, a. csplit; auto; [lia|]. eapply fact_mono; eauto.
Qed.
Lemma holds_mono' h V sz n o V' sz' : holds h V sz n o -> vle_on V V' -> sz <= sz' -> holds h V' sz' n o.
Proof. intros H L S. rewrite <- (app_nil_r h). eapply holds_mono; eauto. Qed.
Lemma vle_on_refl V : vle_on V V.
Proof. intros s a E. exact E. Qed.
Lemma vle_on_trans V1 V2 V3 : vle_on V1 V2 -> vle_on V2 V3 -> vle_on V1 V3.
Proof. intros A B s a E. auto. Qed.

(** More heap *)
Lemma pinv_heap h st m V h' e : pinv h st m V -> List.length (hp m) <= List.length h' -> pinv (h ++ e) st (set_heap m h') V.
Proof.
  intros [D L F S E R] HL. split; cbn [m_heap m_regs m_envs set_heap]; auto.
  - intros s a Ea. specialize (L s a Ea). lia.
  - intros x n En. eapply holds_mono; eauto. apply vle_on_refl.
  - intros s y Ey. destruct (E s y Ey) as (e0 & es & A & B & C). exists e0, es. csplit; auto. intros K.
    eapply holds_mono; eauto. apply vle_on_refl.
Qed.
Lemma pinv_ext h st m V e : pinv h st m V -> pinv (h ++ e) st m V.
Proof. intros H. apply (pinv_heap h st m V (hp m) e) in H; [|lia]. destruct m. exact H. Qed.

(** A register is overwritten: forget it, or remember what it holds now. *)
Definition sreg_set (m : mstate) (x : nat) (c : cell) (r : list cell) : Prop := upd (m_regs m) x c = Some r.
Lemma pinv_wreg h st m V x c r n seen : pinv h st m V -> upd (m_regs m) x c = Some r ->
  (forall s y, perm s = Some y -> seen_in (SY y) seen = seen_in (SY y) (k_seen st)) ->
  holds h V (List.length (hp m)) n (Some c) ->
  pinv h {| k_seen := seen; k_F := (x, n) :: k_F st; k_D := k_D st |} (set_regs m r) V.
Proof.
  intros [D L F S E R] U Hseen Hc. split; cbn [m_heap m_regs m_envs set_regs k_D k_F k_seen]; auto.
  - intros x0 n0 En. cbn [nassoc] in En. rewrite (upd_nth _ _ _ _ _ U).
    destruct (Nat.eqb x0 x); [injection En as <-; assumption|auto].
  - intros s y Ey. rewrite (Hseen s y Ey). auto.
  - now rewrite (upd_length _ _ _ _ U).
Qed.
Lemma pinv_wdel h st m V x c r seen : pinv h st m V -> upd (m_regs m) x c = Some r ->
  (forall s y, perm s = Some y -> seen_in (SY y) seen = seen_in (SY y) (k_seen st)) ->
  pinv h {| k_seen := seen; k_F := ndel x (k_F st); k_D := k_D st |} (set_regs m r) V.
Proof.
  intros [D L F S E R] U Hseen. split; cbn [m_heap m_regs m_envs set_regs k_D k_F k_seen]; auto.
  - intros x0 n0 En. rewrite nassoc_del in En. rewrite (upd_nth _ _ _ _ _ U).
    destruct (Nat.eqb x0 x); [discriminate|auto].
  - intros s y Ey. rewrite (Hseen s y Ey). auto.
  - now rewrite (upd_length _ _ _ _ U).
Qed.

(** A new variable. *)
Definition vput (V : string -> option nat) (s : string) (a : nat) (t : string) : option nat :=
  if String.eqb t s then Some a else V t.
Lemma vput_le V s a : V s = None -> vle_on V (vput V s a).
Proof. intros H t b E. unfold vput. destruct (String.eqb_spec t s) as [->|]; congruence. Qed.
Lemma vput_at V s a : vput V s a s = Some a.
Proof. unfold vput. now rewrite String.eqb_refl. Qed.
Lemma vput_new V s a ns : V s = None -> nth_error ns 0 = Some (NVar s) -> newvars V (vput V s a) a ns.
Proof.
  intros H E t b Et. unfold vput in Et. destruct (String.eqb_spec t s) as [->|]; [|auto].
  injection Et as <-. right. split; [assumption|]. exists 0. rewrite Nat.add_0_r. auto.
Qed.
Lemma newvars_refl V B ns : newvars V V B ns.
Proof. intros s a E. auto. Qed.

(** temporary: register [x] gets the cell *)
Lemma pinv_newx h st m V s x r v : pinv h st m V -> ~ In s (k_D st) -> perm s = None ->
  upd (m_regs m) x (CRef (List.length (hp m)) v) = Some r ->
  pinv h {| k_seen := SX x :: k_seen st; k_F := (x, NVar s) :: k_F st; k_D := s :: k_D st |}
       (set_regs (set_heap m (hp m ++ [CRef (List.length (hp m)) v])) r) (vput V s (List.length (hp m))).
Proof.
  intros [D L F S E R] Hs Hp U.
  assert (VN : V s = None). { destruct (V s) eqn:EV; [|reflexivity]. exfalso. apply Hs, D. congruence. }
  pose proof (vput_le V s (List.length (hp m)) VN) as LV.
  split; cbn [m_heap m_regs m_envs set_regs set_heap k_D k_F k_seen].
  - intros t. unfold vput. cbn [In]. destruct (String.eqb_spec t s) as [->|Hn]; [intuition discriminate|].
    rewrite D. intuition congruence.
  - intros t a Et. rewrite app_length. cbn. unfold vput in Et. destruct (String.eqb_spec t s) as [->|Hn].
    + injection Et as <-. lia.
    + specialize (L _ _ Et). lia.
  - intros x0 n0 En. cbn [nassoc] in En. rewrite (upd_nth _ _ _ _ _ U), app_length. cbn.
    destruct (Nat.eqb x0 x).
    + injection En as <-. exists (CRef (List.length (hp m)) v), (List.length (hp m)). csplit; auto; [lia|].
      left. exists s. split; [reflexivity|apply vput_at].
    + eapply holds_mono'; eauto. lia.
  - intros t y Ey. assert (t <> s) by congruence. cbn [seen_in existsb sreg_eqb orb In].
    fold (seen_in (SY y) (k_seen st)). rewrite (S t y Ey). intuition congruence.
  - intros t y Ey. assert (t <> s) by congruence. destruct (E t y Ey) as (e & es & A & B & C). exists e, es.
    csplit; auto. intros [K|K]; [congruence|]. rewrite app_length. cbn. eapply holds_mono'; eauto. lia.
  - now rewrite (upd_length _ _ _ _ U).
Qed.
(** permanent: slot [y] of the environment gets the cell *)
Lemma pinv_newy h st m V s y e es e' v : pinv h st m V -> ~ In s (k_D st) -> perm s = Some y ->
  m_envs m = e :: es -> upd e y (CRef (List.length (hp m)) v) = Some e' ->
  pinv h {| k_seen := SY y :: k_seen st; k_F := k_F st; k_D := s :: k_D st |}
       (set_envs (set_heap m (hp m ++ [CRef (List.length (hp m)) v])) (e' :: es)) (vput V s (List.length (hp m))).
Proof.
  intros [D L F S E R] Hs Hp Hee U.
  assert (VN : V s = None). { destruct (V s) eqn:EV; [|reflexivity]. exfalso. apply Hs, D. congruence. }
  pose proof (vput_le V s (List.length (hp m)) VN) as LV.
  split; cbn [m_heap m_regs m_envs set_envs set_heap k_D k_F k_seen].
  - intros t. unfold vput. cbn [In]. destruct (String.eqb_spec t s) as [->|Hn]; [intuition discriminate|].
    rewrite D. intuition congruence.
  - intros t a Et. rewrite app_length. cbn. unfold vput in Et. destruct (String.eqb_spec t s) as [->|Hn].
    + injection Et as <-. lia.
    + specialize (L _ _ Et). lia.
  - intros x0 n0 En. rewrite app_length. cbn. eapply holds_mono'; eauto. lia.
  - intros t y0 Ey. cbn [seen_in existsb sreg_eqb In]. fold (seen_in (SY y0) (k_seen st)).
    destruct (Nat.eqb_spec y0 y) as [->|Hn]; cbn [orb].
    + rewrite (perm_inj _ _ _ Ey Hp). tauto.
    + rewrite (S t y0 Ey). assert (t <> s) by congruence. intuition congruence.
  - intros t y0 Ey. exists e', es. destruct (E t y0 Ey) as (e1 & es1 & A & B & C). rewrite Hee in A. injection A as <- <-.
    split; [reflexivity|]. split; [now rewrite (upd_length _ _ _ _ U)|]. rewrite app_length. cbn.
    rewrite (upd_nth _ _ _ _ _ U). destruct (Nat.eqb_spec y0 y) as [->|Hn].
    + intros _. rewrite (perm_inj _ _ _ Ey Hp). exists (CRef (List.length (hp m)) v), (List.length (hp m)). csplit; auto; [lia|].
      left. exists s. split; [reflexivity|apply vput_at].
    + assert (t <> s) by congruence. intros [K|K]; [congruence|]. eapply holds_mono'; eauto. lia.
  - assumption.
Qed.

Lemma wreg_ok m x c : x < List.length (m_regs m) ->
  exists r, wreg (list cell) m x c = Val (set_regs m r) /\ upd (m_regs m) x c = Some r.
Proof. intros H. unfold wreg. destruct (upd_some (m_regs m) x c H) as [r E]. rewrite E. exists r. auto. Qed.
Lemma wperm_ok m y c e es : m_envs m = e :: es -> y < List.length e ->
  exists e', wperm (list cell) m y c = Val (set_envs m (e' :: es)) /\ upd e y c = Some e'.
Proof. intros H L. unfold wperm. rewrite H. destruct (upd_some e y c L) as [r E]. rewrite E. exists r. auto. Qed.
Lemma rreg_ok m x c : nth_error (m_regs m) x = Some c -> rreg (list cell) m x = Val c.
Proof. intros H. unfold rreg. now rewrite H. Qed.
Lemma rperm_ok m y e es c : m_envs m = e :: es -> nth_error e y = Some c -> rperm (list cell) m y = Val c.
Proof. intros H L. unfold rperm. now rewrite H, L. Qed.

Definition kept (x : nat) (m m' : mstate) : Prop := nth_error (m_regs m') x = nth_error (m_regs m) x.

Lemma frame_regs m r x c : upd (m_regs m) x c = Some r -> frame m (set_regs m r).
Proof. intros U. unfold frame. cbn. rewrite (upd_length _ _ _ _ U). destruct (m_envs m); csplit; auto. eauto. Qed.
Lemma frame_envs m e es e' y c s : m_envs m = e :: es -> upd e y c = Some e' -> perm s = Some y ->
  frame m (set_envs m (e' :: es)).
Proof.
  intros E U P. unfold frame. cbn. rewrite E. csplit; auto.
  - exists e'. split; [reflexivity|]. now rewrite (upd_length _ _ _ _ U).
  - intros N. rewrite N in P. discriminate.
Qed.

(** One kid of a structure. *)
Lemma kid_run h k st st' m V c seen' : qkid sto perm k (k_seen st) c seen' -> chk_kid perm nr k st = Some st' ->
  pinv h st m V ->
  exists m' V' cl, run c m = Val (Cont, m') /\ hp m' = hp m ++ [cl] /\ k_seen st' = seen' /\ vle_on V V' /\
    pinv h st' m' V' /\ kcell sto h V' (List.length (hp m)) cl (fst k) /\
    newvars V V' (List.length (hp m)) [fst k] /\ frame m m' /\ (forall x, keeps perm x k = true -> kept x m m').
Proof.
  intros Q C I. pose proof (pi_regs _ _ _ _ I) as HR. remember (k_seen st) as sn eqn:Esn in Q.
  destruct Q as [t x seen|t x seen i Hi|t x y seen Hp Hs|t x y seen v Hp Hs Hv|n x seen Hx Hs|n x seen v Hx Hs Hv];
    subst seen; cbn [chk_kid] in C.
  - destruct (Nat.ltb_spec x nr) as [Hlt|]; [|discriminate]. injection C as <-.
    cbn [run_local fstep local_step bind]. unfold push, hsize. cbn [h_push h_size fops m_heap set_heap].
    destruct (wreg_ok (set_heap m (hp m ++ [CInt (lit_val t)])) x
                (CStr (List.length (hp m ++ [CInt (lit_val t)]) - 1))) as (r & -> & U); [cbn; lia|].
    cbn [bind]. eexists _, V, (CInt (lit_val t)). split; [reflexivity|]. csplit; auto.
    + apply vle_on_refl.
    + eapply pinv_wdel; [|exact U|reflexivity]. rewrite <- (app_nil_r h). apply pinv_heap; [assumption|].
      rewrite app_length. cbn; lia.
    + constructor.
    + apply newvars_refl.
    + eapply frame_trans; [apply frame_heap|eapply frame_regs; exact U].
    + intros x0. unfold keeps. cbn [fst snd]. intros K. apply negb_true_iff, Nat.eqb_neq in K.
      unfold kept. cbn. rewrite (upd_nth _ _ _ _ _ U). cbn. destruct (Nat.eqb_spec x0 x); [congruence|reflexivity].
  - destruct (Nat.ltb_spec x nr) as [Hlt|]; [|discriminate]. injection C as <-.
    cbn [run_local fstep local_step bind]. unfold push, hsize. cbn [h_push h_size fops m_heap set_heap].
    destruct (wreg_ok (set_heap m (hp m ++ [CCons i])) x
                (CStr (List.length (hp m ++ [CCons i]) - 1))) as (r & -> & U); [cbn; lia|].
    cbn [bind]. eexists _, V, (CCons i). split; [reflexivity|]. csplit; auto.
    + apply vle_on_refl.
    + eapply pinv_wdel; [|exact U|reflexivity]. rewrite <- (app_nil_r h). apply pinv_heap; [assumption|].
      rewrite app_length. cbn; lia.
    + now constructor.
    + apply newvars_refl.
    + eapply frame_trans; [apply frame_heap|eapply frame_regs; exact U].
    + intros x0. unfold keeps. cbn [fst snd]. intros K. apply negb_true_iff, Nat.eqb_neq in K.
      unfold kept. cbn. rewrite (upd_nth _ _ _ _ _ U). cbn. destruct (Nat.eqb_spec x0 x); [congruence|reflexivity].
  - rewrite Hp in C. rewrite Hs in C. injection C as <-.
    destruct (pi_env _ _ _ _ I t y Hp) as (e & es & A & B & K).
    destruct K as (c & a & Ec & Ea & La & Fa); [now apply (pi_seen _ _ _ _ I t y Hp)|].
    cbn [run_local fstep local_step]. rewrite (rperm_ok _ _ _ _ _ A Ec). cbn [bind]. unfold push. cbn [h_push fops].
    eexists _, V, c. split; [reflexivity|]. csplit; auto.
    + apply vle_on_refl.
    + rewrite <- (app_nil_r h). apply pinv_heap; [assumption|]. rewrite app_length. cbn; lia.
    + econstructor; eauto.
    + apply newvars_refl.
    + apply frame_heap.
    + intros x0 _. reflexivity.
  - rewrite Hp in C. rewrite Hs in C. destruct (smem t (k_D st)) eqn:Em; [discriminate|]. injection C as <-.
    assert (Hn : ~ In t (k_D st)) by (rewrite <- smem_in; congruence).
    destruct (pi_env _ _ _ _ I t y Hp) as (e & es & A & B & K).
    cbn [run_local fstep local_step]. unfold push_ref, push, hsize. cbn [h_push h_size fops m_heap set_heap].
    destruct (wperm_ok (set_heap m (hp m ++ [CRef (List.length (hp m)) v])) y (CRef (List.length (hp m)) v) e es)
      as (e' & -> & U); [exact A|exact B|].
    cbn [bind]. eexists _, (vput V t (List.length (hp m))), (CRef (List.length (hp m)) v).
    assert (VN : V t = None). { destruct (V t) eqn:EV; [|reflexivity]. exfalso. apply Hn, (pi_dom _ _ _ _ I). congruence. }
    split; [reflexivity|]. csplit; auto.
    + now apply vput_le.
    + eapply pinv_newy; eauto.
    + constructor; [assumption|apply vput_at].
    + now apply vput_new.
    + eapply frame_trans; [apply frame_heap|eapply frame_envs; eauto].
    + intros x0 _. reflexivity.
  - assert (K : nassoc x (k_F st) = Some n /\ st' = st).
    { destruct n as [t| | |t l|t l]; cbn [xnode] in Hx; try contradiction.
      - rewrite Hx in C. rewrite Hs in C. destruct (known (k_F st) x (NVar t)) eqn:Ek; [|discriminate].
        apply known_eq in Ek. injection C as <-. auto.
      - rewrite Hs in C. cbn [andb] in C. destruct (known (k_F st) x (NFun t l)) eqn:Ek; [|discriminate].
        apply known_eq in Ek. injection C as <-. auto.
      - rewrite Hs in C. cbn [andb] in C. destruct (known (k_F st) x (NEv t l)) eqn:Ek; [|discriminate].
        apply known_eq in Ek. injection C as <-. auto. }
    destruct K as [K ->]. destruct (pi_F _ _ _ _ I _ _ K) as (c & a & Ec & Ea & La & Fa).
    cbn [run_local fstep local_step]. rewrite (rreg_ok _ _ _ Ec). cbn [bind]. unfold push. cbn [h_push fops].
    eexists _, V, c. split; [reflexivity|]. csplit; auto.
    + apply vle_on_refl.
    + rewrite <- (app_nil_r h). apply pinv_heap; [assumption|]. rewrite app_length. cbn; lia.
    + econstructor; eauto.
    + apply newvars_refl.
    + apply frame_heap.
    + intros x0 _. reflexivity.
  - destruct n as [t| | |t l|t l]; cbn [xnode] in Hx; try contradiction;
      [|rewrite Hs in C; discriminate|rewrite Hs in C; discriminate].
    rewrite Hx in C. rewrite Hs in C. destruct (smem t (k_D st)) eqn:Em; [discriminate|].
    destruct (Nat.ltb_spec x nr) as [Hlt|]; [|discriminate]. injection C as <-.
    assert (Hn : ~ In t (k_D st)) by (rewrite <- smem_in; congruence).
    cbn [run_local fstep local_step]. unfold push_ref, push, hsize. cbn [h_push h_size fops m_heap set_heap].
    destruct (wreg_ok (set_heap m (hp m ++ [CRef (List.length (hp m)) v])) x (CRef (List.length (hp m)) v))
      as (r & -> & U); [cbn; lia|].
    cbn [bind]. eexists _, (vput V t (List.length (hp m))), (CRef (List.length (hp m)) v).
    assert (VN : V t = None). { destruct (V t) eqn:EV; [|reflexivity]. exfalso. apply Hn, (pi_dom _ _ _ _ I). congruence. }
    split; [reflexivity|]. csplit; auto.
    + now apply vput_le.
    + eapply pinv_newx; eauto.
    + constructor; [assumption|apply vput_at].
    + now apply vput_new.
    + eapply frame_trans; [apply frame_heap|eapply frame_regs; exact U].
    + intros x0. unfold keeps. cbn [fst snd]. rewrite Hx. intros K. apply negb_true_iff, Nat.eqb_neq in K.
      unfold kept. cbn. rewrite (upd_nth _ _ _ _ _ U). cbn. destruct (Nat.eqb_spec x0 x); [congruence|reflexivity].
Qed.

Lemma kids_run h ks : forall st st' m V c seen', qkids sto perm ks (k_seen st) c seen' -> chk_kids perm nr ks st = Some st' ->
  pinv h st m V ->
  exists m' V' cs, run c m = Val (Cont, m') /\ hp m' = hp m ++ cs /\ k_seen st' = seen' /\ vle_on V V' /\
    pinv h st' m' V' /\ leaves sto h V' (List.length (hp m)) (map fst ks) cs /\
    newvars V V' (List.length (hp m)) (map fst ks) /\ frame m m' /\
    (forall x, forallb (keeps perm x) ks = true -> kept x m m').
Proof.
  induction ks as [|k ks IH]; intros st st' m V c seen' Q C I; inversion Q; subst.
  - cbn in C. injection C as <-. exists m, V, []. rewrite app_nil_r. csplit; auto.
    + apply vle_on_refl.
    + split; [reflexivity|]. intros [|j] cl n E; discriminate.
    + apply newvars_refl.
    + apply frame_refl.
    + intros x _. reflexivity.
  - cbn [chk_kids] in C. destruct (chk_kid perm nr k st) as [st1|] eqn:C1; [|discriminate].
    destruct (kid_run h k st st1 m V c1 s1) as (m1 & V1 & cl & R1 & Hh1 & S1 & L1 & I1 & K1 & N1 & F1 & X1); auto.
    subst s1. destruct (IH st1 st' m1 V1 c2 seen') as (m2 & V2 & cs & R2 & Hh2 & S2' & L2 & I2 & K2 & N2 & F2 & X2); auto.
    exists m2, V2, (cl :: cs). rewrite run_app, R1. cbn [bind]. rewrite R2. csplit; auto.
    + rewrite Hh2, Hh1, <- app_assoc. reflexivity.
    + eapply vle_on_trans; eauto.
    + destruct K2 as [Kl K2]. rewrite Hh1, app_length in K2. cbn in K2. split; [cbn; congruence|].
      intros [|j] cl0 n0 E1 E2; cbn in E1, E2.
      * injection E1 as <-. injection E2 as <-. rewrite Nat.add_0_r. eapply kcell_mono; eauto.
      * replace (List.length (hp m) + S j) with (List.length (hp m) + 1 + j) by lia. now apply K2.
    + intros s a E. destruct (N2 s a E) as [E'|(E' & j & -> & Ej)].
      * destruct (N1 s a E') as [E''|(E'' & j & -> & Ej)]; [auto|]. right. split; [assumption|].
        destruct j as [|[|j]]; cbn in Ej; try discriminate. exists 0. auto.
      * right. split; [destruct (V s) eqn:EV; [apply L1 in EV; congruence|reflexivity]|].
        exists (S j). split; [rewrite Hh1, app_length; cbn; lia|exact Ej].
    + eapply frame_trans; eauto.
    + intros x K. cbn [forallb] in K. apply andb_true_iff in K. destruct K as [Ka Kb].
      unfold kept. rewrite (X2 x Kb). exact (X1 x Ka).
Qed.

Lemma seen_sx x seen : forall s y, perm s = Some y -> seen_in (SY y) (SX x :: seen) = seen_in (SY y) seen.
Proof. reflexivity. Qed.

(** One flattened node. *)
Lemma ent_run e st st' m V c seen' : qent sto perm e (k_seen st) c seen' -> chk_ent perm nr e st = Some st' ->
  pinv (hp m) st m V -> wfh sto 0 (hp m) ->
  exists m' V' ex, run c m = Val (Cont, m') /\ hp m' = hp m ++ ex /\ k_seen st' = seen' /\ vle_on V V' /\
    pinv (hp m') st' m' V' /\ wfh sto 0 (hp m') /\ fwd sto (hp m) V (hp m') V' /\ frame m m' /\
    forall QN : node -> Prop, QN (en_node e) -> (forall k, In k (en_kids e) -> QN (fst k)) ->
      forall j cl, nth_error ex j = Some cl -> ncell sto QN (List.length (hp m) + j) cl.
Proof.
  intros Q C I W. pose proof (pi_regs _ _ _ _ I) as HR. remember (k_seen st) as sn eqn:Esn in Q.
  destruct Q as [t x a ks y seen Hp Hs|t x a ks y seen v Hp Hs Hv|t x a ks seen Hp Hs|t x a ks seen v Hp Hs Hv|
                 t x ks seen|t x a ks seen|t x a ks seen i Hi|n x a ks seen c code s2 Hsc Hks];
    subst seen; cbn [chk_ent en_node en_x en_arg en_kids] in C.
  - destruct (Nat.ltb_spec a nr) as [Hlt|]; [|discriminate]. rewrite Hp in C. rewrite Hs in C. injection C as <-.
    destruct (pi_env _ _ _ _ I t y Hp) as (e & es & A & B & K).
    specialize (K (proj1 (pi_seen _ _ _ _ I t y Hp) Hs)). pose proof K as K'. destruct K' as (c & b & Ec & _).
    cbn [run_local fstep local_step]. rewrite (rperm_ok _ _ _ _ _ A Ec). cbn [bind].
    destruct (wreg_ok m a c) as (r & -> & U); [lia|]. cbn [bind].
    eexists _, V, []. rewrite app_nil_r. split; [reflexivity|]. csplit; auto.
    + apply vle_on_refl.
    + rewrite Ec in K. cbn [m_heap set_regs]. eapply pinv_wreg; eauto.
    + apply fwd_refl.
    + eapply frame_regs; eauto.
    + intros QN _ _ [|j] cl E; discriminate E.
  - destruct (Nat.ltb_spec a nr) as [Hlt|]; [|discriminate]. rewrite Hp in C. rewrite Hs in C.
    destruct (smem t (k_D st)) eqn:Em; [discriminate|]. injection C as <-.
    assert (Hn : ~ In t (k_D st)) by (rewrite <- smem_in; congruence).
    destruct (pi_env _ _ _ _ I t y Hp) as (e & es & A & B & K).
    assert (VN : V t = None). { destruct (V t) eqn:EV; [|reflexivity]. exfalso. apply Hn, (pi_dom _ _ _ _ I). congruence. }
    cbn [run_local fstep local_step]. unfold push_ref, push, hsize. cbn [h_push h_size fops m_heap set_heap].
    destruct (wperm_ok (set_heap m (hp m ++ [CRef (List.length (hp m)) v])) y (CRef (List.length (hp m)) v) e es)
      as (e' & -> & U); [exact A|exact B|]. cbn [bind].
    set (m1 := set_envs (set_heap m (hp m ++ [CRef (List.length (hp m)) v])) (e' :: es)).
    destruct (wreg_ok m1 a (CRef (List.length (hp m)) v)) as (r & -> & U'); [cbn; lia|]. cbn [bind].
    pose proof (pinv_newy _ _ _ _ _ _ _ _ _ v I Hn Hp A U) as I1. fold m1 in I1.
    destruct (leaf_block sto (hp m) V (vput V t (List.length (hp m))) (CRef (List.length (hp m)) v) (NVar t))
      as (W1 & V1 & F1); auto.
    { now apply vput_le. } { exact (pi_lt _ _ _ _ I). } { now apply vput_new. } { constructor; [assumption|apply vput_at]. }
    eexists _, (vput V t (List.length (hp m))), [CRef (List.length (hp m)) v].
    split; [reflexivity|]. csplit; auto.
    + now apply vput_le.
    + apply pinv_ext with (e := [CRef (List.length (hp m)) v]) in I1.
      apply (pinv_wreg _ _ _ _ a _ r (NVar t) _ I1 U'); [reflexivity|].
      exists (CRef (List.length (hp m)) v), (List.length (hp m)). csplit; auto.
      * cbn. rewrite app_length. cbn. lia.
      * left. exists t. split; [reflexivity|apply vput_at].
    + eapply frame_trans; [apply frame_heap|]. eapply frame_trans; [eapply frame_envs; eauto|]. fold m1.
      eapply frame_regs. exact U'.
    + intros QN Hq _ [|[|j]] cl E; try discriminate E. injection E as <-. rewrite Nat.add_0_r. eapply nc_new; eauto.
  - destruct (Nat.ltb_spec a nr) as [Hlt|]; [|discriminate]. rewrite Hp in C. rewrite Hs in C.
    destruct (known (k_F st) x (NVar t)) eqn:Ek; [|discriminate]. apply known_eq in Ek. injection C as <-.
    pose proof (pi_F _ _ _ _ I _ _ Ek) as K. pose proof K as K'. destruct K' as (c & b & Ec & _).
    cbn [run_local fstep local_step]. rewrite (rreg_ok _ _ _ Ec). cbn [bind].
    destruct (wreg_ok m a c) as (r & -> & U); [lia|]. cbn [bind].
    eexists _, V, []. rewrite app_nil_r. split; [reflexivity|]. csplit; auto.
    + apply vle_on_refl.
    + rewrite Ec in K. cbn [m_heap set_regs]. eapply pinv_wreg; eauto.
    + apply fwd_refl.
    + eapply frame_regs; eauto.
    + intros QN _ _ [|j] cl E; discriminate E.
  - destruct (Nat.ltb_spec a nr) as [Hlt|]; [|discriminate]. rewrite Hp in C. rewrite Hs in C.
    destruct (smem t (k_D st)) eqn:Em; [discriminate|]. destruct (Nat.ltb_spec x nr) as [Hlt'|]; [|discriminate].
    injection C as <-.
    assert (Hn : ~ In t (k_D st)) by (rewrite <- smem_in; congruence).
    assert (VN : V t = None). { destruct (V t) eqn:EV; [|reflexivity]. exfalso. apply Hn, (pi_dom _ _ _ _ I). congruence. }
    cbn [run_local fstep local_step]. unfold push_ref, push, hsize. cbn [h_push h_size fops m_heap set_heap].
    destruct (wreg_ok (set_heap m (hp m ++ [CRef (List.length (hp m)) v])) x (CRef (List.length (hp m)) v))
      as (r0 & -> & U); [cbn; lia|]. cbn [bind].
    set (m1 := set_regs (set_heap m (hp m ++ [CRef (List.length (hp m)) v])) r0).
    destruct (wreg_ok m1 a (CRef (List.length (hp m)) v)) as (r & -> & U').
    { unfold m1. cbn. rewrite (upd_length _ _ _ _ U). cbn. lia. } cbn [bind].
    pose proof (pinv_newx _ _ _ _ _ _ _ v I Hn Hp U) as I1. fold m1 in I1.
    destruct (leaf_block sto (hp m) V (vput V t (List.length (hp m))) (CRef (List.length (hp m)) v) (NVar t))
      as (W1 & V1 & F1); auto.
    { now apply vput_le. } { exact (pi_lt _ _ _ _ I). } { now apply vput_new. } { constructor; [assumption|apply vput_at]. }
    eexists _, (vput V t (List.length (hp m))), [CRef (List.length (hp m)) v].
    split; [reflexivity|]. csplit; auto.
    + now apply vput_le.
    + apply pinv_ext with (e := [CRef (List.length (hp m)) v]) in I1.
      apply (pinv_wreg _ _ _ _ a _ r (NVar t) _ I1 U'); [reflexivity|].
      exists (CRef (List.length (hp m)) v), (List.length (hp m)). csplit; auto.
      * cbn. rewrite app_length. cbn. lia.
      * left. exists t. split; [reflexivity|apply vput_at].
    + eapply frame_trans; [apply frame_heap|]. eapply frame_trans; [eapply frame_regs; exact U|]. fold m1.
      eapply frame_regs. exact U'.
    + intros QN Hq _ [|[|j]] cl E; try discriminate E. injection E as <-. rewrite Nat.add_0_r. eapply nc_new; eauto.
  - discriminate.
  - destruct (Nat.ltb_spec x nr) as [Hlt|]; [|discriminate]. injection C as <-.
    cbn [run_local fstep local_step bind]. unfold push, hsize. cbn [h_push h_size fops m_heap set_heap].
    destruct (wreg_ok (set_heap m (hp m ++ [CInt (lit_val t)])) x
                (CStr (List.length (hp m ++ [CInt (lit_val t)]) - 1))) as (r & -> & U); [cbn; lia|]. cbn [bind].
    destruct (leaf_block sto (hp m) V V (CInt (lit_val t)) (NInt t)) as (W1 & V1 & F1); auto.
    { apply vle_on_refl. } { exact (pi_lt _ _ _ _ I). } { apply newvars_refl. } { constructor. }
    eexists _, V, [CInt (lit_val t)]. split; [reflexivity|]. csplit; auto.
    + apply vle_on_refl.
    + pose proof (pinv_heap _ _ _ _ (hp m ++ [CInt (lit_val t)]) [CInt (lit_val t)] I) as I1.
      apply (pinv_wreg _ _ _ _ x _ r (NInt t) _ (I1 ltac:(rewrite app_length; lia)) U); [reflexivity|].
      eexists _, (List.length (hp m)). split; [reflexivity|]. cbn. rewrite app_length. cbn. csplit; [f_equal; lia|lia|].
      right. split; [rewrite app_length; cbn; lia|assumption].
    + eapply frame_trans; [apply frame_heap|eapply frame_regs; exact U].
    + intros QN Hq _ [|[|j]] cl E; try discriminate E. injection E as <-. rewrite Nat.add_0_r. econstructor; eauto.
  - destruct (Nat.ltb_spec x nr) as [Hlt|]; [|discriminate]. injection C as <-.
    cbn [run_local fstep local_step bind]. unfold push, hsize. cbn [h_push h_size fops m_heap set_heap].
    destruct (wreg_ok (set_heap m (hp m ++ [CCons i])) x
                (CStr (List.length (hp m ++ [CCons i]) - 1))) as (r & -> & U); [cbn; lia|]. cbn [bind].
    destruct (leaf_block sto (hp m) V V (CCons i) (NCon t)) as (W1 & V1 & F1); auto.
    { apply vle_on_refl. } { exact (pi_lt _ _ _ _ I). } { apply newvars_refl. } { now constructor. }
    eexists _, V, [CCons i]. split; [reflexivity|]. csplit; auto.
    + apply vle_on_refl.
    + pose proof (pinv_heap _ _ _ _ (hp m ++ [CCons i]) [CCons i] I) as I1.
      apply (pinv_wreg _ _ _ _ x _ r (NCon t) _ (I1 ltac:(rewrite app_length; lia)) U); [reflexivity|].
      eexists _, (List.length (hp m)). split; [reflexivity|]. cbn. rewrite app_length. cbn. csplit; [f_equal; lia|lia|].
      right. split; [rewrite app_length; cbn; lia|assumption].
    + eapply frame_trans; [apply frame_heap|eapply frame_regs; exact U].
    + intros QN Hq _ [|[|j]] cl E; try discriminate E. injection E as <-. rewrite Nat.add_0_r. econstructor; eauto.
  - assert (C' : (Nat.ltb x nr && str_ok n ks && forallb (keeps perm x) ks)%bool = true /\
       exists st2, chk_kids perm nr ks {| k_seen := SX x :: k_seen st; k_F := ndel x (k_F st); k_D := k_D st |} = Some st2 /\
       st' = {| k_seen := k_seen st2; k_F := (x, n) :: k_F st2; k_D := k_D st2 |}).
    { destruct Hsc; cbn [chk_ent en_node en_x en_arg en_kids] in C;
      (match type of C with (if ?b then _ else _) = _ => destruct b; [|discriminate] end); (split; [reflexivity|]);
      destruct (chk_kids _ _ _ _) as [st2|]; try discriminate; injection C as <-; eauto. }
    clear C. destruct C' as [C1 (st2 & C2 & ->)]. apply andb_true_iff in C1. destruct C1 as [C1 Ck].
    apply andb_true_iff in C1. destruct C1 as [Cx Cs]. apply Nat.ltb_lt in Cx.
    assert (En : map fst ks = kids n /\ match n with NEv _ l => List.length l = 2 | _ => True end).
    { destruct n; cbn [str_ok] in Cs; try discriminate.
      - apply nodes_eqb_eq in Cs. auto.
      - apply andb_true_iff in Cs. destruct Cs as [Cs C2']. apply nodes_eqb_eq in Cs. apply Nat.eqb_eq in C2'. auto. }
    destruct En as [En E2].
    cbn [run_local fstep local_step bind]. unfold push, hsize. cbn [h_push h_size fops m_heap set_heap].
    destruct (wreg_ok (set_heap m (hp m ++ [c])) x (CStr (List.length (hp m ++ [c]) - 1))) as (r & -> & U); [cbn; lia|].
    cbn [bind]. set (m1 := set_regs (set_heap m (hp m ++ [c])) r).
    assert (I1 : pinv (hp m) {| k_seen := SX x :: k_seen st; k_F := ndel x (k_F st); k_D := k_D st |} m1 V).
    { eapply pinv_wdel; [|exact U|reflexivity]. rewrite <- (app_nil_r (hp m)) at 1. apply pinv_heap; [assumption|].
      rewrite app_length; lia. }
    destruct (kids_run (hp m) ks {| k_seen := SX x :: k_seen st; k_F := ndel x (k_F st); k_D := k_D st |} st2 m1 V code s2 Hks C2 I1)
      as (m2 & V2 & cs & R2 & H2 & S2 & L2 & I2 & K2 & N2 & F2 & X2).
    assert (Hm1 : hp m1 = hp m ++ [c]) by reflexivity.
    assert (Hl1 : List.length (hp m1) = S (List.length (hp m))) by (rewrite Hm1, app_length; cbn; lia).
    rewrite Hl1, En in K2, N2. rewrite Hm1, <- app_assoc in H2. cbn [app] in H2.
    destruct (str_block sto ok (hp m) V V2 c n cs) as (W1 & V1 & F1); auto.
    { exact (pi_lt _ _ _ _ I). }
    fold m1. exists m2, V2, (c :: cs). rewrite R2. csplit; auto.
    + rewrite H2. apply pinv_ext with (e := c :: cs) in I2. destruct I2 as [D2 Lt2 F2' Sn2 En2 R2'].
      split; auto.
      cbn [k_F nassoc]. intros x0 n0 E0. destruct (Nat.eqb_spec x0 x) as [->|Hne]; [|auto].
      injection E0 as <-. exists (CStr (List.length (hp m ++ [c]) - 1)), (List.length (hp m)).
      csplit.
      * rewrite (X2 x Ck). unfold m1. cbn [m_regs set_regs]. rewrite (upd_nth _ _ _ _ _ U), Nat.eqb_refl. reflexivity.
      * cbn. f_equal. rewrite app_length. cbn. lia.
      * rewrite H2, app_length. cbn. lia.
      * right. split; [rewrite app_length; cbn; lia|assumption].
    + rewrite H2. assumption.
    + rewrite H2. assumption.
    + eapply frame_trans; [apply frame_heap|]. eapply frame_trans; [eapply frame_regs; exact U|]. exact F2.
    + intros QN Hq Hqk [|j] cl E; [injection E as <-; eapply nc_str; eauto|]. cbn in E. destruct K2 as [Kl K2].
      destruct (nth_error (kids n) j) as [k|] eqn:Ek; [|apply nth_error_None in Ek; apply nth_error_lt in E; lia].
      replace (List.length (hp m) + S j) with (S (List.length (hp m)) + j) by lia. eapply kcell_ncell; [eapply K2; eauto|].
      rewrite <- En in Ek. apply nth_error_In, in_map_iff in Ek. destruct Ek as (k0 & <- & Hk0). apply Hqk. exact Hk0.
Qed.

Lemma ents_run es : forall st st' m V c seen', qents sto perm es (k_seen st) c seen' -> chk_ents perm nr es st = Some st' ->
  pinv (hp m) st m V -> wfh sto 0 (hp m) ->
  exists m' V' ex, run c m = Val (Cont, m') /\ hp m' = hp m ++ ex /\ k_seen st' = seen' /\ vle_on V V' /\
    pinv (hp m') st' m' V' /\ wfh sto 0 (hp m') /\ fwd sto (hp m) V (hp m') V' /\ frame m m' /\
    forall QN : node -> Prop, (forall e, In e es -> QN (en_node e) /\ forall k, In k (en_kids e) -> QN (fst k)) ->
      forall j cl, nth_error ex j = Some cl -> ncell sto QN (List.length (hp m) + j) cl.
Proof.
  induction es as [|e es IH]; intros st st' m V c seen' Q C I W; inversion Q; subst.
  - cbn in C. injection C as <-. exists m, V, []. rewrite app_nil_r. csplit; auto.
    + apply vle_on_refl.
    + apply fwd_refl.
    + apply frame_refl.
    + intros QN _ [|j] cl E; discriminate E.
  - cbn [chk_ents] in C. destruct (chk_ent perm nr e st) as [st1|] eqn:C1; [|discriminate].
    destruct (ent_run e st st1 m V c1 s1) as (m1 & V1 & ex1 & R1 & Hh1 & S1 & L1 & I1 & W1 & F1 & G1 & N1); auto.
    subst s1. destruct (IH st1 st' m1 V1 c2 seen') as (m2 & V2 & ex2 & R2 & Hh2 & S2' & L2 & I2 & W2 & F2 & G2 & N2); auto.
    exists m2, V2, (ex1 ++ ex2). rewrite run_app, R1. cbn [bind]. csplit; auto.
    + now rewrite Hh2, Hh1, app_assoc.
    + eapply vle_on_trans; eauto.
    + eapply fwd_trans; [|exact F1|exact F2]. rewrite Hh1, app_length. lia.
    + eapply frame_trans; eauto.
    + intros QN Hq j cl E. destruct (Hq e (or_introl eq_refl)) as [Hq1 Hq2]. destruct (Nat.lt_ge_cases j (List.length ex1)) as [Lj|Lj].
      * rewrite nth_error_app1 in E by assumption. eapply N1; eauto.
      * rewrite nth_error_app2 in E by assumption. assert (K : forall e0, In e0 es -> QN (en_node e0) /\ forall k0, In k0 (en_kids e0) -> QN (fst k0)) by (intros e0 He0; apply Hq; now right).
        pose proof (N2 QN K _ _ E) as N. rewrite Hh1, app_length in N. replace (List.length (hp m) + j) with (List.length (hp m) + List.length ex1 + (j - List.length ex1)) by lia. exact N.
Qed.
End Run.
