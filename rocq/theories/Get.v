(** Code that matches a clause head against the argument registers: a check on the register allocation, and what
    code passing it does. *)
From Verif Require Import Base Machine Heap Facts Compiler Spec Print Valuation Process Shape Session Code Put Search PutRun.
Open Scope list_scope.

(** [g_T]: registers of terms still to be matched, in order. *)
Record gst := { g_seen : list sreg; g_F : list (nat * node); g_D : list string; g_T : list (nat * node) }.
Definition free (x : nat) (T : list (nat * node)) : bool := forallb (fun p => negb (Nat.eqb x (fst p))) T.

Section Check.
Variable perm : string -> option nat.
Variable nr : nat.

(** a variable of the head: [None] if the check fails; [Some (true, _)] if it has a value already *)
Definition chk_var (s : string) (x : nat) (st : gst) : option gst :=
  if seen_in (SX x) (g_seen st) then
    match perm s with
    | Some _ => if smem s (g_D st) then Some st else None
    | None => if known (g_F st) x (NVar s) then Some st else None
    end
  else if smem s (g_D st) then None
  else match perm s with
       | Some y => Some {| g_seen := SY y :: SX x :: g_seen st; g_F := g_F st; g_D := s :: g_D st; g_T := g_T st |}
       | None =>
           if (Nat.ltb x nr && free x (g_T st))%bool
           then Some {| g_seen := SX x :: g_seen st; g_F := (x, NVar s) :: g_F st; g_D := s :: g_D st; g_T := g_T st |}
           else None
       end.
Definition chk_hkid (k : node * nat) (st : gst) : option gst :=
  let '(n, x) := k in
  match n with
  | NVar s => chk_var s x st
  | NInt _ | NCon _ =>
      if (Nat.ltb x nr && free x (g_T st))%bool
      then Some {| g_seen := g_seen st; g_F := ndel x (g_F st); g_D := g_D st; g_T := g_T st |} else None
  | _ =>
      if (negb (seen_in (SX x) (g_seen st)) && (Nat.ltb x nr && free x (g_T st)))%bool
      then Some {| g_seen := SX x :: g_seen st; g_F := ndel x (g_F st); g_D := g_D st; g_T := g_T st ++ [(x, n)] |}
      else None
  end.
Fixpoint chk_hkids (ks : list (node * nat)) (st : gst) : option gst :=
  match ks with
  | [] => Some st
  | k :: ks' => match chk_hkid k st with Some st1 => chk_hkids ks' st1 | None => None end
  end.
Definition chk_hent (e : ent) (st : gst) : option gst :=
  match g_T st with
  | [] => None
  | (x0, n0) :: T' =>
      let st1 := {| g_seen := g_seen st; g_F := g_F st; g_D := g_D st; g_T := T' |} in
      if node_eqb n0 (en_node e) then
        match en_node e with
        | NVar s => match en_arg e with
                    | Some a => if Nat.eqb x0 a then chk_var s (en_x e) st1 else None
                    | None => None
                    end
        | NInt _ | NCon _ => if Nat.eqb x0 (en_x e) then Some st1 else None
        | n => if (Nat.eqb x0 (en_x e) && str_ok n (en_kids e))%bool then chk_hkids (en_kids e) st1 else None
        end
      else None
  end.
Fixpoint chk_hents (es : list ent) (st : gst) : option gst :=
  match es with
  | [] => Some st
  | e :: es' => match chk_hent e st with Some st1 => chk_hents es' st1 | None => None end
  end.
End Check.

(** One set of equations leads to another: same solutions for the variables, up to new addresses. *)
Definition eqset := (nat -> gterm) -> (string -> gterm) -> Prop.
Definition leads (L : nat) (S S' : eqset) : Prop :=
  (forall rho v, S' rho v -> S rho v) /\
  (forall rho v, S rho v -> exists rho', (forall a, a < L -> rho' a = rho a) /\ S' rho' v).
Lemma leads_refl L S : leads L S S.
Proof. split; [auto|]. intros rho v H. exists rho. auto. Qed.
Lemma leads_trans L L' S1 S2 S3 : L <= L' -> leads L S1 S2 -> leads L' S2 S3 -> leads L S1 S3.
Proof.
  intros HL [B1 F1] [B2 F2]. split; [auto|]. intros rho v H. destruct (F1 _ _ H) as (r1 & A1 & H1).
  destruct (F2 _ _ H1) as (r2 & A2 & H2). exists r2. split; [|assumption]. intros a Ha. rewrite A2 by lia. auto.
Qed.
Lemma leads_same L S S' : (forall rho v, S' rho v <-> S rho v) -> leads L S S'.
Proof. intros H. split; [intros rho v K; now apply H|]. intros rho v K. exists rho. split; [auto|now apply H]. Qed.
Definition unsolvable (S : eqset) : Prop := forall rho v, ~ S rho v.

Section Run.
Variable cf : cfg.
Variable sto : storage.
Hypothesis ok : sto_ok sto.
Variable fuel : nat.
Variable perm : string -> option nat.
Hypothesis perm_inj : forall s t y, perm s = Some y -> perm t = Some y -> s = t.
Variable nr : nat.

Notation hp m := (m_heap (H := list cell) m).
Notation run := (run_local cf sto fuel).
Notation sat := (sat sto).
Notation len := (@List.length cell).

(** The equations at some point: heap, variables, terms still to be matched, arguments of the current structure. *)
Definition Eqs (h : list cell) (V : string -> option nat) (T : list (nat * node)) (TA : list nat)
  (base : nat) (ns : list node) : eqset :=
  fun rho v => sat rho h /\ cons_on rho V v /\ Forall2 (fun xn a => rho a = inst v (snd xn)) T TA /\
               forall j n, nth_error ns j = Some n -> rho (base + j) = inst v n.

Record hinv (p : nat) (st : gst) (m : mstate) (V : string -> option nat) (TA : list nat) : Prop := {
  hi_wf : wfh sto p (hp m);
  hi_dom : forall s, In s (g_D st) <-> V s <> None;
  hi_lt : forall s a, V s = Some a -> a < len (hp m);
  hi_F : forall x n, nassoc x (g_F st) = Some n -> exists s c a, n = NVar s /\ nth_error (m_regs m) x = Some c /\
           addr_of c = Some a /\ V s = Some a;
  hi_T : Forall2 (fun xn a => exists c, nth_error (m_regs m) (fst xn) = Some c /\ addr_of c = Some a /\
                                        a < len (hp m)) (g_T st) TA;
  hi_seen : forall s y, perm s = Some y -> seen_in (SY y) (g_seen st) = true <-> In s (g_D st);
  hi_env : forall s y, perm s = Some y -> exists e es, m_envs m = e :: es /\ y < List.length e /\
             forall a, V s = Some a -> exists c, nth_error e y = Some c /\ addr_of c = Some a;
  hi_regs : List.length (m_regs m) = nr
}.

Definition hframe (m m' : mstate) : Prop :=
  List.length (m_regs m') = List.length (m_regs m) /\ len (hp m) <= len (hp m') /\
  match m_envs m with
  | [] => m_envs m' = []
  | e :: es => exists e', m_envs m' = e' :: es /\ List.length e' = List.length e
  end /\
  ((forall s, perm s = None) -> m_envs m' = m_envs m).
Lemma hframe_refl m : hframe m m.
Proof. unfold hframe. destruct (m_envs m); csplit; auto. eauto. Qed.
Lemma hframe_trans m1 m2 m3 : hframe m1 m2 -> hframe m2 m3 -> hframe m1 m3.
Proof.
  intros (A3 & A4 & A5 & A6) (B3 & B4 & B5 & B6). unfold hframe. csplit; try congruence; try lia.
  - destruct (m_envs m1) as [|e es].
    + rewrite A5 in B5. assumption.
    + destruct A5 as (e' & A5 & L). rewrite A5 in B5. destruct B5 as (e'' & B5 & L'). exists e''. split; congruence.
  - intros N. rewrite B6, A6; auto.
Qed.

(** Outcome of matching code: never undefined, never an error; may not terminate (cyclic terms). *)
Definition hres (o : out (istat * mstate)) (good : mstate -> Prop) (bad : Prop) : Prop :=
  match o with
  | Val (Cont, m') => good m'
  | Val (Failing, _) => bad
  | Val (Raise _, _) => False
  | Ub _ => False
  | Fuel => True
  end.
Lemma hres_bind c1 c2 m (good1 good : mstate -> Prop) (bad : Prop) :
  hres (run c1 m) good1 bad -> (forall m1, good1 m1 -> hres (run c2 m1) good bad) -> hres (run (c1 ++ c2) m) good bad.
Proof.
  intros H K. rewrite run_app. destruct (run c1 m) as [[s m1]| |]; cbn in *; auto. destruct s; auto.
Qed.

(** --- pushing a cell and binding an unbound variable to it --- *)
Lemma push_bind h d w c k : wfh sto 0 h -> nth_error h d = Some (CRef d w) -> addr_of c = None ->
  wf_cell sto (len h + 1) k (len h) c ->
  exists h', bind_ref (list cell) fops (h ++ [c]) d (len h) = Val h' /\ wfh sto k h' /\ len h' = S (len h) /\
    (forall rho, sat rho h' <-> sat rho h /\ cell_sat sto rho (len h) c /\ rho d = rho (len h)).
Proof.
  intros W Hd Ha Hc. pose proof (nth_error_lt _ _ _ Hd) as Ld.
  assert (W1 : wfh sto k (h ++ [c])).
  { apply (wf_block sto 0); [assumption|lia|]. intros [|[|j]] c0 E; cbn in E; try discriminate. injection E as <-.
    rewrite Nat.add_0_r, Ha. split; [exact Hc|exact I]. }
  assert (Hd1 : nth_error (h ++ [c]) d = Some (CRef d w)) by (rewrite nth_error_app1; assumption).
  assert (Hl : nth_error (h ++ [c]) (len h) = Some c) by (rewrite nth_error_app2, Nat.sub_diag by lia; reflexivity).
  destruct (bind_ref_eq (h ++ [c]) d (len h) w Hd1) as (h' & E & U). exists h'. split; [exact E|].
  assert (Hn : next (h ++ [c]) (len h) = None) by (unfold next; rewrite Hl; destruct c; auto; discriminate).
  split; [apply (bind_wfh sto k (h ++ [c]) d (len h) w h'); auto; [lia|rewrite app_length; cbn; lia]|].
  split; [rewrite (upd_length _ _ _ _ U), app_length; cbn; lia|].
  intros rho. rewrite (bind_sat sto rho _ _ _ _ _ Hd1 U). split.
  - intros [S E1]. split; [eapply sat_app; eauto|]. split; [apply S; assumption|assumption].
  - intros (S & Sc & E1). split; [|assumption]. intros a c0 E0.
    destruct (Nat.lt_ge_cases a (len h)) as [L|L].
    + rewrite nth_error_app1 in E0 by assumption. auto.
    + rewrite nth_error_app2 in E0 by assumption. destruct (a - len h) as [|[|j]] eqn:Ej; cbn in E0; try discriminate.
      injection E0 as <-. replace a with (len h) by lia. assumption.
Qed.
(** pushing only *)
Lemma push_wf h p c : wfh sto (S p) h -> wf_cell sto (len h + 1) p (len h) c ->
  match addr_of c with Some b => b <= len h | None => True end -> wfh sto p (h ++ [c]).
Proof.
  intros W Hc Ha. apply (wf_block sto (S p)); [assumption|cbn; lia|].
  intros [|[|j]] c0 E; cbn in E; try discriminate. injection E as <-. rewrite Nat.add_0_r. auto.
Qed.
Lemma push_sat rho h c : sat rho (h ++ [c]) <-> sat rho h /\ cell_sat sto rho (len h) c.
Proof.
  split.
  - intros S. split; [eapply sat_app; eauto|]. apply S. rewrite nth_error_app2, Nat.sub_diag by lia. reflexivity.
  - intros [S Sc] a c0 E0. destruct (Nat.lt_ge_cases a (len h)) as [L|L].
    + rewrite nth_error_app1 in E0 by assumption. auto.
    + rewrite nth_error_app2 in E0 by assumption. destruct (a - len h) as [|[|j]] eqn:Ej; cbn in E0; try discriminate.
      injection E0 as <-. replace a with (len h) by lia. assumption.
Qed.

(** constant and integer cells *)
Inductive lcell : node -> cell -> Prop :=
| lc_int t : lcell (NInt t) (CInt (lit_val t))
| lc_con t i : cidx sto (FV t 0) i -> lcell (NCon t) (CCons i).
Lemma lcell_sat n c rho v a : lcell n c -> (cell_sat sto rho a c <-> rho a = inst v n).
Proof. intros [t|t i Hi]; cbn; [tauto|]. now rewrite (fn_cidx _ _ _ Hi). Qed.
Lemma lcell_wf n c l p a : lcell n c -> wf_cell sto l p a c /\ addr_of c = None.
Proof. intros [t|t i Hi]; cbn; auto. split; [|reflexivity]. exists t. exact Hi. Qed.
(** a root that is not that cell has another value *)
Lemma lcell_differ n c c0 rho v d l : lcell n c -> wf_cell sto l 0 d c0 -> cell_sat sto rho d c0 ->
  addr_of c0 = None -> rho d = inst v n -> cell_eqb c0 c = true.
Proof.
  intros Hl W S A E. destruct Hl as [t|t i Hi]; cbn in E; destruct c0; try discriminate; cbn in S |- *; rewrite E in S; try discriminate.
  - injection S as <-. apply Z.eqb_refl.
  - injection S as S. destruct W as [s W]. apply Z.eqb_eq.
    eapply (fn_inj sto (so_nodup _ ok)); [exact W|exact Hi| |reflexivity]. rewrite (fn_cidx _ _ _ Hi). cbn. congruence.
Qed.
Lemma cell_eqb_eq c d : cell_eqb c d = true -> c = d.
Proof.
  destruct c, d; cbn; try discriminate; intros H; repeat (apply andb_true_iff in H; destruct H as [H ?H]);
    repeat match goal with K : Z.eqb _ _ = true |- _ => apply Z.eqb_eq in K; subst
                      | K : Nat.eqb _ _ = true |- _ => apply Nat.eqb_eq in K; subst end; reflexivity.
Qed.
Lemma scell_differ n c c0 rho v d l : scell sto n c -> (match n with NEv _ k => List.length k = 2 | _ => True end) ->
  wf_cell sto l 0 d c0 -> cell_sat sto rho d c0 -> addr_of c0 = None -> rho d = inst v n -> cell_eqb c0 c = true.
Proof.
  intros Hc H2 W S A E.
  destruct (scell_val sto n c 0 rho Hc (so_arity _ ok) H2) as (_ & Wc & _).
  destruct Hc as [t k i Hi|t k i Hi]; cbn in E; destruct c0; try discriminate; cbn in S |- *; rewrite E in S; try discriminate.
  - injection S as S1 S2. destruct W as (W0 & (s & W1) & W2).
    apply (f_equal (@List.length _)) in S2. rewrite !map_length, seq_length in S2.
    assert (i0 = i).
    { eapply (fn_inj sto (so_nodup _ ok)); [exact W1|exact Hi| |congruence]. rewrite (fn_cidx _ _ _ Hi). cbn. congruence. }
    subst i0. rewrite Z.eqb_refl. cbn. apply Z.eqb_eq. unfold cidx in Hi. rewrite Hi in W1. injection W1 as W1.
    specialize (Wc (S (List.length k)) 0 ltac:(cbn; lia)). cbn in Wc. destruct Wc as (Wp & (s' & Wc) & _).
    rewrite Hi in Wc. injection Wc as _ Wc. lia.
  - injection S as S1 S2. destruct W as (W0 & W1 & W2). apply op_index_name in Hi. destruct Hi as [Hn Hr].
    assert (i0 = i) by (apply opn_inj; congruence). subst. now rewrite Z.eqb_refl.
Qed.

(** --- writing registers --- *)
Lemma T_free x c r (m : mstate) T TA L : upd (m_regs m) x c = Some r -> free x T = true ->
  Forall2 (fun (xn : nat * node) a => exists c, nth_error (m_regs m) (fst xn) = Some c /\ addr_of c = Some a /\ a < L) T TA ->
  Forall2 (fun (xn : nat * node) a => exists c, nth_error r (fst xn) = Some c /\ addr_of c = Some a /\ a < L) T TA.
Proof.
  intros U Fr H. induction H as [|[x0 n0] a T TA (c0 & Hc & Ha & Hl) H IH]; [constructor|].
  cbn [free forallb fst] in Fr. apply andb_true_iff in Fr. destruct Fr as [F1 F2]. apply negb_true_iff, Nat.eqb_neq in F1.
  constructor; [|now apply IH]. exists c0. cbn [fst] in *. csplit; auto. rewrite (upd_nth _ _ _ _ _ U).
  destruct (Nat.eqb_spec x0 x); [congruence|assumption].
Qed.
Lemma T_grow (m : mstate) T TA L L' : L <= L' ->
  Forall2 (fun (xn : nat * node) a => exists c, nth_error (m_regs m) (fst xn) = Some c /\ addr_of c = Some a /\ a < L) T TA ->
  Forall2 (fun (xn : nat * node) a => exists c, nth_error (m_regs m) (fst xn) = Some c /\ addr_of c = Some a /\ a < L') T TA.
Proof. intros HL H. eapply Forall2_impl; [|exact H]. intros [x n] a (c & A & B & C). exists c. csplit; auto. lia. Qed.

(** the heap changes, [m_regs], [m_envs] stay *)
Lemma hinv_heap p p' st m V TA h' md s : hinv p st m V TA -> wfh sto p' h' -> len (hp m) <= len h' ->
  hinv p' st {| m_heap := h'; m_regs := m_regs m; m_mode := md; m_S := s; m_envs := m_envs m |} V TA.
Proof.
  intros [W D L F T S E R] W' Hl. split; cbn [m_heap m_regs m_envs]; auto.
  - intros t a Et. specialize (L t a Et). lia.
  - eapply T_grow; eauto.
Qed.
Lemma hinv_wdel p st m V TA x c r : hinv p st m V TA -> upd (m_regs m) x c = Some r -> free x (g_T st) = true ->
  hinv p {| g_seen := g_seen st; g_F := ndel x (g_F st); g_D := g_D st; g_T := g_T st |} (set_regs m r) V TA.
Proof.
  intros [W D L F T S E R] U Fr. split; cbn [m_heap m_regs m_envs set_regs g_seen g_F g_D g_T]; auto.
  - intros x0 n En. rewrite nassoc_del in En. rewrite (upd_nth _ _ _ _ _ U).
    destruct (Nat.eqb x0 x); [discriminate|auto].
  - eapply T_free; eauto.
  - now rewrite (upd_length _ _ _ _ U).
Qed.
(** a structure to be matched later *)
Lemma hinv_later p st m V TA x c r a n : hinv p st m V TA -> upd (m_regs m) x c = Some r -> free x (g_T st) = true ->
  addr_of c = Some a -> a < len (hp m) ->
  hinv p {| g_seen := SX x :: g_seen st; g_F := ndel x (g_F st); g_D := g_D st; g_T := g_T st ++ [(x, n)] |}
       (set_regs m r) V (TA ++ [a]).
Proof.
  intros [W D L F T S E R] U Fr Ha Hl. split; cbn [m_heap m_regs m_envs set_regs g_seen g_F g_D g_T]; auto.
  - intros x0 n0 En. rewrite nassoc_del in En. rewrite (upd_nth _ _ _ _ _ U).
    destruct (Nat.eqb x0 x); [discriminate|auto].
  - apply Forall2_app; [eapply T_free; eauto|]. constructor; [|constructor]. exists c. cbn [fst].
    rewrite (upd_nth _ _ _ _ _ U), Nat.eqb_refl. auto.
  - now rewrite (upd_length _ _ _ _ U).
Qed.
(** first occurrence of a variable *)
Lemma hinv_newx p st m V TA s x c r a : hinv p st m V TA -> ~ In s (g_D st) -> perm s = None ->
  upd (m_regs m) x c = Some r -> free x (g_T st) = true -> addr_of c = Some a -> a < len (hp m) ->
  hinv p {| g_seen := SX x :: g_seen st; g_F := (x, NVar s) :: g_F st; g_D := s :: g_D st; g_T := g_T st |}
       (set_regs m r) (vput V s a) TA.
Proof.
  intros [W D L F T S E R] Hs Hp U Fr Ha Hl.
  assert (VN : V s = None). { destruct (V s) eqn:EV; [|reflexivity]. exfalso. apply Hs, D. congruence. }
  pose proof (vput_le V s a VN) as LV.
  split; cbn [m_heap m_regs m_envs set_regs g_seen g_F g_D g_T]; auto.
  - intros t. unfold vput. cbn [In]. destruct (String.eqb_spec t s) as [->|Hn]; [intuition discriminate|].
    rewrite D. intuition congruence.
  - intros t b Et. unfold vput in Et. destruct (String.eqb_spec t s) as [->|Hn]; [congruence|eauto].
  - intros x0 n0 En. cbn [nassoc] in En. rewrite (upd_nth _ _ _ _ _ U). destruct (Nat.eqb x0 x).
    + injection En as <-. exists s, c, a. csplit; auto. apply vput_at.
    + destruct (F _ _ En) as (t & c0 & b & -> & A & B & C). exists t, c0, b. csplit; auto.
  - eapply T_free; eauto.
  - intros t y Ey. assert (t <> s) by congruence. cbn [seen_in existsb sreg_eqb orb In].
    fold (seen_in (SY y) (g_seen st)). rewrite (S t y Ey). intuition congruence.
  - intros t y Ey. assert (Hne : t <> s) by congruence. destruct (E t y Ey) as (e & es & A & B & C). exists e, es.
    csplit; auto. intros b Eb. apply C. unfold vput in Eb. destruct (String.eqb_spec t s); [congruence|assumption].
  - now rewrite (upd_length _ _ _ _ U).
Qed.
Lemma hinv_newy p st m V TA s x y c e es e' a : hinv p st m V TA -> ~ In s (g_D st) -> perm s = Some y ->
  m_envs m = e :: es -> upd e y c = Some e' -> addr_of c = Some a -> a < len (hp m) ->
  hinv p {| g_seen := SY y :: SX x :: g_seen st; g_F := g_F st; g_D := s :: g_D st; g_T := g_T st |}
       (set_envs m (e' :: es)) (vput V s a) TA.
Proof.
  intros [W D L F T S E R] Hs Hp Hee U Ha Hl.
  assert (VN : V s = None). { destruct (V s) eqn:EV; [|reflexivity]. exfalso. apply Hs, D. congruence. }
  pose proof (vput_le V s a VN) as LV.
  split; cbn [m_heap m_regs m_envs set_envs g_seen g_F g_D g_T]; auto.
  - intros t. unfold vput. cbn [In]. destruct (String.eqb_spec t s) as [->|Hn]; [intuition discriminate|].
    rewrite D. intuition congruence.
  - intros t b Et. unfold vput in Et. destruct (String.eqb_spec t s) as [->|Hn]; [congruence|eauto].
  - intros x0 n0 En. destruct (F _ _ En) as (t & c0 & b & -> & A & B & C). exists t, c0, b. csplit; auto.
  - intros t y0 Ey. cbn [seen_in existsb sreg_eqb In orb]. fold (seen_in (SY y0) (g_seen st)).
    destruct (Nat.eqb_spec y0 y) as [->|Hn]; cbn [orb].
    + rewrite (perm_inj _ _ _ Ey Hp). tauto.
    + rewrite (S t y0 Ey). assert (t <> s) by congruence. intuition congruence.
  - intros t y0 Ey. exists e', es. destruct (E t y0 Ey) as (e1 & es1 & A & B & C). rewrite Hee in A. injection A as <- <-.
    split; [reflexivity|]. split; [now rewrite (upd_length _ _ _ _ U)|]. intros b Eb.
    rewrite (upd_nth _ _ _ _ _ U). unfold vput in Eb. destruct (Nat.eqb_spec y0 y) as [->|Hn].
    + rewrite (perm_inj _ _ _ Ey Hp), String.eqb_refl in Eb. injection Eb as <-. eauto.
    + destruct (String.eqb_spec t s); [congruence|auto].
Qed.

(** --- the arguments of a structure --- *)
Definition at_pos (m : mstate) (base p : nat) (ns : list node) : Prop :=
  (m_mode m = Some MRead /\ m_S m = base /\ p = 0 /\ base + List.length ns <= len (hp m)) \/
  (m_mode m = Some MWrite /\ base = len (hp m) /\ p = List.length ns).

Lemma Eqs_cons h V T TA base n ns rho v : Eqs h V T TA base (n :: ns) rho v <->
  Eqs h V T TA (S base) ns rho v /\ rho base = inst v n.
Proof.
  unfold Eqs. split.
  - intros (A & B & C & D). split; [split; [assumption|]; split; [assumption|]; split; [assumption|]|].
    + intros j m E. replace (S base + j) with (base + S j) by lia. now apply D.
    + rewrite <- (D 0 n eq_refl). f_equal. lia.
  - intros [(A & B & C & D) E]. csplit; auto. intros [|j] m Em; cbn in Em.
    + injection Em as <-. now rewrite Nat.add_0_r.
    + replace (base + S j) with (S base + j) by lia. now apply D.
Qed.
Lemma Eqs_vput h V s T TA base ns rho v a : V s = None ->
  (Eqs h (vput V s a) T TA base ns rho v <-> Eqs h V T TA base ns rho v /\ rho a = v s).
Proof.
  intros N. assert (K : cons_on rho (vput V s a) v <-> cons_on rho V v /\ rho a = v s).
  { split.
    - intros H. split; [eapply cons_on_mono; [|exact H]; now apply vput_le|]. apply H, vput_at.
    - intros [H E] t b Et. unfold vput in Et. destruct (String.eqb_spec t s) as [->|]; [congruence|auto]. }
  unfold Eqs. rewrite K. tauto.
Qed.
Lemma Forall2_snoc {A B} (R : A -> B -> Prop) l k a b : Forall2 R (l ++ [a]) (k ++ [b]) <-> Forall2 R l k /\ R a b.
Proof.
  split.
  - intros H. apply Forall2_app_inv_l in H. destruct H as (k1 & k2 & H1 & H2 & E).
    inversion H2 as [|? ? ? ? Hab Hn]; subst. inversion Hn; subst.
    apply app_inj_tail in E. destruct E as [-> ->]. auto.
  - intros [H1 H2]. apply Forall2_app; [assumption|]. constructor; [assumption|constructor].
Qed.
Lemma Eqs_later h V T TA base ns rho v x n a :
  Eqs h V (T ++ [(x, n)]) (TA ++ [a]) base ns rho v <-> Eqs h V T TA base ns rho v /\ rho a = inst v n.
Proof. unfold Eqs. rewrite Forall2_snoc. cbn [snd]. tauto. Qed.
Lemma Eqs_heap h h' V T TA base ns rho v : (sat rho h' <-> sat rho h) ->
  (Eqs h' V T TA base ns rho v <-> Eqs h V T TA base ns rho v).
Proof. unfold Eqs. intros ->. tauto. Qed.
Lemma Eqs_pop h V x n T a TA base ns rho v : Eqs h V ((x, n) :: T) (a :: TA) base ns rho v <->
  Eqs h V T TA base ns rho v /\ rho a = inst v n.
Proof.
  unfold Eqs. split.
  - intros (A & B & C & D). inversion C; subst. tauto.
  - intros [(A & B & C & D) E]. csplit; auto.
Qed.
Lemma Eqs_nil h V T TA b b' rho v : Eqs h V T TA b [] rho v <-> Eqs h V T TA b' [] rho v.
Proof. unfold Eqs. split; intros (A & B & C & D); csplit; auto; intros [|j] n E; discriminate. Qed.

(** agreement with a new valuation *)
Lemma T_agree (T : list (nat * node)) TA L (m : mstate) rho rho' v :
  Forall2 (fun (xn : nat * node) a => exists c, nth_error (m_regs m) (fst xn) = Some c /\ addr_of c = Some a /\ a < L) T TA ->
  (forall a, a < L -> rho' a = rho a) ->
  Forall2 (fun xn a => rho a = inst v (snd xn)) T TA -> Forall2 (fun xn a => rho' a = inst v (snd xn)) T TA.
Proof.
  intros H Ha. induction H as [|xn a T TA (c & _ & _ & Hl) H IH]; intros K; inversion K; subst; constructor; auto.
  rewrite Ha; assumption.
Qed.
Lemma V_agree V L rho rho' v : (forall s a, V s = Some a -> a < L) -> (forall a, a < L -> rho' a = rho a) ->
  cons_on rho V v -> cons_on rho' V v.
Proof. intros H Ha K s a E. rewrite Ha; eauto. Qed.

(** an address [a] equated with a constant or integer: the root of [a] is bound to a new cell *)
Lemma leads_leaf st m V TA base ns a d k w n c h' : hinv 0 st m V TA ->
  base + List.length ns <= len (hp m) \/ ns = [] -> a < len (hp m) ->
  derefs (hp m) k a d -> nth_error (hp m) d = Some (CRef d w) -> lcell n c ->
  (forall rho, sat rho h' <-> sat rho (hp m) /\ cell_sat sto rho (len (hp m)) c /\ rho d = rho (len (hp m))) ->
  leads (len (hp m)) (fun rho v => Eqs (hp m) V (g_T st) TA base ns rho v /\ rho a = inst v n)
        (Eqs h' V (g_T st) TA base ns).
Proof.
  intros I Hb Ha Hd Hw Hc Hs. pose proof (nth_error_lt _ _ _ Hw) as Ld. split.
  - intros rho v (S & C & T & N). apply Hs in S. destruct S as (S & Sc & E). split; [unfold Eqs; csplit; auto|].
    rewrite (sat_derefs sto _ _ _ _ _ S Hd), E. now apply (lcell_sat n c).
  - intros rho v [(S & C & T & N) E]. set (rho' := over rho (len (hp m)) [inst v n]). exists rho'.
    assert (R1 : forall b, b < len (hp m) -> rho' b = rho b) by (intros; now apply over_lt).
    assert (R2 : rho' (len (hp m)) = inst v n).
    { unfold rho'. rewrite <- (Nat.add_0_r (len (hp m))) at 2. now apply over_at. }
    split; [assumption|]. split; [|split; [|split]].
    + apply Hs. split; [eapply sat_agree; eauto; exact (hi_wf _ _ _ _ _ I)|]. split; [now apply (lcell_sat n c rho' v)|].
      rewrite R2, R1 by assumption. rewrite <- E. symmetry. eapply sat_derefs; eauto.
    + eapply V_agree; [exact (hi_lt _ _ _ _ _ I)|exact R1|assumption].
    + eapply T_agree; [exact (hi_T _ _ _ _ _ I)|exact R1|assumption].
    + intros j m0 Ej. rewrite R1; [auto|]. destruct Hb as [Hb| ->]; [|destruct j; discriminate].
      pose proof (nth_error_lt _ _ _ Ej). lia.
Qed.

Lemma hinv_forget p st m V TA x : hinv p st m V TA ->
  hinv p {| g_seen := g_seen st; g_F := ndel x (g_F st); g_D := g_D st; g_T := g_T st |} m V TA.
Proof.
  intros [W D L F T S E R]. split; cbn [g_seen g_F g_D g_T]; auto.
  intros x0 n En. rewrite nassoc_del in En. destruct (Nat.eqb x0 x); [discriminate|auto].
Qed.

Definition kid_good (n : node) (ns : list node) (st st' : gst) (m : mstate) V TA base (m' : mstate) : Prop :=
  exists V' TA' p', hinv p' st' m' V' TA' /\ at_pos m' (S base) p' ns /\ hframe m m' /\
    leads (len (hp m)) (Eqs (hp m) V (g_T st) TA base (n :: ns)) (Eqs (hp m') V' (g_T st') TA' (S base) ns).
Definition kid_bad (n : node) (ns : list node) (st : gst) (m : mstate) V TA base : Prop :=
  unsolvable (Eqs (hp m) V (g_T st) TA base (n :: ns)).

Lemma hframe_heap m h' md s : len (hp m) <= len h' ->
  hframe m {| m_heap := h'; m_regs := m_regs m; m_mode := md; m_S := s; m_envs := m_envs m |}.
Proof. intros H. unfold hframe. cbn. destruct (m_envs m); csplit; auto. eauto. Qed.
Lemma hframe_regs m r x c : upd (m_regs m) x c = Some r -> hframe m (set_regs m r).
Proof. intros U. unfold hframe. cbn. rewrite (upd_length _ _ _ _ U). destruct (m_envs m); csplit; auto. eauto. Qed.
Lemma hframe_envs m e es e' y c s : m_envs m = e :: es -> upd e y c = Some e' -> perm s = Some y ->
  hframe m (set_envs m (e' :: es)).
Proof.
  intros E U P. unfold hframe. cbn. rewrite E. csplit; auto.
  - exists e'. split; [reflexivity|]. now rewrite (upd_length _ _ _ _ U).
  - intros N. rewrite N in P. discriminate.
Qed.
Lemma hframe_eq m m1 m2 : hframe m m1 -> m_regs m2 = m_regs m1 -> hp m2 = hp m1 -> m_envs m2 = m_envs m1 -> hframe m m2.
Proof. unfold hframe. intros H -> -> ->. exact H. Qed.
Lemma hinv_eq p st m V TA m' : hinv p st m V TA -> m_regs m' = m_regs m -> hp m' = hp m -> m_envs m' = m_envs m ->
  hinv p st m' V TA.
Proof. intros [W D L F T S E R] E1 E2 E3. split; rewrite ?E1, ?E2, ?E3; auto. Qed.

Lemma leaf_kid n c x ns p st m V TA base : lcell n c -> x < nr -> free x (g_T st) = true ->
  hinv p st m V TA -> at_pos m base p (n :: ns) ->
  hres (run [IUniStruct c x] m)
    (kid_good n ns st {| g_seen := g_seen st; g_F := ndel x (g_F st); g_D := g_D st; g_T := g_T st |} m V TA base)
    (kid_bad n ns st m V TA base).
Proof.
  intros Hc Hx Hf I Hpos. pose proof (hi_regs _ _ _ _ _ I) as HR. destruct (lcell_wf n c 0 0 0 Hc) as [_ Hadr].
  cbn [run_local fstep local_step]. unfold unify_structure.
  destruct Hpos as [(Hm & HS & -> & Hb)|(Hm & Hb & ->)]; rewrite Hm; cbn [List.length] in *.
  - pose proof (hi_wf _ _ _ _ _ I) as W. subst base.
    destruct (wfh_deref sto _ _ (m_S m) W) as (d & -> & Ld & Hn & k & Hd); [lia|]. cbn [bind].
    destruct (root_cases sto _ _ d W Ld Hn) as (c0 & Hc0 & Hr). unfold at_. cbn [h_at fops]. rewrite Hc0. cbn [of_opt bind].
    assert (Hsame : addr_of c0 = None -> hres
       ('(s, m1) <- (if cell_eqb c0 c then Val (Cont, inc_S m) else Val (Failing, inc_S m));;
        match s with Cont => Val (Cont, m1) | _ => Val (s, m1) end)
       (kid_good n ns st {| g_seen := g_seen st; g_F := ndel x (g_F st); g_D := g_D st; g_T := g_T st |} m V TA (m_S m))
       (kid_bad n ns st m V TA (m_S m))).
    { intros A0. destruct (cell_eqb c0 c) eqn:Eq; cbn [bind hres].
      - apply cell_eqb_eq in Eq. subst c0. exists V, TA, 0. csplit.
        + eapply hinv_eq; [apply hinv_forget; exact I| | |]; reflexivity.
        + left. cbn. csplit; auto. lia.
        + eapply hframe_eq; [apply hframe_refl| | |]; reflexivity.
        + apply leads_same. intros rho v. cbn [m_heap inc_S g_T]. rewrite Eqs_cons. split; [|tauto]. intros K. split; [assumption|].
          destruct K as (S & _). rewrite (sat_derefs sto _ _ _ _ _ S Hd). apply (lcell_sat n c rho v d Hc). now apply S.
      - intros rho v K. apply Eqs_cons in K. destruct K as [(S & _) E].
        rewrite (sat_derefs sto _ _ _ _ _ S Hd) in E.
        assert (cell_eqb c0 c = true); [|congruence].
        eapply (lcell_differ n c c0 rho v d); eauto. destruct W as [W _]. exact (W d c0 Hc0). }
    destruct c0 as [i|z|b w|i ar|i ar|b]; cbn [bind]; try (apply Hsame; reflexivity); [|contradiction].
    subst b. unfold push, hsize. cbn [h_push h_size fops m_heap set_heap].
    replace (len (hp m ++ [c]) - 1) with (len (hp m)) by (rewrite app_length; cbn; lia).
    destruct (push_bind (hp m) d w c 0 W Hc0 Hadr) as (h' & -> & W' & L' & S'); [apply (lcell_wf n); assumption|].
    cbn [bind hres]. exists V, TA, 0. csplit.
    + eapply hinv_eq; [apply hinv_forget; eapply (hinv_heap 0 0 st m V TA h' (m_mode m) (m_S m) I W'); lia| | |]; reflexivity.
    + left. cbn. csplit; auto. lia.
    + eapply hframe_eq; [apply (hframe_heap m h' (m_mode m) (m_S m)); lia| | |]; reflexivity.
    + eapply leads_trans; [apply Nat.le_refl| |].
      * apply leads_same. intros rho v. symmetry. apply Eqs_cons.
      * cbn [m_heap set_heap inc_S g_T]. eapply leads_leaf; eauto; [left; lia|lia].
  - unfold push, hsize. cbn [h_push h_size fops m_heap set_heap].
    destruct (wreg_ok (set_heap m (hp m ++ [c])) x (CStr (len (hp m ++ [c]) - 1))) as (r & -> & U); [cbn; lia|].
    cbn [bind hres]. exists V, TA, (List.length ns).
    assert (W' : wfh sto (List.length ns) (hp m ++ [c])).
    { apply push_wf; [exact (hi_wf _ _ _ _ _ I)|now apply (lcell_wf n)|now rewrite Hadr]. }
    pose proof (hinv_heap _ _ _ _ _ _ (hp m ++ [c]) (m_mode m) (m_S m) I W' ltac:(rewrite app_length; lia)) as I1.
    csplit.
    + eapply hinv_eq; [eapply (hinv_wdel _ _ _ _ _ x _ r I1 U Hf)| | |]; reflexivity.
    + right. cbn. csplit; auto. rewrite app_length. cbn. lia.
    + eapply hframe_eq; [eapply hframe_trans; [apply (hframe_heap m (hp m ++ [c]) (m_mode m) (m_S m)); rewrite app_length; lia|
        eapply hframe_regs; exact U]| | |]; reflexivity.
    + apply leads_same. intros rho v. cbn [m_heap set_heap set_regs inc_S g_T]. rewrite Eqs_cons. unfold Eqs.
      rewrite push_sat, (lcell_sat n c rho v _ Hc), <- Hb. tauto.
Qed.

(** a later occurrence of a variable, whose register or slot holds [c0] *)
Lemma value_kid s c0 a ns p st m V TA base : addr_of c0 = Some a -> V s = Some a ->
  hinv p st m V TA -> at_pos m base p (NVar s :: ns) ->
  hres (unify_value (list cell) fops fuel m c0)
    (kid_good (NVar s) ns st st m V TA base) (kid_bad (NVar s) ns st m V TA base).
Proof.
  intros Ha Hv I Hpos. pose proof (hi_regs _ _ _ _ _ I) as HR. pose proof (hi_wf _ _ _ _ _ I) as W.
  pose proof (hi_lt _ _ _ _ _ I _ _ Hv) as La. unfold unify_value. apply addr_of_get in Ha.
  destruct Hpos as [(Hm & HS & -> & Hb)|(Hm & Hb & ->)]; rewrite Hm, Ha; cbn [bind List.length] in *.
  - subst base. unfold unify_m, unify.
    pose proof (unify_loop_spec sto (so_nodup _ ok) fuel (hp m) [a; m_S m] W) as US.
    assert (Hpdl : pdl_ok (hp m) [a; m_S m]).
    { split; [exact Logic.I|]. intros b [<-|[<-|[]]]; lia. }
    specialize (US Hpdl). destruct (unify_loop _ _ fuel (hp m) [a; m_S m]) as [[okb h']| |]; cbn [bind]; [|contradiction|exact Logic.I].
    destruct US as (W' & [Ls _] & US). destruct okb; cbn [hres].
    + exists V, TA, 0. csplit.
      * eapply hinv_eq; [eapply (hinv_heap 0 0 st m V TA h' (m_mode m) (m_S m) I W'); lia| | |]; reflexivity.
      * left. cbn. csplit; auto. lia.
      * eapply hframe_eq; [apply (hframe_heap m h' (m_mode m) (m_S m)); lia| | |]; reflexivity.
      * apply leads_same. intros rho v. cbn [m_heap set_heap inc_S]. rewrite Eqs_cons. unfold Eqs. rewrite US. cbn [eqs inst].
        split.
        -- intros ((S & E & _) & C & T & N). csplit; auto. rewrite <- E. now apply C.
        -- intros ((S & C & T & N) & E). csplit; auto. rewrite E. now apply C.
    + intros rho v K. apply Eqs_cons in K. destruct K as [(S & C & T & N) E]. apply (US rho S). cbn [eqs inst] in *.
      split; [|exact Logic.I]. rewrite E. now apply C.
  - destruct (wfh_deref sto _ _ a W La) as (d & -> & Ld & Hn & k & Hd). cbn [bind].
    destruct (root_cases sto _ _ d W Ld Hn) as (r & Hr & Hrr). unfold at_. cbn [h_at fops]. rewrite Hr. cbn [of_opt bind].
    assert (G : forall c, (forall rho, sat rho (hp m) -> (cell_sat sto rho base c <-> rho base = rho d)) ->
       wf_cell sto (len (hp m) + 1) (List.length ns) (len (hp m)) c ->
       match addr_of c with Some b => b <= len (hp m) | None => True end ->
       hres (Val (Cont, inc_S (push (list cell) fops m c)))
         (kid_good (NVar s) ns st st m V TA base) (kid_bad (NVar s) ns st m V TA base)).
    { intros c Hc Hwc Hac. unfold push. cbn [h_push fops hres]. exists V, TA, (List.length ns).
      assert (W' : wfh sto (List.length ns) (hp m ++ [c])) by (apply push_wf; assumption).
      csplit.
      + eapply hinv_eq; [eapply (hinv_heap _ _ st m V TA (hp m ++ [c]) (m_mode m) (m_S m) I W'); rewrite app_length; lia| | |]; reflexivity.
      + right. cbn. csplit; auto. rewrite app_length. cbn. lia.
      + eapply hframe_eq; [apply (hframe_heap m (hp m ++ [c]) (m_mode m) (m_S m)); rewrite app_length; lia| | |]; reflexivity.
      + apply leads_same. intros rho v. cbn [m_heap set_heap inc_S]. rewrite Eqs_cons. unfold Eqs.
        rewrite push_sat, <- Hb. cbn [inst].
        split.
        * intros ((S & E) & C & T & N). csplit; auto. apply (Hc rho S) in E.
          rewrite E, <- (sat_derefs sto _ _ _ _ _ S Hd). now apply C.
        * intros ((S & C & T & N) & E). csplit; auto. apply (Hc rho S).
          rewrite E, <- (sat_derefs sto _ _ _ _ _ S Hd). symmetry. now apply C. }
    destruct W as [W _]. pose proof (W d r Hr) as Wr.
    destruct r as [i|z|b w|i ar|i ar|b]; [| | | | |contradiction]; apply G; cbn; auto; try lia.
    + intros rho S. pose proof (S d _ Hr) as K. cbn in K. rewrite K. tauto.
    + intros rho S. pose proof (S d _ Hr) as K. cbn in K. rewrite K. tauto.
    + intros rho S. subst b. tauto.
    + intros rho S. tauto.
    + intros rho S. tauto.
Qed.

(** a register is given the current argument: first occurrence of a variable, or a structure *)
Lemma variable_kid (wr : mstate -> nat -> cell -> out mstate) x v n ns p st st' m V V' TA TA' base :
  hinv p st m V TA -> at_pos m base p (n :: ns) ->
  (forall c h', len (hp m) <= len h' -> base < len h' ->
      (c = CStr base \/ c = CRef base v) -> wfh sto (match m_mode m with Some MWrite => List.length ns | _ => 0 end) h' ->
      exists m2, wr (set_heap m h') x c = Val m2 /\ hp m2 = h' /\ m_mode m2 = m_mode m /\ m_S m2 = m_S m /\
        hframe (set_heap m h') m2 /\
        hinv (match m_mode m with Some MWrite => List.length ns | _ => 0 end) st' m2 V' TA') ->
  (forall h rho w, Eqs h V' (g_T st') TA' (S base) ns rho w <->
      Eqs h V (g_T st) TA (S base) ns rho w /\ rho base = inst w n) ->
  hres (unify_variable (list cell) fops wr m x v)
    (kid_good n ns st st' m V TA base) (kid_bad n ns st m V TA base).
Proof.
  intros I Hpos Hwr Heq. pose proof (hi_wf _ _ _ _ _ I) as W. unfold unify_variable.
  destruct Hpos as [(Hm & HS & -> & Hb)|(Hm & Hb & ->)]; rewrite Hm in *; cbn [bind List.length] in *.
  - destruct (Hwr (CStr (m_S m)) (hp m)) as (m2 & E2 & H2 & M2 & S2 & F2 & I2);
      [lia|lia|left; congruence|assumption|].
    assert (Em : set_heap m (hp m) = m) by (destruct m; reflexivity). rewrite Em in *. rewrite E2. cbn [bind hres].
    exists V', TA', 0. csplit.
    + eapply hinv_eq; [exact I2| | |]; reflexivity.
    + left. cbn. rewrite H2. csplit; auto; try congruence; lia.
    + eapply hframe_eq; [exact F2| | |]; reflexivity.
    + apply leads_same. intros rho w. cbn [m_heap inc_S]. rewrite H2, Heq. symmetry. apply Eqs_cons.
  - unfold push_ref, push, hsize. cbn [h_push h_size fops].
    assert (Wc : wf_cell sto (len (hp m) + 1) (List.length ns) (len (hp m)) (CRef (len (hp m)) v)) by (cbn; lia).
    destruct (Hwr (CRef (len (hp m)) v) (hp m ++ [CRef (len (hp m)) v])) as (m2 & E2 & H2 & M2 & S2 & F2 & I2);
      [rewrite app_length; lia|rewrite app_length; cbn; lia|right; congruence|
       apply push_wf; [assumption|assumption|cbn; lia]|].
    rewrite E2. cbn [bind hres]. exists V', TA', (List.length ns). csplit.
    + eapply hinv_eq; [exact I2| | |]; reflexivity.
    + right. cbn. rewrite H2, app_length. cbn. csplit; auto; try congruence; lia.
    + eapply hframe_eq; [eapply hframe_trans; [apply (hframe_heap m (hp m ++ [CRef (len (hp m)) v]) (m_mode m) (m_S m)); rewrite app_length; lia|
        exact F2]| | |]; reflexivity.
    + apply leads_same. intros rho w. cbn [m_heap inc_S]. rewrite H2, Heq, Eqs_cons.
      assert (Q : sat rho (hp m ++ [CRef (len (hp m)) v]) <-> sat rho (hp m)) by (rewrite push_sat; cbn; tauto).
      rewrite (Eqs_heap _ _ V (g_T st) TA (S base) ns rho w Q). tauto.
Qed.

Lemma hres_one i m good bad : hres (fstep cf sto fuel i m) good bad -> hres (run [i] m) good bad.
Proof. cbn [run_local]. destruct (fstep cf sto fuel i m) as [[s m1]| |]; cbn; auto. destruct s; auto. Qed.

Lemma hkid_run k ns p st st' m V TA base c seen' : hkid sto perm k (g_seen st) c seen' ->
  chk_hkid perm nr k st = Some st' -> hinv p st m V TA -> at_pos m base p (fst k :: ns) ->
  g_seen st' = seen' /\
  hres (run c m) (kid_good (fst k) ns st st' m V TA base) (kid_bad (fst k) ns st m V TA base).
Proof.
  intros Q C I Hpos. pose proof (hi_regs _ _ _ _ _ I) as HR. remember (g_seen st) as sn eqn:Esn in Q.
  destruct Q as [t x seen|t x seen i Hi|t x y seen Hp Hs|t x y seen v Hp Hs Hv|n x seen Hx Hs|n x seen v Hx Hs Hv];
    subst seen; cbn [chk_hkid fst] in *.
  - destruct (Nat.ltb_spec x nr) as [Hlt|]; [|discriminate]. destruct (free x (g_T st)) eqn:Ef; [|discriminate].
    injection C as <-. split; [reflexivity|]. eapply leaf_kid; eauto. constructor.
  - destruct (Nat.ltb_spec x nr) as [Hlt|]; [|discriminate]. destruct (free x (g_T st)) eqn:Ef; [|discriminate].
    injection C as <-. split; [reflexivity|]. eapply leaf_kid; eauto. now constructor.
  - unfold chk_var in C. rewrite Hs, Hp in C. destruct (smem t (g_D st)) eqn:Em; [|discriminate]. injection C as <-.
    apply smem_in in Em. split; [reflexivity|].
    destruct (hi_env _ _ _ _ _ I t y Hp) as (e & es & A & B & K).
    destruct (V t) as [a|] eqn:Va; [|now apply (hi_dom _ _ _ _ _ I) in Em].
    destruct (K a eq_refl) as (c0 & Ec & Ea).
    apply hres_one. cbn [fstep local_step]. unfold fstep. cbn [local_step]. rewrite (rperm_ok _ _ _ _ _ A Ec). cbn [bind].
    eapply value_kid; eauto.
  - unfold chk_var in C. rewrite Hs, Hp in C. destruct (smem t (g_D st)) eqn:Em; [discriminate|]. injection C as <-.
    assert (Hn : ~ In t (g_D st)) by (rewrite <- smem_in; congruence).
    assert (VN : V t = None). { destruct (V t) eqn:EV; [|reflexivity]. exfalso. apply Hn, (hi_dom _ _ _ _ _ I). congruence. }
    split; [reflexivity|]. apply hres_one. unfold fstep. cbn [local_step].
    eapply (variable_kid _ y v (NVar t) ns p st _ m V (vput V t base) TA TA base I Hpos).
    + intros c h' L1 L2 Hc W'. pose proof (hinv_heap _ _ _ _ _ _ h' (m_mode m) (m_S m) I W' L1) as I1.
      destruct (hi_env _ _ _ _ _ I t y Hp) as (e & es & A & B & _).
      destruct (wperm_ok (set_heap m h') y c e es A B) as (e' & E' & U). eexists. split; [exact E'|]. csplit; auto.
      * eapply (hframe_envs (set_heap m h') e es e' y c t); eauto.
      * eapply (hinv_newy _ _ (set_heap m h') _ _ t x y c e es e' base); eauto.
        destruct Hc as [->| ->]; reflexivity.
    + intros h rho w. cbn [g_T inst]. now apply Eqs_vput.
  - assert (K : exists t, n = NVar t /\ perm t = None /\ nassoc x (g_F st) = Some (NVar t) /\ st' = st).
    { destruct n as [t| | |t l|t l]; cbn [xnode] in Hx; try contradiction.
      - unfold chk_var in C. rewrite Hs, Hx in C. destruct (known (g_F st) x (NVar t)) eqn:Ek; [|discriminate].
        apply known_eq in Ek. injection C as <-. eauto.
      - rewrite Hs in C. discriminate.
      - rewrite Hs in C. discriminate. }
    destruct K as (t & -> & Hp & Ek & ->). split; [reflexivity|].
    destruct (hi_F _ _ _ _ _ I _ _ Ek) as (t' & c0 & a & Et & Ec & Ea & Va). injection Et as <-.
    apply hres_one. unfold fstep. cbn [local_step]. rewrite (rreg_ok _ _ _ Ec). cbn [bind].
    eapply value_kid; eauto.
  - destruct n as [t| | |t l|t l]; cbn [xnode] in Hx; try contradiction.
    + unfold chk_var in C. rewrite Hs in C. destruct (smem t (g_D st)) eqn:Em; [discriminate|]. rewrite Hx in C.
      destruct (Nat.ltb_spec x nr) as [Hlt|]; [|discriminate]. destruct (free x (g_T st)) eqn:Ef; [|discriminate].
      injection C as <-.
      assert (Hn : ~ In t (g_D st)) by (rewrite <- smem_in; congruence).
      assert (VN : V t = None). { destruct (V t) eqn:EV; [|reflexivity]. exfalso. apply Hn, (hi_dom _ _ _ _ _ I). congruence. }
      split; [reflexivity|]. apply hres_one. unfold fstep. cbn [local_step].
      eapply (variable_kid _ x v (NVar t) ns p st _ m V (vput V t base) TA TA base I Hpos).
      * intros c h' L1 L2 Hc W'. pose proof (hinv_heap _ _ _ _ _ _ h' (m_mode m) (m_S m) I W' L1) as I1.
        destruct (wreg_ok (set_heap m h') x c) as (r & E' & U); [cbn; lia|]. eexists. split; [exact E'|]. csplit; auto.
        -- eapply hframe_regs. exact U.
        -- eapply (hinv_newx _ _ (set_heap m h') _ _ t x c r base); eauto. destruct Hc as [->| ->]; reflexivity.
      * intros h rho w. cbn [g_T inst]. now apply Eqs_vput.
    + rewrite Hs in C. cbn [negb andb] in C.
      destruct (Nat.ltb_spec x nr) as [Hlt|]; [|discriminate]. destruct (free x (g_T st)) eqn:Ef; [|discriminate].
      injection C as <-. split; [reflexivity|]. apply hres_one. unfold fstep. cbn [local_step].
      eapply (variable_kid _ x v (NFun t l) ns p st _ m V V TA (TA ++ [base]) base I Hpos).
      * intros c h' L1 L2 Hc W'. pose proof (hinv_heap _ _ _ _ _ _ h' (m_mode m) (m_S m) I W' L1) as I1.
        destruct (wreg_ok (set_heap m h') x c) as (r & E' & U); [cbn; lia|]. eexists. split; [exact E'|]. csplit; auto.
        -- eapply hframe_regs. exact U.
        -- eapply (hinv_later _ _ (set_heap m h') _ _ x c r base); eauto. destruct Hc as [->| ->]; reflexivity.
      * intros h rho w. cbn [g_T]. apply Eqs_later.
    + rewrite Hs in C. cbn [negb andb] in C.
      destruct (Nat.ltb_spec x nr) as [Hlt|]; [|discriminate]. destruct (free x (g_T st)) eqn:Ef; [|discriminate].
      injection C as <-. split; [reflexivity|]. apply hres_one. unfold fstep. cbn [local_step].
      eapply (variable_kid _ x v (NEv t l) ns p st _ m V V TA (TA ++ [base]) base I Hpos).
      * intros c h' L1 L2 Hc W'. pose proof (hinv_heap _ _ _ _ _ _ h' (m_mode m) (m_S m) I W' L1) as I1.
        destruct (wreg_ok (set_heap m h') x c) as (r & E' & U); [cbn; lia|]. eexists. split; [exact E'|]. csplit; auto.
        -- eapply hframe_regs. exact U.
        -- eapply (hinv_later _ _ (set_heap m h') _ _ x c r base); eauto. destruct Hc as [->| ->]; reflexivity.
      * intros h rho w. cbn [g_T]. apply Eqs_later.
Qed.

Lemma unsolvable_leads L S S' : leads L S S' -> unsolvable S' -> unsolvable S.
Proof. intros [_ F] U rho v H. destruct (F rho v H) as (r & _ & H'). exact (U _ _ H'). Qed.
Lemma hres_impl o (g g' : mstate -> Prop) (b b' : Prop) : hres o g b -> (forall m, g m -> g' m) -> (b -> b') -> hres o g' b'.
Proof. unfold hres. destruct o as [[s m]| |]; auto. destruct s; auto. Qed.

Lemma chk_hkids_seen ks : forall st st' c seen', hkids sto perm ks (g_seen st) c seen' ->
  chk_hkids perm nr ks st = Some st' -> g_seen st' = seen'.
Proof.
  induction ks as [|k0 ks0 IHk]; intros st1 st' c2 seen' H C; inversion H; subst; cbn in C.
  * injection C as <-. reflexivity.
  * destruct (chk_hkid perm nr k0 st1) as [st2|] eqn:C2; [|discriminate].
    assert (g_seen st2 = s1); [|subst; eapply IHk; eauto].
    clear - H2 C2. remember (g_seen st1) as sn eqn:Esn in H2.
    destruct H2; subst; cbn [chk_hkid] in C2; unfold chk_var in C2.
    - destruct (_ && _)%bool; [|discriminate]. injection C2 as <-. reflexivity.
    - destruct (_ && _)%bool; [|discriminate]. injection C2 as <-. reflexivity.
    - rewrite H0, H in C2. destruct (smem _ _); [|discriminate]. injection C2 as <-. reflexivity.
    - rewrite H0, H in C2. destruct (smem _ _); [discriminate|]. injection C2 as <-. reflexivity.
    - destruct n; cbn [xnode] in H; try contradiction; rewrite H0 in C2; try discriminate.
           rewrite H in C2. destruct (known _ _ _); [|discriminate]. injection C2 as <-. reflexivity.
    - destruct n; cbn [xnode] in H; try contradiction; rewrite H0 in C2; cbn [negb andb] in C2.
      + destruct (smem _ _); [discriminate|]. rewrite H in C2. destruct (_ && _)%bool; [|discriminate].
              injection C2 as <-. reflexivity.
      + destruct (_ && _)%bool; [|discriminate]. injection C2 as <-. reflexivity.
      + destruct (_ && _)%bool; [|discriminate]. injection C2 as <-. reflexivity.
Qed.

Definition kids_good (ns : list node) (st st' : gst) (m : mstate) V TA base (m' : mstate) : Prop :=
  exists V' TA', hinv 0 st' m' V' TA' /\ hframe m m' /\
    leads (len (hp m)) (Eqs (hp m) V (g_T st) TA base ns) (Eqs (hp m') V' (g_T st') TA' 0 []).

Lemma hkids_run ks : forall p st st' m V TA base c seen', hkids sto perm ks (g_seen st) c seen' ->
  chk_hkids perm nr ks st = Some st' -> hinv p st m V TA -> at_pos m base p (map fst ks) ->
  g_seen st' = seen' /\
  hres (run c m) (kids_good (map fst ks) st st' m V TA base)
       (unsolvable (Eqs (hp m) V (g_T st) TA base (map fst ks))).
Proof.
  induction ks as [|k ks IH]; intros p st st' m V TA base c seen' Q C I Hpos; inversion Q; subst.
  - cbn in C. injection C as <-. split; [reflexivity|]. cbn [run_local hres map]. exists V, TA. csplit.
    + destruct Hpos as [(_ & _ & -> & _)|(_ & _ & E)]; [assumption|]. cbn in E. subst p. assumption.
    + apply hframe_refl.
    + apply leads_same. intros rho v. apply Eqs_nil.
  - cbn [chk_hkids] in C. destruct (chk_hkid perm nr k st) as [st1|] eqn:C1; [|discriminate].
    destruct (hkid_run k (map fst ks) p st st1 m V TA base c1 s1) as [S1 R1]; auto. subst s1.
    assert (G : forall m1, kid_good (fst k) (map fst ks) st st1 m V TA base m1 ->
        g_seen st' = seen' /\ hres (run c2 m1) (kids_good (map fst (k :: ks)) st st' m V TA base)
             (unsolvable (Eqs (hp m) V (g_T st) TA base (map fst (k :: ks))))).
    { intros m1 (V1 & TA1 & p1 & I1 & P1 & F1 & L1).
      destruct (IH p1 st1 st' m1 V1 TA1 (S base) c2 seen') as [S2 R2]; auto. split; [exact S2|].
      eapply hres_impl; [exact R2| |].
      - intros m2 (V2 & TA2 & I2 & F2 & L2). exists V2, TA2. csplit; auto.
        + eapply hframe_trans; eauto.
        + eapply leads_trans; [|exact L1|exact L2]. destruct F1 as (_ & F1 & _). exact F1.
      - intros U. eapply unsolvable_leads; eauto. }
    split; [exact (chk_hkids_seen ks st1 st' c2 seen' H5 C)|].
    eapply hres_bind; [exact R1|]. intros m1 G1. exact (proj2 (G m1 G1)).
Qed.

Lemma seq_nth_eq (rho : nat -> gterm) v ns : forall b,
  map rho (seq b (List.length ns)) = map (inst v) ns <-> (forall j n, nth_error ns j = Some n -> rho (b + j) = inst v n).
Proof.
  induction ns as [|n ns IH]; intros b; cbn [List.length seq map].
  - split; [|reflexivity]. intros _ [|j] n E; discriminate.
  - split.
    + intros E. injection E as E1 E2. pose proof (proj1 (IH (S b)) E2) as E3. intros [|j] m Em; cbn in Em.
      * injection Em as <-. now rewrite Nat.add_0_r.
      * rewrite <- (E3 _ _ Em). f_equal. lia.
    + intros K. f_equal.
      * rewrite <- (K 0 n eq_refl). f_equal. lia.
      * apply (proj2 (IH (S b))). intros j m Em. rewrite <- (K (S j) m Em). f_equal. lia.
Qed.
Lemma scell_kids n c a rho v : scell sto n c -> (match n with NEv _ k => List.length k = 2 | _ => True end) ->
  cell_sat sto rho a c ->
  (rho a = inst v n <-> (forall j m, nth_error (kids n) j = Some m -> rho (S a + j) = inst v m)).
Proof.
  intros Hc H2 S. destruct (scell_val sto n c a rho Hc (so_arity _ ok) H2) as (E & _ & _). apply E in S.
  rewrite <- seq_nth_eq. destruct Hc; cbn [inst kids] in *; rewrite S; split; intros K; try congruence.
Qed.

Lemma hinv_mode p st m V TA md s : hinv p st m V TA -> hinv p st (set_mode m md s) V TA.
Proof. intros I. eapply hinv_eq; [exact I| | |]; reflexivity. Qed.

Lemma hinv_pop p x n T st m V TA0 : g_T st = (x, n) :: T -> hinv p st m V TA0 ->
  exists c a TA, TA0 = a :: TA /\ nth_error (m_regs m) x = Some c /\ addr_of c = Some a /\ a < len (hp m) /\
  hinv p {| g_seen := g_seen st; g_F := g_F st; g_D := g_D st; g_T := T |} m V TA.
Proof.
  intros ET [W D L F HT S E R]. rewrite ET in HT. inversion HT as [|? a ? TA (c & A & B & C) HT' E1 E2]; subst. exists c, a, TA.
  csplit; auto. split; cbn [g_seen g_F g_D g_T]; auto.
Qed.

(** IGetStruct with the cell of a structure *)
Lemma get_str n c x st m V TA a c0 : scell sto n c -> (match n with NEv _ k => List.length k = 2 | _ => True end) ->
  hinv 0 st m V TA -> nth_error (m_regs m) x = Some c0 -> addr_of c0 = Some a -> a < len (hp m) ->
  hres (run [IGetStruct c x] m)
    (fun m' => exists base p, hinv p st m' V TA /\ at_pos m' base p (kids n) /\ hframe m m' /\
       leads (len (hp m)) (fun rho v => Eqs (hp m) V (g_T st) TA 0 [] rho v /\ rho a = inst v n)
         (Eqs (hp m') V (g_T st) TA base (kids n)))
    (unsolvable (fun rho v => Eqs (hp m) V (g_T st) TA 0 [] rho v /\ rho a = inst v n)).
Proof.
  intros Hc H2 I Hx Ha La. apply hres_one. unfold fstep. cbn [local_step]. unfold get_structure.
  rewrite (rreg_ok _ _ _ Hx). cbn [bind]. rewrite (proj1 (addr_of_get _ _) Ha). cbn [bind].
  pose proof (hi_wf _ _ _ _ _ I) as W.
  destruct (wfh_deref sto _ _ a W La) as (d & -> & Ld & Hn & k & Hd). cbn [bind].
  destruct (root_cases sto _ _ d W Ld Hn) as (r & Hr & Hrr). unfold at_. cbn [h_at fops]. rewrite Hr. cbn [of_opt bind].
  assert (Hsame : addr_of r = None -> hres (if cell_eqb r c then Val (Cont, set_mode m MRead (d + 1)) else Val (Failing, m))
    (fun m' => exists base p, hinv p st m' V TA /\ at_pos m' base p (kids n) /\ hframe m m' /\
       leads (len (hp m)) (fun rho v => Eqs (hp m) V (g_T st) TA 0 [] rho v /\ rho a = inst v n)
         (Eqs (hp m') V (g_T st) TA base (kids n)))
    (unsolvable (fun rho v => Eqs (hp m) V (g_T st) TA 0 [] rho v /\ rho a = inst v n))).
  { intros A0. destruct (cell_eqb r c) eqn:Eq; cbn [hres].
    - apply cell_eqb_eq in Eq. subst r. exists (d + 1), 0. csplit.
      + now apply hinv_mode.
      + left. cbn. csplit; auto. destruct W as [W _]. specialize (W d c Hr).
        destruct (scell_val sto n c d (fun _ => GInt 0) Hc (so_arity _ ok) H2) as (_ & _ & _).
        destruct Hc as [t l i Hi|t l i Hi]; cbn [kids] in *; cbn in W.
        * destruct W as (W0 & _ & W2). assert (Hsa : short_arity (FV t (List.length l)) = Z.of_nat (List.length l)).
          { unfold short_arity. cbn [fv_arity]. apply wrap16_small.
            assert (In (FV t (List.length l)) (s_functors sto)) by (unfold cidx, nthZ in Hi; destruct (i <? 0)%Z; [discriminate|]; eapply nth_error_In; eauto).
            pose proof (so_arity _ ok _ H) as K. cbn in K. lia. }
          rewrite Hsa in W2. rewrite Nat2Z.id in W2. lia.
        * destruct W as (_ & W1 & W2). rewrite H2. cbn in W2. lia.
      + eapply hframe_eq; [apply hframe_refl| | |]; reflexivity.
      + apply leads_same. intros rho v. cbn [m_heap set_mode]. unfold Eqs. split.
        * intros (S & C & T & N). csplit; auto; [intros [|j] n0 E; discriminate|].
          rewrite (sat_derefs sto _ _ _ _ _ S Hd). apply (scell_kids n c d rho v Hc H2 (S _ _ Hr)).
          intros j n0 E. replace (Datatypes.S d) with (d + 1) by lia. auto.
        * intros ((S & C & T & N) & E). csplit; auto. intros j n0 Ej.
          rewrite (sat_derefs sto _ _ _ _ _ S Hd) in E. replace (d + 1) with (Datatypes.S d) by lia.
          exact (proj1 (scell_kids n c d rho v Hc H2 (S _ _ Hr)) E j n0 Ej).
    - intros rho v [(S & _) E]. rewrite (sat_derefs sto _ _ _ _ _ S Hd) in E.
      assert (cell_eqb r c = true); [|congruence].
      eapply (scell_differ n c r rho v d); eauto. destruct W as [W _]. exact (W d r Hr). }
  destruct r as [i|z|b w|i ar|i ar|b]; try (apply Hsame; reflexivity); [|contradiction].
  subst b. unfold push, hsize. cbn [h_push h_size fops m_heap set_heap].
  replace (len (hp m ++ [c]) - 1) with (len (hp m)) by (rewrite app_length; cbn; lia).
  destruct (scell_val sto n c (len (hp m)) (fun _ => GInt 0) Hc (so_arity _ ok) H2) as (_ & Wc & Ac).
  destruct (push_bind (hp m) d w c (List.length (kids n)) W Hr Ac) as (h' & -> & W' & L' & S'); [apply Wc; lia|].
  cbn [bind hres]. exists (Datatypes.S (len (hp m))), (List.length (kids n)). csplit.
  - eapply hinv_eq; [eapply (hinv_heap 0 _ st m V TA h' (m_mode m) (m_S m) I W'); lia| | |]; reflexivity.
  - right. cbn. csplit; auto.
  - eapply hframe_eq; [apply (hframe_heap m h' (m_mode m) (m_S m)); lia| | |]; reflexivity.
  - cbn [m_heap set_mode set_heap]. split.
    + intros rho v (S & C & T & N). apply S' in S. destruct S as (S & Sc & E). split.
      * unfold Eqs. csplit; auto. intros [|j] n0 Ej; discriminate.
      * rewrite (sat_derefs sto _ _ _ _ _ S Hd), E. apply (scell_kids n c _ rho v Hc H2 Sc). assumption.
    + intros rho v [(S & C & T & N) E]. set (rho' := over rho (len (hp m)) (inst v n :: map (inst v) (kids n))). exists rho'.
      assert (R1 : forall b, b < len (hp m) -> rho' b = rho b) by (intros; now apply over_lt).
      assert (R2 : rho' (len (hp m)) = inst v n).
      { unfold rho'. rewrite <- (Nat.add_0_r (len (hp m))) at 2. now apply over_at. }
      assert (R3 : forall j n0, nth_error (kids n) j = Some n0 -> rho' (Datatypes.S (len (hp m)) + j) = inst v n0).
      { intros j n0 Ej. unfold rho'. replace (Datatypes.S (len (hp m)) + j) with (len (hp m) + Datatypes.S j) by lia.
        apply over_at. cbn [nth_error]. now apply map_nth_error. }
      split; [assumption|]. unfold Eqs. csplit.
      * apply S'. csplit.
        -- eapply sat_agree; eauto.
        -- apply (scell_val sto n c (len (hp m)) rho' Hc (so_arity _ ok) H2). rewrite R2. apply seq_nth_eq in R3.
           destruct Hc; cbn [inst kids] in *; now rewrite R3.
        -- rewrite R2, R1 by assumption. rewrite <- E. symmetry. eapply sat_derefs; eauto.
      * eapply V_agree; [exact (hi_lt _ _ _ _ _ I)|exact R1|assumption].
      * eapply T_agree; [exact (hi_T _ _ _ _ _ I)|exact R1|assumption].
      * exact R3.
Qed.
(** IGetStruct with a constant or integer *)
Lemma get_leaf n c x st m V TA a c0 : lcell n c ->
  hinv 0 st m V TA -> nth_error (m_regs m) x = Some c0 -> addr_of c0 = Some a -> a < len (hp m) ->
  hres (run [IGetStruct c x] m)
    (fun m' => hinv 0 st m' V TA /\ hframe m m' /\
       leads (len (hp m)) (fun rho v => Eqs (hp m) V (g_T st) TA 0 [] rho v /\ rho a = inst v n)
         (Eqs (hp m') V (g_T st) TA 0 []))
    (unsolvable (fun rho v => Eqs (hp m) V (g_T st) TA 0 [] rho v /\ rho a = inst v n)).
Proof.
  intros Hc I Hx Ha La. apply hres_one. unfold fstep. cbn [local_step]. unfold get_structure.
  rewrite (rreg_ok _ _ _ Hx). cbn [bind]. rewrite (proj1 (addr_of_get _ _) Ha). cbn [bind].
  pose proof (hi_wf _ _ _ _ _ I) as W. destruct (lcell_wf n c 0 0 0 Hc) as [_ Hadr].
  destruct (wfh_deref sto _ _ a W La) as (d & -> & Ld & Hn & k & Hd). cbn [bind].
  destruct (root_cases sto _ _ d W Ld Hn) as (r & Hr & Hrr). unfold at_. cbn [h_at fops]. rewrite Hr. cbn [of_opt bind].
  assert (Hsame : addr_of r = None -> hres (if cell_eqb r c then Val (Cont, set_mode m MRead (d + 1)) else Val (Failing, m))
    (fun m' => hinv 0 st m' V TA /\ hframe m m' /\
       leads (len (hp m)) (fun rho v => Eqs (hp m) V (g_T st) TA 0 [] rho v /\ rho a = inst v n)
         (Eqs (hp m') V (g_T st) TA 0 []))
    (unsolvable (fun rho v => Eqs (hp m) V (g_T st) TA 0 [] rho v /\ rho a = inst v n))).
  { intros A0. destruct (cell_eqb r c) eqn:Eq; cbn [hres].
    - apply cell_eqb_eq in Eq. subst r. csplit.
      + now apply hinv_mode.
      + eapply hframe_eq; [apply hframe_refl| | |]; reflexivity.
      + apply leads_same. intros rho v. cbn [m_heap set_mode]. split; [|tauto].
        intros K. split; [assumption|]. destruct K as (S & _).
        rewrite (sat_derefs sto _ _ _ _ _ S Hd). apply (lcell_sat n c rho v d Hc). now apply S.
    - intros rho v [(S & _) E]. rewrite (sat_derefs sto _ _ _ _ _ S Hd) in E.
      assert (cell_eqb r c = true); [|congruence].
      eapply (lcell_differ n c r rho v d); eauto. destruct W as [W _]. exact (W d r Hr). }
  destruct r as [i|z|b w|i ar|i ar|b]; try (apply Hsame; reflexivity); [|contradiction].
  subst b. unfold push, hsize. cbn [h_push h_size fops m_heap set_heap].
  replace (len (hp m ++ [c]) - 1) with (len (hp m)) by (rewrite app_length; cbn; lia).
  destruct (push_bind (hp m) d w c 0 W Hr Hadr) as (h' & -> & W' & L' & S'); [apply (lcell_wf n); assumption|].
  cbn [bind hres]. csplit.
  - eapply hinv_eq; [eapply (hinv_heap 0 _ st m V TA h' (m_mode m) (m_S m) I W'); lia| | |]; reflexivity.
  - eapply hframe_eq; [apply (hframe_heap m h' (m_mode m) (m_S m)); lia| | |]; reflexivity.
  - cbn [m_heap set_mode set_heap]. eapply leads_leaf; eauto.
Qed.
(** IGetVal, IGetPVal *)
Lemma get_val c d a b st m V TA s : hinv 0 st m V TA -> addr_of c = Some a -> V s = Some a ->
  addr_of d = Some b -> b < len (hp m) ->
  hres (get_value (list cell) fops fuel m c d)
    (fun m' => hinv 0 st m' V TA /\ hframe m m' /\
       leads (len (hp m)) (fun rho v => Eqs (hp m) V (g_T st) TA 0 [] rho v /\ rho b = v s)
         (Eqs (hp m') V (g_T st) TA 0 []))
    (unsolvable (fun rho v => Eqs (hp m) V (g_T st) TA 0 [] rho v /\ rho b = v s)).
Proof.
  intros I Ha Hv Hb Lb. pose proof (hi_wf _ _ _ _ _ I) as W. pose proof (hi_lt _ _ _ _ _ I _ _ Hv) as La.
  unfold get_value. rewrite (proj1 (addr_of_get _ _) Ha), (proj1 (addr_of_get _ _) Hb). cbn [bind]. unfold unify_m, unify.
  pose proof (unify_loop_spec sto (so_nodup _ ok) fuel (hp m) [a; b] W) as US.
  assert (Hpdl : pdl_ok (hp m) [a; b]). { split; [exact Logic.I|]. intros x [<-|[<-|[]]]; assumption. }
  specialize (US Hpdl). destruct (unify_loop _ _ fuel (hp m) [a; b]) as [[okb h']| |]; cbn [bind]; [|contradiction|exact Logic.I].
  destruct US as (W' & [Ls _] & US). destruct okb; cbn [hres].
  - csplit.
    + eapply hinv_eq; [eapply (hinv_heap 0 0 st m V TA h' (m_mode m) (m_S m) I W'); lia| | |]; reflexivity.
    + eapply hframe_eq; [apply (hframe_heap m h' (m_mode m) (m_S m)); lia| | |]; reflexivity.
    + apply leads_same. intros rho v. cbn [m_heap set_heap]. unfold Eqs. rewrite US. cbn [eqs]. split.
      * intros ((S & E & _) & C & T & N). csplit; auto. rewrite <- E. now apply C.
      * intros ((S & C & T & N) & E). csplit; auto. rewrite E. now apply C.
  - intros rho v [(S & C & T & N) E]. apply (US rho S). cbn [eqs]. split; [|exact Logic.I]. rewrite E. now apply C.
Qed.

Definition ent_good (st st' : gst) (m : mstate) V TA (m' : mstate) : Prop :=
  exists V' TA', hinv 0 st' m' V' TA' /\ hframe m m' /\
    leads (len (hp m)) (Eqs (hp m) V (g_T st) TA 0 []) (Eqs (hp m') V' (g_T st') TA' 0 []).

Lemma hent_run e st st' m V TA c seen' : hent sto perm e (g_seen st) c seen' ->
  chk_hent perm nr e st = Some st' -> hinv 0 st m V TA ->
  g_seen st' = seen' /\
  hres (run c m) (ent_good st st' m V TA) (unsolvable (Eqs (hp m) V (g_T st) TA 0 [])).
Proof.
  intros Q C I0. unfold chk_hent in C. destruct (g_T st) as [|[x0 n0] T] eqn:ET; [discriminate|].
  destruct (node_eqb n0 (en_node e)) eqn:En; [|discriminate]. apply node_eqb_eq in En. subst n0.
  destruct (hinv_pop 0 x0 (en_node e) T st m V TA ET I0) as (c0 & a & TA' & -> & Hx & Ha & La & I).
  set (st1 := {| g_seen := g_seen st; g_F := g_F st; g_D := g_D st; g_T := T |}) in *.
  pose proof (hi_regs _ _ _ _ _ I) as HR.
  assert (Pop : leads (len (hp m)) (Eqs (hp m) V ((x0, en_node e) :: T) (a :: TA') 0 [])
                  (fun rho v => Eqs (hp m) V T TA' 0 [] rho v /\ rho a = inst v (en_node e))).
  { apply leads_same. intros rho v. symmetry. apply Eqs_pop. }
  assert (Fin : forall m' V' TA2 st2, hinv 0 st2 m' V' TA2 -> hframe m m' ->
     leads (len (hp m)) (fun rho v => Eqs (hp m) V T TA' 0 [] rho v /\ rho a = inst v (en_node e))
       (Eqs (hp m') V' (g_T st2) TA2 0 []) -> ent_good st st2 m V (a :: TA') m').
  { intros m' V' TA2 st2 I2 F2 L2. exists V', TA2. csplit; auto. rewrite ET.
    eapply leads_trans; [apply Nat.le_refl|exact Pop|exact L2]. }
  assert (Bad : unsolvable (fun rho v => Eqs (hp m) V T TA' 0 [] rho v /\ rho a = inst v (en_node e)) ->
     unsolvable (Eqs (hp m) V ((x0, en_node e) :: T) (a :: TA') 0 [])).
  { intros U. eapply unsolvable_leads; [exact Pop|exact U]. }
  rewrite ?ET in *. remember (g_seen st) as sn eqn:Esn in Q.
  destruct Q as [t x b ks y seen Hp Hs|t x b ks y seen Hp Hs|t x b ks seen Hp Hs|t x b ks seen Hp Hs|t x ks seen
                |t x b ks seen|t x b ks seen i Hi|n x b ks seen cc code s2 Hc Hk]; subst seen; cbn [en_node en_arg en_x en_kids] in *.
  - destruct (Nat.eqb_spec x0 b) as [->|]; [|discriminate]. unfold chk_var in C. cbn [g_seen g_D st1] in C. rewrite Hs, Hp in C.
    destruct (smem t (g_D st)) eqn:Em; [|discriminate]. injection C as <-. apply smem_in in Em. split; [reflexivity|].
    destruct (hi_env _ _ _ _ _ I t y Hp) as (e & es & A & B & K).
    destruct (V t) as [a1|] eqn:Va; [|now apply (hi_dom _ _ _ _ _ I) in Em].
    destruct (K a1 eq_refl) as (c1 & Ec & Ea). apply hres_one. unfold fstep. cbn [local_step].
    rewrite (rperm_ok _ _ _ _ _ A Ec). cbn [bind]. rewrite (rreg_ok _ _ _ Hx). cbn [bind].
    eapply hres_impl; [eapply (get_val c1 c0 a1 a st1 m V TA' t); eauto| |exact Bad].
    intros m' (I2 & F2 & L2). eapply Fin; eauto.
  - destruct (Nat.eqb_spec x0 b) as [->|]; [|discriminate]. unfold chk_var in C. cbn [g_seen g_D g_T g_F st1] in C. rewrite Hs, Hp in C.
    destruct (smem t (g_D st)) eqn:Em; [discriminate|]. injection C as <-. split; [reflexivity|].
    assert (Hn : ~ In t (g_D st1)) by (cbn; rewrite <- smem_in; congruence).
    assert (VN : V t = None). { destruct (V t) eqn:EV; [|reflexivity]. exfalso. apply Hn, (hi_dom _ _ _ _ _ I). congruence. }
    apply hres_one. unfold fstep. cbn [local_step]. rewrite (rreg_ok _ _ _ Hx). cbn [bind].
    destruct (hi_env _ _ _ _ _ I t y Hp) as (e & es & A & B & _).
    destruct (wperm_ok m y c0 e es A B) as (e' & E' & U). rewrite E'. cbn [bind hres]; cbv beta; cbn [bind hres].
    eapply (Fin _ (vput V t a) TA' {| g_seen := SY y :: SX x :: g_seen st; g_F := g_F st; g_D := t :: g_D st; g_T := T |}).
    + eapply (hinv_newy 0 st1 m V TA' t x y c0 e es e' a); eauto.
    + eapply hframe_envs; eauto.
    + apply leads_same. intros rho v. cbn [m_heap set_envs g_T inst]. now apply Eqs_vput.
  - destruct (Nat.eqb_spec x0 b) as [->|]; [|discriminate]. unfold chk_var in C. cbn [g_seen g_D g_F st1] in C. rewrite Hs, Hp in C.
    destruct (known (g_F st) x (NVar t)) eqn:Ek; [|discriminate]. injection C as <-. apply known_eq in Ek. split; [reflexivity|].
    destruct (hi_F _ _ _ _ _ I _ _ Ek) as (t' & c1 & a1 & Et & Ec & Ea & Va). injection Et as <-.
    apply hres_one. unfold fstep. cbn [local_step].
    rewrite (rreg_ok _ _ _ Ec). cbn [bind]. rewrite (rreg_ok _ _ _ Hx). cbn [bind].
    eapply hres_impl; [eapply (get_val c1 c0 a1 a st1 m V TA' t); eauto| |exact Bad].
    intros m' (I2 & F2 & L2). eapply Fin; eauto.
  - destruct (Nat.eqb_spec x0 b) as [->|]; [|discriminate]. unfold chk_var in C. cbn [g_seen g_D g_T g_F st1] in C. rewrite Hs in C.
    destruct (smem t (g_D st)) eqn:Em; [discriminate|]. rewrite Hp in C.
    destruct (Nat.ltb_spec x nr) as [Hlt|]; [|discriminate]. destruct (free x T) eqn:Ef; [|discriminate].
    injection C as <-. split; [reflexivity|].
    assert (Hn : ~ In t (g_D st1)) by (cbn; rewrite <- smem_in; congruence).
    assert (VN : V t = None). { destruct (V t) eqn:EV; [|reflexivity]. exfalso. apply Hn, (hi_dom _ _ _ _ _ I). congruence. }
    apply hres_one. unfold fstep. cbn [local_step]. rewrite (rreg_ok _ _ _ Hx). cbn [bind].
    destruct (wreg_ok m x c0) as (r & E' & U); [lia|]. rewrite E'. cbn [bind hres]; cbv beta; cbn [bind hres].
    eapply (Fin _ (vput V t a) TA' {| g_seen := SX x :: g_seen st; g_F := (x, NVar t) :: g_F st; g_D := t :: g_D st; g_T := T |}).
    + eapply (hinv_newx 0 st1 m V TA' t x c0 r a); eauto.
    + eapply hframe_regs; eauto.
    + apply leads_same. intros rho v. cbn [m_heap set_regs g_T inst]. now apply Eqs_vput.
  - discriminate.
  - destruct (Nat.eqb_spec x0 x) as [->|]; [|discriminate]. injection C as <-. split; [reflexivity|].
    eapply hres_impl; [eapply (get_leaf (NInt t) _ x st1 m V TA' a c0); eauto; constructor| |exact Bad].
    intros m' (I2 & F2 & L2). eapply Fin; eauto.
  - destruct (Nat.eqb_spec x0 x) as [->|]; [|discriminate]. injection C as <-. split; [reflexivity|].
    eapply hres_impl; [eapply (get_leaf (NCon t) _ x st1 m V TA' a c0); eauto; now constructor| |exact Bad].
    intros m' (I2 & F2 & L2). eapply Fin; eauto.
  - assert (K : x0 = x /\ map fst ks = kids n /\ (match n with NEv _ k => List.length k = 2 | _ => True end) /\
        chk_hkids perm nr ks st1 = Some st').
    { destruct Hc as [t k i Hi|t k i Hi]; cbn [str_ok] in C; destruct (Nat.eqb_spec x0 x) as [->|]; try discriminate; cbn [andb] in C.
      - destruct (nodes_eqb (map fst ks) k) eqn:Ek; [|discriminate]. apply nodes_eqb_eq in Ek. csplit; auto.
      - destruct (nodes_eqb (map fst ks) k) eqn:Ek; [|discriminate]. apply nodes_eqb_eq in Ek. cbn [andb] in C.
        destruct (Nat.eqb_spec (List.length k) 2); [|discriminate]. csplit; auto. }
    clear C. destruct K as (-> & Ek & H2 & C).
    assert (G : forall m1, (exists base p, hinv p st1 m1 V TA' /\ at_pos m1 base p (kids n) /\ hframe m m1 /\
       leads (len (hp m)) (fun rho v => Eqs (hp m) V T TA' 0 [] rho v /\ rho a = inst v n)
         (Eqs (hp m1) V T TA' base (kids n))) -> g_seen st' = s2 /\
       hres (run code m1) (ent_good st st' m V (a :: TA')) (unsolvable (Eqs (hp m) V ((x, n) :: T) (a :: TA') 0 []))).
    { intros m1 (base & p & I1 & P1 & F1 & L1). rewrite <- Ek in P1.
      destruct (hkids_run ks p st1 st' m1 V TA' base code s2 Hk C I1 P1) as [S2 R2]. split; [assumption|].
      rewrite <- Ek in L1. eapply hres_impl; [exact R2| |].
      - intros m2 (V2 & TA2 & I2 & F2 & L2). eapply Fin; eauto.
        + eapply hframe_trans; eauto.
        + eapply leads_trans; [|exact L1|exact L2]. destruct F1 as (_ & F1 & _). exact F1.
      - intros U. apply Bad. eapply unsolvable_leads; [exact L1|exact U]. }
    split.
    + exact (chk_hkids_seen ks st1 st' code s2 Hk C).
    + change (IGetStruct cc x :: code) with ([IGetStruct cc x] ++ code). eapply hres_bind.
      * eapply hres_impl; [eapply (get_str n cc x st1 m V TA' a c0); eauto| |exact Bad]. intros m1 K. exact K.
      * intros m1 K. exact (proj2 (G m1 K)).
Qed.

Lemma hents_run es : forall st st' m V TA c seen', hents sto perm es (g_seen st) c seen' ->
  chk_hents perm nr es st = Some st' -> hinv 0 st m V TA ->
  hres (run c m) (fun m' => g_seen st' = seen' /\ ent_good st st' m V TA m')
    (unsolvable (Eqs (hp m) V (g_T st) TA 0 [])).
Proof.
  induction es as [|e es IH]; intros st st' m V TA c seen' Q C I; inversion Q; subst.
  - cbn in C. injection C as <-. cbn [run_local hres]. split; [reflexivity|]. exists V, TA. csplit; auto.
    + apply hframe_refl.
    + apply leads_refl.
  - cbn [chk_hents] in C. destruct (chk_hent perm nr e st) as [st1|] eqn:C1; [|discriminate].
    destruct (hent_run e st st1 m V TA c1 s1) as [S1 R1]; auto. subst s1.
    eapply hres_bind; [exact R1|]. intros m1 (V1 & TA1 & I1 & F1 & L1).
    eapply hres_impl; [eapply (IH st1 st' m1 V1 TA1 c2 seen'); eauto| |].
    + intros m2 (S2 & V2 & TA2 & I2 & F2 & L2). split; [assumption|]. exists V2, TA2. csplit; auto.
      * eapply hframe_trans; eauto.
      * eapply leads_trans; [|exact L1|exact L2]. destruct F1 as (_ & F1 & _). exact F1.
    + intros U. eapply unsolvable_leads; eauto.
Qed.
End Run.
