(** Calling the next goal of a branch: what the arguments are, and where the query variables are. *)
From Verif Require Import Base Machine Heap Facts Compiler Organizer Spec Print Valuation Process Shape Session Code Put Search PutRun Get Alloc Atoms Clause Stack.
Open Scope list_scope.

Section Ready.
Variable cf : cfg.
Variable sto : storage.
Hypothesis ok : sto_ok sto.
(** are the labels of first body atoms to be right? *)
Variable lab : Prop.
Variable good : node -> Prop.
Variable pw : Z -> Z -> option Z.
Variable P : list (list node).
Notation Pend := (Pend pw P).
Notation hp m := (m_heap (H := list cell) m).
Notation len := (@List.length cell).
Notation sat := (sat sto).
Notation stk := (stk sto good).
Notation tail := (tail sto good).
Notation hle := (hle sto).

(** The trail says where the variables of the query are. *)
Definition trail_ok (h : list cell) (V : string -> option nat) (tr : list (string * nat)) : Prop :=
  (forall s a, In (s, a) tr -> a < len h /\ vals sto h V a (NVar s)) /\
  (forall s, In s (map fst tr) <-> V s <> None).
Lemma trail_ok_hle h h' V tr : hle h h' -> trail_ok h V tr -> trail_ok h' V tr.
Proof.
  intros [L S] [A B]. split; [|exact B]. intros s a K. destruct (A s a K) as [A1 A2]. split; [lia|].
  intros rho v Hs Hc. apply A2; auto.
Qed.

Definition argreg (m : mstate) (TA : list nat) : Prop :=
  forall i a, nth_error TA i = Some a -> exists c, nth_error (m_regs m) i = Some c /\ addr_of c = Some a /\ a < len (hp m).

(** The first code of the branch calls the first goal of the top frame. *)
Inductive ready (p : process) : list frame_ -> Prop :=
| ready_intro perm V n gs fs a pre is cs tl u m1 es st st' s1 nr :
    pinj perm -> atom_ok n -> Forall good (n :: gs) ->
    p_codes p = a :: cs ++ tl -> ca_code a = (pre ++ is) ++ [ICall (to_fview n)] -> is <> [] -> ca_regs a = nr ->
    (forall fuel, run_local cf sto fuel pre (set_regs (p_m p) (resize (m_regs (p_m p)) nr)) = Val (Cont, m1)) ->
    hp m1 = hp (p_m p) ->
    qents sto perm es (k_seen st) is s1 -> chk_ents perm nr es st = Some st' ->
    pinv sto perm nr (hp m1) st m1 V -> wfh sto 0 (hp m1) ->
    (forall i m, nth_error (targs n) i = Some m -> nassoc i (k_F st') = Some m) ->
    (forall s, In s (k_D st') <-> In s (k_D st) \/ In s (vars_of n)) ->
    goals_code sto perm u gs (k_D st') (remove_x_a_regs s1) cs ->
    tail (hp m1) perm (m_envs m1) tl fs u -> ca_user a = u ->
    (u = true -> ca_subs a = find_var_reg_substitutions perm (fst (assign_one n)) /\
       forall s, In s (vars_of n) -> perm s = None ->
         exists x, assoc s (aa_vx (fst (assign_one n))) = Some x /\ nassoc x (k_F st') = Some (NVar s)) ->
    ca_node a = n -> ents_in n es ->
    (exists aa, aa_top aa = n /\ ca_subs a = find_var_reg_substitutions perm aa /\ (lab -> shows_vars perm aa n (k_F st'))) ->
    ready p ({| f_perm := perm; f_V := V; f_gs := n :: gs |} :: fs).

Lemma rreg_get m x c : nth_error (m_regs m) x = Some c -> rreg (list cell) m x = Val c.
Proof. intros E. unfold rreg. now rewrite E. Qed.
Lemma sub_addrs m V perm nr st vx : pinv sto perm nr (hp m) st m V -> forall vs done,
  (forall s, In s vs -> In s (k_D st)) ->
  (forall s, In s vs -> perm s = None -> exists x, assoc s vx = Some x /\ nassoc x (k_F st) = Some (NVar s)) ->
  exists l, fsub_addrs m (var_regs perm vs vx done) = Val l /\
    (forall s a, In (s, a) l -> a < len (hp m) /\ vals sto (hp m) V a (NVar s)) /\
    (forall s, In s (map fst l) <-> In s vs /\ ~ In s done).
Proof.
  intros [D L F S E R]. induction vs as [|s vs IH]; intros done HD HF; cbn [var_regs].
  - exists []. cbn. csplit; auto; [intros s a []|]. intros s. tauto.
  - destruct (existsb (String.eqb s) done) eqn:Ed.
    + destruct (IH done) as (l & E1 & E2 & E3); [intros; apply HD; now right|intros; apply HF; auto; now right|].
      exists l. csplit; auto. intros t. rewrite E3. cbn. apply existsb_exists in Ed. destruct Ed as (t' & Ht & Et).
      apply String.eqb_eq in Et. subst t'. split; [tauto|]. intros [[->|K] N]; tauto.
    + destruct (IH (s :: done)) as (l & E1 & E2 & E3); [intros; apply HD; now right|intros; apply HF; auto; now right|].
      assert (K : exists a, fsub_addr m (match perm s with Some y => (s, y, true)
                  | None => (s, match assoc s vx with Some x => x | None => 0 end, false) end) = Val (s, a) /\
                a < len (hp m) /\ vals sto (hp m) V a (NVar s)).
      { destruct (perm s) as [y|] eqn:Ep.
        - destruct (E s y Ep) as (e & es & Ee & Hy & Hh). destruct (Hh (HD s (or_introl eq_refl))) as (c & a & Ec & Ea & La & Fa).
          exists a. unfold fsub_addr, rperm. rewrite Ee, Ec. cbn [bind of_opt]. apply addr_of_get in Ea. rewrite Ea. cbn. csplit; auto.
          eapply fact_vals; eauto.
        - destruct (HF s (or_introl eq_refl) Ep) as (x & Ex & En). rewrite Ex.
          destruct (F x _ En) as (c & a & Ec & Ea & La & Fa).
          exists a. unfold fsub_addr. rewrite (rreg_get _ _ _ Ec). cbn [bind]. apply addr_of_get in Ea. rewrite Ea. cbn. csplit; auto.
          eapply fact_vals; eauto. }
      destruct K as (a & Ka & La & Va). exists ((s, a) :: l). cbn [fsub_addrs]. rewrite Ka. cbn [bind]. rewrite E1. cbn [bind].
      csplit; auto.
      * intros t b [H|H]; [injection H as <- <-; auto|auto].
      * intros t. cbn [map fst]. cbn [In]. rewrite E3. cbn [In]. split.
        -- intros [->|[H N]]; [|tauto]. split; [tauto|]. intros N.
           assert (existsb (String.eqb t) done = true) by (apply existsb_exists; exists t; split; [assumption|apply String.eqb_refl]).
           congruence.
        -- intros [[->|H] N]; [tauto|]. destruct (String.eqb_spec s t) as [->|]; [now left|]. right. split; [assumption|]. tauto.
Qed.

Lemma last_app_one {A} (l : list A) x d : last (l ++ [x]) d = x.
Proof. induction l as [|a l IH]; [reflexivity|]. cbn [app]. destruct (l ++ [x]) eqn:E; [destruct l; discriminate|]. exact IH. Qed.

Lemma const_vars n : is_constant n = true -> vars_of n = [].
Proof. destruct n; try discriminate. reflexivity. Qed.

Lemma ready_call fuel p fs0 : ready p fs0 -> exists perm V n gs fs a rest m' V' TA,
  fs0 = {| f_perm := perm; f_V := V; f_gs := n :: gs |} :: fs /\ atom_ok n /\ good n /\
  p_codes p = a :: rest /\ last (ca_code a) IProceed = ICall (to_fview n) /\
  run_local cf sto fuel (removelast (ca_code a)) (set_regs (p_m p) (resize (m_regs (p_m p)) (ca_regs a))) = Val (Cont, m') /\
  wfh sto 0 (hp m') /\ hle (hp (p_m p)) (hp m') /\ fwd sto (hp (p_m p)) V (hp m') V' /\
  stk (hp m') (m_envs m') rest ({| f_perm := perm; f_V := V'; f_gs := gs |} :: fs) /\
  (forall rho rho' v k, (forall a, a < len (hp (p_m p)) -> rho' a = rho a) -> Pend fs rho v k -> Pend fs rho' v k) /\
  List.length TA = List.length (targs n) /\ argreg m' TA /\ Forall2 (vals sto (hp m') V') TA (targs n) /\
  vle_on V V' /\ (forall s, V' s <> None <-> V s <> None \/ In s (vars_of n)) /\
  (forall tr, trail_ok (hp (p_m p)) (VQ fs0) tr ->
     exists tr', trail_after a m' (Val tr) = Val tr' /\
       trail_ok (hp m') (VQ ({| f_perm := perm; f_V := V'; f_gs := gs |} :: fs)) tr').
Proof.
  intros [perm V n gs fs a pre is cs tl u m1 es st st' s1 nr Hi Ha Hg Ec Ea _ Er Rp Eh Q C I W HT HD GC TL Eu HU _ _ _].
  destruct (ents_run cf sto ok fuel perm Hi nr es st st' m1 V is s1 Q C I W) as (m' & V' & ex & R & Hh & Es & LV & I' & W' & FW & FR & _).
  assert (HL : hle (hp m1) (hp m')) by (rewrite Hh; apply hle_app).
  assert (HTA : exists TA, List.length TA = List.length (targs n) /\ argreg m' TA /\ Forall2 (vals sto (hp m') V') TA (targs n)).
  { assert (G : forall l i0, (forall i m, nth_error l i = Some m -> nassoc (i0 + i) (k_F st') = Some m) ->
      exists TA, List.length TA = List.length l /\
        (forall i a, nth_error TA i = Some a -> exists c, nth_error (m_regs m') (i0 + i) = Some c /\ addr_of c = Some a /\ a < len (hp m')) /\ Forall2 (vals sto (hp m') V') TA l).
    { induction l as [|m l IH]; intros i0 H.
      - exists []. csplit; auto. intros [|i] b E; discriminate.
      - destruct (IH (S i0)) as (TA & A & B & D). { intros i m0 E. replace (S i0 + i) with (i0 + S i) by lia. apply H. exact E. }
        destruct (pi_F _ _ _ _ _ _ _ I' i0 m) as (c & b & Eb & Ab & Lb & Fb). { rewrite <- (Nat.add_0_r i0). apply H. reflexivity. }
        exists (b :: TA). csplit; [cbn; lia| |].
        + intros [|i] b' E.
          * injection E as <-. rewrite Nat.add_0_r. eauto.
          * replace (i0 + S i) with (S i0 + i) by lia. apply B. exact E.
        + constructor; [eapply fact_vals; eauto|exact D]. }
    destruct (G (targs n) 0 HT) as (TA & A & B & D). exists TA. csplit; auto. }
  destruct HTA as (TA & T1 & T2 & T3).
  exists perm, V, n, gs, fs, a, (cs ++ tl), m', V', TA.
  assert (DV : forall s, In s (k_D st') <-> V' s <> None) by (exact (pi_dom _ _ _ _ _ _ _ I')).
  csplit; auto.
  - inversion Hg; assumption.
  - rewrite Ea. apply last_app_one.
  - rewrite Ea, removelast_last, Er, run_app, Rp. exact R.
  - rewrite <- Eh. exact HL.
  - rewrite <- Eh. exact FW.
  - apply (stk_intro sto good (hp m') (m_envs m') perm V' gs fs (k_D st') (remove_x_a_regs s1) u); auto.
    + intros x. apply no_x_remove.
    + rewrite <- Es. intros s y. apply sy_remove. intros s0 y0. apply (pi_seen _ _ _ _ _ _ _ I').
    + exact (pi_lt _ _ _ _ _ _ _ I').
    + exact (pi_env _ _ _ _ _ _ _ I').
    + inversion Hg; assumption.
    + eapply tail_frame; [exact FR|]. eapply tail_hle; eauto.
  - intros rho rho' v k A. rewrite <- Eh in A. eapply tail_agree; eauto.
  - intros s. rewrite <- DV, HD, (pi_dom _ _ _ _ _ _ _ I). reflexivity.
  - intros tr [A B]. unfold trail_after. rewrite Eu. pose proof (tail_bot _ _ _ _ _ _ _ _ TL) as HB. destruct u.
    + destruct HB as [HB _]. rewrite (HB eq_refl) in *. cbn [VQ f_V] in *.
      destruct (HU eq_refl) as [-> HX]. unfold find_var_reg_substitutions. rewrite aa_top_one.
      assert (K : exists l, fsub_addrs m' (if is_constant n then [] else var_regs perm (vars_of n) (aa_vx (fst (assign_one n))) []) = Val l /\
        (forall s a, In (s, a) l -> a < len (hp m') /\ vals sto (hp m') V' a (NVar s)) /\
        (forall s, In s (map fst l) <-> In s (vars_of n))).
      { destruct (is_constant n) eqn:En.
        - exists []. cbn. rewrite (const_vars n En). csplit; auto; [intros s b []|reflexivity].
        - destruct (sub_addrs m' V' perm nr st' (aa_vx (fst (assign_one n))) I' (vars_of n) []) as (l & L1 & L2 & L3).
          + intros s Hs. apply HD. now right.
          + exact HX.
          + exists l. csplit; auto. intros s. rewrite L3. cbn. tauto. }
      destruct K as (l & L1 & L2 & L3). rewrite L1. cbn [bind]. eexists. split; [reflexivity|]. split.
      * intros s b H. apply in_app_iff in H. destruct H as [H|H]; [auto|]. destruct (A s b H) as [A1 A2]. rewrite <- Eh in *.
        split; [destruct HL; lia|]. intros rho v Hs Hc. apply A2; [apply HL; assumption|]. eapply cons_on_mono; eauto.
      * intros s. rewrite map_app, in_app_iff, L3, B, <- DV, HD, (pi_dom _ _ _ _ _ _ _ I). tauto.
    + cbn [bind]. eexists. split; [reflexivity|]. cbn [app].
      assert (Nf : fs <> []) by (intros ->; destruct HB as [_ HB]; discriminate (HB eq_refl)).
      cbn [VQ] in *. destruct fs; [contradiction|]. eapply trail_ok_hle; [exact HL|]. rewrite Eh. split; assumption.
Qed.
(** What the variables of a called goal and its arguments are, at the end of the code of that goal. *)
Lemma ready_label fuel p fs0 : ready p fs0 -> exists n a rest m' V' TA,
  p_codes p = a :: rest /\ ca_node a = n /\ atom_ok n /\ last (ca_code a) IProceed = ICall (to_fview n) /\
  run_local cf sto fuel (removelast (ca_code a)) (set_regs (p_m p) (resize (m_regs (p_m p)) (ca_regs a))) = Val (Cont, m') /\
  wfh sto 0 (hp m') /\ List.length TA = List.length (targs n) /\ argreg m' TA /\ Forall2 (vals sto (hp m') V') TA (targs n) /\
  (lab -> exists l, fsub_addrs m' (ca_subs a) = Val l /\
     (forall s b, In (s, b) l -> b < len (hp m') /\ vals sto (hp m') V' b (NVar s)) /\
     (forall s, In s (map fst l) <-> In s (vars_of n))).
Proof.
  intros [perm V n gs fs a pre is cs tl u m1 es st st' s1 nr Hi Ha Hg Ec Ea _ Er Rp Eh Q C I W HT HD GC TL Eu HU Hn _ (aa & Ta & Sa & La)].
  destruct (ents_run cf sto ok fuel perm Hi nr es st st' m1 V is s1 Q C I W) as (m' & V' & ex & R & Hh & Es & LV & I' & W' & FW & FR & _).
  assert (HTA : exists TA, List.length TA = List.length (targs n) /\ argreg m' TA /\ Forall2 (vals sto (hp m') V') TA (targs n)).
  { assert (G : forall l i0, (forall i m, nth_error l i = Some m -> nassoc (i0 + i) (k_F st') = Some m) ->
      exists TA, List.length TA = List.length l /\
        (forall i a, nth_error TA i = Some a -> exists c, nth_error (m_regs m') (i0 + i) = Some c /\ addr_of c = Some a /\ a < len (hp m')) /\ Forall2 (vals sto (hp m') V') TA l).
    { induction l as [|m l IH]; intros i0 H.
      - exists []. csplit; auto. intros [|i] b E; discriminate.
      - destruct (IH (S i0)) as (TA & A & B & D). { intros i m0 E. replace (S i0 + i) with (i0 + S i) by lia. apply H. exact E. }
        destruct (pi_F _ _ _ _ _ _ _ I' i0 m) as (c & b & Eb & Ab & Lb & Fb). { rewrite <- (Nat.add_0_r i0). apply H. reflexivity. }
        exists (b :: TA). csplit; [cbn; lia| |].
        + intros [|i] b' E.
          * injection E as <-. rewrite Nat.add_0_r. eauto.
          * replace (i0 + S i) with (S i0 + i) by lia. apply B. exact E.
        + constructor; [eapply fact_vals; eauto|exact D]. }
    destruct (G (targs n) 0 HT) as (TA & A & B & D). exists TA. csplit; auto. }
  destruct HTA as (TA & T1 & T2 & T3).
  exists n, a, (cs ++ tl), m', V', TA. csplit; auto.
  - rewrite Ea. apply last_app_one.
  - rewrite Ea, removelast_last, Er, run_app, Rp. exact R.
  - intros Hlab. rewrite Sa. unfold find_var_reg_substitutions. rewrite Ta. destruct (is_constant n) eqn:En.
    + exists []. cbn. rewrite (const_vars n En). csplit; auto; [intros s b []|reflexivity].
    + destruct (sub_addrs m' V' perm nr st' (aa_vx aa) I' (vars_of n) []) as (l & L1 & L2 & L3).
      * intros s Hs. apply HD. now right.
      * exact (La Hlab).
      * exists l. csplit; auto. intros s. rewrite L3. cbn. tauto.
Qed.
End Ready.
