(** Pending goals of a branch, and what a valuation of the heap makes of them. *)
From Verif Require Import Base Machine Heap Facts Compiler Organizer Spec Print Valuation Process Shape Session Code Put Search PutRun Get Alloc Atoms Clause.
Open Scope list_scope.

(** A partly executed clause body (or the query): its permanent registers, where its variables are, and the atoms
    still to be called. *)
Record frame_ := { f_perm : string -> option nat; f_V : string -> option nat; f_gs : list node }.
Definition pinj (perm : string -> option nat) : Prop := forall s t y, perm s = Some y -> perm t = Some y -> s = t.

Section Stack.
Variable sto : storage.
Variable good : node -> Prop.
Notation hp m := (m_heap (H := list cell) m).
Notation len := (@List.length cell).
Notation sat := (sat sto).

Definition hle (h h' : list cell) : Prop := len h <= len h' /\ forall rho, sat rho h' -> sat rho h.
Lemma hle_refl h : hle h h.
Proof. split; auto. Qed.
Lemma hle_app h e : hle h (h ++ e).
Proof. split; [rewrite app_length; lia|]. intros rho. apply sat_app. Qed.
Lemma hle_trans h1 h2 h3 : hle h1 h2 -> hle h2 h3 -> hle h1 h3.
Proof. intros [A B] [C D]. split; [lia|auto]. Qed.

Lemma fact_hle h h' V V' a n : hle h h' -> vle_on V V' -> fact sto h V a n -> fact sto h' V' a n.
Proof.
  intros [L S] LV [(s & -> & E)|[Ha H]]; [left; eauto|right]. split; [lia|]. intros rho v Hs Hc. apply H; auto.
  eapply cons_on_mono; eauto.
Qed.
Lemma holds_hle h h' V V' sz sz' n o : hle h h' -> vle_on V V' -> sz <= sz' -> holds sto h V sz n o -> holds sto h' V' sz' n o.
Proof.
  intros H L S (c & a & E & A & B & F). exists c, a. csplit; auto; [lia|]. eapply fact_hle; eauto.
Qed.

Definition env_ok (h : list cell) (perm V : string -> option nat) (D : list string) (envs : list (list cell)) : Prop :=
  forall s y, perm s = Some y -> exists e es, envs = e :: es /\ y < List.length e /\
    (In s D -> holds sto h V (len h) (NVar s) (nth_error e y)).

Inductive stk (h : list cell) : list (list cell) -> list catom -> list frame_ -> Prop :=
| stk_intro envs perm V gs fs D seen u cs tl :
    pinj perm -> goals_code sto perm u gs D seen cs -> no_x seen -> sy_seen perm D seen ->
    (forall s, In s D <-> V s <> None) -> (forall s a, V s = Some a -> a < len h) ->
    env_ok h perm V D envs -> Forall good gs -> tail h perm envs tl fs u ->
    stk h envs (cs ++ tl) ({| f_perm := perm; f_V := V; f_gs := gs |} :: fs)
with tail (h : list cell) : (string -> option nat) -> list (list cell) -> list catom -> list frame_ -> bool -> Prop :=
| tl_bot perm envs : tail h perm envs [] [] true
| tl_plain perm envs rest fs : (forall s, perm s = None) -> stk h envs rest fs -> tail h perm envs rest fs false
| tl_env perm e es rest fs : stk h es rest fs -> tail h perm (e :: es) (dealloc_atom :: rest) fs false.
Scheme stk_mut := Minimality for stk Sort Prop
  with tail_mut := Minimality for tail Sort Prop.

Lemma env_ok_hle h h' perm V D envs : hle h h' -> env_ok h perm V D envs -> env_ok h' perm V D envs.
Proof.
  intros L H s y E. destruct (H s y E) as (e & es & A & B & C). exists e, es. csplit; auto. intros K.
  specialize (C K). eapply holds_hle; [exact L|apply vle_on_refl|exact (proj1 L)|exact C].
Qed.
Lemma stk_hle h h' : hle h h' -> (forall envs cs fs, stk h envs cs fs -> stk h' envs cs fs).
Proof.
  intros L.
  apply (stk_mut h (fun envs cs fs => stk h' envs cs fs) (fun perm envs cs fs u => tail h' perm envs cs fs u)).
  - intros envs perm V gs fs D seen u cs tl A B C E F G H J K1 K2.
    apply (stk_intro h' envs perm V gs fs D seen u cs tl); auto.
    + intros s a Ea. specialize (G s a Ea). destruct L as [L _]. lia.
    + eapply env_ok_hle; eauto.
  - intros. apply tl_bot.
  - intros. apply tl_plain; auto.
  - intros. apply tl_env; auto.
Qed.
Lemma tail_hle h h' perm envs tl fs u : hle h h' -> tail h perm envs tl fs u -> tail h' perm envs tl fs u.
Proof. intros L [p e|p e r f N K|p e es r f K]; [apply tl_bot|apply tl_plain|apply tl_env]; auto; eapply stk_hle; eauto. Qed.
(** only the top environment is written to, and by its owner *)
Lemma tail_frame h perm m m' tl fs u : frame perm m m' -> tail h perm (m_envs m) tl fs u -> tail h perm (m_envs m') tl fs u.
Proof.
  intros (_ & _ & _ & F & G) K. inversion K as [p e|p e r f N K'|p e es r f K']; subst.
  - apply tl_bot.
  - rewrite G by assumption. apply tl_plain; auto.
  - match goal with H : _ = m_envs m |- _ => rewrite <- H in F end. destruct F as (e' & -> & _). apply tl_env; auto.
Qed.
Lemma tail_bot h perm envs tl fs u : tail h perm envs tl fs u -> (u = true <-> fs = []).
Proof.
  intros [p e|p e r f N K|p e es r f K]; split; auto; try discriminate; intros ->; inversion K.
Qed.

(** --- solutions --- *)
Variable pw : Z -> Z -> option Z.
Variable P : list (list node).

Definition provs (v : string -> gterm) (gs : list node) (k : nat) : Prop :=
  exists ns, Forall2 (fun a n => prov_in pw P n (inst v a)) gs ns /\ k = fold_right Nat.add 0 ns.
(** [v] is a valuation of the variables of the query; those of the other frames are arbitrary. *)
Fixpoint Pend (fs : list frame_) (rho : nat -> gterm) (v : string -> gterm) (k : nat) : Prop :=
  match fs with
  | [] => k = 0
  | f :: fs' => exists v' k1 k2, (fs' = [] -> v' = v) /\ cons_on rho (f_V f) v' /\ provs v' (f_gs f) k1 /\
                                 Pend fs' rho v k2 /\ k = k1 + k2
  end.
Fixpoint VQ (fs : list frame_) : string -> option nat :=
  match fs with [] => fun _ => None | [f] => f_V f | _ :: fs' => VQ fs' end.
(** the variables of the query: those that have an address, and those of the atoms still to be called *)
Fixpoint qdom (fs : list frame_) (s : string) : Prop :=
  match fs with
  | [] => False
  | [f] => f_V f s <> None \/ In s (flat_map vars_of (f_gs f))
  | _ :: fs' => qdom fs' s
  end.
Definition same_pend (fs fs' : list frame_) : Prop :=
  (forall rho v k, Pend fs rho v k <-> Pend fs' rho v k) /\ VQ fs = VQ fs' /\ (forall s, qdom fs s <-> qdom fs' s).

Lemma provs_nil v k : provs v [] k <-> k = 0.
Proof. split; [intros (ns & F & ->); inversion F; reflexivity|]. intros ->. exists []. auto. Qed.
Lemma provs_cons v n gs k : provs v (n :: gs) k <-> exists k1 k2, prov_in pw P k1 (inst v n) /\ provs v gs k2 /\ k = k1 + k2.
Proof.
  split.
  - intros (ns & F & ->). inversion F as [|? n1 ? ns1 A B]; subst. exists n1, (fold_right Nat.add 0 ns1). csplit; auto. exists ns1. auto.
  - intros (k1 & k2 & A & (ns & F & ->) & ->). exists (k1 :: ns). split; [constructor; auto|reflexivity].
Qed.
(** the valuation a heap valuation gives to variables *)
Definition vof (rho : nat -> gterm) (V : string -> option nat) (s : string) : gterm :=
  match V s with Some a => rho a | None => GInt 0 end.
Lemma vof_cons rho V : cons_on rho V (vof rho V).
Proof. intros s a E. unfold vof. now rewrite E. Qed.
Lemma pend_drop f fs : f_gs f = [] -> fs <> [] -> same_pend (f :: fs) fs.
Proof.
  intros E N. split.
  - intros rho v k. cbn [Pend]. rewrite E. split.
    + intros (v' & k1 & k2 & _ & _ & A & B & ->). apply provs_nil in A. subst. exact B.
    + intros H. exists (vof rho (f_V f)), 0, k. csplit; auto; [contradiction|apply vof_cons|now apply provs_nil].
  - cbn [VQ qdom]. destruct fs; [contradiction|split; reflexivity].
Qed.
Lemma same_pend_refl fs : same_pend fs fs.
Proof. split; [|split]; reflexivity. Qed.
Lemma same_pend_trans a b c : same_pend a b -> same_pend b c -> same_pend a c.
Proof.
  intros (A & B & E) (C & D & F). split; [intros rho v k; rewrite A; apply C|]. split; [congruence|]. intros s. rewrite E. apply F.
Qed.
Lemma stk_ne h envs cs fs : stk h envs cs fs -> fs <> [].
Proof. intros K E. inversion K; subst. discriminate. Qed.

(** The next thing to do: call a goal, or pop an environment. *)
Inductive top_goal (h : list cell) (envs : list (list cell)) (a : catom) (rest : list catom) : list frame_ -> Prop :=
| tg_intro perm V n gs fs D D' seen s1 is u cs tl :
    pinj perm -> atom_ok n -> (forall s, In s (vars_of n) -> perm s = None -> ~ In s D) ->
    ca_code a = is ++ [ICall (to_fview n)] -> ca_regs a = snd (assign_one n) ->
    ca_subs a = find_var_reg_substitutions perm (fst (assign_one n)) -> ca_user a = u -> ca_node a = n ->
    qents sto perm (flatten_query (fst (assign_one n))) seen is s1 ->
    (forall s, In s D' <-> In s D \/ In s (vars_of n)) ->
    goals_code sto perm u gs D' (remove_x_a_regs s1) cs -> no_x seen -> sy_seen perm D seen ->
    (forall s, In s D <-> V s <> None) -> (forall s a, V s = Some a -> a < len h) ->
    env_ok h perm V D envs -> Forall good (n :: gs) -> tail h perm envs tl fs u -> rest = cs ++ tl ->
    top_goal h envs a rest ({| f_perm := perm; f_V := V; f_gs := n :: gs |} :: fs).
Lemma stk_top h envs codes fs : stk h envs codes fs -> forall a rest, codes = a :: rest ->
  exists fs', same_pend fs fs' /\
    (top_goal h envs a rest fs' \/ (a = dealloc_atom /\ exists e es, envs = e :: es /\ stk h es rest fs')).
Proof.
  revert envs codes fs.
  apply (stk_mut h (fun envs codes fs => forall a rest, codes = a :: rest ->
    exists fs', same_pend fs fs' /\
      (top_goal h envs a rest fs' \/ (a = dealloc_atom /\ exists e es, envs = e :: es /\ stk h es rest fs')))
    (fun perm envs codes fs u => forall a rest, codes = a :: rest -> fs <> [] /\
    exists fs', same_pend fs fs' /\
      (top_goal h envs a rest fs' \/ (a = dealloc_atom /\ exists e es, envs = e :: es /\ stk h es rest fs')))).
  - intros envs perm V gs fs D seen u cs tl A B C E F G H Hg J IH a rest Ec. destruct B as [D seen|n ns D D' seen s1 a0 is r Ha Ht Ec0 Er Es Eu En Q HD B].
    + destruct (IH a rest Ec) as (Ne & fs' & S & K). exists fs'. split; [|exact K].
      eapply same_pend_trans; [|exact S]. now apply pend_drop.
    + cbn [app] in Ec. injection Ec as -> <-. eexists. split; [apply same_pend_refl|]. left. econstructor; eauto.
  - intros perm envs a rest Ec. discriminate.
  - intros perm envs rest fs N K IH a rest' Ec. split; [eapply stk_ne; eauto|]. eauto.
  - intros perm e es rest fs K IH a rest' Ec. injection Ec as <- <-. split; [eapply stk_ne; eauto|].
    exists fs. split; [apply same_pend_refl|]. right. split; [reflexivity|]. eauto.
Qed.

(** the code of a goal is never a single instruction, unlike an atom that only deallocates *)
Lemma checked_code perm nr es seen is s1 st st' : qents sto perm es seen is s1 -> chk_ents perm nr es st = Some st' ->
  k_F st' <> k_F st -> is <> [].
Proof.
  intros Q C N E. destruct Q as [|e es s0 c1 s1 c2 s2 Q1 Q2]; cbn in C; [congruence|].
  destruct c1; [|discriminate]. inversion Q1; subst. cbn in C. discriminate.
Qed.
Lemma goal_code_long perm n D seen is s1 : pinj perm -> atom_ok n -> (forall s, In s (vars_of n) -> perm s = None -> ~ In s D) ->
  no_x seen -> sy_seen perm D seen -> qents sto perm (flatten_query (fst (assign_one n))) seen is s1 -> is <> [].
Proof.
  intros Hi Ha Ht Hx Hs Q. destruct (assign_one n) as [a cnt] eqn:E.
  destruct (goal_ready perm Hi n a cnt D seen Ha E Ht Hx Hs) as (st' & C & F & _).
  eapply checked_code; [exact Q|exact C|]. cbn [k_F]. intros E0. rewrite E0 in F.
  assert (exists m l, targs n = m :: l) as (m & l & El).
  { destruct n; try contradiction; cbn in *; eauto. destruct l; [contradiction|eauto]. }
  rewrite El in F. specialize (F 0 m eq_refl). cbn in F. discriminate.
Qed.

(** nothing left to call *)
Lemma stk_done h envs codes fs : stk h envs codes fs -> forallb is_dealloc codes = true ->
  forall rho v, cons_on rho (VQ fs) v <-> Pend fs rho v 0.
Proof.
  revert envs codes fs.
  apply (stk_mut h (fun envs codes fs => forallb is_dealloc codes = true -> forall rho v, cons_on rho (VQ fs) v <-> Pend fs rho v 0)
    (fun perm envs codes fs u => forallb is_dealloc codes = true -> fs = [] \/ (fs <> [] /\ forall rho v, cons_on rho (VQ fs) v <-> Pend fs rho v 0))).
  - intros envs perm V gs fs D seen u cs tl A B C E F G H Hg J IH Ec rho v. rewrite forallb_app, andb_true_iff in Ec.
    destruct Ec as [E1 E2]. destruct B as [D seen|n ns D D' seen s1 a0 is r Ha Ht Ec0 Er Es Eu En Q HD B].
    + destruct (IH E2) as [->|[N K]].
      * cbn. split.
        -- intros Hc. exists v, 0, 0. csplit; auto. now apply provs_nil.
        -- intros (v' & k1 & k2 & Ev & Hc & _). rewrite <- (Ev eq_refl). exact Hc.
      * destruct (pend_drop {| f_perm := perm; f_V := V; f_gs := [] |} fs eq_refl N) as (S1 & S2 & _). rewrite S1, S2. apply K.
    + exfalso. cbn [forallb] in E1. apply andb_true_iff in E1. destruct E1 as [E1 _]. unfold is_dealloc in E1.
      rewrite Ec0, app_length in E1. apply (goal_code_long _ _ _ _ _ _ A Ha Ht C E) in Q. destruct is; [contradiction|].
      apply Nat.eqb_eq in E1. cbn in E1. lia.
  - auto.
  - intros perm envs rest fs N K IH Ec. right. split; [eapply stk_ne; eauto|auto].
  - intros perm e es rest fs K IH Ec. right. cbn in Ec. split; [eapply stk_ne; eauto|auto].
Qed.
Lemma stk_done_dom h envs codes fs : stk h envs codes fs -> forallb is_dealloc codes = true ->
  forall s, qdom fs s <-> VQ fs s <> None.
Proof.
  revert envs codes fs.
  apply (stk_mut h (fun envs codes fs => forallb is_dealloc codes = true -> forall s, qdom fs s <-> VQ fs s <> None)
    (fun perm envs codes fs u => forallb is_dealloc codes = true -> fs = [] \/ (fs <> [] /\ forall s, qdom fs s <-> VQ fs s <> None))).
  - intros envs perm V gs fs D seen u cs tl A B C E F G H Hg J IH Ec s. rewrite forallb_app, andb_true_iff in Ec.
    destruct Ec as [E1 E2]. destruct B as [D seen|n ns D D' seen s1 a0 is r Ha Ht Ec0 Er Es Eu En Q HD B].
    + destruct (IH E2) as [->|[N K]].
      * cbn. tauto.
      * destruct (pend_drop {| f_perm := perm; f_V := V; f_gs := [] |} fs eq_refl N) as (_ & S2 & S3). rewrite S3, S2. apply K.
    + exfalso. cbn [forallb] in E1. apply andb_true_iff in E1. destruct E1 as [E1 _]. unfold is_dealloc in E1.
      rewrite Ec0, app_length in E1. apply (goal_code_long _ _ _ _ _ _ A Ha Ht C E) in Q. destruct is; [contradiction|].
      apply Nat.eqb_eq in E1. cbn in E1. lia.
  - auto.
  - intros perm envs rest fs N K IH Ec. right. split; [eapply stk_ne; eauto|auto].
  - intros perm e es rest fs K IH Ec. right. cbn in Ec. split; [eapply stk_ne; eauto|auto].
Qed.
Lemma stk_done_k h envs codes fs : stk h envs codes fs -> forallb is_dealloc codes = true ->
  forall rho v k, Pend fs rho v k -> k = 0.
Proof.
  revert envs codes fs.
  apply (stk_mut h (fun envs codes fs => forallb is_dealloc codes = true -> forall rho v k, Pend fs rho v k -> k = 0)
    (fun perm envs codes fs u => forallb is_dealloc codes = true -> forall rho v k, Pend fs rho v k -> k = 0)).
  - intros envs perm V gs fs D seen u cs tl A B C E F G H Hg J IH Ec rho v k. rewrite forallb_app, andb_true_iff in Ec.
    destruct Ec as [E1 E2]. destruct B as [D seen|n ns D D' seen s1 a0 is r Ha Ht Ec0 Er Es Eu En Q HD B].
    + cbn. intros (v' & k1 & k2 & _ & _ & Hp & Hq & ->). apply provs_nil in Hp. apply IH in Hq; auto. lia.
    + exfalso. cbn [forallb] in E1. apply andb_true_iff in E1. destruct E1 as [E1 _]. unfold is_dealloc in E1.
      rewrite Ec0, app_length in E1. apply (goal_code_long _ _ _ _ _ _ A Ha Ht C E) in Q. destruct is; [contradiction|].
      apply Nat.eqb_eq in E1. cbn in E1. lia.
  - cbn. auto.
  - auto.
  - auto.
Qed.

(** a heap valuation that agrees on the old addresses *)
Lemma stk_agree h envs codes fs : stk h envs codes fs -> forall rho rho' v k,
  (forall a, a < len h -> rho' a = rho a) -> Pend fs rho v k -> Pend fs rho' v k.
Proof.
  revert envs codes fs.
  apply (stk_mut h (fun envs codes fs => forall rho rho' v k,
      (forall a, a < len h -> rho' a = rho a) -> Pend fs rho v k -> Pend fs rho' v k)
    (fun perm envs codes fs u => forall rho rho' v k,
      (forall a, a < len h -> rho' a = rho a) -> Pend fs rho v k -> Pend fs rho' v k)); auto.
  intros envs perm V gs fs D seen u cs tl A B C E F G H Hg J IH rho rho' v k Ea.
  cbn. intros (v' & k1 & k2 & Ev & Hc & Hp & Hq & ->). exists v', k1, k2. csplit; auto.
  - intros s a Es. rewrite Ea; [auto|]. eauto.
  - eapply IH; eauto.
Qed.
Lemma tail_agree h perm envs codes fs u : tail h perm envs codes fs u -> forall rho rho' v k,
  (forall a, a < len h -> rho' a = rho a) -> Pend fs rho v k -> Pend fs rho' v k.
Proof. intros [p e|p e r f N K|p e es r f K]; auto; eapply stk_agree; eauto. Qed.
End Stack.
