(** Code that builds the arguments of a goal: a check on the register allocation, and what code passing it does. *)
From Verif Require Import Base Machine Heap Facts Compiler Spec Print Valuation Process Shape Session Code Search.
Open Scope list_scope.

Lemma nth_error_ext {A} (l : list A) : forall k, (forall i, nth_error l i = nth_error k i) -> l = k.
Proof.
  induction l as [|a l IH]; intros [|b k] H.
  - reflexivity.
  - specialize (H 0). discriminate.
  - specialize (H 0). discriminate.
  - pose proof (H 0) as E. injection E as ->. f_equal. apply IH. intros i. exact (H (S i)).
Qed.

(** --- the check --- *)
Fixpoint node_eqb (n m : node) {struct n} : bool :=
  let fix all (l k : list node) : bool :=
    match l, k with [], [] => true | a :: l', b :: k' => node_eqb a b && all l' k' | _, _ => false end in
  match n, m with
  | NVar s, NVar t | NCon s, NCon t | NInt s, NInt t => String.eqb s t
  | NFun s l, NFun t k | NEv s l, NEv t k => String.eqb s t && all l k
  | _, _ => false
  end.
Fixpoint nodes_eqb (l k : list node) : bool :=
  match l, k with [], [] => true | a :: l', b :: k' => node_eqb a b && nodes_eqb l' k' | _, _ => false end.
Fixpoint node_ind' (P : node -> Prop) (Hv : forall s, P (NVar s)) (Hc : forall s, P (NCon s)) (Hi : forall s, P (NInt s))
  (Hf : forall s l, Forall P l -> P (NFun s l)) (He : forall s l, Forall P l -> P (NEv s l)) (n : node) {struct n} : P n :=
  let all := fix all (l : list node) : Forall P l :=
    match l with [] => Forall_nil P | a :: l' => Forall_cons a (node_ind' P Hv Hc Hi Hf He a) (all l') end in
  match n with
  | NVar s => Hv s | NCon s => Hc s | NInt s => Hi s
  | NFun s l => Hf s l (all l) | NEv s l => He s l (all l)
  end.
Lemma node_eqb_unfold n m : node_eqb n m =
  match n, m with
  | NVar s, NVar t | NCon s, NCon t | NInt s, NInt t => String.eqb s t
  | NFun s l, NFun t k | NEv s l, NEv t k => String.eqb s t && nodes_eqb l k
  | _, _ => false
  end.
Proof.
  destruct n as [s|s|s|s l|s l], m as [t|t|t|t k|t k]; reflexivity.
Qed.
Lemma node_eqb_eq n : forall m, node_eqb n m = true <-> n = m.
Proof.
  assert (L : forall l, Forall (fun n => forall m, node_eqb n m = true <-> n = m) l ->
    forall k, nodes_eqb l k = true <-> l = k).
  { intros l Hl. induction Hl as [|a l Ha Hl IH]; intros [|b k]; cbn; try (split; congruence).
    rewrite andb_true_iff, Ha, IH. split; [intros [-> ->]; auto|intros E; injection E; auto]. }
  induction n as [s|s|s|s l Hl|s l Hl] using node_ind'; intros m; rewrite node_eqb_unfold;
    destruct m as [t|t|t|t k|t k]; try (split; congruence);
    try (rewrite String.eqb_eq; split; congruence).
  - rewrite andb_true_iff, String.eqb_eq, (L _ Hl). split; [intros [-> ->]; auto|intros E; injection E; auto].
  - rewrite andb_true_iff, String.eqb_eq, (L _ Hl). split; [intros [-> ->]; auto|intros E; injection E; auto].
Qed.
Lemma nodes_eqb_eq l : forall k, nodes_eqb l k = true <-> l = k.
Proof.
  induction l as [|a l IH]; intros [|b k]; cbn; try (split; congruence).
  rewrite andb_true_iff, node_eqb_eq, IH. split; [intros [-> ->]; auto|intros E; injection E; auto].
Qed.

(** [k_F]: what the registers are known to hold; [k_D]: variables that already have a cell. *)
Record kst := { k_seen : list sreg; k_F : list (nat * node); k_D : list string }.
Fixpoint nassoc {A} (x : nat) (l : list (nat * A)) : option A :=
  match l with [] => None | (y, a) :: l' => if Nat.eqb x y then Some a else nassoc x l' end.
Definition ndel {A} (x : nat) (l : list (nat * A)) : list (nat * A) := filter (fun p => negb (Nat.eqb x (fst p))) l.
Definition known (F : list (nat * node)) (x : nat) (n : node) : bool :=
  match nassoc x F with Some m => node_eqb m n | None => false end.
Definition smem (s : string) (l : list string) : bool := existsb (String.eqb s) l.

Lemma nassoc_del {A} x y (l : list (nat * A)) : nassoc x (ndel y l) = if Nat.eqb x y then None else nassoc x l.
Proof.
  unfold ndel. induction l as [|[z a] l IH]; cbn; [now destruct (Nat.eqb x y)|].
  destruct (Nat.eqb_spec y z) as [->|Hz]; cbn.
  - rewrite IH. destruct (Nat.eqb x z); auto.
  - rewrite IH. destruct (Nat.eqb_spec x z) as [->|]; [|auto].
    destruct (Nat.eqb_spec z y); [congruence|]. reflexivity.
Qed.
Lemma smem_in s l : smem s l = true <-> In s l.
Proof.
  unfold smem. rewrite existsb_exists. split.
  - intros (t & Ht & E). apply String.eqb_eq in E. now subst.
  - intros H. exists s. split; [assumption|apply String.eqb_refl].
Qed.
Lemma known_eq F x n : known F x n = true <-> nassoc x F = Some n.
Proof.
  unfold known. destruct (nassoc x F) as [m|]; [|split; congruence]. rewrite node_eqb_eq. split; congruence.
Qed.

Section Check.
Variable perm : string -> option nat.
Variable nr : nat.

Definition chk_kid (k : node * nat) (st : kst) : option kst :=
  let '(n, x) := k in
  match n with
  | NInt _ | NCon _ =>
      if Nat.ltb x nr then Some {| k_seen := k_seen st; k_F := ndel x (k_F st); k_D := k_D st |} else None
  | NVar s =>
      match perm s with
      | Some y =>
          if seen_in (SY y) (k_seen st) then Some st
          else if smem s (k_D st) then None
          else Some {| k_seen := SY y :: k_seen st; k_F := k_F st; k_D := s :: k_D st |}
      | None =>
          if seen_in (SX x) (k_seen st) then if known (k_F st) x n then Some st else None
          else if smem s (k_D st) then None
          else if Nat.ltb x nr
          then Some {| k_seen := SX x :: k_seen st; k_F := (x, n) :: k_F st; k_D := s :: k_D st |}
          else None
      end
  | _ => if (seen_in (SX x) (k_seen st) && known (k_F st) x n)%bool then Some st else None
  end.
Fixpoint chk_kids (ks : list (node * nat)) (st : kst) : option kst :=
  match ks with
  | [] => Some st
  | k :: ks' => match chk_kid k st with Some st1 => chk_kids ks' st1 | None => None end
  end.
(** may the kid write register [x]? *)
Definition keeps (x : nat) (k : node * nat) : bool :=
  match fst k with
  | NVar s => match perm s with Some _ => true | None => negb (Nat.eqb (snd k) x) end
  | _ => negb (Nat.eqb (snd k) x)
  end.
Definition str_ok (n : node) (ks : list (node * nat)) : bool :=
  match n with
  | NFun _ l => nodes_eqb (map fst ks) l
  | NEv _ l => nodes_eqb (map fst ks) l && Nat.eqb (List.length l) 2
  | _ => false
  end.
Definition chk_ent (e : ent) (st : kst) : option kst :=
  let x := en_x e in
  let n := en_node e in
  match n with
  | NVar s =>
      match en_arg e with
      | None => None
      | Some a =>
          if Nat.ltb a nr then
            match perm s with
            | Some y =>
                if seen_in (SY y) (k_seen st)
                then Some {| k_seen := k_seen st; k_F := (a, n) :: k_F st; k_D := k_D st |}
                else if smem s (k_D st) then None
                else Some {| k_seen := SY y :: k_seen st; k_F := (a, n) :: k_F st; k_D := s :: k_D st |}
            | None =>
                if seen_in (SX x) (k_seen st)
                then if known (k_F st) x n
                     then Some {| k_seen := k_seen st; k_F := (a, n) :: k_F st; k_D := k_D st |} else None
                else if smem s (k_D st) then None
                else if Nat.ltb x nr
                then Some {| k_seen := SX x :: k_seen st; k_F := (a, n) :: (x, n) :: k_F st; k_D := s :: k_D st |}
                else None
            end
          else None
      end
  | NInt _ | NCon _ =>
      if Nat.ltb x nr then Some {| k_seen := SX x :: k_seen st; k_F := (x, n) :: k_F st; k_D := k_D st |} else None
  | _ =>
      if (Nat.ltb x nr && str_ok n (en_kids e) && forallb (keeps x) (en_kids e))%bool then
        match chk_kids (en_kids e) {| k_seen := SX x :: k_seen st; k_F := ndel x (k_F st); k_D := k_D st |} with
        | Some st2 => Some {| k_seen := k_seen st2; k_F := (x, n) :: k_F st2; k_D := k_D st2 |}
        | None => None
        end
      else None
  end.
Fixpoint chk_ents (es : list ent) (st : kst) : option kst :=
  match es with
  | [] => Some st
  | e :: es' => match chk_ent e st with Some st1 => chk_ents es' st1 | None => None end
  end.
End Check.

(** --- valuations --- *)
Section Sound.
Variable sto : storage.
Hypothesis ok : sto_ok sto.

(** A valuation of addresses and one of variables agree where the variables are. *)
Definition cons_on (rho : nat -> gterm) (V : string -> option nat) (v : string -> gterm) : Prop :=
  forall s a, V s = Some a -> rho a = v s.
Definition vle_on (V V' : string -> option nat) : Prop := forall s a, V s = Some a -> V' s = Some a.

Lemma cons_on_mono rho V V' v : vle_on V V' -> cons_on rho V' v -> cons_on rho V v.
Proof. intros H K s a E. apply K. now apply H. Qed.

(** The term at [a] is the instance of [n]. *)
Definition vals (h : list cell) (V : string -> option nat) (a : nat) (n : node) : Prop :=
  forall rho v, sat sto rho h -> cons_on rho V v -> rho a = inst v n.
Definition fact (h : list cell) (V : string -> option nat) (a : nat) (n : node) : Prop :=
  (exists s, n = NVar s /\ V s = Some a) \/ (a < List.length h /\ vals h V a n).

Lemma sat_app rho h e : sat sto rho (h ++ e) -> sat sto rho h.
Proof. intros H a c E. apply H. rewrite nth_error_app1; [assumption|]. eapply nth_error_lt, E. Qed.
Lemma fact_mono h V a n e V' : fact h V a n -> vle_on V V' -> fact (h ++ e) V' a n.
Proof.
  intros [(s & -> & E)|[Hl H]] L; [left; eauto|right]. split; [rewrite app_length; lia|].
  intros rho v Hs Hc. apply H; [eapply sat_app; eauto|eapply cons_on_mono; eauto].
Qed.
Lemma fact_vals h V a n : fact h V a n -> vals h V a n.
Proof. intros [(s & -> & E)|[_ H]]; [|assumption]. intros rho v _ Hc. cbn. now apply Hc. Qed.

Lemma sat_agree h rho rho' : wfh sto 0 h -> (forall a, a < List.length h -> rho' a = rho a) ->
  sat sto rho h -> sat sto rho' h.
Proof.
  intros [Hw _] Ha Hs a c E. pose proof (Hw a c E) as W. pose proof (Hs a c E) as SS.
  pose proof (nth_error_lt _ _ _ E) as L.
  assert (M : forall k, a + k < List.length h -> map rho' (seq (S a) k) = map rho (seq (S a) k)).
  { intros k Hk. apply map_ext_in. intros b Hb. apply in_seq in Hb. apply Ha. lia. }
  destruct c; cbn in W, SS |- *.
  - rewrite Ha; assumption.
  - rewrite Ha; assumption.
  - rewrite !Ha by lia. assumption.
  - destruct W as (W0 & _ & W). rewrite Ha, M by lia. assumption.
  - destruct W as (W0 & _ & W). subst ar. change (Z.to_nat 2) with 2 in *. rewrite Ha, M by lia. assumption.
  - rewrite !Ha by lia. assumption.
Qed.

(** Cells of the kids of a structure and of single cells. *)
Inductive kcell (h : list cell) (V : string -> option nat) (a : nat) : cell -> node -> Prop :=
| kc_int t : kcell h V a (CInt (lit_val t)) (NInt t)
| kc_con t i : cidx sto (FV t 0) i -> kcell h V a (CCons i) (NCon t)
| kc_new t v : vidx sto t v -> V t = Some a -> kcell h V a (CRef a v) (NVar t)
| kc_old c b n : addr_of c = Some b -> b < a -> fact h V b n -> kcell h V a c n.

Lemma kcell_mono h V V' a c n : vle_on V V' -> kcell h V a c n -> kcell h V' a c n.
Proof.
  intros L H. destruct H; try (now constructor).
  - constructor; [assumption|now apply L].
  - econstructor; eauto. rewrite <- (app_nil_r h). eapply fact_mono; eauto.
Qed.
(** What the code of a goal with nodes [Q] may write into the cell at [a]. *)
Inductive ncell (Q : node -> Prop) (a : nat) : cell -> Prop :=
| nc_int z : ncell Q a (CInt z)
| nc_con t i : cidx sto (FV t 0) i -> Q (NCon t) -> ncell Q a (CCons i)
| nc_new t v : vidx sto t v -> Q (NVar t) -> ncell Q a (CRef a v)
| nc_old c b : addr_of c = Some b -> b < a -> ncell Q a c
| nc_str n c : scell sto n c -> ncell Q a c.
Lemma kcell_ncell (Q : node -> Prop) h V a c n : kcell h V a c n -> Q n -> ncell Q a c.
Proof. intros H q. destruct H; [constructor|econstructor; eauto|econstructor; eauto|eapply nc_old; eauto]. Qed.

Definition leaves (h : list cell) (V : string -> option nat) (B : nat) (ns : list node) (cs : list cell) : Prop :=
  List.length ns = List.length cs /\
  forall j c n, nth_error cs j = Some c -> nth_error ns j = Some n -> kcell h V (B + j) c n.

Lemma fn_cidx f i : cidx sto f i -> fn sto i = fv_name f.
Proof. unfold cidx, fn. intros ->. reflexivity. Qed.

Lemma leaf_val h V rho v a c n : kcell h V a c n -> sat sto rho h -> cons_on rho V v -> cell_sat sto rho a c ->
  rho a = inst v n.
Proof.
  intros H Hs Hc Hcell. destruct H as [t|t i Hi|t w Ht|c b n Hb Hlt Hf]; cbn in Hcell |- *.
  - assumption.
  - now rewrite Hcell, (fn_cidx _ _ Hi).
  - now apply Hc.
  - rewrite <- (fact_vals _ _ _ _ Hf rho v Hs Hc). destruct c; try discriminate; cbn in Hb; injection Hb as ->; exact Hcell.
Qed.
Lemma leaf_sat h V rho v a c n : kcell h V a c n -> sat sto rho h -> cons_on rho V v -> rho a = inst v n ->
  cell_sat sto rho a c.
Proof.
  intros H Hs Hc E. destruct H as [t|t i Hi|t w Ht|c b n Hb Hlt Hf]; cbn in E |- *.
  - assumption.
  - now rewrite (fn_cidx _ _ Hi).
  - reflexivity.
  - pose proof (fact_vals _ _ _ _ Hf rho v Hs Hc) as K.
    destruct c; try discriminate; cbn in Hb |- *; injection Hb as ->; congruence.
Qed.

(** Extending a well-formed heap by a block. *)
Lemma derefs_app h e n a d : derefs h n a d -> derefs (h ++ e) n a d.
Proof.
  intros H. induction H as [a Ha Hn|n a b d Hn H IH].
  - constructor; [rewrite app_length; lia|]. unfold next in *. rewrite nth_error_app1 by assumption. assumption.
  - econstructor; [|exact IH]. unfold next in *. rewrite nth_error_app1; [assumption|].
    destruct (nth_error h a) eqn:E; [eapply nth_error_lt; eauto|discriminate].
Qed.
Lemma wf_block p p' h cs : wfh sto p h -> p <= List.length cs + p' ->
  (forall j c, nth_error cs j = Some c ->
     wf_cell sto (List.length h + List.length cs) p' (List.length h + j) c /\
     match addr_of c with Some b => b <= List.length h + j | None => True end) ->
  wfh sto p' (h ++ cs).
Proof.
  intros [Hw Hd] Hp Hc. split.
  - intros a c E. rewrite app_length. destruct (Nat.lt_ge_cases a (List.length h)) as [L|L].
    + rewrite nth_error_app1 in E by assumption. specialize (Hw a c E). destruct c; cbn in Hw |- *; auto; try lia.
      destruct Hw as (A & B & C). repeat split; auto. lia.
    + rewrite nth_error_app2 in E by assumption. destruct (Hc _ _ E) as [W _].
      replace (List.length h + (a - List.length h)) with a in W by lia. exact W.
  - intros a Ha. rewrite app_length in Ha.
    assert (G : forall k a, a < k -> a < List.length h + List.length cs -> exists n d, derefs (h ++ cs) n a d).
    { induction k as [|k IH]; intros b Hk Hb; [lia|]. destruct (Nat.lt_ge_cases b (List.length h)) as [L|L].
      - destruct (Hd b L) as (n & d & K). exists n, d. now apply derefs_app.
      - destruct (nth_error cs (b - List.length h)) as [c|] eqn:E; [|apply nth_error_None in E; lia].
        destruct (Hc _ _ E) as [W A]. replace (List.length h + (b - List.length h)) with b in * by lia.
        assert (En : nth_error (h ++ cs) b = Some c) by (rewrite nth_error_app2 by assumption; exact E).
        destruct (next (h ++ cs) b) as [d|] eqn:En'.
        + assert (d < b).
          { unfold next in En'. rewrite En in En'. destruct c; cbn in A; try discriminate;
            (destruct (Nat.eqb_spec a0 b); [discriminate|]); injection En' as <-; lia. }
          destruct (IH d) as (n & r & K); [lia|lia|]. exists (S n), r. econstructor; eauto.
        + exists 0, b. constructor; [rewrite app_length; lia|assumption]. }
    eapply G; eauto.
Qed.
Lemma kcell_wf h V p len a c n : kcell h V a c n -> a < len -> wf_cell sto len p a c /\
  match addr_of c with Some b => b <= a | None => True end.
Proof.
  intros H L. destruct H as [t|t i Hi|t w Ht|c b n Hb Hlt Hf]; cbn; auto.
  - split; [|auto]. exists t. exact Hi.
  - rewrite Hb. destruct c; try discriminate; injection Hb as ->; cbn; split; lia.
Qed.

(** From a valuation of the old heap to one of the new heap. *)
Definition fwd (h : list cell) (V : string -> option nat) (h' : list cell) (V' : string -> option nat) : Prop :=
  forall rho v, sat sto rho h -> cons_on rho V v ->
    exists rho', (forall a, a < List.length h -> rho' a = rho a) /\ sat sto rho' h' /\ cons_on rho' V' v.
Lemma fwd_refl h V : fwd h V h V.
Proof. intros rho v Hs Hc. exists rho. auto. Qed.
Lemma fwd_trans h1 V1 h2 V2 h3 V3 : List.length h1 <= List.length h2 ->
  fwd h1 V1 h2 V2 -> fwd h2 V2 h3 V3 -> fwd h1 V1 h3 V3.
Proof.
  intros L A B rho v Hs Hc. destruct (A rho v Hs Hc) as (r1 & A1 & A2 & A3).
  destruct (B r1 v A2 A3) as (r2 & B1 & B2 & B3). exists r2. split; [|auto].
  intros a Ha. rewrite B1 by lia. now apply A1.
Qed.

(** where new variables are *)
Definition newvars (V V' : string -> option nat) (B : nat) (ns : list node) : Prop :=
  forall s a, V' s = Some a -> V s = Some a \/ (V s = None /\ exists j, a = B + j /\ nth_error ns j = Some (NVar s)).

Definition over (rho : nat -> gterm) (B : nat) (vs : list gterm) (a : nat) : gterm :=
  if Nat.ltb a B then rho a else nth (a - B) vs (rho a).
Lemma over_lt rho B vs a : a < B -> over rho B vs a = rho a.
Proof. intros H. unfold over. now rewrite (proj2 (Nat.ltb_lt _ _) H). Qed.
Lemma over_at rho B vs j t : nth_error vs j = Some t -> over rho B vs (B + j) = t.
Proof.
  intros H. unfold over. destruct (Nat.ltb_spec (B + j) B); [lia|].
  replace (B + j - B) with j by lia. now apply nth_error_nth.
Qed.

(** A single new cell. *)
Lemma leaf_block h V V' c n : wfh sto 0 h -> vle_on V V' -> (forall s a, V s = Some a -> a < List.length h) ->
  newvars V V' (List.length h) [n] ->
  kcell h V' (List.length h) c n ->
  wfh sto 0 (h ++ [c]) /\ vals (h ++ [c]) V' (List.length h) n /\ fwd h V (h ++ [c]) V'.
Proof.
  intros Hw L Hlt Hn Hk. split; [|split].
  - apply (wf_block 0 0); [assumption|lia|]. intros j d E. destruct j as [|[|j]]; cbn in E; try discriminate.
    injection E as <-. rewrite Nat.add_0_r. eapply kcell_wf; [eassumption|cbn; lia].
  - intros rho v Hs Hc. eapply leaf_val; [eassumption|eapply sat_app; eauto|assumption|].
    apply Hs. rewrite nth_error_app2, Nat.sub_diag by lia. reflexivity.
  - intros rho v Hs Hc. set (rho' := over rho (List.length h) [inst v n]).
    assert (R1 : forall a, a < List.length h -> rho' a = rho a) by (intros; now apply over_lt).
    assert (R2 : rho' (List.length h) = inst v n).
    { unfold rho'. rewrite <- (Nat.add_0_r (List.length h)) at 2. now apply over_at. }
    assert (Hs' : sat sto rho' h) by (eapply sat_agree; eauto).
    assert (Hc' : cons_on rho' V' v).
    { intros s a E. destruct (Hn s a E) as [E'|(_ & j & -> & E')].
      - rewrite R1 by eauto. auto.
      - destruct j as [|[|j]]; cbn in E'; try discriminate. injection E' as ->. rewrite Nat.add_0_r. exact R2. }
    exists rho'. split; [assumption|]. split; [|assumption].
    intros a d E. destruct (Nat.lt_ge_cases a (List.length h)) as [La|La].
    + rewrite nth_error_app1 in E by assumption. now apply Hs'.
    + rewrite nth_error_app2 in E by assumption. destruct (a - List.length h) as [|[|k]] eqn:Ea; cbn in E; try discriminate.
      injection E as <-. replace a with (List.length h) by lia. eapply leaf_sat; eauto.
Qed.

Lemma scell_val n c a rho : scell sto n c -> (forall f, In f (s_functors sto) -> (Z.of_nat (fv_arity f) <= 32767)%Z) ->
  (match n with NEv _ l => List.length l = 2 | _ => True end) ->
  (cell_sat sto rho a c <-> rho a = match n with NFun t l => GFun t (map rho (seq (S a) (List.length l)))
                                      | NEv t l => GEv t (map rho (seq (S a) (List.length l)))
                                      | _ => rho a end) /\
  (forall len p, a + List.length (kids n) < len + p -> wf_cell sto len p a c) /\ addr_of c = None.
Proof.
  intros H Har H2. destruct H as [t l i Hi|t l i Hi]; cbn [cell_sat kids].
  - assert (Ha : short_arity (FV t (List.length l)) = Z.of_nat (List.length l)).
    { unfold short_arity. cbn [fv_arity]. apply wrap16_small.
      assert (In (FV t (List.length l)) (s_functors sto)).
      { unfold cidx, nthZ in Hi. destruct (i <? 0)%Z; [discriminate|]. eapply nth_error_In; eauto. }
      specialize (Har _ H). cbn in Har. lia. }
    rewrite Ha, Nat2Z.id, (fn_cidx _ _ Hi). cbn [fv_name]. split; [tauto|]. split; [|reflexivity].
    intros len p L. cbn. rewrite Nat2Z.id. split; [lia|]. split; [|lia]. exists t. exact Hi.
  - apply op_index_name in Hi. destruct Hi as [E Hr]. rewrite E. rewrite H2. split; [tauto|].
    split; [|reflexivity]. intros len p L. cbn. lia.
Qed.

(** A structure with its arguments. *)
Lemma str_block h V V' c n cs : wfh sto 0 h -> vle_on V V' -> (forall s a, V s = Some a -> a < List.length h) ->
  scell sto n c -> (match n with NEv _ l => List.length l = 2 | _ => True end) ->
  newvars V V' (S (List.length h)) (kids n) ->
  leaves h V' (S (List.length h)) (kids n) cs ->
  wfh sto 0 (h ++ c :: cs) /\ vals (h ++ c :: cs) V' (List.length h) n /\ fwd h V (h ++ c :: cs) V'.
Proof.
  intros Hw L Hlt Hsc H2 Hn [Hlen Hk].
  pose proof (scell_val n c (List.length h)) as SV. split; [|split].
  - apply (wf_block 0 0); [assumption|lia|]. intros j d E. destruct j as [|j]; cbn in E.
    + injection E as <-. destruct (SV (fun _ => GInt 0) Hsc (so_arity _ ok) H2) as (_ & W & Ad).
      rewrite Nat.add_0_r, Ad. split; [|exact I]. apply W. cbn. lia.
    + destruct (nth_error (kids n) j) as [m|] eqn:Em.
      * specialize (Hk j d m E Em). replace (List.length h + S j) with (S (List.length h) + j) by lia.
        eapply kcell_wf; [eassumption|]. pose proof (nth_error_lt _ _ _ E). cbn. lia.
      * apply nth_error_None in Em. pose proof (nth_error_lt _ _ _ E). lia.
  - intros rho v Hs Hc. assert (Hs0 : sat sto rho h) by (eapply sat_app; eauto).
    assert (Hcell : cell_sat sto rho (List.length h) c).
    { apply Hs. rewrite nth_error_app2, Nat.sub_diag by lia. reflexivity. }
    apply (SV rho Hsc (so_arity _ ok) H2) in Hcell.
    assert (M : map rho (seq (S (List.length h)) (List.length (kids n))) = map (inst v) (kids n)).
    { apply nth_error_ext. intros j. rewrite !nth_error_map.
      destruct (nth_error (kids n) j) as [m|] eqn:Em.
      - pose proof (nth_error_lt _ _ _ Em) as Lj.
        rewrite (nth_error_nth' _ 0) by (rewrite seq_length; lia). rewrite seq_nth by assumption. cbn [option_map]. f_equal.
        destruct (nth_error cs j) as [d|] eqn:Ed; [|apply nth_error_None in Ed; lia].
        eapply leaf_val; [eapply Hk; eauto|assumption|assumption|]. apply Hs.
        rewrite nth_error_app2 by lia. replace (S (List.length h) + j - List.length h) with (S j) by lia. exact Ed.
      - apply nth_error_None in Em. rewrite (proj2 (nth_error_None _ _)); [reflexivity|]. rewrite seq_length. assumption. }
    destruct Hsc; cbn [kids] in *; rewrite Hcell; cbn [inst]; now rewrite M.
  - intros rho v Hs Hc. set (rho' := over rho (List.length h) (inst v n :: map (inst v) (kids n))).
    assert (R1 : forall a, a < List.length h -> rho' a = rho a) by (intros; now apply over_lt).
    assert (R2 : rho' (List.length h) = inst v n).
    { unfold rho'. rewrite <- (Nat.add_0_r (List.length h)) at 2. now apply over_at. }
    assert (R3 : forall j m, nth_error (kids n) j = Some m -> rho' (S (List.length h) + j) = inst v m).
    { intros j m E. unfold rho'. replace (S (List.length h) + j) with (List.length h + S j) by lia.
      apply over_at. cbn. rewrite nth_error_map, E. reflexivity. }
    assert (Hs' : sat sto rho' h) by (eapply sat_agree; eauto).
    assert (Hc' : cons_on rho' V' v).
    { intros s a E. destruct (Hn s a E) as [E'|(_ & j & -> & E')].
      - rewrite R1 by eauto. auto.
      - now apply R3 in E'. }
    exists rho'. split; [assumption|]. split; [|assumption].
    intros a d E. destruct (Nat.lt_ge_cases a (List.length h)) as [La|La].
    + rewrite nth_error_app1 in E by assumption. now apply Hs'.
    + rewrite nth_error_app2 in E by assumption. destruct (a - List.length h) as [|k] eqn:Ea; cbn in E.
      * injection E as <-. replace a with (List.length h) by lia. apply (SV rho' Hsc (so_arity _ ok) H2). rewrite R2.
        assert (M : map rho' (seq (S (List.length h)) (List.length (kids n))) = map (inst v) (kids n)).
        { apply nth_error_ext. intros j. rewrite !nth_error_map. destruct (nth_error (kids n) j) as [m|] eqn:Em.
          - pose proof (nth_error_lt _ _ _ Em) as Lj.
            rewrite (nth_error_nth' _ 0) by (rewrite seq_length; lia). rewrite seq_nth by assumption. cbn [option_map].
            f_equal. now apply R3.
          - apply nth_error_None in Em. rewrite (proj2 (nth_error_None _ _)); [reflexivity|]. rewrite seq_length. assumption. }
        destruct Hsc; cbn [kids inst] in *; now rewrite M.
      * replace a with (S (List.length h) + k) by lia.
        destruct (nth_error (kids n) k) as [m|] eqn:Em.
        -- apply (leaf_sat h V' rho' v _ _ m); [exact (Hk _ _ _ E Em)|assumption|assumption|]. now apply R3.
        -- apply nth_error_None in Em. pose proof (nth_error_lt _ _ _ E). lia.
Qed.
End Sound.
