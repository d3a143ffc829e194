(** What the generated code looks like, relative to the final tables. *)
From Verif Require Import Base Machine Heap Facts Compiler Spec Print Valuation Shape Session.
Open Scope string_scope.
Open Scope list_scope.

Definition cidx (sto : storage) (f : fview) (i : Z) : Prop := nthZ (s_functors sto) i = Some f.
Definition vidx (sto : storage) (nm : string) (v : Z) : Prop :=
  exists k, v = wrap16 (Z.of_nat k) /\ nth_error (s_vars sto) k = Some nm.
(** The tables are not too large for the 16 bit fields of a cell. *)
Record sto_ok (sto : storage) : Prop := {
  so_functors : (Z.of_nat (List.length (s_functors sto)) <= 32768)%Z;
  so_arity : forall f, In f (s_functors sto) -> (Z.of_nat (fv_arity f) <= 32767)%Z;
  so_nodup : NoDup (s_functors sto)
}.

Lemma wrap16_small z : (0 <= z < 32768)%Z -> wrap16 z = z.
Proof. intros H. unfold wrap16. rewrite Z.mod_small by lia. lia. Qed.
Lemma fv_pos_some f l k : fv_pos f l = Some k -> nth_error l k = Some f.
Proof.
  revert k. induction l as [|g l IH]; intros k; cbn; [discriminate|].
  destruct (fview_eqb f g) eqn:E.
  - intros H. injection H as <-. apply fview_eqb_eq in E. now subst.
  - destruct (fv_pos f l) as [j|]; [|discriminate]. intros H. injection H as <-. cbn. now apply IH.
Qed.
Lemma fv_pos_none f l : fv_pos f l = None -> ~ In f l.
Proof.
  induction l as [|g l IH]; cbn; [auto|]. destruct (fview_eqb f g) eqn:E; [discriminate|].
  destruct (fv_pos f l); [discriminate|]. intros _ [H|H]; [|now apply IH].
  subst g. rewrite fview_eqb_refl in E. discriminate.
Qed.
Lemma cfidx_ok f s i s' sto : cfidx f s = (COk i, s') -> sto_ext s' sto -> sto_ok sto -> cidx sto f i.
Proof.
  unfold cfidx, functor_index_of. intros E [[l El] _] [Hc _ _].
  assert (G : forall k, nth_error (s_functors s') k = Some f -> cidx sto f (wrap16 (Z.of_nat k))).
  { intros k Hk. assert (Hk' : nth_error (s_functors sto) k = Some f).
    { rewrite El, nth_error_app1; [assumption|eapply nth_error_lt; eassumption]. }
    pose proof (nth_error_lt _ _ _ Hk') as Hl. rewrite wrap16_small by lia.
    unfold cidx, nthZ. destruct (Z.ltb_spec (Z.of_nat k) 0); [lia|]. now rewrite Nat2Z.id. }
  destruct (fv_pos f (s_functors s)) as [k|] eqn:Ep; injection E as <- <-.
  - apply G. now apply fv_pos_some.
  - apply G. cbn. rewrite nth_error_app2, Nat.sub_diag by lia. reflexivity.
Qed.
Lemma cvar_ok nm s v s' sto : cvar nm s = (COk v, s') -> sto_ext s' sto -> vidx sto nm v.
Proof.
  unfold cvar, push_back_var. intros E [_ [l El]]. injection E as <- <-. exists (List.length (s_vars s)). split; [reflexivity|].
  rewrite El. cbn. rewrite <- app_assoc. rewrite nth_error_app2, Nat.sub_diag by lia. reflexivity.
Qed.
Lemma cstoi_ok t s v s' : cstoi t s = (COk v, s') -> v = lit_val t /\ s' = s.
Proof.
  unfold cstoi, lit_val. destruct (int_text_val t) as [n|]; [|discriminate].
  destruct (_ && _)%bool; [|discriminate]. intros E. injection E as <- <-. auto.
Qed.
Lemma copidx_ok t s i s' : copidx t s = (COk i, s') -> op_index t = Some i /\ s' = s.
Proof. unfold copidx. destruct (op_index t); [|discriminate]. intros E. injection E as <- <-. auto. Qed.
Lemma op_index_name t i : op_index t = Some i -> opn i = t /\ (0 <= i <= 4)%Z.
Proof.
  unfold op_index, opn. intros H.
  destruct (t =? "^") eqn:E1; [apply String.eqb_eq in E1; injection H as <-; subst; split; [reflexivity|lia]|].
  destruct (t =? "+") eqn:E2; [apply String.eqb_eq in E2; injection H as <-; subst; split; [reflexivity|lia]|].
  destruct (t =? "-") eqn:E3; [apply String.eqb_eq in E3; injection H as <-; subst; split; [reflexivity|lia]|].
  destruct (t =? "*") eqn:E4; [apply String.eqb_eq in E4; injection H as <-; subst; split; [reflexivity|lia]|].
  destruct (t =? "//") eqn:E5; [apply String.eqb_eq in E5; injection H as <-; subst; split; [reflexivity|lia]|].
  discriminate.
Qed.
Lemma functor_nodup f s : NoDup (s_functors s) -> NoDup (s_functors (snd (functor_index_of f s))).
Proof.
  intros H. unfold functor_index_of. destruct (fv_pos f (s_functors s)) eqn:E; cbn; [assumption|].
  apply fv_pos_none in E.
  induction (s_functors s) as [|g l IH]; cbn; [repeat constructor; auto|].
  inversion H as [|? ? H1 H2]; subst. constructor.
  - rewrite in_app_iff. intros [K|[K|[]]]; [contradiction|]. subst g. apply E. now left.
  - apply IH; [assumption|]. intros K. apply E. now right.
Qed.

(** A kid that takes part in the seen registers: a variable without permanent register, or a structure. *)
Definition xnode (perm : string -> option nat) (n : node) : Prop :=
  match n with NVar s => perm s = None | NFun _ _ | NEv _ _ => True | _ => False end.

Section Rel.
Variable sto : storage.
Variable perm : string -> option nat.

(** Code of a kid of a structure in a goal: register state before and after. *)
Inductive qkid : node * nat -> list sreg -> list instr -> list sreg -> Prop :=
| qk_int t x seen : qkid (NInt t, x) seen [IPutStruct (CInt (lit_val t)) x] seen
| qk_con t x seen i : cidx sto (FV t 0) i -> qkid (NCon t, x) seen [IPutStruct (CCons i) x] seen
| qk_pval t x y seen : perm t = Some y -> seen_in (SY y) seen = true -> qkid (NVar t, x) seen [ISetPVal y] seen
| qk_pvar t x y seen v : perm t = Some y -> seen_in (SY y) seen = false -> vidx sto t v ->
    qkid (NVar t, x) seen [ISetPVar y v] (SY y :: seen)
| qk_val n x seen : xnode perm n -> seen_in (SX x) seen = true -> qkid (n, x) seen [ISetVal x] seen
| qk_var n x seen v : xnode perm n -> seen_in (SX x) seen = false -> vidx sto (node_name n) v ->
    qkid (n, x) seen [ISetVar x v] (SX x :: seen).
Inductive qkids : list (node * nat) -> list sreg -> list instr -> list sreg -> Prop :=
| qks_nil seen : qkids [] seen [] seen
| qks_cons k ks s0 c1 s1 c2 s2 : qkid k s0 c1 s1 -> qkids ks s1 c2 s2 -> qkids (k :: ks) s0 (c1 ++ c2) s2.

(** The structure cell of a node *)
Inductive scell : node -> cell -> Prop :=
| sc_fun t l i : cidx sto (FV t (List.length l)) i -> scell (NFun t l) (CFun i (short_arity (FV t (List.length l))))
| sc_ev t l i : op_index t = Some i -> scell (NEv t l) (CEval i 2).

Inductive qent : ent -> list sreg -> list instr -> list sreg -> Prop :=
| qe_pval t x a ks y seen : perm t = Some y -> seen_in (SY y) seen = true ->
    qent {| en_node := NVar t; en_x := x; en_arg := Some a; en_kids := ks |} seen [IPutPVal y a] seen
| qe_pvar t x a ks y seen v : perm t = Some y -> seen_in (SY y) seen = false -> vidx sto t v ->
    qent {| en_node := NVar t; en_x := x; en_arg := Some a; en_kids := ks |} seen [IPutPVar y a v] (SY y :: seen)
| qe_val t x a ks seen : perm t = None -> seen_in (SX x) seen = true ->
    qent {| en_node := NVar t; en_x := x; en_arg := Some a; en_kids := ks |} seen [IPutVal x a] seen
| qe_var t x a ks seen v : perm t = None -> seen_in (SX x) seen = false -> vidx sto t v ->
    qent {| en_node := NVar t; en_x := x; en_arg := Some a; en_kids := ks |} seen [IPutVar x a v] (SX x :: seen)
| qe_none t x ks seen : qent {| en_node := NVar t; en_x := x; en_arg := None; en_kids := ks |} seen [] seen
| qe_int t x a ks seen :
    qent {| en_node := NInt t; en_x := x; en_arg := a; en_kids := ks |} seen
         [IPutStruct (CInt (lit_val t)) x] (SX x :: seen)
| qe_con t x a ks seen i : cidx sto (FV t 0) i ->
    qent {| en_node := NCon t; en_x := x; en_arg := a; en_kids := ks |} seen [IPutStruct (CCons i) x] (SX x :: seen)
| qe_str n x a ks seen c code s2 : scell n c -> qkids ks (SX x :: seen) code s2 ->
    qent {| en_node := n; en_x := x; en_arg := a; en_kids := ks |} seen (IPutStruct c x :: code) s2.
Inductive qents : list ent -> list sreg -> list instr -> list sreg -> Prop :=
| qes_nil seen : qents [] seen [] seen
| qes_cons k ks s0 c1 s1 c2 s2 : qent k s0 c1 s1 -> qents ks s1 c2 s2 -> qents (k :: ks) s0 (c1 ++ c2) s2.

(** The same for heads. *)
Inductive hkid : node * nat -> list sreg -> list instr -> list sreg -> Prop :=
| hk_int t x seen : hkid (NInt t, x) seen [IUniStruct (CInt (lit_val t)) x] seen
| hk_con t x seen i : cidx sto (FV t 0) i -> hkid (NCon t, x) seen [IUniStruct (CCons i) x] seen
| hk_pval t x y seen : perm t = Some y -> seen_in (SX x) seen = true -> hkid (NVar t, x) seen [IUniPVal y] seen
| hk_pvar t x y seen v : perm t = Some y -> seen_in (SX x) seen = false -> vidx sto t v ->
    hkid (NVar t, x) seen [IUniPVar y v] (SY y :: SX x :: seen)
| hk_val n x seen : xnode perm n -> seen_in (SX x) seen = true -> hkid (n, x) seen [IUniVal x] seen
| hk_var n x seen v : xnode perm n -> seen_in (SX x) seen = false -> vidx sto (node_name n) v ->
    hkid (n, x) seen [IUniVar x v] (SX x :: seen).
Inductive hkids : list (node * nat) -> list sreg -> list instr -> list sreg -> Prop :=
| hks_nil seen : hkids [] seen [] seen
| hks_cons k ks s0 c1 s1 c2 s2 : hkid k s0 c1 s1 -> hkids ks s1 c2 s2 -> hkids (k :: ks) s0 (c1 ++ c2) s2.
Inductive hent : ent -> list sreg -> list instr -> list sreg -> Prop :=
| he_pval t x a ks y seen : perm t = Some y -> seen_in (SX x) seen = true ->
    hent {| en_node := NVar t; en_x := x; en_arg := Some a; en_kids := ks |} seen [IGetPVal y a] seen
| he_pvar t x a ks y seen : perm t = Some y -> seen_in (SX x) seen = false ->
    hent {| en_node := NVar t; en_x := x; en_arg := Some a; en_kids := ks |} seen [IGetPVar y a] (SY y :: SX x :: seen)
| he_val t x a ks seen : perm t = None -> seen_in (SX x) seen = true ->
    hent {| en_node := NVar t; en_x := x; en_arg := Some a; en_kids := ks |} seen [IGetVal x a] seen
| he_var t x a ks seen : perm t = None -> seen_in (SX x) seen = false ->
    hent {| en_node := NVar t; en_x := x; en_arg := Some a; en_kids := ks |} seen [IGetVar x a] (SX x :: seen)
| he_none t x ks seen : hent {| en_node := NVar t; en_x := x; en_arg := None; en_kids := ks |} seen [] seen
| he_int t x a ks seen :
    hent {| en_node := NInt t; en_x := x; en_arg := a; en_kids := ks |} seen [IGetStruct (CInt (lit_val t)) x] seen
| he_con t x a ks seen i : cidx sto (FV t 0) i ->
    hent {| en_node := NCon t; en_x := x; en_arg := a; en_kids := ks |} seen [IGetStruct (CCons i) x] seen
| he_str n x a ks seen c code s2 : scell n c -> hkids ks seen code s2 ->
    hent {| en_node := n; en_x := x; en_arg := a; en_kids := ks |} seen (IGetStruct c x :: code) s2.
Inductive hents : list ent -> list sreg -> list instr -> list sreg -> Prop :=
| hes_nil seen : hents [] seen [] seen
| hes_cons k ks s0 c1 s1 c2 s2 : hent k s0 c1 s1 -> hents ks s1 c2 s2 -> hents (k :: ks) s0 (c1 ++ c2) s2.

Hypothesis ok : sto_ok sto.

Ltac inv H := injection H; intros; subst; clear H.
Lemma query_kid_rel k seen s c seen' s' : query_kid perm k seen s = (COk (c, seen'), s') -> sto_ext s' sto ->
  qkid k seen c seen'.
Proof.
  destruct k as [n x]. unfold query_kid. intros E X.
  assert (V : forall m, xnode perm m ->
    (if seen_in (SX x) seen then cret ([ISetVal x], seen)
     else v <~ cvar (node_name m) ;; cret ([ISetVar x v], SX x :: seen)) s = (COk (c, seen'), s') ->
    qkid (m, x) seen c seen').
  { intros m Hm Em. destruct (seen_in (SX x) seen) eqn:Es.
    - inv Em. now constructor.
    - apply cbind_ok in Em. destruct Em as (v & s1 & E1 & E2). inv E2. constructor; auto. eapply cvar_ok; eauto. }
  destruct n as [t|t|t|t l|t l]; try (apply V; [exact I|exact E]).
  - destruct (perm t) as [y|] eqn:Ep; [|apply V; assumption].
    destruct (seen_in (SY y) seen) eqn:Es; [inv E; now constructor|].
    apply cbind_ok in E. destruct E as (v & s1 & E1 & E2). inv E2. constructor; auto. eapply cvar_ok; eauto.
  - apply cbind_ok in E. destruct E as (v & s1 & E1 & E2). inv E2. constructor. eapply cfidx_ok; eauto.
  - apply cbind_ok in E. destruct E as (v & s1 & E1 & E2). inv E2. apply cstoi_ok in E1. destruct E1 as [-> _].
    constructor.
Qed.
Lemma query_kids_rel ks : forall seen s c seen' s', query_kids perm ks seen s = (COk (c, seen'), s') -> sto_ext s' sto ->
  qkids ks seen c seen'.
Proof.
  induction ks as [|k ks IH]; intros seen s c seen' s' E X; cbn [query_kids] in E.
  - inv E. constructor.
  - apply cbind_ok in E. destruct E as ([c1 s1] & t1 & E1 & E). apply cbind_ok in E. destruct E as ([c2 s2] & t2 & E2 & E).
    inv E. assert (sto_ext t1 s') by (pose proof (query_kids_ext perm ks s1 t1) as K; rewrite E2 in K; exact K).
    econstructor; [eapply query_kid_rel; eauto; eapply sto_ext_trans; eauto|eapply IH; eauto].
Qed.
Lemma query_ent_rel vx e seen s c seen' s' : query_ent perm vx e seen s = (COk (c, seen'), s') -> sto_ext s' sto ->
  qent e seen c seen'.
Proof.
  destruct e as [n x a ks]. unfold query_ent. cbn [en_node en_x en_arg en_kids]. intros E X.
  destruct n as [t|t|t|t l|t l].
  - destruct a as [a|]; [|inv E; constructor]. destruct (perm t) as [y|] eqn:Ep.
    + destruct (seen_in (SY y) seen) eqn:Es; [inv E; now constructor|].
      apply cbind_ok in E. destruct E as (v & s1 & E1 & E2). inv E2. constructor; auto. eapply cvar_ok; eauto.
    + destruct (seen_in (SX x) seen) eqn:Es; [inv E; now constructor|].
      apply cbind_ok in E. destruct E as (v & s1 & E1 & E2). inv E2. constructor; auto. eapply cvar_ok; eauto.
  - apply cbind_ok in E. destruct E as (v & s1 & E1 & E2). inv E2. constructor. eapply cfidx_ok; eauto.
  - apply cbind_ok in E. destruct E as (v & s1 & E1 & E2). inv E2. apply cstoi_ok in E1. destruct E1 as [-> _]. constructor.
  - apply cbind_ok in E. destruct E as (i & s1 & E1 & E). apply cbind_ok in E. destruct E as ([c2 s2] & t2 & E2 & E).
    inv E. assert (sto_ext s1 s') by (pose proof (query_kids_ext perm ks (SX x :: seen) s1) as K; rewrite E2 in K; exact K).
    apply qe_str; [apply sc_fun; eapply cfidx_ok; eauto; eapply sto_ext_trans; eauto|eapply query_kids_rel; eauto].
  - destruct (check_undefined _ _ _ _); [|discriminate].
    apply cbind_ok in E. destruct E as (i & s1 & E1 & E). apply cbind_ok in E. destruct E as ([c2 s2] & t2 & E2 & E).
    inv E. apply copidx_ok in E1. destruct E1 as [E1 ->].
    apply qe_str; [now apply sc_ev|eapply query_kids_rel; eauto].
Qed.
Lemma query_ents_rel vx es : forall seen s c seen' s', query_ents perm vx es seen s = (COk (c, seen'), s') -> sto_ext s' sto ->
  qents es seen c seen'.
Proof.
  induction es as [|k ks IH]; intros seen s c seen' s' E X; cbn [query_ents] in E.
  - inv E. constructor.
  - apply cbind_ok in E. destruct E as ([c1 s1] & t1 & E1 & E). apply cbind_ok in E. destruct E as ([c2 s2] & t2 & E2 & E).
    inv E. assert (sto_ext t1 s') by (pose proof (query_ents_ext perm vx ks s1 t1) as K; rewrite E2 in K; exact K).
    econstructor; [eapply query_ent_rel; eauto; eapply sto_ext_trans; eauto|eapply IH; eauto].
Qed.
Lemma prog_kid_rel k seen s c seen' s' : prog_kid perm k seen s = (COk (c, seen'), s') -> sto_ext s' sto ->
  hkid k seen c seen'.
Proof.
  destruct k as [n x]. unfold prog_kid. intros E X.
  assert (V : forall m, xnode perm m ->
    (if seen_in (SX x) seen then cret ([IUniVal x], seen)
     else v <~ cvar (node_name m) ;; cret ([IUniVar x v], SX x :: seen)) s = (COk (c, seen'), s') ->
    hkid (m, x) seen c seen').
  { intros m Hm Em. destruct (seen_in (SX x) seen) eqn:Es.
    - inv Em. now constructor.
    - apply cbind_ok in Em. destruct Em as (v & s1 & E1 & E2). inv E2. constructor; auto. eapply cvar_ok; eauto. }
  destruct n as [t|t|t|t l|t l]; try (apply V; [exact I|exact E]).
  - destruct (perm t) as [y|] eqn:Ep; [|apply V; assumption].
    destruct (seen_in (SX x) seen) eqn:Es; [inv E; now constructor|].
    apply cbind_ok in E. destruct E as (v & s1 & E1 & E2). inv E2. constructor; auto. eapply cvar_ok; eauto.
  - apply cbind_ok in E. destruct E as (v & s1 & E1 & E2). inv E2. constructor. eapply cfidx_ok; eauto.
  - apply cbind_ok in E. destruct E as (v & s1 & E1 & E2). inv E2. apply cstoi_ok in E1. destruct E1 as [-> _].
    constructor.
Qed.
Lemma prog_kids_rel ks : forall seen s c seen' s', prog_kids perm ks seen s = (COk (c, seen'), s') -> sto_ext s' sto ->
  hkids ks seen c seen'.
Proof.
  induction ks as [|k ks IH]; intros seen s c seen' s' E X; cbn [prog_kids] in E.
  - inv E. constructor.
  - apply cbind_ok in E. destruct E as ([c1 s1] & t1 & E1 & E). apply cbind_ok in E. destruct E as ([c2 s2] & t2 & E2 & E).
    inv E. assert (sto_ext t1 s') by (pose proof (prog_kids_ext perm ks s1 t1) as K; rewrite E2 in K; exact K).
    econstructor; [eapply prog_kid_rel; eauto; eapply sto_ext_trans; eauto|eapply IH; eauto].
Qed.
Lemma prog_ent_rel e seen s c seen' s' : prog_ent perm e seen s = (COk (c, seen'), s') -> sto_ext s' sto ->
  hent e seen c seen'.
Proof.
  destruct e as [n x a ks]. unfold prog_ent. cbn [en_node en_x en_arg en_kids]. intros E X.
  destruct n as [t|t|t|t l|t l].
  - destruct a as [a|]; [|inv E; constructor].
    destruct (seen_in (SX x) seen) eqn:Es; destruct (perm t) as [y|] eqn:Ep; inv E; now constructor.
  - apply cbind_ok in E. destruct E as (v & s1 & E1 & E2). inv E2. constructor. eapply cfidx_ok; eauto.
  - apply cbind_ok in E. destruct E as (v & s1 & E1 & E2). inv E2. apply cstoi_ok in E1. destruct E1 as [-> _]. constructor.
  - apply cbind_ok in E. destruct E as (i & s1 & E1 & E). apply cbind_ok in E. destruct E as ([c2 s2] & t2 & E2 & E).
    inv E. assert (sto_ext s1 s') by (pose proof (prog_kids_ext perm ks seen s1) as K; rewrite E2 in K; exact K).
    apply he_str; [apply sc_fun; eapply cfidx_ok; eauto; eapply sto_ext_trans; eauto|eapply prog_kids_rel; eauto].
  - apply cbind_ok in E. destruct E as (i & s1 & E1 & E). apply cbind_ok in E. destruct E as ([c2 s2] & t2 & E2 & E).
    inv E. apply copidx_ok in E1. destruct E1 as [E1 ->].
    apply he_str; [now apply sc_ev|eapply prog_kids_rel; eauto].
Qed.
Lemma prog_ents_rel es : forall seen s c seen' s', prog_ents perm es seen s = (COk (c, seen'), s') -> sto_ext s' sto ->
  hents es seen c seen'.
Proof.
  induction es as [|k ks IH]; intros seen s c seen' s' E X; cbn [prog_ents] in E.
  - inv E. constructor.
  - apply cbind_ok in E. destruct E as ([c1 s1] & t1 & E1 & E). apply cbind_ok in E. destruct E as ([c2 s2] & t2 & E2 & E).
    inv E. assert (sto_ext t1 s') by (pose proof (prog_ents_ext perm ks s1 t1) as K; rewrite E2 in K; exact K).
    econstructor; [eapply prog_ent_rel; eauto; eapply sto_ext_trans; eauto|eapply IH; eauto].
Qed.

Lemma to_query_rel a seen s c seen' s' : to_query perm a seen s = (COk (c, seen'), s') -> sto_ext s' sto ->
  exists is, c = is ++ [ICall (to_fview (aa_top a))] /\ qents (flatten_query a) seen is seen'.
Proof.
  unfold to_query. intros E X. apply cbind_ok in E. destruct E as ([c1 s1] & t1 & E1 & E). inv E.
  exists c1. split; [reflexivity|]. eapply query_ents_rel; eauto.
Qed.
Lemma to_program_rel a seen s c seen' s' : to_program perm a seen s = (COk (c, seen'), s') -> sto_ext s' sto ->
  exists is, c = is ++ [IProceed] /\ hents (flatten_program a) seen is seen'.
Proof.
  unfold to_program. intros E X. apply cbind_ok in E. destruct E as ([c1 s1] & t1 & E1 & E). inv E.
  exists c1. split; [reflexivity|]. eapply prog_ents_rel; eauto.
Qed.
End Rel.
