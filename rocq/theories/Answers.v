(** Answers and what they mean: soundness and completeness of runs. *)
From Verif Require Import Base Machine Heap Facts Compiler Parser Organizer Spec Print Valuation HeapSim Process Refine Mono Turn Shape Session Code Put Search PutRun Get Alloc Atoms Clause Stack Ready Heads Builtins Sols Solve Terms Shown Parsed Tables Root Order Cells Runs.
Open Scope string_scope.
Open Scope list_scope.

(** --- variables --- *)
Lemma bfs_vars k : forall q, fsize q <= k -> forall s,
  In s (flat_map (fun m => match m with NVar s => [s] | _ => [] end) (bfs q)) <-> In s (flat_map nvars q).
Proof.
  induction k as [|k IH]; intros q L s.
  - destruct q as [|n q]; [reflexivity|]. exfalso. destruct n; cbn in L; lia.
  - destruct q as [|n q]; [reflexivity|]. rewrite bfs_cons. cbn [flat_map]. rewrite !in_app_iff, IH.
    + rewrite flat_map_app, in_app_iff. destruct n as [t|t|t|t l|t l]; cbn [kids nvars flat_map In]; tauto.
    + assert (fsize (n :: q) = S (fsize (q ++ kids n))); [|lia].
      rewrite fsize_app. cbn. fold (fsize q). rewrite nsize_kids. lia.
Qed.
Lemma vars_of_nvars n : atom_ok n -> forall s, In s (vars_of n) <-> In s (nvars n).
Proof.
  intros A s. unfold vars_of, bfs_below. rewrite bfs_vars by reflexivity. destruct n as [t|t|t|t l|t l]; try contradiction; reflexivity.
Qed.
Lemma qvars_nvars q : Forall atom_ok q -> forall s, In s (flat_map vars_of q) <-> In s (flat_map nvars q).
Proof.
  intros F s. rewrite !in_flat_map. rewrite Forall_forall in F. split; intros (n & Hn & Hs); exists n; (split; [assumption|]); apply vars_of_nvars; auto.
Qed.
Lemma inst_agree v w n : (forall s, In s (nvars n) -> v s = w s) -> inst v n = inst w n.
Proof.
  revert n. fix IH 1. intros [t|t|t|t l|t l] H; cbn [inst]; try reflexivity.
  - apply H. now left.
  - f_equal. cbn [nvars] in H. induction l as [|m l IHl]; [reflexivity|]. cbn [map]. f_equal.
    + apply IH. intros s Hs. apply H. cbn. apply in_app_iff. auto.
    + apply IHl. intros s Hs. apply H. cbn. apply in_app_iff. auto.
  - f_equal. cbn [nvars] in H. induction l as [|m l IHl]; [reflexivity|]. cbn [map]. f_equal.
    + apply IH. intros s Hs. apply H. cbn. apply in_app_iff. auto.
    + apply IHl. intros s Hs. apply H. cbn. apply in_app_iff. auto.
Qed.

(** --- derivability --- *)
Section Prov.
Variable pw : Z -> Z -> option Z.
Lemma prov_in_prov P : forall k t, prov_in pw P k t -> prov pw P t.
Proof.
  fix IH 3. intros k t H. destruct H as [h b v ns Hin Hb|t|t u|n e He].
  - apply (prov_clause pw P h b v Hin). clear Hin. induction Hb as [|a n b' ns' Ha Hb IHb]; [intros a []|].
    intros a' [<-|K]; [exact (IH n _ Ha)|apply IHb; exact K].
  - constructor.
  - constructor.
  - now constructor.
Qed.
Lemma prov_ex P : forall t, prov pw P t -> exists k, prov_in pw P k t.
Proof.
  intros t H. induction H as [h b v Hin Hb IH|t|t u|n e He]; [|exists 1; now constructor..].
  assert (K : exists ns, Forall2 (fun a n => prov_in pw P n (inst v a)) b ns).
  { clear Hin Hb. induction b as [|a b IHb]; [exists []; constructor|].
    destruct IHb as (ns & F); [intros a' Ha; apply IH; now right|]. destruct (IH a) as (k & Hk); [now left|]. exists (k :: ns). now constructor. }
  destruct K as (ns & F). eexists. eapply pin_clause; eauto.
Qed.
Lemma prov_mono P P' : (forall h b v, In (h :: b) P -> exists h' b' v', In (h' :: b') P' /\ inst v' h' = inst v h /\ map (inst v') b' = map (inst v) b) ->
  forall t, prov pw P t -> prov pw P' t.
Proof.
  intros S t H. induction H as [h b v Hin Hb IH|t|t u|n e He]; [|now constructor..].
  destruct (S h b v Hin) as (h' & b' & v' & Hin' & E & Eb). rewrite <- E. apply (prov_clause pw P' h' b' v' Hin').
  intros a Ha. assert (K : In (inst v' a) (map (inst v) b)) by (rewrite <- Eb; now apply in_map).
  apply in_map_iff in K. destruct K as (a' & <- & Ha'). auto.
Qed.
(** the built-in clauses of append, with the names the code uses or others *)
Lemma prov_append P t : prov pw (PA P) t <-> prov pw (P ++ append_prog) t.
Proof.
  split; apply prov_mono; intros h b v Hin; apply in_app_iff in Hin; destruct Hin as [Hin|[Hin|[Hin|[]]]];
    try (exists h, b, v; csplit; auto; apply in_app_iff; now left); injection Hin as <- <-.
  - exists (NFun "append" [NFun "[" []; NVar "L"; NVar "L"]), [], (fun _ => v "List2"). csplit; auto. apply in_app_iff. right. now left.
  - eexists _, _, v. split; [apply in_app_iff; right; right; left; reflexivity|]. auto.
  - exists (NFun "append" [NFun "[" []; NVar "List2"; NVar "List2"]), [], (fun _ => v "L"). csplit; auto. apply in_app_iff. right. now left.
  - eexists _, _, v. split; [apply in_app_iff; right; right; left; reflexivity|]. auto.
Qed.
Lemma provs_prov P v q : (exists k, provs pw P v q k) <-> forall a, In a q -> prov pw P (inst v a).
Proof.
  split.
  - intros (k & ns & F & _). induction F as [|a n q ns Ha F IH]; [intros a []|]. intros a' [<-|K]; [eapply prov_in_prov; eauto|auto].
  - induction q as [|a q IH]; intros H; [exists 0; apply provs_nil; reflexivity|].
    destruct IH as (k2 & H2); [intros a' Ha; apply H; now right|]. destruct (prov_ex P (inst v a)) as (k1 & H1); [apply H; now left|].
    exists (k1 + k2). apply provs_cons. eauto 6.
Qed.
End Prov.

(** --- binding lists --- *)
Lemma NoDup_snoc {A} (l : list A) x : NoDup l -> ~ In x l -> NoDup (l ++ [x]).
Proof.
  intros N K. induction N as [|y l Hy N IH]; cbn; [repeat constructor; auto|]. constructor.
  - rewrite in_app_iff. intros [H|[H|[]]]; [auto|]. apply K. now left.
  - apply IH. intros H. apply K. now right.
Qed.
Lemma bind_names_spec p l : forall done b, bind_names p l done = Val b -> NoDup (map fst done) ->
  NoDup (map fst b) /\ (forall x, In x (map fst b) <-> In x (map fst done) \/ In x (map fst l)) /\
  (forall x s, In (x, s) b -> In (x, s) done \/ exists a, In (x, a) l /\ p a = Val s).
Proof.
  induction l as [|[nm a] l IH]; intros done b E N; cbn [bind_names] in E.
  - injection E as <-. csplit; auto. intros x. cbn. tauto.
  - destruct (existsb (fun b => fst b =? nm) done) eqn:Ex.
    + destruct (IH _ _ E N) as (A & B & C). csplit; auto.
      * intros x. rewrite B. cbn [map fst In]. split; [tauto|]. intros [K|[<-|K]]; auto. left.
        apply existsb_exists in Ex. destruct Ex as ((y & s) & Hy & Ey). apply String.eqb_eq in Ey. cbn in Ey. subst y.
        apply in_map_iff. exists (nm, s). auto.
      * intros x s K. destruct (C x s K) as [K1|(a' & K1 & K2)]; [auto|]. right. exists a'. split; [now right|assumption].
    + destruct (p a) as [s| |] eqn:Ep; cbn [bind] in E; try discriminate.
      assert (N' : NoDup (map fst (done ++ [(nm, s)]))).
      { rewrite map_app. apply NoDup_snoc; auto. intros K. apply in_map_iff in K. destruct K as ((y & s') & Ey & Hy). cbn in Ey. subst y.
        rewrite <- not_true_iff_false in Ex. apply Ex. apply existsb_exists. exists (nm, s'). split; [assumption|]. cbn. apply String.eqb_refl. }
      destruct (IH _ _ E N') as (A & B & C). csplit; auto.
      * intros x. rewrite B, map_app, in_app_iff. cbn. tauto.
      * intros x s' K. destruct (C x s' K) as [K1|(a' & K1 & K2)].
        -- apply in_app_iff in K1. destruct K1 as [K1|[K1|[]]]; [auto|]. injection K1 as <- <-. right. exists a. split; [now left|assumption].
        -- right. exists a'. split; [now right|assumption].
Qed.

Lemma choose_names (b : list (string * string)) (Q : string -> string -> tm -> Prop) : NoDup (map fst b) ->
  (forall x s, In (x, s) b -> exists t, Q x s t) -> exists sg, forall x s, In (x, s) b -> Q x s (sg x).
Proof.
  induction b as [|[y s] b IH]; intros N H; [exists (fun _ => TCon ""); intros x s []|].
  cbn in N. inversion N as [|? ? N1 N2]; subst. destruct IH as (sg & Hs); auto; [intros; apply H; now right|].
  destruct (H y s (or_introl eq_refl)) as (t & Ht).
  exists (fun x => if String.eqb x y then t else sg x). intros x s' [E|K].
  - injection E as <- <-. now rewrite String.eqb_refl.
  - destruct (String.eqb_spec x y) as [->|Ne]; [|auto]. exfalso. apply N1. apply in_map_iff. exists (y, s'). auto.
Qed.

(** --- one answer --- *)
Section Answer.
Variable sto : storage.
Variable h : list cell.
Variable qv : list string.
Hypothesis FO : forall d i n nm k, nth_error h d = Some (CFun i n) -> nthZ (s_functors sto) i = Some (FV nm k) -> fun_ok nm k.
Variable V : string -> option nat.
Variable tr : list (string * nat).
Variable fuel : nat.
Variable b : list (string * string).
Hypothesis W : wfh sto 0 h.
Hypothesis TR : trail_ok sto h V tr.
Hypothesis QV : forall s, V s <> None <-> In s qv.
Hypothesis AO : answer_of sto fuel h (Val tr) = Val b.

Lemma answer_names : NoDup (map fst b) /\ forall x, In x (map fst b) <-> In x qv.
Proof.
  unfold answer_of in AO. cbn [bind] in AO. apply bind_names_spec in AO; [|constructor]. destruct AO as (A & B & _). split; [assumption|].
  intros x. rewrite B, <- QV. destruct TR as [_ T2]. rewrite T2. cbn. tauto.
Qed.
(** the terms printed: of each variable the term at its address *)
Definition shows (sg : string -> tm) : Prop :=
  reads b sg /\ forall x, In x qv -> exists a, V x = Some a /\ exists a', In (x, a') tr /\ rd sto h a' (sg x).
Lemma answer_shows : exists sg, shows sg.
Proof.
  destruct answer_names as [Nd Nm]. unfold answer_of in AO. cbn [bind] in AO. apply bind_names_spec in AO; [|constructor]. destruct AO as (_ & _ & C).
  destruct (choose_names b (fun x s t => s = printed false t /\ exists a', In (x, a') tr /\ rd sto h a' t) Nd) as (sg & Hs).
  { intros x s K. destruct (C x s K) as [[]|(a & Ka & Es)]. 
    destruct (str_printed sto h (map fst tr) W FO fuel false a s Es) as (t' & Rt' & ->). exists t'. eauto. }
  exists sg. split; [intros x s K; apply (Hs x s K)|]. intros x Hx. apply QV in Hx. destruct (V x) as [a|] eqn:Ex; [|congruence].
  exists a. split; [reflexivity|]. assert (K : In x (map fst b)) by (apply Nm, QV; congruence). apply in_map_iff in K. destruct K as ((y & s) & Ey & K).
  cbn in Ey. subst y. apply (Hs x s K).
Qed.
Lemma shows_val sg rho : shows sg -> sat sto rho h -> forall x, In x qv -> exists a, V x = Some a /\ rho a = ginst rho (sg x).
Proof.
  intros [_ H] Hs x Hx. destruct (H x Hx) as (a & Ex & a' & Hin & Rt). exists a. split; [assumption|].
  destruct TR as [T1 _]. destruct (T1 x a' Hin) as [_ T]. pose proof (T rho (vof rho V) Hs (vof_cons rho V)) as E. cbn [inst] in E.
  unfold vof in E. rewrite Ex in E. rewrite <- E. eapply sat_rd; eauto.
Qed.
Lemma shows_ground sg g : finite_terms sto h -> shows sg -> exists rho, sat sto rho h /\ forall x, In x qv -> vof rho V x = ginst g (sg x).
Proof.
  intros Fin [_ H]. destruct (ground_fin sto h W Fin g) as (rho & Hs & G). exists rho. split; [assumption|]. intros x Hx.
  destruct (H x Hx) as (a & Ex & a' & Hin & Rt). destruct TR as [T1 _]. destruct (T1 x a' Hin) as [La T].
  pose proof (T rho (vof rho V) Hs (vof_cons rho V)) as E. cbn [inst] in E. rewrite <- E. now apply G.
Qed.
End Answer.

(** --- sessions --- *)
Record small_tables (sto : storage) : Prop := {
  st_functors : (Z.of_nat (List.length (s_functors sto)) <= 32768)%Z;
  st_arity : forall f, In f (s_functors sto) -> (Z.of_nat (fv_arity f) <= 32767)%Z }.
Definition no_clash (cf : cfg) (P : list (list node)) : Prop := forall c, In c P -> clause_ok cf c = true.
(** no comparison of terms *)
Definition no_compare (n : node) : Prop := to_fview n <> FV "==" 2 /\ to_fview n <> FV "\==" 2.
Definition no_is (n : node) : Prop := to_fview n <> FV "is" 2.
Definition all_goals (Q : node -> Prop) (P : list (list node)) (q : list node) : Prop :=
  (forall c n, In c P -> In n (tl c) -> Q n) /\ forall n, In n q -> Q n.
(** no branch, when it completes a turn, has built a cyclic term *)
Definition no_cycles (cf : cfg) (o : org) : Prop := forall root pi p h, root_of o root ->
  at_path cf (o_sto o) (o_prog o) root pi p -> ends_with cf (o_sto o) p h -> finite_terms (o_sto o) h.

Lemma special_compare n : no_compare n -> special (to_fview n) = None \/ to_fview n = FV "is" 2.
Proof.
  intros [A B]. destruct (special (to_fview n)) as [i|] eqn:E; [|auto]. right.
  destruct (special_eq _ _ E) as [[K _]|[[K _]|[K _]]]; auto; contradiction.
Qed.

Section Session.
Variable cf : cfg.
Hypothesis OK : ord_ok cf.
Variable o : org.
Variable P : list (list node).
Variable q : list node.
Hypothesis HS : session cf o P (QFresh q).
Hypothesis SM : small_tables (o_sto o).
Hypothesis NC : no_clash cf P.
Notation sto := (o_sto o).
Notation pg := (o_prog o).
Definition pure : Prop := all_goals no_compare P q.
Definition noarith : Prop := all_goals no_is P q.
Notation qv := (flat_map vars_of q).
Notation pok := (pok cf sto P pure noarith qv).

Lemma sess_ok : sto_ok sto.
Proof. destruct SM. split; auto. eapply session_nodup; eauto. Qed.
Lemma sess_query : q <> [] /\ Forall atom_ok q.
Proof. exact (proj2 (session_parsed _ _ _ _ HS)). Qed.
Lemma sess_good c : In c (PA P) -> Forall (good pure noarith) (tl c).
Proof.
  intros Hc. apply in_app_iff in Hc. destruct Hc as [Hc|Hc]; [|apply (append_ok cf OK c Hc)].
  apply Forall_forall. intros n Hn. split; intros [K _]; [apply special_compare|]; apply (K c n Hc Hn).
Qed.
Lemma sess_qgood : Forall (good pure noarith) q.
Proof. apply Forall_forall. intros n Hn. split; intros [_ K]; [apply special_compare|]; apply (K n Hn). Qed.
Lemma sess_CW : forall c, In c (PA P) -> clause_wf c /\ clause_ok cf c = true /\ Forall (good pure noarith) (tl c).
Proof.
  intros c Hc. pose proof (sess_good c Hc) as G. apply in_app_iff in Hc. destruct Hc as [Hc|Hc].
  - csplit; auto. destruct (session_parsed _ _ _ _ HS) as [[W _] _]. rewrite Forall_forall in W. auto.
  - destruct (append_ok cf OK c Hc) as (A & B & _). auto.
Qed.
Lemma sess_NR : pure -> forall f, special f <> None \/ is_append f = true -> clauses_of f P = [].
Proof. intros _. apply (session_parsed _ _ _ _ HS). Qed.
Lemma sess_PC : prog_code cf sto P pg.
Proof. apply (session_inv _ _ _ _ HS). Qed.
Lemma sess_root root : root_of o root -> pfit sto root /\
  exists S0, pok root S0 /\ forall v k, S0 v k <-> provs (pow_of cf) (PA P) v q k.
Proof.
  intros (r & Er & ->). destruct (session_inv _ _ _ _ HS) as [_ (r' & Q1 & Q2 & Q3 & Q4 & Q5)].
  assert (r = r') as ->.
  { rewrite Q3 in Er. injection Er as E. unfold query_ptrs in E. clear - E. revert r' E. induction r as [|a x IH]; intros [|b y] E; try discriminate; [reflexivity|].
    cbn in E. injection E as -> E. f_equal. now apply IH. }
  destruct sess_query as [Ne Fa]. split; [eapply root_fit; eauto; apply sess_ok|].
  apply root_pok; auto; [apply sess_ok|apply sess_qgood].
Qed.
Lemma sess_heap root pi p h : root_of o root -> at_path cf sto pg root pi p -> ends_with cf sto p h ->
  forall d i n nm k, nth_error h d = Some (CFun i n) -> nthZ (s_functors sto) i = Some (FV nm k) -> fun_ok nm k.
Proof.
  intros Hr Hp (fuel & a & rest & m & Ec & Er & <-) d i n nm k Hd Hi.
  assert (F : pfit sto p).
  { eapply path_fit; [apply sess_ok|apply sess_PC|apply (session_parsed _ _ _ _ HS)| |apply (sess_root _ Hr)|exact Hp].
    apply Forall_forall. intros c Hc. apply (append_ok cf OK c Hc). }
  pose proof (ends_fit cf sto p fuel a rest _ _ F Ec Er) as [M _]. rewrite Forall_forall in M.
  specialize (M _ (nth_error_In _ _ Hd)). destruct M as (nm' & k' & C & _ & K). unfold cidx in C. rewrite Hi in C. now injection C as -> ->.
Qed.

(** the answers in a search *)
Lemma sess_search rs o' : run cf o rs o' -> exists root T Q k, root_of o root /\ search cf sto pg root T Q /\
  delivered rs = map snd (outs T) ++ repeat RFalse k /\ (k <> 0 -> Q = []) /\ refines cf o' (map snd Q).
Proof.
  intros HR. destruct (run_search _ _ _ _ _ _ HS HR) as (rl & T & Q & g & k & _ & Hr & Hf & S & _ & _ & _ & _ & D & E).
  exists (init_proc rl), T, Q, k. csplit; auto.
Qed.
Lemma answer_turn T k b : In (RAnswer b) (map snd (outs T) ++ repeat RFalse k) <-> exists pi p, In (pi, p, PDone b) T.
Proof.
  rewrite in_app_iff. split.
  - intros [K|K]; [|apply repeat_spec in K; discriminate]. apply in_map_iff in K. destruct K as ((pi & x) & E & K). cbn in E. subst x.
    unfold outs in K. apply in_flat_map in K. destruct K as (((pi' & p) & r) & Hin & K). cbn in K.
    destruct r as [|e|b'|ps]; cbn in K; try contradiction; destruct K as [K|[]]; try discriminate K; injection K as <- ->.
    exists pi', p. assumption.
  - intros (pi & p & K). left. apply in_map_iff. exists (pi, RAnswer b). split; [reflexivity|]. unfold outs. apply in_flat_map.
    exists (pi, p, PDone b). split; [assumption|now left].
Qed.
Lemma error_turn T k e : In (RError e) (map snd (outs T) ++ repeat RFalse k) <-> exists pi p, In (pi, p, PErr e) T.
Proof.
  rewrite in_app_iff. split.
  - intros [K|K]; [|apply repeat_spec in K; discriminate]. apply in_map_iff in K. destruct K as ((pi & x) & E & K). cbn in E. subst x.
    unfold outs in K. apply in_flat_map in K. destruct K as (((pi' & p) & r) & Hin & K). cbn in K.
    destruct r as [|e'|b'|ps]; cbn in K; try contradiction; destruct K as [K|[]]; try discriminate K; injection K as <- ->.
    exists pi', p. assumption.
  - intros (pi & p & K). left. apply in_map_iff. exists (pi, RError e). split; [reflexivity|]. unfold outs. apply in_flat_map.
    exists (pi, p, PErr e). split; [assumption|now left].
Qed.

(** How an answer comes about: the heap [h] at the end of a branch, the addresses [tr] of the variables of the query, and the
    solutions [Si] that are left, each of them a solution of the query. *)
Record answered (b : list (string * string)) (h : list cell) (V : string -> option nat) (tr : list (string * nat)) (Si : sols) : Prop := {
  an_path : exists root pi p, root_of o root /\ at_path cf sto pg root pi p /\ ends_with cf sto p h;
  an_wf : wfh sto 0 h;
  an_trail : trail_ok sto h V tr;
  an_vars : forall s, V s <> None <-> In s qv;
  an_text : exists fuel, answer_of sto fuel h (Val tr) = Val b;
  an_sound : forall rho v, sat sto rho h -> cons_on rho V v -> Si v 0;
  an_compl : forall v k, Si v k -> exists rho, sat sto rho h /\ cons_on rho V v;
  an_below : forall v k, Si v k -> exists k', provs (pow_of cf) (PA P) v q k' }.
Definition covers (b : list (string * string)) (v : string -> gterm) : Prop := exists h V tr Si k, answered b h V tr Si /\ Si v k.
Lemma an_heap b h V tr Si : answered b h V tr Si ->
  forall d i n nm k, nth_error h d = Some (CFun i n) -> nthZ (s_functors sto) i = Some (FV nm k) -> fun_ok nm k.
Proof. intros A. destruct (an_path _ _ _ _ _ A) as (root & pi & p & Hr & At & He). exact (sess_heap root pi p h Hr At He). Qed.
Lemma an_names b h V tr Si : answered b h V tr Si -> NoDup (map fst b) /\ forall x, In x (map fst b) <-> In x (flat_map nvars q).
Proof.
  intros A. destruct (an_text _ _ _ _ _ A) as (fuel & AO). destruct (answer_names sto h qv V tr fuel b (an_trail _ _ _ _ _ A) (an_vars _ _ _ _ _ A) AO) as [N1 N2].
  split; [assumption|]. intros x. rewrite N2. apply qvars_nvars, sess_query.
Qed.
Lemma an_ground b h V tr Si sg : answered b h V tr Si -> shows sto h qv V tr b sg -> no_cycles cf o -> forall g, exists v k,
  provs (pow_of cf) (PA P) v q k /\ Si v 0 /\ forall x, In x (flat_map nvars q) -> v x = ginst g (sg x).
Proof.
  intros A Sh NCy g. destruct (an_path _ _ _ _ _ A) as (root & pi & p & Hr & At & He).
  destruct (shows_ground sto h qv V tr b (an_wf _ _ _ _ _ A) (an_trail _ _ _ _ _ A) sg g (NCy root pi p h Hr At He) Sh) as (rho & Hs & Hv).
  pose proof (an_sound _ _ _ _ _ A rho (vof rho V) Hs (vof_cons rho V)) as K. destruct (an_below _ _ _ _ _ A _ _ K) as (k & Hk).
  exists (vof rho V), k. csplit; auto. intros x Hx. apply Hv. apply qvars_nvars; [apply sess_query|exact Hx].
Qed.
Lemma an_prov b h V tr Si sg : answered b h V tr Si -> shows sto h qv V tr b sg -> no_cycles cf o -> forall g a, In a q ->
  prov (pow_of cf) (P ++ append_prog) (inst (fun x => ginst g (sg x)) a).
Proof.
  intros A Sh NCy g a Ha. destruct (an_ground b h V tr Si sg A Sh NCy g) as (v & k & Hk & _ & Hv). apply prov_append. rewrite (inst_agree _ v).
  - revert a Ha. apply provs_prov. eauto.
  - intros s Hs. symmetry. apply Hv. apply in_flat_map. eauto.
Qed.
Lemma an_instance b h V tr Si sg v k : answered b h V tr Si -> shows sto h qv V tr b sg -> Si v k ->
  exists g, forall x, In x (flat_map nvars q) -> ginst g (sg x) = v x.
Proof.
  intros A Sh Hv. destruct (an_compl _ _ _ _ _ A v k Hv) as (rho & Hs & Hc). exists rho. intros x Hx. apply qvars_nvars in Hx; [|apply sess_query].
  destruct (shows_val sto h qv V tr b (an_trail _ _ _ _ _ A) sg rho Sh Hs x Hx) as (a & Ea & E). rewrite <- E. now apply Hc.
Qed.
Lemma an_shows b h V tr Si : answered b h V tr Si -> exists sg, shows sto h qv V tr b sg.
Proof.
  intros A. destruct (an_text _ _ _ _ _ A) as (fuel & AO).
  exact (answer_shows sto h qv (an_heap _ _ _ _ _ A) V tr fuel b (an_wf _ _ _ _ _ A) (an_trail _ _ _ _ _ A) (an_vars _ _ _ _ _ A) AO).
Qed.
Lemma done_answered root S0 T Q pi p b Si h n : root_of o root -> (forall v k, S0 v k <-> provs (pow_of cf) (PA P) v q k) ->
  search cf sto pg root T Q -> In (pi, p, PDone b) T -> ends_with cf sto p h -> answer_for sto qv Si h b -> below S0 Si n ->
  exists V tr, answered b h V tr Si.
Proof.
  intros Hr HS0 S Hb He (fuel & V & tr & W & TR & QV & AO & Snd & Cmp) Bl. exists V, tr.
  assert (At : at_path cf sto pg root pi p) by (destruct (search_order _ _ _ _ _ _ S) as (_ & _ & S3 & _); apply (S3 _ _ _ Hb)).
  constructor; try assumption; [exists root, pi, p; auto|now exists fuel|].
  intros v k Hv. destruct (Bl v k Hv) as (k' & Hk & _). exists k'. now apply HS0.
Qed.

(** C25 for programs without clash, C01 *)
Lemma delivered_answered rs o' b : run cf o rs o' -> In (RAnswer b) (delivered rs) -> exists h V tr Si, answered b h V tr Si.
Proof.
  intros HR Hb. destruct (sess_search rs o' HR) as (root & T & Q & k & Hr & S & D & _ & _). rewrite D in Hb. apply answer_turn in Hb.
  destruct Hb as (pi & p & Hb). destruct (sess_root root Hr) as (_ & S0 & Hp & HS0). destruct (rules_bound pg) as (R & RL).
  destruct (search_sound cf OK sto sess_ok pg P pure noarith sess_PC sess_CW sess_NR R RL qv root S0 Hp T Q S) as (_ & K & _).
  destruct (K pi p b Hb) as (Si & h & He & An & Bl). destruct (done_answered root S0 T Q pi p b Si h _ Hr HS0 S Hb He An Bl) as (V & tr & A). eauto.
Qed.
Theorem answers_sound rs o' b : run cf o rs o' -> In (RAnswer b) (delivered rs) ->
  NoDup (map fst b) /\ (forall x, In x (map fst b) <-> In x (flat_map nvars q)) /\
  (no_cycles cf o -> exists sg, reads b sg /\
     forall g a, In a q -> prov (pow_of cf) (P ++ append_prog) (inst (fun x => ginst g (sg x)) a)).
Proof.
  intros HR Hb. destruct (delivered_answered rs o' b HR Hb) as (h & V & tr & Si & A). destruct (an_names _ _ _ _ _ A) as [N1 N2]. csplit; auto.
  intros NCy. destruct (an_shows _ _ _ _ _ A) as (sg & Sh). exists sg. split; [apply Sh|]. exact (an_prov _ _ _ _ _ sg A Sh NCy).
Qed.
Lemma answer_covers root S0 T Q pi p b Si h v k n : root_of o root -> (forall v k, S0 v k <-> provs (pow_of cf) (PA P) v q k) ->
  search cf sto pg root T Q -> In (pi, p, PDone b) T -> ends_with cf sto p h ->
  answer_for sto qv Si h b -> below S0 Si n -> Si v k -> covers b v.
Proof. intros Hr HS0 S Hb He An Bl Hv. destruct (done_answered root S0 T Q pi p b Si h n Hr HS0 S Hb He An Bl) as (V & tr & A). exists h, V, tr, Si, k. auto. Qed.

(** C43 *)
Theorem failure_exact rs o' : run cf o rs o' -> In RFalse (delivered rs) ->
  o_queue o' = [] /\
  (forall fuel w r o2, forall n, get_answer cf fuel n w o' = Val (r, o2) -> r = RFalse) /\
  (pure -> (forall x, ~ In (RError (EUnbound x)) (delivered rs)) -> forall v,
     (forall a, In a q -> prov (pow_of cf) (P ++ append_prog) (inst v a)) -> exists b, In (RAnswer b) (delivered rs) /\ covers b v).
Proof.
  intros HR Hf. destruct (sess_search rs o' HR) as (root & T & Q & k & Hr & S & D & HQ & Rf). rewrite D in Hf.
  assert (Q = []) as ->.
  { apply HQ. intros ->. apply in_app_iff in Hf. destruct Hf as [K|[]]. apply in_map_iff in K. destruct K as ((pi & x) & E & K). cbn in E. subst x.
    unfold outs in K. apply in_flat_map in K. destruct K as (((pi' & p) & r) & Hin & K). cbn in K.
    destruct r as [|e|b'|ps]; cbn in K; try contradiction; destruct K as [K|[]]; discriminate. }
  cbn in Rf. pose proof (turn_refines cf 0 o' [] Rf) as [_ Eq]. csplit.
  - exact Eq.
  - intros fuel w r o2 n E. unfold get_answer in E. destruct n as [|n]; [discriminate|]. cbn [answer_loop] in E. rewrite Eq in E. injection E as <- _. reflexivity.
  - intros Pu NE v Hv. destruct (sess_root root Hr) as (_ & S0 & Hp & HS0). destruct (rules_bound pg) as (R & RL).
    assert (Hk : exists k, S0 v k).
    { destruct (proj2 (provs_prov (pow_of cf) (PA P) v q)) as (k' & Hk'); [intros a Ha; apply prov_append; auto|]. exists k'. now apply HS0. }
    destruct Hk as (k0 & Hk0).
    destruct (search_complete cf OK sto sess_ok pg P pure noarith sess_PC sess_CW sess_NR R RL qv root S0 Hp T [] S Pu) with (v := v) (k := k0)
      as [(pi & p & b & Si & h & k' & Hb & He & Ha & HSi & _ & _ & Bl)|(pi & p & Si & k' & [] & _)]; auto.
    { intros pi p x K. apply (NE x). rewrite D. apply error_turn. eauto. }
    exists b. split; [rewrite D; apply answer_turn; eauto|]. eapply answer_covers; eauto.
Qed.
End Session.
