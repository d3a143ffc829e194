(** The unification tree is returned: every name is found and written, for searches without cyclic terms. *)
From Verif Require Import Base Machine Heap Facts HeapSim Compiler Parser Print Organizer Spec Valuation Process Refine Mono Turn Shape Session
  Code Put Search PutRun Get Alloc Atoms Clause Stack Ready Heads Builtins Sols Solve Terms Shown Parsed Tables Root Order Runs Answers
  Clash Sim Cells Total Examples Witness Finite Tree TreeTurn TreeInv TreeRun TreeSrc TreeFacts TreeShape TreeAll TreeCase Labels Bound Names.
Open Scope string_scope.
Open Scope list_scope.

(** --- computations that return for all sufficiently large fuel --- *)
Definition ev {A} (c : nat -> out A) (Q : A -> Prop) : Prop := exists N x, Q x /\ forall f, N <= f -> c f = Val x.
Lemma ev_val {A} (x : A) (Q : A -> Prop) : Q x -> ev (fun _ => Val x) Q.
Proof. intros H. exists 0, x. auto. Qed.
Lemma ev_out {A} (c : out A) (x : A) (Q : A -> Prop) : c = Val x -> Q x -> ev (fun _ => c) Q.
Proof. intros E H. exists 0, x. auto. Qed.
Lemma ev_bind {A B} (c : nat -> out A) (k : nat -> A -> out B) (Q : A -> Prop) (R : B -> Prop) :
  ev c Q -> (forall x, Q x -> ev (fun f => k f x) R) -> ev (fun f => bind (c f) (k f)) R.
Proof.
  intros (N & x & Hx & E) K. destruct (K x Hx) as (N' & y & Hy & E'). exists (Nat.max N N'), y. split; [assumption|].
  intros f Hf. rewrite (E f) by lia. cbn [bind]. apply E'. lia.
Qed.
Lemma ev_weak {A} (c : nat -> out A) (Q R : A -> Prop) : ev c Q -> (forall x, Q x -> R x) -> ev c R.
Proof. intros (N & x & H & E) K. exists N, x. auto. Qed.
Lemma ev_ext {A} (c d : nat -> out A) Q : (forall f, c f = d f) -> ev c Q -> ev d Q.
Proof. intros H (N & x & Hx & E). exists N, x. split; [assumption|]. intros f Hf. now rewrite <- H, E. Qed.
Lemma ev_step {A} (c : nat -> out A) (Q : A -> Prop) : ev (fun f => c (S f)) Q -> ev c Q.
Proof. intros (N & x & Hx & E). exists (S N), x. split; [assumption|]. intros [|f] Hf; [lia|]. apply E. lia. Qed.

(** --- terms as they are shown --- *)
Section Nice.
Variables GV GC : string -> Prop.
Variable B : nat.
Fixpoint nice (n : rnode) : Prop :=
  match n with
  | RVar s a => GV s /\ a < B
  | RCon s => GC s
  | RInt s => s <> "["
  | RFun s l => (s = "[" -> List.length l = 0 \/ List.length l = 2) /\ (s <> "[" -> l <> []) /\ fold_right (fun m P => nice m /\ P) True l
  | REv s l => List.length l = 2 /\ fold_right (fun m P => nice m /\ P) True l
  end.
Lemma nices_all l : fold_right (fun m P => nice m /\ P) True l <-> Forall nice l.
Proof. induction l as [|a l IH]; cbn; [split; auto|]. rewrite IH. split; [intros [A C]; auto|intros H; inversion H; auto]. Qed.
Lemma nice_fun s l : nice (RFun s l) <-> (s = "[" -> List.length l = 0 \/ List.length l = 2) /\ (s <> "[" -> l <> []) /\ Forall nice l.
Proof. cbn [nice]. now rewrite nices_all. Qed.
Lemma nice_ev s l : nice (REv s l) <-> List.length l = 2 /\ Forall nice l.
Proof. cbn [nice]. now rewrite nices_all. Qed.

(** leaves of source nodes *)
Fixpoint leaves (n : node) : Prop :=
  match n with
  | NVar s => GV s
  | NCon s => GC s
  | NInt s => s <> "["
  | NFun _ l | NEv _ l => fold_right (fun m P => leaves m /\ P) True l
  end.
Lemma leaves_all l : fold_right (fun m P => leaves m /\ P) True l <-> (forall m, In m l -> leaves m).
Proof.
  induction l as [|a l IH]; cbn; [split; [intros _ m []|auto]|]. rewrite IH. split.
  - intros [A C] m [<-|H]; auto.
  - intros H. split; auto.
Qed.
Lemma leaves_kids n : leaves n -> forall m, In m (kids n) -> leaves m.
Proof. destruct n; cbn; try (intros _ m []); intros H; now apply leaves_all. Qed.
Lemma bfs_leaves k : forall q, fsize q <= k -> (forall m, In m q -> leaves m) -> forall m, In m (bfs q) -> leaves m.
Proof.
  induction k as [|k IH]; intros q Hk H m.
  - destruct q as [|n q]; [intros []|]. cbn in Hk. rewrite nsize_kids in Hk. lia.
  - destruct q as [|n q]; [intros []|]. rewrite bfs_cons. intros [<-|K]; [apply H; now left|].
    apply (IH (q ++ kids n)); auto.
    + rewrite fsize_app. cbn in Hk. fold (fsize q) in Hk. rewrite nsize_kids in Hk. lia.
    + intros a Ha. apply in_app_iff in Ha. destruct Ha as [Ha|Ha]; [apply H; now right|].
      eapply leaves_kids; [apply H; now left|assumption].
Qed.
Lemma leaves_atom n : leaves n -> atom_in GV GC n.
Proof.
  intros H m [<-|Hm].
  - destruct n; cbn in *; auto.
  - assert (L : leaves m). { unfold bfs_below in Hm. eapply bfs_leaves; [apply Nat.le_refl| |exact Hm]. now apply leaves_kids. }
    destruct m; cbn in *; auto.
Qed.
End Nice.
Lemma nice_mono (GV GC GV' GC' : string -> Prop) B B' : (forall s, GV s -> GV' s) -> (forall s, GC s -> GC' s) -> B <= B' ->
  forall n, nice GV GC B n -> nice GV' GC' B' n.
Proof.
  intros H1 H2 H3. induction n as [s a|s|s|s l IH|s l IH] using rnode_ind2; intros K.
  - destruct K. split; [auto|lia].
  - cbn in *. auto.
  - exact K.
  - apply nice_fun in K. apply nice_fun. destruct K as (K1 & K2 & K3). csplit; auto. rewrite Forall_forall in *. auto.
  - apply nice_ev in K. apply nice_ev. destruct K as (K1 & K2). csplit; auto. rewrite Forall_forall in *. auto.
Qed.
Lemma nice_vars GV GC B : forall n, nice GV GC B n -> forall s a, In (s, a) (rvars n) -> GV s /\ a < B.
Proof.
  induction n as [s a|s|s|s l IH|s l IH] using rnode_ind2; intros K s0 a0 H; try contradiction.
  - destruct H as [H|[]]. injection H as <- <-. exact K.
  - apply nice_fun in K. destruct K as (_ & _ & K). cbn [rvars] in H. apply in_flat_map in H. destruct H as (m & Hm & H). rewrite Forall_forall in *. eapply IH; eauto.
  - apply nice_ev in K. destruct K as (_ & K). cbn [rvars] in H. apply in_flat_map in H. destruct H as (m & Hm & H). rewrite Forall_forall in *. eapply IH; eauto.
Qed.

(** --- writing --- *)
Fixpoint rargs (l : list rnode) : out string :=
  match l with
  | [] => Ub UAssert
  | [x] => rstr false x
  | x :: l' => a <- rstr false x ;; r <- rargs l' ;; Val (a ++ ", " ++ r)%string
  end.
Lemma rstr_fun tail s l : rstr tail (RFun s l) =
  if (s =? "[")%string then
    match l with
    | [] => Val (if tail then "]" else "[]")
    | [h; t] => a <- rstr false h ;; r <- rstr true t ;; Val ((if tail then ", " else "[") ++ a ++ r)%string
    | _ => Ub UAssert
    end
  else r <- (a <- rargs l ;; Val (s ++ "(" ++ a ++ ")")%string) ;; Val (if tail then ", " ++ r ++ "]" else r)%string.
Proof. reflexivity. Qed.
Lemma rargs_val l : l <> [] -> Forall (fun n => forall tail, exists s, rstr tail n = Val s) l -> exists s, rargs l = Val s.
Proof.
  intros N F. induction F as [|x l Hx F IH]; [contradiction|]. destruct (Hx false) as (s & E). destruct l as [|y l].
  - exists s. exact E.
  - destruct IH as (r & Er); [discriminate|]. change (exists s0, (a <- rstr false x ;; r <- rargs (y :: l) ;; Val (a ++ ", " ++ r)%string) = Val s0).
    rewrite E. cbn [bind]. rewrite Er. cbn [bind]. eauto.
Qed.
Definition plain (s : string) : Prop := s <> "[".
Lemma nice_str B : forall n, nice plain plain B n -> forall tail, exists s, rstr tail n = Val s.
Proof.
  assert (L : forall tail s (r : out string), s <> "[" -> (if tail && (s =? "[") then Ub UAssert else r)%string = r).
  { intros tail s r N. apply String.eqb_neq in N. rewrite N, andb_false_r. reflexivity. }
  induction n as [s a|s|s|s l IH|s l IH] using rnode_ind2; intros K tail.
  - destruct K as [K _]. cbn [rstr]. rewrite (L tail s _ K). cbn [bind]. eauto.
  - cbn [rstr]. rewrite (L tail s _ K). cbn [bind]. eauto.
  - cbn [rstr]. rewrite (L tail s _ K). cbn [bind]. eauto.
  - apply nice_fun in K. destruct K as (K1 & K2 & K3). rewrite rstr_fun.
    assert (F : Forall (fun n => forall tail, exists s, rstr tail n = Val s) l) by (rewrite Forall_forall in *; auto).
    destruct (String.eqb_spec s "[") as [->|Ns].
    + destruct (K1 eq_refl) as [K|K].
      * destruct l; [eauto|discriminate].
      * destruct l as [|h [|t [|]]]; try discriminate. inversion F as [|? ? F1 F2]; subst. inversion F2 as [|? ? F3 _]; subst.
        destruct (F1 false) as (x & ->). destruct (F3 true) as (y & ->). cbn [bind]. eauto.
    + destruct (rargs_val l (K2 Ns) F) as (x & ->). cbn [bind]. eauto.
  - apply nice_ev in K. destruct K as (K1 & K2). destruct l as [|x [|y [|]]]; try discriminate.
    inversion IH as [|? ? I1 I2]; subst. inversion I2 as [|? ? I3 _]; subst. inversion K2 as [|? ? J1 J2]; subst. inversion J2 as [|? ? J3 _]; subst.
    cbn [rstr]. destruct (I1 J1 false) as (a & ->). destruct (I3 J3 false) as (b & ->). cbn [bind]. eauto.
Qed.
Lemma strs_val B l : Forall (fun b => nice plain plain B (snd b)) l -> exists r, strs l = Val r.
Proof.
  intros F. induction F as [|[v n] l Hn F IH]; [cbn; eauto|]. cbn [strs snd] in *. destruct (nice_str B n Hn false) as (s & Es).
  unfold node_str. rewrite Es. destruct IH as (r & ->). cbn [bind]. eauto.
Qed.

(** --- reading --- *)
Lemma int_plain z : string_of_Z z <> "[".
Proof.
  unfold string_of_Z. destruct (Z.to_int z) as [u|u]; [|discriminate]. cbn [DecimalString.NilZero.string_of_int].
  destruct u as [|u|u|u|u|u|u|u|u|u|u]; cbn; discriminate.
Qed.
Section Read.
Variable sto : storage.
Hypothesis VT : (Z.of_nat (List.length (s_vars sto)) <= 32768)%Z.
Variables GV GC : string -> Prop.
Variable h : list cell.
Hypothesis W : wfh sto 0 h.
Hypothesis FO : forall d i n nm k, nth_error h d = Some (CFun i n) -> nthZ (s_functors sto) i = Some (FV nm k) -> fun_ok nm k.
Hypothesis N : named sto GV GC h.
Notation len := (@List.length cell).
Notation rep f a := (node_rep fops sto f h a).
Notation nice := (nice GV GC (len h)).

Lemma vidx_name s v : vidx sto s v -> nthZ (s_vars sto) v = Some s.
Proof.
  intros (k & -> & E). pose proof (nth_error_lt _ _ _ E) as L. rewrite wrap16_small by lia. unfold nthZ.
  destruct (Z.ltb_spec (Z.of_nat k) 0); [lia|]. now rewrite Nat2Z.id.
Qed.
Lemma args_ev n : forall a, (forall j, a <= j < a + n -> ev (fun f => rep f j) nice) ->
  ev (fun f => node_args (node_rep fops sto f h) n a) (fun l => List.length l = n /\ Forall nice l).
Proof.
  induction n as [|n IH]; intros a H; cbn [node_args]; [apply ev_val; auto|].
  eapply ev_bind; [apply H; lia|]. intros x Hx. eapply ev_bind; [apply (IH (S a)); intros; apply H; lia|]. intros l [L F].
  apply ev_val. cbn. auto.
Qed.
Lemma rd_rep : forall a t, rd sto h a t -> a < len h -> ev (fun f => rep f a) nice.
Proof.
  apply (rd_mut sto h (fun a t => a < len h -> ev (fun f => rep f a) nice) (fun a n l => a + n <= len h -> forall j, a <= j < a + n -> ev (fun f => rep f j) nice)).
  - intros a b t Nx _ IH La. assert (Lb : b < len h).
    { destruct (proj2 W a La) as (n & d & D). inversion D as [a' La' Na|n' a' b' d' Nb D']; subst; [congruence|]. rewrite Nx in Nb. injection Nb as <-. eapply derefs_lt; eauto. }
    destruct (wfh_deref sto 0 h b W Lb) as (d & Ed & Ld & Nd & (n & D)).
    assert (Ea : deref (list cell) fops h a = Val d) by (eapply derefs_deref; econstructor; eauto).
    apply (ev_ext (fun f => rep f b)); [|auto]. intros [|f]; [reflexivity|]. cbn [node_rep]. now rewrite Ea, Ed.
  - intros a v nm Ha La. apply ev_step. cbn [node_rep]. rewrite (derefs_deref h 0 a a).
    + cbn [bind]. rewrite (proj2 (Builtins.at_nth h a _) Ha). cbn [bind]. destruct (proj1 N _ _ Ha) as (s & Hs & Gs). rewrite (vidx_name _ _ Hs). cbn. apply ev_val. split; auto.
    + constructor; [assumption|]. unfold next. rewrite Ha. now rewrite Nat.eqb_refl.
  - intros a i Ha La. apply ev_step. cbn [node_rep]. rewrite (derefs_deref h 0 a a).
    + cbn [bind]. rewrite (proj2 (Builtins.at_nth h a _) Ha). cbn [bind]. destruct (proj2 N _ _ Ha) as (s & Hs & Gs). unfold cidx in Hs. rewrite Hs. cbn. apply ev_val. exact Gs.
    + constructor; [assumption|]. unfold next. now rewrite Ha.
  - intros a n Ha La. apply ev_step. cbn [node_rep]. rewrite (derefs_deref h 0 a a).
    + cbn [bind]. rewrite (proj2 (Builtins.at_nth h a _) Ha). cbn. apply ev_val. apply int_plain.
    + constructor; [assumption|]. unfold next. now rewrite Ha.
  - intros a i n l Ha _ IH La. destruct (proj1 W _ _ Ha) as (Hn & (nm & Ei) & Ln). apply ev_step. cbn [node_rep]. rewrite (derefs_deref h 0 a a).
    2:{ constructor; [assumption|]. unfold next. now rewrite Ha. }
    cbn [bind]. rewrite (proj2 (Builtins.at_nth h a _) Ha). cbn [bind]. rewrite Ei. cbn [of_opt bind fv_arity fv_name]. pose proof (FO _ _ _ _ _ Ha Ei) as Fk.
    eapply ev_bind; [apply args_ev; replace (a + 1) with (S a) by lia; apply IH; lia|]. intros r [Lr Fr]. apply ev_val. apply nice_fun. csplit; auto.
    + intros ->. destruct Fk as [[_ K]|(K & _)]; [|congruence]. rewrite Lr. exact K.
    + intros K. destruct Fk as [[K' _]|(_ & _ & K')]; [congruence|]. rewrite <- Lr in K'. now destruct r.
  - intros a i n l Ha _ IH La. destruct (proj1 W _ _ Ha) as (-> & Hi & Ln). apply ev_step. cbn [node_rep]. rewrite (derefs_deref h 0 a a).
    2:{ constructor; [assumption|]. unfold next. now rewrite Ha. }
    cbn [bind]. rewrite (proj2 (Builtins.at_nth h a _) Ha). cbn [bind].
    assert (Eo : exists nm, op_name i = Some nm). { assert (K : i = 0%Z \/ i = 1%Z \/ i = 2%Z \/ i = 3%Z \/ i = 4%Z) by lia. destruct K as [->|[->|[->|[->| ->]]]]; cbn; eauto. }
    destruct Eo as (nm & ->). cbn [of_opt bind].
    eapply ev_bind; [apply args_ev; replace (a + 1) with (S a) by lia; apply IH; lia|]. intros r [Lr Fr]. apply ev_val. apply nice_ev. auto.
  - intros a L j Hj. lia.
  - intros a n t l _ IH1 _ IH2 L j Hj. destruct (Nat.eq_dec j a) as [->|Nj]; [apply IH1; lia|]. apply IH2; lia.
Qed.
Lemma rep_nice f : forall a x, a < len h -> rep f a = Val x -> nice x.
Proof.
  induction f as [|f IH]; intros a x La E; [discriminate|]. cbn [node_rep] in E.
  destruct (wfh_deref sto 0 h a W La) as (d & Ed & Ld & Nd & _). rewrite Ed in E. cbn [bind] in E.
  destruct (root_cases sto 0 h d W Ld Nd) as (c & Ec & Hc). rewrite (proj2 (Builtins.at_nth h d c) Ec) in E. cbn [bind] in E.
  assert (A : forall n b l, b + n <= len h -> node_args (node_rep fops sto f h) n b = Val l -> List.length l = n /\ Forall nice l).
  { clear E. induction n as [|n IHn]; intros b l Lb E; cbn [node_args] in E; [injection E as <-; auto|].
    apply bind_val in E. destruct E as (y & Ey & E). apply bind_val in E. destruct E as (r & Er & E). injection E as <-.
    destruct (IHn (S b) r) as [L F]; [lia|exact Er|]. cbn. split; [congruence|]. constructor; [|exact F]. apply (IH b); [lia|exact Ey]. }
  pose proof (proj1 W d c Ec) as Wc. destruct c as [i|n|b v|i n|i n|b].
  - destruct (proj2 N _ _ Ec) as (s & Hs & Gs). unfold cidx in Hs. rewrite Hs in E. cbn in E. injection E as <-. exact Gs.
  - injection E as <-. apply int_plain.
  - cbn in Hc. subst b. destruct (proj1 N _ _ Ec) as (s & Hs & Gs). rewrite (vidx_name _ _ Hs) in E. cbn in E. injection E as <-. split; assumption.
  - cbn in Wc. destruct Wc as (Hn & (nm & Ei) & Ln). rewrite Ei in E. cbn [of_opt bind fv_arity fv_name] in E.
    apply bind_val in E. destruct E as (l & El & E). injection E as <-. assert (AA := fun K => A _ _ _ K El); destruct AA as [Lr Fr]; [cbn; lia|]. pose proof (FO _ _ _ _ _ Ec Ei) as Fk.
    apply nice_fun. csplit; auto.
    + intros ->. destruct Fk as [[_ K]|(K & _)]; [|congruence]. rewrite Lr. exact K.
    + intros K. destruct Fk as [[K' _]|(_ & _ & K')]; [congruence|]. rewrite <- Lr in K'. now destruct l.
  - cbn in Wc. destruct Wc as (-> & Hi & Ln). apply bind_val in E. destruct E as (nm & _ & E). apply bind_val in E. destruct E as (l & El & E). injection E as <-.
    assert (AA := fun K => A _ _ _ K El); destruct AA as [Lr Fr]; [cbn; lia|]. apply nice_ev. auto.
  - discriminate E.
Qed.
Lemma replace_nice rs : (forall s x, assoc s rs = Some x -> nice x) ->
  forall n, leaves GV GC n -> node_ok n -> (forall s, In s (nvars n) -> In s (map fst rs)) -> exists x, replace_vars rs n = Val x /\ nice x.
Proof.
  intros H. assert (A : forall s, In s (map fst rs) -> exists x, assoc s rs = Some x).
  { clear. induction rs as [|[t y] rs IH]; intros s K; [contradiction|]. cbn [assoc]. destruct (String.eqb_spec s t); [eauto|]. destruct K as [K|K]; [cbn in K; congruence|auto]. }
  assert (M : forall ks, Forall (fun n => leaves GV GC n -> node_ok n -> (forall s, In s (nvars n) -> In s (map fst rs)) -> exists x, replace_vars rs n = Val x /\ nice x) ks ->
    (forall m, In m ks -> leaves GV GC m) -> (forall m, In m ks -> node_ok m) -> (forall s, In s (flat_map nvars ks) -> In s (map fst rs)) ->
    exists r, omap (replace_vars rs) ks = Val r /\ List.length r = List.length ks /\ Forall nice r).
  { intros ks F. induction F as [|k ks Hk F IH]; intros L O V; [exists []; auto|].
    destruct Hk as (x & Ex & Nx); [apply L; now left|apply O; now left|intros s Hs; apply V; cbn; apply in_app_iff; now left|].
    destruct IH as (r & Er & Lr & Fr); [intros m Hm; apply L; now right|intros m Hm; apply O; now right|intros s Hs; apply V; cbn; apply in_app_iff; now right|].
    exists (x :: r). change (omap (replace_vars rs) (k :: ks)) with (y <- replace_vars rs k ;; r <- omap (replace_vars rs) ks ;; Val (y :: r)).
    rewrite Ex. cbn [bind]. rewrite Er. cbn. csplit; auto. }
  induction n as [s|s|s|s ks IH|s ks IH] using node_ind'; intros L O V.
  - destruct (A s) as (x & Ex); [apply V; now left|]. exists x. cbn [replace_vars]. rewrite Ex. split; [reflexivity|eauto].
  - exists (RCon s). split; [reflexivity|exact L].
  - exists (RInt s). split; [reflexivity|exact L].
  - destruct O as [O1 O2]. destruct (M ks IH) as (r & Er & Lr & Fr).
    + now apply leaves_all.
    + now apply nodes_ok_in.
    + exact V.
    + exists (RFun s r). rewrite replace_fun, Er. split; [reflexivity|]. apply nice_fun. csplit; auto.
      * intros ->. destruct O1 as [[_ K]|(K & _)]; [|congruence]. rewrite Lr. exact K.
      * intros K. destruct O1 as [[K' _]|(_ & _ & K')]; [congruence|]. rewrite <- Lr in K'. now destruct r.
  - destruct O as [O1 O2]. destruct (M ks IH) as (r & Er & Lr & Fr).
    + now apply leaves_all.
    + now apply nodes_ok_in.
    + exact V.
    + exists (REv s r). rewrite replace_ev, Er. split; [reflexivity|]. apply nice_ev. split; [congruence|assumption].
Qed.
End Read.

(** --- the atoms of a branch come from the source --- *)
Section Source.
Variable cf : cfg.
Hypothesis OK : ord_ok cf.
Variable sto : storage.
Variable pg : prog.
Variable P : list (list node).
Hypothesis PC : prog_code cf sto P pg.
Hypothesis PW : Forall clause_wf P.
Variable q : list node.
Variable r : rule.
Hypothesis QC : query_code cf sto q r.
Hypothesis QW : q <> [] /\ Forall atom_ok q.
Variable G : node -> Prop.
Hypothesis Gq : forall n, In n q -> G n.
Hypothesis Gp : forall c n, In c P -> In n c -> G n.
Hypothesis Ga : forall c n, In c append_clauses -> In n c -> G n.
Definition from_src (a : catom) : Prop := a = dealloc_atom \/ G (ca_node a) \/ spec_atom a.
Lemma src_from gs cs : src gs cs -> (forall n, In n gs -> G n) -> Forall from_src cs.
Proof.
  induction 1 as [|n a gs cs Hg H IH|gs cs H IH]; intros K; constructor.
  - right. left. destruct Hg as [-> _]. apply K. now left.
  - apply IH. intros. apply K. now right.
  - now left.
  - auto.
Qed.
Lemma rules_from f rs : plookup f pg = Some rs -> forall r0, In r0 rs -> Forall from_src r0.
Proof.
  intros E r0 Hr. pose proof (prog_src cf sto P pg f PC PW) as PS. rewrite E in PS. destruct PS as [PS _].
  pose proof (PC f) as Pf. unfold clauses_for in PS.
  assert (Src : forall cls, (forall c n, In c cls -> In n c -> G n) -> Forall2 clause_src cls rs -> Forall from_src r0).
  { clear PS Pf E. intros cls Hc F. induction F as [|c r1 cls rs Hcr F IH]; [contradiction|]. destruct Hr as [->|Hr].
    - destruct Hcr as (h & body & ha & cs & -> & -> & Hh & Hs). constructor.
      + right. left. rewrite Hh. apply (Hc (h :: body)); now left.
      + eapply src_from; [exact Hs|]. intros n Hn. apply (Hc (h :: body)); [now left|now right].
    - apply IH; [exact Hr|]. intros c0 n H1 H2. eapply Hc; [right; exact H1|exact H2]. }
  destruct (special f) as [i|] eqn:Ef.
  - destruct Pf as (rs' & E' & SC). rewrite E in E'. injection E' as <-. destruct (special_shape2 cf OK sto _ _ _ Ef SC) as (a & -> & Ec & _).
    destruct Hr as [<-|[]]. constructor; [|constructor]. right. right. exists f, i. auto.
  - destruct (is_append f).
    + exact (Src _ Ga PS).
    + refine (Src _ _ PS). intros c n Hc Hn. unfold clauses_of in Hc. apply filter_In in Hc. eapply Gp; [apply Hc|exact Hn].
Qed.
Theorem path_from pi p : at_path cf sto pg (init_proc r) pi p -> Forall from_src (p_codes p).
Proof.
  intros Hp. induction Hp as [|pi p i l k Hp IH [fuel E] Hn].
  - cbn [init_proc p_codes]. eapply src_from; [eapply query_src; [exact QC|apply QW]|exact Gq].
  - unfold p_turn in E. destruct (p_codes p) as [|a rest] eqn:Hc; [discriminate|].
    apply bind_val in E. destruct E as ([s m'] & R & E). destruct s; try discriminate E.
    inversion IH as [|? ? Ha Gr]; subst.
    destruct (last (ca_code a) IProceed); try discriminate E.
    + destruct (plookup f pg) as [rs|] eqn:Ef; [|discriminate]. injection E as <-. apply nth_error_In, in_map_iff in Hn. destruct Hn as (r0 & <- & Hr).
      cbn [p_codes]. apply Forall_app; split; [eapply rules_from; eauto|exact Gr].
    + destruct (forallb is_dealloc rest); [apply bind_val in E; destruct E as (? & _ & E); discriminate|]. injection E as <-.
      apply nth_error_In in Hn. destruct Hn as [<-|[]]. exact Gr.
    + destruct (m_envs m'); [discriminate|]. injection E as <-. apply nth_error_In in Hn. destruct Hn as [<-|[]]. exact Gr.
Qed.
Lemma call_from pi p a rest f : at_path cf sto pg (init_proc r) pi p -> p_codes p = a :: rest -> last (ca_code a) IProceed = ICall f -> G (ca_node a).
Proof.
  intros Hp Hc Hl. pose proof (path_from pi p Hp) as F. rewrite Hc in F. inversion F as [|? ? Ha _]; subst.
  destruct Ha as [->|[Ha|(g & i & Hg & Ha)]]; [discriminate|assumption|]. rewrite Ha in Hl. discriminate.
Qed.
End Source.

(** --- the tree of a session --- *)
Section Tree.
Variable cf : cfg.
Hypothesis OK : ord_ok cf.
Variables (o : org) (P : list (list node)) (q : list node) (rl : rule) (ps : list process) (lv : nat -> bool)
  (G : nat -> process) (M : nat -> mst (list cell)) (D : list (nat * list (string * string))).
Hypothesis Q : query_code cf (o_sto o) q rl.
Hypothesis R : refines cf o ps.
Hypothesis T : tree_inv cf rl o ps lv G M D.
Hypothesis PC : prog_code cf (o_sto o) P (o_prog o).
Hypothesis ok : sto_ok (o_sto o).
Hypothesis PW : Forall clause_wf P.
Hypothesis Hq : q <> [] /\ Forall atom_ok q.
Hypothesis NC : no_clash cf P.
Hypothesis LB : labelled cf P.
Notation sto := (o_sto o).
Notation hp m := (m_heap (H := list cell) m).
Notation len := (@List.length cell).
Hypothesis VT : (Z.of_nat (List.length (s_vars sto)) <= 32768)%Z.
Hypothesis FIN : forall pi p h, at_path cf sto (o_prog o) (init_proc rl) pi p -> ends_with cf sto p h -> finite_terms sto h.
Variables GV GC : string -> Prop.
(** the atoms of the source *)
Definition good_atom (n : node) : Prop := leaves GV GC n /\ node_name n <> "[".
Hypothesis Gq : forall n, In n q -> good_atom n.
Hypothesis Gp : forall c n, In c P -> In n c -> good_atom n.
Hypothesis Ga : forall c n, In c append_clauses -> In n c -> good_atom n.

Lemma at_end ex e : nth_error (o_arena o) ex = Some e -> ends_with cf sto (G ex) (hp (M ex)) ->
  named sto GV GC (hp (M ex)) /\
  forall d i n nm k, nth_error (hp (M ex)) d = Some (CFun i n) -> nthZ (s_functors sto) i = Some (FV nm k) -> fun_ok nm k.
Proof.
  intros He Ew. destruct (ti_path _ _ _ _ _ _ _ _ T ex e He) as (pi & Hp). csplit.
  - eapply (ends_named cf OK sto ok (o_prog o) P PC PW NC q rl Q Hq GV GC); eauto.
    + intros n Hn. apply leaves_atom, Gq, Hn.
    + intros c n Hc Hn. apply leaves_atom. eapply Gp; eauto.
    + intros c n Hc Hn. apply leaves_atom. eapply Ga; eauto.
  - intros d i n nm k Hd Hi. destruct Ew as (fuel & a & rest & m & Ec & Er & Em).
    assert (F : pfit sto (G ex)).
    { eapply path_fit; [exact ok|exact PC|exact PW| | |exact Hp].
      - apply Forall_forall. intros c Hc. apply (append_ok cf OK c Hc).
      - eapply root_fit; eauto. apply Hq. }
    pose proof (ends_fit cf sto (G ex) fuel a rest _ _ F Ec Er) as [K _]. rewrite Em in K. rewrite Forall_forall in K.
    specialize (K _ (nth_error_In _ _ Hd)). destruct K as (nm' & k' & C & _ & K). unfold cidx in C. rewrite Hi in C. now injection C as -> ->.
Qed.
Lemma exec_nice ex e a f x : nth_error (o_arena o) ex = Some e -> ends_with cf sto (G ex) (hp (M ex)) ->
  hrel (heap_at (o_arena o) (x_parent e)) (m_heap (x_m e)) (hp (M ex)) -> wfh sto 0 (hp (M ex)) -> a < len (hp (M ex)) ->
  exec_rep f o e a = Val x -> nice GV GC (len (hp (M ex))) x.
Proof.
  intros He Ew Hh W La E. destruct (at_end ex e He Ew) as (Nm & FO). unfold exec_rep in E. rewrite (node_rep_sim _ _ _ _ Hh) in E.
  exact (rep_nice sto VT GV GC (hp (M ex)) W FO Nm f a x La E).
Qed.
Lemma binds_nice ex e f l : nth_error (o_arena o) ex = Some e -> ends_with cf sto (G ex) (hp (M ex)) ->
  hrel (heap_at (o_arena o) (x_parent e)) (m_heap (x_m e)) (hp (M ex)) -> wfh sto 0 (hp (M ex)) -> (forall s b, In (s, b) l -> b < len (hp (M ex))) ->
  forall r, bindings f o e l = Val r -> Forall (fun b => nice GV GC (len (hp (M ex))) (snd b)) r.
Proof.
  intros He Ew Hh W. induction l as [|[s a] l IH]; intros H r E; cbn [bindings] in E; [injection E as <-; constructor|].
  apply bind_val in E. destruct E as (n & En & E). apply bind_val in E. destruct E as (r' & Er & E). injection E as <-. constructor.
  - cbn [snd]. eapply exec_nice; eauto. eapply H. now left.
  - apply IH; [|exact Er]. intros s0 b0 K. eapply H. right. exact K.
Qed.
Lemma reps_nice ex e f l : nth_error (o_arena o) ex = Some e -> ends_with cf sto (G ex) (hp (M ex)) ->
  hrel (heap_at (o_arena o) (x_parent e)) (m_heap (x_m e)) (hp (M ex)) -> wfh sto 0 (hp (M ex)) -> (forall s b, In (s, b) l -> b < len (hp (M ex))) ->
  forall r, reps f o e l = Val r -> map fst r = map fst l /\ forall s x, assoc s r = Some x -> nice GV GC (len (hp (M ex))) x.
Proof.
  intros He Ew Hh W. induction l as [|[s a] l IH]; intros H r E; cbn [reps] in E; [injection E as <-; split; [reflexivity|discriminate]|].
  apply bind_val in E. destruct E as (n & En & E). apply bind_val in E. destruct E as (r' & Er & E). injection E as <-.
  destruct (IH (fun s0 b0 K => H s0 b0 (or_intror K)) r' Er) as [E1 E2]. cbn [map fst]. split; [congruence|]. intros s0 x K. cbn [assoc] in K.
  destruct (String.eqb_spec s0 s); [injection K as <-|eauto]. eapply exec_nice; eauto. eapply H. now left.
Qed.
Lemma rep_ev ex e a : nth_error (o_arena o) ex = Some e -> ends_with cf sto (G ex) (hp (M ex)) ->
  hrel (heap_at (o_arena o) (x_parent e)) (m_heap (x_m e)) (hp (M ex)) -> wfh sto 0 (hp (M ex)) -> a < len (hp (M ex)) ->
  ev (fun f => exec_rep f o e a) (nice GV GC (len (hp (M ex)))).
Proof.
  intros He Ew Hh W La. destruct (at_end ex e He Ew) as (Nm & FO).
  destruct (ti_path _ _ _ _ _ _ _ _ T ex e He) as (pi & Hp). destruct (FIN pi _ _ Hp Ew a La) as (t & Rt).
  eapply ev_ext; [|eapply (rd_rep sto VT GV GC (hp (M ex)) W FO Nm a t Rt La)]. intros f. unfold exec_rep. symmetry. now apply node_rep_sim.
Qed.
Lemma reps_ev ex e l : nth_error (o_arena o) ex = Some e -> ends_with cf sto (G ex) (hp (M ex)) ->
  hrel (heap_at (o_arena o) (x_parent e)) (m_heap (x_m e)) (hp (M ex)) -> wfh sto 0 (hp (M ex)) -> (forall s b, In (s, b) l -> b < len (hp (M ex))) ->
  ev (fun f => reps f o e l) (fun rs => map fst rs = map fst l /\ forall s x, assoc s rs = Some x -> nice GV GC (len (hp (M ex))) x).
Proof.
  intros He Ew Hh W. induction l as [|[s a] l IH]; intros H; cbn [reps].
  - apply ev_val. split; [reflexivity|discriminate].
  - eapply ev_bind; [eapply rep_ev; eauto; eapply H; now left|]. intros n Hn. eapply ev_bind; [apply IH; intros s0 b0 K; eapply H; right; exact K|].
    intros rs [E1 E2]. apply ev_val. cbn [map fst]. split; [congruence|]. intros s0 x K. cbn [assoc] in K.
    destruct (String.eqb_spec s0 s); [injection K as <-; assumption|eauto].
Qed.
Lemma binds_ev ex e l : nth_error (o_arena o) ex = Some e -> ends_with cf sto (G ex) (hp (M ex)) ->
  hrel (heap_at (o_arena o) (x_parent e)) (m_heap (x_m e)) (hp (M ex)) -> wfh sto 0 (hp (M ex)) -> (forall s b, In (s, b) l -> b < len (hp (M ex))) ->
  ev (fun f => bindings f o e l) (Forall (fun b => nice GV GC (len (hp (M ex))) (snd b))).
Proof.
  intros He Ew Hh W. induction l as [|[s a] l IH]; intros H; cbn [bindings].
  - apply ev_val. constructor.
  - eapply ev_bind; [eapply rep_ev; eauto; eapply H; now left|]. intros n Hn. eapply ev_bind; [apply IH; intros s0 b0 K; eapply H; right; exact K|].
    intros rs F. apply ev_val. constructor; auto.
Qed.

(** the label of a query node *)
Lemma called_good ex e a n TA V l : nth_error (o_arena o) ex = Some e -> x_state e <> SRunning -> called cf o G M ex e a n TA V l -> good_atom n.
Proof.
  intros He Hst Cd. destruct (ti_path _ _ _ _ _ _ _ _ T ex e He) as (pi & Hp).
  pose proof (ti_node _ _ _ _ _ _ _ _ T ex e He) as TN. destruct (tn_run _ _ _ _ _ _ _ _ TN) as [(K & _)|[_ F]]; [contradiction|].
  destruct F as (c & a1 & rest1 & st & fu1 & Ecc & Ef & Ecs & _).
  assert (a1 = a). { pose proof (cd_solved _ _ _ _ _ _ _ _ _ _ _ Cd) as K. unfold solved in K. rewrite Ecc in K. congruence. } subst a1.
  rewrite <- (cd_node _ _ _ _ _ _ _ _ _ _ _ Cd).
  eapply (call_from cf OK sto (o_prog o) P PC PW q rl Q Hq good_atom Gq Gp Ga); [exact Hp|exact Ecs|apply (cd_last _ _ _ _ _ _ _ _ _ _ _ Cd)].
Qed.
Lemma replaced ex rs n : atom_ok n -> good_atom n -> (forall s, In s (map fst rs) <-> In s (vars_of n)) ->
  (forall s x, assoc s rs = Some x -> nice GV GC (len (hp (M ex))) x) -> exists x, replace_vars rs n = Val x /\ nice GV GC (len (hp (M ex))) x.
Proof.
  intros Ao [Lf Nn] Nm E2. destruct n as [s|s|s|s ks|s ks]; try contradiction.
  - exists (RCon s). split; [reflexivity|exact Lf].
  - assert (Ne : ks <> []) by (destruct ks; [contradiction|discriminate]).
    assert (K : exists r, omap (replace_vars rs) ks = Val r /\ List.length r = List.length ks /\ Forall (nice GV GC (len (hp (M ex)))) r).
    { assert (Vs : forall m, In m ks -> forall s0, In s0 (nvars m) -> In s0 (map fst rs)).
      { intros m Hm s0 Hs. apply Nm. apply (vars_of_nvars (NFun s ks)); [exact Ao|]. cbn [nvars]. apply in_flat_map. eauto. }
      assert (Oks : forall m, In m ks -> node_ok m) by (destruct ks; [contradiction|]; exact Ao).
      assert (Ls : forall m, In m ks -> leaves GV GC m) by (apply leaves_all; exact Lf).
      clear - E2 Vs Oks Ls. induction ks as [|k ks IH]; [exists []; auto|].
      destruct (replace_nice GV GC (hp (M ex)) rs E2 k) as (x & Ex & Nx); [apply Ls; now left|apply Oks; now left|apply Vs; now left|].
      destruct IH as (r & Er & Lr & Fr); [intros m Hm; apply Vs; now right|intros m Hm; apply Oks; now right|intros m Hm; apply Ls; now right|].
      exists (x :: r). change (omap (replace_vars rs) (k :: ks)) with (y <- replace_vars rs k ;; r <- omap (replace_vars rs) ks ;; Val (y :: r)).
      rewrite Ex. cbn [bind]. rewrite Er. cbn. csplit; auto. }
    destruct K as (r & Er & Lr & Fr). exists (RFun s r). rewrite replace_fun, Er. cbn [bind]. split; [reflexivity|]. apply nice_fun. csplit; auto.
    + intros K. cbn in Nn. contradiction.
    + intros _ ->. destruct ks; [contradiction|discriminate].
Qed.
Lemma label_nice ex e f x : nth_error (o_arena o) ex = Some e -> lv ex = true -> x_state e <> SRunning ->
  query_name f o e = Val x -> nice GV GC (len (hp (M ex))) x.
Proof.
  intros He Lv Hst E. destruct (call_node cf OK o P q rl ps lv G M D Q T PC ok PW Hq NC LB ex e He Lv Hst) as (a & n & TA & V & l & Cd).
  pose proof (called_good _ _ _ _ _ _ _ He Hst Cd) as Gn.
  assert (Run : is_running e = false) by (unfold is_running; destruct (x_state e); congruence).
  unfold query_name in E. rewrite Run, (cd_solved _ _ _ _ _ _ _ _ _ _ _ Cd) in E. cbn [bind] in E. rewrite (cd_subs _ _ _ _ _ _ _ _ _ _ _ Cd) in E. cbn [bind] in E.
  apply bind_val in E. destruct E as (rs & Ers & E).
  destruct (reps_nice ex e f l He ltac:(apply Cd) ltac:(apply Cd) ltac:(apply Cd) (fun s b K => proj1 (cd_l _ _ _ _ _ _ _ _ _ _ _ Cd s b K)) rs Ers) as [E1 E2].
  pose proof (cd_names _ _ _ _ _ _ _ _ _ _ _ Cd) as Nm. rewrite <- E1 in Nm. rewrite (cd_node _ _ _ _ _ _ _ _ _ _ _ Cd) in E.
  destruct (replaced ex rs n (cd_ok _ _ _ _ _ _ _ _ _ _ _ Cd) Gn Nm E2) as (y & Ey & Ny). rewrite Ey in E. now injection E as <-.
Qed.
(** what is shown where a goal met a clause *)
Lemma bindings_rep f e l : forall b, bindings f o e l = Val b -> forall v x, In (v, x) b -> exec_rep f o e (snd v) = Val x.
Proof.
  induction l as [|v l IH]; intros b E w x H; cbn [bindings] in E; [injection E as <-; contradiction|].
  apply bind_val in E. destruct E as (n & En & E). apply bind_val in E. destruct E as (r & Er & E). injection E as <-. destruct H as [K|H]; [injection K as <- <-; exact En|exact (IH r Er w x H)].
Qed.
Lemma shown_nice ex e k ke nm f l : nth_error (o_arena o) ex = Some e -> lv ex = true -> x_state e <> SRunning -> In k (x_kids e) ->
  nth_error (o_arena o) k = Some ke -> has_failed ke = false -> is_running ke = false -> nice GV GC (len (hp (M ex))) nm ->
  bind_node f o nm ke = Val l -> exists b, strs b = Val (fst l) /\ Forall (fun b => nice GV GC (len (hp (M k))) (snd b)) b /\
  forall v x, In (v, x) b -> exec_rep f o ke (snd v) = Val x.
Proof.
  intros He Lv Hst Hk Hke Hf Hr Hn E.
  destruct (match_node cf OK o P q rl ps lv G M D Q T PC ok PW Hq NC LB ex e k ke He Lv Hst Hk Hke Hf Hr) as (a & n & TA' & V & l0 & ak & TA & Cd & Mc & _).
  destruct (mc_head _ _ _ _ _ _ _ _ _ Mc) as (V' & l' & El & Bl & _). pose proof (mc_le _ _ _ _ _ _ _ _ _ Mc) as [Le _].
  unfold bind_node in E. rewrite (mc_solved _ _ _ _ _ _ _ _ _ Mc) in E. cbn [bind] in E. rewrite (mc_subs _ _ _ _ _ _ _ _ _ Mc _ El) in E. cbn [bind] in E.
  apply bind_val in E. destruct E as (b1 & E1 & E). apply bind_val in E. destruct E as (b2 & E2 & E). apply bind_val in E. destruct E as (r & Er & E). injection E as <-.
  assert (F1 := fun H => binds_nice k ke f (name_vars nm) Hke ltac:(apply Mc) ltac:(apply Mc) ltac:(apply Mc) H b1 E1).
  assert (F2 := fun H => binds_nice k ke f l' Hke ltac:(apply Mc) ltac:(apply Mc) ltac:(apply Mc) H b2 E2).
  eexists. split; [exact Er|]. split; [|intros v x Hx; apply in_app_iff in Hx; destruct Hx as [Hx|Hx]; apply filter_In in Hx; destruct Hx as [Hx _]; first [exact (bindings_rep _ _ _ _ E1 v x Hx)|exact (bindings_rep _ _ _ _ E2 v x Hx)]].
  apply Forall_app. split; apply Forall_forall; intros x Hx; apply filter_In in Hx; destruct Hx as [Hx _].
  - refine (proj1 (Forall_forall _ _) (F1 _) x Hx). intros s b Hs. apply name_vars_in in Hs.
    assert (K : In (s, b) (rvars nm)) by (destruct nm; first [contradiction|exact Hs]). pose proof (nice_vars _ _ _ _ Hn s b K). lia.
  - refine (proj1 (Forall_forall _ _) (F2 _) x Hx). intros s b K. apply (Bl s b K).
Qed.
Lemma name_ev ex e : nth_error (o_arena o) ex = Some e -> lv ex = true -> x_state e <> SRunning ->
  ev (fun f => query_name f o e) (nice GV GC (len (hp (M ex)))).
Proof.
  intros He Lv Hst. destruct (call_node cf OK o P q rl ps lv G M D Q T PC ok PW Hq NC LB ex e He Lv Hst) as (a & n & TA & V & l & Cd).
  pose proof (called_good _ _ _ _ _ _ _ He Hst Cd) as Gn.
  assert (Run : is_running e = false) by (unfold is_running; destruct (x_state e); congruence).
  unfold query_name. rewrite Run. rewrite (cd_solved _ _ _ _ _ _ _ _ _ _ _ Cd). cbn [bind]. rewrite (cd_subs _ _ _ _ _ _ _ _ _ _ _ Cd). cbn [bind].
  eapply ev_bind; [eapply (reps_ev ex e l He); try apply Cd; intros s b K; apply (cd_l _ _ _ _ _ _ _ _ _ _ _ Cd s b K)|].
  intros rs [E1 E2]. rewrite (cd_node _ _ _ _ _ _ _ _ _ _ _ Cd).
  pose proof (cd_names _ _ _ _ _ _ _ _ _ _ _ Cd) as Nm. rewrite <- E1 in Nm.
  destruct (replaced ex rs n (cd_ok _ _ _ _ _ _ _ _ _ _ _ Cd) Gn Nm E2) as (y & Ey & Ny). now apply (ev_out _ y).
Qed.

Hypothesis PV : forall s, GV s -> plain s.
Hypothesis PG : forall s, GC s -> plain s.
Lemma strs_ev B l : Forall (fun b => nice GV GC B (snd b)) l -> exists r, strs l = Val r.
Proof. intros F. apply (strs_val B). eapply Forall_impl; [|exact F]. intros b K. eapply nice_mono; [exact PV|exact PG|apply Nat.le_refl|exact K]. Qed.
Lemma str_ev B n : nice GV GC B n -> exists s, node_str n = Val s.
Proof. intros K. apply (nice_str B). eapply nice_mono; [exact PV|exact PG|apply Nat.le_refl|exact K]. Qed.

Lemma bind_ev ex e k ke nm : nth_error (o_arena o) ex = Some e -> lv ex = true -> x_state e <> SRunning -> In k (x_kids e) ->
  nth_error (o_arena o) k = Some ke -> has_failed ke = false -> is_running ke = false -> nice GV GC (len (hp (M ex))) nm ->
  ev (fun f => bind_node f o nm ke) (fun _ => True).
Proof.
  intros He Lv Hst Hk Hke Hf Hr Hn.
  destruct (match_node cf OK o P q rl ps lv G M D Q T PC ok PW Hq NC LB ex e k ke He Lv Hst Hk Hke Hf Hr) as (a & n & TA' & V & l & ak & TA & Cd & Mc & _).
  destruct (mc_head _ _ _ _ _ _ _ _ _ Mc) as (V' & l' & El & Bl & _). pose proof (mc_le _ _ _ _ _ _ _ _ _ Mc) as [Le _].
  unfold bind_node. rewrite (mc_solved _ _ _ _ _ _ _ _ _ Mc). cbn [bind]. rewrite (mc_subs _ _ _ _ _ _ _ _ _ Mc _ El). cbn [bind].
  eapply ev_bind; [eapply (binds_ev k ke (name_vars nm) Hke); try apply Mc|].
  { intros s b Hs. apply name_vars_in in Hs. assert (K : In (s, b) (rvars nm)) by (destruct nm; first [contradiction|exact Hs]).
    pose proof (nice_vars _ _ _ _ Hn s b K). lia. }
  intros b1 F1. eapply ev_bind; [eapply (binds_ev k ke l' Hke); [apply Mc|apply Mc|apply Mc|intros s b K; apply (Bl s b K)]|].
  intros b2 F2.
  destruct (strs_ev (len (hp (M k))) (filter (fun b => negb (itself b)) b1 ++ filter (fun b => negb (itself b)) b2)) as (r & Er).
  { apply Forall_app. rewrite Forall_forall in F1, F2. split; apply Forall_forall; intros x Hx; apply filter_In in Hx; destruct Hx; auto. }
  rewrite Er. cbn [bind]. now apply ev_val.
Qed.

(** the whole tree *)
Definition resolves (t : qnode) : Prop := ev (fun f => resolve_q f o t) (fun _ => True).
Definition resolves_b (ex : nat) (b : bnode) : Prop :=
  forall nm, nice GV GC (len (hp (M ex))) nm -> ev (fun f => resolve_b f o nm b) (fun _ => True).
Lemma omap_ev {A C} (c : nat -> A -> out C) l : (forall x, In x l -> ev (fun f => c f x) (fun _ => True)) -> ev (fun f => omap (c f) l) (fun _ => True).
Proof.
  induction l as [|x l IH]; intros H; [now apply ev_val|].
  apply (ev_ext (fun f => y <- c f x ;; r <- omap (c f) l ;; Val (y :: r))); [reflexivity|].
  eapply ev_bind; [apply H; now left|]. intros y _. eapply ev_bind; [apply IH; intros; apply H; now right|]. intros r _. now apply ev_val.
Qed.
Lemma done_ev id e pid b fuel : nth_error (o_arena o) id = Some e -> x_parent e = Some pid -> closed o e (M id) -> walkR cf o pid (p_trail (G id)) ->
  answer_of sto fuel (hp (M id)) (p_trail (G id)) = Val b -> ev (fun f => find_subs f o id) (fun _ => True).
Proof.
  intros He Hp Cl Hw E. exists fuel, b. split; [exact Logic.I|]. intros f Hf.
  rewrite (find_subs_flat cf f o ps G R id e pid (M id) He Hp Cl Hw).
  exact (le_val _ _ _ (answer_of_mono sto fuel f (hp (M id)) (p_trail (G id)) Hf) E).
Qed.
Lemma make_ev n : forall id cnt e, nth_error (o_arena o) id = Some e -> lv id = true -> List.length (o_arena o) - id <= n ->
  ev (fun f => make_q f n o id cnt) (fun t => resolves (fst t)).
Proof.
  induction n as [n IHn] using lt_wf_ind. intros id cnt e He Lv Hn. pose proof (nth_error_lt _ _ _ He) as Lid.
  destruct n as [|n]; [lia|].
  pose proof (ti_node _ _ _ _ _ _ _ _ T id e He) as TN.
  assert (Kids : forall k c, In k (x_kids e) -> ev (fun f => make_b f o n c k) (fun b => resolves_b id (fst b))).
  { intros k c Hk. destruct (kid_level cf o rl ps lv G M D T id e k He Hk) as (ke & Hke & Hpar & Hlk). rewrite Lv in Hlk. cbn in Hlk.
    assert (Lk : id < k) by (destruct (tn_kids _ _ _ _ _ _ _ _ TN) as (s & Ls & Es); rewrite Es in Hk; apply in_seq in Hk; lia).
    pose proof (nth_error_lt _ _ _ Hke) as Lke.
    pose proof (ti_node _ _ _ _ _ _ _ _ T k ke Hke) as TK. unfold make_b. rewrite (get_exec_some o k ke Hke). cbn [bind].
    assert (Stop : forall b, has_failed ke || is_running ke = true -> resolves_b id (BNode k c None b)).
    { intros b Hb nm _. cbn [resolve_b]. rewrite (get_exec_some o k ke Hke). cbn [bind]. rewrite Hb. now apply ev_val. }
    destruct (tn_run _ _ _ _ _ _ _ _ TK) as [(Hst & Hkk & _)|[_ (c0 & a & rest & s & fu & F1 & F2 & F3 & F4 & F5 & F6)]].
    { rewrite Hst. cbn [bind]. apply ev_val. apply Stop. unfold has_failed, is_running. now rewrite Hst. }
    destruct F6 as [K1 K2 K3 K4|er K1 K2 K3 K4|f K1 K2 K3 K4 K5 K6|f rs K1 K2 K3 K4 K5 K6|pid b0 fu' K1 K2 K3 K4 K5 K6 K7 K8 K9 K10|j K1 K2 K3 K4 K5 K6 K7];
      try congruence.
    - rewrite K3. cbn [bind]. apply ev_val. apply Stop. unfold has_failed, is_running. now rewrite K3.
    - rewrite K3. cbn [bind]. apply ev_val. apply Stop. unfold has_failed, is_running. now rewrite K3.
    - rewrite K5. eapply (ev_bind _ _ (fun bc => resolves_b id (BNode k c None (fst bc)))); [|intros [b1 c1] Hb1; apply ev_val; exact Hb1].
      eapply ev_bind; [exact (done_ev k ke pid b0 fu' Hke K7 (F5 K1) K8 K9)|]. intros b1 _. apply ev_val. cbn [fst].
      intros nm Hnm. cbn [resolve_b]. rewrite (get_exec_some o k ke Hke). cbn [bind].
      unfold has_failed at 1, is_running at 1. rewrite K5. cbn [orb].
      eapply ev_bind; [eapply (bind_ev id e k ke nm He Lv); auto|].
      + intros Hs. destruct (tn_run _ _ _ _ _ _ _ _ TN) as [(_ & Kk & _)|[Ns _]]; [rewrite Kk in Hk; contradiction|congruence].
      + unfold has_failed. now rewrite K5.
      + unfold is_running. now rewrite K5.
      + intros l _. now apply ev_val.
    - rewrite K5. eapply (ev_bind _ _ (fun bc => resolves_b id (BNode k c None (fst bc)))); [|intros [b1 c1] Hb1; apply ev_val; exact Hb1].
      unfold last_child. rewrite K6. cbn [List.length Nat.sub nth_error of_opt bind].
      assert (Hj : In j (x_kids ke)) by (rewrite K6; now left). destruct (kid_level cf o rl ps lv G M D T k ke j Hke Hj) as (je & Hje & _ & Hj').
      rewrite Hlk in Hj'. cbn in Hj'.
      assert (Lj : k < j) by (destruct (tn_kids _ _ _ _ _ _ _ _ TK) as (s0 & Ls & Es); rewrite Es in Hj; apply in_seq in Hj; lia).
      eapply ev_bind; [apply (IHn n ltac:(lia) j (S c) je Hje Hj'); lia|]. intros [t c1] Ht. apply ev_val. cbn [fst] in *.
      intros nm Hnm. cbn [resolve_b]. rewrite (get_exec_some o k ke Hke). cbn [bind].
      unfold has_failed at 1, is_running at 1. rewrite K5. cbn [orb].
      eapply ev_bind; [eapply (bind_ev id e k ke nm He Lv); auto|].
      + intros Hs. destruct (tn_run _ _ _ _ _ _ _ _ TN) as [(_ & Kk & _)|[Ns _]]; [rewrite Kk in Hk; contradiction|congruence].
      + unfold has_failed. now rewrite K5.
      + unfold is_running. now rewrite K5.
      + intros l _. cbn beta. eapply ev_bind; [exact Ht|]. intros q' _. now apply ev_val. }
  apply (ev_ext (fun f => e <- get_exec o id ;; '(ks, c) <- make_bs f o n (x_kids e) (S cnt) ;; Val (QNode id cnt None ks, c))).
  { intros f. symmetry. apply make_q_eq. }
  rewrite (get_exec_some o id e He). cbn [bind].
  assert (Bs : forall l c, (forall k, In k l -> In k (x_kids e)) -> ev (fun f => make_bs f o n l c) (fun b => Forall (resolves_b id) (fst b))).
  { induction l as [|k l IHl]; intros c Hl; cbn [make_bs]; [apply ev_val; constructor|].
    eapply ev_bind; [apply (Kids k c); apply Hl; now left|]. intros [b c1] Hb. eapply ev_bind; [apply (IHl c1); intros; apply Hl; now right|].
    intros [r c2] Hr. apply ev_val. constructor; auto. }
  eapply ev_bind; [apply (Bs (x_kids e) (S cnt)); auto|]. intros [ks c] Hks. apply ev_val. cbn [fst] in *.
  unfold resolves. apply (ev_ext (fun f => e <- get_exec o id ;; nm <- query_name f o e ;; str <- node_str nm ;;
   if (has_failed e || is_running e)%bool then Val (QNode id cnt (Some (nm, str)) ks)
   else ks' <- omap (resolve_b f o nm) ks ;; Val (QNode id cnt (Some (nm, str)) ks'))); [reflexivity|].
  rewrite (get_exec_some o id e He). cbn [bind].
  destruct (is_running e) eqn:Er.
  - unfold query_name. rewrite Er. cbn [bind]. rewrite orb_true_r. cbn. now apply ev_val.
  - assert (Hst : x_state e <> SRunning) by (unfold is_running in Er; destruct (x_state e); congruence).
    eapply ev_bind; [apply (name_ev id e He Lv Hst)|]. intros nm Hnm. destruct (str_ev _ nm Hnm) as (str & ->). cbn [bind].
    destruct (has_failed e); cbn [orb]; [now apply ev_val|].
    eapply ev_bind; [apply (omap_ev (fun f => resolve_b f o nm) ks)|intros ks' _; now apply ev_val].
    intros b Hb. rewrite Forall_forall in Hks. exact (Hks b Hb nm Hnm).
Qed.
Theorem tree_returns : exists N t, forall fuel, N <= fuel -> make_tree fuel o = Val t.
Proof.
  assert (K : ev (fun f => make_tree f o) (fun _ => True)).
  { unfold make_tree. pose proof (ti_root _ _ _ _ _ _ _ _ T) as Ne. destruct (nth_error (o_arena o) 0) as [e|] eqn:He; [|destruct (o_arena o); [contradiction|discriminate]].
    assert (Lv : lv 0 = true).
    { destruct (tn_up _ _ _ _ _ _ _ _ (ti_node _ _ _ _ _ _ _ _ T 0 e He)) as [(_ & _ & K)|(pid & pe & U1 & _)]; [exact K|].
      pose proof (rf_parents _ _ _ R _ _ _ He U1). lia. }
    eapply ev_bind; [apply (make_ev _ 0 0 e He Lv); lia|]. intros [t c] Ht. exact Ht. }
  destruct K as (N & t & _ & E). exists N, t. exact E.
Qed.
End Tree.
