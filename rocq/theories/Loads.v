(** Which texts load: the only reasons to reject a text that parses, and expressions over unseen variables. *)
From Verif Require Import Base Machine Heap Facts Compiler Parser ParserFacts Texts Grammar Organizer Examples Spec Print Valuation Process Turn Shape Session Code Put Search PutRun Get Alloc Atoms Clause Parsed.
From Coq Require Import Sorting.Permutation.
Open Scope string_scope.
Open Scope list_scope.

(** --- literals --- *)
Inductive sub (m : node) : node -> Prop :=
| sub_refl : sub m m
| sub_kid n k : In k (kids n) -> sub m k -> sub m n.
Definition in_range (s : string) : bool :=
  match int_text_val s with Some n => ((-2147483648 <=? n) && (n <=? 2147483647))%Z | None => false end.
(** every integer literal in a term fits into an int *)
Fixpoint lits_fit (n : node) : bool :=
  match n with
  | NInt s => in_range s
  | NFun _ l | NEv _ l => forallb lits_fit l
  | _ => true
  end.
Lemma lits_fit_sub m n : sub m n -> lits_fit n = true -> lits_fit m = true.
Proof.
  induction 1 as [|n k Hk _ IH]; intros H; [exact H|]. apply IH. destruct n as [s|s|s|s l|s l]; try contradiction; cbn in H, Hk;
    exact (proj1 (forallb_forall _ _) H k Hk).
Qed.
Lemma lits_unfit n : lits_fit n = false -> exists s, sub (NInt s) n /\ in_range s = false.
Proof.
  induction n as [n IH] using (well_founded_induction (well_founded_ltof _ nsize)). unfold ltof in IH.
  intros H. assert (K : forall l, (forall m, In m l -> nsize m < nsize n) -> (forall m, In m l -> In m (kids n)) -> forallb lits_fit l = false -> exists s, sub (NInt s) n /\ in_range s = false).
  { intros l Hs Hl E. assert (X : exists m, In m l /\ lits_fit m = false).
    { clear -E. induction l as [|a l IHl]; [discriminate E|]. cbn in E. destruct (lits_fit a) eqn:Ea; [|exists a; split; [now left|exact Ea]].
      destruct (IHl E) as (m & Hm & E'). exists m. split; [now right|exact E']. }
    destruct X as (m & Hm & Em). destruct (IH m (Hs m Hm) Em) as (s & Ss & Rs). exists s. split; [|exact Rs]. exact (sub_kid _ _ m (Hl m Hm) Ss). }
  assert (Z : forall l m, In m l -> nsize m <= fsize l).
  { induction l as [|a l IHl]; intros m; [intros []|]. cbn. fold (fsize l). intros [->|Hm]; [lia|]. specialize (IHl m Hm). lia. }
  destruct n as [s|s|s|s l|s l]; try discriminate H.
  - exists s. split; [constructor|exact H].
  - apply (K l); [|auto|exact H]. intros m Hm. specialize (Z l m Hm). cbn. fold (fsize l). lia.
  - apply (K l); [|auto|exact H]. intros m Hm. specialize (Z l m Hm). cbn. fold (fsize l). lia.
Qed.

(** --- the registers marked as seen, without the code --- *)
Section Seen.
Variable perm : string -> option nat.
Definition kid_seen (k : node * nat) (seen : list sreg) : list sreg :=
  let '(n, x) := k in
  match n with
  | NInt _ | NCon _ => seen
  | _ => match (match n with NVar s => perm s | _ => None end) with
         | Some y => if seen_in (SY y) seen then seen else SY y :: seen
         | None => if seen_in (SX x) seen then seen else SX x :: seen
         end
  end.
Definition kids_seen (ks : list (node * nat)) (seen : list sreg) : list sreg := fold_left (fun s k => kid_seen k s) ks seen.
Definition ent_seen (vx : list (string * nat)) (e : ent) (seen : list sreg) : option (list sreg) :=
  let x := en_x e in
  match en_node e with
  | NVar _ => match en_arg e with None => Some seen | Some _ => Some (kid_seen (en_node e, x) seen) end
  | NInt _ | NCon _ => Some (SX x :: seen)
  | NEv _ _ => if check_undefined perm vx (SX x :: seen) (en_node e) then Some (kids_seen (en_kids e) (SX x :: seen)) else None
  | NFun _ _ => Some (kids_seen (en_kids e) (SX x :: seen))
  end.
Fixpoint ents_seen (vx : list (string * nat)) (es : list ent) (seen : list sreg) : option (list sreg) :=
  match es with
  | [] => Some seen
  | e :: es' => match ent_seen vx e seen with Some s1 => ents_seen vx es' s1 | None => None end
  end.

(** an accepted operator and a literal that fits *)
Definition node_fits (n : node) : Prop :=
  match n with NInt s => in_range s = true | NEv s _ => op_index s <> None | _ => True end.
Definition ent_fits (e : ent) : Prop := node_fits (en_node e) /\ forall k, In k (en_kids e) -> node_fits (fst k).

Lemma cstoi_fits t s : in_range t = true -> exists v, cstoi t s = (COk v, s).
Proof.
  unfold in_range, cstoi. destruct (int_text_val t) as [n|]; [|discriminate]. intros ->. exists n. reflexivity.
Qed.
Lemma cfidx_fits f s : exists i s', cfidx f s = (COk i, s').
Proof. unfold cfidx. destruct (functor_index_of f s) as [i s']. eauto. Qed.
Lemma cvar_fits f s : exists i s', cvar f s = (COk i, s').
Proof. unfold cvar. destruct (push_back_var f s) as [i s']. eauto. Qed.
Lemma copidx_fits t s : op_index t <> None -> exists i, copidx t s = (COk i, s).
Proof. unfold copidx. destruct (op_index t) as [i|]; [|congruence]. exists i. reflexivity. Qed.

Lemma query_kid_fits k seen s : node_fits (fst k) -> exists c s', query_kid perm k seen s = (COk (c, kid_seen k seen), s').
Proof.
  destruct k as [n x]. intros F. unfold query_kid, kid_seen. destruct n as [t|t|t|t l|t l]; cbn [fst node_fits] in F.
  - destruct (perm t) as [y|].
    + destruct (seen_in (SY y) seen); [eexists; eexists; reflexivity|]. destruct (cvar_fits t s) as (i & s' & E). unfold cbind. cbn [node_name]. rewrite E. eexists; eexists; reflexivity.
    + destruct (seen_in (SX x) seen); [eexists; eexists; reflexivity|]. destruct (cvar_fits t s) as (i & s' & E). unfold cbind. cbn [node_name]. rewrite E. eexists; eexists; reflexivity.
  - destruct (cfidx_fits (FV t 0) s) as (i & s' & E). unfold cbind. rewrite E. eexists; eexists; reflexivity.
  - destruct (cstoi_fits t s F) as (v & E). unfold cbind. rewrite E. eexists; eexists; reflexivity.
  - destruct (seen_in (SX x) seen); [eexists; eexists; reflexivity|]. destruct (cvar_fits t s) as (i & s' & E). unfold cbind. cbn [node_name]. rewrite E. eexists; eexists; reflexivity.
  - destruct (seen_in (SX x) seen); [eexists; eexists; reflexivity|]. destruct (cvar_fits t s) as (i & s' & E). unfold cbind. cbn [node_name]. rewrite E. eexists; eexists; reflexivity.
Qed.
Lemma query_kids_fits ks : forall seen s, (forall k, In k ks -> node_fits (fst k)) ->
  exists c s', query_kids perm ks seen s = (COk (c, kids_seen ks seen), s').
Proof.
  induction ks as [|k ks IH]; intros seen s F; cbn [query_kids]; [eexists; eexists; reflexivity|].
  destruct (query_kid_fits k seen s (F k (or_introl eq_refl))) as (c & s1 & E). unfold cbind at 1. rewrite E.
  destruct (IH (kid_seen k seen) s1 (fun k' H => F k' (or_intror H))) as (c2 & s2 & E2). unfold cbind. rewrite E2. eexists; eexists; reflexivity.
Qed.
Lemma query_ent_fits vx e seen s : ent_fits e ->
  match ent_seen vx e seen with
  | Some seen' => exists c s', query_ent perm vx e seen s = (COk (c, seen'), s')
  | None => fst (query_ent perm vx e seen s) = CErr CNotInst
  end.
Proof.
  intros [F Fk]. unfold ent_seen, query_ent. destruct (en_node e) as [t|t|t|t l|t l] eqn:En; cbn [node_fits] in F.
  - destruct (en_arg e) as [a|]; [|eexists; eexists; reflexivity]. unfold kid_seen. destruct (perm t) as [y|].
    + destruct (seen_in (SY y) seen); [eexists; eexists; reflexivity|]. destruct (cvar_fits t s) as (i & s' & E). unfold cbind. rewrite E. eexists; eexists; reflexivity.
    + destruct (seen_in (SX (en_x e)) seen); [eexists; eexists; reflexivity|]. destruct (cvar_fits t s) as (i & s' & E). unfold cbind. rewrite E. eexists; eexists; reflexivity.
  - destruct (cfidx_fits (FV t 0) s) as (i & s' & E). unfold cbind. rewrite E. eexists; eexists; reflexivity.
  - destruct (cstoi_fits t s F) as (v & E). unfold cbind. rewrite E. eexists; eexists; reflexivity.
  - destruct (cfidx_fits (to_fview (NFun t l)) s) as (i & s' & E). unfold cbind at 1. rewrite E.
    destruct (query_kids_fits (en_kids e) (SX (en_x e) :: seen) s' Fk) as (c2 & s2 & E2). unfold cbind. rewrite E2. eexists; eexists; reflexivity.
  - destruct (check_undefined perm vx (SX (en_x e) :: seen) (NEv t l)); [|reflexivity].
    destruct (copidx_fits t s F) as (i & E). unfold cbind at 1. rewrite E.
    destruct (query_kids_fits (en_kids e) (SX (en_x e) :: seen) s Fk) as (c2 & s2 & E2). unfold cbind. rewrite E2. eexists; eexists; reflexivity.
Qed.
Lemma query_ents_fits vx es : forall seen s, (forall e, In e es -> ent_fits e) ->
  match ents_seen vx es seen with
  | Some seen' => exists c s', query_ents perm vx es seen s = (COk (c, seen'), s')
  | None => fst (query_ents perm vx es seen s) = CErr CNotInst
  end.
Proof.
  induction es as [|e es IH]; intros seen s F; cbn [query_ents ents_seen]; [eexists; eexists; reflexivity|].
  pose proof (query_ent_fits vx e seen s (F e (or_introl eq_refl))) as K. destruct (ent_seen vx e seen) as [s1|].
  - destruct K as (c & t & E). unfold cbind. rewrite E. specialize (IH s1 t (fun e' H => F e' (or_intror H))).
    destruct (ents_seen vx es s1) as [s2|].
    + destruct IH as (c2 & t2 & E2). rewrite E2. eexists; eexists; reflexivity.
    + destruct (query_ents perm vx es s1 t) as [[[c2 x2]|e2|] t2]; cbn in IH; try discriminate IH. injection IH as ->. reflexivity.
  - unfold cbind. destruct (query_ent perm vx e seen s) as [[[c2 x2]|e2|] t2]; cbn in K; try discriminate K. injection K as ->. reflexivity.
Qed.

(** heads *)
Definition pkid_seen (k : node * nat) (seen : list sreg) : list sreg :=
  let '(n, x) := k in
  match n with
  | NInt _ | NCon _ => seen
  | _ => if seen_in (SX x) seen then seen
         else match (match n with NVar s => perm s | _ => None end) with
              | Some y => SY y :: SX x :: seen
              | None => SX x :: seen
              end
  end.
Definition pkids_seen (ks : list (node * nat)) (seen : list sreg) : list sreg := fold_left (fun s k => pkid_seen k s) ks seen.
Definition pent_seen (e : ent) (seen : list sreg) : list sreg :=
  match en_node e with
  | NVar _ => match en_arg e with None => seen | Some _ => pkid_seen (en_node e, en_x e) seen end
  | NInt _ | NCon _ => seen
  | NEv _ _ | NFun _ _ => pkids_seen (en_kids e) seen
  end.
Definition pents_seen (es : list ent) (seen : list sreg) : list sreg := fold_left (fun s e => pent_seen e s) es seen.
Lemma prog_kid_fits k seen s : node_fits (fst k) -> exists c s', prog_kid perm k seen s = (COk (c, pkid_seen k seen), s').
Proof.
  destruct k as [n x]. intros F. unfold prog_kid, pkid_seen. destruct n as [t|t|t|t l|t l]; cbn [fst node_fits] in F.
  - destruct (seen_in (SX x) seen); [eexists; eexists; reflexivity|]. destruct (cvar_fits t s) as (i & s' & E). unfold cbind. cbn [node_name]. rewrite E.
    destruct (perm t); eexists; eexists; reflexivity.
  - destruct (cfidx_fits (FV t 0) s) as (i & s' & E). unfold cbind. rewrite E. eexists; eexists; reflexivity.
  - destruct (cstoi_fits t s F) as (v & E). unfold cbind. rewrite E. eexists; eexists; reflexivity.
  - destruct (seen_in (SX x) seen); [eexists; eexists; reflexivity|]. destruct (cvar_fits t s) as (i & s' & E). unfold cbind. cbn [node_name]. rewrite E. eexists; eexists; reflexivity.
  - destruct (seen_in (SX x) seen); [eexists; eexists; reflexivity|]. destruct (cvar_fits t s) as (i & s' & E). unfold cbind. cbn [node_name]. rewrite E. eexists; eexists; reflexivity.
Qed.
Lemma prog_kids_fits ks : forall seen s, (forall k, In k ks -> node_fits (fst k)) ->
  exists c s', prog_kids perm ks seen s = (COk (c, pkids_seen ks seen), s').
Proof.
  induction ks as [|k ks IH]; intros seen s F; cbn [prog_kids]; [eexists; eexists; reflexivity|].
  destruct (prog_kid_fits k seen s (F k (or_introl eq_refl))) as (c & s1 & E). unfold cbind at 1. rewrite E.
  destruct (IH (pkid_seen k seen) s1 (fun k' H => F k' (or_intror H))) as (c2 & s2 & E2). unfold cbind. rewrite E2. eexists; eexists; reflexivity.
Qed.
Lemma prog_ent_fits e seen s : ent_fits e -> exists c s', prog_ent perm e seen s = (COk (c, pent_seen e seen), s').
Proof.
  intros [F Fk]. unfold pent_seen, prog_ent. destruct (en_node e) as [t|t|t|t l|t l] eqn:En; cbn [node_fits] in F.
  - destruct (en_arg e) as [a|]; [|eexists; eexists; reflexivity]. unfold pkid_seen. destruct (seen_in (SX (en_x e)) seen); [eexists; eexists; reflexivity|].
    destruct (perm t); eexists; eexists; reflexivity.
  - destruct (cfidx_fits (FV t 0) s) as (i & s' & E). unfold cbind. rewrite E. eexists; eexists; reflexivity.
  - destruct (cstoi_fits t s F) as (v & E). unfold cbind. rewrite E. eexists; eexists; reflexivity.
  - destruct (cfidx_fits (to_fview (NFun t l)) s) as (i & s' & E). unfold cbind at 1. rewrite E.
    destruct (prog_kids_fits (en_kids e) seen s' Fk) as (c2 & s2 & E2). unfold cbind. rewrite E2. eexists; eexists; reflexivity.
  - destruct (copidx_fits t s F) as (i & E). unfold cbind at 1. rewrite E.
    destruct (prog_kids_fits (en_kids e) seen s Fk) as (c2 & s2 & E2). unfold cbind. rewrite E2. eexists; eexists; reflexivity.
Qed.
Lemma prog_ents_fits es : forall seen s, (forall e, In e es -> ent_fits e) -> exists c s', prog_ents perm es seen s = (COk (c, pents_seen es seen), s').
Proof.
  induction es as [|e es IH]; intros seen s F; cbn [prog_ents]; [eexists; eexists; reflexivity|].
  destruct (prog_ent_fits e seen s (F e (or_introl eq_refl))) as (c & s1 & E). unfold cbind at 1. rewrite E.
  destruct (IH (pent_seen e seen) s1 (fun k' H => F k' (or_intror H))) as (c2 & s2 & E2). unfold cbind. rewrite E2. eexists; eexists; reflexivity.
Qed.
Lemma to_program_fits a seen s : (forall e, In e (flatten_program a) -> ent_fits e) -> exists c s', to_program perm a seen s = (COk (c, pents_seen (flatten_program a) seen), s').
Proof.
  intros F. unfold to_program. destruct (prog_ents_fits _ seen s F) as (c & s' & E). unfold cbind. rewrite E. eexists; eexists; reflexivity.
Qed.
Lemma to_query_fits a seen s : (forall e, In e (flatten_query a) -> ent_fits e) ->
  match ents_seen (aa_vx a) (flatten_query a) seen with
  | Some seen' => exists c s', to_query perm a seen s = (COk (c, seen'), s')
  | None => fst (to_query perm a seen s) = CErr CNotInst
  end.
Proof.
  intros F. unfold to_query. pose proof (query_ents_fits (aa_vx a) _ seen s F) as K. destruct (ents_seen _ _ _) as [s1|].
  - destruct K as (c & t & E). unfold cbind. rewrite E. eexists; eexists; reflexivity.
  - unfold cbind. destruct (query_ents _ _ _ _ _) as [[[c2 x2]|e2|] t2]; cbn in K; try discriminate K. injection K as ->. reflexivity.
Qed.
(** the same without any assumption: what the result says about the marked registers *)
Definition agrees {A} (r : cres (A * list sreg)) (o : option (list sreg)) : Prop :=
  match r with COk (_, s) => o = Some s | CErr e => e = CNotInst /\ o = None | CEsc => True end.
Lemma cstoi_two t s : (exists v, cstoi t s = (COk v, s)) \/ cstoi t s = (CEsc, s).
Proof. unfold cstoi. destruct (int_text_val t) as [n|]; [|now right]. destruct (_ && _)%bool; [left; exists n; reflexivity|now right]. Qed.
Lemma copidx_two t s : (exists v, copidx t s = (COk v, s)) \/ copidx t s = (CEsc, s).
Proof. unfold copidx. destruct (op_index t) as [n|]; [left; exists n; reflexivity|now right]. Qed.
Ltac cstep := match goal with
  | |- context [cstoi ?t ?s] => destruct (cstoi_two t s) as [(?v & ->)| ->]
  | |- context [copidx ?t ?s] => destruct (copidx_two t s) as [(?v & ->)| ->]
  | |- context [cfidx ?t ?s] => destruct (cfidx_fits t s) as (?i & ?s' & ->)
  | |- context [cvar ?t ?s] => destruct (cvar_fits t s) as (?i & ?s' & ->)
  end.
Lemma query_kid_R k seen s : agrees (fst (query_kid perm k seen s)) (Some (kid_seen k seen)).
Proof.
  destruct k as [n x]. unfold query_kid, kid_seen. destruct n as [t|t|t|t l|t l]; unfold cbind; cbn [node_name].
  - destruct (perm t) as [y|]; [destruct (seen_in (SY y) seen)|destruct (seen_in (SX x) seen)]; try reflexivity; cstep; reflexivity.
  - cstep. reflexivity.
  - cstep; [reflexivity|exact I].
  - destruct (seen_in (SX x) seen); [reflexivity|]. cstep. reflexivity.
  - destruct (seen_in (SX x) seen); [reflexivity|]. cstep. reflexivity.
Qed.
Lemma query_kids_R ks : forall seen s, agrees (fst (query_kids perm ks seen s)) (Some (kids_seen ks seen)).
Proof.
  induction ks as [|k ks IH]; intros seen s; cbn [query_kids]; [reflexivity|]. unfold cbind. pose proof (query_kid_R k seen s) as K.
  destruct (query_kid perm k seen s) as [[[c s1]|e|] t1]; cbn in K; [|destruct K as [_ K]; discriminate K|exact I]. injection K as <-. specialize (IH (kid_seen k seen) t1).
  destruct (query_kids perm ks (kid_seen k seen) t1) as [[[c2 s2]|e|] t2]; cbn in IH |- *; [exact IH|destruct IH as [_ K]; discriminate K|exact I].
Qed.
Lemma query_ent_R vx e seen s : agrees (fst (query_ent perm vx e seen s)) (ent_seen vx e seen).
Proof.
  unfold ent_seen, query_ent. destruct (en_node e) as [t|t|t|t l|t l] eqn:En; unfold cbind.
  - destruct (en_arg e) as [a|]; [|reflexivity]. unfold kid_seen. destruct (perm t) as [y|]; [destruct (seen_in (SY y) seen)|destruct (seen_in (SX (en_x e)) seen)]; try reflexivity; cstep; reflexivity.
  - cstep. reflexivity.
  - cstep; [reflexivity|exact I].
  - cstep. pose proof (query_kids_R (en_kids e) (SX (en_x e) :: seen) s') as K.
    destruct (query_kids perm (en_kids e) (SX (en_x e) :: seen) s') as [[[c2 s2]|e2|] t2]; cbn in K |- *; [exact K|destruct K as [_ K]; discriminate K|exact I].
  - destruct (check_undefined perm vx (SX (en_x e) :: seen) (NEv t l)); [|split; reflexivity]. cstep; [|exact I]. pose proof (query_kids_R (en_kids e) (SX (en_x e) :: seen) s) as K.
    destruct (query_kids perm (en_kids e) (SX (en_x e) :: seen) s) as [[[c2 s2]|e2|] t2]; cbn in K |- *; [exact K|destruct K as [_ K]; discriminate K|exact I].
Qed.
Lemma query_ents_R vx es : forall seen s, agrees (fst (query_ents perm vx es seen s)) (ents_seen vx es seen).
Proof.
  induction es as [|e es IH]; intros seen s; cbn [query_ents ents_seen]; [reflexivity|]. unfold cbind. pose proof (query_ent_R vx e seen s) as K.
  destruct (query_ent perm vx e seen s) as [[[c s1]|e1|] t1]; cbn in K.
  - rewrite K. specialize (IH s1 t1). destruct (query_ents perm vx es s1 t1) as [[[c2 s2]|e2|] t2]; cbn in IH |- *; exact IH.
  - destruct K as [-> ->]. split; reflexivity.
  - exact I.
Qed.
Lemma to_query_R a seen s : agrees (fst (to_query perm a seen s)) (ents_seen (aa_vx a) (flatten_query a) seen).
Proof.
  unfold to_query, cbind. pose proof (query_ents_R (aa_vx a) (flatten_query a) seen s) as K. destruct (query_ents _ _ _ _ _) as [[[c s1]|e1|] t1]; cbn in K |- *; exact K.
Qed.
Lemma prog_kid_R k seen s : agrees (fst (prog_kid perm k seen s)) (Some (pkid_seen k seen)).
Proof.
  destruct k as [n x]. unfold prog_kid, pkid_seen. destruct n as [t|t|t|t l|t l]; unfold cbind; cbn [node_name].
  - destruct (seen_in (SX x) seen); [reflexivity|]. cstep. destruct (perm t); reflexivity.
  - cstep. reflexivity.
  - cstep; [reflexivity|exact I].
  - destruct (seen_in (SX x) seen); [reflexivity|]. cstep. reflexivity.
  - destruct (seen_in (SX x) seen); [reflexivity|]. cstep. reflexivity.
Qed.
Lemma prog_kids_R ks : forall seen s, agrees (fst (prog_kids perm ks seen s)) (Some (pkids_seen ks seen)).
Proof.
  induction ks as [|k ks IH]; intros seen s; cbn [prog_kids]; [reflexivity|]. unfold cbind. pose proof (prog_kid_R k seen s) as K.
  destruct (prog_kid perm k seen s) as [[[c s1]|e|] t1]; cbn in K; [|destruct K as [_ K]; discriminate K|exact I]. injection K as <-. specialize (IH (pkid_seen k seen) t1).
  destruct (prog_kids perm ks (pkid_seen k seen) t1) as [[[c2 s2]|e|] t2]; cbn in IH |- *; [exact IH|destruct IH as [_ K]; discriminate K|exact I].
Qed.
Lemma prog_ents_R es : forall seen s, agrees (fst (prog_ents perm es seen s)) (Some (pents_seen es seen)).
Proof.
  induction es as [|e es IH]; intros seen s; cbn [prog_ents]; [reflexivity|]. unfold cbind.
  assert (K : agrees (fst (prog_ent perm e seen s)) (Some (pent_seen e seen))).
  { unfold pent_seen, prog_ent. destruct (en_node e) as [t|t|t|t l|t l] eqn:En; unfold cbind.
    - destruct (en_arg e) as [a|]; [|reflexivity]. unfold pkid_seen. destruct (seen_in (SX (en_x e)) seen); [reflexivity|]. destruct (perm t); reflexivity.
    - cstep. reflexivity.
    - cstep; [reflexivity|exact I].
    - cstep. pose proof (prog_kids_R (en_kids e) seen s') as K. destruct (prog_kids perm (en_kids e) seen s') as [[[c2 s2]|e2|] t2]; cbn in K |- *; [exact K|destruct K as [_ K]; discriminate K|exact I].
    - cstep; [|exact I]. pose proof (prog_kids_R (en_kids e) seen s) as K. destruct (prog_kids perm (en_kids e) seen s) as [[[c2 s2]|e2|] t2]; cbn in K |- *; [exact K|destruct K as [_ K]; discriminate K|exact I]. }
  destruct (prog_ent perm e seen s) as [[[c s1]|e1|] t1]; cbn in K; [|destruct K as [_ K]; discriminate K|exact I]. injection K as <-. specialize (IH (pent_seen e seen) t1).
  destruct (prog_ents perm es (pent_seen e seen) t1) as [[[c2 s2]|e2|] t2]; cbn in IH |- *; [exact IH|destruct IH as [_ K]; discriminate K|exact I].
Qed.
Lemma to_program_R a seen s : agrees (fst (to_program perm a seen s)) (Some (pents_seen (flatten_program a) seen)).
Proof.
  unfold to_program, cbind. pose proof (prog_ents_R (flatten_program a) seen s) as K. destruct (prog_ents _ _ _ _) as [[[c s1]|e1|] t1]; cbn in K |- *; exact K.
Qed.
End Seen.

(** --- what the registers say --- *)
Definition recd (perm : string -> option nat) (vx : list (string * nat)) (seen : list sreg) (s : string) : bool :=
  match perm s with
  | Some y => seen_in (SY y) seen
  | None => match assoc s vx with Some x => seen_in (SX x) seen | None => false end
  end.
Definition isv (v : string) (m : node) : bool := match m with NVar s => String.eqb v s | _ => false end.
(** the node is the variable, or has it as an argument *)
Definition shows (v : string) (m : node) : bool := isv v m || existsb (isv v) (kids m).
Definition is_ev (m : node) : bool := match m with NEv _ _ => true | _ => false end.

Section Atom.
Variable perm : string -> option nat.
Hypothesis perm_inj : forall s t y, perm s = Some y -> perm t = Some y -> s = t.
Variable n : node.
Variable a : aatom.
Variable cnt : nat.
Variable lx : list (node * nat).
Hypothesis TA : term_alloc n a cnt lx.
Notation vx := (aa_vx a).
Notation rec := (recd perm vx).

Let AL : alloc (List.length (kids n)) cnt lx.
Proof. exact (ta_alloc _ _ _ _ TA cnt (Nat.le_refl _)). Qed.

Lemma seen_cons r0 r seen : seen_in r (r0 :: seen) = (sreg_eqb r r0 || seen_in r seen)%bool.
Proof. reflexivity. Qed.
Lemma var_reg v : In v (vars_of n) -> exists i x, nth_error lx i = Some (NVar v, x) /\ assoc v vx = Some x.
Proof. intros H. apply (lx_var _ _ _ _ TA) in H. destruct H as (i & x & H). exists i, x. split; [exact H|]. exact (ta_vx _ _ _ _ TA _ _ _ H). Qed.
Lemma own_recd i m x seen v : nth_error lx i = Some (m, x) -> is_var m = false -> (perm v = None -> In v (vars_of n)) -> rec (SX x :: seen) v = rec seen v.
Proof.
  intros Hi Hm Hv. unfold recd. destruct (perm v) as [y|]; [reflexivity|]. destruct (var_reg v (Hv eq_refl)) as (j & xv & Hj & ->).
  rewrite seen_cons. cbn [sreg_eqb]. destruct (Nat.eqb_spec xv x) as [->|]; [|reflexivity].
  destruct (al_own _ _ _ AL j i _ _ x Hj Hi) as [->|(s & _ & ->)]; [rewrite Hi in Hj; injection Hj as ->|]; discriminate Hm.
Qed.
Lemma kid_recd i m x seen v : nth_error lx i = Some (m, x) -> (perm v = None -> In v (vars_of n)) -> rec (kid_seen perm (m, x) seen) v = (rec seen v || isv v m)%bool.
Proof.
  intros Hi Hv. unfold kid_seen. destruct m as [s|s|s|s l|s l]; cbn [isv]; try now rewrite orb_false_r.
  - destruct (String.eqb_spec v s) as [->|Ne].
    + rewrite orb_true_r. unfold recd. destruct (perm s) as [y|].
      * destruct (seen_in (SY y) seen) eqn:E; [exact E|]. rewrite seen_cons. cbn [sreg_eqb]. now rewrite Nat.eqb_refl.
      * rewrite (ta_vx _ _ _ _ TA _ _ _ Hi). destruct (seen_in (SX x) seen) eqn:E; [exact E|]. rewrite seen_cons. cbn [sreg_eqb]. now rewrite Nat.eqb_refl.
    + rewrite orb_false_r. destruct (perm s) as [y|] eqn:Es.
      * destruct (seen_in (SY y) seen); [reflexivity|]. unfold recd. destruct (perm v) as [z|] eqn:Ev.
        -- rewrite seen_cons. cbn [sreg_eqb]. destruct (Nat.eqb_spec z y) as [->|]; [|reflexivity]. elim Ne. exact (perm_inj _ _ _ Ev Es).
        -- destruct (assoc v vx); [|reflexivity]. reflexivity.
      * destruct (seen_in (SX x) seen); [reflexivity|]. unfold recd. destruct (perm v) as [z|] eqn:Ev; [reflexivity|].
        destruct (var_reg v (Hv eq_refl)) as (j & xv & Hj & ->). rewrite seen_cons. cbn [sreg_eqb]. destruct (Nat.eqb_spec xv x) as [->|]; [|reflexivity].
        destruct (al_own _ _ _ AL j i _ _ x Hj Hi) as [->|(t & E1 & E2)].
        -- rewrite Hi in Hj. injection Hj as ->. congruence.
        -- injection E1 as ->. injection E2 as ->. congruence.
  - rewrite orb_false_r. destruct (seen_in (SX x) seen); [reflexivity|]. exact (own_recd i _ x seen v Hi eq_refl Hv).
  - rewrite orb_false_r. destruct (seen_in (SX x) seen); [reflexivity|]. exact (own_recd i _ x seen v Hi eq_refl Hv).
Qed.
Lemma kids_recd ks v : (perm v = None -> In v (vars_of n)) -> forall seen, (forall k, In k ks -> exists j, nth_error lx j = Some k) ->
  rec (kids_seen perm ks seen) v = (rec seen v || existsb (isv v) (map fst ks))%bool.
Proof.
  intros Hv. induction ks as [|[m x] ks IH]; intros seen H; cbn [kids_seen fold_left map existsb]; [now rewrite orb_false_r|].
  change (fold_left _ ks ?s) with (kids_seen perm ks s). rewrite IH by (intros k Hk; apply H; now right).
  destruct (H (m, x) (or_introl eq_refl)) as (j & Hj). rewrite (kid_recd j m x seen v Hj Hv). cbn [fst]. now rewrite orb_assoc.
Qed.
Lemma ent_recd p e seen : nth_error (aa_ents a) p = Some e -> keep_flat e = true ->
  (is_ev (en_node e) = true -> forall v, In v (vars_of (en_node e)) -> In v (vars_of n)) ->
  match ent_seen perm vx e seen with
  | Some seen' => (is_ev (en_node e) = true -> forall v, In v (vars_of (en_node e)) -> rec seen v = true) /\
                  forall v, (perm v = None -> In v (vars_of n)) -> rec seen' v = (rec seen v || shows v (en_node e))%bool
  | None => is_ev (en_node e) = true /\ exists v, In v (vars_of (en_node e)) /\ rec seen v = false
  end.
Proof.
  intros He Hf Hs. destruct (eo_at _ _ _ (lx_ents _ _ _ _ TA) p e He) as (m & x & Hx & En & Ex & Ea & Ek & Hk).
  assert (HK : forall k, In k (en_kids e) -> exists j, nth_error lx j = Some k) by (intros k K; destruct (Hk k K) as (j & _ & _ & J); eauto).
  unfold ent_seen, keep_flat in *. rewrite En in *. rewrite Ex in *. destruct m as [s|s|s|s l|s l].
  - destruct (en_arg e) as [k|]; [|discriminate Hf]. split; [discriminate|]. intros v Hv. rewrite (kid_recd p _ x seen v Hx Hv). unfold shows. cbn [kids existsb]. now rewrite orb_false_r.
  - split; [discriminate|]. intros v Hv. unfold shows. cbn [kids existsb isv orb]. rewrite orb_false_r. exact (own_recd p _ x seen v Hx eq_refl Hv).
  - split; [discriminate|]. intros v Hv. unfold shows. cbn [kids existsb isv orb]. rewrite orb_false_r. exact (own_recd p _ x seen v Hx eq_refl Hv).
  - split; [discriminate|]. intros v Hv. rewrite (kids_recd _ v Hv _ HK). rewrite (own_recd p _ x seen v Hx eq_refl Hv), Ek. reflexivity.
  - change (check_undefined perm vx (SX x :: seen) (NEv s l)) with (forallb (rec (SX x :: seen)) (vars_of (NEv s l))).
    specialize (Hs eq_refl). assert (EQ : forall v, In v (vars_of (NEv s l)) -> rec (SX x :: seen) v = rec seen v) by (intros v Hv; exact (own_recd p _ x seen v Hx eq_refl (fun _ => Hs v Hv))).
    destruct (forallb (rec (SX x :: seen)) (vars_of (NEv s l))) eqn:C.
    + split; [intros _ v Hv; rewrite <- (EQ v Hv); exact (proj1 (forallb_forall _ _) C v Hv)|]. intros v Hv. rewrite (kids_recd _ v Hv _ HK). rewrite (own_recd p _ x seen v Hx eq_refl Hv), Ek. reflexivity.
    + split; [reflexivity|]. assert (X : forall vs, (forall v, In v vs -> rec (SX x :: seen) v = rec seen v) -> forallb (rec (SX x :: seen)) vs = false -> exists v, In v vs /\ rec seen v = false).
      { clear. induction vs as [|v vs IH]; intros EQ C; [discriminate C|]. cbn in C. destruct (rec (SX x :: seen) v) eqn:Ev.
        - destruct IH as (w & Hw & Ew); [intros w Hw; apply EQ; now right|exact C|]. exists w. split; [now right|exact Ew].
        - exists v. split; [now left|]. rewrite <- EQ; [exact Ev|now left]. }
      exact (X _ EQ C).
Qed.
(** the first expression over a variable that no earlier node shows *)
Definition bad_visit (known : string -> bool) (l : list node) : Prop :=
  exists l1 e l2 v, l = l1 ++ e :: l2 /\ is_ev e = true /\ In v (vars_of e) /\ known v = false /\ forall m, In m l1 -> shows v m = false.
Lemma ents_recd es : forall seen, (forall e, In e es -> exists p, nth_error (aa_ents a) p = Some e) -> (forall e, In e es -> keep_flat e = true) ->
  (forall e, In e es -> is_ev (en_node e) = true -> forall v, In v (vars_of (en_node e)) -> In v (vars_of n)) ->
  match ents_seen perm vx es seen with
  | Some seen' => ~ bad_visit (rec seen) (map en_node es) /\ forall v, (perm v = None -> In v (vars_of n)) -> rec seen' v = (rec seen v || existsb (shows v) (map en_node es))%bool
  | None => bad_visit (rec seen) (map en_node es)
  end.
Proof.
  induction es as [|e es IH]; intros seen H1 H2 H3; cbn [ents_seen map existsb].
  - split; [|intros v _; now rewrite orb_false_r]. intros (l1 & e & l2 & v & E & _). destruct l1; discriminate E.
  - destruct (H1 e (or_introl eq_refl)) as (p & Hp). pose proof (ent_recd p e seen Hp (H2 e (or_introl eq_refl)) (H3 e (or_introl eq_refl))) as K.
    destruct (ent_seen perm vx e seen) as [s1|].
    + destruct K as [K1 K2]. specialize (IH s1 (fun e' h => H1 e' (or_intror h)) (fun e' h => H2 e' (or_intror h)) (fun e' h => H3 e' (or_intror h))).
      assert (B : bad_visit (rec seen) (en_node e :: map en_node es) <-> bad_visit (rec s1) (map en_node es)).
      { split.
        - intros (l1 & b & l2 & v & E & Eb & Hv & Kv & Hl). destruct l1 as [|c l1].
          + injection E as <- _. rewrite (K1 Eb v Hv) in Kv. discriminate Kv.
          + injection E as <- E. exists l1, b, l2, v. split; [exact E|]. split; [exact Eb|]. split; [exact Hv|]. split; [|intros m Hm; apply Hl; now right].
            rewrite K2; [rewrite Kv, (Hl _ (or_introl eq_refl)); reflexivity|].
            assert (Hb : In b (map en_node es)) by (rewrite E; apply in_elt). apply in_map_iff in Hb. destruct Hb as (e' & <- & He'). intros _; exact (H3 e' (or_intror He') Eb v Hv).
        - intros (l1 & b & l2 & v & E & Eb & Hv & Kv & Hl). exists (en_node e :: l1), b, l2, v.
          assert (Hb : In b (map en_node es)) by (rewrite E; apply in_elt). apply in_map_iff in Hb. destruct Hb as (e' & Eb' & He').
          rewrite K2 in Kv by (intros _; rewrite <- Eb' in Eb, Hv; exact (H3 e' (or_intror He') Eb v Hv)). apply orb_false_iff in Kv. destruct Kv as [Ka Kb].
          split; [rewrite E; reflexivity|]. split; [exact Eb|]. split; [exact Hv|]. split; [exact Ka|]. intros m [<-|Hm]; [exact Kb|exact (Hl m Hm)]. }
      destruct (ents_seen perm vx es s1) as [s2|].
      * destruct IH as [I1 I2]. split; [rewrite B; exact I1|]. intros v Hv. rewrite (I2 v Hv), (K2 v Hv). now rewrite orb_assoc.
      * rewrite B. exact IH.
    + destruct K as [Kb (v & Hv & Kv)]. exists [], (en_node e), (map en_node es), v. split; [reflexivity|]. split; [exact Kb|]. split; [exact Hv|]. split; [exact Kv|]. intros m [].
Qed.
End Atom.

(** --- subterms, in breadth-first order --- *)
Lemma sub_inv m n : sub m n <-> m = n \/ exists k, In k (kids n) /\ sub m k.
Proof.
  split.
  - intros H. inversion H as [|? k Hk Hs]; subst; [now left|right; exists k; auto].
  - intros [->|(k & Hk & Hs)]; [constructor|exact (sub_kid _ _ k Hk Hs)].
Qed.
Lemma bfs_sub m k : forall q, fsize q <= k -> (In m (bfs q) <-> exists n, In n q /\ sub m n).
Proof.
  induction k as [|k IH]; intros q Hk; (destruct q as [|n q]; [cbn; split; [intros []|intros (n & [] & _)]|]).
  - cbn in Hk. rewrite nsize_kids in Hk. lia.
  - rewrite bfs_cons. cbn [In]. rewrite IH by (rewrite fsize_app; cbn in Hk; fold (fsize q) in Hk; rewrite nsize_kids in Hk; lia). split.
    + intros [->|(a & Ha & Hs)]; [exists m; split; [now left|constructor]|]. apply in_app_iff in Ha. destruct Ha as [Ha|Ha]; [exists a; auto|].
      exists n. split; [now left|]. exact (sub_kid _ _ a Ha Hs).
    + intros (a & [<-|Ha] & Hs).
      * apply sub_inv in Hs. destruct Hs as [->|(b & Hb & Hs)]; [now left|right]. exists b. rewrite in_app_iff. auto.
      * right. exists a. rewrite in_app_iff. auto.
Qed.
Lemma below_sub m n : In m (bfs_below n) <-> exists k, In k (kids n) /\ sub m k.
Proof. unfold bfs_below. apply (bfs_sub m (fsize (kids n))). lia. Qed.
Lemma vars_sub v n : In v (vars_of n) <-> exists k, In k (kids n) /\ sub (NVar v) k.
Proof. rewrite vars_of_in. apply below_sub. Qed.
Lemma vars_sub_fun v n : is_var n = false -> (In v (vars_of n) <-> sub (NVar v) n).
Proof. intros H. rewrite vars_sub, sub_inv. split; [auto|]. intros [<-|K]; [discriminate H|exact K]. Qed.
Lemma sub_trans a b c : sub a b -> sub b c -> sub a c.
Proof. intros H1 H2. induction H2 as [|n k Hk _ IH]; [exact H1|]. exact (sub_kid _ _ k Hk IH). Qed.

(** --- the order in which a goal is compiled: structures below the arguments from the last in breadth-first
    order, then the arguments --- *)
Definition visits (n : node) : list node :=
  if is_constant n then [n] else rev (filter is_str (skipn (List.length (kids n)) (bfs_below n))) ++ kids n.

Section Ents2.
Variables (n : node) (a : aatom) (lx : list (node * nat)).
Hypothesis Hmap : map fst lx = bfs_below n.
Hypothesis Hents : aa_ents a = mk_ents (List.length (kids n)) 0 lx (skipn (List.length (kids n)) lx).
Hypothesis Htop : aa_top a = n.
Let nargs := List.length (kids n).
Lemma lx_split2 : lx = firstn nargs lx ++ skipn nargs lx /\ map fst (firstn nargs lx) = kids n /\ nargs <= List.length lx.
Proof.
  split; [now rewrite firstn_skipn|]. pose proof Hmap as E. unfold bfs_below in E.
  destruct (bfs_prefix (kids n)) as (w & Ew). rewrite Ew in E. split.
  - rewrite <- firstn_map, E, firstn_app. unfold nargs. rewrite Nat.sub_diag, firstn_O, app_nil_r. apply firstn_all.
  - apply (f_equal (@List.length _)) in E. rewrite map_length, app_length in E. unfold nargs. lia.
Qed.
Lemma lx_ents2 : ents_of nargs lx (aa_ents a).
Proof.
  destruct lx_split2 as (E & Ek & Hl). assert (B : Blk (firstn nargs lx) (skipn nargs lx)).
  { apply (bfs_blk (fsize (kids n)) (kids n)); auto. rewrite <- E. exact Hmap. }
  destruct (mk_ents_at nargs lx (firstn nargs lx) (skipn nargs lx) B [] 0) as (A & B' & C); [exact E|reflexivity|rewrite firstn_length; lia|].
  rewrite <- E in A, B', C. fold nargs in A, B', C. rewrite Hents. fold nargs. split; [exact A|exact B'|].
  intros j k Hj. apply C. rewrite firstn_length. lia.
Qed.
Lemma flat_kept : flatten_program a = firstn nargs (aa_ents a) ++ filter keep_flat (skipn nargs (aa_ents a)).
Proof.
  pose proof lx_ents2 as EO. unfold flatten_program. rewrite <- (firstn_skipn nargs (aa_ents a)) at 1. rewrite filter_app. f_equal.
  assert (G : forall l, (forall e, In e l -> keep_flat e = true) -> filter keep_flat l = l).
  { induction l as [|e l IH]; intros H; cbn; [reflexivity|]. rewrite (H e) by (now left). f_equal. apply IH. intros e' He. apply H. now right. }
  apply G. intros e He. apply In_nth_error in He. destruct He as [i Hi].
  assert (L : i < nargs) by (apply nth_error_lt in Hi; rewrite firstn_length in Hi; lia).
  assert (Hi' : nth_error (aa_ents a) i = Some e).
  { rewrite <- (firstn_skipn nargs (aa_ents a)), nth_error_app1; [assumption|apply nth_error_lt in Hi; assumption]. }
  destruct (eo_at _ _ _ EO i e Hi') as (m & x & _ & En & _ & Ea & _). destruct (Nat.ltb_spec i nargs); [|lia].
  unfold keep_flat. rewrite Ea. destruct (en_node e); reflexivity.
Qed.
Lemma ents_nodes : map en_node (aa_ents a) = bfs_below n.
Proof.
  pose proof lx_ents2 as EO. rewrite <- Hmap. apply nth_error_ext. intros i. rewrite !nth_error_map.
  destruct (nth_error (aa_ents a) i) as [e|] eqn:Ei.
  - destruct (eo_at _ _ _ EO i e Ei) as (m & x & Hx & En & _). rewrite Hx. cbn. now rewrite En.
  - apply nth_error_None in Ei. rewrite (eo_len _ _ _ EO) in Ei. apply nth_error_None in Ei. now rewrite Ei.
Qed.
Lemma keep_str i e : nth_error (aa_ents a) i = Some e -> nargs <= i -> keep_flat e = is_str (en_node e).
Proof.
  intros Hi L. destruct (eo_at _ _ _ lx_ents2 i e Hi) as (m & x & _ & En & _ & Ea & _). destruct (Nat.ltb_spec i nargs); [lia|].
  unfold keep_flat. rewrite Ea. destruct (en_node e); reflexivity.
Qed.
Lemma flat_visits : is_constant n = false -> map en_node (flatten_query a) = visits n.
Proof.
  intros Ec. unfold flatten_query, visits. rewrite Htop, Ec, flat_kept. fold nargs.
  assert (Lf : List.length (firstn nargs (aa_ents a)) = nargs).
  { rewrite firstn_length, (eo_len _ _ _ lx_ents2). destruct lx_split2 as (_ & _ & H). lia. }
  rewrite skipn_app, firstn_app, Lf, Nat.sub_diag, firstn_O, app_nil_r, firstn_firstn, Nat.min_id.
  rewrite skipn_all2 by lia. cbn [skipn app]. rewrite map_app, map_rev. f_equal.
  - f_equal. rewrite <- ents_nodes.
    assert (G : forall l, (forall e, In e l -> keep_flat e = is_str (en_node e)) -> map en_node (filter keep_flat l) = filter is_str (map en_node l)).
    { induction l as [|e l IH]; intros H; cbn; [reflexivity|]. rewrite (H e) by (now left). destruct (is_str (en_node e)); cbn; [f_equal|]; apply IH; intros e' He; apply H; now right. }
    rewrite skipn_map. apply G. intros e He. apply In_nth_error in He. destruct He as [i Hi].
    apply (keep_str (nargs + i)); [|lia]. rewrite <- Hi. symmetry. apply nth_error_skipn.
  - rewrite <- firstn_map, ents_nodes. unfold bfs_below. destruct (bfs_prefix (kids n)) as (w & ->). rewrite firstn_app. unfold nargs. rewrite Nat.sub_diag, firstn_O, app_nil_r. apply firstn_all.
Qed.
Lemma flat_in e : In e (flatten_query a) -> exists p, nth_error (aa_ents a) p = Some e.
Proof.
  intros H. apply In_nth_error. unfold flatten_query in H. assert (K : In e (flatten_program a)).
  { destruct (is_constant (aa_top a)); [exact H|]. apply in_app_iff in H. destruct H as [H|H]; [apply in_rev in H|]; rewrite <- (firstn_skipn (List.length (kids (aa_top a)))); apply in_app_iff; auto. }
  unfold flatten_program in K. apply filter_In in K. apply K.
Qed.
Lemma flat_keep e : In e (flatten_query a) -> keep_flat e = true.
Proof.
  intros H. unfold flatten_query in H. assert (K : In e (flatten_program a)).
  { destruct (is_constant (aa_top a)); [exact H|]. apply in_app_iff in H. destruct H as [H|H]; [apply in_rev in H|]; rewrite <- (firstn_skipn (List.length (kids (aa_top a)))); apply in_app_iff; auto. }
  unfold flatten_program in K. apply filter_In in K. apply K.
Qed.
End Ents2.
Lemma visits_in m n : In m (visits n) -> m = n /\ is_constant n = true \/ In m (bfs_below n).
Proof.
  unfold visits. destruct (is_constant n); [intros [<-|[]]; auto|]. intros H. right. apply in_app_iff in H. destruct H as [H|H].
  - apply in_rev, filter_In in H. destruct H as [H _]. rewrite <- (firstn_skipn (List.length (kids n))). apply in_app_iff. auto.
  - unfold bfs_below. destruct (bfs_prefix (kids n)) as (w & ->). apply in_app_iff. auto.
Qed.
Lemma visits_str m n : is_constant n = false -> In m (bfs_below n) -> is_str m = true -> In m (visits n).
Proof.
  intros Ec H Hs. unfold visits. rewrite Ec. apply in_app_iff. rewrite <- (firstn_skipn (List.length (kids n))) in H. apply in_app_iff in H. destruct H as [H|H].
  - right. unfold bfs_below in H. destruct (bfs_prefix (kids n)) as (w & E). rewrite E, firstn_app, Nat.sub_diag, firstn_O, app_nil_r, firstn_all in H. exact H.
  - left. apply -> in_rev. apply filter_In. auto.
Qed.
(** every variable of an atom is shown by a node visited *)
Lemma visits_vars v n : is_constant n = false -> (In v (vars_of n) <-> existsb (shows v) (visits n) = true).
Proof.
  intros Ec. rewrite existsb_exists. split.
  - intros H. apply vars_sub in H. destruct H as (k & Hk & Hs).
    assert (G : forall k, sub (NVar v) k -> k = NVar v \/ exists p, sub p k /\ is_str p = true /\ In (NVar v) (kids p)).
    { intros k0 S0. induction S0 as [|n0 k0 Hk0 S0 IH]; [now left|]. right. destruct IH as [->|(p & Sp & Hp & Hv)].
      - exists n0. split; [constructor|]. split; [destruct n0; try contradiction; reflexivity|exact Hk0].
      - exists p. split; [exact (sub_kid _ _ _ Hk0 Sp)|auto]. }
    destruct (G k Hs) as [->|(p & Sp & Hp & Hv)].
    + exists (NVar v). split; [unfold visits; rewrite Ec; apply in_app_iff; auto|]. unfold shows. cbn. now rewrite String.eqb_refl.
    + exists p. split; [apply visits_str; auto; apply below_sub; eauto|]. unfold shows. apply orb_true_iff. right. apply existsb_exists. exists (NVar v). split; [exact Hv|]. cbn. apply String.eqb_refl.
  - intros (m & Hm & Hs). apply visits_in in Hm. destruct Hm as [[_ E]|Hm]; [congruence|]. apply vars_of_in. unfold shows in Hs. apply orb_true_iff in Hs. destruct Hs as [Hs|Hs].
    + destruct m; try discriminate Hs. cbn in Hs. apply String.eqb_eq in Hs. subst. exact Hm.
    + apply existsb_exists in Hs. destruct Hs as (k & Hk & Hs). destruct k; try discriminate Hs. cbn in Hs. apply String.eqb_eq in Hs. subst.
      apply below_sub in Hm. destruct Hm as (c & Hc & Sc). apply below_sub. exists c. split; [exact Hc|]. apply (sub_trans _ m); [|exact Sc]. exact (sub_kid _ _ _ Hk (sub_refl _)).
Qed.

(** --- the terms of the grammar --- *)
Lemma g_expr_term n : g_expr n = true -> g_term n = true.
Proof. destruct n; try discriminate; auto. Qed.
Lemma g_term_kid n k : g_term n = true -> In k (kids n) -> g_term k = true.
Proof.
  destruct n as [s|s|s|s l|s l]; try (intros _ []); cbn [kids].
  - intros H Hk. cbn [g_term] in H. apply andb_true_iff in H. exact (proj1 (forallb_forall _ _) (proj1 H) k Hk).
  - intros H Hk. cbn [g_term g_expr] in H. destruct l as [|a [|b [|? ?]]]; try discriminate H. apply andb_true_iff in H. destruct H as [H Hb]. apply andb_true_iff in H. destruct H as [_ Ha].
    destruct Hk as [<-|[<-|[]]]; now apply g_expr_term.
Qed.
Lemma g_term_sub m n : sub m n -> g_term n = true -> g_term m = true.
Proof. induction 1 as [|n k Hk _ IH]; intros H; [exact H|]. exact (IH (g_term_kid n k H Hk)). Qed.
Lemma g_head_kids n k : g_head n = true -> In k (kids n) -> g_term k = true.
Proof.
  destruct n as [s|s|s|s l|s l]; try discriminate; [intros _ []|]. cbn. rewrite !andb_true_iff. intros [_ H] Hk. exact (proj1 (forallb_forall _ _) H k Hk).
Qed.
Lemma g_atom_kids n k : g_atom n = true -> In k (kids n) -> g_term k = true.
Proof.
  intros H. assert (K : g_head n = true -> In k (kids n) -> g_term k = true) by apply g_head_kids.
  destruct n as [s|s|s|s l|s l]; try exact (K H). destruct l as [|a [|b [|? ?]]]; try exact (K H). cbn [g_atom] in H. destruct ((s =? "==") || (s =? "\=="))%bool; [|exact (K H)].
  apply andb_true_iff in H. destruct H as [Ha Hb]. intros [<-|[<-|[]]]; assumption.
Qed.
Lemma g_atom_shape n : g_atom n = true -> is_constant n = true \/ exists s k l, n = NFun s (k :: l).
Proof.
  destruct n as [s|s|s|s l|s l]; try discriminate; [now left|]. intros H. right. destruct l as [|k l]; [|eauto].
  cbn in H. rewrite andb_false_r in H. discriminate H.
Qed.
Lemma g_node_fits n : g_term n = true -> lits_fit n = true -> node_fits n.
Proof.
  destruct n as [s|s|s|s l|s l]; cbn; auto. destruct l as [|a [|b [|? ?]]]; try discriminate. intros H _. apply andb_true_iff in H. destruct H as [H _]. apply andb_true_iff in H. destruct H as [H _].
  unfold operator in H. cbn in H. rewrite !orb_true_iff in H. unfold op_index. decompose [or] H; try discriminate; repeat match goal with E : (s =? _) = true |- _ => rewrite E; clear E end;
   repeat match goal with |- context [if ?c then _ else _] => destruct c end; try discriminate.
Qed.
Definition kids_fit (n : node) : Prop := forall k, In k (kids n) -> g_term k = true /\ lits_fit k = true.
Lemma below_fits n m : kids_fit n -> In m (bfs_below n) -> node_fits m.
Proof.
  intros H Hm. apply below_sub in Hm. destruct Hm as (k & Hk & Hs). destruct (H k Hk) as [G L]. apply g_node_fits; [exact (g_term_sub _ _ Hs G)|exact (lits_fit_sub _ _ Hs L)].
Qed.
Lemma atom_fits n : g_atom n = true -> lits_fit n = true -> kids_fit n.
Proof.
  intros G L k Hk. split; [exact (g_atom_kids n k G Hk)|]. apply (lits_fit_sub k n); [|exact L]. exact (sub_kid _ _ _ Hk (sub_refl _)).
Qed.
Lemma head_atom n : g_head n = true -> g_atom n = true.
Proof.
  intros H. destruct n as [s|s|s|s l|s l]; try exact H. destruct l as [|a [|b [|? ?]]]; try exact H. cbn [g_atom]. destruct ((s =? "==") || (s =? "\=="))%bool eqn:E; [|exact H].
  cbn in H. rewrite !andb_true_iff in H. destruct H as [_ (Ha & Hb & _)]. now rewrite Ha, Hb.
Qed.

(** --- one goal --- *)
Section Goals.
Variable perm : string -> option nat.
Hypothesis perm_inj : forall s t y, perm s = Some y -> perm t = Some y -> s = t.

Lemma const_ents_seen s vx seen : ents_seen perm vx (flatten_query (const_atom (NCon s))) seen = Some (SX 0 :: seen).
Proof. reflexivity. Qed.

Definition unseen_in (D : string -> Prop) (n : node) : Prop :=
  exists l1 e l2 v, visits n = l1 ++ e :: l2 /\ is_ev e = true /\ In v (vars_of e) /\ ~ D v /\ forall m, In m l1 -> shows v m = false.
Lemma unseen_var (D : string -> Prop) n l1 e l2 v : is_constant n = false -> visits n = l1 ++ e :: l2 -> In v (vars_of e) -> In v (vars_of n).
Proof.
  intros Ec E Hv. assert (He : In e (visits n)) by (rewrite E; apply in_elt). apply visits_in in He. destruct He as [[_ K]|He]; [congruence|].
  apply below_sub in He. destruct He as (k & Hk & Hs). apply vars_sub in Hv. destruct Hv as (c & Hc & Sc). apply vars_sub. exists k. split; [exact Hk|].
  apply (sub_trans _ e); [|exact Hs]. exact (sub_kid _ _ c Hc Sc).
Qed.
Lemma goal_seen n a cnt (D : string -> Prop) seen : assign_one n = (a, cnt) ->
  (forall v, In v (vars_of n) -> perm v = None -> ~ D v) -> no_x seen -> (forall v y, perm v = Some y -> (seen_in (SY y) seen = true <-> D v)) ->
  match ents_seen perm (aa_vx a) (flatten_query a) seen with
  | Some seen' => ~ unseen_in D n /\ forall v y, perm v = Some y -> (seen_in (SY y) seen' = true <-> D v \/ In v (vars_of n))
  | None => unseen_in D n
  end.
Proof.
  intros E Ht Hx Hy. destruct (is_constant n) eqn:Ec.
  - destruct n; try discriminate Ec. injection E as <- <-. rewrite const_ents_seen. split.
    + intros (l1 & e & l2 & v & E & Ee & _). destruct l1 as [|c l1]; injection E as <- E; [discriminate Ee|destruct l1; discriminate E].
    + intros v y Hp. rewrite seen_cons. cbn [sreg_eqb orb]. rewrite (Hy v y Hp). cbn. tauto.
  - destruct (assign_one_alloc n a cnt Ec E) as (lx & TA). pose proof (ta_map _ _ _ _ TA) as Tm. pose proof (ta_ents _ _ _ _ TA) as Te. pose proof (ta_top _ _ _ _ TA) as Tt.
    pose proof (flat_visits n a lx Tm Te Tt Ec) as Ev.
    assert (Ok : forall v, In v (vars_of n) -> (recd perm (aa_vx a) seen v = false <-> ~ D v)).
    { intros v Hv. unfold recd. destruct (perm v) as [y|] eqn:Ep.
      - specialize (Hy v y Ep). destruct (seen_in (SY y) seen); [split; [discriminate|intros K; elim K; now apply Hy]|]. split; [intros _ K; apply Hy in K; discriminate K|reflexivity].
      - split; [intros _; exact (Ht v Hv Ep)|]. intros _. destruct (assoc v (aa_vx a)); [apply Hx|reflexivity]. }
    assert (BV : bad_visit (recd perm (aa_vx a) seen) (map en_node (flatten_query a)) <-> unseen_in D n).
    { rewrite Ev. split; intros (l1 & e & l2 & v & E1 & E2 & E3 & E4 & E5); exists l1, e, l2, v; csplit; auto; apply Ok in E4; auto; exact (unseen_var D n l1 e l2 v Ec E1 E3). }
    pose proof (ents_recd perm perm_inj n a cnt lx TA (flatten_query a) seen (flat_in a) (flat_keep a)) as K.
    specialize (K ltac:(intros e He Hev v Hv; assert (In (en_node e) (visits n)) by (rewrite <- Ev; now apply in_map);
      match goal with H : In (en_node e) (visits n) |- _ => apply in_split in H; destruct H as (l1 & l2 & El) end; exact (unseen_var D n l1 _ l2 v Ec El Hv))).
    destruct (ents_seen perm (aa_vx a) (flatten_query a) seen) as [seen'|].
    + destruct K as [K1 K2]. split; [rewrite <- BV; exact K1|]. intros v y Hp. specialize (K2 v). unfold recd in K2. rewrite Hp in K2. rewrite K2 by discriminate.
      rewrite orb_true_iff, (Hy v y Hp), Ev, (visits_vars v n Ec). reflexivity.
    + rewrite <- BV. exact K.
Qed.

(** [unseen_goal D ns]: some goal has an expression over a variable that is not in [D], in no earlier goal and
    shown by no node compiled before *)
Definition unseen_goal (D : string -> Prop) (ns : list node) : Prop :=
  exists q1 n q2, ns = q1 ++ n :: q2 /\ unseen_in (fun v => D v \/ occ v q1) n.
Lemma unseen_goal_ext D D' n : (forall v, D v <-> D' v) -> unseen_in D n <-> unseen_in D' n.
Proof.
  intros H. split; intros (l1 & e & l2 & v & E1 & E2 & E3 & E4 & E5); exists l1, e, l2, v; csplit; auto; intros K; apply E4; now apply H.
Qed.
Lemma unseen_cons D n ns : unseen_goal D (n :: ns) <-> unseen_in D n \/ unseen_goal (fun v => D v \/ In v (vars_of n)) ns.
Proof.
  split.
  - intros (q1 & m & q2 & E & H). destruct q1 as [|c q1].
    + injection E as <- _. left. apply (unseen_goal_ext (fun v => D v \/ occ v [])); [|exact H]. intros v. split; [intros [K|K]; [exact K|elim (occ_nil v K)]|auto].
    + injection E as <- E. right. exists q1, m, q2. split; [exact E|]. eapply unseen_goal_ext; [|exact H]. intros v. cbn beta. rewrite occ_cons. tauto.
  - intros [H|(q1 & m & q2 & E & H)].
    + exists [], n, ns. split; [reflexivity|]. eapply unseen_goal_ext; [|exact H]. intros v. split; [intros [K|K]; [exact K|elim (occ_nil v K)]|auto].
    + exists (n :: q1), m, q2. split; [now rewrite E|]. eapply unseen_goal_ext; [|exact H]. intros v. cbn beta. rewrite occ_cons. tauto.
Qed.
Lemma goals_load u ns : forall pre D seen s,
  (forall ns1 n ns2 v, ns = ns1 ++ n :: ns2 -> In v (vars_of n) -> perm v = None -> ~ D v /\ ~ occ v ns1) ->
  no_x seen -> (forall v y, perm v = Some y -> (seen_in (SY y) seen = true <-> D v)) ->
  match fst (compile_query_atoms perm pre u ns seen s) with
  | COk _ => ~ unseen_goal D ns
  | CErr e => e = CNotInst /\ unseen_goal D ns
  | CEsc => True
  end.
Proof.
  induction ns as [|n ns IH]; intros pre D seen s Ht Hx Hy.
  - intros (q1 & m & q2 & E & _). destruct q1; discriminate E.
  - cbn [compile_query_atoms]. unfold compile_query_atom. destruct (assign_one n) as [a cnt] eqn:Ea.
    pose proof (goal_seen n a cnt D seen Ea) as K. specialize (K ltac:(intros v Hv Hp; apply (Ht [] n ns v); auto) Hx Hy).
    pose proof (to_query_R perm a seen s) as Q. unfold cbind. destruct (to_query perm a seen s) as [[[c seen']|e|] s1]; cbn in Q.
    + rewrite Q in K. destruct K as [K1 K2]. unfold cret. specialize (IH [] (fun v => D v \/ In v (vars_of n)) (remove_x_a_regs seen') s1).
      assert (I0 : match fst (compile_query_atoms perm [] u ns (remove_x_a_regs seen') s1) with
        | COk _ => ~ unseen_goal (fun v => D v \/ In v (vars_of n)) ns | CErr e => e = CNotInst /\ unseen_goal (fun v => D v \/ In v (vars_of n)) ns | CEsc => True end).
      { apply IH.
        - intros ns1 m ns2 v Em Hv Hp. destruct (Ht (n :: ns1) m ns2 v) as [A B]; auto; [now rewrite Em|]. rewrite occ_cons in B. tauto.
        - apply no_x_remove.
        - intros v y Hp. rewrite <- (K2 v y Hp). unfold remove_x_a_regs, seen_in. rewrite !existsb_exists. split; intros (r & Hr & E); exists r; (split; [|exact E]).
          + apply filter_In in Hr. apply Hr.
          + apply filter_In. split; [exact Hr|]. destruct r; [discriminate E|reflexivity]. }
      destruct (compile_query_atoms perm [] u ns (remove_x_a_regs seen') s1) as [[r|e|] s2]; cbn in I0 |- *.
      * rewrite unseen_cons. tauto.
      * split; [apply I0|]. apply unseen_cons. right. apply I0.
      * exact I.
    + destruct Q as [-> Q]. rewrite Q in K. split; [reflexivity|]. apply unseen_cons. now left.
    + exact I.
Qed.
End Goals.

(** --- queries --- *)
Definition unseen_expr (q : list node) : Prop := unseen_goal (fun _ => False) q.
Theorem compile_query_exact cf q s : ord_ok cf ->
  match fst (compile_query cf q s) with COk _ => ~ unseen_expr q | CErr e => e = CNotInst /\ unseen_expr q | CEsc => True end.
Proof.
  intros O. unfold compile_query, unseen_expr. apply (goals_load (fun s => pos_of s (perm_order cf q false))).
  - intros a b y. exact (permof_inj cf q false a b y).
  - intros ns1 n ns2 v E Hv Hp. split; [tauto|]. destruct ns1 as [|n0 ns1]; [apply occ_nil|]. cbn [app] in E. subst q. exact (temp_query cf n0 ns1 n ns2 v O Hp Hv).
  - intros x. reflexivity.
  - intros v y _. cbn. split; [discriminate|tauto].
Qed.

(** --- clauses --- *)
Lemma assign_xs_gen nargs l : forall pos cnt m xs cnt' m', assign_xs nargs pos l cnt m = (xs, cnt', m') ->
  List.length xs = List.length l /\ (forall s r, assoc s m = Some r -> assoc s m' = Some r) /\
  (forall i s x, nth_error (combine l xs) i = Some (NVar s, x) -> assoc s m' = Some x).
Proof.
  induction l as [|n l IH]; intros pos cnt m xs cnt' m' E; cbn [assign_xs] in E.
  - injection E as <- <- <-. csplit; auto. intros [|i] s x; discriminate.
  - destruct (match n with NVar s => match assoc s m with Some r => (r, cnt, m) | None => (cnt, S cnt, (s, cnt) :: m) end | _ => if Nat.ltb pos nargs then (pos, cnt, m) else (cnt, S cnt, m) end) as [[x c1] m1] eqn:Ex.
    destruct (assign_xs nargs (S pos) l c1 m1) as [[xs1 c2] m2] eqn:E1. injection E as <- <- <-. destruct (IH _ _ _ _ _ _ E1) as (A & B & C).
    assert (X : (forall s r, assoc s m = Some r -> assoc s m1 = Some r) /\ (forall s, n = NVar s -> assoc s m1 = Some x)).
    { destruct n as [s|s|s|s k|s k]; try (destruct (Nat.ltb pos nargs) in Ex; injection Ex as <- <- <-; (split; [auto|intros ? K; discriminate K])).
      destruct (assoc s m) as [r|] eqn:Ea; injection Ex as <- <- <-; split.
      - auto.
      - intros t K. injection K as <-. exact Ea.
      - intros t r H. cbn. destruct (String.eqb_spec t s) as [->|]; [congruence|exact H].
      - intros t K. injection K as <-. cbn. now rewrite String.eqb_refl. }
    destruct X as [X1 X2]. csplit.
    + cbn. now rewrite A.
    + intros s r H. apply B, X1, H.
    + intros [|i] s y H; cbn in H; [injection H as -> <-; apply B, X2; reflexivity|exact (C i s y H)].
Qed.
Lemma combine_fst {A B} (l : list A) : forall (xs : list B), List.length xs = List.length l -> map fst (combine l xs) = l.
Proof. induction l as [|a l IH]; intros [|x xs] H; try discriminate H; [reflexivity|]. cbn. f_equal. apply IH. now injection H. Qed.
Lemma assign_term_gen n m a c m' : assign_term n m = (a, c, m') -> exists lx, map fst lx = bfs_below n /\
  aa_ents a = mk_ents (List.length (kids n)) 0 lx (skipn (List.length (kids n)) lx) /\ aa_top a = n /\
  (forall i s x, nth_error lx i = Some (NVar s, x) -> assoc s (aa_vx a) = Some x) /\
  (forall s r, assoc s m = Some r -> assoc s (aa_vx a) = Some r) /\ aa_vx a = m'.
Proof.
  unfold assign_term. destruct (assign_xs (List.length (kids n)) 0 (bfs_below n) (List.length (kids n)) m) as [[xs c1] m1] eqn:Ex.
  intros E. injection E as <- <- <-. destruct (assign_xs_gen _ _ _ _ _ _ _ _ Ex) as (A & B & C). exists (combine (bfs_below n) xs). cbn. csplit; auto. now apply combine_fst.
Qed.

Lemma seen_incl_refl l : forall r : sreg, seen_in r l = true -> seen_in r l = true. Proof. auto. Qed.
Lemma sreg_eqb_refl r : sreg_eqb r r = true.
Proof. destruct r; apply Nat.eqb_refl. Qed.
Lemma seen_here r l : seen_in r (r :: l) = true.
Proof. unfold seen_in. cbn. now rewrite sreg_eqb_refl. Qed.
Lemma seen_there r r0 l : seen_in r l = true -> seen_in r (r0 :: l) = true.
Proof. unfold seen_in. cbn. intros ->. apply orb_true_r. Qed.

Section Grow.
Variable perm : string -> option nat.
Lemma kid_grow k seen r : seen_in r seen = true -> seen_in r (kid_seen perm k seen) = true.
Proof.
  intros H. destruct k as [m x]. unfold kid_seen. destruct m as [s|s|s|s l|s l]; try exact H.
  - destruct (perm s); [destruct (seen_in (SY n) seen)|destruct (seen_in (SX x) seen)]; try exact H; now apply seen_there.
  - destruct (seen_in (SX x) seen); [exact H|now apply seen_there].
  - destruct (seen_in (SX x) seen); [exact H|now apply seen_there].
Qed.
Lemma kids_grow ks : forall seen r, seen_in r seen = true -> seen_in r (kids_seen perm ks seen) = true.
Proof. unfold kids_seen. induction ks as [|k ks IH]; intros seen r H; cbn; [exact H|]. apply IH. now apply kid_grow. Qed.
Lemma kids_adds ks v x y : perm v = Some y -> In (NVar v, x) ks -> forall seen, seen_in (SY y) (kids_seen perm ks seen) = true.
Proof.
  intros Hp. induction ks as [|k ks IH]; [intros []|]. intros [->|H] seen; [|cbn; apply IH, H]. cbn [kids_seen fold_left]. apply kids_grow.
  unfold kid_seen. rewrite Hp. destruct (seen_in (SY y) seen) eqn:E; [exact E|apply seen_here].
Qed.
Lemma ent_grow vx e seen seen' r : ent_seen perm vx e seen = Some seen' -> seen_in r seen = true -> seen_in r seen' = true.
Proof.
  unfold ent_seen. destruct (en_node e) as [s|s|s|s l|s l]; intros E H.
  - destruct (en_arg e); injection E as <-; [exact (kid_grow (NVar s, en_x e) seen r H)|exact H].
  - injection E as <-. now apply seen_there.
  - injection E as <-. now apply seen_there.
  - injection E as <-. apply kids_grow. now apply seen_there.
  - destruct (check_undefined _ _ _ _); [|discriminate E]. injection E as <-. apply kids_grow. now apply seen_there.
Qed.
Lemma ents_grow vx es : forall seen seen' r, ents_seen perm vx es seen = Some seen' -> seen_in r seen = true -> seen_in r seen' = true.
Proof.
  induction es as [|e es IH]; intros seen seen' r E H; cbn in E; [injection E as <-; exact H|]. destruct (ent_seen perm vx e seen) as [s1|] eqn:E1; [|discriminate E].
  exact (IH _ _ _ E (ent_grow vx e seen s1 r E1 H)).
Qed.
Lemma ents_adds vx es e v y : perm v = Some y -> In e es -> keep_flat e = true -> map fst (en_kids e) = kids (en_node e) -> shows v (en_node e) = true ->
  forall seen seen', ents_seen perm vx es seen = Some seen' -> seen_in (SY y) seen' = true.
Proof.
  intros Hp He Hf Hk Hs. induction es as [|e0 es IH]; [destruct He|]. intros seen seen' E. cbn in E. destruct (ent_seen perm vx e0 seen) as [s1|] eqn:E1; [|discriminate E].
  destruct He as [->|He]; [|exact (IH He _ _ E)]. apply (ents_grow vx es s1 seen' _ E). clear E IH.
  unfold shows in Hs. unfold ent_seen, keep_flat in *. destruct (en_node e) as [s|s|s|s l|s l]; cbn [isv orb kids existsb] in *; try discriminate Hs.
  - rewrite orb_false_r in Hs. apply String.eqb_eq in Hs. subst s. destruct (en_arg e); [|discriminate Hf]. injection E1 as <-. unfold kid_seen. rewrite Hp.
    destruct (seen_in (SY y) seen) eqn:E; [exact E|apply seen_here].
  - injection E1 as <-. apply existsb_exists in Hs. destruct Hs as (m & Hm & Hv). destruct m; try discriminate Hv. cbn in Hv. apply String.eqb_eq in Hv. subst.
    apply in_map_iff in Hm. destruct Hm as ([m x] & E & Hm). cbn in E. subst m. exact (kids_adds _ _ x y Hp Hm _).
  - destruct (check_undefined _ _ _ _); [|discriminate E1]. injection E1 as <-. apply existsb_exists in Hs. destruct Hs as (m & Hm & Hv). destruct m; try discriminate Hv. cbn in Hv. apply String.eqb_eq in Hv. subst.
    apply in_map_iff in Hm. destruct Hm as ([m x] & E & Hm). cbn in E. subst m. exact (kids_adds _ _ x y Hp Hm _).
Qed.
Lemma recd_grow vx seen seen' v : (forall r, seen_in r seen = true -> seen_in r seen' = true) -> recd perm vx seen v = true -> recd perm vx seen' v = true.
Proof. unfold recd. intros H. destruct (perm v); [apply H|]. destruct (assoc v vx); [apply H|auto]. Qed.
Lemma ents_stop vx es : forall seen, ents_seen perm vx es seen = None -> exists e v, In e es /\ is_ev (en_node e) = true /\ In v (vars_of (en_node e)) /\ recd perm vx seen v = false.
Proof.
  induction es as [|e es IH]; intros seen E; cbn in E; [discriminate E|]. destruct (ent_seen perm vx e seen) as [s1|] eqn:E1.
  - destruct (IH s1 E) as (e' & v & H1 & H2 & H3 & H4). exists e', v. csplit; auto; [now right|]. destruct (recd perm vx seen v) eqn:R; [|reflexivity].
    rewrite (recd_grow vx seen s1 v (fun r => ent_grow vx e seen s1 r E1) R) in H4. discriminate H4.
  - unfold ent_seen in E1. destruct (en_node e) as [s|s|s|s l|s l] eqn:En; try discriminate E1; [destruct (en_arg e); discriminate E1|].
    destruct (check_undefined perm vx (SX (en_x e) :: seen) (NEv s l)) eqn:C; [discriminate E1|]. unfold check_undefined in C. fold (recd perm vx (SX (en_x e) :: seen)) in C.
    assert (X : forall vs, forallb (recd perm vx (SX (en_x e) :: seen)) vs = false -> exists v, In v vs /\ recd perm vx (SX (en_x e) :: seen) v = false).
    { clear. induction vs as [|v vs IH]; intros C; [discriminate C|]. cbn in C. destruct (recd perm vx (SX (en_x e) :: seen) v) eqn:Ev.
      - destruct (IH C) as (w & Hw & Ew). exists w. split; [now right|exact Ew].
      - exists v. split; [now left|exact Ev]. }
    destruct (X _ C) as (v & Hv & Rv). exists e, v. csplit; [now left|now rewrite En|now rewrite En|]. destruct (recd perm vx seen v) eqn:R; [|reflexivity].
    rewrite (recd_grow vx seen (SX (en_x e) :: seen) v (fun r => seen_there r _ seen) R) in Rv. discriminate Rv.
Qed.
End Grow.

Section HeadSeen.
Variable perm : string -> option nat.
Hypothesis perm_inj : forall s t y, perm s = Some y -> perm t = Some y -> s = t.
Variable n : node.
Variable a : aatom.
Variable cnt : nat.
Variable lx : list (node * nat).
Hypothesis TA : term_alloc n a cnt lx.
Let AL : alloc (List.length (kids n)) cnt lx.
Proof. exact (ta_alloc _ _ _ _ TA cnt (Nat.le_refl _)). Qed.
(** a variable whose register is marked has its permanent register marked *)
Definition both (seen : list sreg) : Prop :=
  forall i v x y, nth_error lx i = Some (NVar v, x) -> perm v = Some y -> seen_in (SX x) seen = true -> seen_in (SY y) seen = true.
Lemma pkid_grow k seen r : seen_in r seen = true -> seen_in r (pkid_seen perm k seen) = true.
Proof.
  intros H. destruct k as [m x]. unfold pkid_seen. destruct m as [s|s|s|s l|s l]; try exact H; (destruct (seen_in (SX x) seen); [exact H|]).
  - destruct (perm s); repeat apply seen_there; exact H.
  - now apply seen_there.
  - now apply seen_there.
Qed.
Lemma pkids_grow ks : forall seen r, seen_in r seen = true -> seen_in r (pkids_seen perm ks seen) = true.
Proof. unfold pkids_seen. induction ks as [|k ks IH]; intros seen r H; cbn; [exact H|]. apply IH. now apply pkid_grow. Qed.
Lemma pkid_adds v x seen : seen_in (SX x) (pkid_seen perm (NVar v, x) seen) = true.
Proof.
  unfold pkid_seen. destruct (seen_in (SX x) seen) eqn:E; [exact E|]. destruct (perm v); [apply seen_there, seen_here|apply seen_here].
Qed.
Lemma pkid_both i m x seen : nth_error lx i = Some (m, x) -> both seen -> both (pkid_seen perm (m, x) seen).
Proof.
  intros Hi B j v xv y Hj Hp Hs. assert (K : seen_in (SX xv) seen = true -> seen_in (SY y) (pkid_seen perm (m, x) seen) = true).
  { intros S0. apply pkid_grow. exact (B j v xv y Hj Hp S0). }
  unfold pkid_seen in *. destruct m as [s|s|s|s l|s l]; try exact (K Hs); (destruct (seen_in (SX x) seen) eqn:Ex; [exact (K Hs)|]).
  - destruct (perm s) as [ys|] eqn:Es.
    + rewrite !seen_cons in Hs. cbn [sreg_eqb orb] in Hs. destruct (Nat.eqb_spec xv x) as [->|]; [|exact (K Hs)].
      destruct (al_own _ _ _ AL i j _ _ x Hi Hj) as [->|(t & E1 & E2)].
      * rewrite Hi in Hj. injection Hj as ->. rewrite Hp in Es. injection Es as ->. apply seen_here.
      * injection E1 as ->. injection E2 as ->. rewrite Hp in Es. injection Es as ->. apply seen_here.
    + rewrite seen_cons in Hs. cbn [sreg_eqb orb] in Hs. destruct (Nat.eqb_spec xv x) as [->|]; [|exact (K Hs)].
      destruct (al_own _ _ _ AL i j _ _ x Hi Hj) as [->|(t & E1 & E2)].
      * rewrite Hi in Hj. injection Hj as ->. congruence.
      * injection E1 as ->. injection E2 as ->. congruence.
  - rewrite seen_cons in Hs. cbn [sreg_eqb orb] in Hs. destruct (Nat.eqb_spec xv x) as [->|]; [|exact (K Hs)].
    destruct (al_own _ _ _ AL i j _ _ x Hi Hj) as [->|(t & E1 & E2)]; [rewrite Hi in Hj; discriminate Hj|discriminate E1].
  - rewrite seen_cons in Hs. cbn [sreg_eqb orb] in Hs. destruct (Nat.eqb_spec xv x) as [->|]; [|exact (K Hs)].
    destruct (al_own _ _ _ AL i j _ _ x Hi Hj) as [->|(t & E1 & E2)]; [rewrite Hi in Hj; discriminate Hj|discriminate E1].
Qed.
Lemma pkids_both ks : forall seen, (forall k, In k ks -> exists j, nth_error lx j = Some k) -> both seen ->
  both (pkids_seen perm ks seen) /\ forall v x, In (NVar v, x) ks -> seen_in (SX x) (pkids_seen perm ks seen) = true.
Proof.
  induction ks as [|[m x] ks IH]; intros seen H B; [split; [exact B|intros v x []]|]. cbn [pkids_seen fold_left]. change (fold_left _ ks ?s) with (pkids_seen perm ks s).
  destruct (H (m, x) (or_introl eq_refl)) as (j & Hj). destruct (IH (pkid_seen perm (m, x) seen)) as [I1 I2]; [intros k Hk; apply H; now right|exact (pkid_both j m x seen Hj B)|].
  split; [exact I1|]. intros v z [E|Hk]; [|exact (I2 v z Hk)]. injection E as -> ->. apply pkids_grow, pkid_adds.
Qed.
Lemma pent_grow e seen r : seen_in r seen = true -> seen_in r (pent_seen perm e seen) = true.
Proof.
  intros H. unfold pent_seen. destruct (en_node e) as [s|s|s|s l|s l] eqn:En; try exact H; [|now apply pkids_grow|now apply pkids_grow].
  destruct (en_arg e); [exact (pkid_grow (NVar s, en_x e) seen r H)|exact H].
Qed.
Lemma pents_grow es : forall seen r, seen_in r seen = true -> seen_in r (pents_seen perm es seen) = true.
Proof. unfold pents_seen. induction es as [|e es IH]; intros seen r H; cbn; [exact H|]. apply IH. now apply pent_grow. Qed.
Lemma pents_both es : forall seen, (forall e, In e es -> exists p, nth_error (aa_ents a) p = Some e) -> both seen ->
  both (pents_seen perm es seen) /\
  forall e v, In e es -> keep_flat e = true -> shows v (en_node e) = true -> exists i x, nth_error lx i = Some (NVar v, x) /\ seen_in (SX x) (pents_seen perm es seen) = true.
Proof.
  induction es as [|e es IH]; intros seen H B; [split; [exact B|intros e v []]|]. cbn [pents_seen fold_left]. change (fold_left _ es ?s) with (pents_seen perm es s).
  destruct (H e (or_introl eq_refl)) as (p & Hp). destruct (eo_at _ _ _ (lx_ents _ _ _ _ TA) p e Hp) as (m & x & Hx & En & Ex & Ea & Ek & Hk).
  assert (HK : forall k, In k (en_kids e) -> exists j, nth_error lx j = Some k) by (intros k K; destruct (Hk k K) as (j & _ & _ & J); eauto).
  assert (KK : both (pkids_seen perm (en_kids e) seen) /\ forall v x, In (NVar v, x) (en_kids e) -> seen_in (SX x) (pkids_seen perm (en_kids e) seen) = true) by (apply pkids_both; assumption).
  assert (E0 : both (pent_seen perm e seen) /\ (forall v, keep_flat e = true -> shows v (en_node e) = true -> exists i x, nth_error lx i = Some (NVar v, x) /\ seen_in (SX x) (pent_seen perm e seen) = true)).
  { destruct KK as [K1 K2]. assert (Z : forall v, existsb (isv v) (kids m) = true -> exists i x, nth_error lx i = Some (NVar v, x) /\ seen_in (SX x) (pkids_seen perm (en_kids e) seen) = true).
    { intros v Hv. apply existsb_exists in Hv. destruct Hv as (c & Hc & Hv). destruct c as [t| | | |]; try discriminate Hv. cbn in Hv. apply String.eqb_eq in Hv. subst t.
      rewrite <- Ek in Hc. apply in_map_iff in Hc. destruct Hc as ([c z] & E & Hc). cbn in E. subst c. destruct (HK _ Hc) as (j & Hj). exists j, z. split; [exact Hj|exact (K2 v z Hc)]. }
    unfold pent_seen, keep_flat, shows. rewrite En in *. rewrite Ex in *. destruct m as [s|s|s|s l|s l].
    - split; [destruct (en_arg e); [exact (pkid_both p _ x seen Hx B)|exact B]|]. intros v Hf Hs. destruct (en_arg e); [|discriminate Hf]. cbn in Hs. rewrite orb_false_r in Hs. apply String.eqb_eq in Hs. subst s.
      exists p, x. split; [exact Hx|apply pkid_adds].
    - split; [exact B|]. intros v _ Hs. discriminate Hs.
    - split; [exact B|]. intros v _ Hs. discriminate Hs.
    - split; [exact K1|]. intros v _ Hs. exact (Z v Hs).
    - split; [exact K1|]. intros v _ Hs. exact (Z v Hs). }
  destruct E0 as [B1 S1]. destruct (IH (pent_seen perm e seen) (fun e' h => H e' (or_intror h)) B1) as [B2 S2]. split; [exact B2|].
  intros e' v [<-|He] Hf Hs; [|exact (S2 e' v He Hf Hs)]. destruct (S1 v Hf Hs) as (i & z & Hi & Hz). exists i, z. split; [exact Hi|]. now apply pents_grow.
Qed.
(** after the head every variable of the head is marked *)
Lemma head_marked v : is_constant n = false -> In v (vars_of n) ->
  recd perm (aa_vx a) (erase_head_regs a (pents_seen perm (flatten_program a) [])) v = true /\
  (forall y, perm v = Some y -> seen_in (SY y) (erase_head_regs a (pents_seen perm (flatten_program a) [])) = true) /\
  exists x, assoc v (aa_vx a) = Some x /\ seen_in (SX x) (erase_head_regs a (pents_seen perm (flatten_program a) [])) = true.
Proof.
  intros Ec Hv. destruct (pents_both (flatten_program a) []) as [B S0].
  { intros e He. apply In_nth_error. unfold flatten_program in He. apply filter_In in He. apply He. }
  { intros i w x y _ _ K. discriminate K. }
  pose proof (ta_map _ _ _ _ TA) as Tm. pose proof (ta_ents _ _ _ _ TA) as Te. pose proof (ta_top _ _ _ _ TA) as Tt.
  assert (X : exists e, In e (flatten_query a) /\ shows v (en_node e) = true).
  { apply (visits_vars v n Ec) in Hv. apply existsb_exists in Hv. destruct Hv as (m & Hm & Hs). rewrite <- (flat_visits n a lx Tm Te Tt Ec) in Hm. apply in_map_iff in Hm. destruct Hm as (e & <- & He). eauto. }
  destruct X as (e & He & Hs). pose proof (flat_keep a e He) as Kf. destruct (flat_in a e He) as (p & Hp).
  assert (He' : In e (flatten_program a)) by (unfold flatten_program; apply filter_In; split; [exact (nth_error_In _ _ Hp)|exact Kf]).
  destruct (S0 e v He' Kf Hs) as (i & x & Hi & Hx). pose proof (ta_vx _ _ _ _ TA _ _ _ Hi) as Ev.
  assert (K : forall r, seen_in r (pents_seen perm (flatten_program a) []) = true -> (forall z, r = SX z -> z = x) -> seen_in r (erase_head_regs a (pents_seen perm (flatten_program a) [])) = true).
  { intros r Hr Hz. unfold erase_head_regs. rewrite Tt, Ec. unfold seen_in in Hr |- *. apply existsb_exists in Hr. destruct Hr as (r' & Hr & E). apply existsb_exists. exists r'. split; [|exact E].
    assert (r' = r). { destruct r, r'; cbn in E; try discriminate E; apply Nat.eqb_eq in E; now subst. }
    subst r'. apply filter_In. split; [exact Hr|]. apply negb_true_iff, not_true_is_false. intros Hg. apply existsb_exists in Hg. destruct Hg as (g & Hg & Eg). apply in_flat_map in Hg. destruct Hg as (e2 & He2 & Hg).
    apply In_nth_error in He2. destruct He2 as (j & He2). destruct (eo_at _ _ _ (lx_ents _ _ _ _ TA) j e2 He2) as (m2 & x2 & Hm2 & En2 & Ex2 & _). rewrite En2, Ex2 in Hg.
    assert (Vn : is_var m2 = false /\ g = SX x2) by (destruct m2; try contradiction; destruct Hg as [<-|[]]; auto). destruct Vn as [Vn ->].
    destruct r as [z|z]; [|discriminate Eg]. cbn in Eg. apply Nat.eqb_eq in Eg. rewrite (Hz z eq_refl) in Eg. subst x2.
    destruct (al_own _ _ _ AL i j _ _ x Hi Hm2) as [->|(t & _ & ->)]; [rewrite Hi in Hm2; injection Hm2 as <-|]; discriminate Vn. }
  assert (Kx : seen_in (SX x) (erase_head_regs a (pents_seen perm (flatten_program a) [])) = true) by (apply K; [exact Hx|intros z E; now injection E]).
  assert (Ky : forall y, perm v = Some y -> seen_in (SY y) (erase_head_regs a (pents_seen perm (flatten_program a) [])) = true).
  { intros y Hy. apply K; [exact (B i v x y Hi Hy Hx)|intros z E; discriminate E]. }
  csplit; [|exact Ky|exists x; auto]. unfold recd. destruct (perm v) as [y|]; [now apply Ky|]. now rewrite Ev.
Qed.
End HeadSeen.

Lemma one_ents_fit n a cnt : g_atom n = true -> lits_fit n = true -> assign_one n = (a, cnt) -> forall e, In e (flatten_program a) -> ent_fits e.
Proof.
  intros G L E e He. unfold flatten_program in He. apply filter_In in He. destruct He as [He _]. destruct (is_constant n) eqn:Ec.
  - destruct n; try discriminate Ec. injection E as <- <-. destruct He as [<-|[]]. split; [exact I|intros k []].
  - destruct (assign_one_alloc n a cnt Ec E) as (lx & TA). pose proof (ta_map _ _ _ _ TA) as Tm.
    assert (Fit : forall m, In m (bfs_below n) -> node_fits m) by (intros m Hm; exact (below_fits n m (atom_fits n G L) Hm)).
    apply In_nth_error in He. destruct He as (p & Hp). destruct (eo_at _ _ _ (lx_ents _ _ _ _ TA) p e Hp) as (m & x & Hm & En & _ & _ & _ & Hk). split.
    + rewrite En. apply Fit. rewrite <- Tm. apply in_map_iff. exists (m, x). split; [reflexivity|exact (nth_error_In _ _ Hm)].
    + intros k K. destruct (Hk k K) as (j & _ & _ & Hj). apply Fit. rewrite <- Tm. apply in_map. exact (nth_error_In _ _ Hj).
Qed.
Lemma first_load perm h b ha ba cnt : (forall s t y, perm s = Some y -> perm t = Some y -> s = t) ->
  assign_two h b = (ha, ba, cnt) ->
  let seen2 := erase_head_regs ha (pents_seen perm (flatten_program ha) []) in
  match ents_seen perm (aa_vx ba) (flatten_query ba) seen2 with
  | None => exists e v, sub e b /\ is_ev e = true /\ In v (vars_of e) /\ ~ In v (vars_of h)
  | Some s3 => forall v y, perm v = Some y -> In v (vars_of h) \/ In v (vars_of b) -> seen_in (SY y) s3 = true
  end.
Proof.
  intros PI E seen2.
  assert (HM : forall v, In v (vars_of h) -> recd perm (aa_vx ha) seen2 v = true /\ (forall y, perm v = Some y -> seen_in (SY y) seen2 = true) /\
     exists x, assoc v (aa_vx ha) = Some x /\ seen_in (SX x) seen2 = true).
  { intros v Hv. destruct (is_constant h) eqn:Eh; [rewrite (const_no_vars h Eh) in Hv; destruct Hv|].
    assert (K : exists c, assign_one h = (ha, c)).
    { unfold assign_two in E. rewrite Eh in E. unfold assign_one. rewrite Eh. destruct (is_constant b).
      - unfold assign_one in E. rewrite Eh in E. destruct (assign_term h []) as [[x c] m]. injection E as <- _ _. eauto.
      - destruct (assign_term h []) as [[x c] m]. destruct (assign_term b m) as [[y c2] m2]. injection E as <- _ _. eauto. }
    destruct K as (c & K). destruct (assign_one_alloc h ha c Eh K) as (lx & TA). exact (head_marked perm h ha c lx TA v Eh Hv). }
  destruct (is_constant b) eqn:Eb.
  - assert (ba = const_atom b) by (unfold assign_two in E; rewrite Eb in E; destruct (assign_one h); now injection E as _ <- _). subst ba. destruct b; try discriminate Eb.
    rewrite const_ents_seen. intros v y Hp [Hv|[]]. apply seen_there. exact (proj1 (proj2 (HM v Hv)) y Hp).
  - assert (K : exists lx, map fst lx = bfs_below b /\ aa_ents ba = mk_ents (List.length (kids b)) 0 lx (skipn (List.length (kids b)) lx) /\ aa_top ba = b /\
      (forall v x, In v (vars_of h) -> assoc v (aa_vx ha) = Some x -> assoc v (aa_vx ba) = Some x)).
    { unfold assign_two in E. rewrite Eb in E. destruct (is_constant h) eqn:Eh.
      - unfold assign_one in E. rewrite Eb in E. destruct (assign_term b []) as [[x c] m] eqn:Et. injection E as _ <- _. destruct (assign_term_gen _ _ _ _ _ Et) as (lx & A1 & A2 & A3 & _).
        exists lx. csplit; auto. intros v z Hv. rewrite (const_no_vars h Eh) in Hv. destruct Hv.
      - destruct (assign_term h []) as [[x c] m] eqn:Et. destruct (assign_term b m) as [[y c2] m2] eqn:Et2. injection E as <- <- _.
        destruct (assign_term_gen _ _ _ _ _ Et) as (_ & _ & _ & _ & _ & _ & Em). destruct (assign_term_gen _ _ _ _ _ Et2) as (lx & A1 & A2 & A3 & _ & A5 & _).
        exists lx. csplit; auto. intros v z _ Hz. apply A5. now rewrite <- Em. }
    destruct K as (lx & Tm & Te & Tt & Tx). pose proof (lx_ents2 b ba lx Tm Te) as EO.
    destruct (ents_seen perm (aa_vx ba) (flatten_query ba) seen2) as [s3|] eqn:Es.
      * intros v y Hp [Hv|Hv]; [exact (ents_grow perm _ _ _ _ _ Es (proj1 (proj2 (HM v Hv)) y Hp))|].
        apply (visits_vars v b Eb) in Hv. apply existsb_exists in Hv. destruct Hv as (m & Hm & Hs). rewrite <- (flat_visits b ba lx Tm Te Tt Eb) in Hm. apply in_map_iff in Hm. destruct Hm as (e & <- & He).
        destruct (flat_in ba e He) as (p & Hp2). destruct (eo_at _ _ _ EO p e Hp2) as (m2 & x2 & _ & En & _ & _ & Ek & _).
        apply (ents_adds perm (aa_vx ba) (flatten_query ba) e v y Hp He (flat_keep ba e He)) with (seen := seen2); auto. now rewrite En.
      * destruct (ents_stop perm _ _ _ Es) as (e & v & He & Hev & Hv & Rv). exists (en_node e), v. csplit; auto.
        -- assert (Hb : In (en_node e) (visits b)) by (rewrite <- (flat_visits b ba lx Tm Te Tt Eb); now apply in_map). apply visits_in in Hb. destruct Hb as [[_ K]|Hb]; [congruence|].
           apply below_sub in Hb. destruct Hb as (k & Hk & Hs). exact (sub_kid _ _ k Hk Hs).
        -- intros Hh. destruct (HM v Hh) as (_ & H2 & x & H3 & H4). unfold recd in Rv. destruct (perm v) as [y|] eqn:Ep; [rewrite (H2 y eq_refl) in Rv; discriminate Rv|].
           rewrite (Tx v x Hh H3), H4 in Rv. discriminate Rv.
Qed.
(** A body goal has an expression over a variable that occurs neither in the head nor in an earlier goal. *)
Definition free_expr (c : list node) : Prop :=
  exists h b1 n b2 e v, c = h :: b1 ++ n :: b2 /\ sub e n /\ is_ev e = true /\ sub (NVar v) e /\ ~ occ v (h :: b1).
Lemma ev_sub v e : is_ev e = true -> In v (vars_of e) -> sub (NVar v) e.
Proof. intros H. apply vars_sub_fun. destruct e; try discriminate H; reflexivity. Qed.
Lemma unseen_sub D n : is_constant n = false -> unseen_in D n -> exists e v, sub e n /\ is_ev e = true /\ In v (vars_of e) /\ ~ D v.
Proof.
  intros Ec (l1 & e & l2 & v & E1 & E2 & E3 & E4 & _). exists e, v. csplit; auto. assert (H : In e (visits n)) by (rewrite E1; apply in_elt).
  apply visits_in in H. destruct H as [[-> _]|H]; [constructor|]. apply below_sub in H. destruct H as (k & Hk & Hs). exact (sub_kid _ _ k Hk Hs).
Qed.
Theorem compile_clause_load cf bi h b s : ord_ok cf -> (negb bi && redefines h)%bool = false ->
  match fst (compile_program_term cf bi (h :: b) s) with COk _ => True | CErr e => e = CNotInst /\ free_expr (h :: b) | CEsc => True end.
Proof.
  intros O R. cbn [compile_program_term]. rewrite R.
  set (perm := fun s0 => pos_of s0 (perm_order cf (h :: b) true)). assert (PI : forall s t y, perm s = Some y -> perm t = Some y -> s = t) by exact (permof_inj cf (h :: b) true).
  destruct b as [|b bs].
  - destruct (assign_one h) as [ha c] eqn:Ea. unfold cbind. pose proof (to_program_R perm ha [] s) as E1. destruct (to_program perm ha [] s) as [[[hc s1]|e|] t1]; cbn in E1 |- *; [exact I|destruct E1 as [_ E1]; discriminate E1|exact I].
  - cbn [tl] in *. destruct (assign_two h b) as [[ha ba] cnt] eqn:E2. unfold cbind.
    pose proof (to_program_R perm ha [] s) as E1. destruct (to_program perm ha [] s) as [[[hc s1]|e|] t1]; cbn in E1; [|destruct E1 as [_ E1]; discriminate E1|exact I].
    injection E1 as <-. pose proof (first_load perm h b ha ba cnt PI E2) as K. cbv zeta in K.
    pose proof (to_query_R perm ba (erase_head_regs ha (pents_seen perm (flatten_program ha) [])) t1) as Q.
    destruct (to_query perm ba (erase_head_regs ha (pents_seen perm (flatten_program ha) [])) t1) as [[[bc s3]|e|] s2]; cbn in Q; [| |exact I].
    + rewrite Q in K. clear Q. set (D := fun v => match perm v with Some y => seen_in (SY y) s3 = true | None => False end).
      assert (T1 : forall ns1 n ns2 v, bs = ns1 ++ n :: ns2 -> In v (vars_of n) -> perm v = None -> ~ D v /\ ~ occ v ns1).
      { intros ns1 n ns2 v E Hv Hp. split; [unfold D; rewrite Hp; tauto|]. intros Ho. assert (Hp' : permof cf (h :: b :: ns1 ++ n :: ns2) true v = None) by (rewrite <- E; exact Hp).
        apply (temp_clause cf h b ns1 n ns2 v O Hp' Hv). rewrite !occ_cons. auto. }
      assert (DD : forall v y, perm v = Some y -> (seen_in (SY y) (remove_x_a_regs s3) = true <-> D v)).
      { intros v y Hp. unfold D. rewrite Hp. unfold remove_x_a_regs, seen_in. rewrite !existsb_exists. split; intros (r & Hr & E); exists r; (split; [|exact E]).
        - apply filter_In in Hr. apply Hr.
        - apply filter_In. split; [exact Hr|]. destruct r; [discriminate E|reflexivity]. }
      pose proof (goals_load perm PI false bs [] D (remove_x_a_regs s3) s2 T1 (no_x_remove s3) DD) as U. unfold cret.
      destruct (compile_query_atoms perm [] false bs (remove_x_a_regs s3) s2) as [[r|e|] s4]; cbn in U |- *; [exact I| |exact I]. destruct U as [-> U]. split; [reflexivity|].
      destruct U as (q1 & n & q2 & Eq & U).
      assert (Ec : is_constant n = false). { destruct U as (l1 & e & l2 & v & E3 & E4 & _). destruct n; try reflexivity. exfalso. destruct l1 as [|x l1]; [|destruct l1; discriminate E3]. injection E3 as <- _. discriminate E4. }
      destruct U as (l1 & e & l2 & v & E3 & E4 & E5 & E6 & _). exists h, (b :: q1), n, q2, e, v. csplit; auto.
      * now rewrite Eq.
      * assert (H : In e (visits n)) by (rewrite E3; apply in_elt). apply visits_in in H. destruct H as [[-> _]|H]; [constructor|]. apply below_sub in H. destruct H as (k & Hk & Hs). exact (sub_kid _ _ k Hk Hs).
      * now apply ev_sub.
      * rewrite !occ_cons. intros Ho. apply E6. destruct Ho as [Ho|[Ho|Ho]]; [left|left|right; exact Ho];
              (assert (P : exists y, permof cf (h :: b :: q1 ++ n :: q2) true v = Some y) by
                (apply permof_some; [exact O|]; apply perm_vars_clause; exists q1, n, q2; csplit; auto; [exact (unseen_var (fun _ => True) n l1 e l2 v Ec E3 E5)|cbn [app]; rewrite !occ_cons; auto]));
              destruct P as (y & P); rewrite <- Eq in P; change (perm v = Some y) in P; unfold D; rewrite P; apply (K v y P); auto.
    + destruct Q as [-> Q]. rewrite Q in K. split; [reflexivity|]. destruct K as (e & v & K1 & K2 & K3 & K4). exists h, [], b, bs, e, v. csplit; auto; [now apply ev_sub|].
      rewrite occ_cons. intros [H|H]; [exact (K4 H)|exact (occ_nil _ H)].
Qed.

(** --- programs --- *)
Lemma digits_val_some s : all_chars is_digit s = true -> forall acc, exists v, digits_val s acc = Some v.
Proof.
  induction s as [|c s IH]; intros H acc; cbn in *; [eauto|]. apply andb_true_iff in H. destruct H as [Hc Hs].
  assert (K : ((48 <=? Z.of_nat (nat_of_ascii c)) && (Z.of_nat (nat_of_ascii c) <=? 57))%Z = true).
  { unfold is_digit in Hc. clear -Hc. destruct c as [[] [] [] [] [] [] [] []]; vm_compute in Hc |- *; auto. }
  rewrite K. apply IH, Hs.
Qed.
Lemma number_val s : number_text s = true -> exists v, int_text_val s = Some v.
Proof.
  unfold number_text, int_text_val. destruct s as [|c s]; [discriminate|]. destruct (Ascii.eqb c "-").
  - unfold digits. destruct s as [|d s]; [discriminate|]. intros H. destruct (digits_val_some _ H 0%Z) as (v & ->). cbn. eauto.
  - intros H. exact (digits_val_some _ H 0%Z).
Qed.
(** a literal of the text whose value does not fit into an int *)
Definition big_literal (n : node) : Prop :=
  exists s v, sub (NInt s) n /\ int_text_val s = Some v /\ (v < -2147483648 \/ 2147483647 < v)%Z.
Lemma unfit_big n : g_term n = true -> lits_fit n = false -> big_literal n.
Proof.
  intros G L. destruct (lits_unfit n L) as (s & Ss & R). pose proof (g_term_sub _ _ Ss G) as Gs. cbn in Gs. destruct (number_val s Gs) as (v & Ev). exists s, v. csplit; auto.
  unfold in_range in R. rewrite Ev in R. lia.
Qed.
Lemma unfit_atom n : g_atom n = true -> lits_fit n = false -> big_literal n.
Proof.
  intros G L. destruct (g_atom_shape n G) as [Ec|(f & k & l & E)]; [destruct n; try discriminate Ec; discriminate L|].
  assert (X : exists c, In c (kids n) /\ lits_fit c = false).
  { subst n. cbn [lits_fit kids] in *. clear G. induction (k :: l) as [|a l' IH]; [discriminate L|]. cbn in L. destruct (lits_fit a) eqn:Ea; [|exists a; split; [now left|exact Ea]].
    destruct (IH L) as (c & Hc & Ec). exists c. split; [now right|exact Ec]. }
  destruct X as (c & Hc & Lc). destruct (unfit_big c (g_atom_kids n c G Hc) Lc) as (s & v & S1 & V). exists s, v. split; [exact (sub_kid _ _ _ Hc S1)|exact V].
Qed.
Lemma unfit_atoms l : forallb g_atom l = true -> forallb lits_fit l = false -> exists n, In n l /\ big_literal n.
Proof.
  induction l as [|n l IH]; intros G L; [discriminate L|]. cbn in G, L. apply andb_true_iff in G. destruct G as [Gn Gl]. destruct (lits_fit n) eqn:En.
  - destruct (IH Gl L) as (m & Hm & B). exists m. split; [now right|exact B].
  - exists n. split; [now left|exact (unfit_atom n Gn En)].
Qed.
Lemma g_clause_atoms c : g_clause c = true -> forallb g_atom c = true.
Proof. destruct c as [|h b]; [discriminate|]. cbn. rewrite !andb_true_iff. intros [H1 H2]. split; [exact (head_atom h H1)|exact H2]. Qed.

Definition redef_clause (c : list node) : bool := match c with h :: _ => redefines h | [] => false end.
Lemma compile_clauses_load cf cs : ord_ok cf -> forall p s, forallb g_clause cs = true ->
  match fst (compile_clauses cf false cs p s) with
  | COk _ => forallb (fun c => negb (redef_clause c)) cs = true
  | CErr e => (e = CRedef /\ exists c, In c cs /\ redef_clause c = true) \/ (e = CNotInst /\ exists c, In c cs /\ free_expr c)
  | CEsc => True
  end.
Proof.
  intros O. induction cs as [|c cs IH]; intros p s G; cbn [compile_clauses]; [reflexivity|].
  cbn [forallb] in G. apply andb_true_iff in G. destruct G as [Gc Gs]. destruct c as [|h b]; [discriminate Gc|]. destruct (redefines h) eqn:R.
  - unfold cbind. cbn [compile_program_term negb andb]. rewrite R. left. split; [reflexivity|]. exists (h :: b). split; [now left|exact R].
  - pose proof (compile_clause_load cf false h b s O R) as K. unfold cbind. destruct (compile_program_term cf false (h :: b) s) as [[[f x]|e|] s1]; cbn [fst] in K |- *; [| |exact I].
    + specialize (IH (padd f x p) s1 Gs). destruct (fst (compile_clauses cf false cs (padd f x p) s1)) as [r|e|]; [|destruct IH as [[-> (c & Hc & Rc)]|[-> (c & Hc & Rc)]]|exact I].
      * cbn. rewrite R. exact IH.
      * left. split; [reflexivity|]. exists c. split; [now right|exact Rc].
      * right. split; [reflexivity|]. exists c. split; [now right|exact Rc].
    + right. destruct K as [-> F]. split; [reflexivity|]. exists (h :: b). split; [now left|exact F].
Qed.
Lemma compile_clauses_redef cf cs : forall p s r, fst (compile_clauses cf false cs p s) = COk r -> forallb (fun c => negb (redef_clause c)) cs = true.
Proof.
  induction cs as [|c cs IH]; intros p s r E; cbn [compile_clauses] in E; [reflexivity|]. unfold cbind in E. destruct c as [|h b]; [discriminate E|].
  destruct (redefines h) eqn:R; [cbn [compile_program_term negb andb] in E; rewrite R in E; discriminate E|].
  destruct (compile_program_term cf false (h :: b) s) as [[[f x]|e|] s1]; try discriminate E. cbn. rewrite R. exact (IH _ _ _ E).
Qed.

(** a compiled text has no literal out of range *)
Definition node_lit (n : node) : Prop := match n with NInt s => in_range s = true | _ => True end.
Definition ent_lit (e : ent) : Prop := node_lit (en_node e) /\ (is_str (en_node e) = true -> forall k, In k (en_kids e) -> node_lit (fst k)).
Lemma cstoi_range t s v s' : cstoi t s = (COk v, s') -> in_range t = true.
Proof. unfold cstoi, in_range. destruct (int_text_val t) as [n|]; [|discriminate]. destruct (_ && _)%bool; [reflexivity|discriminate]. Qed.
Section Range.
Variable perm : string -> option nat.
Lemma query_kid_lit k seen s r s' : query_kid perm k seen s = (COk r, s') -> node_lit (fst k).
Proof.
  destruct k as [n x]. destruct n as [t|t|t|t l|t l]; cbn [fst node_lit]; auto. unfold query_kid. intros E. apply cbind_ok in E. destruct E as (v & s1 & E & _). exact (cstoi_range _ _ _ _ E).
Qed.
Lemma query_kids_lit ks : forall seen s r s', query_kids perm ks seen s = (COk r, s') -> forall k, In k ks -> node_lit (fst k).
Proof.
  induction ks as [|k ks IH]; intros seen s r s' E k' H; [destruct H|]. cbn [query_kids] in E. apply cbind_ok in E. destruct E as ([c1 s1] & t1 & E1 & E). destruct H as [<-|H].
  - exact (query_kid_lit _ _ _ _ _ E1).
  - apply cbind_ok in E. destruct E as ([c2 s2] & t2 & E2 & _). exact (IH _ _ _ _ E2 k' H).
Qed.
Lemma query_ents_lit vx es : forall seen s r s', query_ents perm vx es seen s = (COk r, s') -> forall e, In e es -> ent_lit e.
Proof.
  induction es as [|e es IH]; intros seen s r s' E e' H; [destruct H|]; cbn [query_ents] in E; apply cbind_ok in E; destruct E as ([c1 s1] & t1 & E1 & E).
  destruct H as [<-|H].
  - unfold query_ent in E1. unfold ent_lit. destruct (en_node e) as [t|t|t|t l|t l]; cbn [node_lit is_str]; (split; [auto|]); try discriminate.
    + apply cbind_ok in E1. destruct E1 as (v & t2 & E2 & _). exact (cstoi_range _ _ _ _ E2).
    + intros _. apply cbind_ok in E1. destruct E1 as (v & t2 & _ & E2). apply cbind_ok in E2. destruct E2 as ([c2 s2] & t3 & E2 & _). exact (query_kids_lit _ _ _ _ _ E2).
    + intros _. destruct (check_undefined _ _ _ _); [|discriminate E1]. apply cbind_ok in E1. destruct E1 as (v & t2 & _ & E2). apply cbind_ok in E2. destruct E2 as ([c2 s2] & t3 & E2 & _). exact (query_kids_lit _ _ _ _ _ E2).
  - apply cbind_ok in E. destruct E as ([c2 s2] & t2 & E2 & _). exact (IH _ _ _ _ E2 e' H).
Qed.
Lemma prog_kid_lit k seen s r s' : prog_kid perm k seen s = (COk r, s') -> node_lit (fst k).
Proof.
  destruct k as [n x]. destruct n as [t|t|t|t l|t l]; cbn [fst node_lit]; auto. unfold prog_kid. intros E. apply cbind_ok in E. destruct E as (v & s1 & E & _). exact (cstoi_range _ _ _ _ E).
Qed.
Lemma prog_kids_lit ks : forall seen s r s', prog_kids perm ks seen s = (COk r, s') -> forall k, In k ks -> node_lit (fst k).
Proof.
  induction ks as [|k ks IH]; intros seen s r s' E k' H; [destruct H|]. cbn [prog_kids] in E. apply cbind_ok in E. destruct E as ([c1 s1] & t1 & E1 & E). destruct H as [<-|H].
  - exact (prog_kid_lit _ _ _ _ _ E1).
  - apply cbind_ok in E. destruct E as ([c2 s2] & t2 & E2 & _). exact (IH _ _ _ _ E2 k' H).
Qed.
Lemma prog_ents_lit es : forall seen s r s', prog_ents perm es seen s = (COk r, s') -> forall e, In e es -> ent_lit e.
Proof.
  induction es as [|e es IH]; intros seen s r s' E e' H; [destruct H|]; cbn [prog_ents] in E; apply cbind_ok in E; destruct E as ([c1 s1] & t1 & E1 & E).
  destruct H as [<-|H].
  - unfold prog_ent in E1. unfold ent_lit. destruct (en_node e) as [t|t|t|t l|t l]; cbn [node_lit is_str]; (split; [auto|]); try discriminate.
    + apply cbind_ok in E1. destruct E1 as (v & t2 & E2 & _). exact (cstoi_range _ _ _ _ E2).
    + intros _. apply cbind_ok in E1. destruct E1 as (v & t2 & _ & E2). apply cbind_ok in E2. destruct E2 as ([c2 s2] & t3 & E2 & _). exact (prog_kids_lit _ _ _ _ _ E2).
    + intros _. apply cbind_ok in E1. destruct E1 as (v & t2 & _ & E2). apply cbind_ok in E2. destruct E2 as ([c2 s2] & t3 & E2 & _). exact (prog_kids_lit _ _ _ _ _ E2).
  - apply cbind_ok in E. destruct E as ([c2 s2] & t2 & E2 & _). exact (IH _ _ _ _ E2 e' H).
Qed.
End Range.
Lemma ents_lit_fit n a lx : map fst lx = bfs_below n -> aa_ents a = mk_ents (List.length (kids n)) 0 lx (skipn (List.length (kids n)) lx) ->
  is_constant n = false -> is_str n = true -> (forall e, In e (flatten_program a) -> ent_lit e) -> lits_fit n = true.
Proof.
  intros Tm Te Ec Hs H. destruct (lits_fit n) eqn:L; [reflexivity|]. exfalso. destruct (lits_unfit n L) as (t & St & R). apply sub_inv in St. destruct St as [<-|St]; [discriminate Hs|].
  apply below_sub in St. rewrite <- Tm in St. apply in_map_iff in St. destruct St as ([m x] & Em & Hm). cbn in Em. subst m. apply In_nth_error in Hm. destruct Hm as (j & Hj).
  pose proof (lx_ents2 n a lx Tm Te) as EO. destruct (Nat.lt_ge_cases j (List.length (kids n))) as [Lt|Ge].
  - destruct (nth_error (aa_ents a) j) as [e|] eqn:Ej; [|apply nth_error_None in Ej; apply nth_error_lt in Hj; rewrite (eo_len _ _ _ EO) in Ej; lia].
    destruct (eo_at _ _ _ EO j e Ej) as (m & y & Hm & En & _ & Ea & _). rewrite Hj in Hm. injection Hm as <- <-.
    assert (K : In e (flatten_program a)). { unfold flatten_program. apply filter_In. split; [exact (nth_error_In _ _ Ej)|]. unfold keep_flat. rewrite En, Ea. destruct (Nat.ltb_spec j (List.length (kids n))); [reflexivity|lia]. }
    destruct (H e K) as [K1 _]. rewrite En in K1. cbn in K1. congruence.
  - destruct (eo_cover _ _ _ EO j (NInt t, x) Ge Hj) as (p & e & Ep & Hk). destruct (eo_at _ _ _ EO p e Ep) as (m & y & Hm & En & _ & _ & Ek & _).
    assert (Sm : is_str m = true). { destruct m; try reflexivity; cbn in Ek; destruct (en_kids e); try discriminate Ek; destruct Hk. }
    assert (K : In e (flatten_program a)). { unfold flatten_program. apply filter_In. split; [exact (nth_error_In _ _ Ep)|]. unfold keep_flat. rewrite En. destruct m; try discriminate Sm; reflexivity. }
    destruct (H e K) as [_ K2]. rewrite En in K2. specialize (K2 Sm _ Hk). cbn in K2. congruence.
Qed.
Lemma flat_program_query a e : In e (flatten_program a) -> In e (flatten_query a).
Proof.
  unfold flatten_query. destruct (is_constant (aa_top a)); [auto|]. intros H. rewrite <- (firstn_skipn (List.length (kids (aa_top a))) (flatten_program a)) in H.
  apply in_app_iff in H. apply in_app_iff. destruct H as [H|H]; [now right|left]. now apply -> in_rev.
Qed.
Lemma atom_str n : g_atom n = true -> is_constant n = false -> is_str n = true.
Proof. intros G E. destruct (g_atom_shape n G) as [K|(s & k & l & ->)]; [congruence|reflexivity]. Qed.
Lemma query_atom_lit perm pre u n seen s r s' : g_atom n = true -> compile_query_atom perm pre u n seen s = (COk r, s') -> lits_fit n = true.
Proof.
  intros G E. unfold compile_query_atom in E. destruct (assign_one n) as [a cnt] eqn:Ea. destruct (is_constant n) eqn:Ec; [destruct n; try discriminate Ec; reflexivity|].
  destruct (assign_one_alloc n a cnt Ec Ea) as (lx & TA). apply cbind_ok in E. destruct E as ([c sq] & t3 & E1 & _). unfold to_query in E1. apply cbind_ok in E1. destruct E1 as ([c2 s2] & t2 & E1 & _).
  apply (ents_lit_fit n a lx (ta_map _ _ _ _ TA) (ta_ents _ _ _ _ TA) Ec (atom_str n G Ec)). intros e He. exact (query_ents_lit perm _ _ _ _ _ _ E1 e (flat_program_query a e He)).
Qed.
Lemma query_atoms_lit perm u ns : forall pre seen s r s', forallb g_atom ns = true -> compile_query_atoms perm pre u ns seen s = (COk r, s') -> forallb lits_fit ns = true.
Proof.
  induction ns as [|n ns IH]; intros pre seen s r s' G E; [reflexivity|]. cbn [compile_query_atoms forallb] in *. apply andb_true_iff in G. destruct G as [Gn Gs].
  apply cbind_ok in E. destruct E as ([a sa] & t1 & E1 & E). apply cbind_ok in E. destruct E as (r' & t2 & E2 & _). rewrite (query_atom_lit _ _ _ _ _ _ _ _ Gn E1). exact (IH _ _ _ _ _ Gs E2).
Qed.
Lemma compile_term_lit cf bi c s r s' : g_clause c = true -> compile_program_term cf bi c s = (COk r, s') -> forallb lits_fit c = true.
Proof.
  intros G E. destruct c as [|h b]; [discriminate G|]. pose proof (g_clause_atoms _ G) as Ga. cbn [forallb] in Ga. apply andb_true_iff in Ga. destruct Ga as [Gh Gb].
  cbn [compile_program_term] in E. destruct (negb bi && redefines h)%bool; [discriminate E|]. set (perm := fun s0 => pos_of s0 (perm_order cf (h :: b) true)) in *.
  pose proof (assign_hb_head h b) as [Hha _]. unfold assign_hb in Hha.
  assert (HL : forall ha cnt, assign_one h = (ha, cnt) -> forall hc s1 t1, to_program perm ha [] s = (COk (hc, s1), t1) -> lits_fit h = true).
  { intros ha cnt Ea hc s1 t1 Ep. destruct (is_constant h) eqn:Ec; [destruct h; try discriminate Ec; reflexivity|]. destruct (assign_one_alloc h ha cnt Ec Ea) as (lx & TA).
    unfold to_program in Ep. apply cbind_ok in Ep. destruct Ep as ([c2 s2] & t2 & Ep & _).
    apply (ents_lit_fit h ha lx (ta_map _ _ _ _ TA) (ta_ents _ _ _ _ TA) Ec (atom_str h Gh Ec)). exact (prog_ents_lit perm _ _ _ _ _ Ep). }
  cbn [forallb]. destruct b as [|b bs].
  - destruct (assign_one h) as [ha cnt] eqn:Ea. apply cbind_ok in E. destruct E as ([hc s1] & t1 & Ep & _). rewrite (HL _ _ eq_refl _ _ _ Ep). reflexivity.
  - destruct (assign_two h b) as [[ha ba] cnt] eqn:E2. cbn [fst] in Hha. apply cbind_ok in E. destruct E as ([hc s1] & t1 & Ep & E). apply cbind_ok in E. destruct E as ([firsts s3] & t2 & Eb & E).
    apply cbind_ok in E. destruct E as (others & t3 & Eo & _). destruct (assign_one h) as [ha' c1] eqn:Ea. cbn [fst] in Hha. subst ha'. rewrite (HL _ _ eq_refl _ _ _ Ep).
    cbn [forallb tl] in *. apply andb_true_iff in Gb. destruct Gb as [Gb Gbs]. rewrite (query_atoms_lit _ _ _ _ _ _ _ _ Gbs Eo). rewrite andb_true_r. cbn [andb].
    destruct (is_constant b) eqn:Ecb; [destruct b; try discriminate Ecb; reflexivity|].
    assert (K : exists lx, map fst lx = bfs_below b /\ aa_ents ba = mk_ents (List.length (kids b)) 0 lx (skipn (List.length (kids b)) lx)).
    { unfold assign_two in E2. rewrite Ecb in E2. destruct (is_constant h) eqn:Eh.
      - unfold assign_one in E2. rewrite Ecb in E2. destruct (assign_term b []) as [[x c] m] eqn:Et. injection E2 as _ <- _. destruct (assign_term_gen _ _ _ _ _ Et) as (lx & A1 & A2 & _). exists lx. auto.
      - destruct (assign_term h []) as [[x c] m] eqn:Et. destruct (assign_term b m) as [[y c2] m2] eqn:Et2. injection E2 as <- <- _. destruct (assign_term_gen _ _ _ _ _ Et2) as (lx & A1 & A2 & _). exists lx. auto. }
    destruct K as (lx & Tm & Te). apply cbind_ok in Eb. destruct Eb as ([bc s4] & t4 & Eb & _). unfold to_query in Eb. apply cbind_ok in Eb. destruct Eb as ([c2 s5] & t5 & Eb & _).
    apply (ents_lit_fit b ba lx Tm Te Ecb (atom_str b Gb Ecb)). intros e He. exact (query_ents_lit perm _ _ _ _ _ _ Eb e (flat_program_query ba e He)).
Qed.
Lemma compile_clauses_lit cf bi cs : forall p s r s', forallb g_clause cs = true -> compile_clauses cf bi cs p s = (COk r, s') -> forallb (forallb lits_fit) cs = true.
Proof.
  induction cs as [|c cs IH]; intros p s r s' G E; [reflexivity|]. cbn [compile_clauses forallb] in *. apply andb_true_iff in G. destruct G as [Gc Gs].
  apply cbind_ok in E. destruct E as ([f x] & t1 & E1 & E). rewrite (compile_term_lit _ _ _ _ _ _ Gc E1). exact (IH _ _ _ _ Gs E).
Qed.

(** with every literal in range no exception escapes *)
Lemma lx_ents_fit n a lx : map fst lx = bfs_below n -> aa_ents a = mk_ents (List.length (kids n)) 0 lx (skipn (List.length (kids n)) lx) ->
  g_atom n = true -> lits_fit n = true -> forall p e, nth_error (aa_ents a) p = Some e -> ent_fits e.
Proof.
  intros Tm Te G L p e Hp. assert (Fit : forall m, In m (bfs_below n) -> node_fits m) by (intros m Hm; exact (below_fits n m (atom_fits n G L) Hm)).
  destruct (eo_at _ _ _ (lx_ents2 n a lx Tm Te) p e Hp) as (m & x & Hm & En & _ & _ & _ & Hk). split.
  - rewrite En. apply Fit. rewrite <- Tm. apply in_map_iff. exists (m, x). split; [reflexivity|exact (nth_error_In _ _ Hm)].
  - intros k K. destruct (Hk k K) as (j & _ & _ & Hj). apply Fit. rewrite <- Tm. apply in_map. exact (nth_error_In _ _ Hj).
Qed.
Lemma const_ents_fit n e : is_constant n = true -> In e (aa_ents (const_atom n)) -> ent_fits e.
Proof. intros Ec He. destruct n; try discriminate Ec. destruct He as [<-|[]]. split; [exact I|intros k []]. Qed.
Lemma to_query_noesc perm a seen s : (forall p e, nth_error (aa_ents a) p = Some e -> ent_fits e) -> fst (to_query perm a seen s) <> CEsc.
Proof.
  intros F. pose proof (to_query_fits perm a seen s) as K. specialize (K ltac:(intros e He; destruct (flat_in a e He) as (p & Hp); exact (F p e Hp))).
  destruct (ents_seen _ _ _ _); [destruct K as (c & s' & ->); discriminate|rewrite K; discriminate].
Qed.
Lemma one_fit n a cnt : g_atom n = true -> lits_fit n = true -> assign_one n = (a, cnt) -> forall p e, nth_error (aa_ents a) p = Some e -> ent_fits e.
Proof.
  intros G L E p e Hp. destruct (is_constant n) eqn:Ec.
  - unfold assign_one in E. rewrite Ec in E. injection E as <- <-. exact (const_ents_fit n e Ec (nth_error_In _ _ Hp)).
  - destruct (assign_one_alloc n a cnt Ec E) as (lx & TA). exact (lx_ents_fit n a lx (ta_map _ _ _ _ TA) (ta_ents _ _ _ _ TA) G L p e Hp).
Qed.
Lemma query_atoms_noesc perm u ns : forall pre seen s, forallb g_atom ns = true -> forallb lits_fit ns = true -> fst (compile_query_atoms perm pre u ns seen s) <> CEsc.
Proof.
  induction ns as [|n ns IH]; intros pre seen s G L; [discriminate|]. cbn [compile_query_atoms forallb] in *. apply andb_true_iff in G, L. destruct G as [Gn Gs], L as [Ln Ls].
  unfold compile_query_atom. destruct (assign_one n) as [a cnt] eqn:Ea. pose proof (to_query_noesc perm a seen s (one_fit n a cnt Gn Ln Ea)) as K. unfold cbind.
  destruct (to_query perm a seen s) as [[[c s1]|e|] t]; [|discriminate|now elim K]. cbn. specialize (IH [] (remove_x_a_regs s1) t Gs Ls).
  destruct (compile_query_atoms perm [] u ns (remove_x_a_regs s1) t) as [[r|e|] t2]; [discriminate|discriminate|now elim IH].
Qed.
Lemma compile_term_noesc cf bi c s : g_clause c = true -> forallb lits_fit c = true -> fst (compile_program_term cf bi c s) <> CEsc.
Proof.
  intros G L. destruct c as [|h b]; [discriminate G|]. pose proof (g_clause_atoms _ G) as Ga. cbn [forallb] in Ga, L. apply andb_true_iff in Ga, L. destruct Ga as [Gh Gb], L as [Lh Lb].
  cbn [compile_program_term]. destruct (negb bi && redefines h)%bool; [discriminate|]. set (perm := fun s0 => pos_of s0 (perm_order cf (h :: b) true)) in *.
  assert (Fh : forall ha cnt, assign_one h = (ha, cnt) -> exists hc s1, to_program perm ha [] s = (COk hc, s1)).
  { intros ha cnt Ea. destruct (to_program_fits perm ha [] s (one_ents_fit h ha cnt Gh Lh Ea)) as (hc & s1 & E1). exists (hc, pents_seen perm (flatten_program ha) []), s1. exact E1. }
  destruct b as [|b bs].
  - destruct (assign_one h) as [ha cnt] eqn:Ea. destruct (Fh ha cnt eq_refl) as (hc & s1 & E1). unfold cbind. rewrite E1. destruct hc. discriminate.
  - cbn [forallb tl] in *. apply andb_true_iff in Gb, Lb. destruct Gb as [Gb Gbs], Lb as [Lb Lbs]. destruct (assign_two h b) as [[ha ba] cnt] eqn:E2. pose proof (assign_hb_head h (b :: bs)) as [Hha _]. unfold assign_hb in Hha. rewrite E2 in Hha. cbn [fst] in Hha.
    destruct (assign_one h) as [ha' c1] eqn:Ea. cbn [fst] in Hha. subst ha'. destruct (Fh ha c1 eq_refl) as ([hc s0] & s1 & E1). unfold cbind. rewrite E1.
    assert (Fb : forall p e, nth_error (aa_ents ba) p = Some e -> ent_fits e).
    { intros p e Hp. unfold assign_two in E2. destruct (is_constant b) eqn:Ecb.
      - rewrite Ea in E2. injection E2 as <- _. exact (const_ents_fit b e Ecb (nth_error_In _ _ Hp)).
      - destruct (is_constant h) eqn:Eh.
        + destruct (assign_one b) as [y c2] eqn:Eb. injection E2 as _ <- _. exact (one_fit b y c2 Gb Lb Eb p e Hp).
        + destruct (assign_term h []) as [[x c] m] eqn:Et. destruct (assign_term b m) as [[y c2] m2] eqn:Et2. injection E2 as _ <- _. destruct (assign_term_gen _ _ _ _ _ Et2) as (lx & A1 & A2 & _). exact (lx_ents_fit b y lx A1 A2 Gb Lb p e Hp). }
    pose proof (to_query_noesc perm ba (erase_head_regs ha s0) s1 Fb) as K. destruct (to_query perm ba (erase_head_regs ha s0) s1) as [[[bc s3]|e|] s2]; [|discriminate|now elim K]. unfold cret.
    pose proof (query_atoms_noesc perm false bs [] (remove_x_a_regs s3) s2 Gbs Lbs) as K2. destruct (compile_query_atoms perm [] false bs (remove_x_a_regs s3) s2) as [[r|e|] t2]; [discriminate|discriminate|now elim K2].
Qed.
Lemma compile_clauses_noesc cf bi cs : forall p s, forallb g_clause cs = true -> forallb (forallb lits_fit) cs = true -> fst (compile_clauses cf bi cs p s) <> CEsc.
Proof.
  induction cs as [|c cs IH]; intros p s G L; [discriminate|]. cbn [compile_clauses forallb] in *. apply andb_true_iff in G, L. destruct G as [Gc Gs], L as [Lc Ls].
  pose proof (compile_term_noesc cf bi c s Gc Lc) as K. unfold cbind. destruct (compile_program_term cf bi c s) as [[[f x]|e|] s1]; [apply IH; assumption|discriminate|now elim K].
Qed.

(** --- the calls --- *)
Lemma parse_program_shape t x : parse_program t = Some x -> x = CErr CParser \/ exists P, x = COk P.
Proof.
  unfold parse_program. destruct (p_rules _ _ t) as [l r| | |]; intros E; try discriminate E; try (injection E as <-; now left). destruct (skip r); injection E as <-; [right; eauto|now left].
Qed.
Lemma parse_program_cases t : (exists P, parse_program t = Some (COk P) /\ forallb g_clause P = true) \/ parse_program t = Some (CErr CParser).
Proof.
  destruct (parse_program t) as [x|] eqn:E; [|elim (parse_program_total t E)]. destruct (parse_program_shape t x E) as [->|(P & ->)]; [now right|].
  left. exists P. split; [reflexivity|]. exact (parse_program_g t P E).
Qed.
Lemma parse_query_shape t x : parse_query t = Some x -> x = CErr CParser \/ x = CErr CNone \/ exists q, x = COk q.
Proof.
  unfold parse_query. destruct (sep _ t) as [l r| | |]; intros E; try discriminate E; try (injection E as <-; auto). destruct (lit "." r) as [u r'| | |]; try discriminate E; try (injection E as <-; auto).
  destruct (skip r'); injection E as <-; eauto.
Qed.
Lemma parse_query_cases t : (exists q, parse_query t = Some (COk q) /\ g_query q = true) \/ parse_query t = Some (CErr CParser) \/ parse_query t = Some (CErr CNone).
Proof.
  destruct (parse_query t) as [x|] eqn:E; [|elim (parse_query_total t E)]. destruct (parse_query_shape t x E) as [->|[->|(q & ->)]]; [auto|auto|].
  left. exists q. split; [reflexivity|]. exact (parse_query_g t q E).
Qed.

Lemma fits_small n : lits_fit n = true -> ~ big_literal n.
Proof. intros L (t & v & S & Ev & Hv). pose proof (lits_fit_sub _ _ S L) as K. cbn in K. unfold in_range in K. rewrite Ev in K. lia. Qed.
Lemma unfit_clauses P : forallb g_clause P = true -> forallb (forallb lits_fit) P = false -> exists c n, In c P /\ In n c /\ big_literal n.
Proof.
  induction P as [|a P IH]; intros G L; [discriminate L|]. cbn [forallb] in L, G. apply andb_true_iff in G. destruct G as [Ga GP]. destruct (forallb lits_fit a) eqn:La.
  - destruct (IH GP L) as (c & n & H1 & H2). exists c, n. split; [now right|exact H2].
  - destruct (unfit_atoms a (g_clause_atoms a Ga) La) as (n & Hn & Bn). exists a, n. split; [now left|auto].
Qed.
Theorem load_program_reasons cf text o : ord_ok cf ->
  exists r o', load_program cf text o = Some (r, o') /\
  match validate_program text with
  | Some LOk => exists P, parse_program text = Some (COk P) /\
      match r with
      | LOk => Forall (fun c => redef_clause c = false) P /\ Forall (Forall (fun n => ~ big_literal n)) P
      | LErr CRedef => exists c, In c P /\ redef_clause c = true
      | LErr CNotInst => exists c, In c P /\ free_expr c
      | LErr _ => False
      | LEscape => exists c n, In c P /\ In n c /\ big_literal n
      end
  | Some (LErr e) => e = CParser /\ r = LErr e /\ o' = o
  | _ => False
  end.
Proof.
  intros O. unfold load_program, validate_program. destruct (parse_program_cases text) as [(P & E & G)|E]; rewrite E; [|exists (LErr CParser), o; auto].
  destruct (compile_program cf P (o_sto o)) as [c s] eqn:Ec. unfold compile_program in Ec.
  pose proof (compile_clauses_load cf P O [] (o_sto o) G) as K. rewrite Ec in K. cbn in K. destruct c as [r|e|]; (eexists; eexists; split; [reflexivity|]; exists P; split; [reflexivity|]).
  - split.
    + apply Forall_forall. intros c Hc. apply negb_true_iff. exact (proj1 (forallb_forall _ _) K c Hc).
    + pose proof (compile_clauses_lit cf false P [] (o_sto o) r s G Ec) as L.
      apply Forall_forall. intros c Hc. apply Forall_forall. intros n Hn. apply fits_small. exact (proj1 (forallb_forall _ _) (proj1 (forallb_forall _ _) L c Hc) n Hn).
  - destruct K as [[-> K]|[-> K]]; exact K.
  - apply unfit_clauses; [exact G|]. destruct (forallb (forallb lits_fit) P) eqn:L; [|reflexivity]. elim (compile_clauses_noesc cf false P [] (o_sto o) G L). now rewrite Ec.
Qed.

Lemma g_query_atoms q : g_query q = true -> forallb g_atom q = true.
Proof. destruct q; [discriminate|auto]. Qed.
Theorem load_query_reasons cf text o : ord_ok cf ->
  exists r o', load_query cf text o = Some (r, o') /\
  match validate_query text with
  | Some LOk => exists q, parse_query (append_dot text) = Some (COk q) /\
      match r with
      | LOk => ~ unseen_expr q /\ Forall (fun n => ~ big_literal n) q
      | LErr CNotInst => unseen_expr q
      | LErr _ => False
      | LEscape => exists n, In n q /\ big_literal n
      end
  | Some (LErr e) => r = LErr e /\ (e = CParser \/ e = CNone)
  | _ => False
  end.
Proof.
  intros O. unfold load_query, validate_query. destruct (parse_query_cases (append_dot text)) as [(q & E & G)|[E|E]]; rewrite E; [|eexists; eexists; split; [reflexivity|auto]..].
  set (st := o_sto o). assert (St : o_sto (set_stats (set_queue o []) 0) = st) by reflexivity. cbv zeta. rewrite ?St. fold st. destruct (compile_query cf q st) as [c s] eqn:Ec.
  pose proof (compile_query_exact cf q st O) as K. rewrite Ec in K. cbn in K. destruct c as [r|e|]; (eexists; eexists; split; [reflexivity|]; exists q; split; [reflexivity|]).
  - split; [exact K|]. unfold compile_query in Ec. pose proof (query_atoms_lit _ _ _ _ _ _ _ _ (g_query_atoms q G) Ec) as L. apply Forall_forall. intros n Hn. apply fits_small. exact (proj1 (forallb_forall _ _) L n Hn).
  - destruct K as [-> K]. exact K.
  - apply unfit_atoms; [exact (g_query_atoms q G)|]. destruct (forallb lits_fit q) eqn:L; [|reflexivity]. elim (query_atoms_noesc (fun s => pos_of s (perm_order cf q false)) true q (alloc_code (List.length (perm_order cf q false))) [] st (g_query_atoms q G) L). unfold compile_query in Ec.
    match goal with |- fst ?a = _ => match type of Ec with ?b = _ => change a with b end end. now rewrite Ec.
Qed.

(** --- for the property theorems --- *)
Lemma nosub_occ v l : Forall (fun n => is_var n = false) l -> (forall m, In m l -> ~ sub (NVar v) m) <-> ~ occ v l.
Proof.
  intros F. rewrite Forall_forall in F. split.
  - intros H (n & Hn & K). apply (H n Hn). apply vars_sub_fun; [exact (F n Hn)|exact K].
  - intros H m Hm K. apply H. exists m. split; [exact Hm|]. apply vars_sub_fun; [exact (F m Hm)|exact K].
Qed.
Lemma atom_novar n : g_atom n = true -> is_var n = false.
Proof. destruct n; try discriminate; reflexivity. Qed.
Lemma first_such {A} (f : A -> bool) l : existsb f l = true -> exists l1 e l2, l = l1 ++ e :: l2 /\ f e = true /\ forall m, In m l1 -> f m = false.
Proof.
  induction l as [|a l IH]; [discriminate|]. cbn. destruct (f a) eqn:E.
  - intros _. exists [], a, l. csplit; auto. intros m [].
  - intros H. destruct (IH H) as (l1 & e & l2 & -> & H1 & H2). exists (a :: l1), e, l2. csplit; auto. intros m [<-|K]; auto.
Qed.
Lemma only_expr_unseen (D : string -> Prop) n v : g_atom n = true -> sub (NVar v) n -> (forall m, sub m n -> In (NVar v) (kids m) -> is_ev m = true) -> ~ D v -> unseen_in D n.
Proof.
  intros G S0 H ND. assert (Ec : is_constant n = false). { destruct n; try reflexivity. apply sub_inv in S0. destruct S0 as [E|(k & [] & _)]. discriminate E. }
  assert (Nv : In v (vars_of n)) by (apply vars_sub_fun; [exact (atom_novar n G)|exact S0]).
  destruct (first_such _ _ (proj1 (visits_vars v n Ec) Nv)) as (l1 & e & l2 & E & He & Hl).
  assert (Hin : In e (visits n)) by (rewrite E; apply in_elt).
  assert (Se : sub e n) by (apply visits_in in Hin; destruct Hin as [[-> _]|K]; [constructor|]; apply below_sub in K; destruct K as (k & Hk & Hs); exact (sub_kid _ _ k Hk Hs)).
  assert (Ke : In (NVar v) (kids e)).
  { unfold shows in He. apply orb_true_iff in He. destruct He as [He|He].
    - exfalso. destruct e; try discriminate He. cbn in He. apply String.eqb_eq in He. subst. unfold visits in Hin. rewrite Ec in Hin. apply in_app_iff in Hin. destruct Hin as [K|K].
      + apply in_rev, filter_In in K. destruct K as [_ K]. discriminate K.
      + pose proof (H n (sub_refl n) K) as Z. destruct (g_atom_shape n G) as [Z2|(sf & k & l & ->)]; [congruence|discriminate Z].
    - apply existsb_exists in He. destruct He as (k & Hk & He). destruct k; try discriminate He. cbn in He. apply String.eqb_eq in He. now subst. }
  exists l1, e, l2, v. csplit; auto. apply vars_sub. exists (NVar v). split; [exact Ke|constructor].
Qed.

Lemma rejected_queue cf text o r o' : load_query cf text o = Some (r, o') -> r <> LOk -> o_queue o' = [] /\ o_stats o' = 0%Z.
Proof.
  unfold load_query. destruct (parse_query (append_dot text)) as [[q|e|]|]; try discriminate; [|intros E _; injection E as <- <-; auto..].
  destruct (compile_query cf q (o_sto o)) as [[c|e|] s]; intros E; injection E as <- <-; auto. intros N. now elim N.
Qed.
Lemma idle_answer cf fuel n w o : o_queue o = [] -> get_answer cf fuel (S n) w o = Val (RFalse, o).
Proof. intros E. unfold get_answer. cbn [answer_loop]. now rewrite E. Qed.
Lemma unseen_exact cf text o q : ord_ok cf -> parse_query (append_dot text) = Some (COk q) -> Forall (fun n => ~ big_literal n) q ->
  exists r o', load_query cf text o = Some (r, o') /\ (r = LErr CNotInst <-> unseen_expr q) /\
    (r = LErr CNotInst -> forall fuel n w, get_answer cf fuel (S n) w o' = Val (RFalse, o') /\ o_stats o' = 0%Z).
Proof.
  intros O E F. destruct (load_query_reasons cf text o O) as (r & o' & El & K). exists r, o'. split; [exact El|].
  unfold validate_query in K. rewrite E in K. destruct K as (q' & E' & K). injection E' as <-. split.
  - destruct r as [|e|].
    + destruct K as [K _]. split; [discriminate|tauto].
    + destruct e; try contradiction. tauto.
    + destruct K as (n & Hn & B). elim (proj1 (Forall_forall _ _) F n Hn B).
  - intros -> fuel n w. destruct (rejected_queue _ _ _ _ _ El) as [A B]; [discriminate|]. split; [now apply idle_answer|exact B].
Qed.
Lemma unseen_rejected cf text o q1 n q2 v : ord_ok cf -> parse_query (append_dot text) = Some (COk (q1 ++ n :: q2)) ->
  Forall (fun n => ~ big_literal n) (q1 ++ n :: q2) ->
  sub (NVar v) n -> (forall m, sub m n -> In (NVar v) (kids m) -> is_ev m = true) -> (forall m, In m q1 -> ~ sub (NVar v) m) ->
  exists o', load_query cf text o = Some (LErr CNotInst, o') /\ forall fuel n w, get_answer cf fuel (S n) w o' = Val (RFalse, o').
Proof.
  intros O E F Sn H N. destruct (unseen_exact cf text o _ O E F) as (r & o' & El & K & Q). pose proof (g_query_atoms _ (parse_query_g _ _ E)) as G. rewrite forallb_app in G. apply andb_true_iff in G. destruct G as [G1 G2].
  cbn in G2. apply andb_true_iff in G2. destruct G2 as [Gn _].
  assert (U : unseen_expr (q1 ++ n :: q2)).
  { exists q1, n, q2. split; [reflexivity|]. apply (only_expr_unseen _ n v Gn Sn H). intros [[]|Ho]. revert Ho. apply nosub_occ; [|exact N].
    apply Forall_forall. intros m Hm. apply atom_novar. exact (proj1 (forallb_forall _ _) G1 m Hm). }
  apply K in U. subst r. exists o'. split; [exact El|]. intros fuel k w. apply Q. reflexivity.
Qed.
Lemma rejected_unseen cf text o q o' : ord_ok cf -> parse_query (append_dot text) = Some (COk q) ->
  load_query cf text o = Some (LErr CNotInst, o') ->
  exists q1 n q2 e v, q = q1 ++ n :: q2 /\ sub e n /\ is_ev e = true /\ sub (NVar v) e /\ forall m, In m q1 -> ~ sub (NVar v) m.
Proof.
  intros O E L. destruct (load_query_reasons cf text o O) as (r & o2 & El & K). rewrite L in El. injection El as <- <-.
  unfold validate_query in K. rewrite E in K. destruct K as (q' & E' & K). injection E' as <-. destruct K as (q1 & n & q2 & -> & U).
  pose proof (g_query_atoms _ (parse_query_g _ _ E)) as G. rewrite forallb_app in G. apply andb_true_iff in G. destruct G as [G1 G2].
  assert (Ec : is_constant n = false). { destruct U as (l1 & e & l2 & v & E3 & E4 & _). destruct n; try reflexivity. exfalso. destruct l1 as [|x l1]; [|destruct l1; discriminate E3]. injection E3 as <- _. discriminate E4. }
  destruct (unseen_sub _ n Ec U) as (e & v & H1 & H2 & H3 & H4). exists q1, n, q2, e, v. csplit; auto; [now apply ev_sub|].
  apply nosub_occ; [|intros Ho; apply H4; now right]. apply Forall_forall. intros m Hm. apply atom_novar. exact (proj1 (forallb_forall _ _) G1 m Hm).
Qed.
Lemma redefinition_rejected cf text o P c : ord_ok cf -> parse_program text = Some (COk P) -> In c P -> redef_clause c = true ->
  exists r o', load_program cf text o = Some (r, o') /\ r <> LOk.
Proof.
  intros O E Hc R. destruct (load_program_reasons cf text o O) as (r & o' & El & K). exists r, o'. split; [exact El|]. intros ->.
  unfold validate_program in K. rewrite E in K. destruct K as (P' & E' & K & _). injection E' as <-. pose proof (proj1 (Forall_forall _ _) K c Hc). congruence.
Qed.
Lemma earlier_witness :
  (exists text rest, parse_query (append_dot text) = Some (COk [NFun "p" (NEv "+" [NVar "X"; NInt "1"] :: rest)]) /\
    ask 1 "p(2+1,g(f(2)))." text = Some (LOk, LOk, [Val (RAnswer [("X", "2")])])) /\
  (exists text, parse_query (append_dot text) = Some (COk [NFun "p" [NVar "Y"; NFun "f" [NEv "+" [NVar "Y"; NInt "1"]]]]) /\
    ask 1 "p(2,f(2+1))." text = Some (LOk, LErr CNotInst, [Val RFalse])).
Proof.
  split.
  - exists "p(X+1,g(f(X)))", [NFun "g" [NFun "f" [NVar "X"]]]. split; vm_compute; reflexivity.
  - exists "p(Y,f(Y+1))". split; vm_compute; reflexivity.
Qed.
Lemma trailing_text_validates : exists text, validate_query text = Some (LErr CNone) /\ reports_error (LErr CNone) = false /\
  ~ exists q, parse_query (append_dot text) = Some (COk q).
Proof.
  exists "f(a). g(b).". assert (E : parse_query (append_dot "f(a). g(b).") = Some (CErr CNone)) by (vm_compute; reflexivity).
  split; [unfold validate_query; now rewrite E|]. split; [reflexivity|]. intros (q & K). rewrite E in K. discriminate K.
Qed.
Lemma missing_dot cf u c b o : is_space c = false -> c <> "."%char -> blanks b ->
  load_query cf (String.append u (String c b)) o = load_query cf (String.append u (String c (String "." b))) o /\
  validate_query (String.append u (String c b)) = validate_query (String.append u (String c (String "." b))).
Proof.
  intros Hc Hd B. unfold load_query, validate_query. change "."%char with dot in *.
  assert (E : append_dot (String.append u (String c b)) = append_dot (String.append u (String c (String dot b)))); [|rewrite E; split; reflexivity].
  rewrite (append_dot_last u c b Hc B). apply Ascii.eqb_neq in Hd. rewrite Hd.
  replace (String.append u (String c (String dot b))) with (String.append (String.append u (String c "")) (String dot b)) by now rewrite app_assoc_s.
  rewrite (append_dot_last _ dot b eq_refl B). reflexivity.
Qed.
Lemma dot_left_alone s : blanks s \/ (exists u b, s = String.append u (String "." b) /\ blanks b) -> append_dot s = s.
Proof.
  intros [B|(u & b & -> & B)]; [exact (append_dot_blank s B)|]. change "."%char with dot. rewrite (append_dot_last u dot b eq_refl B). reflexivity.
Qed.
Lemma dot_cases s : blanks s \/ (exists u b, s = String.append u (String "." b) /\ blanks b) \/
  (exists u c b, s = String.append u (String c b) /\ is_space c = false /\ c <> "."%char /\ blanks b).
Proof.
  destruct (last_char s) as [B|(u & c & b & -> & Hc & B)]; [auto|]. destruct (Ascii.eqb_spec c "."%char) as [->|N]; right; [left; eauto|right]. exists u, c, b. auto.
Qed.
