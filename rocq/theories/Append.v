(** append/3 is concatenation. *)
From Verif Require Import Base Machine Heap Facts Compiler Parser Print Organizer Spec Valuation Process Session Search Order Runs
  Sols Solve Terms Shown Alloc Atoms Clause Root Answers Ground.
Open Scope string_scope.
Open Scope list_scope.

(** the list of [xs] ending in [t] *)
Definition glist_onto (xs : list gterm) (t : gterm) : gterm := fold_right (fun x r => GFun "[" [x; r]) t xs.
Definition glist (xs : list gterm) : gterm := glist_onto xs (GFun "[" []).
(** the same written in a program *)
Definition nlist (xs : list node) : node := fold_right (fun x r => NFun "[" [x; r]) (NFun "[" []) xs.

Lemma glist_app xs ys : glist_onto xs (glist ys) = glist (xs ++ ys).
Proof. unfold glist, glist_onto. now rewrite fold_right_app. Qed.
Lemma inst_nlist v xs : inst v (nlist xs) = glist (map (inst v) xs).
Proof. induction xs as [|x xs IH]; [reflexivity|]. cbn. unfold nlist, glist in IH. rewrite IH. reflexivity. Qed.

Section Append.
Variable pw : Z -> Z -> option Z.
Variable P : list (list node).
Hypothesis SP : session_prog P.
Notation PP := (P ++ append_prog).

Lemma append_inv t : prov pw PP t -> forall a b c, t = GFun "append" [a; b; c] ->
  (a = GFun "[" [] /\ b = c) \/
  exists x a' c', a = GFun "[" [x; a'] /\ c = GFun "[" [x; c'] /\ prov pw PP (GFun "append" [a'; b; c']).
Proof.
  intros H a b c E. destruct H as [h bd v Hin Hb|t|t u|n e He]; try discriminate E.
  apply in_app_iff in Hin. destruct Hin as [Hin|[Hin|[Hin|[]]]].
  - exfalso. pose proof (proj1 (Forall_forall _ _) (sp_wf _ SP) _ Hin) as W. cbn in W. inversion W as [|? ? Wh Wb]; subst.
    assert (K : to_fview h = FV "append" 3).
    { destruct h as [s|s|s|s l|s l]; cbn in E; try discriminate E; [destruct Wh|].
      injection E as -> E. destruct l as [|? [|? [|? [|? ?]]]]; try discriminate E. reflexivity. }
    assert (N : In (h :: bd) (clauses_of (FV "append" 3) P)).
    { unfold clauses_of. apply filter_In. split; [exact Hin|]. now apply has_head_eq. }
    rewrite (sp_nr _ SP) in N; [destruct N|]. right. reflexivity.
  - injection Hin as <- <-. cbn in E. injection E as <- <- <-. left. auto.
  - injection Hin as <- <-. cbn in E. injection E as <- <- <-. right. exists (v "X"), (v "Xs"), (v "Rs").
    split; [reflexivity|]. split; [reflexivity|]. exact (Hb _ (or_introl eq_refl)).
Qed.

Lemma append_onto xs y z : prov pw PP (GFun "append" [glist xs; y; z]) <-> z = glist_onto xs y.
Proof.
  revert z. induction xs as [|x xs IH]; intros z; split.
  - intros H. destruct (append_inv _ H _ _ _ eq_refl) as [[_ E]|(x & a & c & E & _)]; [now symmetry|discriminate E].
  - cbn. intros ->. apply (prov_clause pw PP (NFun "append" [NFun "[" []; NVar "L"; NVar "L"]) [] (fun _ => y)); [|intros a []].
    apply in_app_iff. right. now left.
  - intros H. destruct (append_inv _ H _ _ _ eq_refl) as [[E _]|(x' & a & c & E & E2 & K)]; [discriminate E|].
    injection E as <- <-. rewrite E2. cbn. f_equal. apply IH in K. now rewrite K.
  - intros ->. cbn.
    apply (prov_clause pw PP (NFun "append" [NFun "[" [NVar "X"; NVar "Xs"]; NVar "Ys"; NFun "[" [NVar "X"; NVar "Rs"]])
      [NFun "append" [NVar "Xs"; NVar "Ys"; NVar "Rs"]]
      (fun s => if s =? "X" then x else if s =? "Xs" then glist xs else if s =? "Ys" then y else glist_onto xs y)).
    + apply in_app_iff. right. right. now left.
    + intros a [<-|[]]. cbn. now apply IH.
Qed.

Lemma append_splits zs : forall a b, prov pw PP (GFun "append" [a; b; glist zs]) <->
  exists xs ys, a = glist xs /\ b = glist ys /\ xs ++ ys = zs.
Proof.
  intros a b. split.
  - revert a. induction zs as [|z zs IH]; intros a H; destruct (append_inv _ H _ _ _ eq_refl) as [[-> ->]|(x & a' & c & -> & E & K)].
    + exists [], []. auto.
    + discriminate E.
    + exists [], (z :: zs). auto.
    + cbn in E. injection E as <- <-. destruct (IH _ K) as (xs & ys & -> & -> & <-). exists (z :: xs), ys. auto.
  - intros (xs & ys & -> & -> & <-). apply append_onto. symmetry. apply glist_app.
Qed.
End Append.

Lemma session_append cf o P s pw : session cf o P s ->
  (forall xs y z, prov pw (P ++ append_prog) (GFun "append" [glist xs; y; z]) <-> z = glist_onto xs y) /\
  (forall zs a b, prov pw (P ++ append_prog) (GFun "append" [a; b; glist zs]) <-> exists xs ys, a = glist xs /\ b = glist ys /\ xs ++ ys = zs).
Proof.
  intros HS. destruct (session_parsed _ _ _ _ HS) as [SP _]. split; [exact (append_onto pw P SP)|exact (append_splits pw P SP)].
Qed.

Definition closed (n : node) : Prop := nvars n = [].
Lemma closed_inst n v w : closed n -> inst v n = inst w n.
Proof. intros H. apply inst_agree. intros s Hs. rewrite H in Hs. destruct Hs. Qed.

(** the answer to append(xs,ys,Z) *)
Lemma append_answer cf o P xs ys z rs o' b : ord_ok cf ->
  session cf o P (QFresh [NFun "append" [nlist xs; nlist ys; NVar z]]) ->
  small_tables (o_sto o) -> no_clash cf P -> no_cycles cf o -> Forall closed xs -> Forall closed ys ->
  run cf o rs o' -> In (RAnswer b) (delivered rs) ->
  forall v, proper (tm_of (glist (map (inst v) (xs ++ ys)))) = true -> b = [(z, show_ground (glist (map (inst v) (xs ++ ys))))].
Proof.
  intros OK HS SM NC Cy Fx Fy HR Hb v Pr.
  destruct (answers_sound cf OK o P _ HS SM NC rs o' b HR Hb) as (ND & Nm & K).
  destruct (K Cy) as (sg & Rd & Pv).
  assert (Cl : forall l, Forall closed l -> nvars (nlist l) = []).
  { intros l. induction 1 as [|x l Hx Hl IH]; [reflexivity|]. cbn. unfold closed in Hx. rewrite Hx. cbn. unfold nlist in IH. now rewrite IH. }
  assert (E : forall g, ginst g (sg z) = glist (map (inst v) (xs ++ ys))).
  { intros g. specialize (Pv g _ (or_introl eq_refl)). cbn [inst map] in Pv. rewrite !inst_nlist in Pv.
    apply (proj1 (session_append _ _ _ _ _ HS)) in Pv. rewrite Pv, glist_app, <- map_app.
    f_equal. apply map_ext_in. intros a Ha. apply closed_inst. apply in_app_iff in Ha.
    destruct Ha as [Ha|Ha]; [exact (proj1 (Forall_forall _ _) Fx _ Ha)|exact (proj1 (Forall_forall _ _) Fy _ Ha)]. }
  apply ground_tm in E.
  assert (Nm' : forall x, In x (map fst b) <-> x = z).
  { intros x. rewrite Nm. cbn [flat_map nvars]. rewrite (Cl _ Fx), (Cl _ Fy). cbn. split; [intros [H|[]]; now symmetry|intros ->; now left]. }
  destruct b as [|[x s] [|[x2 s2] b]].
  - exfalso. apply (proj2 (Nm' z) eq_refl).
  - assert (x = z) as -> by (apply Nm'; now left). f_equal. f_equal. rewrite (Rd z s (or_introl eq_refl)), E.
    apply (printed_show _ Pr).
  - exfalso. cbn in ND. inversion ND as [|? ? N1 _]; subst. apply N1.
    assert (x = z) as -> by (apply Nm'; now left). assert (x2 = z) as -> by (apply Nm'; right; now left). now left.
Qed.

Lemma glist_inj xs : forall ys, glist xs = glist ys -> xs = ys.
Proof.
  induction xs as [|x xs IH]; intros [|y ys] E; try discriminate E; [reflexivity|]. cbn in E. injection E as -> E. f_equal. apply IH. exact E.
Qed.
Lemma append_lists cf o P s pw xs ys zs : session cf o P s ->
  (prov pw (P ++ append_prog) (GFun "append" [glist xs; glist ys; glist zs]) <-> zs = xs ++ ys).
Proof.
  intros H. rewrite (proj1 (session_append cf o P s pw H)), glist_app. split; [apply glist_inj|now intros ->].
Qed.
Lemma append_faithful cf : ord_ok cf ->
  parse_program "append([],List2,List2). append([X|Xs],Ys,[X|Rs]) :- append(Xs,Ys,Rs)." = Some (COk append_clauses) /\
  forall c, In c append_clauses -> clause_ok cf c = true.
Proof. intros O. split; [vm_compute; reflexivity|]. intros c Hc. apply (append_ok cf O c Hc). Qed.
