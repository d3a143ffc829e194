(** What is shown by the answers that cover an instance of the query. *)
From Verif Require Import Base Machine Heap Facts Compiler Parser Print Organizer Spec Valuation Process Session Search Order Runs
  Builtins Sols Solve Terms Shown Alloc Atoms Clause Put Heads Tables Root Answers Complete Settle Nearer Shows Flat Safe Labels Unambiguous Once Naming.
Open Scope string_scope.
Open Scope list_scope.

(** --- what an answer means --- *)
(** The binding list [b] shows the terms [sg]: written out they are the texts of [b]; their names are spelled as such, unless
    the table of variables is too big; all their instances are solutions, unless cyclic terms were built. *)
Definition shown_as (cf : cfg) (o : org) (P : list (list node)) (q : list node) (b : list (string * string)) (sg : string -> tm) : Prop :=
  reads b sg /\
  ((Z.of_nat (List.length (s_vars (o_sto o))) <= 32768)%Z -> forall x, In x (flat_map nvars q) -> spelled (sg x) = true) /\
  (no_cycles cf o -> forall g a, In a q -> prov (pow_of cf) (P ++ append_prog) (inst (fun x => ginst g (sg x)) a)).
Section Meaning.
Variable cf : cfg.
Hypothesis OK : ord_ok cf.
Variable o : org.
Variable P : list (list node).
Variable q : list node.
Hypothesis HS : session cf o P (QFresh q).
Hypothesis SM : small_tables (o_sto o).
Hypothesis NC : no_clash cf P.
Lemma answered_shown b h V tr Si : answered cf o P q b h V tr Si ->
  exists sg, shows (o_sto o) h (flat_map vars_of q) V tr b sg /\ shown_as cf o P q b sg.
Proof.
  intros A. destruct (Z_le_dec (Z.of_nat (List.length (s_vars (o_sto o)))) 32768) as [VT|VT].
  - destruct (answered_named cf OK o P q HS SM VT NC b h V tr Si A) as (sg & base & Sh & N). exists sg. split; [exact Sh|]. split; [apply Sh|]. split.
    + intros _ x Hx. apply (N x Hx).
    + exact (an_prov cf o P q HS b h V tr Si sg A Sh).
  - destruct (an_shows cf OK o P q HS SM b h V tr Si A) as (sg & Sh). exists sg. split; [exact Sh|]. split; [apply Sh|]. split; [intros K; contradiction|].
    exact (an_prov cf o P q HS b h V tr Si sg A Sh).
Qed.
Lemma covers_shown b v : covers cf o P q b v -> exists sg g, shown_as cf o P q b sg /\ forall x, In x (flat_map nvars q) -> ginst g (sg x) = v x.
Proof.
  intros (h & V & tr & Si & k & A & Hv). destruct (answered_shown b h V tr Si A) as (sg & Sh & K).
  destruct (an_instance cf o P q HS b h V tr Si sg v k A Sh Hv) as (g & Hg). eauto.
Qed.
Theorem answers_shown rs o' b : run cf o rs o' -> In (RAnswer b) (delivered rs) -> exists sg, shown_as cf o P q b sg.
Proof.
  intros HR Hb. destruct (delivered_answered cf OK o P q HS SM NC rs o' b HR Hb) as (h & V & tr & Si & A). destruct (answered_shown b h V tr Si A) as (sg & _ & K). eauto.
Qed.
(** The instance [v] of the query is one of those shown by [b]. *)
Definition shown_instance (b : list (string * string)) (v : string -> gterm) : Prop :=
  exists sg g, shown_as cf o P q b sg /\ forall x, In x (flat_map nvars q) -> ginst g (sg x) = v x.
Theorem complete_or_unbound_shown : all_goals no_compare P q -> turns_end cf o -> forall v,
  (forall a, In a q -> prov (pow_of cf) (P ++ append_prog) (inst v a)) ->
  exists N, (exists rs o', run cf o rs o' /\ List.length rs = N /\ forall r, In r (map fst rs) -> (exists b, r = RAnswer b) \/ exists e, r = RError e) /\
    forall rs o', run cf o rs o' -> N <= List.length (delivered rs) ->
      (exists b, In (RAnswer b) (delivered rs) /\ shown_instance b v) \/ exists x, In (RError (EUnbound x)) (delivered rs).
Proof.
  intros A B v Hv. destruct (complete_or_unbound cf OK o P q HS SM NC A B v Hv) as (N & K1 & K2). exists N. split; [exact K1|].
  intros rs o' HR L. destruct (K2 rs o' HR L) as [(b & Hb & K)|K]; [left|now right]. exists b. split; [exact Hb|]. exact (covers_shown b v K).
Qed.
Theorem complete_shown : all_goals no_compare P q -> all_goals no_is P q -> turns_end cf o -> forall v,
  (forall a, In a q -> prov (pow_of cf) (P ++ append_prog) (inst v a)) ->
  exists N, (exists rs o', run cf o rs o' /\ List.length rs = N /\ forall r, In r (map fst rs) -> exists b, r = RAnswer b) /\
    forall rs o', run cf o rs o' -> N <= List.length (delivered rs) -> exists b, In (RAnswer b) (delivered rs) /\ shown_instance b v.
Proof.
  intros A B C v Hv. destruct (complete cf OK o P q HS SM NC A B C v Hv) as (N & K1 & K2). exists N. split; [exact K1|].
  intros rs o' HR L. destruct (K2 rs o' HR L) as (b & Hb & K). exists b. split; [exact Hb|]. exact (covers_shown b v K).
Qed.
Theorem failure_shown rs o' : run cf o rs o' -> In RFalse (delivered rs) ->
  o_queue o' = [] /\
  (forall fuel w r o2, forall n, get_answer cf fuel n w o' = Val (r, o2) -> r = RFalse) /\
  (all_goals no_compare P q -> (all_goals no_is P q \/ forall x, ~ In (RError (EUnbound x)) (delivered rs)) -> forall v,
     (forall a, In a q -> prov (pow_of cf) (P ++ append_prog) (inst v a)) -> exists b, In (RAnswer b) (delivered rs) /\ shown_instance b v).
Proof.
  intros HR Hf. destruct (failure_pure cf o P q rs o' OK HS SM NC HR Hf) as (A & B & C). split; [exact A|]. split; [exact B|].
  intros C1 C2 v Hv. destruct (C C1 C2 v Hv) as (b & Hb & K). exists b. split; [exact Hb|]. exact (covers_shown b v K).
Qed.
Theorem nearer_half_shown rs o' pre b post : all_goals no_compare P q -> no_cycles cf o ->
  run cf o rs o' -> delivered rs = pre ++ RAnswer b :: post -> (forall x, ~ In (RError (EUnbound x)) pre) ->
  exists sg, shown_as cf o P q b sg /\ forall v k, proved_with cf P q v k ->
    (exists g, forall n, proved_with cf P q (fun x => ginst g (sg x)) n -> 3 * k < 2 * n) ->
    exists b', In (RAnswer b') pre /\ shown_instance b' v.
Proof.
  intros A B HR D E. destruct (nearer_half cf OK o P q HS SM NC rs o' pre b post A B HR D E) as (h & V & tr & Si & An & K).
  destruct (answered_shown b h V tr Si An) as (sg & Sh & M). exists sg. split; [exact M|]. intros v k Hv G. destruct (K sg Sh v k Hv G) as (b' & Hb & C).
  exists b'. split; [exact Hb|]. exact (covers_shown b' v C).
Qed.
Theorem nearer_exact_shown rs o' pre b post : (forall c, In c P -> unshared c) -> all_goals no_compare P q -> no_cycles cf o ->
  run cf o rs o' -> delivered rs = pre ++ RAnswer b :: post -> (forall x, ~ In (RError (EUnbound x)) pre) ->
  exists sg, shown_as cf o P q b sg /\ forall v k, proved_with cf P q v k ->
    (exists g, forall n, proved_with cf P q (fun x => ginst g (sg x)) n -> k < n) ->
    exists b', In (RAnswer b') pre /\ shown_instance b' v.
Proof.
  intros U A B HR D E. destruct (nearer_exact cf OK o P q HS SM NC rs o' pre b post U A B HR D E) as (h & V & tr & Si & An & K).
  destruct (answered_shown b h V tr Si An) as (sg & Sh & M). exists sg. split; [exact M|]. intros v k Hv G. destruct (K sg Sh v k Hv G) as (b' & Hb & C).
  exists b'. split; [exact Hb|]. exact (covers_shown b' v C).
Qed.
End Meaning.

(** --- what can be read off an answer --- *)
Lemma anon_of v : anon (tm_of v) = tm_of v.
Proof.
  revert v. fix IH 1. intros [s|n|s l|s l]; cbn [tm_of anon]; try reflexivity; f_equal; rewrite map_map; induction l as [|x l IHl]; cbn [map]; [reflexivity|now rewrite IH, IHl|reflexivity|now rewrite IH, IHl].
Qed.
Lemma anon_ground g t : forall v, anon t = tm_of v -> ginst g t = v.
Proof.
  induction t as [a s|s|n|s l IH|s l IH] using tm_ind2; intros [s'|n'|s' m|s' m] E; cbn [anon tm_of] in E; try discriminate E; cbn [ginst].
  - now injection E as ->.
  - now injection E as ->.
  - injection E as -> E. f_equal. revert m E. induction IH as [|x l Hx F IHl]; intros [|v m] E; cbn [map] in *; try discriminate E; [reflexivity|]. injection E as E1 E2. now rewrite (Hx v E1), (IHl m E2).
  - injection E as -> E. f_equal. revert m E. induction IH as [|x l Hx F IHl]; intros [|v m] E; cbn [map] in *; try discriminate E; [reflexivity|]. injection E as E1 E2. now rewrite (Hx v E1), (IHl m E2).
Qed.
(** Whoever reads the texts as terms with proper lists reads the terms shown, but for the identities of variables; and an
    answer read as ground terms is a solution. *)
Theorem answers_readable cf o P q rs o' b : ord_ok cf -> session cf o P (QFresh q) -> small_tables (o_sto o) ->
  (Z.of_nat (List.length (s_vars (o_sto o))) <= 32768)%Z -> no_clash cf P -> no_cycles cf o ->
  run cf o rs o' -> In (RAnswer b) (delivered rs) ->
  exists sg, shown_as cf o P q b sg /\ ((forall x, In x (flat_map nvars q) -> proper (sg x) = true) ->
    (forall rd, (forall x s, In (x, s) b -> s = show (rd x) /\ spelled (rd x) = true) -> forall x, In x (flat_map nvars q) -> anon (rd x) = anon (sg x)) /\
    (forall v, (forall x s, In (x, s) b -> s = show_ground (v x) /\ spelled (tm_of (v x)) = true) ->
       forall a, In a q -> prov (pow_of cf) (P ++ append_prog) (inst v a))).
Proof.
  intros OK HS SM VT NC NCy HR Hb. destruct (answers_shown cf OK o P q HS SM NC rs o' b HR Hb) as (sg & R & Sp & Pr). exists sg. split; [split; [exact R|split; [exact Sp|exact Pr]]|].
  intros Pp. specialize (Sp VT). destruct (names_once cf o P q rs o' b HS HR Hb) as [_ Nm].
  assert (K : forall rd, (forall x s, In (x, s) b -> s = show (rd x) /\ spelled (rd x) = true) -> forall x, In x (flat_map nvars q) -> anon (rd x) = anon (sg x)).
  { intros rd H x Hx. pose proof (proj2 (Nm x) Hx) as Hn. apply in_map_iff in Hn. destruct Hn as ((y & s) & Ey & Hs). cbn in Ey. subst y. destruct (H x s Hs) as [E1 E2].
    apply show_inj; [exact E2|exact (Sp x Hx)|]. rewrite <- E1, (R x s Hs). apply (printed_show _ (Pp x Hx)). }
  split; [exact K|]. intros v Hv a Ha. rewrite (inst_agree v (fun x => ginst (fun _ => GInt 0) (sg x))); [exact (Pr NCy _ a Ha)|].
  intros x Hx. symmetry. apply anon_ground. rewrite <- (K (fun x => tm_of (v x))), anon_of; [reflexivity|exact Hv|]. apply in_flat_map. eauto.
Qed.
