(** The code the compiler makes keeps the discipline of Ends.v; all calls. *)
From Verif Require Import Base Machine Heap HeapSim Facts Compiler Parser Print Organizer Examples Spec Valuation Process Refine Mono Turn Shape Session Code Put Search
  Get Alloc Atoms Clause Parsed Tables Root Order Runs Answers LockHist Loads Wf Settle Ends.
Open Scope string_scope.
Open Scope list_scope.

(** No term with 65536 or more arguments occurs in the atom [n]. *)
Definition narrow (n : node) : Prop := forall k m, In k (kids n) -> sub m k -> (Z.of_nat (List.length (kids m)) < 65536)%Z.
(** what the compiler needs *)
Definition fit (n : node) : Prop := (Z.of_nat (List.length (kids n)) < 65536)%Z /\ match n with NEv _ l => List.length l = 2 | _ => True end.
Definition shaped (n : node) : Prop := forall m, In m (bfs_below n) -> fit m.
Definition ent_ok (e : ent) : Prop := List.length (en_kids e) = List.length (kids (en_node e)) /\ fit (en_node e).

Lemma args_fun i n : (Z.of_nat n < 65536)%Z -> args_of (CFun i (wrap16 (Z.of_nat n))) = n.
Proof.
  intros L. cbn. unfold wrap16. rewrite Zminus_mod_idemp_l. replace (Z.of_nat n + 32768 - 32768)%Z with (Z.of_nat n) by lia.
  rewrite Z.mod_small by lia. apply Nat2Z.id.
Qed.
Lemma args_ev i : args_of (CEval i 2) = 2.
Proof. reflexivity. Qed.

Definition pseg (k : nat) (c : list instr) : Prop := forall rest, dput 0 rest -> dput k (c ++ rest).
Definition gseg (k : nat) (c : list instr) : Prop := forall rest, dget 0 rest -> dget k (c ++ rest).
Lemma pseg_nil : pseg 0 [].
Proof. intros r H. exact H. Qed.
Lemma gseg_nil : gseg 0 [].
Proof. intros r H. exact H. Qed.
Lemma pseg_app c d : pseg 0 c -> pseg 0 d -> pseg 0 (c ++ d).
Proof. intros A B r H. rewrite <- app_assoc. apply A, B, H. Qed.
Lemma gseg_app c d : gseg 0 c -> gseg 0 d -> gseg 0 (c ++ d).
Proof. intros A B r H. rewrite <- app_assoc. apply A, B, H. Qed.
Lemma alloc_pseg n : pseg 0 (alloc_code n).
Proof. intros r H. unfold alloc_code. destruct (Nat.eqb n 0); cbn; auto. Qed.
Lemma alloc_gseg n : gseg 0 (alloc_code n).
Proof. intros r H. unfold alloc_code. destruct (Nat.eqb n 0); cbn; auto. Qed.

Lemma cbind_ok {A B} (m : comp A) (f : A -> comp B) s b s' : cbind m f s = (COk b, s') -> exists a s1, m s = (COk a, s1) /\ f a s1 = (COk b, s').
Proof. unfold cbind. destruct (m s) as [[a|e|] s1]; try discriminate. eauto. Qed.
Ltac cinv E := let a := fresh "a" in let s := fresh "s" in let F := fresh "F" in apply cbind_ok in E; destruct E as (a & s & F & E).

Section Gen.
Variable perm : string -> option nat.
Lemma query_kid_one k seen s c sn s' : query_kid perm k seen s = (COk (c, sn), s') -> exists i, c = [i] /\ forall n rest, dput n rest -> dput (S n) (i :: rest).
Proof.
  intros E. unfold query_kid in E. destruct k as [n x].
  assert (V : forall p : option nat, (match p with
      | Some y => if seen_in (SY y) seen then cret ([ISetPVal y], seen) else v <~ cvar (node_name n) ;; cret ([ISetPVar y v], SY y :: seen)
      | None => if seen_in (SX x) seen then cret ([ISetVal x], seen) else v <~ cvar (node_name n) ;; cret ([ISetVar x v], SX x :: seen)
      end) s = (COk (c, sn), s') -> exists i, c = [i] /\ forall n rest, dput n rest -> dput (S n) (i :: rest)).
  { intros [y|] F.
    - destruct (seen_in (SY y) seen); [|cinv F]; unfold cret in F; injection F as <- _ _; eexists; (split; [reflexivity|]); intros q r H; exact H.
    - destruct (seen_in (SX x) seen); [|cinv F]; unfold cret in F; injection F as <- _ _; eexists; (split; [reflexivity|]); intros q r H; exact H. }
  destruct n as [t|t|t|t l|t l]; [exact (V _ E)| | |exact (V None E)|exact (V None E)]; cinv E; unfold cret in E; injection E as <- _ _; eexists; (split; [reflexivity|]);
    intros q r H; cbn; auto.
Qed.
Lemma query_kids_seg ks : forall seen s c sn s', query_kids perm ks seen s = (COk (c, sn), s') -> pseg (List.length ks) c.
Proof.
  induction ks as [|k ks IH]; intros seen s c sn s' E; cbn [query_kids] in E; [injection E as <- _ _; apply pseg_nil|].
  cinv E. destruct a as [c1 s2]. cinv E. destruct a as [c2 s4]. unfold cret in E. injection E as <- _ _.
  destruct (query_kid_one _ _ _ _ _ _ F) as (i & -> & H). intros r Hr. cbn [app List.length]. apply H. eapply IH; eauto.
Qed.
Lemma query_ent_seg vx e seen s c sn s' : ent_ok e -> query_ent perm vx e seen s = (COk (c, sn), s') -> pseg 0 c.
Proof.
  intros [L [Hf He]] E. unfold query_ent in E.
  destruct (en_node e) as [t|t|t|t l|t l] eqn:En.
  - destruct (en_arg e) as [a|]; [|injection E as <- _ _; apply pseg_nil]. destruct (perm t) as [y|].
    + destruct (seen_in (SY y) seen); [|cinv E]; unfold cret in E; injection E as <- _ _; intros r H; cbn; auto.
    + destruct (seen_in (SX (en_x e)) seen); [|cinv E]; unfold cret in E; injection E as <- _ _; intros r H; cbn; auto.
  - cinv E. unfold cret in E. injection E as <- _ _. intros r H. cbn. auto.
  - cinv E. unfold cret in E. injection E as <- _ _. intros r H. cbn. auto.
  - cinv E. cinv E. destruct a0 as [c2 s3]. unfold cret in E. injection E as <- _ _. intros r H. pose proof (query_kids_seg _ _ _ _ _ _ F0 r H) as K.
    rewrite L in K. cbn [dput app kids inb]. unfold short_arity. cbn [to_fview fv_arity node_name]. rewrite args_fun by exact Hf. split; [exact K|exact I].
  - destruct (check_undefined _ _ _ _); [|discriminate]. cinv E. cinv E. destruct a0 as [c2 s3]. unfold cret in E. injection E as <- _ _. intros r H.
    pose proof (query_kids_seg _ _ _ _ _ _ F0 r H) as K. rewrite L in K. cbn [kids] in K. rewrite He in K. cbn [app dput inb]. rewrite args_ev. split; [exact K|exact I].
Qed.
Lemma query_ents_seg vx es : forall seen s c sn s', Forall ent_ok es -> query_ents perm vx es seen s = (COk (c, sn), s') -> pseg 0 c.
Proof.
  induction es as [|e es IH]; intros seen s c sn s' Fe E; cbn [query_ents] in E; [injection E as <- _ _; apply pseg_nil|].
  inversion Fe; subst. cinv E. destruct a as [c1 s2]. cinv E. destruct a as [c2 s4]. unfold cret in E. injection E as <- _ _.
  apply pseg_app; [eapply query_ent_seg; eauto|eapply IH; eauto].
Qed.
Lemma prog_kid_one k seen s c sn s' : prog_kid perm k seen s = (COk (c, sn), s') -> exists i, c = [i] /\ forall n rest, dget n rest -> dget (S n) (i :: rest).
Proof.
  intros E. unfold prog_kid in E. destruct k as [n x].
  assert (V : forall p : option nat, (if seen_in (SX x) seen then
        cret ([match p with Some y => IUniPVal y | None => IUniVal x end], seen)
      else v <~ cvar (node_name n) ;;
        match p with Some y => cret ([IUniPVar y v], SY y :: SX x :: seen) | None => cret ([IUniVar x v], SX x :: seen) end) s = (COk (c, sn), s') ->
     exists i, c = [i] /\ forall n rest, dget n rest -> dget (S n) (i :: rest)).
  { intros p G. destruct (seen_in (SX x) seen).
    - unfold cret in G. injection G as <- _ _. eexists. split; [reflexivity|]. intros q r H. destruct p; cbn; split; auto; lia.
    - cinv G. destruct p; unfold cret in G; injection G as <- _ _; eexists; (split; [reflexivity|]); intros q r H; cbn; split; auto; lia. }
  destruct n as [t|t|t|t l|t l]; [exact (V _ E)| | |exact (V None E)|exact (V None E)]; cinv E; unfold cret in E; injection E as <- _ _; eexists; (split; [reflexivity|]);
    intros q r H; cbn; csplit; auto; lia.
Qed.
Lemma prog_kids_seg ks : forall seen s c sn s', prog_kids perm ks seen s = (COk (c, sn), s') -> gseg (List.length ks) c.
Proof.
  induction ks as [|k ks IH]; intros seen s c sn s' E; cbn [prog_kids] in E; [injection E as <- _ _; apply gseg_nil|].
  cinv E. destruct a as [c1 s2]. cinv E. destruct a as [c2 s4]. unfold cret in E. injection E as <- _ _.
  destruct (prog_kid_one _ _ _ _ _ _ F) as (i & -> & H). intros r Hr. cbn [app List.length]. apply H. eapply IH; eauto.
Qed.
Lemma prog_ent_seg e seen s c sn s' : ent_ok e -> prog_ent perm e seen s = (COk (c, sn), s') -> gseg 0 c.
Proof.
  intros [L [Hf He]] E. unfold prog_ent in E.
  destruct (en_node e) as [t|t|t|t l|t l] eqn:En.
  - destruct (en_arg e) as [a|]; [|injection E as <- _ _; apply gseg_nil]. destruct (seen_in (SX (en_x e)) seen).
    + unfold cret in E. injection E as <- _ _. intros r H. destruct (perm t); cbn; auto.
    + destruct (perm t); unfold cret in E; injection E as <- _ _; intros r H; cbn; auto.
  - cinv E. unfold cret in E. injection E as <- _ _. intros r H. cbn. auto.
  - cinv E. unfold cret in E. injection E as <- _ _. intros r H. cbn. auto.
  - cinv E. cinv E. destruct a0 as [c2 s3]. unfold cret in E. injection E as <- _ _. intros r H. pose proof (prog_kids_seg _ _ _ _ _ _ F0 r H) as K.
    rewrite L in K. cbn [dget app kids inb]. unfold short_arity. cbn [to_fview fv_arity node_name]. rewrite args_fun by exact Hf. split; [reflexivity|]. split; [exact K|exact I].
  - cinv E. cinv E. destruct a0 as [c2 s3]. unfold cret in E. injection E as <- _ _. intros r H.
    pose proof (prog_kids_seg _ _ _ _ _ _ F0 r H) as K. rewrite L in K. cbn [kids] in K. rewrite He in K. cbn [app dget inb]. rewrite args_ev. split; [reflexivity|]. split; [exact K|exact I].
Qed.
Lemma prog_ents_seg es : forall seen s c sn s', Forall ent_ok es -> prog_ents perm es seen s = (COk (c, sn), s') -> gseg 0 c.
Proof.
  induction es as [|e es IH]; intros seen s c sn s' Fe E; cbn [prog_ents] in E; [injection E as <- _ _; apply gseg_nil|].
  inversion Fe; subst. cinv E. destruct a as [c1 s2]. cinv E. destruct a as [c2 s4]. unfold cret in E. injection E as <- _ _.
  apply gseg_app; [eapply prog_ent_seg; eauto|eapply IH; eauto].
Qed.

Definition aok (a : aatom) : Prop := Forall ent_ok (aa_ents a).
Lemma flat_aok a : aok a -> Forall ent_ok (flatten_program a).
Proof. intros H. apply Forall_forall. intros e He. apply filter_In in He. unfold aok in H. rewrite Forall_forall in H. apply H, He. Qed.
Lemma flatq_aok a : aok a -> Forall ent_ok (flatten_query a).
Proof.
  intros H. apply flat_aok in H. unfold flatten_query. destruct (is_constant (aa_top a)); [exact H|]. rewrite Forall_forall in H. apply Forall_forall. intros e He. apply H.
  rewrite <- (firstn_skipn (List.length (kids (aa_top a))) (flatten_program a)). apply in_app_iff in He. apply in_app_iff. destruct He as [He|He]; [right; now apply in_rev|now left].
Qed.
Lemma to_query_d pre a seen s c sn s' : aok a -> pseg 0 pre -> to_query perm a seen s = (COk (c, sn), s') -> dput 0 (pre ++ c).
Proof.
  intros A P E. unfold to_query in E. cinv E. destruct a0 as [c1 s2]. unfold cret in E. injection E as <- _ _. apply P.
  eapply query_ents_seg; [apply flatq_aok; exact A|exact F|]. cbn. auto.
Qed.
Lemma to_program_d pre a seen s c sn s' : aok a -> gseg 0 pre -> to_program perm a seen s = (COk (c, sn), s') -> exists is, pre ++ c = is ++ [IProceed] /\ gseg 0 is.
Proof.
  intros A P E. unfold to_program in E. cinv E. destruct a0 as [c1 s2]. unfold cret in E. injection E as <- _ _. exists (pre ++ c1). split; [now rewrite app_assoc|].
  apply gseg_app; [exact P|]. eapply prog_ents_seg; [apply flat_aok; exact A|exact F].
Qed.
End Gen.

Lemma assign_term_aok n m : shaped n -> aok (fst (fst (assign_term n m))).
Proof.
  intros H. destruct (assign_term n m) as [[a c] m'] eqn:E. cbn [fst]. destruct (assign_term_gen _ _ _ _ _ E) as (lx & Hm & He & _).
  pose proof (lx_ents2 n a lx Hm He) as EO. apply Forall_forall. intros e Hi. apply In_nth_error in Hi. destruct Hi as [i Hi].
  destruct (eo_at _ _ _ EO i e Hi) as (k & x & Hl & En & _ & _ & Ek & _). split.
  - rewrite En, <- Ek. now rewrite map_length.
  - rewrite En. apply H. rewrite <- Hm, in_map_iff. exists (k, x). split; [reflexivity|]. eapply nth_error_In; eauto.
Qed.
Lemma const_aok n : is_constant n = true -> aok (const_atom n).
Proof. intros C. destruct n; try discriminate. repeat constructor. Qed.
Lemma assign_one_aok n : shaped n -> aok (fst (assign_one n)).
Proof.
  intros A. unfold assign_one. destruct (is_constant n) eqn:C; [now apply const_aok|].
  pose proof (assign_term_aok n [] A) as K. destruct (assign_term n []) as [[a c] m]. exact K.
Qed.
Lemma assign_two_aok h b : shaped h -> shaped b -> let '(ha, ba, _) := assign_two h b in aok ha /\ aok ba.
Proof.
  intros A B. unfold assign_two. pose proof (assign_one_aok h A) as Fh. pose proof (assign_one_aok b B) as Fb. destruct (is_constant b) eqn:Cb.
  - destruct (assign_one h) as [ha c]. split; [assumption|now apply const_aok].
  - destruct (is_constant h) eqn:Ch.
    + destruct (assign_one b) as [ba c]. split; [now apply const_aok|assumption].
    + pose proof (assign_term_aok h [] A) as K1. destruct (assign_term h []) as [[ha c1] m1].
      pose proof (assign_term_aok b m1 B) as K2. destruct (assign_term b m1) as [[ba c2] m2]. split; assumption.
Qed.
Lemma query_atoms_d perm u ns : forall pre seen s r s', compile_query_atoms perm pre u ns seen s = (COk r, s') -> pseg 0 pre -> Forall shaped ns -> drule r.
Proof.
  induction ns as [|n ns IH]; intros pre seen s r s' E P F; cbn [compile_query_atoms] in E; [injection E as <- _; constructor|].
  inversion F as [|? ? F1 F2]; subst. cinv E. destruct a as [a sn]. cinv E. unfold cret in E. injection E as <- _. constructor; [|eapply IH; [exact F3|apply pseg_nil|exact F2]].
  unfold compile_query_atom in F0. pose proof (assign_one_aok n F1) as A. destruct (assign_one n) as [aa cnt]. cbn [fst] in A. cinv F0. destruct a1 as [c s3]. unfold cret in F0.
  injection F0 as <- _ _. left. cbn [ca_code]. eapply to_query_d; eauto.
Qed.
Lemma query_d cf q s r s' : compile_query cf q s = (COk r, s') -> Forall shaped q -> drule r.
Proof. intros E F. unfold compile_query in E. eapply query_atoms_d; [exact E|apply alloc_pseg|exact F]. Qed.
Lemma term_d cf b c s f r s' : compile_program_term cf b c s = (COk (f, r), s') -> Forall shaped c ->
  exists h body is, r = h :: body /\ ca_code h = is ++ [IProceed] /\ gseg 0 is /\ drule body.
Proof.
  intros E F. unfold compile_program_term in E. destruct c as [|h body]; [discriminate|]. destruct (negb b && redefines h); [discriminate|].
  inversion F as [|? ? Fh Fb]; subst.
  assert (A : let '(ha, oba, _) := match body with [] => let '(ha, c) := assign_one h in (ha, None, c) | b :: _ => let '(ha, ba, c) := assign_two h b in (ha, Some ba, c) end in
     aok ha /\ match oba with Some ba => aok ba | None => True end).
  { destruct body as [|b1 bs].
    - pose proof (assign_one_aok h Fh) as K. destruct (assign_one h). split; [exact K|exact I].
    - inversion Fb; subst. pose proof (assign_two_aok h b1 Fh H1) as K. destruct (assign_two h b1) as [[ha ba] cnt]. exact K. }
  destruct (match body with [] => _ | _ => _ end) as [[ha oba] cnt]. destruct A as [A1 A2].
  cinv E. destruct a as [hc s1]. cinv E. destruct a as [firsts s3]. cinv E. unfold cret in E. injection E as _ <- _.
  destruct (to_program_d _ (alloc_code (List.length (perm_order cf (h :: body) true))) _ _ _ _ _ _ A1 (alloc_gseg _) F0) as (is & Ei & Gi).
  eexists _, _, is. split; [reflexivity|]. split; [exact Ei|]. split; [exact Gi|]. apply Forall_app. split.
  - destruct oba as [ba|]; [|unfold cret in F1; injection F1 as <- _ _; constructor]. cinv F1. destruct a0 as [bc s9]. unfold cret in F1. injection F1 as <- _ _.
    constructor; [|constructor]. left. cbn [ca_code]. apply (to_query_d _ [] _ _ _ _ _ _ A2 pseg_nil F3).
  - apply Forall_app. split.
    + eapply query_atoms_d; [exact F2|apply pseg_nil|]. destruct body; [constructor|]. inversion Fb; assumption.
    + destruct (Nat.eqb _ 0); [constructor|]. constructor; [|constructor]. left. cbn. auto.
Qed.
Lemma term_drule cf b c s f r s' : compile_program_term cf b c s = (COk (f, r), s') -> Forall shaped c -> drule r.
Proof.
  intros E F. destruct (term_d _ _ _ _ _ _ _ E F) as (h & body & is & -> & Ec & G & D). constructor; [|exact D]. right. rewrite Ec. apply G. cbn. auto.
Qed.
Lemma padd_d f r p : dprog p -> drule r -> dprog (padd f r p).
Proof.
  induction 1 as [|[g l] p Hl Hp IH]; intros Hr; cbn [padd]; [repeat constructor; exact Hr|]. destruct (fview_eqb f g).
  - constructor; [|exact Hp]. cbn [snd] in *. apply Forall_app. auto.
  - constructor; [exact Hl|]. apply IH. exact Hr.
Qed.
Lemma pset_d f rs p : dprog p -> Forall drule rs -> dprog (pset f rs p).
Proof.
  induction 1 as [|[g l] p Hl Hp IH]; intros Hr; cbn [pset]; [repeat constructor; exact Hr|]. destruct (fview_eqb f g).
  - constructor; [exact Hr|exact Hp].
  - constructor; [exact Hl|]. apply IH. exact Hr.
Qed.
Lemma merge_d b : forall p, dprog b -> dprog p -> dprog (merge b p).
Proof.
  unfold merge. induction b as [|[g l] b IH]; intros p Hb Hp; cbn; [exact Hp|]. inversion Hb; subst. apply IH; [assumption|]. now apply pset_d.
Qed.
Lemma clauses_d cf b cs : forall p s p' s', compile_clauses cf b cs p s = (COk p', s') -> Forall (Forall shaped) cs -> dprog p -> dprog p'.
Proof.
  induction cs as [|c cs IH]; intros p s p' s' E F D; cbn [compile_clauses] in E; [injection E as <- _; exact D|].
  inversion F; subst. cinv E. destruct a as [f r]. eapply IH; [exact E|assumption|]. apply padd_d; [exact D|]. eapply term_drule; eauto.
Qed.
Lemma binary_d cf nm g p s p' s' : (forall x y rest, dget 0 rest -> dget 0 (g x y :: rest)) -> compile_binary cf nm g p s = (COk p', s') -> dprog p -> dprog p'.
Proof.
  intros Hg E D. unfold compile_binary in E. destruct (pred_regs _) as [xl xr]. cinv E. destruct a as [f r]. unfold cret in E. injection E as <- _.
  apply padd_d; [exact D|]. destruct (term_d _ _ _ _ _ _ _ F) as (h & body & is & -> & Ec & G & Db).
  { constructor; [|constructor]. intros m Hm. unfold bfs_below, binary_pred in Hm. cbn in Hm. destruct Hm as [<-|[<-|[]]]; split; cbn; auto; lia. }
  cbn [insert_pred]. constructor; [|exact Db]. right. cbn [ca_code]. rewrite Ec. unfold insert_before_last. rewrite removelast_last, app_length, Nat.add_sub, skipn_app, skipn_all, Nat.sub_diag.
  cbn [skipn app]. apply G. apply Hg. cbn. auto.
Qed.
Lemma append_shaped : Forall (Forall shaped) append_clauses.
Proof.
  repeat constructor; match goal with H : In _ _ |- _ => vm_compute in H; repeat (destruct H as [<-|H]; [cbn; auto; lia|]); destruct H end.
Qed.
Lemma built_d cf p s : compile_built_ins cf empty_storage = (COk p, s) -> dprog p.
Proof.
  intros E. unfold compile_built_ins in E. cinv E. cinv E. cinv E.
  eapply clauses_d; [exact E|exact append_shaped|]. eapply binary_d; [|exact F1|]; [cbn; auto|]. eapply binary_d; [|exact F0|]; [cbn; auto|].
  eapply binary_d; [|exact F|constructor]. cbn. auto.
Qed.

(** --- calls --- *)
Lemma new_ok cf o : new_org cf = Val o -> ok_org o.
Proof.
  intros E. unfold new_org in E. destruct (compile_built_ins cf empty_storage) as [[p| |] s] eqn:Eb; try discriminate. injection E as <-. pose proof (built_d _ _ _ Eb) as D.
  split; cbn [o_arena o_queue o_prog o_built]; auto.
  - intros [|[|j]] e q He Hq; try discriminate. injection He as <-. discriminate.
  - intros [|[|j]] e He; try discriminate. injection He as <-. exists [], 0. split; [|apply okh_nil]. split; [reflexivity|]. intros [|i]; reflexivity.
  - intros [|[|j]] e He; try discriminate. injection He as <-. constructor.
  - constructor.
  - intros j [].
Qed.
Lemma atom_kids_ok n : atom_ok n -> forall k, In k (kids n) -> node_ok k.
Proof. intros A k Hk. destruct n as [t|t|t|t [|a l]|t l]; cbn in A; try contradiction; first [exact (A k Hk)|destruct Hk]. Qed.
Lemma narrow_shaped n : atom_ok n -> narrow n -> shaped n.
Proof.
  intros A H m Hm. pose proof Hm as Hm'. apply below_sub in Hm. destruct Hm as (k & Hk & Hs). split; [specialize (H k m Hk Hs); lia|].
  assert (Ok : node_ok m) by (apply (bfs_ok _ (kids n) (Nat.le_refl _) (atom_kids_ok n A)); exact Hm'). destruct m; try exact I. apply Ok.
Qed.
Definition narrow_program (text : string) : Prop := forall P c n, parse_program text = Some (COk P) -> In c P -> In n c -> narrow n.
Definition narrow_query (text : string) : Prop := forall q n, parse_query (append_dot text) = Some (COk q) -> In n q -> narrow n.
(** in the text of the call no term has 65536 or more arguments *)
Definition narrow_call (c : call) : Prop := match c with CallProgram t => narrow_program t | CallQuery t => narrow_query t | _ => True end.

Lemma sto_ok_org o s : ok_org o -> ok_org (set_sto o s).
Proof. intros [A B C D E F G]. split; assumption. Qed.
Lemma program_ok cf text o r o' : narrow_program text -> ok_org o -> load_program cf text o = Some (r, o') -> ok_org o'.
Proof.
  intros N K E. unfold load_program in E. destruct (parse_program text) as [[P|e|]|] eqn:Ep; try discriminate; try (injection E as _ <-; exact K).
  destruct (compile_program cf P (o_sto o)) as [[p|e|] s] eqn:Ec; try (injection E as _ <-; now apply sto_ok_org). injection E as _ <-.
  assert (D : dprog p).
  { eapply clauses_d; [exact Ec| |constructor]. apply Forall_forall. intros c Hc. apply Forall_forall. intros n Hn. apply narrow_shaped; [|exact (N P c n Ep Hc Hn)].
    pose proof (parse_program_wf _ _ Ep) as W. rewrite Forall_forall in W. specialize (W c Hc). destruct c; [destruct Hn|]. unfold clause_wf in W. rewrite Forall_forall in W. apply W, Hn. }
  destruct K as [A1 A2 A3 A4 A5 A6 A7]. split; auto. cbn. now apply merge_d.
Qed.
Lemma query_ok cf text o r o' : narrow_query text -> ok_org o -> load_query cf text o = Some (r, o') -> ok_org o'.
Proof.
  intros N K E. unfold load_query in E. assert (K0 : ok_org (set_stats (set_queue o []) 0)).
  { destruct K as [A1 A2 A3 A4 A5 A6 A7]. split; auto; [constructor|]. intros j []. }
  destruct (parse_query (append_dot text)) as [[q|e|]|] eqn:Ep; try discriminate; try (injection E as _ <-; exact K0).
  destruct (compile_query cf q (o_sto o)) as [[r1|e|] s] eqn:Ec; try (injection E as _ <-; now apply sto_ok_org). injection E as _ <-.
  assert (D : drule r1).
  { eapply query_d; [exact Ec|]. apply Forall_forall. intros n Hn. apply narrow_shaped; [|exact (N q n Ep Hn)].
    destruct (parse_query_wf _ _ Ep) as [_ W]. rewrite Forall_forall in W. apply W, Hn. }
  set (e0 := init_exec (S (o_qgen o)) r1).
  assert (H0 : HeapSim.hrel (heap_at [e0] None) (m_heap (x_m e0)) []) by (split; [reflexivity|]; intros [|i]; reflexivity).
  split; cbn [o_arena o_queue o_prog o_built]; try apply K.
  - intros [|[|j]] e g He Hg; try discriminate. injection He as <-. discriminate.
  - intros [|[|j]] e He; try discriminate. injection He as <-. exists [], 0. split; [exact H0|apply okh_nil].
  - intros [|[|j]] e He; try discriminate. injection He as <-. apply query_dptrs, D.
  - repeat constructor; intros [].
  - intros j [<-|[]]. split; [intros [|[|g]] y Hy; try discriminate; injection Hy as <-; discriminate|].
    exists e0. split; [reflexivity|]. exists {| m_heap := []; m_regs := []; m_mode := None; m_S := 0; m_envs := [] |}.
    split; [split; [exact H0|cbn; auto]|]. split; [split; constructor|apply okh_nil].
Qed.
Lemma perform_ok cf c o r o' : narrow_call c -> ok_org o -> perform cf c o = Val (r, o') -> ok_org o'.
Proof.
  intros N K E. destruct c as [t|t|fuel n w|t]; cbn [perform] in E.
  - destruct (load_program cf t o) as [[r1 o1]|] eqn:El; [|discriminate]. cbn in E. injection E as _ <-. eapply program_ok; eauto.
  - destruct (load_query cf t o) as [[r1 o1]|] eqn:El; [|discriminate]. cbn in E. injection E as _ <-. eapply query_ok; eauto.
  - inv_bind E. destruct v as [r1 o1]. injection E as _ <-. eapply answer_ok; eauto.
  - injection E as _ <-. destruct K as [A1 A2 A3 A4 A5 A6 A7]. split; assumption.
Qed.
Theorem states_ok cf cs : forall o, Forall narrow_call cs -> ok_org o -> forall o1, In o1 (states cf cs o) -> ok_org o1.
Proof.
  induction cs as [|c cs IH]; intros o F K o1 H; cbn [states] in H; [destruct H as [<-|[]]; exact K|]. destruct H as [<-|H]; [exact K|].
  inversion F; subst. destruct (perform cf c o) as [[r o2]| |] eqn:E; try destruct H. eapply IH; [assumption|eapply perform_ok; eauto|exact H].
Qed.
Lemma quiet_ok cf fuel o o1 : Isolation.quiet cf fuel o o1 -> ok_org o -> ok_org o1.
Proof. induction 1; auto. intros K. apply IHquiet. eapply turn_ok; eauto. Qed.
(** C12 *)
Theorem references_end_always cf cs o0 o fuel o1 o2 : new_org cf = Val o0 -> Forall narrow_call cs -> In o (states cf cs o0) ->
  Isolation.quiet cf fuel o o1 -> o2 = o1 \/ inside cf fuel o1 o2 -> all_settle o2.
Proof.
  intros E F H Q K. pose proof (quiet_ok _ _ _ _ Q (states_ok cf cs o0 F (new_ok _ _ E) o H)) as K1. apply ok_settles.
  destruct K as [->|K]; [exact K1|]. eapply inside_ok; eauto.
Qed.

(** --- a check by computation --- *)
Definition narrow_b (n : node) : bool := forallb (fun m => Z.ltb (Z.of_nat (List.length (kids m))) 65536) (bfs_below n).
Lemma narrow_b_ok n : narrow_b n = true -> narrow n.
Proof. intros H k m Hk Hs. unfold narrow_b in H. rewrite forallb_forall in H. apply Z.ltb_lt, H, below_sub. eauto. Qed.
Definition narrow_callb (c : call) : bool :=
  match c with
  | CallProgram t => match parse_program t with Some (COk P) => forallb (forallb narrow_b) P | _ => true end
  | CallQuery t => match parse_query (append_dot t) with Some (COk q) => forallb narrow_b q | _ => true end
  | _ => true
  end.
Lemma narrow_callb_ok c : narrow_callb c = true -> narrow_call c.
Proof.
  intros H. destruct c as [t|t|f n w|t]; cbn in *; auto.
  - intros P c n E Hc Hn. rewrite E in H. rewrite forallb_forall in H. specialize (H c Hc). rewrite forallb_forall in H. apply narrow_b_ok, H, Hn.
  - intros q n E Hn. rewrite E in H. rewrite forallb_forall in H. apply narrow_b_ok, H, Hn.
Qed.
Lemma history_witness cs k n (K : org -> bool) :
  match new_org cfg0 with
  | Val o0 => match nth_error (states cfg0 cs o0) (List.length cs) with
    | Some o => match turnsb k o with Some o1 => match insideb n o1 with Some o2 => K o2 | None => false end | None => false end
    | None => false
    end
  | _ => false
  end = true -> forallb narrow_callb cs = true ->
  exists o0 o o1 o2, new_org cfg0 = Val o0 /\ Forall narrow_call cs /\ In o (states cfg0 cs o0) /\ Isolation.quiet cfg0 1000 o o1 /\ inside cfg0 1000 o1 o2 /\ K o2 = true.
Proof.
  intros H N. destruct (new_org cfg0) as [o0| |] eqn:E0; try discriminate. destruct (nth_error _ _) as [o|] eqn:E1; [|discriminate].
  destruct (turnsb k o) as [o1|] eqn:E2; [|discriminate]. destruct (insideb n o1) as [o2|] eqn:E3; [|discriminate].
  exists o0, o, o1, o2. csplit; auto.
  - apply Forall_forall. intros c Hc. rewrite forallb_forall in N. apply narrow_callb_ok, N, Hc.
  - eapply nth_error_In; eauto.
  - eapply turnsb_quiet; eauto.
  - eapply insideb_inside; eauto.
Qed.
