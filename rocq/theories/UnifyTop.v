(** Unification as an executor performs it, on its layered heap. *)
From Verif Require Import Base Machine Heap Facts HeapSim Compiler Spec Print Valuation.

Lemma unify_layered sto par lh h fuel a b :
  NoDup (s_functors sto) -> hrel par lh h -> wfh sto 0 h -> a < List.length h -> b < List.length h ->
  match unify lheap (lops par) fuel lh a b with
  | Val (true, lh') =>
      exists h', hrel par lh' h' /\ wfh sto 0 h' /\ List.length h' = List.length h /\
                 forall rho, sat sto rho h' <-> sat sto rho h /\ rho a = rho b
  | Val (false, _) => forall rho, sat sto rho h -> rho a <> rho b
  | Ub _ => False
  | Fuel => True
  end.
Proof.
  intros Hnd Hh Hw Ha Hb. unfold unify.
  pose proof (unify_sim par fuel [a; b] lh h Hh) as Hsim.
  assert (Hok : pdl_ok h [a; b]).
  { split; [exact I|]. intros x [<-|[<-|[]]]; assumption. }
  pose proof (unify_loop_spec sto Hnd fuel h [a; b] Hw Hok) as Hspec.
  destruct (unify_loop lheap (lops par) fuel lh [a; b]) as [[ok lh']| |] eqn:E1;
    destruct (unify_loop (list cell) fops fuel h [a; b]) as [[ok' h']| |] eqn:E2;
    cbn [out_rel] in Hsim; try contradiction; try exact I.
  destruct Hsim as [Eok Hh']. cbn in Eok, Hh'. subst ok'. destruct Hspec as (W & [L _] & S). destruct ok.
  - exists h'. split; [assumption|]. split; [assumption|]. split; [assumption|].
    intros rho. rewrite S. cbn [eqs]. tauto.
  - intros rho Hs He. apply (S rho Hs). cbn. auto.
Qed.

Lemma unify_layered_terminates sto par lh h rho a b :
  NoDup (s_functors sto) -> hrel par lh h -> wfh sto 0 h -> a < List.length h -> b < List.length h ->
  sat sto rho h -> rho a = rho b ->
  exists n, forall fuel, n <= fuel -> exists lh', unify lheap (lops par) fuel lh a b = Val (true, lh').
Proof.
  intros Hnd Hh Hw Ha Hb Hs He. exists (pdl_size rho [a; b]). intros fuel Hf. unfold unify.
  assert (Hok : pdl_ok h [a; b]).
  { split; [exact I|]. intros x [<-|[<-|[]]]; assumption. }
  destruct (unify_loop_terminates sto Hnd rho fuel h [a; b] Hw Hok Hs) as (h' & E & _); [cbn; auto|assumption|].
  pose proof (unify_sim par fuel [a; b] lh h Hh) as Hsim. rewrite E in Hsim.
  destruct (unify_loop lheap (lops par) fuel lh [a; b]) as [[ok lh']| |]; cbn in Hsim; try contradiction.
  destruct Hsim as [Eok _]. cbn in Eok. subst ok. eauto.
Qed.

(** without a finite solution unification may not return *)
Definition cyclic_sto : storage := {| s_functors := [FV "f"%string 1]; s_vars := [] |}.
Definition cyc1 : list cell := [CRef 2 0; CRef 4 0; CFun 0 1; CRef 0 0; CFun 0 1; CRef 1 0].
Lemma unify_cyclic_loops : forall fuel, unify (list cell) fops fuel cyc1 0 1 = Fuel.
Proof.
  intros fuel. unfold unify. revert fuel.
  assert (K : forall fuel, unify_loop (list cell) fops fuel cyc1 [0; 1] = Fuel /\
                           unify_loop (list cell) fops fuel cyc1 [5; 3] = Fuel /\
                           unify_loop (list cell) fops fuel cyc1 [3; 5] = Fuel).
  { induction fuel as [|fuel (A & B & C)]; [repeat split|].
    repeat split; cbn [unify_loop].
    - change (deref (list cell) fops cyc1 0) with (@Val nat 2). change (deref (list cell) fops cyc1 1) with (@Val nat 4).
      cbn. exact B.
    - change (deref (list cell) fops cyc1 5) with (@Val nat 4). change (deref (list cell) fops cyc1 3) with (@Val nat 2).
      cbn. exact C.
    - change (deref (list cell) fops cyc1 5) with (@Val nat 4). change (deref (list cell) fops cyc1 3) with (@Val nat 2).
      cbn. exact B. }
  intros fuel. apply K.
Qed.
